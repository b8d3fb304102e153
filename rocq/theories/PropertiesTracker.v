(** C37: best-score tracking (performance_tracker.py) and the best checkpoint of a run
    (image_classifier.py). *)
From Coq Require Import String List ZArith QArith Bool Arith Lia Lqa Sorted Permutation.
From Verif Require Import Base SchedModel AppModel AppSpec.
Import ListNotations.
Open Scope Q_scope.

Lemma Qltb_spec' x y : (Qltb x y = true /\ x < y) \/ (Qltb x y = false /\ y <= x).
Proof. destruct (Qltb x y) eqn:E; [left|right]; split; auto; [apply Qltb_lt|apply Qltb_ge]; auto. Qed.

Lemma key_lt_iff a b : key_lt a b = true <-> worse a b.
Proof.
  unfold key_lt, worse, worse_result.
  destruct (Z.ltb_spec (- sc_nnz a) (- sc_nnz b)) as [H|H].
  { split; [intros _; left; left; lia|reflexivity]. }
  destruct (Z.ltb_spec (- sc_nnz b) (- sc_nnz a)) as [H'|H'].
  { split; [discriminate|]. intros [[K|[K _]]|[K _]]; lia. }
  assert (E : sc_nnz a = sc_nnz b) by lia.
  destruct (Qltb_spec' (sc_top1 a) (sc_top1 b)) as [[-> H1]|[-> H1]].
  { split; [intros _; left; right; auto|reflexivity]. }
  destruct (Qltb_spec' (sc_top1 b) (sc_top1 a)) as [[-> H2]|[-> H2]].
  { split; [discriminate|]. intros [[K|[_ [K|[K _]]]]|[_ [K _]]]; exfalso; [lia|lra|lra|lra]. }
  destruct (Qltb_spec' (sc_top5 a) (sc_top5 b)) as [[-> H3]|[-> H3]].
  { split; [intros _; left; right; split; auto; right; split; auto; lra|reflexivity]. }
  destruct (Qltb_spec' (sc_top5 b) (sc_top5 a)) as [[-> H4]|[-> H4]].
  { split; [discriminate|]. intros [[K|[_ [K|[_ K]]]]|[_ [_ [K _]]]]; exfalso; [lia|lra|lra|lra]. }
  split.
  - intro K. apply Z.ltb_lt in K. right. repeat split; auto; lra.
  - intros [[K|[_ [K|[_ K]]]]|[_ [_ [_ K]]]]; [lia|lra|lra|]. apply Z.ltb_lt; auto.
Qed.
Lemma key_lt_false a b : key_lt a b = false <-> ~ worse a b.
Proof. rewrite <- key_lt_iff. destruct (key_lt a b); split; congruence. Qed.

Lemma worse_trans a b c : worse a b -> worse b c -> worse a c.
Proof.
  unfold worse, worse_result.
  intros [[A|[A [A1|[A1 A2]]]]|[A [A1 [A2 A3]]]] [[B|[B [B1|[B1 B2]]]]|[B [B1 [B2 B3]]]];
    try (left; left; lia);
    try (left; right; split; [lia|]; left; lra);
    try (left; right; split; [lia|]; right; split; lra);
    right; repeat split; try lia; lra.
Qed.
Lemma worse_asym a b : worse a b -> ~ worse b a.
Proof.
  unfold worse, worse_result.
  intros [[A|[A [A1|[A1 A2]]]]|[A [A1 [A2 A3]]]] [[B|[B [B1|[B1 B2]]]]|[B [B1 [B2 B3]]]]; try lia; try lra.
Qed.
Lemma worse_total a b c : ~ worse a b -> ~ worse b c -> ~ worse a c.
Proof.
  intros H1 H2 H3. apply H1. clear H1. revert H2 H3.
  unfold worse, worse_result.
  destruct (Z_lt_le_dec (sc_nnz b) (sc_nnz a)); [tauto|].
  destruct (Z_lt_le_dec (sc_nnz a) (sc_nnz b)).
  { intros H2 H3. exfalso. apply H2. left. left. intuition lia. }
  assert (E : sc_nnz a = sc_nnz b) by lia.
  destruct (Qlt_le_dec (sc_top1 a) (sc_top1 b)); [tauto|].
  destruct (Qlt_le_dec (sc_top1 b) (sc_top1 a)).
  { intros H2 H3. exfalso. apply H2. left.
    destruct H3 as [[K|[K [K1|[K1 K2]]]]|[K [K1 _]]]; [left; lia|right|right|right]; split; try lia; left; lra. }
  assert (E1 : sc_top1 a == sc_top1 b) by lra.
  destruct (Qlt_le_dec (sc_top5 a) (sc_top5 b)); [tauto|].
  destruct (Qlt_le_dec (sc_top5 b) (sc_top5 a)).
  { intros H2 H3. exfalso. apply H2. left.
    destruct H3 as [[K|[K [K1|[K1 K2]]]]|[K [K1 [K2 _]]]]; [left; lia|right|right|right];
      (split; [lia|]); [left|right|right]; try split; lra. }
  assert (E2 : sc_top5 a == sc_top5 b) by lra.
  destruct (Z_lt_le_dec (sc_epoch a) (sc_epoch b)); [tauto|].
  intros H2 H3. exfalso. apply H2.
  destruct H3 as [[K|[K [K1|[K1 K2]]]]|[K [K1 [K2 K3]]]].
  - left; left; lia.
  - left; right; split; [lia|]. left; lra.
  - left; right; split; [lia|]. right; split; lra.
  - right. repeat split; try lia; lra.
Qed.

(** sorted, best first *)
Definition best_first (l : list score) : Prop := StronglySorted (fun a b => ~ worse a b) l.

Lemma ins_desc_perm s l : Permutation (ins_desc s l) (s :: l).
Proof.
  induction l as [|x l IH]; simpl; auto. destruct (key_lt s x); auto.
  rewrite IH. apply perm_swap.
Qed.
Lemma sort_desc_perm l : Permutation (sort_desc l) l.
Proof. induction l as [|x l IH]; simpl; auto. rewrite ins_desc_perm, IH. auto. Qed.
Lemma ins_desc_sorted s l : best_first l -> best_first (ins_desc s l).
Proof.
  unfold best_first. intro H. induction H as [|x l Hs IH Hf]; simpl; [repeat constructor|].
  destruct (key_lt s x) eqn:E.
  - constructor; auto. rewrite ins_desc_perm. constructor; auto.
    apply worse_asym. apply key_lt_iff; auto.
  - constructor; [constructor; auto|]. apply key_lt_false in E. constructor; auto.
    revert Hf. apply Forall_impl. intros y Hy. eapply worse_total; eauto.
Qed.
Lemma sort_desc_sorted l : best_first (sort_desc l).
Proof. induction l as [|x l IH]; simpl; [constructor|]. apply ins_desc_sorted; auto. Qed.

(** one step() per recorded score *)
Definition tracker_run (recorded : list score) (h : list score) : res (list score) :=
  foldM (fun h r => tracker_step (sc_nnz r) (sc_sparsity r) (sc_epoch r) (Some (sc_top1 r)) (Some (sc_top5 r)) h) recorded h.

Lemma tracker_run_perm rs : forall h0, exists h, tracker_run rs h0 = Ok h /\ Permutation h (h0 ++ rs) /\ (best_first h0 -> best_first h).
Proof.
  induction rs as [|r rs IH]; intro h0.
  - exists h0. rewrite app_nil_r. repeat split; auto.
  - change (tracker_run (r :: rs) h0) with
      (tracker_run rs (sort_desc (h0 ++ [mkScore (sc_nnz r) (sc_sparsity r) (sc_top1 r) (sc_top5 r) (sc_epoch r)]))).
    replace (mkScore (sc_nnz r) (sc_sparsity r) (sc_top1 r) (sc_top5 r) (sc_epoch r)) with r by (destruct r; reflexivity).
    destruct (IH (sort_desc (h0 ++ [r]))) as (h & H1 & H2 & H3). exists h. split; auto. split.
    + rewrite H2, sort_desc_perm, <- app_assoc. reflexivity.
    + intros _. apply H3. apply sort_desc_sorted.
Qed.

(** C37: after any history of steps, no score is lost, invented or changed, and the history is
    sorted best first. *)
Theorem C37_history : forall recorded : list score,
  exists h, tracker_run recorded [] = Ok h /\ Permutation h recorded /\ best_first h.
Proof.
  intro rs. destruct (tracker_run_perm rs []) as (h & H1 & H2 & H3). exists h. repeat split; auto. apply H3. constructor.
Qed.

Lemma sorted_app (l1 l2 : list score) : best_first (l1 ++ l2) -> forall x y, In x l1 -> In y l2 -> ~ worse x y.
Proof.
  unfold best_first. induction l1 as [|a l1 IH]; simpl; intros H x y Hx Hy; [tauto|].
  inversion H as [|? ? H1 H2]; subst. destruct Hx as [->|Hx]; auto.
  rewrite Forall_forall in H2. apply H2. apply in_or_app; auto.
Qed.

(** C37: best_scores(how_many) after any history: the requested number of scores (all of
    num_best_scores when how_many < 1; never more than num_best_scores, nor than were recorded),
    sorted best first, and no score left out is better than one returned. *)
Theorem C37_best_scores : forall recorded num_best_scores how_many h,
  (0 <= num_best_scores)%Z -> tracker_run recorded [] = Ok h ->
  let asked := if Z.ltb how_many 1 then num_best_scores else Z.min how_many num_best_scores in
  exists rest,
    let best := best_scores num_best_scores how_many h in
    Permutation (best ++ rest) recorded /\ best_first best /\
    (forall b r, In b best -> In r rest -> ~ worse b r) /\
    Z.of_nat (length best) = Z.min asked (Z.of_nat (length recorded)).
Proof.
  intros rs n k h Hn Hrun asked. destruct (C37_history rs) as (h' & H1 & H2 & H3).
  rewrite Hrun in H1. injection H1 as <-.
  assert (Hm : Z.min (if Z.ltb k 1 then n else k) n = asked).
  { unfold asked. destruct (Z.ltb_spec k 1); lia. }
  assert (Hpos : (0 <= asked)%Z). { unfold asked. destruct (Z.ltb_spec k 1); lia. }
  unfold best_scores. rewrite Hm. unfold py_take. destruct (Z.ltb_spec asked 0); [lia|].
  set (m := Z.to_nat asked). exists (skipn m h). simpl. rewrite firstn_skipn. split; auto. split; [|split].
  - clear - H3. revert h H3. induction m as [|m IH]; intros h H; [constructor|].
    destruct h as [|x h]; simpl; [constructor|]. inversion H as [|? ? Ha Hb]; subst. constructor; [apply IH; auto|].
    rewrite Forall_forall in *. intros y Hy. apply Hb. rewrite <- (firstn_skipn m h). apply in_or_app; auto.
  - apply sorted_app. rewrite firstn_skipn. auto.
  - rewrite firstn_length, (Permutation_length H2). unfold m. lia.
Qed.

(** C37: a missing top1 or top5 raises AssertionError. *)
Theorem C37_missing_score : forall nnz sp epoch top1 top5 h,
  top1 = None \/ top5 = None -> tracker_step nnz sp epoch top1 top5 h = Raise AssertionError.
Proof. intros nnz sp e t1 t5 h [->| ->]; [|destruct t1]; reflexivity. Qed.

Example tracker_case :
  tracker_run [mkScore 10 0 50 70 0; mkScore 8 0 40 60 1; mkScore 8 0 45 60 2; mkScore 8 0 45 60 3] [] =
    Ok [mkScore 8 0 45 60 3; mkScore 8 0 45 60 2; mkScore 8 0 40 60 1; mkScore 10 0 50 70 0].
Proof. reflexivity. Qed.

(* ------------------------------------------------------------------------- *)
(** ** The best checkpoint of a training run *)
Section Best.
Context {PS : Type}.
Variables (tbl : nat -> policy PS) (lossf : Z -> nat -> dict tensor -> Q)
  (updf : Z -> nat -> Q -> dict tensor -> string -> tensor -> tensor)
  (accf : Z -> dict tensor -> Q * Q) (statsf : dict tensor -> Z * Q).

(** the result an epoch is judged by: accuracy measured in validation, size of the saved model *)
Definition epoch_score (e : Z) (w : world PS) (acc : Q * Q) : score :=
  mkScore (fst (statsf (w_params w))) (snd (statsf (w_params w))) (fst acc) (snd acc) e.

Lemma finalize_ok max_len e w acc f : (1 <= max_len)%Z ->
  exists f', finalize_epoch statsf max_len e w acc f = Ok f' /\
    fl_history f' = sort_desc (fl_history f ++ [epoch_score e w acc]) /\
    fl_last f' = Some (e, w) /\
    fl_best f' = (if Z.eqb e (sc_epoch (hd (epoch_score e w acc) (fl_history f'))) then Some (e, w) else fl_best f).
Proof.
  intro Hm. unfold finalize_epoch. destruct (statsf (w_params w)) as [nnz sp] eqn:E. cbn [tracker_step bind].
  assert (Hs : epoch_score e w acc = mkScore nnz sp (fst acc) (snd acc) e) by (unfold epoch_score; rewrite E; reflexivity).
  rewrite <- Hs. set (h := sort_desc (fl_history f ++ [epoch_score e w acc])).
  assert (Hlen : length h <> 0%nat).
  { unfold h. rewrite (Permutation_length (sort_desc_perm _)), app_length. simpl. lia. }
  assert (Hb : best_scores max_len 1 h = firstn 1 h).
  { unfold best_scores. change (Z.ltb 1 1) with false. cbv iota zeta. rewrite Z.min_l by lia. reflexivity. }
  rewrite Hb. destruct h as [|x h'] eqn:Eh; [simpl in Hlen; lia|]. simpl. eexists; split; [reflexivity|]. simpl. auto.
Qed.

(** C37: is_best.  When the epochs already recorded are earlier ones, an epoch's checkpoint
    becomes the best checkpoint exactly when no recorded result is strictly better in
    (non-zero weights, top1, top5): ties go to the latest epoch. *)
Theorem C37_is_best : forall max_len e (w : world PS) acc recorded h best last f',
  (1 <= max_len)%Z -> tracker_run recorded [] = Ok h -> Forall (fun r => (sc_epoch r < e)%Z) recorded ->
  finalize_epoch statsf max_len e w acc (mkFiles last best h) = Ok f' ->
  fl_last f' = Some (e, w) /\
  (Forall (fun r => ~ worse_result (epoch_score e w acc) r) recorded -> fl_best f' = Some (e, w)) /\
  (Exists (fun r => worse_result (epoch_score e w acc) r) recorded -> fl_best f' = best).
Proof.
  intros max_len e w acc rs h best last f' Hm Hrun He H.
  destruct (C37_history rs) as (h' & H1 & Hp & _). rewrite Hrun in H1. injection H1 as <-.
  destruct (finalize_ok max_len e w acc (mkFiles last best h) Hm) as (g & G1 & G2 & G3 & G4).
  rewrite H in G1. injection G1 as <-. simpl in G2, G4. split; auto.
  set (s := epoch_score e w acc) in *.
  assert (Hperm : Permutation (fl_history f') (rs ++ [s])).
  { rewrite G2, sort_desc_perm, Hp. reflexivity. }
  assert (Hsorted : best_first (fl_history f')) by (rewrite G2; apply sort_desc_sorted).
  destruct (fl_history f') as [|b t]; [apply Permutation_nil in Hperm; destruct rs; discriminate|].
  simpl in G4. inversion Hsorted as [|? ? Hs1 Hs2]; subst.
  assert (Hin : forall x, In x (rs ++ [s]) -> x = b \/ ~ worse b x).
  { intros x Hx. apply (Permutation_in _ (Permutation_sym Hperm)) in Hx. destruct Hx as [->|Hx]; auto.
    right. rewrite Forall_forall in Hs2. auto. }
  assert (Hb : In b (rs ++ [s])) by (apply (Permutation_in _ Hperm); left; auto).
  split; intro Hr.
  - rewrite G4. replace (Z.eqb e (sc_epoch b)) with true; auto. symmetry. apply Z.eqb_eq.
    apply in_app_or in Hb. destruct Hb as [Hb|[<-|[]]]; [|reflexivity].
    exfalso. rewrite Forall_forall in Hr, He. specialize (Hr b Hb). specialize (He b Hb).
    destruct (Hin s (in_or_app rs [s] s (or_intror (in_eq s [])))) as [E|Hw].
    + rewrite <- E in He. unfold s, epoch_score in He. simpl in He. lia.
    + apply Hw. clear - Hr Hw He. unfold worse, worse_result in *.
      assert (Hne : (sc_nnz b <= sc_nnz s \/ sc_nnz s < sc_nnz b)%Z) by lia.
      destruct Hne as [Hne|Hne]; [|left; left; lia].
      destruct (Z.eq_dec (sc_nnz b) (sc_nnz s)) as [E|E]; [|exfalso; apply Hr; left; lia].
      destruct (Qlt_le_dec (sc_top1 b) (sc_top1 s)); [left; right; split; auto|].
      destruct (Qlt_le_dec (sc_top1 s) (sc_top1 b)); [exfalso; apply Hr; right; split; [lia|left; lra]|].
      destruct (Qlt_le_dec (sc_top5 b) (sc_top5 s)); [left; right; split; auto; right; split; lra|].
      destruct (Qlt_le_dec (sc_top5 s) (sc_top5 b)); [exfalso; apply Hr; right; split; [lia|right; split; lra]|].
      right. split; auto. split; [lra|]. split; [lra|]. unfold s, epoch_score. simpl. lia.
  - rewrite G4. destruct (Z.eqb_spec e (sc_epoch b)) as [E|E]; auto. exfalso.
    apply in_app_or in Hb. destruct Hb as [Hb|[<-|[]]].
    + rewrite Forall_forall in He. specialize (He b Hb). lia.
    + apply Exists_exists in Hr. destruct Hr as (r & Hr1 & Hr2).
      destruct (Hin r (in_or_app _ _ _ (or_introl Hr1))) as [E'|Hw].
      * rewrite Forall_forall in He. specialize (He r Hr1). subst r. lia.
      * apply Hw. left. auto.
Qed.

(** the epochs of a run, one after the other: [trace] lists (epoch, state saved, accuracy) *)
Fixpoint run_trace (draw : Z -> list nat) (b : nat) (es : list Z) (w : world PS)
    (trace : list (Z * world PS * (Q * Q))) : Prop :=
  match es, trace with
  | [], [] => True
  | e :: es, (e', w', acc) :: tr =>
      e' = e /\ train_validate tbl lossf updf accf (draw e) b e w = Ok (w', acc) /\ run_trace draw b es w' tr
  | _, _ => False
  end.
Definition score_of (x : Z * world PS * (Q * Q)) : score := let '(e, w, acc) := x in epoch_score e w acc.

Definition loop_body draw b max_len := (fun (st : world PS * files) e =>
   do r <- train_validate tbl lossf updf accf (draw e) b e (fst st);
   do f' <- finalize_epoch statsf max_len e (fst r) (snd r) (snd st); Ok (fst r, f')).

Lemma loop_invariant draw b max_len es : (1 <= max_len)%Z -> forall seen w f w' f',
  StronglySorted Z.lt (map (fun x => fst (fst x)) seen ++ es) ->
  Permutation (fl_history f) (map score_of seen) -> best_first (fl_history f) ->
  (forall x, hd_error (fl_history f) = Some x -> exists y, In y seen /\ x = score_of y /\ fl_best f = Some (fst y)) ->
  (seen <> [] -> exists y, hd_error (rev seen) = Some y /\ fl_last f = Some (fst y)) ->
  foldM (loop_body draw b max_len) es (w, f) = Ok (w', f') ->
  exists tr, run_trace draw b es w tr /\
    Permutation (fl_history f') (map score_of (seen ++ tr)) /\ best_first (fl_history f') /\
    (forall x, hd_error (fl_history f') = Some x -> exists y, In y (seen ++ tr) /\ x = score_of y /\ fl_best f' = Some (fst y)) /\
    (seen ++ tr <> [] -> exists y, hd_error (rev (seen ++ tr)) = Some y /\ fl_last f' = Some (fst y)) /\
    w' = last (map (fun x => snd (fst x)) tr) w.
Proof.
  intro Hm. induction es as [|e es IH]; intros seen w f w' f' Hsort Hp Hs Hb Hl H.
  - simpl in H. injection H as <- <-. exists []. rewrite app_nil_r. simpl. repeat split; auto.
  - simpl in H. unfold loop_body at 1 in H. cbn [fst snd] in H.
    destruct (train_validate tbl lossf updf accf (draw e) b e w) as [(w1, acc)|] eqn:Etv; [|discriminate].
    cbn [bind fst snd] in H.
    destruct (finalize_ok max_len e w1 acc f Hm) as (f1 & F1 & F2 & F3 & F4). rewrite F1 in H. cbn [bind] in H.
    assert (Hs1 : best_first (fl_history f1)) by (rewrite F2; apply sort_desc_sorted).
    assert (Hp1 : Permutation (fl_history f1) (map score_of (seen ++ [(e, w1, acc)]))).
    { rewrite F2, sort_desc_perm, Hp, map_app. reflexivity. }
    assert (Hlt : forall y, In y seen -> (fst (fst y) < e)%Z).
    { intros y Hy. clear - Hsort Hy. induction seen as [|z seen IH]; [destruct Hy|]. simpl in Hsort.
      inversion Hsort as [|? ? S1 S2]; subst. destruct Hy as [->|Hy]; auto.
      rewrite Forall_forall in S2. apply S2. apply in_or_app. right. left. auto. }
    destruct (IH (seen ++ [(e, w1, acc)]) w1 f1 w' f') as (tr & T1 & T2 & T3 & T4 & T5 & T6); auto.
    + rewrite map_app. simpl. rewrite <- app_assoc. exact Hsort.
    + intros x Hx. destruct (fl_history f1) as [|x0 t] eqn:Eh; [discriminate|]. simpl in Hx. injection Hx as ->.
      simpl in F4. destruct (Z.eqb_spec e (sc_epoch x)) as [E|E].
      * exists (e, w1, acc). split; [apply in_or_app; right; left; auto|]. split; auto.
        assert (Hin : In x (map score_of (seen ++ [(e, w1, acc)]))) by (apply (Permutation_in _ Hp1); left; auto).
        apply in_map_iff in Hin. destruct Hin as (y & Hy1 & Hy2). apply in_app_or in Hy2.
        destruct Hy2 as [Hy2|[<-|[]]]; auto. exfalso. specialize (Hlt y Hy2).
        destruct y as ((ey, wy), ay). simpl in Hlt, Hy1. rewrite <- Hy1 in E. simpl in E. lia.
      * assert (Hin : In x (map score_of (seen ++ [(e, w1, acc)]))) by (apply (Permutation_in _ Hp1); left; auto).
        rewrite map_app in Hin. apply in_app_or in Hin. destruct Hin as [Hin|[Hin|[]]].
        2:{ exfalso. apply E. rewrite <- Hin. reflexivity. }
        (* the best one is an old one: it was the head before *)
        assert (Hold : In x (fl_history f)) by (apply (Permutation_in _ (Permutation_sym Hp)); auto).
        destruct (fl_history f) as [|z rest] eqn:Ef; [destruct Hold|].
        destruct (Hb z eq_refl) as (y & Y1 & Y2 & Y3).
        assert (Hzx : z = x).
        { destruct Hold as [->|Hold]; auto.
          inversion Hs as [|? ? S1 S2]; subst. rewrite Forall_forall in S2. specialize (S2 x Hold).
          assert (Hz : In (score_of y) (x :: t)).
          { apply (Permutation_in _ (Permutation_sym Hp1)). rewrite map_app. apply in_or_app. left. apply in_map. auto. }
          destruct Hz as [Hz|Hz]; auto. inversion Hs1 as [|? ? S3 S4]; subst. rewrite Forall_forall in S4.
          specialize (S4 _ Hz).
          (* x and score_of y are not worse than each other: same epoch, hence the same entry *)
          assert (Hep : sc_epoch (score_of y) = sc_epoch x).
          { destruct (Z.lt_trichotomy (sc_epoch x) (sc_epoch (score_of y))) as [L|[L|L]]; auto; exfalso.
            - clear - S2 S4 L. unfold worse, worse_result in *.
              destruct (Z.lt_trichotomy (sc_nnz x) (sc_nnz (score_of y))) as [N|[N|N]]; [tauto| |tauto].
              destruct (Qlt_le_dec (sc_top1 x) (sc_top1 (score_of y))); [tauto|].
              destruct (Qlt_le_dec (sc_top1 (score_of y)) (sc_top1 x)); [symmetry in N; tauto|].
              assert (Q1 : sc_top1 x == sc_top1 (score_of y)) by lra.
              destruct (Qlt_le_dec (sc_top5 x) (sc_top5 (score_of y))); [tauto|].
              assert (Q1' : sc_top1 (score_of y) == sc_top1 x) by lra.
              destruct (Qlt_le_dec (sc_top5 (score_of y)) (sc_top5 x)); [symmetry in N; tauto|].
              assert (Q2 : sc_top5 x == sc_top5 (score_of y)) by lra. tauto.
            - clear - S2 S4 L. unfold worse, worse_result in *.
              destruct (Z.lt_trichotomy (sc_nnz x) (sc_nnz (score_of y))) as [N|[N|N]]; [tauto| |tauto].
              symmetry in N.
              destruct (Qlt_le_dec (sc_top1 x) (sc_top1 (score_of y))); [symmetry in N; tauto|].
              destruct (Qlt_le_dec (sc_top1 (score_of y)) (sc_top1 x)); [tauto|].
              assert (Q1 : sc_top1 (score_of y) == sc_top1 x) by lra.
              assert (Q1' : sc_top1 x == sc_top1 (score_of y)) by lra.
              destruct (Qlt_le_dec (sc_top5 x) (sc_top5 (score_of y))); [symmetry in N; tauto|].
              destruct (Qlt_le_dec (sc_top5 (score_of y)) (sc_top5 x)); [tauto|].
              assert (Q2 : sc_top5 (score_of y) == sc_top5 x) by lra. tauto. }
          apply in_map_iff in Hin. destruct Hin as (x' & X1 & X2).
          assert (Hnd : forall a c, In a seen -> In c seen -> fst (fst a) = fst (fst c) -> a = c).
          { clear - Hsort. induction seen as [|q seen IH]; intros a c Ha Hc Hac; [destruct Ha|].
            simpl in Hsort. inversion Hsort as [|? ? S1 S2]; subst. rewrite Forall_forall in S2.
            assert (Hlt : forall d, In d seen -> (fst (fst q) < fst (fst d))%Z).
            { intros d Hd. apply S2. apply in_or_app. left. apply (in_map (fun x => fst (fst x))) in Hd. exact Hd. }
            destruct Ha as [->|Ha], Hc as [->|Hc]; auto.
            - specialize (Hlt c Hc). lia.
            - specialize (Hlt a Ha). lia. }
          rewrite <- X1. f_equal. apply Hnd; auto.
          destruct y as ((ey, wy), ay), x' as ((ex, wx), ax). subst x. simpl in Hep |- *. auto. }
        subst z. exists y. split; [apply in_or_app; auto|]. split; auto. congruence.
    + intros _. exists (e, w1, acc). rewrite rev_app_distr. simpl. auto.
    + exists ((e, w1, acc) :: tr). rewrite <- app_assoc in T2, T4, T5. simpl in T2, T4, T5.
      split; [simpl; auto|]. split; auto. split; auto. split; auto. split; auto.
      rewrite T6. simpl. clear. revert w1. induction tr as [|x tr IH]; intro w1; auto. simpl.
      destruct tr; auto. simpl in IH |- *. rewrite (IH w1). symmetry. apply (IH w).
Qed.

Lemma epochs_sorted start stop : StronglySorted Z.lt (epochs_from start stop).
Proof.
  unfold epochs_from. generalize 0%nat as k. generalize (Z.to_nat (stop - start)) as n.
  induction n as [|n IH]; intro k; simpl; constructor; auto.
  rewrite Forall_forall. intros x Hx. apply in_map_iff in Hx. destruct Hx as (i & <- & Hi). apply in_seq in Hi. lia.
Qed.

(** C37: the checkpoint files after a complete run: the latest checkpoint is the state of the last
    epoch, and best.pth.tar is the state saved by an epoch of this run whose result no epoch of the
    run beats (the latest such epoch). *)
Theorem C37_best_checkpoint : forall draw b max_len start stop w f w' f',
  (1 <= max_len)%Z ->
  run_training_loop tbl lossf updf accf statsf draw b max_len start stop w f = Ok (w', f') ->
  exists trace,
    run_trace draw b (epochs_from start stop) w trace /\
    (exists acc, hd_error (rev trace) = Some ((stop - 1)%Z, w', acc) /\ fl_last f' = Some ((stop - 1)%Z, w')) /\
    exists e wb acc, In (e, wb, acc) trace /\ fl_best f' = Some (e, wb) /\
      forall x, In x trace -> ~ worse (epoch_score e wb acc) (score_of x).
Proof.
  intros draw b max_len start stop w f w' f' Hm H. unfold run_training_loop in H.
  destruct (Z.leb_spec stop start) as [|Hss]; [discriminate|].
  destruct (loop_invariant draw b max_len (epochs_from start stop) Hm [] w (mkFiles (fl_last f) (fl_best f) []) w' f')
    as (tr & T1 & T2 & T3 & T4 & T5 & T6); auto; try (simpl; auto; fail).
  - simpl. apply epochs_sorted.
  - constructor.
  - simpl. discriminate.
  - intro Hc. exfalso. apply Hc. reflexivity.
  - simpl in T2, T4, T5. exists tr. split; auto.
    assert (Hes : epochs_from start stop = epochs_from start (stop - 1) ++ [(stop - 1)%Z]).
    { unfold epochs_from. replace (Z.to_nat (stop - start)) with (Z.to_nat (stop - 1 - start) + 1)%nat by lia.
      rewrite seq_app, map_app. cbn [map seq Nat.add]. f_equal. apply (f_equal (fun x => [x])). lia. }
    assert (Hlast : forall es z w0 tr, run_trace draw b (es ++ [z]) w0 tr ->
              exists tr0 wz az, tr = tr0 ++ [(z, wz, az)]).
    { clear. induction es as [|e es IH]; intros z w0 tr Ht; destruct tr as [|((e1, w1), a1) tr]; simpl in Ht; try tauto.
      - destruct Ht as (-> & _ & Ht). destruct tr; [|destruct Ht]. exists [], w1, a1. reflexivity.
      - destruct Ht as (_ & _ & Ht). destruct (IH z w1 tr Ht) as (t0 & wz & az & ->).
        exists ((e1, w1, a1) :: t0), wz, az. reflexivity. }
    rewrite Hes in T1. destruct (Hlast _ _ _ _ T1) as (t0 & wz & az & ->).
    split.
    + exists az. rewrite rev_app_distr. simpl. rewrite map_app in T6. simpl in T6. rewrite last_last in T6. subst wz.
      split; auto. destruct T5 as (y & Y1 & Y2); [destruct t0; discriminate|].
      rewrite rev_app_distr in Y1. simpl in Y1. injection Y1 as <-. exact Y2.
    + destruct (fl_history f') as [|s t] eqn:Eh.
      { apply Permutation_nil in T2. destruct t0; discriminate. }
      destruct (T4 s eq_refl) as (((e, wb), acc) & Y1 & Y2 & Y3). exists e, wb, acc. split; auto. split; auto.
      intros x Hx. simpl in Y2. rewrite <- Y2.
      assert (Hin : In (score_of x) (s :: t)) by (apply (Permutation_in _ (Permutation_sym T2)); apply in_map; auto).
      destruct Hin as [Hin|Hin].
      * rewrite <- Hin. intro Hw. apply (worse_asym _ _ Hw Hw).
      * inversion T3 as [|? ? S1 S2]; subst. rewrite Forall_forall in S2. auto.
Qed.

(** C37: nothing to do raises ValueError. *)
Theorem C37_no_epochs : forall draw b max_len start stop w f,
  (stop <= start)%Z -> run_training_loop tbl lossf updf accf statsf draw b max_len start stop w f = Raise ValueError.
Proof. intros. unfold run_training_loop. destruct (Z.leb_spec stop start); auto; lia. Qed.

(** C37 (finding): num_best_scores = 0 makes every run fail with IndexError at the end of its first
    epoch, after training it and before any checkpoint is saved. *)
Theorem C37_num_best_scores_zero_refuted : forall draw b start stop (w : world PS) f r,
  (start < stop)%Z -> train_validate tbl lossf updf accf (draw start) b start w = Ok r ->
  run_training_loop tbl lossf updf accf statsf draw b 0 start stop w f = Raise IndexError.
Proof.
  intros draw b start stop w f r Hs Ht. unfold run_training_loop. destruct (Z.leb_spec stop start); [lia|].
  unfold epochs_from. destruct (Z.to_nat (stop - start)) eqn:E; [lia|]. simpl. rewrite Z.add_0_r, Ht. simpl.
  unfold finalize_epoch. destruct (statsf (w_params (fst r))). reflexivity.
Qed.

(** C37 (finding): the tracker is reset at the start of a run, so a resumed run replaces the best
    checkpoint by its own first epoch, however much worse that is. *)
Theorem C37_resume_overwrites_best_refuted : forall draw b max_len start stop w f w' f',
  (1 <= max_len)%Z ->
  run_training_loop tbl lossf updf accf statsf draw b max_len start stop w f = Ok (w', f') ->
  forall e wb, fl_best f' = Some (e, wb) -> (start <= e < stop)%Z.
Proof.
  intros draw b max_len start stop w f w' f' Hm H e wb Hb.
  destruct (C37_best_checkpoint _ _ _ _ _ _ _ _ _ Hm H) as (tr & T1 & _ & e' & wb' & acc & T2 & T3 & _).
  rewrite Hb in T3. injection T3 as -> ->.
  assert (Hin : forall es w0 tr x, run_trace draw b es w0 tr -> In x tr -> In (fst (fst x)) es).
  { clear. induction es as [|z es IH]; intros w0 tr x Ht Hx; destruct tr as [|((e1, w1), a1) tr]; simpl in Ht; try tauto.
    - destruct Ht as (-> & _ & Ht). destruct Hx as [<-|Hx]; [left; auto|]. right. eapply IH; eauto. }
  specialize (Hin _ _ _ _ T1 T2). simpl in Hin. unfold epochs_from in Hin. apply in_map_iff in Hin.
  destruct Hin as (i & Hi1 & Hi2). apply in_seq in Hi2. lia.
Qed.
End Best.

Print Assumptions C37_history.
Print Assumptions C37_best_scores.
Print Assumptions C37_missing_score.
Print Assumptions C37_is_best.
Print Assumptions C37_best_checkpoint.
Print Assumptions C37_no_epochs.
Print Assumptions C37_num_best_scores_zero_refuted.
Print Assumptions C37_resume_overwrites_best_refuted.
