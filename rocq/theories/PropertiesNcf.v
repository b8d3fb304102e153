(** C118: the NCF example: evaluation, training data, split, best model. *)
From Coq Require Import List Arith Bool Lia QArith Lqa Permutation Sorted.
From Verif Require Import Base NcfModel NcfSpec NcfProofs.
Import ListNotations.
Open Scope list_scope.
Open Scope nat_scope.

(** * Evaluation *)

(** the predictions do not depend on how they are split into batches *)
Theorem C118_predict : forall score net bs us is, pointwise score net -> 0 < bs -> length us = length is ->
  predict net us is bs = map (fun p => score (fst p) (snd p)) (combine us is).
Proof. intros. apply predict_map; auto. Qed.

(** whatever the network: each item is ranked once, with the score of its last place in the list *)
Lemma sset_in d k v : NoDup (map fst d) -> NoDup (map fst (sset d k v)) /\ forall i x, In (i, x) (sset d k v) <-> (i = k /\ x = v) \/ (i <> k /\ In (i, x) d).
Proof.
  induction d as [|(j, u) d IH]; intro N; cbn [sset].
  - split; [repeat constructor; intros []|]. intros i x. cbn. split; [intros [E|[]]; injection E as <- <-; auto|intros [[-> ->]|[_ []]]; auto].
  - inversion N as [|? ? Hj Hd]; subst. destruct (Nat.eqb_spec k j) as [->|Ne]; cbn [map fst].
    + split; [exact N|]. intros i x. cbn [In]. split.
      * intros [E|I]; [injection E as <- <-; auto|]. right. split; [|auto]. intros ->. apply Hj, in_map_iff. exists (j, x). auto.
      * intros [[-> ->]|[A [E|I]]]; [auto|injection E as <- <-; congruence|auto].
    + destruct (IH Hd) as [A B]. split.
      * constructor; [|exact A]. intro I. apply in_map_iff in I. destruct I as ((i, x) & E & I). cbn in E. subst i. apply B in I. destruct I as [[-> _]|[_ I]]; [congruence|].
        apply Hj, in_map_iff. exists (j, x). auto.
      * intros i x. cbn [In]. rewrite B. split; [intros [E|[X|X]]; [injection E as <- <-|..]; tauto || auto|intros [X|[X [E|I]]]; tauto].
Qed.
Theorem C118_item_score : forall items preds, length items = length preds -> NoDup (map fst (item_score items preds)) /\
  forall i v, In (i, v) (item_score items preds) <->
    exists k, nth_error items k = Some i /\ nth_error preds k = Some v /\ forall k', k < k' -> nth_error items k' <> Some i.
Proof.
  induction items as [|x items IH] using rev_ind; intros preds Hl.
  - destruct preds; [|discriminate]. split; [constructor|]. intros i v. cbn. split; [intros []|intros (k & E & _); destruct k; discriminate].
  - destruct preds as [|y preds _] using rev_ind; [rewrite app_length in Hl; cbn in Hl; lia|]. rewrite !app_length in Hl. cbn [length] in Hl.
    assert (L : length items = length preds) by lia. unfold item_score.
    assert (combine (items ++ [x]) (preds ++ [y]) = combine items preds ++ [(x, y)]) as ->.
    { clear - L. revert preds L. induction items as [|a l IH]; intros [|b m] H; try discriminate; [reflexivity|]. cbn. f_equal. apply IH. cbn in H. lia. }
    rewrite fold_left_app. cbn [fold_left fst snd]. fold (item_score items preds). destruct (IH preds L) as [N I]. destruct (sset_in _ x y N) as [N' I'].
    split; [exact N'|]. intros i v. rewrite I', I. split.
    + intros [[-> ->]|[Ne (k & A & B & C)]].
      * exists (length items). split; [rewrite nth_error_app2, Nat.sub_diag by lia; reflexivity|]. split; [rewrite L, nth_error_app2, Nat.sub_diag by lia; reflexivity|].
        intros k' Hk. rewrite (proj2 (nth_error_None _ _)); [discriminate|]. rewrite app_length. cbn. lia.
      * assert (k < length items) as Lk by (apply nth_error_Some; congruence). exists k. rewrite !nth_error_app1 by lia. split; [exact A|]. split; [exact B|]. intros k' Hk E.
        destruct (Nat.lt_ge_cases k' (length items)) as [J|J]; [rewrite nth_error_app1 in E by auto; apply (C k'); auto|].
        rewrite nth_error_app2 in E by auto. destruct (k' - length items) as [|z]; cbn in E; [congruence|destruct z; discriminate].
    + intros (k & A & B & C). destruct (Nat.eq_dec i x) as [->|Ne].
      * left. split; [reflexivity|]. assert (k = length items) as ->.
        { destruct (Nat.lt_trichotomy k (length items)) as [J|[J|J]]; [|auto|].
          - exfalso. apply (C (length items) J). rewrite nth_error_app2, Nat.sub_diag by lia. reflexivity.
          - exfalso. rewrite (proj2 (nth_error_None _ _)) in A; [discriminate|]. rewrite app_length. cbn. lia. }
        rewrite L, nth_error_app2, Nat.sub_diag in B by lia. cbn in B. congruence.
      * right. split; [exact Ne|]. destruct (Nat.lt_ge_cases k (length items)) as [J|J].
        { exists k. rewrite !nth_error_app1 in * by lia. split; [auto|]. split; [auto|]. intros k' Hk E. apply (C k' Hk). rewrite nth_error_app1; [auto|apply nth_error_Some; congruence]. }
        { rewrite nth_error_app2 in A by auto. destruct (k - length items) as [|z]; cbn in A; [congruence|destruct z; discriminate]. }
Qed.
Section Eval.
Variables (score : nat -> nat -> Q) (net : list nat -> list nat -> list Q).
Hypothesis Hnet : pointwise score net.

Lemma preds_of u items : predict net (repeat u (length items)) items 1024 = map (score u) items.
Proof.
  rewrite (predict_map score) by (auto; try lia; rewrite repeat_length; reflexivity). induction items as [|i is IH]; [reflexivity|]. cbn. f_equal. exact IH.
Qed.
Lemma eval_shape K u t items : eval_one net K (u, t) items =
  (calculate_hit (firstn K (sorted_items (score u) (firsts [] (items ++ [t])))) t,
   calculate_ndcg (firstn K (sorted_items (score u) (firsts [] (items ++ [t])))) t, items ++ [t]).
Proof. unfold eval_one. cbn [fst snd]. rewrite preds_of, item_score_firsts. reflexivity. Qed.

(** The test item is a hit exactly if fewer than K of the negatives (each counted once) score at least as much, and this
    number is its position: ties count against it. *)
Theorem C118_eval_one : forall K u t negs ds, ~ In t negs -> elements negs ds ->
  eval_one net K (u, t) negs =
    (if Nat.ltb (rivals (score u) t ds) K then 1 else 0, if Nat.ltb (rivals (score u) t ds) K then Some (rivals (score u) t ds) else None, negs ++ [t]).
Proof.
  intros K u t negs ds Ht [Nd Hd]. rewrite eval_shape. rewrite firsts_app. cbn [app]. destruct (firsts_spec negs []) as [N S].
  assert (P : Permutation (firsts [] negs) ds).
  { apply NoDup_Permutation; auto. intro x. rewrite S, Hd. cbn. tauto. }
  cbn [firsts]. destruct (in_dec Nat.eq_dec t (firsts [] negs)) as [I|I]; [apply S in I; tauto|].
  destruct (last_rank (score u) (firsts [] negs) t I) as (a & b & E & A & L). rewrite E.
  destruct (hit_of_split a t b K A) as [-> ->]. rewrite L, (rivals_perm _ _ _ _ P). reflexivity.
Qed.
(** the list of items grows with each evaluation, but the results stay: after any number of evaluations the hit and the
    position are those of the first *)
Theorem C118_repeated : forall K u t negs m,
  fst (eval_one net K (u, t) (negs ++ repeat t m)) = fst (eval_one net K (u, t) negs) /\
  snd (eval_one net K (u, t) (negs ++ repeat t m)) = negs ++ repeat t (S m).
Proof.
  intros K u t negs m. rewrite !eval_shape. cbn [fst snd]. rewrite <- app_assoc.
  assert (repeat t m ++ [t] = repeat t (S m)) as -> by (symmetry; apply (repeat_cons m t)).
  assert (firsts [] (negs ++ repeat t (S m)) = firsts [] (negs ++ [t])) as ->; [|split; reflexivity].
  rewrite !firsts_app. f_equal. cbn [repeat firsts app]. destruct (in_dec Nat.eq_dec t (firsts [] negs)) as [I|I].
  - apply firsts_seen. intros x Hx. apply repeat_spec in Hx. subst. auto.
  - f_equal. apply firsts_seen. intros x Hx. apply repeat_spec in Hx. subst. apply in_or_app. right. left. auto.
Qed.
(** the validation of an epoch: user by user; with one process the lists of negatives grow *)
Theorem C118_val_epoch : forall K pool n ratings negs, length ratings = length negs -> 0 < n ->
  val_epoch net K pool n ratings negs =
    (map (fun ri => fst (fst (eval_one net K (fst ri) (snd ri)))) (firstn n (combine ratings negs)),
     map (fun ri => snd (fst (eval_one net K (fst ri) (snd ri)))) (firstn n (combine ratings negs)),
     if pool then negs else map (fun ri => snd ri ++ [snd (fst ri)]) (firstn n (combine ratings negs)) ++ skipn n negs).
Proof.
  intros K pool n ratings negs Hl Hn. unfold val_epoch. rewrite (proj2 (Nat.ltb_lt 0 n) Hn), <- combine_firstn, !map_map. destruct pool; [reflexivity|].
  rewrite map_length, firstn_length, combine_length, Hl, Nat.min_id. f_equal. f_equal.
  destruct (Nat.le_ge_cases n (length negs)) as [L|L]; [rewrite Nat.min_l by auto; reflexivity|].
  rewrite Nat.min_r by auto. rewrite !skipn_all2 by lia. reflexivity.
Qed.
(** every epoch with the same network gives the same hit rates, with one process or with several, first or later *)
Theorem C118_epochs_agree : forall K pool pool' ratings negs, length ratings = length negs -> 
  let neg_after m := map (fun ri => snd ri ++ repeat (snd (fst ri)) m) (combine ratings negs) in
  forall m, fst (val_epoch net K pool 0 ratings (neg_after m)) = fst (val_epoch net K pool' 0 ratings negs) /\
            snd (val_epoch net K false 0 ratings (neg_after m)) = neg_after (S m).
Proof.
  intros K pool pool' ratings negs Hl neg_after m. unfold val_epoch. change (0 <? 0) with false. cbn iota.
  assert (Ln : length (neg_after m) = length negs) by (unfold neg_after; rewrite map_length, combine_length; lia).
  rewrite Ln. rewrite !(firstn_all2 (n := length negs + length ratings)) by lia.
  assert (C : combine ratings (neg_after m) = map (fun ri => (fst ri, snd ri ++ repeat (snd (fst ri)) m)) (combine ratings negs)).
  { unfold neg_after. clear - Hl. revert negs Hl. induction ratings as [|r rs IH]; intros [|n ns] H; try discriminate; [reflexivity|]. cbn [combine map]. f_equal. apply IH. cbn in H. lia. }
  rewrite C, !map_map. cbn [fst snd]. split.
  - f_equal; apply map_ext; intros [[u t] is]; cbn [fst snd]; rewrite (proj1 (C118_repeated K u t is m)); reflexivity.
  - rewrite (skipn_all2 (neg_after m)) by (rewrite Ln, map_length, combine_length; lia). rewrite app_nil_r. unfold neg_after. apply map_ext. intros [[u t] is]. cbn [fst snd]. apply (C118_repeated K u t is m).
Qed.
End Eval.
(** a test item that is also listed among its negatives wins the ties against the items listed behind it *)
Theorem C118_listed_test_item_refuted : exists net, pointwise (fun _ _ => 1%Q) net /\
  fst (fst (eval_one net 1 (0, 7) [3])) = 0 /\ fst (fst (eval_one net 1 (0, 7) [7; 3])) = 1.
Proof.
  exists (fun us is => map (fun _ => 1%Q) (combine us is)). split; [intros us is _; reflexivity|]. split; reflexivity.
Qed.
(** a portion of the test set that rounds down to no user at all means the whole test set *)
Theorem C118_no_users_is_all_refuted : forall net K pool ratings negs num den, length ratings * num < den ->
  val_epoch net K pool (calibration_users (length ratings) num den) ratings negs = val_epoch net K pool 0 ratings negs.
Proof. intros. unfold calibration_users. rewrite Nat.div_small by auto. reflexivity. Qed.
Example C118_eval_case : let net := fun us is => map (fun p => inject_Z (Z.of_nat (snd p mod 5))) (combine us is) in
  val_epoch net 2 false 0 [(0, 4); (1, 2)] [[9; 8; 1; 9]; [3; 7; 14; 1]] = ([1; 0], [Some 1; None], [[9; 8; 1; 9; 4]; [3; 7; 14; 1; 2]]) /\
  pointwise (fun _ i => inject_Z (Z.of_nat (i mod 5))) net /\ elements [9; 8; 1; 9] [9; 8; 1].
Proof.
  cbn zeta. split; [reflexivity|]. split; [intros us is _; reflexivity|]. split; [repeat (constructor; [cbn; lia|]); constructor|]. intro x. cbn. lia.
Qed.

(** * The best model *)

Lemma epochs_gen : forall hs threshold e b b' n, epochs threshold e hs b = (b', n) ->
  e <= n <= e + length hs /\
  exists k, n = e + k /\
   let done := firstn k hs in
   (threshold = None -> k = length hs) /\
   (forall t, threshold = Some t -> (forall i h, S i < k -> nth_error hs i = Some h -> (h < t)%Q) /\
      (k < length hs -> exists i h, k = S i /\ nth_error hs i = Some h /\ (t <= h)%Q)) /\
   ((forall h, In h done -> (h <= fst (fst b))%Q) -> b' = b) /\
   ((exists h, In h done /\ (fst (fst b) < h)%Q) -> exists i h, first_best done i h /\ b' = (h, e + i, Some (e + i))).
Proof.
  induction hs as [|h hs IH]; intros threshold e b b' n H.
  - cbn in H. injection H as <- <-. split; [cbn; lia|]. exists 0. split; [lia|]. cbn. split; [auto|]. split; [intros t _; split; [intros; lia|lia]|]. split; [auto|]. intros (h & [] & _).
  - cbn [epochs] in H. destruct b as [[bh be] bf]. set (b1 := if Qle_bool h bh then (bh, be, bf) else (h, e, Some e)) in H.
    assert (Hstop : (exists t, threshold = Some t /\ (t <= h)%Q /\ (b', n) = (b1, S e)) \/
      ((forall t, threshold = Some t -> (h < t)%Q) /\ epochs threshold (S e) hs b1 = (b', n))).
    { destruct threshold as [t|]; [|right; split; [discriminate|exact H]]. destruct (Qle_bool t h) eqn:E.
      - left. exists t. apply Qle_bool_iff in E. auto.
      - right. split; [|exact H]. intros t' X. injection X as <-. destruct (Qlt_le_dec h t) as [L|L]; [exact L|]. apply Qle_bool_iff in L. congruence. }
    destruct Hstop as [(t & -> & Hth & X)|(Hth & X)].
    + injection X as -> ->. split; [cbn [length]; lia|]. exists 1. split; [lia|]. cbn [firstn]. split; [discriminate|]. split.
      { intros t' X. injection X as <-. split; [intros; lia|]. intros _. exists 0, h. auto. }
      unfold b1. cbn [fst]. split.
      { intro Hall. specialize (Hall h (or_introl eq_refl)). apply Qle_bool_iff in Hall. rewrite Hall. reflexivity. }
      intros (x & [<-|[]] & Hx). exists 0, h. rewrite Nat.add_0_r. destruct (Qle_bool h bh) eqn:E; [apply Qle_bool_iff in E; lra|]. split; [|reflexivity].
      split; [reflexivity|]. split; [intros [|i] x Hi; [injection Hi as ->; lra|destruct i; discriminate]|lia].
    + destruct (IH _ _ _ _ _ X) as (B & k & -> & T0 & T1 & U & V). split; [cbn [length]; lia|]. exists (S k). split; [lia|]. cbn [firstn]. cbn zeta in *.
      split; [intro N; cbn [length]; rewrite (T0 N); reflexivity|]. split.
      { intros t Ht. destruct (T1 t Ht) as [P R]. split.
        - intros [|i] x Hi Hx; [cbn in Hx; injection Hx as <-; auto|]. apply (P i); [lia|exact Hx].
        - cbn [length]. intro L. destruct R as (i & x & -> & Y & Z); [lia|]. exists (S i), x. auto. }
      destruct (Qle_bool h bh) eqn:E; unfold b1 in *; cbn [fst] in *.
      * apply Qle_bool_iff in E. split.
        { intro Hall. apply U. intros; apply Hall; right; auto. }
        intros (x & [<-|Hx] & Hlt); [lra|]. destruct V as (i & y & (F1 & F2 & F3) & ->); [eauto|]. exists (S i), y. split; [|rewrite Nat.add_succ_r; reflexivity].
        assert (h < y)%Q as Hy. { apply In_nth_error in Hx. destruct Hx as (j & Hj). specialize (F2 j x Hj). lra. }
        split; [exact F1|]. split; [intros [|j] z Hz; [injection Hz as <-; lra|eapply F2; eauto]|intros [|j] z Hj Hz; [injection Hz as <-; lra|apply (F3 j z); [lia|exact Hz]]].
      * assert (bh < h)%Q as Hlt0. { destruct (Qlt_le_dec bh h) as [L|L]; [exact L|]. apply Qle_bool_iff in L. congruence. }
        split; [intro Hall; specialize (Hall h (or_introl eq_refl)); lra|]. intros _.
        assert ((forall x, In x (firstn k hs) -> (x <= h)%Q) \/ exists x, In x (firstn k hs) /\ (h < x)%Q) as [Hle|Hgt].
        { clear. induction (firstn k hs) as [|x l [IH|IH]]; [left; intros ? []| |].
          - destruct (Qlt_le_dec h x) as [L|L]; [right; exists x; split; [left; auto|auto]|left; intros y [<-|Hy]; auto].
          - destruct IH as (y & A & B). right. exists y. split; [right; auto|auto]. }
        { exists 0, h. rewrite Nat.add_0_r. split; [|apply U; exact Hle]. split; [reflexivity|]. split; [|lia].
          intros [|j] z Hz; [injection Hz as <-; lra|]. cbn in Hz. apply nth_error_In in Hz. auto. }
        { destruct (V Hgt) as (i & y & (F1 & F2 & F3) & ->). exists (S i), y. split; [|rewrite Nat.add_succ_r; reflexivity].
          assert (h < y)%Q as Hy. { destruct Hgt as (x & Hx & L). apply In_nth_error in Hx. destruct Hx as (j & Hj). specialize (F2 j x Hj). lra. }
          split; [exact F1|]. split; [intros [|j] z Hz; [injection Hz as <-; lra|eapply F2; eauto]|intros [|j] z Hj Hz; [injection Hz as <-; lra|apply (F3 j z); [lia|exact Hz]]]. }
Qed.
(** The .best file has the model of the first epoch that reaches the largest hit rate of the epochs done, with that rate and
    epoch as extras. A threshold ends the training with the first epoch that reaches it. *)
Theorem C118_best : forall threshold start hs b n, epochs threshold start hs start_best = (b, n) ->
  (forall h, In h hs -> (0 <= h)%Q) ->
  exists k, n = start + k /\ k <= length hs /\
   (threshold = None -> k = length hs) /\
   (forall t, threshold = Some t -> (forall i h, S i < k -> nth_error hs i = Some h -> (h < t)%Q) /\
      (k < length hs -> exists i h, k = S i /\ nth_error hs i = Some h /\ (t <= h)%Q)) /\
   ((exists h, In h (firstn k hs) /\ (0 < h)%Q) -> exists i h, first_best (firstn k hs) i h /\ b = (h, start + i, Some (start + i))) /\
   ((forall h, In h (firstn k hs) -> (h == 0)%Q) -> b = start_best).
Proof.
  intros threshold start hs b n H Hpos. destruct (epochs_gen _ _ _ _ _ _ H) as (B & k & -> & T0 & T1 & U & V). exists k. split; [reflexivity|]. split; [lia|].
  split; [exact T0|]. split; [exact T1|]. split; [exact V|]. intro Z. apply U. intros h Hh. cbn. rewrite (Z h Hh). lra.
Qed.
(** without a single hit there is no best model: best_epoch 0 is reported, and no .best file is written *)
Theorem C118_no_hits_refuted : forall start n, snd (fst (epochs None start (repeat 0%Q n) start_best)) = None /\
  snd (fst (fst (epochs None start (repeat 0%Q n) start_best))) = 0.
Proof. intros start n. revert start. induction n as [|n IH]; intro start; [split; reflexivity|]. cbn [repeat epochs]. change (Qle_bool 0 0) with true. cbn iota. apply IH. Qed.
(** a resumed training forgets the best model: its first epoch with a hit overwrites the .best file, however bad *)
Theorem C118_resume_forgets_refuted : forall n h b, (0 < h)%Q ->
  snd (fst (epochs None n [h] start_best)) = Some n /\ ((h <= fst (fst b))%Q -> snd (fst (epochs None n [h] b)) = snd b).
Proof.
  intros n h [[bh be] bf] Hh. cbn [epochs start_best fst snd]. split.
  - destruct (Qle_bool h 0) eqn:X; [apply Qle_bool_iff in X; lra|reflexivity].
  - intro L. apply Qle_bool_iff in L. rewrite L. reflexivity.
Qed.
Example C118_best_case : epochs None 0 [1#4; 3#4; 1#2; 3#4]%Q start_best = ((3#4)%Q, 1, Some 1, 4) /\
  epochs (Some (1#2)%Q) 0 [1#4; 3#4; 1#2]%Q start_best = ((3#4)%Q, 1, Some 1, 2) /\
  epochs None 4 [1#8]%Q start_best = ((1#8)%Q, 4, Some 4, 5).
Proof. repeat split; reflexivity. Qed.

(** * Training data *)

(** from a complete ratings file and no saved files: all users and items fit, the rows are the positive ones, the matrix
    has all pairs; the files it leaves give the same object *)
Theorem C118_load : forall rows, rows <> [] -> exists ds p z,
  load_train_matrix (Good rows) Missing Missing = (Ok ds, p, z) /\
  ds_data ds = Some (filter snd rows) /\ ds_mat ds = Some (map fst rows) /\
  (exists nu ni, ds_users ds = Some nu /\ ds_items ds = Some ni /\ (forall u i r, In (u, i, r) rows -> u < nu /\ i < ni) /\
     (exists i r, In (nu - 1, i, r) rows) /\ (exists u r, In (u, ni - 1, r) rows)) /\
  forall csv, load_train_matrix csv p z = (Ok ds, p, z).
Proof.
  intros rows H. destruct rows as [|r rs]; [congruence|]. clear H. do 3 eexists. split; [reflexivity|]. cbn [ds_data ds_mat ds_users ds_items]. split; [reflexivity|]. split; [reflexivity|].
  assert (Hmax : forall (g : line -> nat) x l, (forall y, In y (x :: l) -> g y < max1 (map g (x :: l))) /\ exists y, In y (x :: l) /\ g y = max1 (map g (x :: l)) - 1).
  { intros g x l. unfold max1. split.
    - intros y Hy. pose proof (proj1 (list_max_le (map g (x :: l)) _) (le_n _)) as F. rewrite Forall_forall in F. apply Nat.lt_succ_r, F, in_map. exact Hy.
    - rewrite Nat.sub_succ, Nat.sub_0_r. revert x. induction l as [|z l IH]; intro x.
      + exists x. split; [left; auto|]. cbn. lia.
      + destruct (IH z) as (y & Hy & E). change (list_max (map g (x :: z :: l))) with (Nat.max (g x) (list_max (map g (z :: l)))).
        destruct (Nat.max_spec (g x) (list_max (map g (z :: l)))) as [[_ ->]|[_ ->]]; [exists y; split; [right; auto|auto]|exists x; split; [left; auto|auto]]. }
  split.
  - do 2 eexists. split; [reflexivity|]. split; [reflexivity|]. destruct (Hmax (fun l => fst (fst l)) r rs) as [A1 (y1 & B1 & C1)]. destruct (Hmax (fun l => snd (fst l)) r rs) as [A2 (y2 & B2 & C2)].
    split; [intros u i b I; split; [apply (A1 _ I)|apply (A2 _ I)]|]. split.
    + destruct y1 as [[a c] d]. cbn [fst snd] in C1. exists c, d. subst a. exact B1.
    + destruct y2 as [[a c] d]. cbn [fst snd] in C2. exists a, d. subst c. exact B2.
  - intro csv. reflexivity.
Qed.
(** a process killed while it builds the files: the next one gets the same object, unless it was killed while writing the
    matrix; then every later one fails, until somebody deletes a file *)
Theorem C118_killed : forall rows ds p z m, rows <> [] -> load_train_matrix (Good rows) Missing Missing = (Ok ds, p, z) ->
  (exists nu ni, z = Good (nu, ni, m)) ->
  forall pz, In pz (killed_files (filter snd rows) (match z with Good x => x | _ => (0, 0, []) end)) ->
  (snd pz <> Broken -> exists z', load_train_matrix (Good rows) (fst pz) (snd pz) = (Ok ds, p, z')) /\
  (snd pz = Broken -> forall csv, load_train_matrix csv (fst pz) (snd pz) = (Raise AttributeError, fst pz, snd pz)).
Proof.
  intros rows ds p z m Hr H (nu & ni & ->) pz Hp. destruct rows as [|r rs]; [congruence|]. unfold load_train_matrix in H. cbn [is_file andb option_map] in H. injection H as <- <- <- <- <-.
  cbn in Hp. destruct Hp as [<-|[<-|[<-|[<-|[<-|[]]]]]]; cbn [fst snd]; (split; [intro N; try congruence; eexists; reflexivity|intro N; try discriminate; reflexivity]).
Qed.
Theorem C118_killed_forever_refuted : forall csv d, load_train_matrix csv (Good d) Broken = (Raise AttributeError, Good d, Broken).
Proof. reflexivity. Qed.
(** errors are dropped: without the ratings file the constructor ends, without rows, sizes or matrix; a broken pickle gives
    an object without rows *)
Theorem C118_errors_dropped_refuted : forall csv z u i m, (forall rows, csv <> Good rows) ->
  load_train_matrix csv Missing Missing = (Ok (mkDs None None None None), Broken, Missing) /\
  (z = Good (u, i, m) -> load_train_matrix csv Broken z = (Ok (mkDs None (Some m) (Some u) (Some i)), Broken, z)).
Proof. intros csv z u i m H. split; [destruct csv; [reflexivity|reflexivity|exfalso; eapply H; reflexivity]|]. intros ->. reflexivity. Qed.
(** once the two files exist, a changed ratings file is ignored *)
Theorem C118_stale_refuted : forall csv csv' d x, fst (fst (load_train_matrix csv (Good d) (Good x))) = fst (fst (load_train_matrix csv' (Good d) (Good x))).
Proof. intros csv csv' d [[u i] m]. reflexivity. Qed.

Lemma draw_spec m u : forall draws j, draw_negative m u draws = Some j -> In j draws /\ ~ In (u, j) m.
Proof.
  induction draws as [|x r IH]; intros j H; [discriminate|]. cbn [draw_negative] in H. destruct (in_mat m u x) eqn:E.
  - destruct (IH j H). split; [right; auto|auto].
  - injection H as ->. split; [left; auto|]. intro I. assert (in_mat m u j = true); [|congruence]. apply existsb_exists. exists (u, j). split; auto. cbn. rewrite !Nat.eqb_refl. reflexivity.
Qed.
(** an epoch: for each row, in order, one sample with its item and label 1, then nb_neg samples of its user with items the
    user has not rated and label 0 *)
Theorem C118_samples : forall nb_neg data m k off u i r, nth_error data k = Some (u, i, r) -> off <= nb_neg ->
  k * (nb_neg + 1) + off < ds_len nb_neg data /\
  forall draws, (off = 0 -> getitem nb_neg data m (k * (nb_neg + 1) + off) draws = Ok (Some (u, i, 1))) /\
    (0 < off -> exists o, getitem nb_neg data m (k * (nb_neg + 1) + off) draws = Ok o /\
       (forall x, o = Some x -> exists j, x = (u, j, 0) /\ In j draws /\ ~ In (u, j) m) /\
       ((exists j, In j draws /\ ~ In (u, j) m) -> o <> None)).
Proof.
  intros nb_neg data m k off u i r Hk Ho. assert (L : k < @length line data) by (apply nth_error_Some; unfold line in *; congruence).
  split; [unfold ds_len; pose proof (Nat.mul_le_mono_l (k + 1) (@length line data) (nb_neg + 1) ltac:(lia)); nia|]. intro draws. unfold getitem.
  assert ((k * (nb_neg + 1) + off) / (nb_neg + 1) = k) as ->. { rewrite Nat.add_comm, Nat.div_add, Nat.div_small by lia. reflexivity. }
  assert ((k * (nb_neg + 1) + off) mod (nb_neg + 1) = off) as ->. { rewrite Nat.add_comm, Nat.mod_add, Nat.mod_small by lia. reflexivity. }
  unfold line in *. rewrite Hk. split; [intros ->; reflexivity|]. intro Hp. destruct (Nat.eqb_spec off 0); [lia|]. eexists. split; [reflexivity|]. split.
  - intros x Hx. destruct (draw_negative m u draws) as [j|] eqn:E; [|discriminate]. injection Hx as <-. exists j. split; [reflexivity|]. apply draw_spec. auto.
  - intros (j & Hj & Hn) E. destruct (draw_negative m u draws) eqn:D; [discriminate|]. clear E. induction draws as [|y l IH]; [destruct Hj|]. cbn [draw_negative] in D.
    destruct (in_mat m u y) eqn:E; [|discriminate]. destruct Hj as [->|Hj]; [|auto]. apply existsb_exists in E. destruct E as ((a & b) & I & X). cbn in X.
    apply andb_true_iff in X. rewrite !Nat.eqb_eq in X. destruct X as [-> ->]. contradiction.
Qed.
(** for a user who has rated every item the loop never ends *)
Theorem C118_rated_everything_refuted : forall nb_neg nb_items data m k off u i r draws, nth_error data k = Some (u, i, r) -> 0 < off -> off <= nb_neg ->
  (forall j, j < nb_items -> In (u, j) m) -> (forall j, In j draws -> j < nb_items) ->
  getitem nb_neg data m (k * (nb_neg + 1) + off) draws = Ok None.
Proof.
  intros nb_neg nb_items data m k off u i r draws Hk Hp Ho Hall Hd. destruct (C118_samples nb_neg data m k off u i r Hk Ho) as [_ H].
  destruct (proj2 (H draws) Hp) as (o & E & S & _). rewrite E. destruct o as [x|]; [|reflexivity]. exfalso. destruct (S x eq_refl) as (j & _ & Hj & Hn). apply Hn, Hall, Hd. auto.
Qed.
Example C118_samples_case : let data := [(0, 1, true); (2, 0, true)] in map (fun idx => getitem 2 data [(0, 1); (2, 0)] idx [1; 0; 2]) (seq 0 6) =
  [Ok (Some (0, 1, 1)); Ok (Some (0, 0, 0)); Ok (Some (0, 0, 0)); Ok (Some (2, 0, 1)); Ok (Some (2, 1, 0)); Ok (Some (2, 1, 0))] /\ ds_len 2 data = 6.
Proof. split; reflexivity. Qed.

(** * The split *)

(** each user's latest item is the test item; the other items are for training and never the test item; the negatives of the
    test were not rated before *)
Theorem C118_split_user : forall nb_items items picks, items <> [] -> exists t rest train negs,
  split_user nb_items items picks = (train, t, negs) /\ items = rest ++ [t] /\
  NoDup train /\ (forall i, In i train <-> In i rest /\ i <> t) /\
  ((forall k, In k picks -> k < length (candidates nb_items rest)) -> forall j, In j negs -> j < nb_items /\ ~ In j rest).
Proof.
  intros nb_items items picks H. exists (last items 0), (removelast items). do 2 eexists. split; [reflexivity|].
  assert (E : items = removelast items ++ [last items 0]) by (apply app_removelast_last; auto). split; [exact E|].
  split; [apply NoDup_filter, NoDup_nodup|]. split.
  - intro i. unfold rem_nat. rewrite filter_In, nodup_In. rewrite E at 1. rewrite in_app_iff. destruct (Nat.eqb_spec i (last items 0)) as [->|N]; cbn [negb In]; split.
    + intros [_ X]; discriminate.
    + intros [_ X]; congruence.
    + intros [[A|[A|[]]] _]; [auto|congruence].
    + intros [A _]; auto.
  - intros Hk j Hj. apply in_map_iff in Hj. destruct Hj as (k & <- & Ik). specialize (Hk k Ik). pose proof (nth_In _ 0 Hk) as I. unfold candidates in I at 2. apply filter_In in I.
    destruct I as [I X]. apply in_seq in I. split; [lia|]. intro C. apply negb_true_iff in X.
    assert (existsb (Nat.eqb (nth k (candidates nb_items (removelast items)) 0)) (removelast items) = true); [|congruence]. apply existsb_exists. eexists. split; [exact C|apply Nat.eqb_refl].
Qed.
(** over all users: no test pair is a training pair *)
Theorem C118_convert : forall nb_items users picks, length users = length picks -> (forall l, In l users -> l <> []) ->
  let '(train, test, negs) := convert nb_items users picks in
  length test = length users /\ length negs = length users /\
  (forall u t, nth_error test u = Some t -> exists rest l, nth_error users u = Some l /\ l = rest ++ [snd t] /\ fst t = u) /\
  (forall u i, In (u, i) train <-> exists l rest t, nth_error users u = Some l /\ l = rest ++ [t] /\ In i rest /\ i <> t) /\
  (forall p, In p test -> ~ In p train).
Proof.
  intros nb_items users picks Hl Hne. unfold convert. set (us := map (fun ip => split_user nb_items (fst ip) (snd ip)) (combine users picks)).
  assert (Lu : length us = length users) by (unfold us; rewrite map_length, combine_length; lia).
  assert (G : forall (A : Type) (l : list A) k u x, In (u, x) (combine (seq k (length l)) l) <-> k <= u /\ nth_error l (u - k) = Some x).
  { intros A l. induction l as [|y l IH]; intros k u x; cbn [length seq combine].
    - split; [intros []|intros [_ X]; destruct (u - k); discriminate].
    - cbn [In]. rewrite IH. split.
      + intros [X|[X Y]]; [injection X as <- <-; rewrite Nat.sub_diag; auto|]. split; [lia|]. replace (u - k) with (S (u - S k)) by lia. exact Y.
      + intros [X Y]. destruct (Nat.eq_dec k u) as [->|N]; [rewrite Nat.sub_diag in Y; cbn in Y; injection Y as ->; auto|]. right. split; [lia|]. replace (u - k) with (S (u - S k)) in Y by lia. exact Y. }
  assert (U : forall u l, nth_error users u = Some l -> exists t rest train negs, nth_error us u = Some (train, t, negs) /\ l = rest ++ [t] /\ forall i, In i train <-> In i rest /\ i <> t).
  { intros u l Hu. assert (u < length picks) as Lp by (rewrite <- Hl; apply nth_error_Some; congruence). destruct (nth_error picks u) as [p|] eqn:Ep; [|apply nth_error_None in Ep; lia].
    destruct (C118_split_user nb_items l p (Hne l (nth_error_In _ _ Hu))) as (t & rest & train & negs & E1 & E2 & _ & E3 & _). exists t, rest, train, negs. split; [|auto].
    unfold us. assert (nth_error (combine users picks) u = Some (l, p)) as E.
    { revert Hu Ep. clear. revert users picks. induction u as [|u IH]; intros [|a users] [|b picks] H1 H2; try discriminate; cbn in *; [congruence|]. apply IH; auto. }
    rewrite (map_nth_error _ _ _ E). cbn [fst snd]. rewrite E1. reflexivity. }
  set (rs := combine (seq 0 (length users)) us).
  assert (R : forall u x, In (u, x) rs <-> nth_error us u = Some x).
  { intros u x. unfold rs. rewrite <- Lu. rewrite G, Nat.sub_0_r. split; [tauto|split; [lia|auto]]. }
  assert (Lr : length rs = length users) by (unfold rs; rewrite combine_length, seq_length; lia).
  assert (T : forall u i, In (u, i) (flat_map (fun ur => map (fun i => (fst ur, i)) (fst (fst (snd ur)))) rs) <-> exists l rest t, nth_error users u = Some l /\ l = rest ++ [t] /\ In i rest /\ i <> t).
  { intros u i. rewrite in_flat_map. split.
    - intros ((u' & x) & Hx & Hi). cbn [fst snd] in Hi. apply in_map_iff in Hi. destruct Hi as (i' & E & Hi). injection E as -> ->. apply R in Hx.
      assert (u < length users) as L by (rewrite <- Lu; apply nth_error_Some; congruence). destruct (nth_error users u) as [l|] eqn:El; [|apply nth_error_None in El; lia].
      destruct (U u l El) as (t & rest & train & negs & E1 & E2 & E3). rewrite E1 in Hx. injection Hx as <-. cbn in Hi. apply E3 in Hi. exists l, rest, t. tauto.
    - intros (l & rest & t & El & E & Hi & Ht). destruct (U u l El) as (t' & rest' & train & negs & E1 & E2 & E3). rewrite E in E2. apply app_inj_tail in E2. destruct E2 as [-> ->].
      exists (u, (train, t', negs)). split; [apply R; auto|]. cbn [fst snd]. apply in_map. apply E3. auto. }
  assert (Te : forall u p, nth_error (map (fun ur => (fst ur, snd (fst (snd ur)))) rs) u = Some p -> exists rest l, nth_error users u = Some l /\ l = rest ++ [snd p] /\ fst p = u).
  { intros u p Hp. assert (u < length users) as L. { rewrite <- Lr. rewrite <- (map_length (fun ur => (fst ur, snd (fst (snd ur)))) rs). apply nth_error_Some. congruence. }
    destruct (nth_error users u) as [l|] eqn:El; [|apply nth_error_None in El; lia]. destruct (U u l El) as (t & rest & train & negs & E1 & E2 & _).
    assert (nth_error rs u = Some (u, (train, t, negs))) as Er.
    { unfold rs. revert E1 L. rewrite <- Lu. generalize us. clear. intro us. assert (forall k, nth_error us u = Some (train, t, negs) -> nth_error (combine (seq k (length us)) us) u = Some (k + u, (train, t, negs))) as X.
      { revert u. induction us as [|y l IH]; intros u k H; [destruct u; discriminate|]. destruct u as [|u]; [cbn in *; rewrite Nat.add_0_r; congruence|]. cbn [length seq combine nth_error]. rewrite (IH u (S k) H). f_equal. f_equal. lia. }
      intros H _. apply (X 0 H). }
    rewrite (map_nth_error _ _ _ Er) in Hp. cbn [fst snd] in Hp. injection Hp as <-. exists rest, l. cbn [fst snd]. auto. }
  split; [rewrite map_length; exact Lr|]. split; [rewrite map_length; exact Lr|]. split; [exact Te|]. split; [exact T|].
  intros [u t] Hp Hc. apply T in Hc. destruct Hc as (l & rest & t' & El & E & _ & Ne). apply In_nth_error in Hp. destruct Hp as (k & Hk).
  destruct (Te k (u, t) Hk) as (rest' & l' & El' & E' & Ek). cbn [fst snd] in *. subst k. rewrite El in El'. injection El' as ->. rewrite E in E'. apply app_inj_tail in E'. destruct E' as [_ ->]. congruence.
Qed.
(** the test item itself can be drawn as a negative of its test, when the user rated it once; and as a negative in training *)
Theorem C118_test_item_is_candidate_refuted : forall nb_items rest t, t < nb_items -> ~ In t rest ->
  exists k, k < length (candidates nb_items rest) /\ snd (split_user nb_items (rest ++ [t]) [k]) = [t].
Proof.
  intros nb_items rest t Ht Hn. assert (In t (candidates nb_items rest)) as I.
  { apply filter_In. split; [apply in_seq; lia|]. apply negb_true_iff. destruct (existsb (Nat.eqb t) rest) eqn:E; [|reflexivity]. apply existsb_exists in E. destruct E as (x & Hx & E).
    apply Nat.eqb_eq in E. subst. contradiction. }
  apply (In_nth _ _ 0) in I. destruct I as (k & Lk & Ek). exists k. split; [exact Lk|]. unfold split_user. cbn [snd]. rewrite removelast_last. cbn [map]. rewrite Ek. reflexivity.
Qed.
Theorem C118_trained_as_negative_refuted : forall nb_neg nb_items users picks data k off u i r l rest t, length users = length picks -> (forall l, In l users -> l <> []) ->
  nth_error data k = Some (u, i, r) -> 0 < off -> off <= nb_neg -> nth_error users u = Some l -> l = rest ++ [t] ->
  getitem nb_neg data (fst (fst (convert nb_items users picks))) (k * (nb_neg + 1) + off) [t] = Ok (Some (u, t, 0)).
Proof.
  intros nb_neg nb_items users picks data k off u i r l rest t Hl Hne Hk Hp Ho Hu ->. pose proof (C118_convert nb_items users picks Hl Hne) as C.
  destruct (convert nb_items users picks) as [[train test] negs]. destruct C as (_ & _ & _ & T & _). cbn [fst].
  destruct (C118_samples nb_neg data train k off u i r Hk Ho) as [_ H]. destruct (proj2 (H [t]) Hp) as (o & E & S & X). rewrite E.
  destruct o as [x|].
  - destruct (S x eq_refl) as (j & -> & [->|[]] & _). reflexivity.
  - exfalso. apply X; [|reflexivity]. exists t. split; [left; auto|]. intro I. apply T in I. destruct I as (l & rest' & t' & El & E' & _ & Ne). rewrite Hu in El. injection El as <-.
    apply app_inj_tail in E'. destruct E' as [_ ->]. congruence.
Qed.
(** the size of the item table is taken from the training pairs: a test item that nobody else rated can be outside of it *)
Theorem C118_test_item_outside_refuted : exists users picks, let '(train, test, _) := convert 4 users picks in
  forall ds p z, load_train_matrix (Good (map (fun x => (x, true)) train)) Missing Missing = (Ok ds, p, z) ->
  exists ni x, ds_items ds = Some ni /\ In x test /\ ni <= snd x.
Proof.
  exists [[0; 1; 3]; [1; 0; 2]], [[0]; [0]]. cbn. intros ds p z H. injection H as <- _ _. exists 2, (0, 3). cbn. split; [reflexivity|]. split; [left; reflexivity|lia].
Qed.
Example C118_convert_case : convert 5 [[0; 1; 3]; [1; 0; 2]] [[0; 1; 2]; [2; 2; 0]] =
  ([(0, 0); (0, 1); (1, 1); (1, 0)], [(0, 3); (1, 2)], [[2; 3; 4]; [4; 4; 2]]).
Proof. reflexivity. Qed.
Print Assumptions C118_predict.
Print Assumptions C118_item_score.
Print Assumptions C118_eval_one.
Print Assumptions C118_repeated.
Print Assumptions C118_val_epoch.
Print Assumptions C118_epochs_agree.
Print Assumptions C118_listed_test_item_refuted.
Print Assumptions C118_no_users_is_all_refuted.
Print Assumptions C118_best.
Print Assumptions C118_no_hits_refuted.
Print Assumptions C118_resume_forgets_refuted.
Print Assumptions C118_load.
Print Assumptions C118_killed.
Print Assumptions C118_killed_forever_refuted.
Print Assumptions C118_errors_dropped_refuted.
Print Assumptions C118_stale_refuted.
Print Assumptions C118_samples.
Print Assumptions C118_rated_everything_refuted.
Print Assumptions C118_split_user.
Print Assumptions C118_convert.
Print Assumptions C118_test_item_is_candidate_refuted.
Print Assumptions C118_trained_as_negative_refuted.
Print Assumptions C118_test_item_outside_refuted.
