(** Proofs about resuming the greedy search, and about its generators. *)
From Coq Require Import String List ZArith QArith Bool Arith Lia Lqa.
From Verif Require Import Base GreedyModel GreedySpec GreedyProofs.
Import ListNotations.
Open Scope list_scope.

Section Resume.
Variable score : dict ov -> res Q.
Variable modules : dict mclass.
Variable gen : string -> dict ov -> res (list ov).
Let step := module_step score modules gen.
Let sk := skipped modules.

Definition good_gen : Prop := forall n d cands, gen n d = Ok cands ->
  cands <> [] /\ forall c, In c cands -> NoDup (dkeys c) /\ has c "bits_activations" = true.

Lemma fresh_cond (b : dict ov) n loaded : ~ In n (dkeys b) ->
  dmem b n && has (entry_of b n) "bits_activations" && negb (existsb (String.eqb n) loaded) = false.
Proof. intro H. unfold dmem. assert (dget b n = None) as -> by (apply dget_None_notin; auto). auto. Qed.

Lemma step_known st n st' : step st n = Ok st' -> exists c, dget modules n = Some c.
Proof.
  unfold step, module_step, module_of. destruct st as ((b & l) & s). destruct (dget modules n); eauto. discriminate.
Qed.

Lemma step_shift b l1 s1 n st l2 s2 : ~ In n (dkeys b) -> step (b, l1, s1) n = Ok st ->
  exists b' new, st = (b', l1, s1 ++ new) /\ step (b, l2, s2) n = Ok (b', l2, s2 ++ new) /\
    (forall m, In m (dkeys b') -> m = n \/ In m (dkeys b)).
Proof.
  intros Hn H. destruct (step_known _ _ _ H) as (c & Hc). destruct (is_skip c) eqn:Es.
  - apply step_skip in H; [|unfold skipped; rewrite Hc; auto]. subst. exists b, []. rewrite !app_nil_r.
    split; auto. split; auto. unfold step, module_step, module_of. rewrite Hc. cbn [bind]. rewrite Es. auto.
  - apply step_search in H; [|unfold skipped; rewrite Hc; auto|apply fresh_cond; auto].
    destruct H as (cands & o & Hg & Ho & ->). exists (dset b n (dupdate (base_of b n) o)), [dset b n (dupdate (base_of b n) o)].
    split; auto. split.
    + unfold step. eapply step_search_ok; eauto. apply fresh_cond; auto.
    + intros m Hm. rewrite dset_app in Hm by auto. unfold dkeys in Hm. rewrite map_app in Hm. apply in_app_or in Hm.
      simpl in Hm. destruct Hm as [?|[<-|[]]]; auto.
Qed.

Lemma run_shift l : forall b l1 s1 st l2 s2, NoDup l -> (forall n, In n l -> ~ In n (dkeys b)) ->
  foldM step l (b, l1, s1) = Ok st ->
  exists b' new, st = (b', l1, s1 ++ new) /\ foldM step l (b, l2, s2) = Ok (b', l2, s2 ++ new) /\
    (forall m, In m (dkeys b') -> In m l \/ In m (dkeys b)).
Proof.
  induction l as [|n l IH]; intros b l1 s1 st l2 s2 Hnd Hn H; cbn [foldM] in *.
  - inversion H; subst. exists b, []. rewrite !app_nil_r. auto.
  - apply bind_ok in H. destruct H as (st1 & H1 & H2). inversion Hnd; subst.
    destruct (step_shift _ _ _ _ _ l2 s2 (Hn n (or_introl eq_refl)) H1) as (b1 & new1 & -> & H1' & Hk1).
    rewrite H1'. cbn [bind].
    apply (IH b1 l1 (s1 ++ new1) st l2 (s2 ++ new1)) in H2; auto.
    + destruct H2 as (b' & new & -> & H2 & Hk). exists b', (new1 ++ new). rewrite !app_assoc. split; auto. split; auto.
      intros m Hm. destruct (Hk m Hm) as [?|Hm']; [left; simpl; auto|]. destruct (Hk1 m Hm') as [->|?]; simpl; auto.
    + intros m Hm Hin. destruct (Hk1 m Hin) as [->|Hb]; [tauto|]. apply (Hn m); simpl; auto.
Qed.

Lemma run_done b s l : NoDup l ->
  (forall n, In n l -> exists c, dget modules n = Some c /\ (is_skip c = false -> In n (dkeys b) /\ has (entry_of b n) "bits_activations" = true)) ->
  forall loaded, (forall n, In n l -> ~ In n loaded) -> exists loaded', foldM step l (b, loaded, s) = Ok (b, loaded', s).
Proof.
  induction l as [|n l IH]; intros Hnd Hl loaded Hd; cbn [foldM]; eauto.
  inversion Hnd; subst. destruct (Hl n (or_introl eq_refl)) as (c & Hc & Hx).
  unfold step at 1, module_step, module_of. rewrite Hc. cbn [bind].
  assert (forall m, In m l -> exists c, dget modules m = Some c /\ (is_skip c = false -> In m (dkeys b) /\ has (entry_of b m) "bits_activations" = true)) as Hl'
    by (intros; apply Hl; simpl; auto).
  destruct (is_skip c) eqn:Es; cbn [bind].
  - apply IH; auto. intros; apply Hd; simpl; auto.
  - destruct (Hx eq_refl) as (Hin & Hh). fold (entry_of b n). rewrite Hh.
    assert (dmem b n = true) as ->. { unfold dmem. destruct (dget b n) eqn:E; auto. apply dget_None_notin in E. tauto. }
    assert (existsb (String.eqb n) loaded = false) as -> by (apply existsb_nIn, Hd; simpl; auto).
    cbn [andb negb bind]. apply IH; auto. intros m Hm Hin'. apply in_app_or in Hin'. simpl in Hin'.
    destruct Hin' as [Hin'|[<-|[]]]; [|tauto]. revert Hin'. apply Hd; simpl; auto.
Qed.

Lemma run_split l : forall b s st k S, NoDup l -> (forall n, In n l -> ~ In n (dkeys b)) -> good_gen ->
  foldM step l (b, [], s) = Ok st ->
  forall new, st = (fst (fst st), [], s ++ new) -> nth_error new k = Some S ->
  exists l1 l2, l = l1 ++ l2 /\
    foldM step l2 (S, [], s ++ firstn (Datatypes.S k) new) = Ok st /\
    (forall n, In n l1 -> exists c, dget modules n = Some c /\ (is_skip c = false -> In n (dkeys S) /\ has (entry_of S n) "bits_activations" = true)) /\
    (forall n, In n l2 -> ~ In n (dkeys S)) /\
    (forall n, In n (dkeys b) -> In n (dkeys S) /\ entry_of S n = entry_of b n).
Proof.
  induction l as [|n l IH]; intros b s st k S Hnd Hn Hg H new He Hk; cbn [foldM] in H.
  - inversion H; subst. cbn in He. assert (new = []) as ->.
    { assert (s = s ++ new) as E by congruence. rewrite <- (app_nil_r s) in E at 1. apply app_inv_head in E. auto. }
    destruct k; discriminate.
  - apply bind_ok in H. destruct H as (st1 & H1 & H2). inversion Hnd; subst.
    destruct (step_known _ _ _ H1) as (c & Hc). destruct (is_skip c) eqn:Es.
    + apply step_skip in H1; [|unfold skipped; rewrite Hc; auto]. subst st1.
      destruct (IH b s st k S) with (new := new) as (l1 & l2 & -> & Hf & Hd & Hf2 & Hb); auto.
      { intros; apply Hn; simpl; auto. }
      exists (n :: l1), l2. split; auto. split; auto. split; auto.
      intros m [<-|Hm]; auto. exists c. split; auto. congruence.
    + assert (~ In n (dkeys b)) as Hnb by (apply Hn; simpl; auto).
      apply step_search in H1; [|unfold skipped; rewrite Hc; auto|apply fresh_cond; auto].
      destruct H1 as (cands & o & Hc1 & Ho & ->).
      set (b1 := dset b n (dupdate (base_of b n) o)) in *.
      assert (forall m, In m l -> ~ In m (dkeys b1)) as Hl.
      { intros m Hm Hin. unfold b1 in Hin. rewrite dset_app in Hin by auto. unfold dkeys in Hin. rewrite map_app in Hin.
        apply in_app_or in Hin. simpl in Hin. destruct Hin as [Hin|[<-|[]]]; [|tauto]. revert Hin. apply Hn; simpl; auto. }
      assert (In n (dkeys b1) /\ has (entry_of b1 n) "bits_activations" = true) as Hdone.
      { split.
        - unfold b1. rewrite dset_app by auto. unfold dkeys. rewrite map_app. apply in_or_app. simpl; auto.
        - destruct (Hg _ _ _ Hc1) as (Hne & Hall). apply search_in in Ho. destruct Ho as [(? & _)|Ho]; [tauto|].
          destruct (Hall _ Ho) as (Hnd' & Hh). unfold b1. rewrite entry_dset. unfold has in *. rewrite dupdate_dget by auto.
          destruct (dget o "bits_activations"); [auto|discriminate]. }
      assert (forall m, In m (dkeys b) -> In m (dkeys b1) /\ entry_of b1 m = entry_of b m) as Hb1.
      { intros m Hm. split.
        - unfold b1. rewrite dset_app by auto. unfold dkeys. rewrite map_app. apply in_or_app. auto.
        - unfold b1. apply entry_dset_other. intro; subst; tauto. }
      pose proof H2 as H2'. apply (run_shift l b1 [] (s ++ [b1]) st [] []) in H2'; auto.
      destruct H2' as (b' & new' & Hst & _ & _).
      assert (new = b1 :: new') as ->.
      { rewrite Hst in He. cbn in He. assert (s ++ new = (s ++ [b1]) ++ new') as E by congruence.
        rewrite <- app_assoc in E. apply app_inv_head in E. auto. }
      destruct k as [|k].
      * simpl in Hk. inversion Hk; subst S. exists [n], l. split; auto. split; [exact H2|]. split; [|split; auto].
        intros m [<-|[]]. exists c. split; auto.
      * simpl in Hk. destruct (IH b1 (s ++ [b1]) st k S) with (new := new') as (l1 & l2 & -> & Hf & Hd & Hf2 & Hb); auto.
        { rewrite Hst. auto. }
        exists (n :: l1), l2. split; auto. split; [|split; [|split; auto]].
        -- rewrite <- app_assoc in Hf. exact Hf.
        -- intros m [<-|Hm]; auto. exists c. split; auto. intros _. destruct Hdone as (Hd1 & Hd2).
           destruct (Hb n Hd1) as (? & Heq). rewrite Heq. auto.
        -- intros m Hm. destruct (Hb1 m Hm) as (Hm1 & Hm2). destruct (Hb m Hm1) as (? & Heq). rewrite Heq. auto.
Qed.

Lemma resume_fold l st k S : NoDup l -> good_gen -> foldM step l ([], [], []) = Ok st ->
  nth_error (snd st) k = Some S ->
  exists loaded, foldM step l (S, [], []) = Ok (fst (fst st), loaded, skipn (Datatypes.S k) (snd st)).
Proof.
  intros Hnd Hg H Hk. pose proof H as H0.
  apply (run_shift l [] [] [] st [] []) in H0; [|auto|simpl; auto]. destruct H0 as (b' & new & -> & _ & _).
  simpl in Hk. destruct (run_split l [] [] (b', [], new) k S) with (new := new) as (l1 & l2 & -> & Hf & Hd & Hf2 & _); auto.
  assert (NoDup l1 /\ NoDup l2) as (Hn1 & Hn2).
  { clear - Hnd. induction l1 as [|x l1 IH]; simpl in *; [split; [constructor|auto]|]. inversion Hnd; subst.
    destruct (IH H2). split; auto. constructor; auto. intro; apply H1, in_or_app; auto. }
  destruct (run_done S [] l1 Hn1 Hd []) as (loaded & Hr); [intros ? _ []|].
  rewrite foldM_app. unfold step in *. rewrite Hr. cbn [bind].
  apply (run_shift l2 S [] (firstn (Datatypes.S k) new) _ loaded []) in Hf; auto.
  destruct Hf as (b2 & new2 & He & Hf & _). exists loaded. cbn [fst snd app]. unfold step in Hf. etransitivity; [exact Hf|].
  assert (new = firstn (Datatypes.S k) new ++ new2) as E by congruence.
  rewrite <- (firstn_skipn (Datatypes.S k) new) in E at 1. apply app_inv_head in E. rewrite E. assert (b' = b2) as -> by congruence. reflexivity.
Qed.
End Resume.

(** * The default generators *)
Lemma candidates_relu succs ba bw : module_override_generator MReLU succs ba bw =
  [[("make_identity", VBool true); ("bits_weights", bw); ("bits_activations", ba)]]%string.
Proof. reflexivity. Qed.

Lemma default_uniform c succs ba bw : uniform (module_override_generator c succs ba bw).
Proof.
  unfold module_override_generator. destruct (is_relu c).
  - split.
    + intros x [<-|[]]. repeat (constructor; [simpl; intuition discriminate|]). constructor.
    + intros x y [<-|[]] [<-|[]]. auto.
  - destruct (is_param c); split;
    try (intros x Hx; apply in_map_iff in Hx; destruct Hx as (cl & <- & _); simpl;
         repeat (constructor; [simpl; intuition discriminate|]); constructor).
    + intros x y Hx Hy. apply in_map_iff in Hx, Hy. destruct Hx as (cl & <- & _), Hy as (cl' & <- & _). reflexivity.
    + intros x y Hx Hy. apply in_map_iff in Hx, Hy. destruct Hx as (cl & <- & _), Hy as (cl' & <- & _). reflexivity.
Qed.

Lemma default_input_uniform c np idx ba bw cands : input_override_generator c np idx ba bw = Ok cands -> uniform cands.
Proof.
  unfold input_override_generator. destruct (Nat.ltb idx np); [|discriminate]. intro H.
  match type of H with Ok ?x = Ok _ => assert (x = cands) as <- by congruence end. clear H.
  destruct (is_param c); split;
    try (intros x Hx; apply in_map_iff in Hx; destruct Hx as (cl & <- & _); simpl;
         repeat (constructor; [simpl; intuition discriminate|]); constructor).
  - intros x y Hx Hy. apply in_map_iff in Hx, Hy. destruct Hx as (cl & <- & _), Hy as (cl' & <- & _). reflexivity.
  - intros x y Hx Hy. apply in_map_iff in Hx, Hy. destruct Hx as (cl & <- & _), Hy as (cl' & <- & _). reflexivity.
Qed.
