(** Pruning / regularization policies: last-epoch logic, double copies, mask lifetime,
    mini-batch schedule, loss chaining. *)
From Coq Require Import String List ZArith QArith Bool Arith Lia Lqa.
From Verif Require Import Base Names SchedModel SchedSpec SchedProofs SchedMaskProofs.
Import ListNotations.

(* ------------------------------------------------------------------------- *)
(** ** Metadata *)
Lemma meta_get_set_same d p m : meta_get (meta_set d p m) p = Some m.
Proof.
  induction d as [|(q, x) d IH]; simpl.
  - rewrite Nat.eqb_refl; auto.
  - destruct (Nat.eqb p q) eqn:E; simpl; rewrite E; auto.
Qed.

Lemma meta_get_set_other d p q m : p <> q -> meta_get (meta_set d p m) q = meta_get d q.
Proof.
  intro Hne. induction d as [|(r, x) d IH]; simpl.
  - destruct (Nat.eqb_spec q p); [congruence|auto].
  - destruct (Nat.eqb_spec p r); simpl.
    + subst. destruct (Nat.eqb_spec q r); [congruence|auto].
    + destruct (Nat.eqb q r); auto.
Qed.

(** first and last epoch values recorded for an add_policy call *)
Definition add_end (a : add_args) : Z :=
  match ad_epochs a with
  | Some l => (last l 0 + 1)%Z
  | None => match ad_end a with Some e => e | None => 0%Z end
  end.

Lemma add_policy_meta s a s' :
  add_policy s a = Ok s' ->
  (exists m, meta_get (sc_meta s') (ad_policy a) = Some m /\ me_end m = add_end a) /\
  (forall q, q <> ad_policy a -> meta_get (sc_meta s') q = meta_get (sc_meta s) q).
Proof.
  unfold add_policy, add_end, record_policy. destruct (ad_epochs a) as [l|].
  - destruct (ad_start a), (ad_end a); try discriminate. destruct l; [discriminate|].
    intro H; injection H as <-. split.
    + eexists; split; [apply meta_get_set_same|reflexivity].
    + intros q Hq. apply meta_get_set_other; auto.
  - destruct (ad_start a), (ad_end a), (ad_freq a); try discriminate.
    destruct (Z.leb 0 z && Z.ltb z z0)%bool; [|discriminate].
    destruct (Z.ltb 0 z1 && Z.leb z1 (z0 - z))%bool; [|discriminate].
    intro H; injection H as <-. split.
    + eexists; split; [apply meta_get_set_same|reflexivity].
    + intros q Hq. apply meta_get_set_other; auto.
Qed.

Lemma add_all_meta adds s0 s a :
  foldM add_policy adds s0 = Ok s ->
  In a adds -> NoDup (map ad_policy adds) ->
  exists m, meta_get (sc_meta s) (ad_policy a) = Some m /\ me_end m = add_end a.
Proof.
  revert s0; induction adds as [|b adds IH]; intros s0 H Hin Hnd; [destruct Hin|].
  cbn [foldM] in H. inv_bind H. inversion Hnd; subst.
  destruct Hin as [->|Hin]; [|eapply IH; eauto].
  destruct (add_policy_meta _ _ _ H0) as [(m & M1 & M2) _].
  exists m. split; auto. rewrite <- M1. clear - H H3.
  revert x H; induction adds as [|b adds IH]; intros x H; simpl in H.
  - injection H as <-; auto.
  - inv_bind H. rewrite (IH ltac:(simpl in H3; tauto) _ H).
    apply add_policy_meta in H0. destruct H0 as [_ Hq]. apply Hq.
    simpl in H3. intuition congruence.
Qed.

Section Proofs.
Context {PS : Type}.
Variable tbl : nat -> policy PS.

Definition has_end (w : world PS) (pid : nat) (en : Z) : Prop :=
  exists m, meta_get (sc_meta (w_sched w)) pid = Some m /\ me_end m = en.

Lemma touch_meta_end e (w : world PS) p x q en :
  touch_meta e w p = Ok x -> has_end w q en -> has_end (fst x) q en.
Proof.
  intros H (m & Hm & He). apply touch_meta_spec in H.
  destruct H as (_ & _ & _ & _ & _ & _ & m0 & H1 & H2 & H3). unfold has_end. rewrite H3.
  destruct (Nat.eq_dec p q) as [->|Hne].
  - exists (snd x). split; [apply meta_get_set_same|]. rewrite H2. simpl. congruence.
  - exists m. split; auto. rewrite meta_get_set_other; auto.
Qed.

Lemma quiet_end (w w' : world PS) q en : quiet w w' -> has_end w q en -> has_end w' q en.
Proof. intros (_ & _ & M & _) (m & H1 & H2). exists m. rewrite M. auto. Qed.

Lemma dispatch_inv (P : world PS -> Prop) (body : world PS -> nat -> res (world PS)) l w w' :
  (forall w pid w', P w -> body w pid = Ok w' -> P w') ->
  P w -> foldM body l w = Ok w' -> P w'.
Proof. intros Hb HP H. eapply foldM_inv in H; eauto. Qed.

Lemma step_end w ev w' q en : step tbl w ev = Ok w' -> has_end w q en -> has_end w' q en.
Proof.
  intros H He. destruct ev; simpl in H.
  - unfold on_epoch_begin in H. eapply (dispatch_inv (fun x => has_end x q en)); [|exact He|exact H].
    clear. intros w pid w' He H. inv_bind H. pose proof (touch_meta_end _ _ _ _ _ _ H0 He) as He'.
    destruct x as [w1 me]. simpl in *. assert (has_end (with_log w1 (CbEpochBegin, pid, e)) q en) as He2 by exact He'.
    destruct (tbl pid).
    + apply prune_epoch_begin_quiet in H. eapply quiet_end; eauto.
    + unfold reg_epoch_begin in H. injection H as <-. exact He'.
    + injection H as <-. exact He'.
    + injection H as <-. exact He'.
  - unfold on_minibatch_begin in H. eapply (dispatch_inv (fun x => has_end x q en)); [|exact He|exact H].
    clear. intros w pid w' He H. inv_bind H. pose proof (touch_meta_end _ _ _ _ _ _ H0 He) as He'.
    destruct x as [w1 me]. simpl in *. assert (has_end (with_log w1 (CbMBBegin, pid, e)) q en) as He2 by exact He'.
    destruct (tbl pid).
    + apply prune_mb_begin_quiet in H. eapply quiet_end; eauto.
    + injection H as <-. exact He'.
    + injection H as <-. exact He'.
    + injection H as <-. exact He'.
  - inv_bind H. injection H as <-. unfold before_backward_pass in H0.
    eapply (foldM_inv _ (fun x => has_end (fst x) q en)) in H0; auto.
    intros [w1 [ov cs]] pid s' _ H1 H2. simpl in *.
    assert (has_end (with_log w1 (CbBackward, pid, e)) q en) as He2 by exact H1.
    destruct (policy_backward tbl pid ov (with_log w1 (CbBackward, pid, e))); simpl in H2;
      try discriminate; injection H2 as <-; simpl; auto.
  - unfold before_parameter_optimization in H. eapply (dispatch_inv (fun x => has_end x q en)); [|exact He|exact H].
    clear. intros w pid w' He H. inv_bind H. pose proof (touch_meta_end _ _ _ _ _ _ H0 He) as He'.
    destruct x as [w1 me]. simpl in *. assert (has_end (with_log w1 (CbBeforeOpt, pid, e)) q en) as He2 by exact He'.
    destruct (tbl pid).
    + apply prune_before_opt_quiet in H. eapply quiet_end; eauto.
    + injection H as <-. exact He'.
    + injection H as <-. exact He'.
    + injection H as <-. exact He'.
  - injection H as <-. exact He.
  - unfold on_minibatch_end in H. inv_bind H. apply mask_all_quiet in H0.
    apply (quiet_end _ _ _ _ H0) in He. clear H0.
    eapply (dispatch_inv (fun x => has_end x q en)); [|exact He|exact H].
    clear. intros w pid w' He H. simpl in H.
    assert (has_end (with_log w (CbMBEnd, pid, e)) q en) as He2 by exact He.
    destruct (tbl pid).
    + apply prune_mb_end_quiet in H. eapply quiet_end; eauto.
    + apply reg_mb_end_quiet in H. eapply quiet_end; eauto.
    + injection H as <-. exact He.
    + injection H as <-. exact He.
  - unfold on_epoch_end in H. eapply (dispatch_inv (fun x => has_end x q en)); [|exact He|exact H].
    clear. intros w pid w' He H. inv_bind H. pose proof (touch_meta_end _ _ _ _ _ _ H0 He) as He'.
    destruct x as [w1 me]. simpl in *. assert (has_end (with_log w1 (CbEpochEnd, pid, e)) q en) as He2 by exact He'.
    destruct (tbl pid).
    + apply prune_epoch_end_quiet in H. eapply quiet_end; eauto.
    + injection H as <-. exact He'.
    + injection H as <-. exact He'.
    + injection H as <-. exact He'.
  - apply mask_all_quiet in H. eapply quiet_end; eauto.
Qed.

Lemma run_end h w w' q en : run tbl h w = Ok w' -> has_end w q en -> has_end w' q en.
Proof.
  unfold run. intros H He. apply (foldM_inv (step tbl) (fun x => has_end x q en)) in H; auto.
  intros s a s' _ H1 H2. eapply step_end; eauto.
Qed.

(* ------------------------------------------------------------------------- *)
(** ** The is_last_epoch flag *)
Lemma for_params_inv (P : world PS -> Prop) body w w' :
  (forall w n w', P w -> body w n = Ok w' -> P w') ->
  P w -> for_params body w = Ok w' -> P w'.
Proof. intros Hb HP H. unfold for_params in H. eapply foldM_inv in H; eauto. Qed.

Lemma call_pruner_last pid c pr me (w w' : world PS) n q :
  call_pruner pid c pr me w n = Ok w' -> po_last (w_pol w' q) = po_last (w_pol w q).
Proof.
  unfold call_pruner. intro H. inv_bind H. inv_bind H. inv_bind H. injection H as <-. simpl.
  destruct (Nat.eqb_spec q pid); subst; auto.
Qed.

Lemma prune_epoch_begin_last pid c pr me (w w' : world PS) q :
  prune_epoch_begin pid c pr me w = Ok w' ->
  po_last (w_pol w' q) = if Nat.eqb q pid then is_last me else po_last (w_pol w q).
Proof.
  unfold prune_epoch_begin. intro H.
  apply (for_params_inv (fun x => po_last (w_pol x q) =
      if Nat.eqb q pid then is_last me else po_last (w_pol w q))) in H; auto.
  - generalize (po_init (w_pol w pid)). clear. intros b w1 n w2 H1 H2.
    rewrite <- H1. unfold prune_epoch_begin_body in H2. destruct b.
    + eapply call_pruner_last; eauto.
    + inv_bind H2. inv_bind H2. inv_bind H2. destruct (pc_skip_first c).
      * injection H2 as <-. simpl. destruct (Nat.eqb_spec q pid); subst; auto.
      * apply (call_pruner_last _ _ _ _ _ _ _ q) in H2. rewrite H2. simpl.
        destruct (Nat.eqb_spec q pid); subst; auto.
  - simpl. destruct (Nat.eqb q pid); auto.
Qed.

(** After on_epoch_begin(e), a policy called in epoch [e] considers it its last one
    iff e = ending_epoch - 1; the others keep their flag. *)
Lemma on_epoch_begin_last e w w' q en c pr :
  on_epoch_begin tbl e w = Ok w' ->
  tbl q = PPrune c pr \/ (exists r k, tbl q = PReg r k) ->
  has_end w q en ->
  po_last (w_pol w' q) =
    if in_dec Nat.eq_dec q (policies_at (sc_policies (w_sched w)) e)
    then Z.eqb e (en - 1) else po_last (w_pol w q).
Proof.
  unfold on_epoch_begin. generalize (policies_at (sc_policies (w_sched w)) e) as l.
  intros l. revert w. induction l as [|p l IH]; intros w H Ht He.
  - simpl in H. injection H as <-. simpl. auto.
  - cbn [foldM] in H. inv_bind H. inv_bind H0. destruct x0 as [w1 me].
    pose proof (touch_meta_end _ _ _ _ q en H1 He) as He1. simpl in He1.
    apply touch_meta_spec in H1. simpl in H1.
    destruct H1 as (_ & _ & _ & _ & _ & HP & m0 & M1 & M2 & _).
    assert (has_end x q en) as Hex.
    { assert (has_end (with_log w1 (CbEpochBegin, p, e)) q en) as He2 by exact He1.
      destruct (tbl p); simpl in H0.
      - apply prune_epoch_begin_quiet in H0. eapply quiet_end; eauto.
      - unfold reg_epoch_begin in H0. injection H0 as <-. exact He1.
      - injection H0 as <-. exact He1.
      - injection H0 as <-. exact He1. }
    rewrite (IH _ H Ht Hex).
    destruct (in_dec Nat.eq_dec q l) as [Hin|Hin].
    { destruct (in_dec Nat.eq_dec q (p :: l)) as [|Hn]; auto. exfalso; apply Hn; simpl; auto. }
    assert (po_last (w_pol x q) = if Nat.eqb q p then is_last me else po_last (w_pol w q)) as Hx.
    { destruct (tbl p) eqn:Et; simpl in H0.
      - apply (prune_epoch_begin_last _ _ _ _ _ _ q) in H0. rewrite H0. simpl. rewrite HP. auto.
      - unfold reg_epoch_begin in H0. injection H0 as <-. simpl. rewrite HP.
        destruct (Nat.eqb q p); auto.
      - injection H0 as <-. simpl. rewrite HP. destruct (Nat.eqb_spec q p); auto. subst.
        destruct Ht as [Ht|(r & k & Ht)]; congruence.
      - injection H0 as <-. simpl. rewrite HP. destruct (Nat.eqb_spec q p); auto. subst.
        destruct Ht as [Ht|(r & k & Ht)]; congruence. }
    rewrite Hx. destruct (Nat.eqb_spec q p).
    + subst p. destruct (in_dec Nat.eq_dec q (q :: l)) as [|Hn]; [|exfalso; apply Hn; simpl; auto].
      destruct He as (m & Hm & He). rewrite Hm in M1. injection M1 as <-.
      rewrite M2. unfold is_last. simpl. rewrite He. auto.
    + destruct (in_dec Nat.eq_dec q (p :: l)) as [Hn|]; auto.
      simpl in Hn. intuition congruence.
Qed.

(** No callback other than on_epoch_begin changes the flag. *)
Lemma other_steps_last w ev w' q :
  (forall e, ev <> EvEpochBegin e) ->
  step tbl w ev = Ok w' -> po_last (w_pol w' q) = po_last (w_pol w q).
Proof.
  intros Hne H. destruct ev; simpl in H.
  - exfalso; eapply Hne; eauto.
  - unfold on_minibatch_begin in H.
    eapply (foldM_inv _ (fun x => po_last (w_pol x q) = po_last (w_pol w q))) in H; auto.
    clear. intros w1 pid w2 _ He H. inv_bind H. destruct x as [w3 me].
    apply touch_meta_same in H0. simpl in H0. destruct H0 as (_ & _ & P). rewrite <- He.
    destruct (tbl pid); try (injection H as <-; simpl; congruence).
    unfold prune_mb_begin in H.
    apply (for_params_inv (fun x => po_last (w_pol x q) = po_last (w_pol w1 q))) in H; auto.
    + clear. intros w n w' H1 H. rewrite <- H1. unfold prune_mb_begin_body in H.
      inv_bind H. inv_bind H. inv_bind H.
      assert (po_last (w_pol x0 q) = po_last (w_pol w q)) as E.
      { destruct (set_masks_now c e i k); [|injection H2 as <-; auto].
        eapply call_pruner_last; eauto. }
      destruct (if set_masks_now c e i k then folded c n x else None); injection H as <-; exact E.
    + simpl. congruence.
  - inv_bind H. injection H as <-. unfold before_backward_pass in H0.
    eapply (foldM_inv _ (fun x => po_last (w_pol (fst x) q) = po_last (w_pol w q))) in H0; auto.
    intros [w1 [ov cs]] pid s' _ H1 H2. simpl in *.
    destruct (policy_backward tbl pid ov (with_log w1 (CbBackward, pid, e))); simpl in H2;
      try discriminate; injection H2 as <-; simpl; auto.
  - unfold before_parameter_optimization in H.
    eapply (foldM_inv _ (fun x => po_last (w_pol x q) = po_last (w_pol w q))) in H; auto.
    clear. intros w1 pid w2 _ He H. inv_bind H. destruct x as [w3 me].
    apply touch_meta_same in H0. simpl in H0. destruct H0 as (_ & _ & P). rewrite <- He.
    destruct (tbl pid); try (injection H as <-; simpl; congruence).
    apply (for_params_inv (fun x => po_last (w_pol x q) = po_last (w_pol w1 q))) in H; auto.
    + clear. intros w n w' H1 H. inv_bind H. inv_bind H. injection H as <-. simpl. auto.
    + simpl. congruence.
  - injection H as <-. auto.
  - unfold on_minibatch_end in H. inv_bind H.
    apply (for_params_inv (fun x => po_last (w_pol x q) = po_last (w_pol w q))) in H0; auto.
    2:{ clear. intros w1 n w2 H1 H. rewrite <- H1. unfold mask_all_body in H. inv_bind H.
        destruct (dget (w_maskers w1) n).
        - destruct (false || negb (mk_fwd_only m)); injection H as <-; auto.
        - inv_bind H. destruct x0; [|injection H as <-; auto]. inv_bind H. injection H as <-. auto. }
    rewrite <- H0. clear H0.
    eapply (foldM_inv _ (fun y => po_last (w_pol y q) = po_last (w_pol x q))) in H; auto.
    clear. intros w1 pid w2 _ He H. rewrite <- He. simpl in H. destruct (tbl pid).
    + unfold prune_mb_end in H. destruct (pc_discard c); [|injection H as <-; auto].
      apply (for_params_inv (fun x => po_last (w_pol x q) = po_last (w_pol w1 q))) in H; auto.
      clear. intros w n w' H1 H. inv_bind H. injection H as <-. auto.
    + unfold reg_mb_end in H. destruct (negb (rg_criteria r)); [injection H as <-; auto|].
      apply (for_params_inv (fun x => po_last (w_pol x q) = po_last (w_pol w1 q))) in H; auto.
      intros w n w' H1 H2. unfold reg_mb_end_body in H2. inv_bind H2. inv_bind H2.
      injection H2 as <-. auto.
    + injection H as <-. auto.
    + injection H as <-. auto.
  - unfold on_epoch_end in H.
    eapply (foldM_inv _ (fun x => po_last (w_pol x q) = po_last (w_pol w q))) in H; auto.
    clear. intros w1 pid w2 _ He H. inv_bind H. destruct x as [w3 me].
    apply touch_meta_same in H0. simpl in H0. destruct H0 as (_ & _ & P). rewrite <- He.
    destruct (tbl pid); try (injection H as <-; simpl; congruence).
    unfold prune_epoch_end in H.
    destruct (po_last (w_pol (with_log w3 (CbEpochEnd, pid, e)) pid)); [|injection H as <-; simpl; congruence].
    apply (for_params_inv (fun x => po_last (w_pol x q) = po_last (w_pol w1 q))) in H; auto.
    + clear. intros w n w' H1 H. unfold prune_epoch_end_body in H. inv_bind H. inv_bind H.
      injection H as <-. auto.
    + simpl. congruence.
  - apply (for_params_inv (fun x => po_last (w_pol x q) = po_last (w_pol w q))) in H; auto.
    clear. intros w1 n w2 H1 H. rewrite <- H1. unfold mask_all_body in H. inv_bind H.
    destruct (dget (w_maskers w1) n).
    + destruct (is_forward || negb (mk_fwd_only m)); injection H as <-; auto.
    + inv_bind H. destruct x0; [|injection H as <-; auto]. inv_bind H. injection H as <-. auto.
Qed.

(** The last scheduled epoch of a range schedule is ending_epoch - 1 iff the frequency
    divides ending_epoch - 1 - starting_epoch. *)
Lemma last_epoch_hit_iff a st en fr :
  valid_add a -> ad_epochs a = None ->
  ad_start a = Some st -> ad_end a = Some en -> ad_freq a = Some fr ->
  (times_scheduled a (en - 1) <> 0%nat <-> (fr | en - 1 - st)%Z).
Proof.
  intros [[_ (st' & en' & fr' & H1 & H2 & H3 & H4 & H5)]|(l & H & _)] He Hs Hn Hf; [|congruence].
  assert (st' = st /\ en' = en /\ fr' = fr) as (-> & -> & ->) by (repeat split; congruence).
  unfold times_scheduled. rewrite He, Hs, Hn, Hf.
  assert (Z.leb st (en - 1) = true) as -> by lia. assert (Z.ltb (en - 1) en = true) as -> by lia.
  simpl. split.
  - destruct (Z.eqb_spec ((en - 1 - st) mod fr) 0); [|congruence]. intros _.
    apply Z.mod_divide; [lia|auto].
  - intros Hd. apply Z.mod_divide in Hd; [|lia]. rewrite Hd. simpl. discriminate.
Qed.

Lemma count_expected adds e q :
  In q (expected_policies adds e) <->
  exists a, In a adds /\ ad_policy a = q /\ times_scheduled a e <> 0%nat.
Proof.
  unfold expected_policies. rewrite in_flat_map. split.
  - intros (a & Ha & Hr). exists a. apply repeat_spec in Hr as Hq.
    repeat split; auto. intro Hz. rewrite Hz in Hr. destruct Hr.
  - intros (a & Ha & Hq & Hz). exists a. split; auto. subst q.
    destruct (times_scheduled a e); [congruence|]. simpl; auto.
Qed.

(** When no policy of the epoch is in its last epoch, on_epoch_end changes neither the
    parameters nor the maskers. *)
Lemma epoch_end_not_last e w w' :
  (forall q, In q (policies_at (sc_policies (w_sched w)) e) -> po_last (w_pol w q) = false) ->
  on_epoch_end tbl e w = Ok w' ->
  w_params w' = w_params w /\ w_maskers w' = w_maskers w.
Proof.
  unfold on_epoch_end. generalize (policies_at (sc_policies (w_sched w)) e) as l.
  intros l Hl H.
  eapply (foldM_inv _ (fun x => w_params x = w_params w /\ w_maskers x = w_maskers w /\ w_pol x = w_pol w)) in H; auto.
  - tauto.
  - clear H. intros w1 pid w2 Hin (A & B & C) H. inv_bind H. destruct x as [w3 me].
    apply touch_meta_same in H0. simpl in H0. destruct H0 as (P & M & Po).
    destruct (tbl pid); try (injection H as <-; simpl; repeat split; congruence).
    unfold prune_epoch_end in H. simpl in H. rewrite Po, C, (Hl pid Hin) in H.
    injection H as <-. simpl. repeat split; congruence.
Qed.

(** The frequency-does-not-divide case: the flag is false for ever. *)
Lemma never_last adds s w h w1 a st en fr :
  foldM add_policy adds new_sched = Ok s ->
  NoDup (map ad_policy adds) ->
  In a adds -> ad_epochs a = None ->
  ad_start a = Some st -> ad_end a = Some en -> ad_freq a = Some fr ->
  valid_add a ->
  ~ (fr | en - 1 - st)%Z ->
  w_sched w = s ->
  po_last (w_pol w (ad_policy a)) = false ->
  run tbl h w = Ok w1 ->
  po_last (w_pol w1 (ad_policy a)) = false.
Proof.
  intros Ha Hnd Hin He Hs Hn Hf Hv Hdiv Hw Hl Hr.
  assert (has_end w (ad_policy a) en) as Hend.
  { destruct (add_all_meta adds new_sched s a Ha Hin Hnd) as (m & M1 & M2).
    exists m. rewrite Hw. split; auto. rewrite M2. unfold add_end. rewrite He, Hn. auto. }
  unfold run in Hr.
  apply (foldM_inv (step tbl) (fun x =>
      po_last (w_pol x (ad_policy a)) = false /\ has_end x (ad_policy a) en /\
      sc_policies (w_sched x) = sc_policies s)) in Hr; [tauto| |repeat split; auto; congruence].
  intros x ev x' _ (L & E & P) Hst.
  pose proof (step_log _ _ _ _ Hst) as [P' _].
  pose proof (step_end _ _ _ _ _ Hst E) as E'.
  repeat split; auto; [|congruence].
  destruct ev; try (erewrite other_steps_last; [exact L| |exact Hst]; intros ? ?; discriminate).
  simpl in Hst. rename e into e0.
  (* a policy that is neither pruning nor regularization never sets the flag *)
  assert ((exists c pr, tbl (ad_policy a) = PPrune c pr) \/ (exists r k, tbl (ad_policy a) = PReg r k)
          \/ tbl (ad_policy a) = PLR \/ (exists f, tbl (ad_policy a) = PLoss f)) as Ht.
  { destruct (tbl (ad_policy a)); eauto 6. }
  assert (forall c pr, tbl (ad_policy a) = PPrune c pr \/ (exists r k, tbl (ad_policy a) = PReg r k) ->
      po_last (w_pol x' (ad_policy a)) = false) as Hmain.
  { intros c pr Hk. rewrite (on_epoch_begin_last _ _ _ _ _ c pr Hst Hk E).
    rewrite P, (add_all_policies adds new_sched s e0 Ha). simpl.
    destruct (in_dec Nat.eq_dec (ad_policy a) (expected_policies adds e0)) as [Hin'|]; auto.
    apply Z.eqb_neq. intros ->. apply Hdiv.
    apply (last_epoch_hit_iff a st en fr); auto.
    apply count_expected in Hin'. destruct Hin' as (b & Hb & Hq & Ht').
    assert (b = a) as ->; auto. clear - Hnd Hin Hb Hq.
    induction adds as [|y adds IH]; [destruct Hb|]. inversion Hnd; subst.
    destruct Hin as [->|Hin], Hb as [->|Hb]; auto.
    - exfalso. apply H1. rewrite <- Hq. apply in_map; auto.
    - exfalso. apply H1. rewrite Hq. apply in_map; auto. }
  destruct Ht as [(c & pr & Ht)|[Ht|Ht]].
  - eapply Hmain; eauto.
  - eapply (Hmain (mkCfg false 0 false false false false false None) (fun ps _ _ _ m => Ok (ps, m))); eauto.
  - (* flag untouched *)
    rewrite <- L. clear - Hst Ht. unfold on_epoch_begin in Hst.
    eapply (foldM_inv _ (fun y => po_last (w_pol y (ad_policy a)) = po_last (w_pol x (ad_policy a)))) in Hst; auto.
    intros w1 pid w2 _ He H. inv_bind H. destruct x0 as [w3 me].
    apply touch_meta_same in H0. simpl in H0. destruct H0 as (_ & _ & P). rewrite <- He.
    destruct (tbl pid) eqn:Et.
    + apply (prune_epoch_begin_last _ _ _ _ _ _ (ad_policy a)) in H. rewrite H.
      destruct (Nat.eqb_spec (ad_policy a) pid); [subst pid|simpl; congruence].
      destruct Ht as [Ht|(f & Ht)]; congruence.
    + unfold reg_epoch_begin in H. injection H as <-. simpl.
      destruct (Nat.eqb_spec (ad_policy a) pid); [subst pid|simpl; congruence].
      destruct Ht as [Ht|(f & Ht)]; congruence.
    + injection H as <-. simpl. congruence.
    + injection H as <-. simpl. congruence.
Qed.

End Proofs.
