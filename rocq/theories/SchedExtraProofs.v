(** Further scheduler lemmas: double copies over whole epochs, missing maskers, the
    mini-batch condition. *)
From Coq Require Import String List ZArith QArith Bool Arith Lia.
From Verif Require Import Base Names SchedModel SchedSpec SchedProofs SchedMaskProofs
  SchedPolicyProofs SchedPolicyProofs2.
Import ListNotations.

Lemma set_masks_now_iff c e i k :
  set_masks_now c e i k = true <->
  ((0 < i /\ pc_mbfreq c <> 0 /\ (pc_mbfreq c | e * k + i))%Z \/
   (pc_skip_first c = true /\ (e * k + i = 1)%Z)).
Proof.
  unfold set_masks_now. rewrite orb_true_iff, !andb_true_iff, negb_true_iff, Z.ltb_lt, Z.eqb_neq, !Z.eqb_eq.
  split; (intros [[[A B] C]|H] || intros [(A & B & C)|H]); auto; left.
  - repeat split; auto. apply Z.mod_divide; auto.
  - repeat split; auto. apply Z.mod_divide; auto.
Qed.

Section Proofs.
Context {PS : Type}.
Variable tbl : nat -> policy PS.

(** Every masker of the model is set up for double copies, with no pending copy. *)
Definition double_ready (w : world PS) : Prop :=
  dkeys (w_maskers w) = dkeys (w_params w) /\
  forall n mk, In n (dkeys (w_params w)) -> dget (w_maskers w) n = Some mk ->
     mk_double mk = true /\ mk_copy mk = None /\ mk_is_reg mk = false.

Lemma epoch_begin_body_flags pid c pr me (w w' : world PS) n :
  prune_epoch_begin_body pid c pr me false w n = Ok w' ->
  frame n w w' /\ exists m m', dget (w_maskers w) n = Some m /\ dget (w_maskers w') n = Some m' /\
    mk_double m' = pc_double c /\ mk_fwd_only m' = pc_fwd_only c /\
    mk_copy m' = mk_copy m /\ mk_is_reg m' = mk_is_reg m /\ dget (w_params w') n = dget (w_params w) n.
Proof.
  intro H. pose proof (prune_epoch_begin_body_spec _ _ _ _ _ _ _ _ H) as [F P].
  split; auto. unfold prune_epoch_begin_body in H.
  inv_bind H. inv_bind H. inv_bind H. apply get_param_ok in H0. apply get_masker_ok in H1.
  assert (mk_double x1 = pc_double c /\ mk_fwd_only x1 = pc_fwd_only c /\
          mk_copy x1 = mk_copy x0 /\ mk_is_reg x1 = mk_is_reg x0) as Hx.
  { destruct (pc_mask_grad c).
    - destruct (folded c n x); [discriminate|]. injection H2 as <-. simpl. auto.
    - injection H2 as <-. simpl. auto. }
  rewrite P. destruct (pc_skip_first c).
  - injection H as <-. exists x0, x1. simpl. rewrite dget_dset_same. intuition.
  - apply call_pruner_spec in H. destruct H as (_ & _ & p & m & ps & y & A & B & C & D).
    simpl in B. rewrite dget_dset_same in B. injection B as <-.
    exists x0, (set_mask x1 y). simpl. intuition.
Qed.

(** A policy whose on_epoch_begin has never run configures all maskers. *)
Lemma epoch_begin_double e (w w' : world PS) q c pr :
  NoDup (dkeys (w_params w)) ->
  policies_at (sc_policies (w_sched w)) e = [q] ->
  tbl q = PPrune c pr -> pc_double c = true -> po_init (w_pol w q) = false ->
  dkeys (w_maskers w) = dkeys (w_params w) ->
  (forall n mk, dget (w_maskers w) n = Some mk -> mk_copy mk = None /\ mk_is_reg mk = false) ->
  on_epoch_begin tbl e w = Ok w' -> double_ready w' /\ w_params w' = w_params w.
Proof.
  intros Hnd Hp Ht Hd Hi Hk Hf H. unfold on_epoch_begin in H. rewrite Hp in H. cbn [foldM] in H.
  inv_bind H. injection H as <-. inv_bind H0. destruct x0 as [w1 me].
  apply touch_meta_same in H. simpl in H. destruct H as (P & M & Po). rewrite Ht in H0.
  unfold prune_epoch_begin in H0. simpl in H0. rewrite Po, Hi in H0.
  eapply (for_params_local _ (fun n op om op' om' =>
    exists m m', om = Some m /\ om' = Some m' /\
    mk_double m' = pc_double c /\ mk_fwd_only m' = pc_fwd_only c /\
    mk_copy m' = mk_copy m /\ mk_is_reg m' = mk_is_reg m /\ op' = op)) in H0.
  - destruct H0 as [[K1 K2] HR]. simpl in *. rewrite P in K1. rewrite M in K2.
    split.
    + split; [congruence|]. intros n mk Hn Hg. rewrite K1 in Hn. destruct (HR n) as [I _]. simpl in I.
      rewrite P in I. destruct (I Hn) as (m & m' & A & B & C & D & E & F & _).
      rewrite M in A. rewrite Hg in B. injection B as <-. destruct (Hf n m A). intuition congruence.
    + apply dict_ext; auto; [rewrite K1; auto|]. intros n Hn. rewrite K1 in Hn. destruct (HR n) as [I _].
      simpl in I. rewrite P in I. destruct (I Hn) as (m & m' & A & B & C & D & E & F & G). congruence.
  - intros w2 n w2' H2. apply epoch_begin_body_flags in H2. exact H2.
  - simpl. rewrite P. auto.
Qed.

Lemma mask_all_maskers fwd (w w' : world PS) :
  (forall n, In n (dkeys (w_params w)) -> In n (dkeys (w_maskers w))) ->
  mask_all_weights fwd w = Ok w' -> w_maskers w' = w_maskers w.
Proof.
  intros Hk H. unfold mask_all_weights, for_params in H.
  revert H. assert (forall l (w1 : world PS), (forall n, In n l -> In n (dkeys (w_maskers w1))) ->
    foldM (mask_all_body fwd) l w1 = Ok w' -> w_maskers w' = w_maskers w1) as Hg.
  { clear. induction l as [|n l IH]; intros w1 Hk H; cbn [foldM] in H.
    - injection H as <-; auto.
    - inv_bind H. assert (w_maskers x = w_maskers w1) as E.
      { unfold mask_all_body in H0. inv_bind H0. destruct (dget (w_maskers w1) n) eqn:Eg.
        - destruct (fwd || negb (mk_fwd_only m)); injection H0 as <-; auto.
        - apply dget_None_notin in Eg. exfalso. apply Eg. apply Hk. simpl; auto. }
      rewrite <- E. apply IH; auto. rewrite E. intros; apply Hk; simpl; auto. }
  apply Hg; auto.
Qed.

Lemma mb_end_double e i k (w w' : world PS) q c pr :
  NoDup (dkeys (w_params w)) ->
  policies_at (sc_policies (w_sched w)) e = [q] -> tbl q = PPrune c pr ->
  double_ready w -> on_minibatch_end tbl e i k w = Ok w' -> double_ready w'.
Proof.
  intros Hnd Hp Ht [Hk Hd] H. pose proof (step_keys tbl w (EvMBEnd e i k) w' H) as [K1 K2].
  split; [congruence|].
  unfold on_minibatch_end in H. inv_bind H. pose proof (mask_all_quiet _ _ _ H0) as (_ & Sp & _).
  rewrite Sp, Hp in H. cbn [foldM] in H. inv_bind H. injection H as <-. rewrite Ht in H1.
  pose proof (for_params_keys _ _ _ (fun a b c => mask_all_body_keys false a c b) H0) as [KA KB].
  apply mask_all_maskers in H0; [|intros; congruence].
  unfold prune_mb_end in H1. destruct (pc_discard c).
  - eapply (for_params_local _ (fun n op om op' om' =>
      exists m, om = Some m /\ om' = Some (set_mask m None))) in H1.
    + destruct H1 as [_ HR]. simpl in HR. intros n mk Hn Hg. rewrite K1 in Hn.
      destruct (HR n) as [I _]. rewrite KA in I. destruct (I Hn) as (m & A & B).
      rewrite H0 in A. destruct (Hd n m Hn A) as (D1 & D2 & D3). rewrite Hg in B. injection B as ->. simpl. auto.
    + intros w2 n w2' H2. inv_bind H2. apply get_masker_ok in H. injection H2 as <-.
      split; [eapply put_masker_frame; eauto|]. exists x1. split; auto. simpl. apply dget_dset_same.
    + simpl. rewrite KA. auto.
  - injection H1 as <-. simpl in *. intros n mk Hn Hg. rewrite H0 in Hg. apply (Hd n); auto. congruence.
Qed.

(** One training step: the callbacks of a mini-batch with the optimizer in between. *)
Definition minibatch (e : Z) (b : Z * Z * Q * (dict tensor -> string -> tensor -> tensor)) : list event :=
  let '(i, k, loss, f) := b in
  [EvMBBegin e i k; EvBackward e loss; EvBeforeOpt e i k; EvUpdate f; EvMBEnd e i k].

Lemma update_double f (w w' : world PS) :
  double_ready w -> step tbl w (EvUpdate f) = Ok w' -> double_ready w' /\ dkeys (w_params w') = dkeys (w_params w).
Proof.
  intros [Hk Hd] H. simpl in H. injection H as <-. unfold double_ready. simpl.
  assert (dkeys (map (fun np => (fst np, f (w_params w) (fst np) (snd np))) (w_params w)) = dkeys (w_params w)) as E.
  { unfold dkeys. rewrite map_map. reflexivity. }
  rewrite E. auto.
Qed.

Lemma step_meta_ex (w w' : world PS) ev q : step tbl w ev = Ok w' ->
  (exists m, meta_get (sc_meta (w_sched w)) q = Some m) -> exists m, meta_get (sc_meta (w_sched w')) q = Some m.
Proof.
  intros H [m Hm]. destruct (step_end tbl w ev w' q (me_end m) H) as (m' & Hm' & _); eauto.
  exists m. auto.
Qed.

Lemma minibatch_double e b (w w' : world PS) q c pr :
  NoDup (dkeys (w_params w)) ->
  policies_at (sc_policies (w_sched w)) e = [q] -> tbl q = PPrune c pr -> pc_fold c = None ->
  (exists m, meta_get (sc_meta (w_sched w)) q = Some m) ->
  double_ready w -> run tbl (minibatch e b) w = Ok w' ->
  double_ready w' /\ NoDup (dkeys (w_params w')) /\ policies_at (sc_policies (w_sched w')) e = [q] /\
  exists m, meta_get (sc_meta (w_sched w')) q = Some m.
Proof.
  destruct b as [[[i k] loss] f]. intros Hnd Hp Ht Hf Hm Hr H.
  pose proof (run_keys _ _ _ _ H) as [K1 K2]. pose proof (run_policies _ _ _ _ H) as Kp.
  split; [|split; [rewrite K1; auto|split; [rewrite Kp; auto|]]].
  - unfold run, minibatch in H. cbn [foldM] in H.
    inv_bind H. inv_bind H. inv_bind H. inv_bind H. inv_bind H. injection H as <-.
    rename x into w1, x0 into w2, x1 into w3, x2 into w4, x3 into w5.
    cbn [step] in H1. inv_bind H1. destruct x as [w2' r]. injection H1 as <-. cbn [fst] in *.
    destruct Hm as [m0 Hm0]. destruct Hr as [Hk Hd].
    pose proof (double_copies_restore tbl e i k loss w w1 w2' w3 r q c pr m0 Hnd Hp Ht Hf Hm0 Hd H0 H H2)
      as (_ & P3 & D3).
    assert (same_keys w w3) as [KK1 KK2].
    { eapply same_keys_trans; [exact (step_keys tbl w _ w1 H0)|].
      eapply same_keys_trans; [exact (step_keys tbl w1 (EvBackward e loss) w2' ltac:(simpl; rewrite H; reflexivity))|].
      exact (step_keys tbl w2' _ w3 H2). }
    assert (double_ready w3) as R3.
    { split; [congruence|]. intros n mk Hn. apply D3. congruence. }
    pose proof (step_log tbl _ _ _ H0) as [S1 _].
    assert (step tbl w1 (EvBackward e loss) = Ok w2') as HB by (simpl; rewrite H; reflexivity).
    pose proof (step_log tbl _ _ _ HB) as [S2 _].
    pose proof (step_log tbl _ _ _ H2) as [S3 _].
    pose proof (step_log tbl _ _ _ H3) as [S4 _].
    destruct (update_double f w3 w4 R3 H3) as [R4 K4].
    eapply (mb_end_double e i k w4); eauto.
    + rewrite K4, KK1. auto.
    + rewrite S4, S3, S2, S1. auto.
  - destruct Hm as [m Hm]. destruct (run_end tbl _ _ _ q (me_end m) H) as (m' & Hm' & _); eauto.
    exists m; auto.
Qed.

Lemma minibatches_double e bs (w w' : world PS) q c pr :
  NoDup (dkeys (w_params w)) ->
  policies_at (sc_policies (w_sched w)) e = [q] -> tbl q = PPrune c pr -> pc_fold c = None ->
  (exists m, meta_get (sc_meta (w_sched w)) q = Some m) ->
  double_ready w -> run tbl (flat_map (minibatch e) bs) w = Ok w' ->
  double_ready w' /\ NoDup (dkeys (w_params w')) /\ policies_at (sc_policies (w_sched w')) e = [q] /\
  exists m, meta_get (sc_meta (w_sched w')) q = Some m.
Proof.
  revert w; induction bs as [|b bs IH]; intros w Hnd Hp Ht Hf Hm Hr H.
  - simpl in H. injection H as <-. auto.
  - cbn [flat_map] in H. unfold run in H. rewrite foldM_app in H. inv_bind H.
    destruct (minibatch_double e b w x q c pr) as (A & B & C & D); auto.
    eapply (IH x); eauto.
Qed.

(** The full statement: a fresh scheduler, any number of training steps in the policy's
    first epoch, then one more: the weights seen by the loss are the masked ones and the
    optimizer gets back the dense ones. *)
Lemma double_copies_epoch e bs (w w0 w1 w2 w3 w4 : world PS) q c pr i k loss r :
  NoDup (dkeys (w_params w)) ->
  policies_at (sc_policies (w_sched w)) e = [q] -> tbl q = PPrune c pr -> pc_fold c = None ->
  pc_double c = true ->
  (exists m, meta_get (sc_meta (w_sched w)) q = Some m) ->
  po_init (w_pol w q) = false ->
  w_maskers w = map (fun np => (fst np, new_masker)) (w_params w) ->
  on_epoch_begin tbl e w = Ok w0 ->
  run tbl (flat_map (minibatch e) bs) w0 = Ok w1 ->
  on_minibatch_begin tbl e i k w1 = Ok w2 ->
  before_backward_pass tbl e loss w2 = Ok (w3, r) ->
  before_parameter_optimization tbl e i k w3 = Ok w4 ->
  (forall n p, dget (w_params w1) n = Some p ->
     exists mk, dget (w_maskers w2) n = Some mk /\
       dget (w_params w2) n = Some (match mk_mask mk with Some m => tmul p m | None => p end)) /\
  w_params w4 = w_params w1.
Proof.
  intros Hnd Hp Ht Hf Hd [m Hm] Hi Hmk H0 H1 H2 H3 H4.
  assert (forall n mk, dget (w_maskers w) n = Some mk -> mk = new_masker) as Hfr.
  { rewrite Hmk. intros n mk Hg. apply dget_In in Hg. apply in_map_iff in Hg. destruct Hg as (x & E & _). congruence. }
  destruct (epoch_begin_double e w w0 q c pr) as (R0 & P0); auto.
  { rewrite Hmk. unfold dkeys. rewrite map_map. reflexivity. }
  { intros n mk Hg. apply Hfr in Hg. subst; auto. }
  pose proof (step_log tbl w (EvEpochBegin e) w0 H0) as [S0 _].
  destruct (minibatches_double e bs w0 w1 q c pr) as (R1 & N1 & S1 & m1 & M1); auto.
  { rewrite P0; auto. } { rewrite S0; auto. }
  { eapply (step_meta_ex w w0 (EvEpochBegin e)); eauto. }
  destruct (double_copies_restore tbl e i k loss w1 w2 w3 w4 r q c pr m1 N1 S1 Ht Hf M1 (proj2 R1) H2 H3 H4)
    as (A & B & _). auto.
Qed.

(* ------------------------------------------------------------------------- *)
(** ** A parameter without a masker (e.g. renamed by a quantizer for training) makes the
    first epoch of a pruning policy fail. *)
Lemma epoch_begin_needs_maskers e (w w' : world PS) q c pr :
  In q (policies_at (sc_policies (w_sched w)) e) -> tbl q = PPrune c pr ->
  on_epoch_begin tbl e w = Ok w' ->
  forall n, In n (dkeys (w_params w)) -> In n (dkeys (w_maskers w)).
Proof.
  intros Hin Ht H n Hn. unfold on_epoch_begin in H. revert Hin H.
  generalize (policies_at (sc_policies (w_sched w)) e) as l. intros l Hin H.
  assert (forall w1, same_keys w w1 -> forall l, In q l ->
    foldM (fun w pid =>
    do wm <- touch_meta e w pid;
    let (w, me) := wm in
    let w := with_log w (CbEpochBegin, pid, e) in
    match tbl pid with
    | PPrune c pr => prune_epoch_begin pid c pr me w
    | PReg r keep => reg_epoch_begin pid me w
    | _ => Ok w
    end) l w1 = Ok w' -> In n (dkeys (w_maskers w))) as Hg.
  { clear l Hin H. intros w1 K l. revert w1 K. induction l as [|p l IH]; intros w1 [K1 K2] Hin H; [destruct Hin|].
    cbn [foldM] in H. inv_bind H. inv_bind H0. destruct x0 as [w2 me].
    pose proof (touch_meta_same _ _ _ _ H1) as (P & M & _). simpl in P, M.
    destruct (Nat.eq_dec p q) as [->|Hne].
    - rewrite Ht in H0. unfold prune_epoch_begin in H0.
      assert (forall b l (w3 w4 : world PS), foldM (prune_epoch_begin_body q c pr me b) l w3 = Ok w4 ->
         In n l -> In n (dkeys (w_maskers w3))) as Hl.
      { clear. intros b. induction l as [|a l IH]; intros w3 w4 H Hin; [destruct Hin|].
        cbn [foldM] in H. inv_bind H.
        destruct Hin as [->|Hin].
        - unfold prune_epoch_begin_body in H0. destruct b.
          + apply call_pruner_spec in H0. destruct H0 as (_ & _ & p & m & ps & x' & _ & B & _).
            eapply dget_Some_In; eauto.
          + inv_bind H0. inv_bind H0. apply get_masker_ok in H2. eapply dget_Some_In; eauto.
        - apply prune_epoch_begin_body_spec in H0. destruct H0 as [[[_ K] _] _]. rewrite <- K. eapply IH; eauto. }
      unfold for_params in H0. eapply Hl in H0; [|simpl; rewrite P, K1; exact Hn].
      simpl in H0. rewrite M in H0. congruence.
    - destruct Hin as [|Hin]; [congruence|]. apply (IH x); auto.
      assert (same_keys w1 x) as Kx.
      { destruct (tbl p) as [c0 pr0|r k| |g].
        - unfold prune_epoch_begin in H0. eapply same_keys_trans; [|eapply (for_params_keys _ _ _ (fun a b c Hb => proj1 (proj1 (prune_epoch_begin_body_spec _ _ _ _ _ a c b Hb))) H0)].
          unfold same_keys. simpl. rewrite P, M. auto.
        - unfold reg_epoch_begin in H0. injection H0 as <-. unfold same_keys. simpl. rewrite P, M. auto.
        - injection H0 as <-. unfold same_keys. simpl. rewrite P, M. auto.
        - injection H0 as <-. unfold same_keys. simpl. rewrite P, M. auto. }
      eapply same_keys_trans; [|exact Kx]. split; auto. }
  eapply Hg; eauto. apply same_keys_refl.
Qed.

End Proofs.
