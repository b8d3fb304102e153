(** Effects of the policies on parameters and masks. *)
From Coq Require Import String List ZArith QArith Bool Arith Lia Lqa.
From Verif Require Import Base Names SchedModel SchedSpec SchedProofs SchedMaskProofs SchedPolicyProofs.
Import ListNotations.

Lemma dict_ext {A} (d d' : dict A) :
  dkeys d = dkeys d' -> NoDup (dkeys d) ->
  (forall n, In n (dkeys d) -> dget d n = dget d' n) -> d = d'.
Proof.
  revert d'; induction d as [|(k, v) d IH]; intros d' HK Hnd H.
  - destruct d'; [auto|discriminate].
  - destruct d' as [|(k', v') d']; [discriminate|]. simpl in HK. inversion HK; subst k'.
    inversion Hnd; subst.
    assert (v = v') as ->.
    { specialize (H k (or_introl eq_refl)). simpl in H. rewrite String.eqb_refl in H. congruence. }
    f_equal. apply IH; auto. intros n Hn. specialize (H n (or_intror Hn)). simpl in H.
    destruct (String.eqb_spec n k); auto. subst. contradiction.
Qed.

Section Proofs.
Context {PS : Type}.
Variable tbl : nat -> policy PS.

(* ------------------------------------------------------------------------- *)
(** ** keep_mask at the last epoch *)
Definition permanent (w : world PS) (n : string) : Prop :=
  exists p mk, dget (w_params w) n = Some p /\ dget (w_maskers w) n = Some mk /\
    mk_fwd_only mk = false /\ mk_double mk = false /\ mk_handle mk = false /\
    (forall m, mk_mask mk = Some m -> masked p m).

Lemma tmul_masked_again p m m' : masked p m -> masked (tmul p m') m.
Proof.
  intros H i x y Hx Hy H0. unfold tmul in Hy.
  assert (forall i (p m' : tensor), nth_error (map2 Qmult p m') i = Some y ->
     exists a b, nth_error p i = Some a /\ y = a * b) as Hmul.
  { clear. induction i; intros [|a p] [|b m'] H; simpl in *; try discriminate.
    - inversion H; eauto.
    - apply IHi in H; auto. }
  destruct (Hmul _ _ _ Hy) as (a & b & Ha & ->).
  rewrite (H i x a Hx Ha H0). ring.
Qed.

Lemma epoch_end_body_masks c (w w' : world PS) n q mk :
  prune_epoch_end_body c w n = Ok w' ->
  dget (w_maskers w) q = Some mk ->
  exists mk', dget (w_maskers w') q = Some mk' /\ mk_mask mk' = mk_mask mk.
Proof.
  intros H Hq. apply prune_epoch_end_body_spec in H. destruct H as ((_ & F) & p & m & H1 & H2 & H3 & H4).
  destruct (string_dec q n).
  - subst q. rewrite H4. eexists; split; eauto. rewrite Hq in H2. injection H2 as <-.
    destruct (pc_keep c); simpl; destruct (mk_handle mk); simpl; auto.
  - destruct (F q n0) as [_ E]. rewrite E. eauto.
Qed.

Lemma prune_epoch_end_permanent q c (w w' : world PS) :
  NoDup (dkeys (w_params w)) ->
  pc_keep c = true -> po_last (w_pol w q) = true ->
  prune_epoch_end q c w = Ok w' ->
  forall n, In n (dkeys (w_params w)) -> permanent w' n.
Proof.
  intros Hnd Hk Hl H n Hn. unfold prune_epoch_end in H. rewrite Hl in H.
  eapply (for_params_local _ (fun n p m p' m' =>
     exists x mk, p' = Some x /\ m' = Some mk /\ mk_fwd_only mk = false /\ mk_double mk = false
       /\ mk_handle mk = false /\ (forall m, mk_mask mk = Some m -> masked x m))) in H; auto.
  - destruct H as [_ H]. destruct (H n) as [I _]. destruct (I Hn) as (x & mk & A). exists x, mk. exact A.
  - intros w1 n1 w1' H1. apply prune_epoch_end_body_spec in H1.
    destruct H1 as (F & p & m & H2 & H3 & H4 & H5). split; auto. rewrite Hk in H4, H5.
    do 2 eexists. split; [exact H4|]. split; [exact H5|]. simpl.
    destruct (mk_handle m) eqn:Eh; simpl; rewrite ?Eh; repeat split; auto;
      intros m0 Hm; apply (mask_tensor_masked (set_fwd_only (set_double m false) false)); exact Hm.
Qed.

Lemma prune_epoch_end_keeps_permanent q c (w w' : world PS) n :
  NoDup (dkeys (w_params w)) ->
  prune_epoch_end q c w = Ok w' -> In n (dkeys (w_params w)) -> permanent w n -> permanent w' n.
Proof.
  intros Hnd H Hn Hp. unfold prune_epoch_end in H. destruct (po_last (w_pol w q)); [|injection H as <-; auto].
  eapply (for_params_local _ (fun n p m p' m' =>
     forall x mk, p = Some x -> m = Some mk -> mk_fwd_only mk = false -> mk_double mk = false ->
       mk_handle mk = false -> (forall m, mk_mask mk = Some m -> masked x m) ->
     exists x mk, p' = Some x /\ m' = Some mk /\ mk_fwd_only mk = false /\ mk_double mk = false
       /\ mk_handle mk = false /\ (forall m, mk_mask mk = Some m -> masked x m))) in H; auto.
  - destruct H as [_ H]. destruct (H n) as [I _].
    destruct Hp as (p & mk & A & B & C & D & E & F).
    destruct (I Hn p mk A B C D E F) as (x & mk' & G). exists x, mk'. exact G.
  - intros w1 n1 w1' H1. apply prune_epoch_end_body_spec in H1.
    destruct H1 as (F & p & m & H2 & H3 & H4 & H5). split; auto.
    intros x mk Ex Em Ef Ed Eh Ek. rewrite H2 in Ex. injection Ex as <-.
    rewrite H3 in Em. injection Em as <-.
    do 2 eexists. split; [exact H4|]. split; [exact H5|].
    destruct (pc_keep c); simpl; rewrite Eh; simpl; repeat split; auto.
    intros m0 Hm. unfold mask_tensor. simpl. rewrite Hm. apply tmul_masked_again. auto.
Qed.

Lemma keep_mask_permanent e (w w' : world PS) q c pr :
  NoDup (dkeys (w_params w)) ->
  In q (policies_at (sc_policies (w_sched w)) e) ->
  tbl q = PPrune c pr -> pc_keep c = true ->
  po_last (w_pol w q) = true ->
  on_epoch_end tbl e w = Ok w' ->
  forall n, In n (dkeys (w_params w)) -> permanent w' n.
Proof.
  intros Hnd Hin Ht Hk Hl H n Hn. unfold on_epoch_end in H.
  revert Hin H. generalize (policies_at (sc_policies (w_sched w)) e) as l. intros l Hin H.
  assert (forall l (w w' : world PS), NoDup (dkeys (w_params w)) -> In n (dkeys (w_params w)) ->
    permanent w n -> foldM (fun w pid =>
    do wm <- touch_meta e w pid;
    let (w, me) := wm in
    let w := with_log w (CbEpochEnd, pid, e) in
    match tbl pid with
    | PPrune c pr => prune_epoch_end pid c w
    | PLR => Ok (with_lr w (pid, e + 1)%Z)
    | _ => Ok w
    end) l w = Ok w' -> permanent w' n) as Hkeep.
  { clear. induction l as [|p l IH]; intros w w' Hnd Hn Hp H.
    - simpl in H. injection H as <-; auto.
    - cbn [foldM] in H. inv_bind H. inv_bind H0. destruct x0 as [w1 me].
      apply touch_meta_same in H1. simpl in H1. destruct H1 as (P & M & Po).
      assert (permanent x n /\ dkeys (w_params x) = dkeys (w_params w)) as [Hpx Hkx].
      { assert (permanent (with_log w1 (CbEpochEnd, p, e)) n) as Hp1.
        { unfold permanent in *. simpl. rewrite P, M. exact Hp. }
        destruct (tbl p).
        - split.
          + eapply prune_epoch_end_keeps_permanent; [| exact H0| |exact Hp1]; simpl; rewrite P; auto.
          + unfold prune_epoch_end in H0.
            destruct (po_last (w_pol (with_log w1 (CbEpochEnd, p, e)) p)).
            * apply for_params_keys in H0.
              -- destruct H0 as [K _]. simpl in K. congruence.
              -- intros w2 n2 w2' H2. apply prune_epoch_end_body_spec in H2. apply H2.
            * injection H0 as <-. simpl. congruence.
        - injection H0 as <-. split; [exact Hp1|simpl; congruence].
        - injection H0 as <-. split; [exact Hp1|simpl; congruence].
        - injection H0 as <-. split; [exact Hp1|simpl; congruence]. }
      eapply IH; [| | |exact H]; rewrite ?Hkx; auto. }
  revert w Hnd Hl H Hn. induction l as [|p l IH]; intros w Hnd Hl H Hn; [destruct Hin|].
  cbn [foldM] in H. inv_bind H. inv_bind H0. destruct x0 as [w1 me].
  apply touch_meta_same in H1. simpl in H1. destruct H1 as (P & M & Po).
  assert (dkeys (w_params x) = dkeys (w_params w)) as Hkx.
  { destruct (tbl p); try (injection H0 as <-; simpl; congruence).
    unfold prune_epoch_end in H0.
    destruct (po_last (w_pol (with_log w1 (CbEpochEnd, p, e)) p)).
    * apply for_params_keys in H0.
      -- destruct H0 as [K _]. simpl in K. congruence.
      -- intros w2 n2 w2' H2. apply prune_epoch_end_body_spec in H2. apply H2.
    * injection H0 as <-. simpl. congruence. }
  destruct (Nat.eq_dec p q).
  - subst p. rewrite Ht in H0. eapply Hkeep; [| | |exact H]; rewrite ?Hkx; auto.
    eapply prune_epoch_end_permanent; [| | |exact H0|]; simpl; rewrite ?P, ?Po; auto.
  - destruct Hin as [Hin|Hin]; [congruence|].
    apply (IH Hin x); auto.
    + rewrite Hkx; auto.
    + assert (w_pol x q = w_pol w q) as ->; auto. rewrite <- Po.
      destruct (tbl p); try (injection H0 as <-; reflexivity).
      unfold prune_epoch_end in H0.
      destruct (po_last (w_pol (with_log w1 (CbEpochEnd, p, e)) p)); [|injection H0 as <-; auto].
      apply (for_params_inv (fun y => w_pol y q = w_pol w1 q)) in H0; auto.
      intros a b a' E1 E2. unfold prune_epoch_end_body in E2. inv_bind E2. inv_bind E2.
      injection E2 as <-. auto.
    + rewrite Hkx; auto.
Qed.

(* ------------------------------------------------------------------------- *)
(** ** on_minibatch_begin of a pruning policy *)
Lemma prune_mb_begin_effect pid c pr me (sm : bool) (w w' : world PS) n :
  pc_fold c = None ->
  prune_mb_begin_body pid c pr me sm w n = Ok w' ->
  frame n w w' /\
  exists p mk0 mk,
    dget (w_params w) n = Some p /\ dget (w_maskers w) n = Some mk0 /\
    (if sm then exists ps ps' x, pr ps me n p (mk_mask mk0) = Ok (ps', x) /\ mk = set_mask mk0 x
     else mk = mk0) /\
    dget (w_params w') n = Some (mask_tensor mk p) /\
    dget (w_maskers w') n = Some (fst (apply_mask mk p)).
Proof.
  intros Hf H. split; [eapply prune_mb_begin_body_spec; eauto|].
  unfold prune_mb_begin_body in H. inv_bind H. inv_bind H. inv_bind H.
  apply get_param_ok in H0. apply get_masker_ok in H2.
  assert ((if sm then folded c n x else None) = None) as Hfold.
  { destruct sm; auto. unfold folded. rewrite Hf. auto. }
  rewrite Hfold in H. injection H as <-.
  destruct sm.
  - apply call_pruner_spec in H1. destruct H1 as (_ & _ & p & m & ps & y & A & B & C & D).
    rewrite Hfold in C || idtac. rewrite H0 in A. injection A as <-.
    rewrite D in H2. injection H2 as <-.
    exists x, m, (set_mask m y). repeat split; auto.
    + unfold folded in C. rewrite Hf in C. eauto 6.
    + simpl. rewrite dget_dset_same, apply_mask_param. auto.
    + simpl. rewrite dget_dset_same. auto.
  - injection H1 as <-. exists x, x1, x1. repeat split; auto.
    + simpl. rewrite dget_dset_same, apply_mask_param. auto.
    + simpl. rewrite dget_dset_same. auto.
Qed.

(** Result of on_minibatch_begin when exactly one policy, a pruning policy without
    BN-folding, is scheduled in the epoch. *)
Lemma on_minibatch_begin_single e i k (w w' : world PS) q c pr m0 :
  NoDup (dkeys (w_params w)) ->
  policies_at (sc_policies (w_sched w)) e = [q] ->
  tbl q = PPrune c pr -> pc_fold c = None ->
  meta_get (sc_meta (w_sched w)) q = Some m0 ->
  on_minibatch_begin tbl e i k w = Ok w' ->
  dkeys (w_params w') = dkeys (w_params w) /\
  dkeys (w_maskers w') = dkeys (w_maskers w) /\
  forall n, In n (dkeys (w_params w)) ->
  exists p mk0 mk,
    dget (w_params w) n = Some p /\ dget (w_maskers w) n = Some mk0 /\
    (if set_masks_now c e i k
     then exists ps ps' x, pr ps (mkMeta (me_start m0) (me_end m0) (me_freq m0) (Some e)) n p (mk_mask mk0) = Ok (ps', x)
            /\ mk = set_mask mk0 x
     else mk = mk0) /\
    dget (w_params w') n = Some (mask_tensor mk p) /\
    dget (w_maskers w') n = Some (fst (apply_mask mk p)).
Proof.
  intros Hnd Hp Ht Hf Hm H. unfold on_minibatch_begin in H. rewrite Hp in H. cbn [foldM] in H.
  inv_bind H. injection H as <-. inv_bind H0. destruct x0 as [w1 me].
  pose proof (touch_meta_spec _ _ _ _ H) as (_ & _ & _ & P & M & _ & m1 & M1 & M2 & _). simpl in *.
  rewrite Hm in M1. injection M1 as <-. rewrite Ht in H0. unfold prune_mb_begin in H0.
  eapply (for_params_local _ (fun n op om op' om' =>
    exists p mk0 mk, op = Some p /\ om = Some mk0 /\
     (if set_masks_now c e i k
      then exists ps ps' x, pr ps me n p (mk_mask mk0) = Ok (ps', x) /\ mk = set_mask mk0 x
      else mk = mk0) /\ op' = Some (mask_tensor mk p) /\ om' = Some (fst (apply_mask mk p)))) in H0.
  - destruct H0 as [[K1 K2] HR]. simpl in *. rewrite P in K1. rewrite M in K2. repeat split; auto.
    intros n Hn. destruct (HR n) as [I _]. rewrite P, M in I. rewrite <- M2. apply I; auto.
  - intros w2 n w2' H2. apply prune_mb_begin_effect in H2; auto.
  - simpl. rewrite P. auto.
Qed.

(** The pruner is not consulted when no recomputation is due. *)
Lemma foldM_ext {A S} (f g : S -> A -> res S) l s :
  (forall s a, f s a = g s a) -> foldM f l s = foldM g l s.
Proof.
  intro H. revert s; induction l as [|a l IH]; intro s; simpl; auto.
  rewrite H. destruct (g s a); simpl; auto.
Qed.

Lemma prune_mb_begin_no_call pid c pr pr' me e i k (w : world PS) :
  set_masks_now c e i k = false ->
  prune_mb_begin pid c pr me e i k w = prune_mb_begin pid c pr' me e i k w.
Proof.
  intro H. unfold prune_mb_begin, for_params. rewrite H. apply foldM_ext. reflexivity.
Qed.

(* ------------------------------------------------------------------------- *)
(** ** Double copies *)
Lemma backward_same e loss (w w' : world PS) r :
  before_backward_pass tbl e loss w = Ok (w', r) ->
  w_params w' = w_params w /\ w_maskers w' = w_maskers w /\ w_sched w' = w_sched w /\ w_pol w' = w_pol w.
Proof.
  unfold before_backward_pass. intro H.
  eapply (foldM_inv _ (fun x => w_params (fst x) = w_params w /\ w_maskers (fst x) = w_maskers w
             /\ w_sched (fst x) = w_sched w /\ w_pol (fst x) = w_pol w)) in H; auto.
  intros [w1 [ov cs]] pid s' _ (A & B & C & D) H2. simpl in *.
  destruct (policy_backward tbl pid ov (with_log w1 (CbBackward, pid, e))); simpl in H2;
    try discriminate; injection H2 as <-; simpl; auto.
Qed.

Lemma double_copies_restore e i k loss (w w1 w2 w3 : world PS) r q c pr m0 :
  NoDup (dkeys (w_params w)) ->
  policies_at (sc_policies (w_sched w)) e = [q] ->
  tbl q = PPrune c pr -> pc_fold c = None ->
  meta_get (sc_meta (w_sched w)) q = Some m0 ->
  (forall n mk, In n (dkeys (w_params w)) -> dget (w_maskers w) n = Some mk ->
     mk_double mk = true /\ mk_copy mk = None /\ mk_is_reg mk = false) ->
  on_minibatch_begin tbl e i k w = Ok w1 ->
  before_backward_pass tbl e loss w1 = Ok (w2, r) ->
  before_parameter_optimization tbl e i k w2 = Ok w3 ->
  (forall n p, dget (w_params w) n = Some p ->
     exists mk, dget (w_maskers w1) n = Some mk /\
       dget (w_params w1) n = Some (match mk_mask mk with Some m => tmul p m | None => p end)) /\
  w_params w3 = w_params w /\
  (forall n mk, In n (dkeys (w_params w)) -> dget (w_maskers w3) n = Some mk ->
     mk_double mk = true /\ mk_copy mk = None /\ mk_is_reg mk = false).
Proof.
  intros Hnd Hp Ht Hf Hm Hd H1 H2 H3.
  pose proof (on_minibatch_begin_single _ _ _ _ _ _ _ _ _ Hnd Hp Ht Hf Hm H1) as (K1 & K2 & Hn1).
  apply backward_same in H2. destruct H2 as (B1 & B2 & B3 & _).
  assert (policies_at (sc_policies (w_sched w2)) e = [q]) as Hp2.
  { rewrite B3. apply (step_log tbl w (EvMBBegin e i k) w1) in H1. destruct H1 as [-> _]. auto. }
  unfold before_parameter_optimization in H3. rewrite Hp2 in H3. cbn [foldM] in H3.
  inv_bind H3. injection H3 as <-. inv_bind H. destruct x0 as [w4 me].
  apply touch_meta_same in H0. simpl in H0. destruct H0 as (P & M & _). rewrite Ht in H.
  unfold prune_before_opt in H.
  eapply (for_params_local _ (fun n op om op' om' =>
    exists p mk, op = Some p /\ om = Some mk /\ op' = Some (snd (revert_weights mk p)) /\
                 om' = Some (fst (revert_weights mk p)))) in H.
  2:{ intros w5 n w5' H5. apply prune_before_opt_body_spec in H5. exact H5. }
  2:{ simpl. rewrite P, B1, K1. auto. }
  destruct H as [[K3 K4] HR]. simpl in *. rewrite P, B1, K1 in K3.
  assert (forall n, In n (dkeys (w_params w)) ->
     exists p mk1, dget (w_params w) n = Some p /\ dget (w_maskers w1) n = Some mk1 /\
       dget (w_params w1) n = Some (match mk_mask mk1 with Some m => tmul p m | None => p end) /\
       dget (w_params x) n = Some p /\
       exists mk3, dget (w_maskers x) n = Some mk3 /\
         mk_double mk3 = true /\ mk_copy mk3 = None /\ mk_is_reg mk3 = false) as Hall.
  { intros n Hn. destruct (Hn1 n Hn) as (p & mk0 & mk & A1 & A2 & A3 & A4 & A5).
    destruct (Hd n mk0 Hn A2) as (D1 & D2 & D3).
    assert (mk_double mk = true /\ mk_copy mk = None /\ mk_is_reg mk = false) as (E1 & E2 & E3).
    { destruct (set_masks_now c e i k).
      - destruct A3 as (ps & ps' & y & _ & ->). simpl. auto.
      - subst mk; auto. }
    exists p, (fst (apply_mask mk p)). repeat split; auto.
    - rewrite A4. unfold mask_tensor. rewrite apply_mask_mask_or_none, E3. auto.
    - destruct (HR n) as [I _]. simpl in I. rewrite P, B1, K1 in I. specialize (I Hn).
      destruct I as (p' & mk' & I1 & I2 & I3 & I4).
      rewrite A4 in I1. injection I1 as <-. rewrite M, B2, A5 in I2. injection I2 as <-.
      rewrite I3. f_equal. unfold revert_weights, apply_mask, mask_tensor.
      destruct (mk_mask mk) eqn:Em; simpl.
      + rewrite E1. simpl. rewrite E3. simpl. rewrite E1. simpl. auto.
      + rewrite E1. simpl. rewrite E2. auto.
    - destruct (HR n) as [I _]. simpl in I. rewrite P, B1, K1 in I. specialize (I Hn).
      destruct I as (p' & mk' & I1 & I2 & I3 & I4). rewrite M, B2, A5 in I2. injection I2 as <-.
      rewrite I4. eexists; split; eauto. unfold revert_weights, apply_mask.
      destruct (mk_mask mk) eqn:Em; simpl.
      + rewrite E1. simpl. rewrite E3. simpl. rewrite E1. simpl. auto.
      + rewrite E1. simpl. rewrite E2. simpl. auto. }
  repeat split.
  - intros n p Hg. destruct (Hall n (dget_Some_In _ _ _ Hg)) as (p' & mk1 & A & B & C & _).
    rewrite Hg in A. injection A as <-. eauto.
  - apply dict_ext; auto.
    + rewrite K3; auto.
    + intros n Hn. rewrite K3 in Hn. destruct (Hall n Hn) as (p & mk1 & A & _ & _ & D & _).
      congruence.
  - destruct (Hall n H) as (p & mk1 & _ & _ & _ & _ & mk3 & A & B & C & D). congruence.
  - destruct (Hall n H) as (p & mk1 & _ & _ & _ & _ & mk3 & A & B & C & D). congruence.
  - destruct (Hall n H) as (p & mk1 & _ & _ & _ & _ & mk3 & A & B & C & D). congruence.
Qed.

(* ------------------------------------------------------------------------- *)
(** ** Regularization masks *)
Lemma reg_mask_lifetime e i k (w w0 w' : world PS) q r keep :
  NoDup (dkeys (w_params w)) ->
  policies_at (sc_policies (w_sched w)) e = [q] ->
  tbl q = PReg r keep -> rg_criteria r = true ->
  mask_all_weights false w = Ok w0 ->
  on_minibatch_end tbl e i k w = Ok w' ->
  forall n p tm, dget (w_params w0) n = Some p -> rg_threshold r n p = Some tm ->
  dget (w_params w') n = Some (tmul p tm) /\
  exists mk, dget (w_maskers w') n = Some mk /\
    mk_mask mk = (if (Z.eqb i (k - 1) && po_last (w_pol w q) && keep)%bool then Some tm else None).
Proof.
  intros Hnd Hp Ht Hc Hm H n p tm Hg Hthr.
  unfold on_minibatch_end in H. rewrite Hm in H. simpl in H.
  pose proof (mask_all_quiet _ _ _ Hm) as (_ & Sp & _). rewrite Sp, Hp in H.
  cbn [foldM] in H. inv_bind H. injection H as <-. simpl in H0. rewrite Ht in H0.
  unfold reg_mb_end in H0. rewrite Hc in H0. simpl in H0.
  assert (po_last (w_pol w0 q) = po_last (w_pol w q)) as Hlast.
  { apply (other_steps_last tbl w (EvMaskAll false) w0); auto. intros ? ?; discriminate. }
  rewrite Hlast in H0.
  assert (dkeys (w_params w0) = dkeys (w_params w)) as K0.
  { apply (for_params_keys (mask_all_body false)) in Hm; [apply Hm|].
    intros ? ? ?; apply mask_all_body_keys. }
  set (km := (Z.eqb (k - 1) i && po_last (w_pol w q) && keep)%bool) in *.
  eapply (for_params_local _ (fun n op om op' om' =>
    exists p m, op = Some p /\ om = Some m /\
     let m1 := match rg_threshold r n p with
               | Some mask => set_is_reg (set_mask m (Some mask)) true | None => m end in
     let m2 := if km then set_is_reg m1 false else m1 in
     op' = Some (snd (apply_mask m2 p)) /\ om' = Some (fst (apply_mask m2 p)))) in H0.
  2:{ intros w1 n1 w1' H1. apply reg_mb_end_body_spec in H1. exact H1. }
  2:{ simpl. rewrite K0; auto. }
  destruct H0 as [_ HR]. destruct (HR n) as [I _]. simpl in I.
  destruct (I (dget_Some_In _ _ _ Hg)) as (p' & m & A & B & C & D).
  rewrite Hg in A. injection A as <-. rewrite Hthr in C, D.
  rewrite Z.eqb_sym. fold km. split.
  - rewrite C, apply_mask_param. unfold mask_tensor. destruct km; reflexivity.
  - rewrite D. eexists; split; eauto. rewrite apply_mask_mask_or_none. destruct km; reflexivity.
Qed.

(* ------------------------------------------------------------------------- *)
(** ** Loss chaining *)
Lemma qsum_app a b : qsum (a ++ b) == qsum a + qsum b.
Proof.
  induction a as [|x a IH]; simpl.
  - ring.
  - rewrite IH. ring.
Qed.

Lemma reg_loss_sum r (w : world PS) :
  reg_loss r w == qsum (map (fun np => rg_loss r (fst np) (snd np)) (w_params w)).
Proof.
  unfold reg_loss. generalize (w_params w). intros l.
  assert (forall acc, fold_left (fun acc np => acc + rg_loss r (fst np) (snd np)) l acc ==
     acc + qsum (map (fun np => rg_loss r (fst np) (snd np)) l)) as H.
  { induction l as [|x l IH]; intro acc; simpl.
    - ring.
    - rewrite IH. ring. }
  rewrite H. ring.
Qed.

(** the regularization losses of the policies of an epoch, in order *)
Definition reg_components (params : dict tensor) (l : list nat) : list Q :=
  flat_map (fun q => match tbl q with
                     | PReg r _ => [qsum (map (fun np => rg_loss r (fst np) (snd np)) params)]
                     | _ => []
                     end) l.

Lemma backward_reg_only e loss (w : world PS) :
  (forall q, In q (policies_at (sc_policies (w_sched w)) e) -> forall f, tbl q <> PLoss f) ->
  exists w' overall comps,
    before_backward_pass tbl e loss w = Ok (w', (overall, comps)) /\
    overall == loss + qsum comps /\
    Forall2 Qeq comps (reg_components (w_params w) (policies_at (sc_policies (w_sched w)) e)).
Proof.
  unfold before_backward_pass. generalize (policies_at (sc_policies (w_sched w)) e) as l. intros l Hl.
  assert (forall w1 ov cs, w_params w1 = w_params w ->
    exists w' overall comps,
    foldM (fun (st : world PS * (Q * list Q)) pid =>
      let '(w, (overall, comps)) := st in
      let w := with_log w (CbBackward, pid, e) in
      match policy_backward tbl pid overall w with
      | PLNone => Ok (w, (overall, comps))
      | pl => do cs <- verify_policy_loss pl;
              Ok (w, (ploss_overall pl overall, comps ++ cs))
      end) l (w1, (ov, cs)) = Ok (w', (overall, cs ++ comps)) /\
    overall == ov + qsum comps /\
    Forall2 Qeq comps (reg_components (w_params w) l)) as Hgen.
  { induction l as [|q l IH]; intros w1 ov cs Hw.
    - exists w1, ov, []. simpl. rewrite app_nil_r. split; [reflexivity|]. split; [ring|constructor].
    - assert (forall q, In q l -> forall f, tbl q <> PLoss f) as Hl' by (intros; apply Hl; simpl; auto).
      specialize (IH Hl'). cbn [foldM]. unfold policy_backward at 1. unfold reg_components.
      cbn [flat_map]. destruct (tbl q) eqn:Et.
      + simpl. destruct (IH (with_log w1 (CbBackward, q, e)) ov cs Hw) as (w' & o & c' & A & B & C).
        exists w', o, c'. auto.
      + cbn [reg_backward verify_policy_loss bind ploss_overall].
        set (rl := reg_loss r (with_log w1 (CbBackward, q, e))).
        destruct (IH (with_log w1 (CbBackward, q, e)) (ov + rl) (cs ++ [rl]) Hw) as (w' & o & c' & A & B & C).
        exists w', o, (rl :: c'). rewrite <- app_assoc in A. split; [exact A|]. split.
        * rewrite B. simpl. ring.
        * simpl. constructor; auto. unfold rl. rewrite reg_loss_sum. simpl. rewrite Hw. reflexivity.
      + simpl. destruct (IH (with_log w1 (CbBackward, q, e)) ov cs Hw) as (w' & o & c' & A & B & C).
        exists w', o, c'. auto.
      + exfalso. eapply Hl; simpl; eauto. }
  destruct (Hgen w loss [] eq_refl) as (w' & o & c & A & B & C). exists w', o, c. auto.
Qed.

(** General chaining: each policy receives the loss returned by the previous one. *)
Definition next_loss (params : dict tensor) (loss : Q) (q : nat) : Q :=
  match tbl q with
  | PReg r _ => loss + qsum (map (fun np => rg_loss r (fst np) (snd np)) params)
  | PLoss f => match f loss with PLOne o _ | PLList o _ => o | _ => loss end
  | _ => loss
  end.

(** policies' loss functions depend on the value of the loss only *)
Definition loss_ext (f : Q -> ploss) : Prop :=
  forall a b, a == b ->
    match f a, f b with
    | PLNone, PLNone => True
    | PLOne o c, PLOne o' c' => o == o' /\ c == c'
    | PLList o l, PLList o' l' => o == o' /\ Forall2 Qeq l l'
    | PLBad, PLBad => True
    | _, _ => False
    end.

Lemma backward_chain e loss (w w' : world PS) overall comps :
  (forall q f, In q (policies_at (sc_policies (w_sched w)) e) -> tbl q = PLoss f -> loss_ext f) ->
  before_backward_pass tbl e loss w = Ok (w', (overall, comps)) ->
  overall == fold_left (next_loss (w_params w)) (policies_at (sc_policies (w_sched w)) e) loss.
Proof.
  unfold before_backward_pass. generalize (policies_at (sc_policies (w_sched w)) e) as l. intros l.
  assert (forall l w1 ov ov' cs,
    (forall q f, In q l -> tbl q = PLoss f -> loss_ext f) ->
    w_params w1 = w_params w -> ov == ov' ->
    foldM (fun (st : world PS * (Q * list Q)) pid =>
      let '(w, (overall, comps)) := st in
      let w := with_log w (CbBackward, pid, e) in
      match policy_backward tbl pid overall w with
      | PLNone => Ok (w, (overall, comps))
      | pl => do cs <- verify_policy_loss pl;
              Ok (w, (ploss_overall pl overall, comps ++ cs))
      end) l (w1, (ov, cs)) = Ok (w', (overall, comps)) ->
    overall == fold_left (next_loss (w_params w)) l ov') as Hgen.
  { clear l. induction l as [|q l IH]; intros w1 ov ov' cs Hx Hw Ho H.
    - simpl in *. injection H as _ <- _. auto.
    - cbn [foldM] in H. inv_bind H. destruct x as [w2 [o2 c2]]. cbn [fold_left].
      assert (w_params w2 = w_params w /\ o2 == next_loss (w_params w) ov' q) as [A B].
      { unfold policy_backward in H0. unfold next_loss. destruct (tbl q) eqn:Et; simpl in H0.
        - injection H0 as <- <- <-. simpl. auto.
        - injection H0 as <- <- <-. simpl. split; auto.
          rewrite reg_loss_sum. simpl. rewrite Hw, Ho. reflexivity.
        - injection H0 as <- <- <-. simpl. auto.
        - specialize (Hx q f (or_introl eq_refl) Et ov ov' Ho).
          destruct (f ov), (f ov'); simpl in *; try discriminate; try tauto;
            injection H0 as <- <- <-; simpl; intuition. }
      eapply IH; [|exact A|exact B|exact H]. intros; eapply Hx; eauto; simpl; auto. }
  intros Hx H. eapply Hgen; eauto. reflexivity.
Qed.

Lemma backward_bad e loss (w : world PS) q f l1 l2 :
  policies_at (sc_policies (w_sched w)) e = l1 ++ q :: l2 ->
  tbl q = PLoss f -> (forall x, f x = PLBad) ->
  (forall q', In q' l1 -> forall g, tbl q' <> PLoss g) ->
  before_backward_pass tbl e loss w = Raise TypeError.
Proof.
  intros Hp Ht Hf Hl. unfold before_backward_pass. rewrite Hp, foldM_app.
  match goal with |- context [foldM ?f l1 ?s] =>
    assert (forall st, exists st', foldM f l1 st = Ok st') as Hok;
    [|destruct (Hok s) as [[w1 [ov cs]] ->]] end.
  { clear Hp. induction l1 as [|p l1 IH]; intros [w1 [ov cs]]; [simpl; eauto|].
    assert (forall q', In q' l1 -> forall g, tbl q' <> PLoss g) as Hl' by (intros; apply Hl; simpl; auto).
    cbn [foldM]. unfold policy_backward at 1. destruct (tbl p) eqn:Et; cbn [bind verify_policy_loss reg_backward]; try (apply IH; exact Hl').
    exfalso. eapply Hl; simpl; eauto. }
  cbn [bind foldM]. unfold policy_backward at 1. rewrite Ht, Hf. reflexivity.
Qed.

End Proofs.
