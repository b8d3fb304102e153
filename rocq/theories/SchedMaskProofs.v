(** Masking: what the scheduler's callbacks do to parameters and maskers. *)
From Coq Require Import String List ZArith QArith Bool Arith Lia Lqa.
From Verif Require Import Base Names SchedModel SchedSpec SchedProofs.
Import ListNotations.

(* ------------------------------------------------------------------------- *)
(** ** Tensors and masks *)
Lemma tmul_masked p m : masked (tmul p m) m.
Proof.
  intros i x y Hx Hy H0. unfold tmul in Hy. revert p i Hx Hy.
  induction m as [|a m IH]; intros p i Hx Hy; [destruct i; discriminate|].
  destruct p as [|b p]; [destruct i; discriminate|].
  destruct i; simpl in *.
  - inversion Hx; inversion Hy; subst. rewrite H0. ring.
  - eapply IH; eauto.
Qed.

Lemma mask_tensor_masked mk m p : mk_mask mk = Some m -> masked (mask_tensor mk p) m.
Proof. intro H. unfold mask_tensor. rewrite H. apply tmul_masked. Qed.

Lemma tmul_zero_where p m :
  length p = length m -> binary m -> zero_where m p (tmul p m).
Proof.
  intros Hl Hb. split.
  - unfold tmul. rewrite map2_length. lia.
  - revert p Hl. induction Hb as [|a m Ha Hb IH]; intros p Hl i x y Hx Hy;
      [destruct i; discriminate|].
    destruct p as [|b p]; [destruct i; discriminate|].
    destruct i; simpl in *.
    + inversion Hx; inversion Hy; subst. exists (y * x). repeat split; intro E; rewrite E; ring.
    + eapply IH; eauto.
Qed.

Lemma tmul_idem p m : length p = length m -> binary m -> teq (tmul (tmul p m) m) (tmul p m).
Proof.
  intros Hl Hb. revert p Hl. induction Hb as [|a m Ha Hb IH]; intros p Hl.
  - destruct p; constructor.
  - destruct p as [|b p]; [discriminate|]. simpl in *. constructor.
    + destruct Ha as [E|E]; rewrite E; ring.
    + apply IH; lia.
Qed.

Lemma teq_tmul a b m : teq a b -> teq (tmul a m) (tmul b m).
Proof.
  intro H. revert m. induction H; intros [|z m]; simpl; constructor.
  - rewrite H; reflexivity.
  - apply IHForall2.
Qed.

(** Applying a mask [n] times. *)
Fixpoint apply_n (n : nat) (m : masker) (p : tensor) : masker * tensor :=
  match n with
  | O => (m, p)
  | S n' => let r := apply_n n' m p in apply_mask (fst r) (snd r)
  end.

Lemma apply_mask_mask m p : mk_is_reg m = false -> mk_mask (fst (apply_mask m p)) = mk_mask m.
Proof.
  intro H. unfold apply_mask. destruct (mk_mask m) eqn:E; simpl; auto.
  destruct (mk_double m); simpl; rewrite H; simpl; auto.
Qed.

Lemma apply_mask_is_reg m p : mk_is_reg (fst (apply_mask m p)) = mk_is_reg m.
Proof.
  unfold apply_mask. destruct (mk_mask m) eqn:E; simpl; auto.
  destruct (mk_double m); simpl; destruct (mk_is_reg m) eqn:R; simpl; auto.
Qed.

Lemma apply_mask_param m p : snd (apply_mask m p) = mask_tensor m p.
Proof.
  unfold apply_mask, mask_tensor. destruct (mk_mask m) eqn:E; simpl; auto.
  destruct (mk_double m); simpl; rewrite E; reflexivity.
Qed.

Lemma apply_mask_mask_or_none m p :
  mk_mask (fst (apply_mask m p)) = (if mk_is_reg m then None else mk_mask m).
Proof.
  unfold apply_mask. destruct (mk_mask m) eqn:E; simpl; auto.
  - destruct (mk_double m); simpl; destruct (mk_is_reg m); simpl; auto.
  - rewrite E. destruct (mk_is_reg m); auto.
Qed.

Lemma apply_mask_fwd m p : mk_fwd_only (fst (apply_mask m p)) = mk_fwd_only m.
Proof.
  unfold apply_mask. destruct (mk_mask m); simpl; auto.
  destruct (mk_double m); simpl; destruct (mk_is_reg m); simpl; auto.
Qed.

Lemma apply_mask_double m p : mk_double (fst (apply_mask m p)) = mk_double m.
Proof.
  unfold apply_mask. destruct (mk_mask m); simpl; auto.
  destruct (mk_double m) eqn:D; simpl; destruct (mk_is_reg m); simpl; auto.
Qed.

Lemma apply_n_idem n mk m p :
  mk_mask mk = Some m -> mk_is_reg mk = false -> length p = length m -> binary m ->
  mk_mask (fst (apply_n (S n) mk p)) = Some m /\
  teq (snd (apply_n (S n) mk p)) (tmul p m).
Proof.
  intros Hm Hr Hl Hb.
  assert (forall k, mk_mask (fst (apply_n k mk p)) = Some m /\ mk_is_reg (fst (apply_n k mk p)) = false) as Hk.
  { induction k as [|k [I1 I2]]; [auto|]. cbn [apply_n]. split.
    - rewrite apply_mask_mask; auto.
    - rewrite apply_mask_is_reg; auto. }
  split; [apply Hk|].
  induction n as [|n IH].
  - cbn [apply_n fst snd]. rewrite apply_mask_param. unfold mask_tensor. rewrite Hm. apply teq_refl.
  - change (apply_n (S (S n)) mk p)
      with (apply_mask (fst (apply_n (S n) mk p)) (snd (apply_n (S n) mk p))).
    rewrite apply_mask_param. unfold mask_tensor. rewrite (proj1 (Hk (S n))).
    eapply teq_trans; [apply teq_tmul; exact IH|]. apply tmul_idem; auto.
Qed.

(* ------------------------------------------------------------------------- *)
(** ** Loops over the parameters *)
Section Proofs.
Context {PS : Type}.
Variable tbl : nat -> policy PS.

Definition same_keys (w w' : world PS) : Prop :=
  dkeys (w_params w') = dkeys (w_params w) /\ dkeys (w_maskers w') = dkeys (w_maskers w).

Lemma same_keys_refl w : same_keys w w.
Proof. unfold same_keys; auto. Qed.
Lemma same_keys_trans a b c : same_keys a b -> same_keys b c -> same_keys a c.
Proof. unfold same_keys; intuition congruence. Qed.

Definition frame (n : string) (w w' : world PS) : Prop :=
  same_keys w w' /\
  forall n', n' <> n ->
    dget (w_params w') n' = dget (w_params w) n' /\
    dget (w_maskers w') n' = dget (w_maskers w) n'.

Lemma frame_refl n w : frame n w w.
Proof. split; [apply same_keys_refl|auto]. Qed.

Lemma frame_trans n a b c : frame n a b -> frame n b c -> frame n a c.
Proof.
  intros [K1 F1] [K2 F2]. split; [eapply same_keys_trans; eauto|].
  intros n' Hn. destruct (F1 n' Hn), (F2 n' Hn). split; congruence.
Qed.

Lemma get_param_ok w n p : @get_param PS w n = Ok p <-> dget (w_params w) n = Some p.
Proof. unfold get_param. destruct (dget _ n); split; intro H; inversion H; auto. Qed.

Lemma get_masker_ok w n m : @get_masker PS w n = Ok m <-> dget (w_maskers w) n = Some m.
Proof. unfold get_masker. destruct (dget _ n); split; intro H; inversion H; auto. Qed.

Lemma dget_Some_In {A} (d : dict A) n v : dget d n = Some v -> In n (dkeys d).
Proof. intro H. apply dget_In in H. apply (in_map fst) in H. exact H. Qed.

Lemma put_masker_frame w n m x :
  dget (w_maskers w) n = Some x -> frame n w (put_masker w n m).
Proof.
  intro H. split.
  - split; simpl; auto. apply dset_keys_mem. eapply dget_Some_In; eauto.
  - intros n' Hn. simpl. split; auto. apply dget_dset_other; auto.
Qed.

Lemma put_param_frame w n m x :
  dget (w_params w) n = Some x -> frame n w (put_param w n m).
Proof.
  intro H. split.
  - split; simpl; auto. apply dset_keys_mem. eapply dget_Some_In; eauto.
  - intros n' Hn. simpl. split; auto. apply dget_dset_other; auto.
Qed.

Lemma with_pol_frame (w : world PS) n pid x : frame n w (with_pol w pid x).
Proof. split; [unfold same_keys; auto|auto]. Qed.

(** Loops whose body at [n] only touches the entries of [n]. *)
Lemma loop_local body
  (R : string -> option tensor -> option masker -> option tensor -> option masker -> Prop) l :
  (forall w n w', body w n = Ok w' ->
     frame n w w' /\
     R n (dget (w_params w) n) (dget (w_maskers w) n) (dget (w_params w') n) (dget (w_maskers w') n)) ->
  NoDup l ->
  forall w w', foldM body l w = Ok w' ->
  same_keys w w' /\
  forall n,
    (In n l -> R n (dget (w_params w) n) (dget (w_maskers w) n)
                   (dget (w_params w') n) (dget (w_maskers w') n)) /\
    (~ In n l -> dget (w_params w') n = dget (w_params w) n /\
                 dget (w_maskers w') n = dget (w_maskers w) n).
Proof.
  intros Hb Hnd. induction Hnd as [|x l Hx Hnd IH]; intros w w' H; simpl in H.
  - injection H as <-. split; [apply same_keys_refl|]. simpl. tauto.
  - inv_bind H. apply Hb in H0. destruct H0 as [[K F] HR].
    destruct (IH _ _ H) as [K' IH']. split; [eapply same_keys_trans; eauto|].
    intro n. destruct (IH' n) as [I1 I2]. split.
    + intros [->|Hin].
      * destruct (I2 Hx) as [-> ->]. exact HR.
      * assert (n <> x) as Hne by congruence. destruct (F n Hne) as [<- <-]. auto.
    + intro Hn. simpl in Hn. destruct (I2 ltac:(tauto)) as [-> ->].
      apply F. intuition congruence.
Qed.

Lemma for_params_local body R w w' :
  (forall w n w', body w n = Ok w' ->
     frame n w w' /\
     R n (dget (w_params w) n) (dget (w_maskers w) n) (dget (w_params w') n) (dget (w_maskers w') n)) ->
  NoDup (dkeys (w_params w)) ->
  for_params body w = Ok w' ->
  same_keys w w' /\
  forall n,
    (In n (dkeys (w_params w)) -> R n (dget (w_params w) n) (dget (w_maskers w) n)
                   (dget (w_params w') n) (dget (w_maskers w') n)) /\
    (~ In n (dkeys (w_params w)) -> dget (w_params w') n = dget (w_params w) n /\
                 dget (w_maskers w') n = dget (w_maskers w) n).
Proof. intros Hb Hnd H. eapply loop_local; eauto. Qed.

Lemma call_pruner_spec pid c pr me (w w' : world PS) n :
  call_pruner pid c pr me w n = Ok w' ->
  frame n w w' /\
  w_params w' = w_params w /\
  exists p m ps x,
    dget (w_params w) n = Some p /\
    dget (w_maskers w) n = Some m /\
    pr (po_ps (w_pol w pid)) me n (match folded c n p with Some f => f | None => p end) (mk_mask m) = Ok (ps, x) /\
    dget (w_maskers w') n = Some (set_mask m x).
Proof.
  unfold call_pruner. intro H. inv_bind H. inv_bind H. inv_bind H. injection H as <-.
  apply get_param_ok in H0. apply get_masker_ok in H1. destruct x1 as [ps mask]. simpl.
  repeat split.
  - simpl. apply dset_keys_mem. eapply dget_Some_In; eauto.
  - simpl. apply dget_dset_other; auto.
  - exists x, x0, ps, mask. repeat split; auto. apply dget_dset_same.
Qed.

Lemma prune_epoch_begin_body_spec pid c pr me b (w w' : world PS) n :
  prune_epoch_begin_body pid c pr me b w n = Ok w' ->
  frame n w w' /\ w_params w' = w_params w.
Proof.
  unfold prune_epoch_begin_body. destruct b; intro H.
  - apply call_pruner_spec in H. destruct H as (A & B & _); auto.
  - inv_bind H. inv_bind H. inv_bind H. apply get_param_ok in H0. apply get_masker_ok in H1.
    match type of H with context [call_pruner _ _ _ _ ?w1 _] => set (wx := w1) in * end.
    assert (frame n w wx /\ w_params wx = w_params w) as [F P].
    { subst wx. split; auto. eapply frame_trans; [|apply with_pol_frame].
      eapply put_masker_frame; eauto. }
    destruct (pc_skip_first c).
    + injection H as <-. auto.
    + apply call_pruner_spec in H. destruct H as (F' & P' & _). split; [|congruence].
      eapply frame_trans; eauto.
Qed.

Lemma prune_mb_begin_body_spec pid c pr me b (w w' : world PS) n :
  prune_mb_begin_body pid c pr me b w n = Ok w' ->
  frame n w w'.
Proof.
  unfold prune_mb_begin_body. intro H. inv_bind H. inv_bind H. inv_bind H.
  apply get_param_ok in H0. apply get_masker_ok in H2.
  assert (frame n w x0 /\ w_params x0 = w_params w) as [F P].
  { destruct b; [|injection H1 as <-; split; auto; apply frame_refl].
    apply call_pruner_spec in H1. destruct H1 as (A & B & _); auto. }
  eapply frame_trans; [exact F|].
  destruct (if b then folded c n x else None); injection H as <-.
  - eapply put_masker_frame; eauto.
  - eapply frame_trans; [eapply put_masker_frame; eauto|].
    eapply put_param_frame. simpl. rewrite P. eauto.
Qed.

Lemma prune_before_opt_body_spec (w w' : world PS) n :
  (do p <- get_param w n; do m <- get_masker w n;
   let r := revert_weights m p in
   Ok (put_param (put_masker w n (fst r)) n (snd r))) = Ok w' ->
  frame n w w' /\ exists p m, dget (w_params w) n = Some p /\ dget (w_maskers w) n = Some m /\
     dget (w_params w') n = Some (snd (revert_weights m p)) /\
     dget (w_maskers w') n = Some (fst (revert_weights m p)).
Proof.
  intro H. inv_bind H. inv_bind H. injection H as <-.
  apply get_param_ok in H0. apply get_masker_ok in H1. split.
  - eapply frame_trans; [eapply put_masker_frame; eauto|eapply put_param_frame; simpl; eauto].
  - exists x, x0. repeat split; auto; simpl; apply dget_dset_same.
Qed.

Lemma prune_epoch_end_body_spec c (w w' : world PS) n :
  prune_epoch_end_body c w n = Ok w' ->
  frame n w w' /\ exists p m, dget (w_params w) n = Some p /\ dget (w_maskers w) n = Some m /\
     let m1 := if pc_keep c then set_fwd_only (set_double m false) false else m in
     dget (w_params w') n = Some (if pc_keep c then mask_tensor m1 p else p) /\
     dget (w_maskers w') n =
       Some (if mk_handle m1 then set_handle m1 false (Nat.pred (mk_hooks m1)) else m1).
Proof.
  unfold prune_epoch_end_body. intro H. inv_bind H. inv_bind H. injection H as <-.
  apply get_param_ok in H0. apply get_masker_ok in H1. split.
  - eapply frame_trans; [eapply put_masker_frame; eauto|eapply put_param_frame; simpl; eauto].
  - exists x, x0. repeat split; auto; simpl; apply dget_dset_same.
Qed.

Lemma reg_mb_end_body_spec r km (w w' : world PS) n :
  reg_mb_end_body r km w n = Ok w' ->
  frame n w w' /\ exists p m, dget (w_params w) n = Some p /\ dget (w_maskers w) n = Some m /\
     let m1 := match rg_threshold r n p with
               | Some mask => set_is_reg (set_mask m (Some mask)) true | None => m end in
     let m2 := if km then set_is_reg m1 false else m1 in
     dget (w_params w') n = Some (snd (apply_mask m2 p)) /\
     dget (w_maskers w') n = Some (fst (apply_mask m2 p)).
Proof.
  unfold reg_mb_end_body. intro H. inv_bind H. inv_bind H. injection H as <-.
  apply get_param_ok in H0. apply get_masker_ok in H1. split.
  - eapply frame_trans; [eapply put_masker_frame; eauto|eapply put_param_frame; simpl; eauto].
  - exists x, x0. repeat split; auto; simpl; apply dget_dset_same.
Qed.

Lemma for_params_keys body (w w' : world PS) :
  (forall w n w', body w n = Ok w' -> same_keys w w') ->
  for_params body w = Ok w' -> same_keys w w'.
Proof.
  intros Hb H. unfold for_params in H.
  apply (foldM_inv body (fun x => same_keys w x)) in H; auto.
  - intros s a s' _ H1 H2. eapply same_keys_trans; eauto.
  - apply same_keys_refl.
Qed.

Lemma mask_all_body_keys fwd (w w' : world PS) n :
  mask_all_body fwd w n = Ok w' -> same_keys w w'.
Proof.
  unfold mask_all_body. intro H. inv_bind H. apply get_param_ok in H0.
  destruct (dget (w_maskers w) n) eqn:E.
  - destruct (fwd || negb (mk_fwd_only m)); injection H as <-; [|apply same_keys_refl].
    eapply put_param_frame; eauto.
  - inv_bind H. destruct x0; [|injection H as <-; apply same_keys_refl].
    inv_bind H. injection H as <-. apply get_masker_ok in H2.
    eapply same_keys_trans; [eapply put_masker_frame; eauto|].
    eapply put_param_frame; simpl; eauto.
Qed.

Lemma dispatch_keys (body : world PS -> nat -> res (world PS)) l w w' :
  (forall w pid w', body w pid = Ok w' -> same_keys w w') ->
  foldM body l w = Ok w' -> same_keys w w'.
Proof.
  intros Hb H. apply (foldM_inv body (fun x => same_keys w x)) in H; auto.
  - intros s a s' _ H1 H2. eapply same_keys_trans; eauto.
  - apply same_keys_refl.
Qed.

Lemma prune_mb_end_keys c (w w' : world PS) : prune_mb_end c w = Ok w' -> same_keys w w'.
Proof.
  unfold prune_mb_end. destruct (pc_discard c); [|intro H; injection H as <-; apply same_keys_refl].
  apply for_params_keys. clear. intros w n w' H. inv_bind H. injection H as <-.
  apply get_masker_ok in H0. eapply put_masker_frame; eauto.
Qed.

Lemma reg_mb_end_keys pid r keep i k (w w' : world PS) :
  reg_mb_end pid r keep i k w = Ok w' -> same_keys w w'.
Proof.
  unfold reg_mb_end. destruct (negb _); [intro H; injection H as <-; apply same_keys_refl|].
  apply for_params_keys. intros w1 n w1' H. apply reg_mb_end_body_spec in H. apply H.
Qed.

Lemma touch_meta_same e (w : world PS) pid x :
  touch_meta e w pid = Ok x ->
  w_params (fst x) = w_params w /\ w_maskers (fst x) = w_maskers w /\ w_pol (fst x) = w_pol w.
Proof. intro H. apply touch_meta_spec in H. destruct H as (_ & _ & _ & A & B & C & _). auto. Qed.

(** No callback adds, removes or reorders parameters or maskers. *)
Lemma step_keys w ev w' : step tbl w ev = Ok w' -> same_keys w w'.
Proof.
  destruct ev; simpl; intro H.
  - eapply dispatch_keys; [|exact H]. clear. intros w pid w' H. inv_bind H. destruct x as [w1 me].
    apply touch_meta_same in H0. destruct H0 as (P & M & _). simpl in *.
    assert (same_keys w w1) as K by (unfold same_keys; rewrite P, M; auto).
    destruct (tbl pid).
    + eapply same_keys_trans; [exact K|]. unfold prune_epoch_begin in H.
      apply for_params_keys in H.
      * unfold same_keys in *; simpl in *; auto.
      * intros w2 n w2' H2. apply prune_epoch_begin_body_spec in H2. apply H2.
    + unfold reg_epoch_begin in H. injection H as <-. unfold same_keys in *; simpl; auto.
    + injection H as <-. unfold same_keys in *; simpl; auto.
    + injection H as <-. unfold same_keys in *; simpl; auto.
  - eapply dispatch_keys; [|exact H]. clear. intros w pid w' H. inv_bind H. destruct x as [w1 me].
    apply touch_meta_same in H0. destruct H0 as (P & M & _). simpl in *.
    assert (same_keys w w1) as K by (unfold same_keys; rewrite P, M; auto).
    destruct (tbl pid).
    + eapply same_keys_trans; [exact K|]. unfold prune_mb_begin in H.
      apply for_params_keys in H.
      * unfold same_keys in *; simpl in *; auto.
      * intros w2 n w2' H2. apply prune_mb_begin_body_spec in H2. apply H2.
    + injection H as <-. unfold same_keys in *; simpl; auto.
    + injection H as <-. unfold same_keys in *; simpl; auto.
    + injection H as <-. unfold same_keys in *; simpl; auto.
  - inv_bind H. injection H as <-. unfold before_backward_pass in H0.
    match type of H0 with foldM ?f ?l ?s = _ =>
      apply (foldM_inv f (fun x => same_keys w (fst x))) in H0; auto end.
    + intros [w1 [ov cs]] pid s' _ H1 H2. simpl in *.
      destruct (policy_backward tbl pid ov (with_log w1 (CbBackward, pid, e))); simpl in H2;
        try discriminate; injection H2 as <-; simpl; auto.
    + apply same_keys_refl.
  - eapply dispatch_keys; [|exact H]. clear. intros w pid w' H. inv_bind H. destruct x as [w1 me].
    apply touch_meta_same in H0. destruct H0 as (P & M & _). simpl in *.
    assert (same_keys w w1) as K by (unfold same_keys; rewrite P, M; auto).
    destruct (tbl pid).
    + eapply same_keys_trans; [exact K|].
      apply for_params_keys in H.
      * unfold same_keys in *; simpl in *; auto.
      * intros w2 n w2' H2. apply prune_before_opt_body_spec in H2. apply H2.
    + injection H as <-. unfold same_keys in *; simpl; auto.
    + injection H as <-. unfold same_keys in *; simpl; auto.
    + injection H as <-. unfold same_keys in *; simpl; auto.
  - injection H as <-. unfold same_keys; simpl. unfold dkeys. rewrite map_map. simpl. auto.
  - unfold on_minibatch_end in H. inv_bind H.
    apply for_params_keys in H0; [|intros ? ? ?; apply mask_all_body_keys].
    eapply same_keys_trans; [exact H0|].
    eapply dispatch_keys; [|exact H]. clear. intros w pid w' H. simpl in H. destruct (tbl pid).
    + apply prune_mb_end_keys in H. unfold same_keys in *; simpl in *; auto.
    + apply reg_mb_end_keys in H. unfold same_keys in *; simpl in *; auto.
    + injection H as <-. unfold same_keys; simpl; auto.
    + injection H as <-. unfold same_keys; simpl; auto.
  - eapply dispatch_keys; [|exact H]. clear. intros w pid w' H. inv_bind H. destruct x as [w1 me].
    apply touch_meta_same in H0. destruct H0 as (P & M & _). simpl in *.
    assert (same_keys w w1) as K by (unfold same_keys; rewrite P, M; auto).
    destruct (tbl pid).
    + eapply same_keys_trans; [exact K|]. unfold prune_epoch_end in H.
      destruct (po_last _).
      * apply for_params_keys in H.
        -- unfold same_keys in *; simpl in *; auto.
        -- intros w2 n w2' H2. apply prune_epoch_end_body_spec in H2. apply H2.
      * injection H as <-. unfold same_keys; simpl; auto.
    + injection H as <-. unfold same_keys in *; simpl; auto.
    + injection H as <-. unfold same_keys in *; simpl; auto.
    + injection H as <-. unfold same_keys in *; simpl; auto.
  - apply for_params_keys in H; auto. intros ? ? ?; apply mask_all_body_keys.
Qed.

Lemma run_keys h w w' : run tbl h w = Ok w' -> same_keys w w'.
Proof.
  unfold run. intro H. apply (foldM_inv (step tbl) (fun x => same_keys w x)) in H; auto.
  - intros s a s' _ H1 H2. apply step_keys in H2. eapply same_keys_trans; eauto.
  - apply same_keys_refl.
Qed.

(* ------------------------------------------------------------------------- *)
(** ** Pruned weights are zero after every mini-batch *)

Definition ok_at (w : world PS) (n : string) : Prop :=
  forall p mk m,
    dget (w_params w) n = Some p ->
    dget (w_maskers w) n = Some mk ->
    mk_mask mk = Some m ->
    mk_fwd_only mk = false ->
    masked p m.

Lemma mask_all_loop l (w w' : world PS) done :
  NoDup (done ++ l) ->
  (forall n, In n done -> ok_at w n) ->
  foldM (mask_all_body false) l w = Ok w' ->
  forall n, In n (done ++ l) -> ok_at w' n.
Proof.
  revert w done; induction l as [|x l IH]; intros w done Hnd Hok H.
  - simpl in H. injection H as <-. rewrite app_nil_r. auto.
  - cbn [foldM] in H. inv_bind H.
    replace (done ++ x :: l) with ((done ++ [x]) ++ l) in * by (rewrite <- app_assoc; reflexivity).
    apply (IH x0 (done ++ [x])); auto.
    assert (forall n, In n done -> n <> x) as Hne.
    { intros n Hn ->. apply NoDup_remove_2 with (l := done) (l' := l) (a := x).
      - rewrite <- app_assoc in Hnd. exact Hnd.
      - apply in_or_app; auto. }
    clear IH H Hnd. unfold mask_all_body in H0. inv_bind H0. apply get_param_ok in H.
    destruct (dget (w_maskers w) x) as [mk0|] eqn:E.
    + destruct (mk_fwd_only mk0) eqn:F; simpl in H0; injection H0 as <-.
      * intros n Hn. apply in_app_or in Hn. destruct Hn as [Hn|[<-|[]]]; auto.
        intros p mk m H1 H2 H3 H4. rewrite E in H2. inversion H2; subst. congruence.
      * intros n Hn p mk m H1 H2 H3 H4. apply in_app_or in Hn. destruct Hn as [Hn|[<-|[]]].
        -- simpl in *. rewrite dget_dset_other in H1 by (apply not_eq_sym; auto).
           eapply Hok; eauto.
        -- simpl in *. rewrite dget_dset_same in H1. injection H1 as <-.
           rewrite E in H2. injection H2 as <-. eapply mask_tensor_masked; eauto.
    + inv_bind H0. destruct x2 as [n'|].
      * inv_bind H0. injection H0 as <-. apply get_masker_ok in H2.
        assert (n' <> x) as Hnx by congruence.
        intros n Hn p mk m H3 H4 H5 H6. apply in_app_or in Hn. destruct Hn as [Hn|[<-|[]]].
        -- simpl in *. rewrite dget_dset_other in H3 by (apply not_eq_sym; auto).
           destruct (string_dec n' n).
           ++ subst n'. rewrite dget_dset_same in H4. injection H4 as <-.
              rewrite apply_mask_mask_or_none in H5. destruct (mk_is_reg x2); [discriminate|].
              rewrite apply_mask_fwd in H6. eapply Hok; eauto.
           ++ rewrite dget_dset_other in H4 by auto. eapply Hok; eauto.
        -- simpl in *. rewrite dget_dset_other in H4 by auto. congruence.
      * injection H0 as <-. intros n Hn. apply in_app_or in Hn. destruct Hn as [Hn|[<-|[]]]; auto.
        intros p mk m H2 H3. congruence.
Qed.

Lemma mask_all_all_masked (w w' : world PS) :
  NoDup (dkeys (w_params w)) ->
  mask_all_weights false w = Ok w' -> all_masked w'.
Proof.
  intros Hnd H. unfold mask_all_weights, for_params in H.
  assert (same_keys w w') as [K _].
  { apply (for_params_keys (mask_all_body false)); auto. intros ? ? ?; apply mask_all_body_keys. }
  assert (forall n, In n ([] ++ dkeys (w_params w)) -> ok_at w' n) as Hok.
  { eapply mask_all_loop; [exact Hnd|simpl; tauto|exact H]. }
  intros n p mk m H1. apply (Hok n); auto. simpl. rewrite <- K. eapply dget_Some_In; eauto.
Qed.

Lemma prune_mb_end_all_masked c (w w' : world PS) :
  NoDup (dkeys (w_params w)) ->
  all_masked w -> prune_mb_end c w = Ok w' -> all_masked w'.
Proof.
  unfold prune_mb_end. destruct (pc_discard c); [|intros _ Ha H; injection H as <-; auto].
  intros Hnd Ha H.
  eapply (for_params_local _ (fun n p m p' m' => p' = p /\ exists k, m' = Some k /\ mk_mask k = None)) in H; auto.
  - destruct H as [[K _] H]. intros n p mk m H1 H2 H3 H4. destruct (H n) as [I1 I2].
    destruct I1 as (E1 & k & E2 & E3).
    + rewrite <- K. eapply dget_Some_In; eauto.
    + rewrite E2 in H2. injection H2 as <-. congruence.
  - clear. intros w n w' H. inv_bind H. injection H as <-. apply get_masker_ok in H0. split.
    + eapply put_masker_frame; eauto.
    + simpl. split; auto. rewrite dget_dset_same. eexists; split; eauto.
Qed.

Lemma reg_mb_end_all_masked pid r keep i k (w w' : world PS) :
  NoDup (dkeys (w_params w)) ->
  all_masked w -> reg_mb_end pid r keep i k w = Ok w' -> all_masked w'.
Proof.
  unfold reg_mb_end. destruct (negb (rg_criteria r)); [intros _ Ha H; injection H as <-; auto|].
  set (km := (Z.eqb (k - 1) i && po_last (w_pol w pid) && keep)%bool). clearbody km.
  intros Hnd Ha H.
  eapply (for_params_local _ (fun n p m p' m' =>
      forall x mk msk, p' = Some x -> m' = Some mk -> mk_mask mk = Some msk -> masked x msk)) in H; auto.
  - destruct H as [[K _] H]. intros n p mk m H1 H2 H3 H4. destruct (H n) as [I1 I2].
    eapply I1; eauto. rewrite <- K. eapply dget_Some_In; eauto.
  - clear. intros w n w' H. apply reg_mb_end_body_spec in H.
    destruct H as (F & p & m & H1 & H2 & H3 & H4). split; auto.
    intros x mk msk Ex Em Ek. rewrite H3 in Ex. rewrite H4 in Em.
    set (m1 := match rg_threshold r n p with
               | Some mask => set_is_reg (set_mask m (Some mask)) true | None => m end) in *.
    set (m2 := if km then set_is_reg m1 false else m1) in *.
    injection Ex as <-. injection Em as <-.
    rewrite apply_mask_mask_or_none in Ek. destruct (mk_is_reg m2); [discriminate|].
    rewrite apply_mask_param. eapply mask_tensor_masked; eauto.
Qed.

Lemma on_minibatch_end_all_masked e i k (w w' : world PS) :
  NoDup (dkeys (w_params w)) ->
  on_minibatch_end tbl e i k w = Ok w' -> all_masked w'.
Proof.
  intros Hnd H. unfold on_minibatch_end in H. inv_bind H.
  pose proof (mask_all_all_masked _ _ Hnd H0) as Ha.
  apply for_params_keys in H0; [|intros ? ? ?; apply mask_all_body_keys].
  assert (NoDup (dkeys (w_params x))) as Hnd'. { destruct H0 as [-> _]; auto. }
  match type of H with foldM ?f ?l ?s = _ =>
    apply (foldM_inv f (fun x => NoDup (dkeys (w_params x)) /\ all_masked x)) in H end;
    [tauto| |auto].
  clear. intros w pid w' _ [Hnd Ha] H. simpl in H. destruct (tbl pid).
  - pose proof (prune_mb_end_keys _ _ _ H) as [K _]. simpl in K. rewrite K. split; auto.
    eapply prune_mb_end_all_masked; [| |exact H]; simpl; auto.
  - pose proof (reg_mb_end_keys _ _ _ _ _ _ _ H) as [K _]. simpl in K. rewrite K. split; auto.
    eapply reg_mb_end_all_masked; [| |exact H]; simpl; auto.
  - injection H as <-. auto.
  - injection H as <-. auto.
Qed.

Lemma pruned_weights_zero h w w1 e i k w2 :
  NoDup (dkeys (w_params w)) ->
  run tbl h w = Ok w1 ->
  step tbl w1 (EvMBEnd e i k) = Ok w2 ->
  all_masked w2.
Proof.
  intros Hnd Hr Hs. eapply on_minibatch_end_all_masked; [|exact Hs].
  apply run_keys in Hr. destruct Hr as [-> _]. auto.
Qed.

End Proofs.
