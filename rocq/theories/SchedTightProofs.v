(** Scheduler lemmas added after mutation testing: the exact effect of mask_all_weights, of
    PruningPolicy.on_epoch_begin, and of learning-rate policies. *)
From Coq Require Import String List ZArith QArith Bool Arith Lia.
From Verif Require Import Base Names SchedModel SchedSpec SchedProofs SchedMaskProofs
  SchedPolicyProofs SchedPolicyProofs2 SchedExtraProofs.
Import ListNotations.

Section Proofs.
Context {PS : Type}.
Variable tbl : nat -> policy PS.

(** mask_all_weights on a model all of whose parameters have maskers: the exact value of
    every parameter, for both values of is_forward. *)
Lemma mask_all_exact fwd (w w' : world PS) :
  NoDup (dkeys (w_params w)) ->
  (forall n, In n (dkeys (w_params w)) -> In n (dkeys (w_maskers w))) ->
  mask_all_weights fwd w = Ok w' ->
  w_maskers w' = w_maskers w /\
  dkeys (w_params w') = dkeys (w_params w) /\
  forall n p mk, dget (w_params w) n = Some p -> dget (w_maskers w) n = Some mk ->
    dget (w_params w') n = Some (if fwd || negb (mk_fwd_only mk) then mask_tensor mk p else p).
Proof.
  intros Hnd Hk H. pose proof (mask_all_maskers fwd w w' Hk H) as HM. split; auto.
  pose proof (for_params_keys _ _ _ (fun a b c => mask_all_body_keys fwd a c b) H) as [KA _]. split; auto.
  unfold mask_all_weights, for_params in H.
  assert (forall l (w1 : world PS), NoDup l -> (forall n, In n l -> In n (dkeys (w_maskers w1))) ->
    foldM (mask_all_body fwd) l w1 = Ok w' ->
    forall n p mk, dget (w_params w1) n = Some p -> dget (w_maskers w1) n = Some mk ->
    dget (w_params w') n = Some (if (existsb (String.eqb n) l && (fwd || negb (mk_fwd_only mk)))%bool then mask_tensor mk p else p)) as Hg.
  { clear. induction l as [|a l IH]; intros w1 Hnd Hk H n p mk Hp Hm; cbn [foldM] in H.
    - injection H as <-. simpl. auto.
    - inv_bind H. inversion Hnd; subst.
      assert (w_maskers x = w_maskers w1 /\
        dget (w_params x) n = Some (if (String.eqb n a && (fwd || negb (mk_fwd_only mk)))%bool then mask_tensor mk p else p)) as [E1 E2].
      { unfold mask_all_body in H0. inv_bind H0. apply get_param_ok in H1.
        destruct (dget (w_maskers w1) a) eqn:Eg.
        - destruct (String.eqb_spec n a).
          + subst. rewrite Hm in Eg. injection Eg as <-. rewrite Hp in H1. injection H1 as <-.
            destruct (fwd || negb (mk_fwd_only mk)); injection H0 as <-; simpl; auto.
            rewrite dget_dset_same. auto.
          + destruct (fwd || negb (mk_fwd_only m)); injection H0 as <-; simpl; auto.
            rewrite dget_dset_other; auto.
        - apply dget_None_notin in Eg. exfalso. apply Eg. apply Hk. simpl; auto. }
      assert (forall n, In n l -> In n (dkeys (w_maskers x))) as Hkx
        by (intros; rewrite E1; apply Hk; simpl; auto).
      simpl. destruct (String.eqb_spec n a).
      + subst. simpl in *.
        assert (existsb (String.eqb a) l = false) as Ef.
        { destruct (existsb (String.eqb a) l) eqn:Ee; auto. apply existsb_exists in Ee.
          destruct Ee as (y & Hy & Ey). apply String.eqb_eq in Ey. subst. contradiction. }
        rewrite (IH x H4 Hkx H a _ mk E2); [|congruence]. rewrite Ef. simpl. reflexivity.
      + simpl in *. rewrite (IH x H4 Hkx H n p mk E2); [|congruence]. reflexivity. }
  intros n p mk Hp Hm. rewrite (Hg _ w Hnd Hk H n p mk Hp Hm).
  assert (existsb (String.eqb n) (dkeys (w_params w)) = true) as ->; [|reflexivity].
  apply existsb_exists. exists n. split; [eapply dget_Some_In; eauto|apply String.eqb_refl].
Qed.

(** PruningPolicy.on_epoch_begin, one pruning policy in the epoch. *)
Lemma epoch_begin_body_effect pid c pr me b (w w' : world PS) n :
  prune_epoch_begin_body pid c pr me b w n = Ok w' ->
  frame n w w' /\
  exists p mk0 mk, dget (w_params w) n = Some p /\ dget (w_maskers w) n = Some mk0 /\
    dget (w_params w') n = Some p /\ dget (w_maskers w') n = Some mk /\
    (if (negb b && pc_skip_first c)%bool then mk_mask mk = mk_mask mk0
     else exists ps ps', pr ps me n (match folded c n p with Some f => f | None => p end) (mk_mask mk0)
                         = Ok (ps', mk_mask mk)) /\
    (mk_double mk = if b then mk_double mk0 else pc_double c) /\
    (mk_fwd_only mk = if b then mk_fwd_only mk0 else pc_fwd_only c) /\
    (mk_hooks mk = if (negb b && pc_mask_grad c)%bool then S (mk_hooks mk0) else mk_hooks mk0) /\
    mk_is_reg mk = mk_is_reg mk0 /\ mk_copy mk = mk_copy mk0.
Proof.
  intro H. pose proof (prune_epoch_begin_body_spec _ _ _ _ _ _ _ _ H) as [F P].
  split; auto. unfold prune_epoch_begin_body in H. destruct b.
  - apply call_pruner_spec in H. destruct H as (_ & _ & p & m & ps & x & A & B & C & D).
    exists p, m, (set_mask m x). simpl. rewrite P. repeat split; auto. eauto.
  - inv_bind H. inv_bind H. inv_bind H. apply get_param_ok in H0. apply get_masker_ok in H1.
    assert (mk_double x1 = pc_double c /\ mk_fwd_only x1 = pc_fwd_only c /\
          mk_copy x1 = mk_copy x0 /\ mk_is_reg x1 = mk_is_reg x0 /\ mk_mask x1 = mk_mask x0 /\
          mk_hooks x1 = if pc_mask_grad c then S (mk_hooks x0) else mk_hooks x0) as Hx.
    { destruct (pc_mask_grad c).
      - destruct (folded c n x); [discriminate|]. injection H2 as <-. simpl. auto 6.
      - injection H2 as <-. simpl. auto 6. }
    simpl. rewrite P. destruct (pc_skip_first c).
    + injection H as <-. exists x, x0, x1. simpl. rewrite dget_dset_same. intuition.
    + apply call_pruner_spec in H. destruct H as (_ & _ & p & m & ps & y & A & B & C & D).
      simpl in *. rewrite dget_dset_same in B. injection B as <-. rewrite H0 in A. injection A as <-.
      exists x, x0, (set_mask x1 y). simpl. destruct Hx as (X1 & X2 & X3 & X4 & X5 & X6).
      rewrite X5 in C. repeat split; auto. eauto.
Qed.

Lemma epoch_begin_single e (w w' : world PS) q c pr m0 :
  NoDup (dkeys (w_params w)) ->
  policies_at (sc_policies (w_sched w)) e = [q] -> tbl q = PPrune c pr ->
  meta_get (sc_meta (w_sched w)) q = Some m0 ->
  on_epoch_begin tbl e w = Ok w' ->
  w_params w' = w_params w /\
  forall n p, dget (w_params w) n = Some p ->
  exists mk0 mk, dget (w_maskers w) n = Some mk0 /\ dget (w_maskers w') n = Some mk /\
    (if (negb (po_init (w_pol w q)) && pc_skip_first c)%bool then mk_mask mk = mk_mask mk0
     else exists ps ps', pr ps (mkMeta (me_start m0) (me_end m0) (me_freq m0) (Some e)) n
                            (match folded c n p with Some f => f | None => p end) (mk_mask mk0)
                         = Ok (ps', mk_mask mk)) /\
    (mk_double mk = if po_init (w_pol w q) then mk_double mk0 else pc_double c) /\
    (mk_fwd_only mk = if po_init (w_pol w q) then mk_fwd_only mk0 else pc_fwd_only c) /\
    (mk_hooks mk = if (negb (po_init (w_pol w q)) && pc_mask_grad c)%bool then S (mk_hooks mk0) else mk_hooks mk0).
Proof.
  intros Hnd Hp Ht Hm H. unfold on_epoch_begin in H. rewrite Hp in H. cbn [foldM] in H.
  inv_bind H. injection H as <-. inv_bind H0. destruct x0 as [w1 me].
  pose proof (touch_meta_spec _ _ _ _ H) as (_ & _ & _ & P & M & Po & m1 & M1 & M2 & _). simpl in *.
  rewrite Hm in M1. injection M1 as <-. rewrite Ht in H0. unfold prune_epoch_begin in H0. simpl in H0.
  rewrite Po in H0.
  eapply (for_params_local _ (fun n op om op' om' =>
    exists p mk0 mk, op = Some p /\ om = Some mk0 /\ op' = Some p /\ om' = Some mk /\
    (if (negb (po_init (w_pol w q)) && pc_skip_first c)%bool then mk_mask mk = mk_mask mk0
     else exists ps ps', pr ps me n (match folded c n p with Some f => f | None => p end) (mk_mask mk0)
                         = Ok (ps', mk_mask mk)) /\
    (mk_double mk = if po_init (w_pol w q) then mk_double mk0 else pc_double c) /\
    (mk_fwd_only mk = if po_init (w_pol w q) then mk_fwd_only mk0 else pc_fwd_only c) /\
    (mk_hooks mk = if (negb (po_init (w_pol w q)) && pc_mask_grad c)%bool then S (mk_hooks mk0) else mk_hooks mk0) /\
    mk_is_reg mk = mk_is_reg mk0 /\ mk_copy mk = mk_copy mk0)) in H0.
  - destruct H0 as [[K1 K2] HR]. simpl in *. rewrite P in K1. rewrite M in K2. split.
    + apply dict_ext; auto; [rewrite K1; auto|]. intros n Hn. rewrite K1 in Hn.
      destruct (HR n) as [I _]. rewrite P in I. destruct (I Hn) as (p & mk0 & mk & A & B & C & _). congruence.
    + intros n p Hg. destruct (HR n) as [I _]. rewrite P, M in I.
      destruct (I (dget_Some_In _ _ _ Hg)) as (p' & mk0 & mk & A & B & C & D & E & F & G & X & _).
      rewrite Hg in A. injection A as <-. rewrite <- M2. exists mk0, mk. auto 8.
  - intros w2 n w2' H2. apply epoch_begin_body_effect in H2. exact H2.
  - simpl. rewrite P. auto.
Qed.

(** Learning-rate steps. *)
Lemma dispatch_lr (d : nat -> list (nat * Z)) (body : world PS -> nat -> res (world PS)) l w w' :
  (forall w pid w', body w pid = Ok w' -> w_lr w' = w_lr w ++ d pid) ->
  foldM body l w = Ok w' -> w_lr w' = w_lr w ++ flat_map d l.
Proof.
  intro Hb. revert w; induction l as [|p l IH]; intros w H; simpl in H.
  - injection H as <-. simpl. rewrite app_nil_r; auto.
  - inv_bind H. apply Hb in H0. apply IH in H. rewrite H, H0. simpl. rewrite <- app_assoc. reflexivity.
Qed.

Lemma flat_map_nil {A B} (l : list A) : flat_map (fun _ => @nil B) l = [].
Proof. induction l; auto. Qed.

Definition is_lr (q : nat) : bool := match tbl q with PLR => true | _ => false end.

Lemma step_lr w ev w' :
  step tbl w ev = Ok w' ->
  w_lr w' = w_lr w ++ match ev with
    | EvEpochEnd e => map (fun q => (q, e + 1)%Z) (filter is_lr (policies_at (sc_policies (w_sched w)) e))
    | _ => []
    end.
Proof.
  assert (forall e w0 l, flat_map (fun pid => if is_lr pid then [(pid, e + 1)%Z] else []) l
           = map (fun q => (q, e + 1)%Z) (filter is_lr l) /\ w0 = w0 :> nat) as Hfm.
  { intros e w0 l. split; auto. induction l as [|a l IH]; simpl; auto. destruct (is_lr a); simpl; congruence. }
  destruct ev; simpl; intro H.
  - unfold on_epoch_begin in H. eapply (dispatch_lr (fun _ => [])) in H; [rewrite flat_map_nil in H; exact H|].
    clear. intros w pid w' H. inv_bind H. destruct x as [w1 me].
    pose proof (touch_meta_spec _ _ _ _ H0) as (_ & _ & S3 & _). simpl in *. rewrite app_nil_r.
    destruct (tbl pid).
    + apply prune_epoch_begin_quiet in H. unfold quiet in H; simpl in *. destruct H as (_ & _ & _ & ->). auto.
    + unfold reg_epoch_begin in H. injection H as <-. simpl. auto.
    + injection H as <-. simpl. auto.
    + injection H as <-. simpl. auto.
  - unfold on_minibatch_begin in H. eapply (dispatch_lr (fun _ => [])) in H; [rewrite flat_map_nil in H; exact H|].
    clear. intros w pid w' H. inv_bind H. destruct x as [w1 me].
    pose proof (touch_meta_spec _ _ _ _ H0) as (_ & _ & S3 & _). simpl in *. rewrite app_nil_r.
    destruct (tbl pid); try (injection H as <-; simpl; auto; fail).
    apply prune_mb_begin_quiet in H. unfold quiet in H; simpl in *. destruct H as (_ & _ & _ & ->). auto.
  - inv_bind H. injection H as <-. unfold before_backward_pass in H0. rewrite app_nil_r.
    remember (policies_at (sc_policies (w_sched w)) e) as l eqn:El. clear El.
    enough (forall st, foldM (fun (st : world PS * (Q * list Q)) pid =>
      let '(w, (overall, comps)) := st in
      let w := with_log w (CbBackward, pid, e) in
      match policy_backward tbl pid overall w with
      | PLNone => Ok (w, (overall, comps))
      | pl => do cs <- verify_policy_loss pl;
              Ok (w, (ploss_overall pl overall, comps ++ cs))
      end) l st = Ok x -> w_lr (fst x) = w_lr (fst st)) as Hgen by (apply Hgen in H0; exact H0).
    clear. induction l as [|p l IH]; intros st H; simpl in H.
      + injection H as <-. auto.
      + inv_bind H. destruct st as [w [ov cs]]. apply IH in H. rewrite H.
        destruct (policy_backward tbl p ov (with_log w (CbBackward, p, e))); simpl in H0;
          try discriminate; injection H0 as <-; simpl; auto.
  - unfold before_parameter_optimization in H. eapply (dispatch_lr (fun _ => [])) in H; [rewrite flat_map_nil in H; exact H|].
    clear. intros w pid w' H. inv_bind H. destruct x as [w1 me].
    pose proof (touch_meta_spec _ _ _ _ H0) as (_ & _ & S3 & _). simpl in *. rewrite app_nil_r.
    destruct (tbl pid); try (injection H as <-; simpl; auto; fail).
    apply prune_before_opt_quiet in H. unfold quiet in H; simpl in *. destruct H as (_ & _ & _ & ->). auto.
  - injection H as <-. simpl. rewrite app_nil_r; auto.
  - unfold on_minibatch_end in H. inv_bind H. apply mask_all_quiet in H0.
    destruct H0 as (_ & _ & _ & L). rewrite <- L.
    eapply (dispatch_lr (fun _ => [])) in H; [rewrite flat_map_nil in H; exact H|].
    clear. intros w pid w' H. simpl in H. rewrite app_nil_r. destruct (tbl pid).
    + apply prune_mb_end_quiet in H. unfold quiet in H; simpl in *. tauto.
    + apply reg_mb_end_quiet in H. unfold quiet in H; simpl in *. tauto.
    + injection H as <-. simpl. auto.
    + injection H as <-. simpl. auto.
  - unfold on_epoch_end in H.
    eapply (dispatch_lr (fun pid => if is_lr pid then [(pid, e + 1)%Z] else [])) in H.
    + rewrite (proj1 (Hfm e 0%nat _)) in H. exact H.
    + clear. intros w pid w' H. inv_bind H. destruct x as [w1 me].
      pose proof (touch_meta_spec _ _ _ _ H0) as (_ & _ & S3 & _). simpl in *. unfold is_lr.
      destruct (tbl pid).
      * apply prune_epoch_end_quiet in H. unfold quiet in H; simpl in *. destruct H as (_ & _ & _ & ->).
        rewrite app_nil_r. auto.
      * injection H as <-. simpl. rewrite app_nil_r; auto.
      * injection H as <-. simpl. rewrite S3; auto.
      * injection H as <-. simpl. rewrite app_nil_r; auto.
  - apply mask_all_quiet in H. destruct H as (_ & _ & _ & ->). rewrite app_nil_r; auto.
Qed.

Lemma lr_steps adds s w h w1 ev w2 :
  foldM add_policy adds new_sched = Ok s ->
  w_sched w = s -> run tbl h w = Ok w1 -> step tbl w1 ev = Ok w2 ->
  w_lr w2 = w_lr w1 ++ match ev with
    | EvEpochEnd e => map (fun q => (q, e + 1)%Z) (filter is_lr (expected_policies adds e))
    | _ => []
    end.
Proof.
  intros Ha Hs Hr Hst. apply step_lr in Hst. rewrite Hst. destruct ev; auto.
  rewrite (run_policies _ _ _ _ Hr), Hs.
  rewrite (add_all_policies adds new_sched s e Ha). reflexivity.
Qed.
End Proofs.
