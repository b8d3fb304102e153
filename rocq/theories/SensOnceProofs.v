(** One use of the scheduler in the sensitivity analysis: the parameters are multiplied by the
    masks that the pruner computes for them. *)
From Coq Require Import String List ZArith QArith Bool Arith Lia.
From Verif Require Import Base Names Lists SchedModel PrunerModel StructModel ResumeProofs SensModel.
Import ListNotations.

Definition me0 : meta := mkMeta 0 1 None (Some 0%Z).

Definition masked (t : tensor) (o : option tensor) : tensor := match o with None => t | Some m => tmul t m end.

Section Once.
Variable pr : pruner unit.

Lemma begin_body_ok (w : world unit) n t o :
  dget (w_params w) n = Some t -> dget (w_maskers w) n = Some new_masker -> pr tt me0 n t None = Ok (tt, o) ->
  exists w' m, prune_epoch_begin_body 0 default_cfg pr me0 false w n = Ok w' /\ w_params w' = w_params w /\
    dget (w_maskers w') n = Some m /\ mk_mask m = o /\ mk_fwd_only m = false /\
    forall n', n' <> n -> dget (w_maskers w') n' = dget (w_maskers w) n'.
Proof.
  intros Hp Hm Ho. unfold prune_epoch_begin_body, get_param, get_masker. rewrite Hp, Hm. cbn [bind].
  cbn [pc_mask_grad default_cfg bind pc_skip_first]. unfold call_pruner, get_param, get_masker.
  cbn [w_params with_pol put_masker with_maskers w_maskers]. rewrite Hp. cbn [bind]. rewrite dget_dset_same. cbn [bind].
  unfold folded. cbn [pc_fold default_cfg].
  match goal with |- context [pr ?st me0 n t ?mk] => destruct st; change mk with (@None tensor) end. rewrite Ho. cbn [bind fst snd].
  eexists. eexists. split; [reflexivity|]. cbn. split; auto.
  split; [rewrite dget_dset_same; reflexivity|]. cbn. split; auto. split; auto.
  intros n' Hn. rewrite !dget_dset_other by auto. auto.
Qed.

Lemma begin_body_raise (w : world unit) n t e :
  dget (w_params w) n = Some t -> dget (w_maskers w) n = Some new_masker -> pr tt me0 n t None = Raise e ->
  prune_epoch_begin_body 0 default_cfg pr me0 false w n = Raise e.
Proof.
  intros Hp Hm Ho. unfold prune_epoch_begin_body, get_param, get_masker. rewrite Hp, Hm. cbn [bind].
  cbn [pc_mask_grad default_cfg bind pc_skip_first]. unfold call_pruner, get_param, get_masker.
  cbn [w_params with_pol put_masker with_maskers w_maskers]. rewrite Hp. cbn [bind]. rewrite dget_dset_same. cbn [bind].
  unfold folded. cbn [pc_fold default_cfg].
  match goal with |- context [pr ?st me0 n t ?mk] => destruct st; change mk with (@None tensor) end. rewrite Ho. reflexivity.
Qed.

Definition fine (P : dict tensor) (n : string) : Prop :=
  exists t o, dget P n = Some t /\ pr tt me0 n t None = Ok (tt, o).

Lemma begin_loop l : forall w : world unit, NoDup l ->
  (forall n, In n l -> fine (w_params w) n) ->
  (forall n, In n l -> dget (w_maskers w) n = Some new_masker) ->
  exists w', foldM (prune_epoch_begin_body 0 default_cfg pr me0 false) l w = Ok w' /\ w_params w' = w_params w /\
    (forall n t o, In n l -> dget (w_params w) n = Some t -> pr tt me0 n t None = Ok (tt, o) ->
       exists m, dget (w_maskers w') n = Some m /\ mk_mask m = o /\ mk_fwd_only m = false) /\
    (forall n, ~ In n l -> dget (w_maskers w') n = dget (w_maskers w) n).
Proof.
  induction l as [|n l IH]; intros w Hnd Hf Hm; cbn [foldM].
  - exists w. split; auto. split; auto. split; [intros ? ? ? []|auto].
  - inversion Hnd as [|? ? Hni Hnd']; subst. destruct (Hf n (or_introl eq_refl)) as (t & o & Ht & Ho).
    destruct (begin_body_ok w n t o Ht (Hm n (or_introl eq_refl)) Ho) as (w1 & m & E & Ep & Em & E1 & E2 & Eo).
    rewrite E. cbn [bind].
    destruct (IH w1 Hnd') as (w' & E' & Ep' & A & B).
    { intros x Hx. rewrite Ep. apply Hf. right; auto. }
    { intros x Hx. rewrite Eo by congruence. apply Hm. right; auto. }
    exists w'. split; auto. split; [congruence|]. split.
    + intros x tx ox [<-|Hx] Htx Hox.
      * rewrite B by auto. rewrite Em. rewrite Ht in Htx. inversion Htx; subst. rewrite Ho in Hox. inversion Hox; subst. eauto.
      * apply (A x tx ox Hx); auto. rewrite Ep; auto.
    + intros x Hx. simpl in Hx. rewrite B by tauto. apply Eo. intro; subst; tauto.
Qed.

Lemma begin_loop_raise l n0 t0 e : forall w : world unit, NoDup l -> In n0 l ->
  dget (w_params w) n0 = Some t0 -> pr tt me0 n0 t0 None = Raise e ->
  (forall n, In n l -> n <> n0 -> fine (w_params w) n) ->
  (forall n, In n l -> dget (w_maskers w) n = Some new_masker) ->
  foldM (prune_epoch_begin_body 0 default_cfg pr me0 false) l w = Raise e.
Proof.
  induction l as [|n l IH]; intros w Hnd Hin Ht0 Hr Hf Hm; [destruct Hin|]. cbn [foldM].
  inversion Hnd as [|? ? Hni Hnd']; subst.
  destruct (string_dec n n0) as [->|Hne].
  - rewrite (begin_body_raise w n0 t0 e); auto; apply Hm; left; auto.
  - destruct Hin as [|Hin]; [contradiction|]. destruct (Hf n (or_introl eq_refl) Hne) as (t & o & Ht & Ho).
    destruct (begin_body_ok w n t o Ht (Hm n (or_introl eq_refl)) Ho) as (w1 & m & E & Ep & Em & E1 & E2 & Eo).
    rewrite E. cbn [bind]. apply IH; auto.
    + rewrite Ep; auto.
    + intros x Hx Hx0. rewrite Ep. apply Hf; auto. right; auto.
    + intros x Hx. rewrite Eo by congruence. apply Hm. right; auto.
Qed.

Lemma mask_loop l (mk : string -> option tensor) : forall w : world unit, NoDup l ->
  (forall n, In n l -> exists t m, dget (w_params w) n = Some t /\ dget (w_maskers w) n = Some m /\ mk_mask m = mk n) ->
  exists w', foldM (mask_all_body true) l w = Ok w' /\ dkeys (w_params w') = dkeys (w_params w) /\
    (forall n t, In n l -> dget (w_params w) n = Some t -> dget (w_params w') n = Some (masked t (mk n))) /\
    (forall n, ~ In n l -> dget (w_params w') n = dget (w_params w) n).
Proof.
  induction l as [|n l IH]; intros w Hnd H; cbn [foldM].
  - exists w. split; auto. split; auto. split; [intros ? ? []|auto].
  - inversion Hnd as [|? ? Hni Hnd']; subst. destruct (H n (or_introl eq_refl)) as (t & m & Ht & Hm & Hk).
    assert (E : mask_all_body true w n = Ok (put_param w n (masked t (mk n)))).
    { unfold mask_all_body, get_param. rewrite Ht. cbn [bind]. rewrite Hm. cbn [orb].
      unfold mask_tensor. rewrite Hk. reflexivity. }
    rewrite E. cbn [bind].
    destruct (IH (put_param w n (masked t (mk n))) Hnd') as (w' & E' & Ek & A & B).
    { intros x Hx. assert (x <> n) by congruence. destruct (H x (or_intror Hx)) as (tx & mx & ? & ? & ?). exists tx, mx.
      cbn. rewrite dget_dset_other by auto. auto. }
    exists w'. split; auto. cbn [put_param with_params w_params] in *. split; [|split].
    + rewrite Ek. apply dset_keys_mem. apply dget_In in Ht. apply (in_map fst) in Ht. exact Ht.
    + intros x tx [<-|Hx] Htx.
      * rewrite B by auto. rewrite dget_dset_same. congruence.
      * apply A; auto. rewrite dget_dset_other by congruence. auto.
    + intros x Hx. simpl in Hx. rewrite B by tauto. apply dget_dset_other. intro; subst; tauto.
Qed.

Lemma keys_dget {A} (d : dict A) n : In n (dkeys d) -> exists v, dget d n = Some v.
Proof.
  intro H. destruct (dget d n) eqn:E; eauto. apply dget_None_notin in E. contradiction.
Qed.

Lemma prune_once_ok P : NoDup (dkeys P) ->
  (forall n t, dget P n = Some t -> exists o, pr tt me0 n t None = Ok (tt, o)) ->
  exists v, prune_once pr P = Ok v /\ dkeys v = dkeys P /\
    forall n t o, dget P n = Some t -> pr tt me0 n t None = Ok (tt, o) -> dget v n = Some (masked t o).
Proof.
  intros Hnd Hf. unfold prune_once. cbn [add_policy ad_epochs ad_start ad_end ad_policy bind last].
  unfold on_epoch_begin. cbn [w_sched record_policy sc_policies new_sched fold_left append_policy policies_at Z.eqb foldM].
  unfold touch_meta. cbn [w_sched sc_meta record_policy meta_set new_sched meta_get Nat.eqb bind me_start me_end me_freq].
  unfold prune_epoch_begin. cbn [with_log with_meta w_pol po_init].
  unfold for_params. cbn [with_pol w_params].
  change (mkMeta 0 (0 + 1) None (Some 0%Z)) with me0.
  match goal with |- context [foldM (prune_epoch_begin_body 0 default_cfg pr me0 false) ?k ?w] =>
    change k with (dkeys P); destruct (begin_loop (dkeys P) w Hnd) as (w1 & E & Ep & A & _) end.
  { intros n Hn. cbn. destruct (keys_dget P n Hn) as (t & Ht). destruct (Hf n t Ht) as (o & Ho). exists t, o. auto. }
  { intros n Hn. cbn. apply create_masks_get; auto. }
  rewrite E. cbn [bind]. cbn [w_params with_pol with_log with_meta] in Ep, A. unfold mask_all_weights, for_params. rewrite Ep.
  destruct (mask_loop (dkeys P) (fun n => match dget (w_maskers w1) n with Some m => mk_mask m | None => None end) w1 Hnd) as (w2 & E2 & Ek & B & _).
  { intros n Hn. destruct (keys_dget P n Hn) as (t & Ht). destruct (Hf n t Ht) as (o & Ho).
    destruct (A n t o Hn Ht Ho) as (m & Hm & _). exists t, m. rewrite Ep, Hm. auto. }
  rewrite E2. cbn [bind]. exists (w_params w2). split; auto. split; [congruence|].
  intros n t o Ht Ho. assert (Hn : In n (dkeys P)) by (apply dget_In in Ht; apply (in_map fst) in Ht; exact Ht).
  destruct (A n t o Hn Ht Ho) as (m & Hm & Hk & _).
  rewrite (B n t Hn) by congruence. rewrite Hm, Hk. auto.
Qed.

Lemma prune_once_raise P n0 t0 e : NoDup (dkeys P) -> dget P n0 = Some t0 -> pr tt me0 n0 t0 None = Raise e ->
  (forall n t, n <> n0 -> dget P n = Some t -> exists o, pr tt me0 n t None = Ok (tt, o)) ->
  prune_once pr P = Raise e.
Proof.
  intros Hnd Ht0 Hr Hf. unfold prune_once. cbn [add_policy ad_epochs ad_start ad_end ad_policy bind last].
  unfold on_epoch_begin. cbn [w_sched record_policy sc_policies new_sched fold_left append_policy policies_at Z.eqb foldM].
  unfold touch_meta. cbn [w_sched sc_meta record_policy meta_set new_sched meta_get Nat.eqb bind me_start me_end me_freq].
  unfold prune_epoch_begin. cbn [with_log with_meta w_pol po_init].
  unfold for_params. cbn [with_pol w_params].
  change (mkMeta 0 (0 + 1) None (Some 0%Z)) with me0.
  match goal with |- context [foldM (prune_epoch_begin_body 0 default_cfg pr me0 false) ?k ?w] =>
    change k with (dkeys P); rewrite (begin_loop_raise (dkeys P) n0 t0 e w Hnd) end; auto.
  { apply dget_In in Ht0; apply (in_map fst) in Ht0; exact Ht0. }
  { intros n Hn Hne. cbn. destruct (keys_dget P n Hn) as (t & Ht). destruct (Hf n t Hne Ht) as (o & Ho). exists t, o. auto. }
  { intros n Hn. cbn. apply create_masks_get; auto. }
Qed.
End Once.
