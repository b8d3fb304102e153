(** Proofs about the lottery ticket. *)
From Coq Require Import String List ZArith QArith Bool Arith Lia.
From Verif Require Import Base Names SchedModel CkptModel SchedSpec SchedProofs SchedMaskProofs SchedExtraProofs SchedTightProofs CkptProofs LotModel LotSpec.
Import ListNotations.
Open Scope list_scope.
Open Scope nat_scope.

Lemma nonzeros_mask q : is_mask_of q (nonzeros q).
Proof.
  split; [apply map_length|]. intros i Hi. unfold nonzeros.
  rewrite (nth_indep (map _ q) 0%Q (if Qeq_bool 0 0 then 0 else 1)%Q) by (rewrite map_length; auto).
  rewrite (map_nth (fun x => if Qeq_bool x 0 then 0 else 1)%Q).
  destruct (Qeq_bool (nth i q 0%Q) 0) eqn:E.
  - apply Qeq_bool_iff in E. split; intros; [reflexivity|contradiction].
  - assert (~ nth i q 0 == 0)%Q by (intro H; apply Qeq_bool_iff in H; congruence). split; intros; [contradiction|reflexivity].
Qed.
Lemma ticket_of_mask w q m : length w = length q -> is_mask_of q m -> is_ticket w q (tmul w m).
Proof.
  intros Hl [Lm Hm]. unfold tmul. split; [rewrite map2_length; lia|]. intros i Hi. destruct (Hm i ltac:(lia)) as [H0 H1].
  rewrite (map2_nth _ _ _ _ 0%Q 0%Q 0%Q) by lia.
  split; intro H; [rewrite H0 by auto; ring|rewrite H1 by auto; ring].
Qed.
Lemma zero_of_mask t q m : is_mask_of q m -> zero_where_pruned q (tmul t m).
Proof.
  intros [Lm Hm] i Hi H0. unfold tmul. destruct (lt_dec i (length t)).
  - rewrite (map2_nth _ _ _ _ 0%Q 0%Q 0%Q) by lia. destruct (Hm i Hi) as [H _]. rewrite H by auto. ring.
  - rewrite nth_overflow; [reflexivity|]. rewrite map2_length. lia.
Qed.

(** ** the masks *)
Lemma inferred_all (p : dict tensor) (mk : dict masker) : (forall n, In n (dkeys p) -> dget mk n <> None) ->
  inferred_masks p mk = map (fun np => (fst np, nonzeros (snd np))) p.
Proof.
  induction p as [|(n, q) p IH]; intro H; [reflexivity|]. unfold inferred_masks in *. cbn [flat_map map fst snd].
  unfold dmem. destruct (dget mk n) eqn:E; [|exfalso; apply (H n); [left; reflexivity|auto]].
  cbn [app]. f_equal. apply IH. intros k Hk. apply H. right; auto.
Qed.
Lemma dget_map {A B} (f : A -> B) (d : dict A) n : dget (map (fun np => (fst np, f (snd np))) d) n = option_map f (dget d n).
Proof. induction d as [|(k, a) d IH]; [reflexivity|]. cbn. destruct (String.eqb n k); auto. Qed.
Lemma dkeys_map {A B} (f : A -> B) (d : dict A) : dkeys (map (fun np => (fst np, f (snd np))) d) = dkeys d.
Proof. unfold dkeys. rewrite map_map. reflexivity. Qed.

(** ** the loop that masks *)
Lemma mask_loop : forall (ms : dict tensor) u u', NoDup (dkeys ms) -> foldM mask_one ms u = Ok u' ->
  dkeys u' = dkeys u /\
  (forall n, ~ In n (dkeys ms) -> dget u' n = dget u n) /\
  (forall n m, dget ms n = Some m -> exists w, dget u n = Some w /\ length w = length m /\ dget u' n = Some (tmul w m)).
Proof.
  induction ms as [|(k, m) ms IH]; intros u u' Hnd H; cbn [foldM] in H.
  - injection H as <-. repeat split; auto. discriminate.
  - inversion Hnd as [|? ? Hk Hnd']; subst. apply bind_ok in H. destruct H as (u1 & H1 & H).
    unfold mask_one in H1. cbn [fst snd] in H1. destruct (dget u k) as [w|] eqn:Ek; [|discriminate].
    destruct (Nat.eqb (length w) (length m)) eqn:El; [|discriminate]. apply Nat.eqb_eq in El. injection H1 as <-.
    destruct (IH _ _ Hnd' H) as (K & O & S). 
    split; [rewrite K; apply dset_keys_mem; eapply dget_Some_In; eauto|]. split.
    + intros n Hn. cbn in Hn. rewrite O by tauto. apply dget_dset_other. intros ->. tauto.
    + intros n m' Hm. cbn in Hm. destruct (String.eqb_spec n k) as [->|N].
      * injection Hm as <-. exists w. split; auto. split; auto. rewrite O by auto. apply dget_dset_same.
      * destruct (S n m' Hm) as (w' & A & B & C). rewrite dget_dset_other in A by auto. exists w'. auto.
Qed.
Lemma mask_loop_ok : forall (ms : dict tensor) u, NoDup (dkeys ms) ->
  (forall n m, dget ms n = Some m -> exists w, dget u n = Some w /\ length w = length m) ->
  exists u', foldM mask_one ms u = Ok u'.
Proof.
  induction ms as [|(k, m) ms IH]; intros u Hnd H; cbn [foldM]; [eauto|].
  inversion Hnd as [|? ? Hk Hnd']; subst. destruct (H k m) as (w & E & L); [cbn; rewrite String.eqb_refl; reflexivity|].
  assert (mask_one u (k, m) = Ok (dset u k (tmul w m))) as ->
    by (unfold mask_one; cbn [fst snd]; unfold tensor in *; rewrite E, (proj2 (Nat.eqb_eq _ _) L); reflexivity).
  cbn [bind]. apply IH; auto.
  intros n m' Hm. assert (N : n <> k) by (intros ->; apply Hk; eapply dget_Some_In; eauto).
  rewrite dget_dset_other by auto. apply H. cbn. destruct (String.eqb_spec n k); [contradiction|auto].
Qed.

(** ** loading *)
Lemma load_params_keys p l : dkeys (load_params p l) = dkeys p.
Proof. induction p as [|(n, x) p IH]; [reflexivity|]. cbn. f_equal. exact IH. Qed.
Lemma load_state_keys mk st b : dkeys (fst (load_state_dict mk st b)) = dkeys mk.
Proof. unfold load_state_dict. destruct st; [apply load_masks_keys|reflexivity]. Qed.
Lemma load_ok fresh ck p mk e : load_checkpoint fresh ck = Ok (p, mk, e) ->
  dkeys p = dkeys fresh /\ (forall m, mk = Some m -> dkeys m = dkeys (create_model_masks_dict fresh)).
Proof.
  unfold load_checkpoint. intro H. apply bind_ok in H. destruct H as ((mk', nrm) & H1 & H).
  destruct (missing_keys _ _); [|discriminate]. injection H as <- <- _. split; [apply load_params_keys|].
  intros m ->. destruct (ck_sched ck); [|discriminate]. unfold load_compression_scheduler in H1.
  destruct (snd (load_state_dict (create_model_masks_dict fresh) (Some d) false)).
  - match type of H1 with context [load_state_dict ?a ?b true] => pose proof (load_state_keys a b true) as K2; destruct (load_state_dict a b true) as [m2 [e2|]] eqn:E2 end; [discriminate|].
    injection H1 as <- _. cbn [fst] in K2. rewrite K2. apply load_state_keys.
  - injection H1 as <- _. apply (load_state_keys _ (Some d) false).
Qed.
Lemma cm_keys (p : dict tensor) : NoDup (dkeys p) -> dkeys (create_model_masks_dict p) = dkeys p.
Proof.
  intro Hnd. unfold create_model_masks_dict.
  assert (G : forall (l : dict tensor) (acc : dict masker), NoDup (dkeys acc ++ dkeys l) ->
     dkeys (fold_left (fun d np => dset d (fst np) new_masker) l acc) = dkeys acc ++ dkeys l).
  { induction l as [|(n, x) l IH]; intros acc H; cbn [fold_left]; [rewrite app_nil_r; auto|]. cbn [fst].
    assert (Hn : ~ In n (dkeys acc)) by (cbn in H; intro I; apply NoDup_remove_2 in H; apply H; apply in_or_app; auto).
    rewrite IH; rewrite dset_keys_new by auto; [rewrite <- app_assoc; reflexivity|]. rewrite <- app_assoc. exact H. }
  apply (G p []). exact Hnd.
Qed.
Lemma cm_new (p : dict tensor) n m : dget (create_model_masks_dict p) n = Some m -> m = new_masker.
Proof.
  unfold create_model_masks_dict.
  assert (G : forall (l : dict tensor) (acc : dict masker), (forall m, dget acc n = Some m -> m = new_masker) ->
     forall m, dget (fold_left (fun d np => dset d (fst np) new_masker) l acc) n = Some m -> m = new_masker).
  { induction l as [|(k, x) l IH]; intros acc H m' Hm; cbn [fold_left] in Hm; [auto|]. eapply IH; [|exact Hm]. cbn [fst].
    intros m2 H2. destruct (string_dec n k) as [->|N]; [rewrite dget_dset_same in H2; congruence|]. rewrite dget_dset_other in H2 by auto. auto. }
  apply G. discriminate.
Qed.

(** ** training *)
Section Train.
Context {PS : Type}.
Implicit Types w : world PS.
Lemma body_total fwd : forall l w, (forall n, In n l -> In n (dkeys (w_params w))) ->
  (forall n, In n (dkeys (w_params w)) -> In n (dkeys (w_maskers w))) ->
  exists w', foldM (mask_all_body fwd) l w = Ok w'.
Proof.
  induction l as [|n l IH]; intros w Hl Hk; cbn [foldM]; [eauto|].
  assert (Hn : In n (dkeys (w_params w))) by (apply Hl; left; auto).
  destruct (dget (w_params w) n) as [p|] eqn:Ep; [|apply dget_None_notin in Ep; contradiction].
  destruct (dget (w_maskers w) n) as [m|] eqn:Em; [|apply dget_None_notin in Em; exfalso; apply Em; apply Hk; auto].
  unfold mask_all_body at 1, get_param. rewrite Ep. cbn [bind]. rewrite Em.
  destruct (fwd || negb (mk_fwd_only m)); cbn [bind]; apply IH; intros k Hk'.
  - cbn [put_param with_params w_params w_maskers]. rewrite dset_keys_mem by auto. apply Hl. right; auto.
  - cbn [put_param with_params w_params w_maskers] in *. rewrite dset_keys_mem in Hk' by auto. auto.
  - apply Hl. right; auto.
  - auto.
Qed.
Lemma mask_all_total fwd w : (forall n, In n (dkeys (w_params w)) -> In n (dkeys (w_maskers w))) ->
  exists w', mask_all_weights fwd w = Ok w'.
Proof. intro H. apply body_total; auto. Qed.

(** what a mini-batch keeps *)
Definition good (masks : dict tensor) (w : world PS) : Prop :=
  NoDup (dkeys (w_params w)) /\ (forall n, In n (dkeys (w_params w)) -> In n (dkeys (w_maskers w))) /\
  sc_policies (w_sched w) = [] /\
  forall n m, dget masks n = Some m -> In n (dkeys (w_params w)) /\
    exists mk, dget (w_maskers w) n = Some mk /\ mk_mask mk = Some m /\ mk_fwd_only mk = false.

Lemma batch_good tbl masks w b : good masks w ->
  exists w', batch tbl w b = Ok w' /\ good masks w' /\ dkeys (w_params w') = dkeys (w_params w) /\
    forall n m, dget masks n = Some m -> exists t, dget (w_params w') n = Some (tmul t m).
Proof.
  intros (Hnd & Hk & Hs & Hm). unfold batch, on_minibatch_end.
  set (w0 := with_params w (map (fun np => (fst np, snd b (fst np) (snd np))) (w_params w))).
  assert (K0 : dkeys (w_params w0) = dkeys (w_params w)).
  { unfold w0. cbn. unfold dkeys. rewrite map_map. reflexivity. }
  assert (Hk0 : forall n, In n (dkeys (w_params w0)) -> In n (dkeys (w_maskers w0))) by (intro n; rewrite K0; apply Hk).
  destruct (mask_all_total false w0 Hk0) as (w1 & E1). rewrite E1. cbn [bind].
  pose proof (mask_all_quiet false w0 w1 E1) as (_ & Q & _).
  assert (Hs1 : sc_policies (w_sched w1) = []) by (rewrite Q; exact Hs).
  rewrite Hs1. cbn [policies_at foldM]. exists w1. split; [reflexivity|].
  destruct (mask_all_exact false w0 w1 ltac:(rewrite K0; auto) Hk0 E1) as (A & B & C).
  split; [|split; [congruence|]].
  - split; [rewrite B, K0; auto|]. split; [rewrite A, B; exact Hk0|]. split; [auto|].
    intros n m H. destruct (Hm n m H) as [I J]. rewrite B, K0, A. split; auto.
  - intros n m H. destruct (Hm n m H) as [I (mk & J1 & J2 & J3)].
    rewrite <- K0 in I. destruct (dget (w_params w0) n) as [p|] eqn:Ep; [|apply dget_None_notin in Ep; contradiction].
    exists p. rewrite (C n p mk Ep J1), J3. cbn [orb negb]. unfold mask_tensor. rewrite J2. reflexivity.
Qed.
Lemma train_good tbl masks : forall bs w, good masks w ->
  exists w', train tbl bs w = Ok w' /\ good masks w' /\ dkeys (w_params w') = dkeys (w_params w) /\
    (bs = [] -> w' = w) /\
    (bs <> [] -> forall n m, dget masks n = Some m -> exists t, dget (w_params w') n = Some (tmul t m)).
Proof.
  induction bs as [|b bs IH]; intros w Hg; unfold train; cbn [foldM].
  - exists w. split; [reflexivity|]. split; [exact Hg|]. split; [reflexivity|]. split; [reflexivity|]. congruence.
  - destruct (batch_good tbl masks w b Hg) as (w1 & E & G & K & Z). rewrite E. cbn [bind].
    destruct (IH w1 G) as (w2 & E2 & G2 & K2 & Z0 & Z2). exists w2. split; [exact E2|]. split; auto. split; [congruence|].
    split; [discriminate|]. intros _. destruct bs as [|b' bs]; [rewrite Z0 by reflexivity; exact Z|]. apply Z2. discriminate.
Qed.
End Train.
