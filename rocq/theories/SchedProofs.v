(** Proofs about the scheduler model. *)
From Coq Require Import String List ZArith QArith Bool Arith Lia Lqa.
From Verif Require Import Base Names SchedModel SchedSpec.
Import ListNotations.

(* ------------------------------------------------------------------------- *)
(** ** add_policy *)
Lemma policies_at_append d e p e' :
  policies_at (append_policy d e p) e' =
  policies_at d e' ++ (if Z.eqb e' e then [p] else []).
Proof.
  induction d as [|(k, l) d IH]; simpl.
  - destruct (Z.eqb_spec e' e); auto.
  - destruct (Z.eqb_spec e k); simpl.
    + subst. destruct (Z.eqb_spec e' k); auto. rewrite app_nil_r; auto.
    + destruct (Z.eqb_spec e' k); auto.
      subst. destruct (Z.eqb_spec k e); [congruence|]. rewrite app_nil_r; auto.
Qed.

Lemma policies_at_fold l d p e :
  policies_at (fold_left (fun d e => append_policy d e p) l d) e =
  policies_at d e ++ repeat p (count_occ Z.eq_dec l e).
Proof.
  revert d; induction l as [|x l IH]; intro d; simpl.
  - rewrite app_nil_r; auto.
  - rewrite IH, policies_at_append.
    destruct (Z.eqb_spec e x); destruct (Z.eq_dec x e); try congruence; simpl.
    + rewrite <- app_assoc; reflexivity.
    + rewrite app_nil_r; reflexivity.
Qed.

Lemma zrange_fuel_count fuel st en fr e :
  (0 < fr)%Z -> (en - st <= Z.of_nat fuel)%Z ->
  count_occ Z.eq_dec (zrange_fuel fuel st en fr) e =
  if (Z.leb st e && Z.ltb e en && Z.eqb ((e - st) mod fr) 0)%bool then 1%nat else 0%nat.
Proof.
  revert st; induction fuel as [|f IH]; intros st Hfr Hlen; simpl.
  - assert (Z.leb st e && Z.ltb e en = false) as ->; auto. lia.
  - destruct (Z.ltb_spec st en).
    + simpl. rewrite IH; try lia.
      destruct (Z.eq_dec st e).
      * subst. replace (e - e)%Z with 0%Z by lia. rewrite Z.mod_0_l by lia.
        assert (Z.leb e e = true) as -> by lia.
        assert (Z.ltb e en = true) as -> by lia. simpl.
        assert (Z.leb (e + fr) e = false) as -> by lia. reflexivity.
      * destruct (Z.leb_spec (st + fr) e).
        -- assert (Z.leb st e = true) as -> by lia.
           replace (e - st)%Z with ((e - (st + fr)) + 1 * fr)%Z by lia.
           rewrite Z.mod_add by lia. reflexivity.
        -- simpl. destruct (Z.leb_spec st e); auto. simpl.
           destruct (Z.ltb_spec e en); auto. simpl.
           rewrite Z.mod_small by lia.
           destruct (Z.eqb_spec (e - st) 0); auto. lia.
    + assert (Z.leb st e && Z.ltb e en = false) as -> by lia. reflexivity.
Qed.

Lemma zrange_count st en fr e :
  (0 < fr)%Z ->
  count_occ Z.eq_dec (zrange st en fr) e =
  if (Z.leb st e && Z.ltb e en && Z.eqb ((e - st) mod fr) 0)%bool then 1%nat else 0%nat.
Proof. intro H. apply zrange_fuel_count; lia. Qed.

Lemma add_policy_ok s a s' e :
  add_policy s a = Ok s' ->
  policies_at (sc_policies s') e =
  policies_at (sc_policies s) e ++ repeat (ad_policy a) (times_scheduled a e).
Proof.
  unfold add_policy, times_scheduled, record_policy. destruct (ad_epochs a) as [l|].
  - destruct (ad_start a), (ad_end a); try discriminate. destruct l; [discriminate|].
    intro H; injection H as <-. exact (policies_at_fold (z :: l) _ _ _).
  - destruct (ad_start a), (ad_end a), (ad_freq a); try discriminate.
    destruct (Z.leb_spec 0 z); [|discriminate]. destruct (Z.ltb_spec z z0); [|discriminate].
    destruct (Z.ltb_spec 0 z1); [|discriminate]. destruct (Z.leb_spec z1 (z0 - z)); [|discriminate].
    simpl. intro Hok; injection Hok as <-. cbn [sc_policies].
    rewrite policies_at_fold, zrange_count by lia. reflexivity.
Qed.

Lemma add_policy_valid s a : (exists s', add_policy s a = Ok s') <-> valid_add a.
Proof.
  unfold add_policy, valid_add. destruct (ad_epochs a) as [l|]; split.
  - intros [s' H]. right. destruct (ad_start a), (ad_end a); try discriminate.
    destruct l; [discriminate|]. exists (z :: l). repeat split; auto. discriminate.
  - intros [[H _]|(l' & Hl & Hn & Hs & He)]; [discriminate|].
    inversion Hl; subst l'. rewrite Hs, He. destruct l; [congruence|]. eauto.
  - intros [s' H]. left. split; auto.
    destruct (ad_start a), (ad_end a), (ad_freq a); try discriminate.
    destruct (Z.leb_spec 0 z); [|discriminate]. destruct (Z.ltb_spec z z0); [|discriminate].
    destruct (Z.ltb_spec 0 z1); [|discriminate]. destruct (Z.leb_spec z1 (z0 - z)); [|discriminate].
    exists z, z0, z1. repeat split; auto; lia.
  - intros [[_ (st & en & fr & H1 & H2 & H3 & H4 & H5)]|(l & Hl & _)]; [|discriminate].
    rewrite H1, H2, H3.
    destruct (Z.leb_spec 0 st); [|lia]. destruct (Z.ltb_spec st en); [|lia].
    destruct (Z.ltb_spec 0 fr); [|lia]. destruct (Z.leb_spec fr (en - st)); [|lia].
    simpl; eauto.
Qed.

Lemma add_all_policies adds s0 s e :
  foldM add_policy adds s0 = Ok s ->
  policies_at (sc_policies s) e = policies_at (sc_policies s0) e ++ expected_policies adds e.
Proof.
  revert s0; induction adds as [|a adds IH]; intros s0 H.
  - simpl in H. injection H as <-. simpl. rewrite app_nil_r; auto.
  - cbn [foldM] in H. apply bind_ok in H. destruct H as (s1 & H1 & H2).
    rewrite (IH _ H2), (add_policy_ok _ _ _ e H1), <- app_assoc. reflexivity.
Qed.

(* ------------------------------------------------------------------------- *)
(** ** Dispatch: schedule and log are changed only by the dispatcher *)
Section Proofs.
Context {PS : Type}.
Variable tbl : nat -> policy PS.

(** Same log, schedule table and learning-rate log. *)
Definition quiet (w w' : world PS) : Prop :=
  w_log w' = w_log w /\ sc_policies (w_sched w') = sc_policies (w_sched w)
  /\ sc_meta (w_sched w') = sc_meta (w_sched w) /\ w_lr w' = w_lr w.

Lemma quiet_refl w : quiet w w.
Proof. unfold quiet; auto. Qed.
Lemma quiet_trans w1 w2 w3 : quiet w1 w2 -> quiet w2 w3 -> quiet w1 w3.
Proof. unfold quiet; intuition congruence. Qed.

Lemma for_params_quiet body w w' :
  (forall w n w', body w n = Ok w' -> quiet w w') ->
  @for_params PS body w = Ok w' -> quiet w w'.
Proof.
  intros Hb H. unfold for_params in H.
  apply (foldM_inv body (fun x => quiet w x)) in H; auto.
  - intros s a s' _ H1 H2. eapply quiet_trans; eauto.
  - apply quiet_refl.
Qed.


Lemma call_pruner_quiet pid c pr me w n w' :
  call_pruner pid c pr me w n = Ok w' -> quiet w w'.
Proof.
  unfold call_pruner. intro H. inv_bind H. inv_bind H. inv_bind H. injection H as <-.
  unfold quiet; auto.
Qed.

Lemma prune_epoch_begin_quiet pid c pr me w w' :
  prune_epoch_begin pid c pr me w = Ok w' -> quiet w w'.
Proof.
  unfold prune_epoch_begin. intro H. eapply quiet_trans; [|eapply for_params_quiet; [|exact H]].
  - unfold quiet; auto.
  - generalize (po_init (w_pol w pid)). clear. intros b w n w' H. unfold prune_epoch_begin_body in H.
    destruct b; [eapply call_pruner_quiet; eauto|].
    inv_bind H. inv_bind H. inv_bind H.
    destruct (pc_skip_first c).
    + injection H as <-. unfold quiet; auto.
    + apply call_pruner_quiet in H. unfold quiet in *; simpl in *; auto.
Qed.

Lemma prune_mb_begin_quiet pid c pr me e i k w w' :
  prune_mb_begin pid c pr me e i k w = Ok w' -> quiet w w'.
Proof.
  apply for_params_quiet. clear. intros w n w' H. unfold prune_mb_begin_body in H.
  inv_bind H. inv_bind H. inv_bind H.
  assert (quiet w x0) as Hq.
  { destruct (set_masks_now c e i k); [eapply call_pruner_quiet; eauto|].
    injection H1 as <-. apply quiet_refl. }
  destruct (if set_masks_now c e i k then folded c n x else None);
    injection H as <-; unfold quiet in *; simpl; auto.
Qed.

Lemma prune_before_opt_quiet w w' : prune_before_opt w = Ok w' -> @quiet w w'.
Proof.
  apply for_params_quiet. clear. intros w n w' H.
  inv_bind H. inv_bind H. injection H as <-. unfold quiet; auto.
Qed.

Lemma prune_mb_end_quiet c w w' : prune_mb_end c w = Ok w' -> @quiet w w'.
Proof.
  unfold prune_mb_end. destruct (pc_discard c); [|intro H; injection H as <-; apply quiet_refl].
  apply for_params_quiet. clear. intros w n w' H. inv_bind H. injection H as <-. unfold quiet; auto.
Qed.

Lemma prune_epoch_end_quiet pid c w w' : prune_epoch_end pid c w = Ok w' -> @quiet w w'.
Proof.
  unfold prune_epoch_end. destruct (po_last _); [|intro H; injection H as <-; apply quiet_refl].
  apply for_params_quiet. clear. intros w n w' H. unfold prune_epoch_end_body in H.
  inv_bind H. inv_bind H. injection H as <-. unfold quiet; auto.
Qed.

Lemma reg_mb_end_quiet pid r keep i k w w' : reg_mb_end pid r keep i k w = Ok w' -> @quiet w w'.
Proof.
  unfold reg_mb_end. destruct (negb _); [intro H; injection H as <-; apply quiet_refl|].
  apply for_params_quiet. generalize (Z.eqb (k - 1) i && po_last (w_pol w pid) && keep)%bool. clear.
  intros b w n w' H. unfold reg_mb_end_body in H.
  inv_bind H. inv_bind H. injection H as <-. unfold quiet; auto.
Qed.

Lemma mask_all_quiet fwd w w' : mask_all_weights fwd w = Ok w' -> @quiet w w'.
Proof.
  apply for_params_quiet. clear. intros w n w' H. unfold mask_all_body in H.
  inv_bind H. destruct (dget (w_maskers w) n).
  - destruct (fwd || negb (mk_fwd_only m)); injection H as <-; unfold quiet; auto.
  - inv_bind H. destruct x0; [|injection H as <-; apply quiet_refl].
    inv_bind H. injection H as <-. unfold quiet; auto.
Qed.

(** The schedule table is never changed by a callback, and the log grows by one entry per
    policy of the epoch. *)
Lemma dispatch_log (cb : callback) e (body : world PS -> nat -> res (world PS)) l w w' :
  (forall w pid w', body w pid = Ok w' ->
     sc_policies (w_sched w') = sc_policies (w_sched w) /\
     w_log w' = w_log w ++ [(cb, pid, e)]) ->
  foldM body l w = Ok w' ->
  sc_policies (w_sched w') = sc_policies (w_sched w) /\
  w_log w' = w_log w ++ map (fun p => (cb, p, e)) l.
Proof.
  intro Hb. revert w; induction l as [|p l IH]; intros w H; simpl in H.
  - injection H as <-. rewrite app_nil_r; auto.
  - inv_bind H. apply Hb in H0. apply IH in H. destruct H0 as [A B], H as [C D]. split; [congruence|].
    rewrite D, B, <- app_assoc. reflexivity.
Qed.

Lemma touch_meta_spec e w pid x :
  touch_meta e w pid = Ok x ->
  sc_policies (w_sched (fst x)) = sc_policies (w_sched w) /\ w_log (fst x) = w_log w /\
  w_lr (fst x) = w_lr w /\
  w_params (fst x) = w_params w /\ w_maskers (fst x) = w_maskers w /\ w_pol (fst x) = @w_pol PS w /\
  exists m, meta_get (sc_meta (w_sched w)) pid = Some m /\
    snd x = mkMeta (me_start m) (me_end m) (me_freq m) (Some e) /\
    sc_meta (w_sched (fst x)) = meta_set (sc_meta (w_sched w)) pid (snd x).
Proof.
  unfold touch_meta. destruct (meta_get _ pid) as [m|] eqn:E; [|discriminate].
  intro H; injection H as <-. simpl. repeat split; auto. exists m; auto.
Qed.

Lemma step_log w ev w' :
  step tbl w ev = Ok w' ->
  sc_policies (w_sched w') = sc_policies (w_sched w) /\
  w_log w' = w_log w ++ match event_callback ev with
                        | Some (cb, e) => map (fun p => (cb, p, e)) (policies_at (sc_policies (w_sched w)) e)
                        | None => []
                        end.
Proof.
  destruct ev; simpl; intro H.
  - unfold on_epoch_begin in H. eapply dispatch_log in H; [exact H|].
    clear. intros w pid w' H. inv_bind H. destruct x as [w1 me].
    pose proof (touch_meta_spec _ _ _ _ H0) as (S1 & S2 & _). simpl in *.
    destruct (tbl pid).
    + apply prune_epoch_begin_quiet in H. unfold quiet in H; simpl in *.
      destruct H as (-> & -> & _). rewrite S1, S2; auto.
    + unfold reg_epoch_begin in H. injection H as <-. simpl. rewrite S1, S2; auto.
    + injection H as <-. simpl. rewrite S1, S2; auto.
    + injection H as <-. simpl. rewrite S1, S2; auto.
  - unfold on_minibatch_begin in H. eapply dispatch_log in H; [exact H|].
    clear. intros w pid w' H. inv_bind H. destruct x as [w1 me].
    pose proof (touch_meta_spec _ _ _ _ H0) as (S1 & S2 & _). simpl in *.
    destruct (tbl pid).
    + apply prune_mb_begin_quiet in H. unfold quiet in H; simpl in *.
      destruct H as (-> & -> & _). rewrite S1, S2; auto.
    + injection H as <-. simpl. rewrite S1, S2; auto.
    + injection H as <-. simpl. rewrite S1, S2; auto.
    + injection H as <-. simpl. rewrite S1, S2; auto.
  - inv_bind H. injection H as <-. unfold before_backward_pass in H0.
    remember (policies_at (sc_policies (w_sched w)) e) as l eqn:El. clear El.
    assert (forall st, foldM (fun (st : world PS * (Q * list Q)) pid =>
      let '(w, (overall, comps)) := st in
      let w := with_log w (CbBackward, pid, e) in
      match policy_backward tbl pid overall w with
      | PLNone => Ok (w, (overall, comps))
      | pl => do cs <- verify_policy_loss pl;
              Ok (w, (ploss_overall pl overall, comps ++ cs))
      end) l st = Ok x ->
      sc_policies (w_sched (fst x)) = sc_policies (w_sched (fst st)) /\
      w_log (fst x) = w_log (fst st) ++ map (fun p => (CbBackward, p, e)) l) as Hgen.
    { clear. induction l as [|p l IH]; intros st H; simpl in H.
      - injection H as <-. rewrite app_nil_r; auto.
      - inv_bind H. destruct st as [w [ov cs]]. apply IH in H. destruct H as (-> & ->).
        destruct (policy_backward tbl p ov (with_log w (CbBackward, p, e))); simpl in H0;
          try discriminate; injection H0 as <-; simpl; rewrite <- app_assoc; auto. }
    apply Hgen in H0. exact H0.
  - unfold before_parameter_optimization in H. eapply dispatch_log in H; [exact H|].
    clear. intros w pid w' H. inv_bind H. destruct x as [w1 me].
    pose proof (touch_meta_spec _ _ _ _ H0) as (S1 & S2 & _). simpl in *.
    destruct (tbl pid).
    + apply prune_before_opt_quiet in H. unfold quiet in H; simpl in *.
      destruct H as (-> & -> & _). rewrite S1, S2; auto.
    + injection H as <-. simpl. rewrite S1, S2; auto.
    + injection H as <-. simpl. rewrite S1, S2; auto.
    + injection H as <-. simpl. rewrite S1, S2; auto.
  - injection H as <-. simpl. rewrite app_nil_r; auto.
  - unfold on_minibatch_end in H. inv_bind H. apply mask_all_quiet in H0.
    destruct H0 as (L & S & _).
    eapply dispatch_log in H; [rewrite <- L, <- S; exact H|].
    clear. intros w pid w' H. simpl in H. destruct (tbl pid).
    + apply prune_mb_end_quiet in H. unfold quiet in H; simpl in *. tauto.
    + apply reg_mb_end_quiet in H. unfold quiet in H; simpl in *. tauto.
    + injection H as <-. simpl. auto.
    + injection H as <-. simpl. auto.
  - unfold on_epoch_end in H. eapply dispatch_log in H; [exact H|].
    clear. intros w pid w' H. inv_bind H. destruct x as [w1 me].
    pose proof (touch_meta_spec _ _ _ _ H0) as (S1 & S2 & _). simpl in *.
    destruct (tbl pid).
    + apply prune_epoch_end_quiet in H. unfold quiet in H; simpl in *.
      destruct H as (-> & -> & _). rewrite S1, S2; auto.
    + injection H as <-. simpl. rewrite S1, S2; auto.
    + injection H as <-. simpl. rewrite S1, S2; auto.
    + injection H as <-. simpl. rewrite S1, S2; auto.
  - apply mask_all_quiet in H. destruct H as (-> & -> & _). rewrite app_nil_r; auto.
Qed.

Lemma run_policies h w w' :
  run tbl h w = Ok w' -> sc_policies (w_sched w') = sc_policies (w_sched w).
Proof.
  unfold run. intro H. apply (foldM_inv (step tbl)
     (fun x => sc_policies (w_sched x) = sc_policies (w_sched w))) in H; auto.
  intros s a s' _ H1 H2. apply step_log in H2. destruct H2 as (-> & _); auto.
Qed.

Lemma calls_as_scheduled adds s w h w1 ev cb e w2 :
  foldM add_policy adds new_sched = Ok s ->
  w_sched w = s ->
  run tbl h w = Ok w1 ->
  event_callback ev = Some (cb, e) ->
  step tbl w1 ev = Ok w2 ->
  w_log w2 = w_log w1 ++ map (fun p => (cb, p, e)) (expected_policies adds e).
Proof.
  intros Ha Hs Hr Hc Hst. apply step_log in Hst. destruct Hst as [_ ->]. rewrite Hc.
  rewrite (run_policies _ _ _ Hr), Hs.
  rewrite (add_all_policies adds new_sched s e Ha). reflexivity.
Qed.

End Proofs.
