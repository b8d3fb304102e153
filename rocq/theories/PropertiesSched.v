(** Theorems for properties C01-C11 (scheduler, policies, masks, checkpoints). *)
From Coq Require Import String List ZArith QArith Qabs Bool Arith Lia.
From Verif Require Import Base Names SchedModel SchedSpec CkptModel SchedProofs SchedMaskProofs
  SchedPolicyProofs SchedPolicyProofs2 SchedExtraProofs SchedTightProofs CkptProofs ResumeProofs.
Import ListNotations.

(** * A concrete training set-up used by the examples *)
Module Ex.
(** A pruner that keeps weights with |w| > 1, as create_mask_threshold_criterion does. *)
Definition thr : pruner unit := fun ps _ _ p _ => Ok (ps, Some (map (fun x => b2q (Qltb 1 (Qabs x))) p)).
Definition const (m : tensor) : pruner unit := fun ps _ _ _ _ => Ok (ps, Some m).
Definition cfg0 : prune_cfg := mkCfg false 0 false false false false false None.
Definition cfg_keep : prune_cfg := mkCfg true 0 false false false false false None.
Definition cfg_keep_fwd : prune_cfg := mkCfg true 0 true false false false false None.
Definition cfg_fwd : prune_cfg := mkCfg false 0 true false false false false None.
Definition cfg_double : prune_cfg := mkCfg false 0 false false true false false None.
Definition params : dict tensor := [("conv.weight"%string, [2; 1 # 2; -3]); ("fc.weight"%string, [1 # 4; 5])].
Definition pol0 : nat -> pol_state unit := fun _ => mkPol false false tt.
Definition range (p : nat) (s e f : Z) : add_args := mkAdd p None (Some s) (Some e) (Some f).
Definition sched_of (adds : list add_args) : sched :=
  match foldM add_policy adds new_sched with Ok s => s | Raise _ => new_sched end.
Definition world0 (adds : list add_args) : world unit :=
  start params (create_model_masks_dict params) pol0 (sched_of adds).
(** the optimizer adds 1 to every weight *)
Definition upd : dict tensor -> string -> tensor -> tensor := fun _ _ p => map (fun x => x + 1) p.
Definition epoch (e : Z) : list event :=
  EvEpochBegin e :: flat_map (minibatch e) [(0%Z, 2%Z, 1, upd); (1%Z, 2%Z, 1, upd)] ++ [EvEpochEnd e].
Definition epochs (l : list Z) : list event := flat_map epoch l.
Definition is_ok {A} (r : res A) : bool := match r with Ok _ => true | Raise _ => false end.
End Ex.

(* ------------------------------------------------------------------------- *)
(** * C01: schedule *)

(** Every callback of every history calls exactly the expected policies, in order. *)
Theorem C01_calls_exactly_as_scheduled :
  forall (PS : Type) (tbl : nat -> policy PS) adds s (w w1 w2 : world PS) h ev cb e,
  foldM add_policy adds new_sched = Ok s ->
  w_sched w = s ->
  run tbl h w = Ok w1 ->
  event_callback ev = Some (cb, e) ->
  step tbl w1 ev = Ok w2 ->
  w_log w2 = w_log w1 ++ map (fun p => (cb, p, e)) (expected_policies adds e).
Proof. intros. eapply calls_as_scheduled; eauto. Qed.

Theorem C01_add_policy_accepts_iff_valid :
  forall s a, (exists s', add_policy s a = Ok s') <-> valid_add a.
Proof. exact add_policy_valid. Qed.

(** In range form the policy is scheduled in epoch e exactly when start <= e < end and
    frequency divides e - start. *)
Theorem C01_range_membership :
  forall a st en fr e, valid_add a -> ad_epochs a = None ->
  ad_start a = Some st -> ad_end a = Some en -> ad_freq a = Some fr ->
  (times_scheduled a e = 1%nat <-> (st <= e < en)%Z /\ (fr | e - st)%Z) /\
  (times_scheduled a e = 0%nat \/ times_scheduled a e = 1%nat).
Proof.
  intros a st en fr e Hv He Hs Hn Hf.
  destruct Hv as [[_ (st' & en' & fr' & H1 & H2 & H3 & H4 & H5)]|(l & H & _)]; [|congruence].
  assert (fr' = fr) as -> by congruence.
  unfold times_scheduled. rewrite He, Hs, Hn, Hf.
  destruct (Z.leb_spec st e), (Z.ltb_spec e en); simpl.
  - destruct (Z.eqb_spec ((e - st) mod fr) 0) as [E|E]; (split; [split|auto]).
    + intros _. split; [lia|]. apply Z.mod_divide; lia.
    + auto.
    + discriminate.
    + intros [_ Hd]. exfalso. apply E. apply Z.mod_divide; [lia|auto].
  - split; [split; [discriminate|lia]|auto].
  - split; [split; [discriminate|lia]|auto].
  - split; [split; [discriminate|lia]|auto].
Qed.

Example C01_example :
  let adds := [Ex.range 0 0 10 4; mkAdd 1 (Some [3; 8; 8]%Z) None None None; Ex.range 2 8 9 1] in
  (exists s, foldM add_policy adds new_sched = Ok s) /\
  expected_policies adds 8 = [0; 1; 1; 2]%nat /\ expected_policies adds 9 = [] /\
  Ex.is_ok (run (fun _ => PPrune Ex.cfg0 Ex.thr) (Ex.epochs [0; 1; 2; 3; 4; 5; 6; 7; 8; 9]%Z) (Ex.world0 adds)) = true.
Proof. split; [eexists; reflexivity|]. vm_compute. auto. Qed.

(* ------------------------------------------------------------------------- *)
(** * C02: the last epoch of a policy *)

(** After on_epoch_begin of a scheduled epoch the policy considers it its last one iff it is
    the recorded end minus one (range: ending_epoch - 1; list: the last element). *)
Theorem C02_last_epoch_flag :
  forall (PS : Type) (tbl : nat -> policy PS) adds s (w w1 w2 : world PS) h a c pr e,
  foldM add_policy adds new_sched = Ok s -> NoDup (map ad_policy adds) ->
  In a adds -> tbl (ad_policy a) = PPrune c pr -> times_scheduled a e <> 0%nat ->
  w_sched w = s -> run tbl h w = Ok w1 -> step tbl w1 (EvEpochBegin e) = Ok w2 ->
  po_last (w_pol w2 (ad_policy a)) = true <->
  e = match ad_epochs a with
      | Some l => last l 0%Z
      | None => match ad_end a with Some en => (en - 1)%Z | None => 0%Z end
      end.
Proof.
  intros PS tbl adds s w w1 w2 h a c pr e Ha Hnd Hin Ht Hts Hw Hr Hs.
  destruct (add_all_meta adds new_sched s a Ha Hin Hnd) as (m & M1 & M2).
  assert (has_end w (ad_policy a) (add_end a)) as He by (exists m; subst s; auto).
  pose proof (run_end tbl h w w1 _ _ Hr He) as He1.
  simpl in Hs. rewrite (on_epoch_begin_last tbl e w1 w2 _ _ c pr Hs (or_introl Ht) He1).
  rewrite (run_policies tbl h w w1 Hr), Hw, (add_all_policies adds new_sched s e Ha). simpl.
  destruct (in_dec Nat.eq_dec (ad_policy a) (expected_policies adds e)) as [_|Hn].
  - rewrite Z.eqb_eq. unfold add_end. destruct (ad_epochs a) as [l|] eqn:El; [lia|].
    destruct (ad_end a) eqn:E; [lia|].
    exfalso. assert (valid_add a) as Hv.
    { clear - Ha Hin. revert Ha Hin. generalize new_sched. induction adds as [|b adds IH]; intros s0 Ha Hin; [destruct Hin|].
      cbn [foldM] in Ha. inv_bind Ha. destruct Hin as [->|Hin]; [|eapply IH; eauto].
      eapply add_policy_valid; eauto. }
    unfold times_scheduled in Hts. destruct (ad_start a); rewrite ?E in Hts;
      destruct Hv as [[_ (st' & en' & fr' & H1 & H2 & _)]|(l & H & _ & _)]; try congruence.
  - exfalso. apply Hn. apply count_expected. eauto.
Qed.

(** keep_mask: at the end of the policy's last scheduled epoch, if the frequency hits it, all
    parameters become permanently masked: plain masker flags, no gradient hook handle, and
    the weights already zero wherever the mask is. *)
Theorem C02_keep_mask_permanent :
  forall (PS : Type) (tbl : nat -> policy PS) adds s (w w1 w2 w3 w4 : world PS) h h' a c pr st en fr,
  foldM add_policy adds new_sched = Ok s -> NoDup (map ad_policy adds) ->
  In a adds -> ad_epochs a = None ->
  ad_start a = Some st -> ad_end a = Some en -> ad_freq a = Some fr ->
  (fr | en - 1 - st)%Z ->
  tbl (ad_policy a) = PPrune c pr -> pc_keep c = true ->
  NoDup (dkeys (w_params w)) -> w_sched w = s ->
  run tbl h w = Ok w1 -> step tbl w1 (EvEpochBegin (en - 1)) = Ok w2 ->
  (forall e, ~ In (EvEpochBegin e) h') -> run tbl h' w2 = Ok w3 ->
  step tbl w3 (EvEpochEnd (en - 1)) = Ok w4 ->
  forall n, In n (dkeys (w_params w)) ->
  exists p mk, dget (w_params w4) n = Some p /\ dget (w_maskers w4) n = Some mk /\
    mk_fwd_only mk = false /\ mk_double mk = false /\ mk_handle mk = false /\
    (forall m, mk_mask mk = Some m -> masked p m).
Proof.
  intros PS tbl adds s w w1 w2 w3 w4 h h' a c pr st en fr Ha Hnd Hin He Hs Hn Hf Hd Ht Hk Hnp Hw Hr Hb Hh Hr2 Hee n Hnn.
  assert (valid_add a) as Hv.
  { clear - Ha Hin. revert Ha Hin. generalize new_sched. induction adds as [|b adds IH]; intros s0 Ha Hin; [destruct Hin|].
    cbn [foldM] in Ha. inv_bind Ha. destruct Hin as [->|Hin]; [|eapply IH; eauto].
    eapply add_policy_valid; eauto. }
  assert (times_scheduled a (en - 1) <> 0%nat) as Hts.
  { apply (last_epoch_hit_iff a st en fr); auto. }
  assert (po_last (w_pol w2 (ad_policy a)) = true) as Hl.
  { eapply (C02_last_epoch_flag PS tbl adds s w w1 w2 h a c pr (en - 1)); eauto. rewrite He, Hn. auto. }
  assert (po_last (w_pol w3 (ad_policy a)) = true) as Hl3.
  { clear - Hl Hr2 Hh. revert w2 Hl Hr2 Hh. induction h' as [|ev h' IH]; intros w2 Hl Hr2 Hh.
    - simpl in Hr2. injection Hr2 as <-. auto.
    - unfold run in Hr2. cbn [foldM] in Hr2. inv_bind Hr2. apply (IH x); auto.
      + rewrite (other_steps_last tbl w2 ev x); auto. intros e ->. apply (Hh e). simpl; auto.
      + intros e Hc. apply (Hh e). simpl; auto. }
  assert (dkeys (w_params w3) = dkeys (w_params w)) as K3.
  { apply run_keys in Hr. apply step_keys in Hb. apply run_keys in Hr2.
    destruct Hr as [A _], Hb as [B _], Hr2 as [C _]. congruence. }
  eapply (keep_mask_permanent tbl (en - 1) w3 w4 (ad_policy a) c pr); auto.
  - rewrite K3; auto.
  - rewrite (run_policies tbl _ _ _ Hr2). apply step_log in Hb. destruct Hb as [-> _].
    rewrite (run_policies tbl _ _ _ Hr), Hw, (add_all_policies adds new_sched s _ Ha). simpl.
    apply count_expected. eauto.
  - rewrite K3; auto.
Qed.

(** If the frequency misses ending_epoch - 1, the last-epoch work never happens, in any
    history. *)
Theorem C02_last_epoch_work_never_runs :
  forall (PS : Type) (tbl : nat -> policy PS) adds s (w w1 : world PS) h a c pr st en fr,
  foldM add_policy adds new_sched = Ok s -> NoDup (map ad_policy adds) ->
  In a adds -> ad_epochs a = None ->
  ad_start a = Some st -> ad_end a = Some en -> ad_freq a = Some fr ->
  ~ (fr | en - 1 - st)%Z ->
  tbl (ad_policy a) = PPrune c pr ->
  w_sched w = s -> po_last (w_pol w (ad_policy a)) = false ->
  run tbl h w = Ok w1 ->
  po_last (w_pol w1 (ad_policy a)) = false /\ prune_epoch_end (ad_policy a) c w1 = Ok w1.
Proof.
  intros PS tbl adds s w w1 h a c pr st en fr Ha Hnd Hin He Hs Hn Hf Hd Ht Hw Hl Hr.
  assert (valid_add a) as Hv.
  { clear - Ha Hin. revert Ha Hin. generalize new_sched. induction adds as [|b adds IH]; intros s0 Ha Hin; [destruct Hin|].
    cbn [foldM] in Ha. inv_bind Ha. destruct Hin as [->|Hin]; [|eapply IH; eauto].
    eapply add_policy_valid; eauto. }
  assert (po_last (w_pol w1 (ad_policy a)) = false) as H.
  { eapply never_last; eauto. }
  split; auto. unfold prune_epoch_end. rewrite H. reflexivity.
Qed.

(** keep_mask=True, mask_on_forward_only=True with (0, 10, 4): hits 0, 4, 8.  After ten
    epochs the masked weights are not zero and the mask is still forward-only. *)
Theorem C02_keep_mask_ignored_refuted :
  exists w, run (fun _ => PPrune Ex.cfg_keep_fwd (Ex.const [0; 1; 1]))
              (Ex.epochs [0; 1; 2; 3; 4; 5; 6; 7; 8; 9]%Z) (Ex.world0 [Ex.range 0 0 10 4]) = Ok w /\
    exists p mk, dget (w_params w) "conv.weight" = Some p /\ dget (w_maskers w) "conv.weight" = Some mk /\
      mk_mask mk = Some [0; 1; 1] /\ mk_fwd_only mk = true /\ ~ nth 0 p 0 == 0.
Proof.
  eexists. split; [vm_compute; reflexivity|]. eexists. eexists.
  split; [vm_compute; reflexivity|]. split; [vm_compute; reflexivity|].
  split; [reflexivity|]. split; [reflexivity|]. vm_compute. discriminate.
Qed.

(** The same run with frequency 3 (which hits 9) does zero them. *)
Example C02_example_frequency_hits :
  exists w, run (fun _ => PPrune Ex.cfg_keep_fwd (Ex.const [0; 1; 1]))
              (Ex.epochs [0; 1; 2; 3; 4; 5; 6; 7; 8; 9]%Z) (Ex.world0 [Ex.range 0 0 10 3]) = Ok w /\
    exists p, dget (w_params w) "conv.weight" = Some p /\ nth 0 p 1 == 0.
Proof.
  eexists. split; [vm_compute; reflexivity|]. eexists.
  split; [vm_compute; reflexivity|]. vm_compute. reflexivity.
Qed.

(* ------------------------------------------------------------------------- *)
(** * C03: pruned weights are zero after every training step *)
Theorem C03_pruned_weights_zero_after_step :
  forall (PS : Type) (tbl : nat -> policy PS) h (w w1 w2 : world PS) e i k,
  NoDup (dkeys (w_params w)) ->
  run tbl h w = Ok w1 ->
  step tbl w1 (EvMBEnd e i k) = Ok w2 ->
  forall n p mk m,
    dget (w_params w2) n = Some p -> dget (w_maskers w2) n = Some mk ->
    mk_mask mk = Some m -> mk_fwd_only mk = false ->
    masked p m.
Proof. intros PS tbl h w w1 w2 e i k Hnd Hr Hs. exact (pruned_weights_zero tbl h w w1 e i k w2 Hnd Hr Hs). Qed.

Example C03_example :
  exists w, run (fun _ => PPrune Ex.cfg0 Ex.thr) (Ex.epochs [0; 1]%Z) (Ex.world0 [Ex.range 0 0 2 1]) = Ok w /\
    exists p mk m, dget (w_params w) "fc.weight" = Some p /\ dget (w_maskers w) "fc.weight" = Some mk /\
      mk_mask mk = Some m /\ mk_fwd_only mk = false /\ m = [0; 1] /\ nth 0 p 1 == 0 /\ ~ nth 1 p 0 == 0.
Proof.
  eexists. split; [vm_compute; reflexivity|]. do 3 eexists.
  split; [vm_compute; reflexivity|]. split; [vm_compute; reflexivity|].
  split; [reflexivity|]. split; [reflexivity|]. split; [reflexivity|].
  split; [vm_compute; reflexivity|]. vm_compute. discriminate.
Qed.

(** What mask_all_weights does to each parameter, for both values of is_forward: with
    is_forward=True forward-only masks are applied too. *)
Theorem C03_mask_all_weights_exact :
  forall (PS : Type) fwd (w w' : world PS),
  NoDup (dkeys (w_params w)) ->
  (forall n, In n (dkeys (w_params w)) -> In n (dkeys (w_maskers w))) ->
  mask_all_weights fwd w = Ok w' ->
  w_maskers w' = w_maskers w /\ dkeys (w_params w') = dkeys (w_params w) /\
  forall n p mk, dget (w_params w) n = Some p -> dget (w_maskers w) n = Some mk ->
    dget (w_params w') n = Some (match mk_mask mk with
                                 | Some m => if (fwd || negb (mk_fwd_only mk))%bool then tmul p m else p
                                 | None => p
                                 end).
Proof.
  intros PS fwd w w' H1 H2 H3. destruct (mask_all_exact fwd w w' H1 H2 H3) as (A & B & C).
  split; auto. split; auto. intros n p mk Hp Hm. rewrite (C n p mk Hp Hm). unfold mask_tensor.
  destruct (mk_mask mk); auto. destruct (fwd || negb (mk_fwd_only mk)); auto.
Qed.

Example C03_mask_all_example :
  let mk := set_fwd_only (set_mask new_masker (Some [0; 1])) true in
  let w := mkWorld [("fc.weight"%string, [3; 4])] [("fc.weight"%string, mk)] Ex.pol0 new_sched [] [] in
  (exists w', mask_all_weights true w = Ok w' /\ w_params w' = [("fc.weight"%string, [3 * 0; 4 * 1])]) /\
  (exists w', mask_all_weights false w = Ok w' /\ w_params w' = [("fc.weight"%string, [3; 4])]).
Proof. cbv zeta. split; eexists; split; vm_compute; reflexivity. Qed.

(* ------------------------------------------------------------------------- *)
(** * C04: masking *)
Theorem C04_masking_zeroes_exactly_the_pruned :
  forall mk m p, mk_mask mk = Some m -> length p = length m -> binary m ->
  zero_where m p (snd (apply_mask mk p)) /\ zero_where m p (mask_tensor mk p).
Proof.
  intros mk m p Hm Hl Hb. rewrite apply_mask_param.
  assert (mask_tensor mk p = tmul p m) as -> by (unfold mask_tensor; rewrite Hm; auto).
  split; apply tmul_zero_where; auto.
Qed.

(** Applying the mask again, any number of times, changes neither the weights nor the mask. *)
Theorem C04_masking_idempotent :
  forall n mk m p, mk_mask mk = Some m -> mk_is_reg mk = false -> length p = length m -> binary m ->
  mk_mask (fst (apply_n (S n) mk p)) = Some m /\
  teq (snd (apply_n (S n) mk p)) (snd (apply_n 1 mk p)).
Proof.
  intros n mk m p Hm Hr Hl Hb. destruct (apply_n_idem n mk m p Hm Hr Hl Hb) as [A B].
  destruct (apply_n_idem 0 mk m p Hm Hr Hl Hb) as [_ D]. split; auto.
  eapply teq_trans; [exact B|]. apply teq_sym. exact D.
Qed.

Example C04_example :
  let mk := set_mask new_masker (Some [1; 0; 1]) in
  snd (apply_n 3 mk [2; 3; 5]) = [2 * 1 * 1 * 1; 3 * 0 * 0 * 0; 5 * 1 * 1 * 1] /\
  binary [1; 0; 1] /\ mk_is_reg mk = false.
Proof.
  split; [reflexivity|]. split; auto.
  repeat constructor; (left; reflexivity) || (right; reflexivity).
Qed.

(* ------------------------------------------------------------------------- *)
(** * C05: double copies *)
Theorem C05_double_copies_train_dense_weights :
  forall (PS : Type) (tbl : nat -> policy PS) e bs (w w0 w1 w2 w3 w4 : world PS) q c pr i k loss r,
  NoDup (dkeys (w_params w)) ->
  policies_at (sc_policies (w_sched w)) e = [q] -> tbl q = PPrune c pr -> pc_fold c = None ->
  pc_double c = true ->
  (exists m, meta_get (sc_meta (w_sched w)) q = Some m) ->
  po_init (w_pol w q) = false ->
  w_maskers w = map (fun np => (fst np, new_masker)) (w_params w) ->
  on_epoch_begin tbl e w = Ok w0 ->
  run tbl (flat_map (minibatch e) bs) w0 = Ok w1 ->
  on_minibatch_begin tbl e i k w1 = Ok w2 ->
  before_backward_pass tbl e loss w2 = Ok (w3, r) ->
  before_parameter_optimization tbl e i k w3 = Ok w4 ->
  (forall n p, dget (w_params w1) n = Some p ->
     exists mk, dget (w_maskers w2) n = Some mk /\
       dget (w_params w2) n = Some (match mk_mask mk with Some m => tmul p m | None => p end)) /\
  w_params w4 = w_params w1.
Proof. intros. eapply double_copies_epoch; eauto. Qed.

(** One step of the same, from any state whose maskers are set up for double copies (any
    epoch, any position in it). *)
Theorem C05_double_copies_restore :
  forall (PS : Type) (tbl : nat -> policy PS) e i k loss (w w1 w2 w3 : world PS) r q c pr m0,
  NoDup (dkeys (w_params w)) ->
  policies_at (sc_policies (w_sched w)) e = [q] -> tbl q = PPrune c pr -> pc_fold c = None ->
  meta_get (sc_meta (w_sched w)) q = Some m0 ->
  (forall n mk, In n (dkeys (w_params w)) -> dget (w_maskers w) n = Some mk ->
     mk_double mk = true /\ mk_copy mk = None /\ mk_is_reg mk = false) ->
  on_minibatch_begin tbl e i k w = Ok w1 ->
  before_backward_pass tbl e loss w1 = Ok (w2, r) ->
  before_parameter_optimization tbl e i k w2 = Ok w3 ->
  w_params w3 = w_params w.
Proof. intros. eapply double_copies_restore; eauto. Qed.

Definition ex_double (l : list event) : res (world unit) :=
  run (fun _ => PPrune Ex.cfg_double Ex.thr) l (Ex.world0 [Ex.range 0 0 3 1]).

Example C05_example :
  exists w, ex_double [EvEpochBegin 0; EvMBBegin 0 0 2; EvBackward 0 1] = Ok w /\
    dget (w_params w) "conv.weight" = Some [2 * 1; (1 # 2) * 0; -3 * 1] /\
  exists w', ex_double [EvEpochBegin 0; EvMBBegin 0 0 2; EvBackward 0 1; EvBeforeOpt 0 0 2] = Ok w' /\
    w_params w' = Ex.params.
Proof.
  eexists. split; [vm_compute; reflexivity|]. split; [reflexivity|].
  eexists. split; [vm_compute; reflexivity|]. reflexivity.
Qed.

(** Two double-copy policies in one epoch: the second saves the weights already masked by
    the first, so the restored weights are not the dense ones. *)
Theorem C05_two_policies_refuted :
  exists w, run (fun q => PPrune Ex.cfg_double Ex.thr)
      [EvEpochBegin 0; EvMBBegin 0 0 2; EvBackward 0 1; EvBeforeOpt 0 0 2]
      (Ex.world0 [Ex.range 0 0 3 1; Ex.range 1 0 3 1]) = Ok w /\
    exists p, dget (w_params w) "conv.weight" = Some p /\ nth 1 p 1 == 0 /\
    exists p0, dget Ex.params "conv.weight" = Some p0 /\ ~ nth 1 p0 0 == 0.
Proof.
  eexists. split; [vm_compute; reflexivity|]. eexists. split; [vm_compute; reflexivity|].
  split; [vm_compute; reflexivity|]. eexists. split; [reflexivity|]. vm_compute. discriminate.
Qed.

(* ------------------------------------------------------------------------- *)
(** * C06: regularization masks *)
Theorem C06_regularization_mask_lifetime :
  forall (PS : Type) (tbl : nat -> policy PS) e i k (w w0 w' : world PS) q r keep,
  NoDup (dkeys (w_params w)) ->
  policies_at (sc_policies (w_sched w)) e = [q] ->
  tbl q = PReg r keep -> rg_criteria r = true ->
  mask_all_weights false w = Ok w0 ->
  on_minibatch_end tbl e i k w = Ok w' ->
  forall n p tm, dget (w_params w0) n = Some p -> rg_threshold r n p = Some tm ->
  dget (w_params w') n = Some (tmul p tm) /\
  exists mk, dget (w_maskers w') n = Some mk /\
    mk_mask mk = (if (Z.eqb i (k - 1) && po_last (w_pol w q) && keep)%bool then Some tm else None).
Proof. intros PS tbl e i k w w0 w' q r keep. exact (reg_mask_lifetime tbl e i k w w0 w' q r keep). Qed.

Definition ex_reg : regularizer :=
  mkReg (fun n p => if String.eqb n "conv.weight" then qsum (map Qabs p) else 0) true
        (fun n p => if String.eqb n "conv.weight" then Some (map (fun x => b2q (Qltb 1 (Qabs x))) p) else None).

Example C06_example :
  exists w, run (fun _ => PReg ex_reg true) (Ex.epochs [0; 1]%Z) (Ex.world0 [Ex.range 0 0 2 1] : world unit) = Ok w /\
    exists mk, dget (w_maskers w) "conv.weight" = Some mk /\ exists m, mk_mask mk = Some m.
Proof.
  eexists. split; [vm_compute; reflexivity|]. eexists. split; [vm_compute; reflexivity|].
  eexists. reflexivity.
Qed.

(** A regularization threshold throws away an existing pruning mask of the same parameter:
    policy 0 prunes in epoch 0 only (mask [0;1;1]), policy 1 regularizes in epoch 1. *)
Theorem C06_threshold_destroys_pruning_mask_refuted :
  let tbl := fun q => match q with
                      | O => PPrune Ex.cfg_keep (Ex.const [0; 1; 1])
                      | _ => PReg ex_reg false end in
  (exists w mk, run tbl (Ex.epochs [0]%Z) (Ex.world0 [Ex.range 0 0 1 1; Ex.range 1 1 2 1]) = Ok w /\
     dget (w_maskers w) "conv.weight" = Some mk /\ mk_mask mk = Some [0; 1; 1]) /\
  (exists w mk p, run tbl (Ex.epochs [0; 1; 2]%Z) (Ex.world0 [Ex.range 0 0 1 1; Ex.range 1 1 2 1]) = Ok w /\
     dget (w_maskers w) "conv.weight" = Some mk /\ mk_mask mk = None /\
     dget (w_params w) "conv.weight" = Some p /\ ~ nth 0 p 0 == 0).
Proof.
  split.
  - do 2 eexists. split; [vm_compute; reflexivity|]. split; [vm_compute; reflexivity|]. reflexivity.
  - do 3 eexists. split; [vm_compute; reflexivity|]. split; [vm_compute; reflexivity|].
    split; [reflexivity|]. split; [vm_compute; reflexivity|]. vm_compute. discriminate.
Qed.

(** The is_regularization_mask flag is never reset by a pruner: a pruning policy that starts
    after a thresholding regularizer loses its mask the first time it is applied. *)
Theorem C06_stale_flag_drops_pruning_mask_refuted :
  let tbl := fun q => match q with
                      | O => PReg ex_reg false
                      | _ => PPrune Ex.cfg_keep (Ex.const [0; 1; 1]) end in
  exists w mk p, run tbl (Ex.epochs [0; 1]%Z) (Ex.world0 [Ex.range 0 0 1 1; Ex.range 1 1 2 1]) = Ok w /\
     dget (w_maskers w) "conv.weight" = Some mk /\ mk_mask mk = None /\
     dget (w_params w) "conv.weight" = Some p /\ ~ nth 0 p 0 == 0.
Proof.
  do 3 eexists. split; [vm_compute; reflexivity|]. split; [vm_compute; reflexivity|].
  split; [reflexivity|]. split; [vm_compute; reflexivity|]. vm_compute. discriminate.
Qed.

(* ------------------------------------------------------------------------- *)
(** * C07: mini-batch granularity *)
Theorem C07_masks_recomputed_iff :
  forall c e i k,
  set_masks_now c e i k = true <->
  ((0 < i /\ pc_mbfreq c <> 0 /\ (pc_mbfreq c | e * k + i))%Z \/
   (pc_skip_first c = true /\ (e * k + i = 1)%Z)).
Proof. exact set_masks_now_iff. Qed.

(** When no recomputation is due the pruner has no influence at all. *)
Theorem C07_pruner_not_consulted_otherwise :
  forall (PS : Type) pid c (pr pr' : pruner PS) me e i k (w : world PS),
  ~ ((0 < i /\ pc_mbfreq c <> 0 /\ (pc_mbfreq c | e * k + i))%Z \/
     (pc_skip_first c = true /\ (e * k + i = 1)%Z)) ->
  prune_mb_begin pid c pr me e i k w = prune_mb_begin pid c pr' me e i k w.
Proof.
  intros PS pid c pr pr' me e i k w H. apply prune_mb_begin_no_call.
  destruct (set_masks_now c e i k) eqn:E; auto. exfalso. apply H. apply set_masks_now_iff; auto.
Qed.

(** At the beginning of a scheduled epoch the pruner computes every parameter's mask from its
    current value (and its current mask), except in the policy's first epoch with
    skip_first_minibatch; the weights themselves are not touched.  The first epoch also
    configures the maskers and registers one gradient hook per parameter. *)
Theorem C07_epoch_begin_effect :
  forall (PS : Type) (tbl : nat -> policy PS) e (w w' : world PS) q c pr m0,
  NoDup (dkeys (w_params w)) ->
  policies_at (sc_policies (w_sched w)) e = [q] -> tbl q = PPrune c pr -> pc_fold c = None ->
  meta_get (sc_meta (w_sched w)) q = Some m0 ->
  on_epoch_begin tbl e w = Ok w' ->
  w_params w' = w_params w /\
  forall n p, dget (w_params w) n = Some p ->
  exists mk0 mk, dget (w_maskers w) n = Some mk0 /\ dget (w_maskers w') n = Some mk /\
    (if (negb (po_init (w_pol w q)) && pc_skip_first c)%bool then mk_mask mk = mk_mask mk0
     else exists ps ps', pr ps (mkMeta (me_start m0) (me_end m0) (me_freq m0) (Some e)) n p (mk_mask mk0)
                         = Ok (ps', mk_mask mk)) /\
    (po_init (w_pol w q) = false -> mk_double mk = pc_double c /\ mk_fwd_only mk = pc_fwd_only c /\
       mk_hooks mk = if pc_mask_grad c then S (mk_hooks mk0) else mk_hooks mk0).
Proof.
  intros PS tbl e w w' q c pr m0 H1 H2 H3 Hf H4 H5.
  destruct (epoch_begin_single tbl e w w' q c pr m0 H1 H2 H3 H4 H5) as [A B]. split; auto.
  intros n p Hp. destruct (B n p Hp) as (mk0 & mk & C1 & C2 & C3 & C4 & C5 & C6).
  exists mk0, mk. unfold folded in C3. rewrite Hf in C3. split; auto. split; auto. split; auto.
  intro E. rewrite E in *. auto.
Qed.

(** In every case the (old or new) masks are applied to the weights. *)
Theorem C07_minibatch_begin_effect :
  forall (PS : Type) (tbl : nat -> policy PS) e i k (w w' : world PS) q c pr m0,
  NoDup (dkeys (w_params w)) ->
  policies_at (sc_policies (w_sched w)) e = [q] ->
  tbl q = PPrune c pr -> pc_fold c = None ->
  meta_get (sc_meta (w_sched w)) q = Some m0 ->
  on_minibatch_begin tbl e i k w = Ok w' ->
  forall n, In n (dkeys (w_params w)) ->
  exists p mk0 mk,
    dget (w_params w) n = Some p /\ dget (w_maskers w) n = Some mk0 /\
    (if set_masks_now c e i k
     then exists ps ps' x, pr ps (mkMeta (me_start m0) (me_end m0) (me_freq m0) (Some e)) n p (mk_mask mk0) = Ok (ps', x)
            /\ mk = set_mask mk0 x
     else mk = mk0) /\
    dget (w_params w') n = Some (mask_tensor mk p) /\
    dget (w_maskers w') n = Some (fst (apply_mask mk p)).
Proof.
  intros PS tbl e i k w w' q c pr m0 H1 H2 H3 H4 H5 H6.
  exact (proj2 (proj2 (on_minibatch_begin_single tbl e i k w w' q c pr m0 H1 H2 H3 H4 H5 H6))).
Qed.

Example C07_example :
  let c := mkCfg false 3 false false false false true None in
  map (fun ei => set_masks_now c (fst ei) (snd ei) 4) [(0, 0); (0, 1); (0, 3); (1, 1); (1, 2); (3, 0)]%Z
  = [false; true; true; false; true; false].
Proof. reflexivity. Qed.

(** With fold_batchnorm the masks are applied to the temporary folded tensor, not to the
    model's weights: after on_minibatch_begin the weights are not masked. *)
Theorem C07_fold_batchnorm_refuted :
  let c := mkCfg false 1 false false false false false (Some (fun n p => if String.eqb n "conv.weight" then Some (map (fun x => 2 * x) p) else None)) in
  exists w p mk, run (fun _ => PPrune c (Ex.const [0; 1; 1])) [EvEpochBegin 0; EvMBBegin 0 1 2]
     (Ex.world0 [Ex.range 0 0 3 1]) = Ok w /\
    dget (w_maskers w) "conv.weight" = Some mk /\ mk_mask mk = Some [0; 1; 1] /\
    dget (w_params w) "conv.weight" = Some p /\ ~ nth 0 p 0 == 0.
Proof.
  do 3 eexists. split; [vm_compute; reflexivity|]. split; [vm_compute; reflexivity|].
  split; [reflexivity|]. split; [vm_compute; reflexivity|]. vm_compute. discriminate.
Qed.

(* ------------------------------------------------------------------------- *)
(** * C08: losses *)
Theorem C08_regularizers_add_their_components :
  forall (PS : Type) (tbl : nat -> policy PS) e loss (w : world PS),
  (forall q, In q (policies_at (sc_policies (w_sched w)) e) -> forall f, tbl q <> PLoss f) ->
  exists w' overall comps,
    before_backward_pass tbl e loss w = Ok (w', (overall, comps)) /\
    overall == loss + qsum comps /\
    Forall2 Qeq comps
      (flat_map (fun q => match tbl q with
                          | PReg r _ => [qsum (map (fun np => rg_loss r (fst np) (snd np)) (w_params w))]
                          | _ => []
                          end) (policies_at (sc_policies (w_sched w)) e)).
Proof. intros PS tbl e loss w H. exact (backward_reg_only tbl e loss w H). Qed.

Theorem C08_policies_are_chained :
  forall (PS : Type) (tbl : nat -> policy PS) e loss (w w' : world PS) overall comps,
  (forall q f, In q (policies_at (sc_policies (w_sched w)) e) -> tbl q = PLoss f -> loss_ext f) ->
  before_backward_pass tbl e loss w = Ok (w', (overall, comps)) ->
  overall == fold_left (fun l q =>
      match tbl q with
      | PReg r _ => l + qsum (map (fun np => rg_loss r (fst np) (snd np)) (w_params w))
      | PLoss f => match f l with PLOne o _ | PLList o _ => o | _ => l end
      | _ => l
      end) (policies_at (sc_policies (w_sched w)) e) loss.
Proof. intros PS tbl e loss w w' overall comps H H1. exact (backward_chain tbl e loss w w' overall comps H H1). Qed.

Theorem C08_no_policy_no_change :
  forall (PS : Type) (tbl : nat -> policy PS) e loss (w : world PS),
  policies_at (sc_policies (w_sched w)) e = [] ->
  before_backward_pass tbl e loss w = Ok (w, (loss, [])).
Proof. intros PS tbl e loss w H. unfold before_backward_pass. rewrite H. reflexivity. Qed.

(** A policy returning something that is not a PolicyLoss makes the callback raise. *)
Theorem C08_bad_policy_raises :
  forall (PS : Type) (tbl : nat -> policy PS) e loss (w : world PS) q f l1 l2,
  policies_at (sc_policies (w_sched w)) e = l1 ++ q :: l2 ->
  tbl q = PLoss f -> (forall x, f x = PLBad) ->
  (forall q', In q' l1 -> forall g, tbl q' <> PLoss g) ->
  before_backward_pass tbl e loss w = Raise TypeError.
Proof. intros PS tbl e loss w q f l1 l2. exact (backward_bad tbl e loss w q f l1 l2). Qed.

Example C08_example :
  exists w' o cs, before_backward_pass (fun _ => PReg ex_reg true) 0 3
      (Ex.world0 [Ex.range 0 0 2 1; Ex.range 1 0 1 1] : world unit) = Ok (w', (o, cs)) /\
    o == 14 /\ length cs = 2%nat.
Proof. do 3 eexists. split; [vm_compute; reflexivity|]. split; vm_compute; reflexivity. Qed.

(* ------------------------------------------------------------------------- *)
(** * C09: mask state dictionaries *)
Theorem C09_state_round_trip :
  forall mkA mkB,
  (forall n, In n (dkeys mkB) -> In n (dkeys mkA)) ->
  let r := load_state_dict mkB (Some (state_dict mkA)) false in
  snd r = None /\ dkeys (fst r) = dkeys mkB /\
  forall n a b, dget mkA n = Some a -> dget mkB n = Some b ->
    dget (fst r) n = Some (set_mask b (mk_mask a)).
Proof. exact load_round_trip. Qed.

Theorem C09_missing_name_raises :
  forall mkA mkB,
  snd (load_state_dict mkB (Some (state_dict mkA)) false) = Some KeyError <->
  exists n, In n (dkeys mkB) /\ ~ In n (dkeys mkA).
Proof. exact load_missing. Qed.

(** What is left after that KeyError: the maskers that precede the first missing name (in
    parameter order) have already taken the loaded masks, the others are untouched. *)
Theorem C09_failed_load_replaces_a_prefix :
  forall a k m b (loaded : dict (option tensor)),
  (forall n, In n (dkeys a) -> dget loaded n <> None) -> dget loaded k = None ->
  exists a', load_state_dict (a ++ (k, m) :: b) (Some loaded) false = (a' ++ (k, m) :: b, Some KeyError) /\
    dkeys a' = dkeys a /\
    forall n x y, dget a n = Some x -> dget loaded n = Some y -> dget a' n = Some (set_mask x y).
Proof.
  intros a k m b loaded H Hk. exists (fst (load_masks a loaded)).
  unfold load_state_dict. rewrite load_masks_partial by auto. simpl. split; auto.
  destruct (load_masks_ok a loaded H) as (_ & A & B). auto.
Qed.

Theorem C09_dataparallel_state_loads :
  forall mkA mkB,
  NoDup (dkeys mkA) -> (forall n, In n (dkeys mkB) -> In n (dkeys mkA)) ->
  let saved := map (fun kv => ("module." ++ fst kv, snd kv)%string) mkA in
  let r := load_state_dict mkB (Some (state_dict saved)) true in
  snd r = None /\ dkeys (fst r) = dkeys mkB /\
  forall n a b, dget mkA n = Some a -> dget mkB n = Some b ->
    dget (fst r) n = Some (set_mask b (mk_mask a)).
Proof. exact load_parallel. Qed.

(** Normalising a state that was not saved from a DataParallel model breaks it as soon as
    one name has a component called 'module'. *)
Theorem C09_normalising_plain_state_refuted :
  let mk := [("features.module.weight"%string, new_masker)] in
  load_state_dict mk (Some (state_dict mk)) true = (mk, Some KeyError).
Proof. reflexivity. Qed.

Theorem C09_init_from_masks :
  forall mk masks n m, dget mk n = Some m ->
  let r := init_from_masks_dict mk masks false in
  snd (fst r) = None /\
  dget (fst (fst r)) n = Some (set_mask m (match dget masks n with Some x => x | None => None end)).
Proof. exact init_plain. Qed.

(** init_from_masks_dict(masks, normalize_dataparallel_keys=True) on DataParallel-style keys
    silently drops every mask. *)
Theorem C09_init_normalised_loses_all_masks_refuted :
  forall mk (masks : dict (option tensor)) n m,
  NoDup (dkeys mk) ->
  (forall n, In n (dkeys mk) -> dget masks n = None /\ ~ In "module"%string (split_dot n)) ->
  dget mk n = Some m ->
  let r := init_from_masks_dict mk masks true in
  snd (fst r) = None /\ dget (fst (fst r)) n = Some (set_mask m None).
Proof. exact init_parallel_loses. Qed.

Example C09_example :
  let mk := create_model_masks_dict Ex.params in
  fst (fst (init_from_masks_dict mk [("module.fc.weight"%string, Some [1; 0])] true)) = mk /\
  dget (fst (fst (init_from_masks_dict mk [("fc.weight"%string, Some [1; 0])] false))) "fc.weight"
    = Some (set_mask new_masker (Some [1; 0])) /\
  dget (fst (load_state_dict mk (Some [("module.fc.weight"%string, Some [1; 0]); ("module.conv.weight"%string, None)]) true)) "fc.weight"
    = Some (set_mask new_masker (Some [1; 0])).
Proof. vm_compute. auto. Qed.

(** save_checkpoint followed by load_checkpoint into a model with the same parameter names:
    weights, masks and the next epoch number come back. *)
Theorem C09_checkpoint_round_trip :
  forall epoch (params p0 : dict tensor) (mk : dict masker),
  NoDup (dkeys params) -> dkeys mk = dkeys params -> dkeys p0 = dkeys params ->
  exists mk', load_checkpoint p0 (save_checkpoint epoch params (Some mk)) =
              Ok (params, Some mk', (epoch + 1)%Z) /\ state_dict mk' = state_dict mk.
Proof.
  intros epoch params p0 mk H1 H2 H3. exists (loaded_maskers mk).
  split; [apply save_load_plain; auto|apply loaded_maskers_state].
Qed.

(** The same from a DataParallel checkpoint into the plain model. *)
Theorem C09_dataparallel_checkpoint_round_trip :
  forall epoch (params p0 : dict tensor) (mk : dict masker),
  NoDup (dkeys params) -> dkeys mk = dkeys params -> dkeys p0 = dkeys params ->
  (exists n, In n (dkeys params) /\ ~ In n (map (fun n => "module." ++ n)%string (dkeys params))) ->
  let pre := fun (A : Type) (d : dict A) => map (fun kv => ("module." ++ fst kv, snd kv)%string) d in
  exists mk', load_checkpoint p0 (save_checkpoint epoch (pre _ params) (Some (pre _ mk))) =
              Ok (params, Some mk', (epoch + 1)%Z) /\ state_dict mk' = state_dict mk.
Proof.
  intros epoch params p0 mk H1 H2 H3 H4 pre. exists (loaded_maskers mk).
  split; [apply save_load_parallel; auto|apply loaded_maskers_state].
Qed.

(** But not when the checkpoint holds no scheduler: key normalisation is only ever triggered
    by the scheduler's KeyError. *)
Theorem C09_dataparallel_without_scheduler_fails :
  forall epoch (params p0 : dict tensor),
  (exists n, In n (dkeys p0) /\ ~ In n (map (fun n => "module." ++ n)%string (dkeys params))) ->
  load_checkpoint p0 (save_checkpoint epoch (map (fun kv => ("module." ++ fst kv, snd kv)%string) params) None)
  = Raise ValueError.
Proof. exact load_parallel_no_sched. Qed.

Example C09_checkpoint_example :
  let mk := create_model_masks_dict Ex.params in
  Ex.is_ok (load_checkpoint Ex.params (save_checkpoint 3 (add_prefix Ex.params) (Some (add_prefix mk)))) = true /\
  Ex.is_ok (load_checkpoint Ex.params (save_checkpoint 3 (add_prefix Ex.params) None)) = false.
Proof. vm_compute. auto. Qed.

(* ------------------------------------------------------------------------- *)
(** * C10: names *)
Theorem C10_normalize_without_module :
  forall n, ~ In "module"%string (split_dot n) -> normalize_module_name n = n.
Proof. exact normalize_plain. Qed.

Theorem C10_normalize_removes_first_module :
  forall n a b, split_dot n = (a ++ "module"%string :: b)%list -> ~ In "module"%string a ->
  normalize_module_name n = join_dot (a ++ b).
Proof. exact normalize_first. Qed.

(** split and join are mutually inverse, so "dotted component" means what it should. *)
Theorem C10_split_join :
  (forall s, join_dot (split_dot s) = s) /\
  (forall l, l <> [] -> Forall (fun p => no_dot p = true) l -> split_dot (join_dot l) = l) /\
  (forall s, Forall (fun p => no_dot p = true) (split_dot s)).
Proof. split; [exact join_split|]. split; [exact split_join|exact split_dot_no_dot]. Qed.

Theorem C10_normalize_undoes_dataparallel :
  forall n, normalize_module_name ("module." ++ n) = n.
Proof. exact normalize_prefix. Qed.

(** denormalize_module_name maps the plain names back to the DataParallel ones. *)
Theorem C10_denormalize_restores_dataparallel :
  forall (l : list string) x, NoDup l -> In x l -> x <> ""%string ->
  denormalize_module_name (""%string :: "module"%string :: map (fun n => "module." ++ n)%string l) x
  = ("module." ++ x)%string.
Proof. exact denormalize_parallel. Qed.

Example C10_example :
  normalize_module_name "features.module.conv.module" = "features.conv.module"%string /\
  normalize_module_name "modules.0" = "modules.0"%string /\
  split_dot "features.module.conv" = ["features"; "module"; "conv"]%string.
Proof. vm_compute. auto. Qed.

(* ------------------------------------------------------------------------- *)
(** * C11: crash and resume *)
Theorem C11_resume_is_exact :
  forall (PS : Type) (tbl : nat -> policy PS) adds s params p0 pol pol' h1 h2 (w1 : world PS) epoch pr mk se,
  (forall q, match tbl q with
             | PPrune c pr => pc_fwd_only c = false /\ pc_double c = false /\ pc_skip_first c = false /\
                              pc_mask_grad c = false /\ stateless pr
             | PReg r _ => rg_criteria r = false
             | PLR | PLoss _ => True
             end) ->
  foldM add_policy adds new_sched = Ok s ->
  NoDup (dkeys params) ->
  run tbl h1 (mkWorld params (create_model_masks_dict params) pol s [] []) = Ok w1 ->
  begins_before_ends [] h1 -> begins_before_ends [] h2 ->
  dkeys p0 = dkeys params ->
  load_checkpoint p0 (save_checkpoint epoch (w_params w1) (Some (w_maskers w1))) = Ok (pr, Some mk, se) ->
  match run tbl h2 w1, run tbl h2 (mkWorld pr mk pol' s [] []) with
  | Ok a, Ok b => w_params a = w_params b /\ state_dict (w_maskers a) = state_dict (w_maskers b)
  | Raise e, Raise e' => e = e'
  | _, _ => False
  end.
Proof.
  intros PS tbl adds s params p0 pol pol' h1 h2 w1 epoch pr mk se Hr.
  exact (resume_exact tbl adds s params p0 pol pol' h1 h2 w1 epoch pr mk se Hr).
Qed.

(** Non-vacuity: such a run exists, the checkpoint loads, and both continuations succeed. *)
Example C11_example :
  let tbl := fun _ : nat => PPrune Ex.cfg_keep Ex.thr in
  let adds := [Ex.range 0 0 4 1] in
  stateless Ex.thr /\ begins_before_ends [] (Ex.epochs [0; 1]%Z) /\
  exists w1 pr mk se, run tbl (Ex.epochs [0; 1]%Z) (Ex.world0 adds) = Ok w1 /\
    load_checkpoint Ex.params (save_checkpoint 1 (w_params w1) (Some (w_maskers w1))) = Ok (pr, Some mk, se) /\
    Ex.is_ok (run tbl (Ex.epochs [2; 3]%Z) w1) = true.
Proof.
  cbv zeta. split; [intros ps ps' me n p m; reflexivity|].
  split; [vm_compute; repeat split; auto|].
  do 4 eexists. split; [vm_compute; reflexivity|]. split; vm_compute; reflexivity.
Qed.

Definition resumed (adds : list add_args) (epoch : Z) (w1 : world unit) : world unit :=
  match load_checkpoint Ex.params (save_checkpoint epoch (w_params w1) (Some (w_maskers w1))) with
  | Ok (pr, Some mk, _) => mkWorld pr mk Ex.pol0 (Ex.sched_of adds) [] []
  | _ => w1
  end.

(** mask_on_forward_only: a crash after the policy's only epoch.  The uninterrupted run lets
    the pruned weights grow back, the resumed run keeps them at zero. *)
Theorem C11_forward_only_diverges_refuted :
  let tbl := fun _ : nat => PPrune Ex.cfg_fwd (Ex.const [0; 1; 1]) in
  let adds := [Ex.range 0 0 1 1] in
  exists w1 a b p p', run tbl (Ex.epochs [0]%Z) (Ex.world0 adds) = Ok w1 /\
    run tbl (Ex.epochs [1]%Z) w1 = Ok a /\ run tbl (Ex.epochs [1]%Z) (resumed adds 0 w1) = Ok b /\
    dget (w_params a) "conv.weight" = Some p /\ dget (w_params b) "conv.weight" = Some p' /\
    ~ nth 0 p 0 == 0 /\ nth 0 p' 1 == 0.
Proof.
  cbv zeta. do 5 eexists. split; [vm_compute; reflexivity|]. split; [vm_compute; reflexivity|].
  split; [vm_compute; reflexivity|]. split; [vm_compute; reflexivity|]. split; [vm_compute; reflexivity|].
  split; [vm_compute; discriminate|vm_compute; reflexivity].
Qed.

(** A pruner that caches its threshold at the first call, as SensitivityPruner and
    SplicingPruner do: the resumed run recomputes it from the current weights. *)
Definition caching : pruner (option Q) :=
  fun ps _ _ p _ =>
    let t := match ps with Some t => t | None => Qabs (nth 0 p 0) / 2 end in
    Ok (Some t, Some (map (fun x => b2q (Qltb t (Qabs x))) p)).

Theorem C11_cached_threshold_diverges_refuted :
  let tbl := fun _ : nat => PPrune Ex.cfg0 caching in
  let adds := [Ex.range 0 0 4 1] in
  let pol := fun _ : nat => mkPol false false (None : option Q) in
  let params := [("w"%string, [-(4 # 1); 3])] in
  exists w1 a b p p', run tbl (Ex.epochs [0]%Z) (mkWorld params (create_model_masks_dict params) pol (Ex.sched_of adds) [] []) = Ok w1 /\
    run tbl (Ex.epochs [1]%Z) w1 = Ok a /\
    run tbl (Ex.epochs [1]%Z) (mkWorld (w_params w1) (loaded_maskers (w_maskers w1)) pol (Ex.sched_of adds) [] []) = Ok b /\
    dget (state_dict (w_maskers a)) "w" = Some p /\ dget (state_dict (w_maskers b)) "w" = Some p' /\
    p <> p'.
Proof.
  cbv zeta. do 5 eexists. split; [vm_compute; reflexivity|]. split; [vm_compute; reflexivity|].
  split; [vm_compute; reflexivity|]. split; [vm_compute; reflexivity|]. split; [vm_compute; reflexivity|].
  vm_compute. discriminate.
Qed.

(* ------------------------------------------------------------------------- *)
(** * C41: quantizer-renamed parameters *)
Theorem C41_masker_names_of_quantized_modules :
  forall a b x,
  (comps (a ++ [b; ("float_" ++ x)%string]) -> b <> "wrapped_module"%string ->
   fallback_name (join_dot (a ++ [b; ("float_" ++ x)%string])) = Ok (Some (join_dot (a ++ [b; x])))) /\
  (comps (a ++ ["wrapped_module"%string; x]) -> startswith "float_" x = false ->
   fallback_name (join_dot (a ++ ["wrapped_module"%string; x])) = Ok (Some (join_dot (a ++ [x])))) /\
  (comps (a ++ ["wrapped_module"%string; ("float_" ++ x)%string]) ->
   fallback_name (join_dot (a ++ ["wrapped_module"%string; ("float_" ++ x)%string])) = Ok (Some (join_dot (a ++ [x])))) /\
  (comps (a ++ [b; x]) -> startswith "float_" x = false -> b <> "wrapped_module"%string ->
   fallback_name (join_dot (a ++ [b; x])) = Ok None).
Proof.
  intros a b x. split; [apply fallback_float|]. split; [apply fallback_wrapped|].
  split; [apply fallback_both|apply fallback_other].
Qed.

(** A parameter of the top-level module that has no masker makes mask_all_weights raise. *)
Theorem C41_undotted_unknown_parameter_raises :
  forall x, no_dot x = true -> fallback_name x = Raise IndexError.
Proof. exact fallback_undotted. Qed.

(** A pruning policy cannot run on a model whose parameters were renamed after the scheduler
    was created: its on_epoch_begin succeeds only if every parameter has a masker. *)
Theorem C41_pruning_policy_needs_all_maskers :
  forall (PS : Type) (tbl : nat -> policy PS) e (w w' : world PS) q c pr,
  In q (policies_at (sc_policies (w_sched w)) e) -> tbl q = PPrune c pr ->
  on_epoch_begin tbl e w = Ok w' ->
  forall n, In n (dkeys (w_params w)) -> In n (dkeys (w_maskers w)).
Proof. intros PS tbl e w w' q c pr. exact (epoch_begin_needs_maskers tbl e w w' q c pr). Qed.

(** mask_on_forward_only is ignored for renamed parameters: mask_all_weights(False) masks. *)
Theorem C41_forward_only_ignored_refuted :
  let mk := set_fwd_only (set_mask new_masker (Some [0; 1])) true in
  let w n := mkWorld [(n, [3; 4])] [("fc.weight"%string, mk)] Ex.pol0 new_sched [] [] in
  (exists w', mask_all_weights false (w "fc.weight"%string) = Ok w' /\ w_params w' = [("fc.weight"%string, [3; 4])]) /\
  (exists w', mask_all_weights false (w "fc.float_weight"%string) = Ok w' /\
      w_params w' = [("fc.float_weight"%string, [3 * 0; 4 * 1])]).
Proof. cbv zeta. split; eexists; split; vm_compute; reflexivity. Qed.

Example C41_example :
  comps ["layer1"; "conv"; "float_weight"]%string /\
  fallback_name "layer1.conv.float_weight" = Ok (Some "layer1.conv.weight"%string) /\
  fallback_name "layer1.wrapped_module.weight" = Ok (Some "layer1.weight"%string) /\
  fallback_name "clip_val" = Raise IndexError.
Proof. split; [repeat constructor|]. vm_compute. auto. Qed.

(** mask_gradients: two policies register two hooks on each parameter but only one is ever
    removed. *)
Theorem C41_gradient_hook_leak_refuted :
  let c := mkCfg true 0 true true false false false None in
  exists w mk, run (fun _ : nat => PPrune c Ex.thr) (Ex.epochs [0; 1; 2]%Z)
      (Ex.world0 [Ex.range 0 0 2 1; Ex.range 1 0 2 1]) = Ok w /\
    dget (w_maskers w) "conv.weight" = Some mk /\ mk_handle mk = false /\ mk_hooks mk = 1%nat.
Proof.
  cbv zeta. do 2 eexists. split; [vm_compute; reflexivity|]. split; [vm_compute; reflexivity|].
  split; reflexivity.
Qed.

(* ------------------------------------------------------------------------- *)
(** * C42: learning-rate policies *)
(** After any history, each on_epoch_end(e) steps exactly the learning-rate schedulers whose
    policy is scheduled in epoch e, to epoch e + 1; no other callback steps any of them. *)
Theorem C42_lr_steps :
  forall (PS : Type) (tbl : nat -> policy PS) adds s (w w1 w2 : world PS) h ev,
  foldM add_policy adds new_sched = Ok s -> w_sched w = s ->
  run tbl h w = Ok w1 -> step tbl w1 ev = Ok w2 ->
  w_lr w2 = w_lr w1 ++ match ev with
    | EvEpochEnd e => map (fun q => (q, e + 1)%Z)
        (filter (fun q => match tbl q with PLR => true | _ => false end) (expected_policies adds e))
    | _ => []
    end.
Proof. intros PS tbl adds s w w1 w2 h ev. exact (lr_steps tbl adds s w h w1 ev w2). Qed.

Example C42_example :
  exists w, run (fun q => match q with O => PLR | _ => PPrune Ex.cfg0 Ex.thr end) (Ex.epochs [0; 1; 2]%Z)
     (Ex.world0 [Ex.range 0 0 3 2; Ex.range 1 0 2 1]) = Ok w /\ w_lr w = [(0%nat, 1%Z); (0%nat, 3%Z)].
Proof. eexists. split; vm_compute; reflexivity. Qed.

(* ------------------------------------------------------------------------- *)
(** * C43: gradient masking *)
Theorem C43_constructor_check :
  forall c, (exists e, check_cfg c = Raise e) <-> pc_mask_grad c = true /\ pc_fwd_only c = false.
Proof.
  intro c. unfold check_cfg. destruct (pc_mask_grad c), (pc_fwd_only c); simpl; split;
    try (intros [e H]; discriminate); try (intros [? ?]; discriminate); eauto.
Qed.

(** The hook of a parameter with a 0/1 mask zeroes the gradient of the pruned weights and
    keeps the others; without a mask it keeps the whole gradient. *)
Theorem C43_gradient_hook :
  forall mk g,
  (mk_mask mk = None -> mask_gradient mk g = g) /\
  (forall m, mk_mask mk = Some m -> length g = length m -> binary m -> zero_where m g (mask_gradient mk g)).
Proof.
  intros mk g. unfold mask_gradient. split; [intros ->; auto|].
  intros m -> Hl Hb. apply tmul_zero_where; auto.
Qed.

(** With one policy, the hooks registered at its first epoch are removed by its last-epoch
    work. *)
Example C43_example :
  let c := mkCfg true 0 true true false false false None in
  check_cfg c = Ok c /\
  (exists w mk, run (fun _ : nat => PPrune c Ex.thr) (Ex.epochs [0]%Z) (Ex.world0 [Ex.range 0 0 2 1]) = Ok w /\
    dget (w_maskers w) "conv.weight" = Some mk /\ mk_hooks mk = 1%nat) /\
  (exists w mk, run (fun _ : nat => PPrune c Ex.thr) (Ex.epochs [0; 1]%Z) (Ex.world0 [Ex.range 0 0 2 1]) = Ok w /\
    dget (w_maskers w) "conv.weight" = Some mk /\ mk_hooks mk = 0%nat).
Proof.
  cbv zeta. split; [reflexivity|]. split; do 2 eexists; (split; [vm_compute; reflexivity|]);
    (split; [vm_compute; reflexivity|reflexivity]).
Qed.

Print Assumptions C01_calls_exactly_as_scheduled.
Print Assumptions C02_keep_mask_permanent.
Print Assumptions C03_pruned_weights_zero_after_step.
Print Assumptions C05_double_copies_train_dense_weights.
Print Assumptions C09_dataparallel_checkpoint_round_trip.
Print Assumptions C11_resume_is_exact.
