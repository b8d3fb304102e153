(** C52: the training loop of the sample application drives the compression scheduler through
    well-formed histories (image_classifier.py: train, train_validate_with_scheduling,
    run_training_loop). *)
From Coq Require Import String List ZArith QArith Bool Arith Lia Lqa.
From Verif Require Import Base SchedModel SchedSpec SchedMaskProofs AppModel AppSpec PropertiesData PropertiesTracker PropertiesSched.
Import ListNotations.
Open Scope Q_scope.

(** ** Vocabulary *)
(** the callbacks of minibatch [i] of [k] in epoch [e], around one optimizer step *)
Definition minibatch_history (e k i : Z) (h : list event) : Prop :=
  exists loss f, h = [EvMBBegin e i k; EvBackward e loss; EvBeforeOpt e i k; EvUpdate f; EvMBEnd e i k].
(** an epoch of [k] minibatches: begin, the minibatches 0 .. k-1 in order, end *)
Definition epoch_history (e : Z) (k : nat) (h : list event) : Prop :=
  exists mbs, Forall2 (fun i mb => minibatch_history e (Z.of_nat k) (Z.of_nat i) mb) (seq 0 k) mbs /\
    h = [EvEpochBegin e] ++ concat mbs ++ [EvEpochEnd e].

Section Loop.
Context {PS : Type}.
Variables (tbl : nat -> policy PS) (lossf : Z -> nat -> dict tensor -> Q)
  (updf : Z -> nat -> Q -> dict tensor -> string -> tensor -> tensor)
  (accf : Z -> dict tensor -> Q * Q) (statsf : dict tensor -> Z * Q).

Lemma run_app h1 h2 (w : world PS) : run tbl (h1 ++ h2) w = do w1 <- run tbl h1 w; run tbl h2 w1.
Proof. unfold run. apply foldM_app. Qed.

Lemma train_step_history e k i w w' : train_step tbl lossf updf e k i w = Ok w' ->
  exists h, minibatch_history e k (Z.of_nat i) h /\ run tbl h w = Ok w'.
Proof.
  intro H. unfold train_step in H. inv_bind H. rename x into w1. inv_bind H. rename x into r. inv_bind H. rename x into w3.
  exists [EvMBBegin e (Z.of_nat i) k; EvBackward e (lossf e i (w_params w1)); EvBeforeOpt e (Z.of_nat i) k;
     EvUpdate (fun ps n t => updf e i (fst (snd r)) ps n t); EvMBEnd e (Z.of_nat i) k].
  split; [eexists _, _; reflexivity|]. unfold run. cbn [foldM step]. rewrite H0. cbn [bind]. rewrite H1. cbn [bind].
  rewrite H2. cbn [bind]. rewrite H. reflexivity.
Qed.

Lemma train_epoch_history samples b e w w' : (0 < b)%nat -> train_epoch tbl lossf updf samples b e w = Ok w' ->
  exists mbs, Forall2 (fun i mb => minibatch_history e (Z.of_nat (length (batches b samples))) (Z.of_nat i) mb) (seq 0 (length (batches b samples))) mbs /\
    run tbl (concat mbs) w = Ok w'.
Proof.
  intros Hb H. unfold train_epoch in H. destruct (C38_batches b samples Hb) as (_ & _ & _ & E). rewrite <- E in H.
  revert w H. generalize (Z.of_nat (length (batches b samples))) as k. intro k.
  generalize (seq 0 (length (batches b samples))) as l. induction l as [|i l IH]; intros w H.
  - exists []. split; [constructor|exact H].
  - cbn [foldM] in H. inv_bind H. destruct (train_step_history _ _ _ _ _ H0) as (h & H1 & H2).
    destruct (IH _ H) as (mbs & H3 & H4). exists (h :: mbs). split; [constructor; auto|]. simpl. rewrite run_app, H2. exact H4.
Qed.

(** C52: an epoch of the application is a well-formed epoch for the scheduler: epoch begin, one
    round of minibatch callbacks for each of the ceil(n / batch size) batches, numbered from 0 and
    announced with the right total, epoch end. *)
Theorem C52_epoch : forall samples b e w w' acc, (0 < b)%nat ->
  train_validate tbl lossf updf accf samples b e w = Ok (w', acc) ->
  exists h, epoch_history e (length (batches b samples)) h /\ run tbl h w = Ok w'.
Proof.
  intros samples b e w w' acc Hb H. unfold train_validate in H. inv_bind H. inv_bind H. inv_bind H. injection H as <- _.
  destruct (train_epoch_history _ _ _ _ _ Hb H1) as (mbs & M1 & M2).
  exists ([EvEpochBegin e] ++ concat mbs ++ [EvEpochEnd e]). split; [exists mbs; auto|].
  rewrite run_app. unfold run at 1. cbn [foldM step]. rewrite H0. cbn [bind]. rewrite run_app, M2. cbn [bind].
  unfold run. cbn [foldM step]. rewrite H2. reflexivity.
Qed.

(** C52: within a minibatch the loss is computed with the weights as masked at its beginning, and
    what the optimizer step works with is the overall loss returned by the policies (the loss plus
    the regularization terms), on the weights and gradients as left by
    before_parameter_optimization. *)
Theorem C52_minibatch : forall e k i w w',
  train_step tbl lossf updf e k i w = Ok w' ->
  exists w1 w2 overall parts w3,
    step tbl w (EvMBBegin e (Z.of_nat i) k) = Ok w1 /\
    before_backward_pass tbl e (lossf e i (w_params w1)) w1 = Ok (w2, (overall, parts)) /\
    step tbl w2 (EvBeforeOpt e (Z.of_nat i) k) = Ok w3 /\
    run tbl [EvUpdate (fun ps n t => updf e i overall ps n t); EvMBEnd e (Z.of_nat i) k] w3 = Ok w'.
Proof.
  intros e k i w w' H. unfold train_step in H. inv_bind H. rename x into w1. inv_bind H. destruct x as (w2 & overall & parts).
  inv_bind H. rename x into w3. exists w1, w2, overall, parts, w3. cbn [fst snd] in *. repeat split; auto.
  unfold run. cbn [foldM step bind]. rewrite H. reflexivity.
Qed.

(** C52: the accuracy reported for an epoch is that of the weights after all its minibatches and
    before the policies' epoch-end callbacks. *)
Theorem C52_accuracy_before_epoch_end : forall samples b e w w' acc, (0 < b)%nat ->
  train_validate tbl lossf updf accf samples b e w = Ok (w', acc) ->
  exists h wt, epoch_history e (length (batches b samples)) (h ++ [EvEpochEnd e]) /\
    run tbl h w = Ok wt /\ acc = accf e (w_params wt) /\ step tbl wt (EvEpochEnd e) = Ok w'.
Proof.
  intros samples b e w w' acc Hb H. unfold train_validate in H. inv_bind H. inv_bind H. inv_bind H. injection H as <- <-.
  destruct (train_epoch_history _ _ _ _ _ Hb H1) as (mbs & M1 & M2).
  exists ([EvEpochBegin e] ++ concat mbs), x0. split; [|split; [|split]]; auto.
  - exists mbs. split; auto.
  - rewrite run_app. unfold run at 1. cbn [foldM step]. rewrite H0. exact M2.
Qed.

Lemma last_cons' {A} (l : list A) : forall x d, last (x :: l) d = last l x.
Proof.
  induction l as [|y l IH]; intros x d; auto.
  change (last (x :: y :: l) d) with (last (y :: l) d). rewrite (IH y d), <- (IH y x). reflexivity.
Qed.

Lemma trace_history draw b es w tr : (0 < b)%nat -> run_trace tbl lossf updf accf draw b es w tr ->
  exists hs, Forall2 (fun e h => epoch_history e (length (batches b (draw e))) h) es hs /\
    run tbl (concat hs) w = Ok (last (map (fun x => snd (fst x)) tr) w).
Proof.
  intro Hb. revert w tr. induction es as [|e es IH]; intros w tr H; destruct tr as [|((e1, w1), a1) tr]; simpl in H; try tauto.
  - exists []. split; [constructor|reflexivity].
  - destruct H as (-> & H1 & H2). destruct (C52_epoch _ _ _ _ _ _ Hb H1) as (h & K1 & K2).
    destruct (IH _ _ H2) as (hs & K3 & K4). exists (h :: hs). split; [constructor; auto|].
    simpl concat. rewrite run_app, K2. cbn [bind]. rewrite K4. cbn [map fst snd]. rewrite last_cons'. reflexivity.
Qed.

(** C52: a complete run is a history of exactly the epochs start .. stop-1, each once and in
    order, each well formed. *)
Theorem C52_run_is_a_history : forall draw b max_len start stop w f w' f',
  (0 < b)%nat -> (1 <= max_len)%Z ->
  run_training_loop tbl lossf updf accf statsf draw b max_len start stop w f = Ok (w', f') ->
  exists hs, Forall2 (fun e h => epoch_history e (length (batches b (draw e))) h) (epochs_from start stop) hs /\
    run tbl (concat hs) w = Ok w'.
Proof.
  intros draw b max_len start stop w f w' f' Hb Hm H. unfold run_training_loop in H.
  destruct (Z.leb_spec stop start) as [|Hss]; [discriminate|].
  destruct (loop_invariant tbl lossf updf accf statsf draw b max_len (epochs_from start stop) Hm [] w (mkFiles (fl_last f) (fl_best f) []) w' f')
    as (tr & T1 & _ & _ & _ & _ & T6); auto; try (simpl; auto; fail).
  - simpl. apply epochs_sorted.
  - constructor.
  - simpl. discriminate.
  - intro Hc. exfalso. apply Hc. reflexivity.
  - destruct (trace_history draw b _ w tr Hb T1) as (hs & K1 & K2). exists hs. split; auto. rewrite K2. f_equal. auto.
Qed.

Lemma epochs_from_In start stop e : In e (epochs_from start stop) <-> (start <= e < stop)%Z.
Proof.
  unfold epochs_from. rewrite in_map_iff. split.
  - intros (i & <- & Hi). apply in_seq in Hi. lia.
  - intro H. exists (Z.to_nat (e - start)). split; [lia|]. apply in_seq. lia.
Qed.

(* ------------------------------------------------------------------------- *)
(** ** The saved weights are pruned *)
Lemma prune_epoch_end_all_masked pid c (w w' : world PS) :
  NoDup (dkeys (w_params w)) -> all_masked w -> prune_epoch_end pid c w = Ok w' -> all_masked w'.
Proof.
  unfold prune_epoch_end. destruct (po_last (w_pol w pid)); [|intros _ Ha H; injection H as <-; auto].
  intros Hnd Ha H.
  eapply (for_params_local _ (fun n p m p' m' =>
     forall x mk msk, p' = Some x -> m' = Some mk -> mk_mask mk = Some msk -> mk_fwd_only mk = false ->
       masked x msk \/ (p' = p /\ exists mk0, m = Some mk0 /\ mk_mask mk0 = Some msk /\ mk_fwd_only mk0 = false))) in H; auto.
  - destruct H as [[K _] H]. intros n p mk m H1 H2 H3 H4. destruct (H n) as [I1 _].
    destruct (I1 ltac:(rewrite <- K; eapply dget_Some_In; eauto) p mk m H1 H2 H3 H4) as [D|(D1 & mk0 & D2 & D3 & D4)]; auto.
    eapply Ha; eauto. congruence.
  - clear. intros w n w' H. apply prune_epoch_end_body_spec in H. destruct H as (F & p & m & H1 & H2 & H3 & H4). split; auto.
    intros x mk msk Ex Em Ek Ef. rewrite H3 in Ex. rewrite H4 in Em. rewrite H3, H1.
    destruct (pc_keep c).
    + left. injection Ex as <-. set (m1 := set_fwd_only (set_double m false) false) in *.
      assert (Hk : mk_mask m1 = Some msk).
      { destruct (mk_handle m1); injection Em as <-; exact Ek. }
      eapply mask_tensor_masked; eauto.
    + right. injection Ex as <-. split; auto. exists m. split; auto.
      destruct (mk_handle m); injection Em as <-; auto.
Qed.

Lemma on_epoch_end_all_masked e (w w' : world PS) :
  NoDup (dkeys (w_params w)) -> all_masked w -> on_epoch_end tbl e w = Ok w' -> all_masked w'.
Proof.
  intros Hnd Ha H. unfold on_epoch_end in H.
  match type of H with foldM ?f ?l ?s = _ =>
    apply (foldM_inv f (fun x => NoDup (dkeys (w_params x)) /\ all_masked x)) in H end; [tauto| |auto].
  clear H Hnd Ha. intros v pid v' _ [Hnd Ha] H. inv_bind H. destruct x as (w1, me). apply touch_meta_same in H0.
  destruct H0 as (P1 & P2 & P3). simpl in P1, P2, P3.
  assert (Hnd1 : NoDup (dkeys (w_params w1))) by (rewrite P1; auto).
  assert (Ha1 : all_masked w1) by (unfold all_masked in *; rewrite P1, P2; auto).
  destruct (tbl pid).
  - assert (K : same_keys (with_log w1 (CbEpochEnd, pid, e)) v').
    { unfold prune_epoch_end in H. destruct (po_last _).
      - apply for_params_keys in H; auto. intros u n u' Hv. apply prune_epoch_end_body_spec in Hv. destruct Hv as ((K & _) & _). exact K.
      - injection H as <-. apply same_keys_refl. }
    destruct K as (K & _). simpl in K. rewrite K. split; auto.
    eapply prune_epoch_end_all_masked; [| |exact H]; simpl; auto.
  - injection H as <-. auto.
  - injection H as <-. auto.
  - injection H as <-. auto.
Qed.

Lemma epoch_all_masked e k h (w w' : world PS) : (0 < k)%nat -> NoDup (dkeys (w_params w)) ->
  epoch_history e k h -> run tbl h w = Ok w' -> all_masked w'.
Proof.
  intros Hk Hnd (mbs & Hm & ->) H. rewrite run_app in H. inv_bind H. rewrite run_app in H. inv_bind H.
  assert (Hl : exists pre lst, mbs = pre ++ [lst] /\ minibatch_history e (Z.of_nat k) (Z.of_nat (k - 1)) lst).
  { destruct k as [|k]; [lia|]. rewrite seq_S in Hm. simpl in Hm. apply Forall2_app_inv_l in Hm.
    destruct Hm as (pre & l2 & _ & H2 & ->). inversion H2 as [|? y ? l3 Hy Hn]; subst. inversion Hn; subst.
    exists pre, y. split; auto. replace (S k - 1)%nat with k by lia. exact Hy. }
  destruct Hl as (pre & lst & -> & (loss & f & ->)).
  rewrite concat_app in H1. rewrite run_app in H1. inv_bind H1. rename x1 into wp.
  cbn [concat app] in H1. change [EvMBBegin e (Z.of_nat (k - 1)) (Z.of_nat k); EvBackward e loss;
      EvBeforeOpt e (Z.of_nat (k - 1)) (Z.of_nat k); EvUpdate f; EvMBEnd e (Z.of_nat (k - 1)) (Z.of_nat k)]
    with ([EvMBBegin e (Z.of_nat (k - 1)) (Z.of_nat k); EvBackward e loss;
      EvBeforeOpt e (Z.of_nat (k - 1)) (Z.of_nat k); EvUpdate f] ++ [EvMBEnd e (Z.of_nat (k - 1)) (Z.of_nat k)]) in H1.
  rewrite run_app in H1. inv_bind H1. rename x1 into wq.
  assert (Hx : NoDup (dkeys (w_params wq))).
  { apply run_keys in H0. apply run_keys in H2. apply run_keys in H3.
    destruct H0 as (A0 & _), H2 as (A2 & _), H3 as (A3 & _). rewrite A3, A2, A0. auto. }
  unfold run in H1. cbn [foldM] in H1. inv_bind H1. injection H1 as ->.
  pose proof (on_minibatch_end_all_masked tbl _ _ _ _ _ Hx H4) as Ha.
  assert (Hx0 : NoDup (dkeys (w_params x0))) by (apply step_keys in H4; destruct H4 as (-> & _); auto).
  unfold run in H. cbn [foldM] in H. inv_bind H. injection H as ->. eapply on_epoch_end_all_masked; eauto.
Qed.

(** C52: every state that a run saves (the latest and the best checkpoint in particular) satisfies
    the masks: each weight with a mask that is not forward-only is zero where the mask is. *)
Theorem C52_saved_weights_are_pruned : forall draw b max_len start stop w f w' f',
  (0 < b)%nat -> (1 <= max_len)%Z -> NoDup (dkeys (w_params w)) -> (forall e, draw e <> []) ->
  run_training_loop tbl lossf updf accf statsf draw b max_len start stop w f = Ok (w', f') ->
  all_masked w' /\ fl_last f' = Some ((stop - 1)%Z, w') /\
  exists e wb, fl_best f' = Some (e, wb) /\ all_masked wb.
Proof.
  intros draw b max_len start stop w f w' f' Hb Hm Hnd Hd H.
  destruct (C37_best_checkpoint tbl lossf updf accf statsf draw b max_len start stop w f w' f' Hm H)
    as (tr & T1 & (acc & T2 & T3) & e & wb & acc' & T4 & T5 & _).
  assert (Hall : forall es v t x, NoDup (dkeys (w_params v)) -> run_trace tbl lossf updf accf draw b es v t -> In x t ->
                   all_masked (snd (fst x))).
  { clear - Hb Hd. induction es as [|z es IH]; intros v t x Hv Ht Hx; destruct t as [|((e1, w1), a1) t]; simpl in Ht; try (destruct Ht; fail); try (destruct Hx; fail).
    destruct Ht as (-> & H1 & H2). destruct (C52_epoch _ _ _ _ _ _ Hb H1) as (h & K1 & K2).
    assert (Hv1 : NoDup (dkeys (w_params w1))) by (apply run_keys in K2; destruct K2 as (-> & _); auto).
    destruct Hx as [<-|Hx].
    - simpl. eapply epoch_all_masked; [| exact Hv | exact K1 | exact K2].
      specialize (Hd z). unfold batches. destruct (draw z); [congruence|simpl; lia].
    - eapply IH; [exact Hv1| exact H2 | exact Hx]. }
  split.
  - apply (Hall _ _ _ ((stop - 1)%Z, w', acc) Hnd T1). apply in_rev. destruct (rev tr); [discriminate|]. simpl in T2. injection T2 as ->. left; auto.
  - split; auto. exists e, wb. split; auto. apply (Hall _ _ _ (e, wb, acc') Hnd T1 T4).
Qed.

(* ------------------------------------------------------------------------- *)
(** ** Interrupting and continuing *)
(** C52: training epochs start..mid and then mid..stop from the state in memory ends with the same
    weights, masks and latest checkpoint as training start..stop (only the best checkpoint and the
    tracker differ: C37_resume_overwrites_best_refuted). *)
Theorem C52_continue : forall draw b max_len start mid stop w f w1 f1 w2 f2,
  (1 <= max_len)%Z ->
  run_training_loop tbl lossf updf accf statsf draw b max_len start mid w f = Ok (w1, f1) ->
  run_training_loop tbl lossf updf accf statsf draw b max_len mid stop w1 f1 = Ok (w2, f2) ->
  exists f3, run_training_loop tbl lossf updf accf statsf draw b max_len start stop w f = Ok (w2, f3) /\
    fl_last f3 = fl_last f2.
Proof.
  intros draw b max_len start mid stop w f w1 f1 w2 f2 Hm H1 H2.
  unfold run_training_loop in *.
  destruct (Z.leb_spec mid start); [discriminate|]. destruct (Z.leb_spec stop mid); [discriminate|].
  destruct (Z.leb_spec stop start); [lia|].
  assert (He : epochs_from start stop = epochs_from start mid ++ epochs_from mid stop).
  { unfold epochs_from. replace (Z.to_nat (stop - start)) with (Z.to_nat (mid - start) + Z.to_nat (stop - mid))%nat by lia.
    rewrite seq_app, map_app. f_equal. rewrite Nat.add_0_l.
    replace (Z.to_nat (mid - start)) with (Z.to_nat (mid - start) + 0)%nat at 1 by lia.
    generalize 0%nat as k. generalize (Z.to_nat (stop - mid)) as n. induction n as [|n IH]; intro k; simpl; auto.
    f_equal; [lia|]. rewrite <- IH. f_equal. f_equal. lia. }
  rewrite He, foldM_app, H1. cbn [bind].
  match type of H2 with foldM ?g _ _ = _ => set (body := g) in * end.
  assert (G : forall es wa fa fb wz fz, foldM body es (wa, fa) = Ok (wz, fz) -> fl_last fa = fl_last fb ->
     exists fz', foldM body es (wa, fb) = Ok (wz, fz') /\ fl_last fz' = fl_last fz).
  { clear - Hm. induction es as [|e es IH]; intros wa fa fb wz fz H Hl.
    - simpl in H. injection H as <- <-. exists fb. simpl. auto.
    - cbn [foldM] in *. inv_bind H. destruct x as (wn, fn). unfold body in H0. cbn [fst snd] in H0.
      inv_bind H0. destruct x as (wn', acc). cbn [fst snd] in H0. inv_bind H0. injection H0 as -> ->.
      destruct (finalize_ok statsf max_len e wn acc fb Hm) as (g & G1 & _ & G3 & _).
      destruct (finalize_ok statsf max_len e wn acc fa Hm) as (g' & G1' & _ & G3' & _).
      rewrite H2 in G1'. injection G1' as ->.
      assert (E : body (wa, fb) e = Ok (wn, g)).
      { unfold body. cbn [fst snd]. rewrite H1. cbn [bind fst snd]. rewrite G1. reflexivity. }
      rewrite E. cbn [bind]. apply (IH wn g' g wz fz H). congruence. }
  destruct (G _ _ _ f1 _ _ H2) as (f3 & G1 & G2); [reflexivity|]. exists f3. auto.
Qed.
End Loop.

(** a run of three epochs of two minibatches with a pruning policy: it succeeds, the best epoch is
    the middle one, and the masks are satisfied *)
Example run_case :
  exists w' f', run_training_loop (fun _ => PPrune Ex.cfg0 Ex.thr) (fun _ _ _ => 1) (fun _ _ _ => Ex.upd)
      (fun e _ => (if Z.eqb e 1 then 90 else 80, 95)) (fun _ => (10%Z, 0)) (fun _ => [2; 0; 1]%nat) 2 5 0 3
      (Ex.world0 [Ex.range 0 0 2 1]) (mkFiles None None []) = Ok (w', f') /\
    (exists wb, fl_best f' = Some (1%Z, wb)) /\ fl_last f' = Some (2%Z, w') /\ length (batches 2 [2; 0; 1]%nat) = 2%nat /\
    exists m mk, dget (w_maskers w') "fc.weight" = Some mk /\ mk_mask mk = Some m /\ m = [0; 1].
Proof.
  eexists. eexists. split; [vm_compute; reflexivity|]. split; [eexists; reflexivity|]. split; [reflexivity|].
  split; [reflexivity|]. eexists. eexists. split; [reflexivity|]. split; reflexivity.
Qed.

(** C52: so the accuracy saved with a checkpoint need not be that of the weights saved in it: with a
    pruning policy that masks on the forward pass only and keeps its mask at the end, the last epoch
    end prunes the weights after they were measured ([accf] here is the first weight of fc, which
    pruning sets to zero). *)
Theorem C52_saved_accuracy_refuted :
  ~ (forall (tbl : nat -> policy unit) lossf updf accf samples b e w w' acc, (0 < b)%nat ->
      train_validate tbl lossf updf accf samples b e w = Ok (w', acc) ->
      fst acc == fst (accf e (w_params w'))).
Proof.
  intro H.
  set (accf := fun (_ : Z) (ps : dict tensor) => (match dget ps "fc.weight" with Some t => nth 0 t 0 | None => 0 end, 0)).
  pose (r := train_validate (fun _ => PPrune Ex.cfg_keep_fwd Ex.thr) (fun _ _ _ => 1) (fun _ _ _ => Ex.upd) accf [0%nat] 1 0
               (Ex.world0 [Ex.range 0 0 1 1])).
  assert (E : exists w' a, r = Ok (w', a) /\ fst a == 1 /\ fst (accf 0%Z (w_params w')) == 0).
  { eexists. eexists. split; [vm_compute; reflexivity|]. split; vm_compute; reflexivity. }
  destruct E as (w' & a & E1 & E2 & E3). specialize (H _ _ _ _ _ _ _ _ _ _ ltac:(auto) E1). rewrite E2, E3 in H. discriminate.
Qed.

Print Assumptions C52_minibatch.
Print Assumptions C52_accuracy_before_epoch_end.
Print Assumptions C52_saved_accuracy_refuted.
Print Assumptions C52_epoch.
Print Assumptions C52_run_is_a_history.
Print Assumptions C52_saved_weights_are_pruned.
Print Assumptions C52_continue.
