(** C40: knowledge distillation (knowledge_distillation.py). *)
From Coq Require Import String List ZArith QArith Bool Arith Lia Lqa.
From Verif Require Import Base SchedModel AppModel AppSpec.
Import ListNotations.
Open Scope Q_scope.

(** ** Vocabulary: what a history of calls means, read off the list of calls *)
(** the policy is inside a scheduled epoch: the last epoch callback was on_epoch_begin *)
Fixpoint in_epoch (history_latest_first : list kd_op) : bool :=
  match history_latest_first with
  | [] => false
  | KdEpochBegin :: _ => true
  | KdEpochEnd :: _ => false
  | _ :: r => in_epoch r
  end.
(** the latest forward that was made inside a scheduled epoch *)
Fixpoint latest_forward (history_latest_first : list kd_op) : option nat :=
  match history_latest_first with
  | [] => None
  | KdForward id :: r => if in_epoch r then Some id else latest_forward r
  | _ :: r => latest_forward r
  end.

Lemma kd_run_app T wd ws kl o1 o2 s :
  kd_run T wd ws kl (o1 ++ o2) s =
  do r <- kd_run T wd ws kl o1 s;
  foldM (fun st o => do r <- kd_step T wd ws kl (fst st) o; Ok (fst r, snd st ++ [snd r])) o2 r.
Proof. unfold kd_run. apply foldM_app. Qed.

Lemma kd_state T wd ws kl : forall h s outs,
  kd_run T wd ws kl (rev h) (mkKd false None) = Ok (s, outs) ->
  kd_active s = in_epoch h /\ kd_cached s = latest_forward h.
Proof.
  induction h as [|o h IH]; intros s outs H.
  - simpl in H. injection H as <- <-. auto.
  - simpl rev in H. rewrite kd_run_app in H. inv_bind H. destruct x as (s1, outs1).
    destruct (IH s1 outs1 H0) as (A & B). simpl in H. inv_bind H. destruct x as (s2, o2). simpl in H.
    injection H as <- <-. simpl in H1. destruct o; simpl in *.
    + injection H1 as <- <-. auto.
    + injection H1 as <- <-. auto.
    + injection H1 as <- <-. rewrite A. destruct (in_epoch h); simpl; auto.
    + destruct (kd_active s1) eqn:E.
      * destruct (kd_cached s1) eqn:E2; [|discriminate]. injection H1 as <- <-. split; congruence.
      * injection H1 as <- <-. split; [congruence|auto].
Qed.

(** C40: before_backward_pass after any history of callbacks and forwards (earliest call last in
    [h]): outside the scheduled epochs it leaves the loss alone; inside them the overall loss is
    student_wt * loss + distill_wt * T^2 * KL of the latest forward made through the policy while
    active (the reported component is the unscaled KL), and RuntimeError if there was none. *)
Theorem C40_overall_loss : forall T wd ws kl h s outs loss,
  kd_run T wd ws kl (rev h) (mkKd false None) = Ok (s, outs) ->
  (in_epoch h = false -> kd_step T wd ws kl s (KdBackward loss) = Ok (s, KdNone)) /\
  (in_epoch h = true -> latest_forward h = None -> kd_step T wd ws kl s (KdBackward loss) = Raise RuntimeError) /\
  (in_epoch h = true -> forall id, latest_forward h = Some id ->
     exists overall, kd_step T wd ws kl s (KdBackward loss) = Ok (s, KdLoss overall (kl id)) /\
       overall == ws * loss + wd * T ^ 2 * kl id).
Proof.
  intros T wd ws kl h s outs loss H. destruct (kd_state T wd ws kl h s outs H) as (A & B).
  simpl. rewrite A, B. split; [|split].
  - intros ->. auto.
  - intros -> ->. auto.
  - intros -> id ->. eexists; split; [reflexivity|]. simpl. ring.
Qed.

(** C40: a non-zero teacher weight is rejected by the constructor; otherwise the policy starts
    inactive with nothing cached. *)
Theorem C40_constructor : forall teacher_wt,
  (teacher_wt == 0 -> kd_init teacher_wt = Ok (mkKd false None)) /\
  (~ teacher_wt == 0 -> kd_init teacher_wt = Raise NotImplementedError).
Proof.
  intro t. unfold kd_init. split; intro H.
  - rewrite (proj2 (Qeq_bool_iff t 0) H). auto.
  - destruct (Qeq_bool t 0) eqn:E; auto. apply Qeq_bool_iff in E. contradiction.
Qed.

(** C40: RuntimeError is the only exception, and it is only raised by a backward inside a scheduled
    epoch with nothing cached; so a script that calls forward() in every minibatch never sees it. *)
Theorem C40_forward_each_minibatch_never_raises : forall T wd ws kl (minibatches : list (nat * Q)) s,
  exists s' outs,
    foldM (fun st o => do r <- kd_step T wd ws kl (fst st) o; Ok (fst r, snd st ++ [snd r]))
      (flat_map (fun b => [KdForward (fst b); KdBackward (snd b)]) minibatches) (s, []) = Ok (s', outs) /\
    (kd_active s = true ->
     Forall2 (fun b o => exists x, o = [KdSilent; KdLoss x (kl (fst b))] /\ x == ws * snd b + wd * T ^ 2 * kl (fst b)) minibatches
       (map (fun i => firstn 2 (skipn (2 * i) outs)) (seq 0 (length minibatches)))).
Proof.
  intros T wd ws kl mbs s.
  cut (forall pre s, (kd_active s = true \/ kd_active s = false) -> exists s' outs,
    foldM (fun st o => do r <- kd_step T wd ws kl (fst st) o; Ok (fst r, snd st ++ [snd r]))
      (flat_map (fun b => [KdForward (fst b); KdBackward (snd b)]) mbs) (s, pre) = Ok (s', pre ++ outs) /\
    (kd_active s = true ->
     Forall2 (fun b o => exists x, o = [KdSilent; KdLoss x (kl (fst b))] /\ x == ws * snd b + wd * T ^ 2 * kl (fst b)) mbs
       (map (fun i => firstn 2 (skipn (2 * i) outs)) (seq 0 (length mbs))))).
  { intro Hc. destruct (Hc [] s) as (s' & outs & H1 & H2); [destruct (kd_active s); auto|]. eauto. }
  clear s. induction mbs as [|(id, loss) mbs IH]; intros pre s Hs.
  - exists s, []. simpl. rewrite app_nil_r. split; auto.
  - cbn [flat_map app foldM fst snd]. cbn [kd_step bind fst snd].
    destruct (kd_active s) eqn:E; cbn [kd_active kd_cached kd_step bind fst snd].
    + destruct (IH ((pre ++ [KdSilent]) ++ [KdLoss (ws * loss + wd * (kl id * (T * T))) (kl id)]) (mkKd true (Some id)))
        as (s' & outs & H1 & H2); [auto|]. simpl kd_active in H2. specialize (H2 eq_refl).
      exists s', (KdSilent :: KdLoss (ws * loss + wd * (kl id * (T * T))) (kl id) :: outs).
      split; [rewrite H1; f_equal; f_equal; rewrite <- !app_assoc; reflexivity|]. intros _.
      cbn [length seq map]. constructor.
      * eexists; split; [reflexivity|]. simpl. ring.
      * rewrite <- seq_shift, map_map.
        erewrite map_ext; [exact H2|]. intro i. simpl. replace (i + S (i + 0))%nat with (S (i + (i + 0)))%nat by lia. reflexivity.
    + rewrite E. cbn [bind fst snd].
      destruct (IH ((pre ++ [KdSilent]) ++ [KdNone]) s) as (s' & outs & H1 & H2); [auto|].
      exists s', (KdSilent :: KdNone :: outs). split; [|discriminate].
      rewrite H1. f_equal. f_equal. rewrite <- !app_assoc. reflexivity.
Qed.

(** C40 (finding): the cache is never cleared, so only the very first omission is detected: in any
    later minibatch or epoch a script that bypasses forward() silently distills against the logits
    of an earlier minibatch. *)
Theorem C40_stale_logits_refuted : forall T wd ws kl id l1 loss,
  exists s outs overall,
    kd_run T wd ws kl [KdEpochBegin; KdForward id; KdBackward l1; KdEpochEnd; KdEpochBegin] (mkKd false None) = Ok (s, outs) /\
    kd_step T wd ws kl s (KdBackward loss) = Ok (s, KdLoss overall (kl id)).
Proof. intros. eexists _, _, _. split; reflexivity. Qed.

(* ------------------------------------------------------------------------- *)
(** ** The policy inside the scheduler *)
Section InScheduler.
Context {PS : Type}.
Variable tbl : nat -> policy PS.

(** a policy that adds a loss to the one it is given (e.g. a regularizer) *)
Definition adds (p : policy PS) (x : Q) : Prop := exists f, p = PLoss f /\ forall l, f l = PLOne (l + x) x.

Definition bb_step (e : Z) := (fun (st : world PS * (Q * list Q)) pid =>
    let '(w, (overall, comps)) := st in
    let w := with_log w (CbBackward, pid, e) in
    match policy_backward tbl pid overall w with
    | PLNone => Ok (w, (overall, comps))
    | pl => do cs <- verify_policy_loss pl;
            Ok (w, (ploss_overall pl overall, comps ++ cs))
    end).

Lemma adds_fold e pids xs : Forall2 (fun p x => adds (tbl p) x) pids xs -> forall w l cs,
  exists w' l', foldM (bb_step e) pids (w, (l, cs)) = Ok (w', (l', cs ++ xs)) /\ l' == l + qsum xs.
Proof.
  induction 1 as [|p x pids xs (f & Hp & Hf) HF IH]; intros w l cs.
  - simpl. exists w, l. rewrite app_nil_r. split; auto. ring.
  - simpl. unfold policy_backward. rewrite Hp, Hf. simpl.
    destruct (IH (with_log w (CbBackward, p, e)) (l + x) (cs ++ [x])) as (w' & l' & H1 & H2).
    exists w', l'. rewrite H1, <- app_assoc. split; auto. rewrite H2. simpl. ring.
Qed.

(** C40 (finding): the policies are chained, so what an additive loss (a regularizer) contributes
    depends on whether it was added to the scheduler before or after the distillation policy: the
    losses of the policies that come before it are multiplied by student_wt, the others are not. *)
Theorem C40_order_with_regularizers : forall e loss (w : world PS) before kdp after xs ys (kl wd ws T : Q),
  policies_at (sc_policies (w_sched w)) e = before ++ [kdp] ++ after ->
  tbl kdp = PLoss (fun l => PLOne (ws * l + wd * (kl * (T * T))) kl) ->
  Forall2 (fun p x => adds (tbl p) x) before xs -> Forall2 (fun p y => adds (tbl p) y) after ys ->
  exists w' overall, before_backward_pass tbl e loss w = Ok (w', (overall, xs ++ [kl] ++ ys)) /\
    overall == ws * (loss + qsum xs) + wd * T ^ 2 * kl + qsum ys.
Proof.
  intros e loss w before kdp after xs ys kl wd ws T Hp Hk Hb Ha.
  unfold before_backward_pass. rewrite Hp. change (foldM (bb_step e) (before ++ [kdp] ++ after) (w, (loss, [])) ) with
    (foldM (bb_step e) (before ++ ([kdp] ++ after)) (w, (loss, []))). rewrite foldM_app.
  destruct (adds_fold e before xs Hb w loss []) as (w1 & l1 & H1 & H2).
  match goal with |- exists w' overall, bind ?m _ = _ /\ _ => change m with (foldM (bb_step e) before (w, (loss, []))) end.
  rewrite H1. cbn [bind app]. simpl. unfold policy_backward. rewrite Hk. simpl.
  destruct (adds_fold e after ys Ha (with_log w1 (CbBackward, kdp, e)) (ws * l1 + wd * (kl * (T * T))) (xs ++ [kl])) as (w2 & l2 & H3 & H4).
  match goal with |- exists w' overall, ?m = _ /\ _ => change m with (foldM (bb_step e) after (with_log w1 (CbBackward, kdp, e), (ws * l1 + wd * (kl * (T * T)), xs ++ [kl]))) end.
  exists w2, l2. rewrite H3, <- app_assoc. split; [reflexivity|]. rewrite H4, H2. simpl. ring.
Qed.
End InScheduler.

Example kd_case :
  kd_run 2 (3#4) (1#4) (fun id => Zq (Z.of_nat id)) [KdForward 7; KdBackward 1; KdEpochBegin; KdForward 5; KdBackward 4; KdEpochEnd; KdBackward 3] (mkKd false None)
  = Ok (mkKd false (Some 5%nat), [KdSilent; KdNone; KdSilent; KdSilent; KdLoss ((1#4) * 4 + (3#4) * (Zq 5 * (2 * 2))) (Zq 5); KdSilent; KdNone]).
Proof. reflexivity. Qed.
Example kd_not_cached : kd_run 2 (3#4) (1#4) (fun id => 1) [KdForward 7; KdEpochBegin; KdBackward 4] (mkKd false None) = Raise RuntimeError.
Proof. reflexivity. Qed.

Print Assumptions C40_overall_loss.
Print Assumptions C40_constructor.
Print Assumptions C40_forward_each_minibatch_never_raises.
Print Assumptions C40_stale_logits_refuted.
Print Assumptions C40_order_with_regularizers.
