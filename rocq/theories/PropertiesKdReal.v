(** C40: the distillation term itself, over the real numbers (Coq's axiomatic reals: the theorems
    here rest on the axioms of Coq.Reals, listed in DESIGN.md). *)
From Coq Require Import List Reals Lra Lia.
Import ListNotations.
Open Scope R_scope.

Definition rsum (l : list R) : R := fold_right Rplus 0 l.

(** F.softmax(x / T) and F.log_softmax(x / T) of one row of logits (knowledge_distillation.py:148-150) *)
Definition softmax (T : R) (x : list R) : list R :=
  map (fun v => exp (v / T) / rsum (map (fun u => exp (u / T)) x)) x.
Definition log_softmax (T : R) (x : list R) : list R :=
  map (fun v => v / T - ln (rsum (map (fun u => exp (u / T)) x))) x.

(** F.kl_div of one row: sum of target * (log target - input) *)
Definition kl_row (logp target : list R) : R :=
  rsum (map (fun pt => snd pt * (ln (snd pt) - fst pt)) (combine logp target)).
(** F.kl_div(..., reduction='batchmean'), knowledge_distillation.py:152: the sum divided by the batch size *)
Definition distillation_loss (T : R) (student teacher : list (list R)) : R :=
  rsum (map (fun st => kl_row (log_softmax T (fst st)) (softmax T (snd st))) (combine student teacher)) / INR (length student).

Lemma rsum_pos x T : x <> [] -> 0 < rsum (map (fun u => exp (u / T)) x).
Proof.
  intro H. assert (Hn : forall l, 0 <= rsum (map (fun u => exp (u / T)) l)).
  { induction l as [|a l IH]; simpl; [lra|]. pose proof (exp_pos (a / T)). lra. }
  destruct x as [|a x]; [congruence|]. simpl. pose proof (exp_pos (a / T)). specialize (Hn x). lra.
Qed.

Lemma softmax_pos T x : Forall (fun p => 0 < p) (softmax T x).
Proof.
  unfold softmax. rewrite Forall_forall. intros p Hp. apply in_map_iff in Hp. destruct Hp as (v & <- & Hv).
  apply Rdiv_lt_0_compat; [apply exp_pos|]. apply rsum_pos. intro E. rewrite E in Hv. destruct Hv.
Qed.
Lemma softmax_sum T x : x <> [] -> rsum (softmax T x) = 1.
Proof.
  intro H. pose proof (rsum_pos x T H) as HS. unfold softmax. set (S := rsum (map (fun u => exp (u / T)) x)) in *.
  assert (E : forall l, rsum (map (fun v => exp (v / T) / S) l) = rsum (map (fun u => exp (u / T)) l) / S).
  { induction l as [|a l IH]; simpl; [lra|]. rewrite IH. field. lra. }
  rewrite E. fold S. field. lra.
Qed.
Lemma log_softmax_ln T x : log_softmax T x = map ln (softmax T x).
Proof.
  unfold log_softmax, softmax. rewrite map_map. apply map_ext_in. intros v Hv.
  change (exp (v / T) / rsum (map (fun u => exp (u / T)) x)) with (exp (v / T) * / rsum (map (fun u => exp (u / T)) x)).
  rewrite (ln_mult (exp (v / T)) (/ rsum (map (fun u => exp (u / T)) x))); [|apply exp_pos|].
  - rewrite ln_Rinv, ln_exp; [lra|]. apply rsum_pos. intro E. rewrite E in Hv. destruct Hv.
  - apply Rinv_0_lt_compat. apply rsum_pos. intro E. rewrite E in Hv. destruct Hv.
Qed.

(** ln y <= y - 1, strictly unless y = 1 *)
Lemma ln_le y : 0 < y -> ln y <= y - 1.
Proof. intro H. pose proof (exp_ineq1_le (ln y)). rewrite exp_ln in H0 by auto. lra. Qed.
Lemma ln_lt y : 0 < y -> y <> 1 -> ln y < y - 1.
Proof.
  intros H H1. assert (Hl : ln y <> 0). { intro E. apply H1. rewrite <- (exp_ln y H), E, exp_0. auto. }
  pose proof (exp_ineq1 (ln y) Hl). rewrite exp_ln in H0 by auto. lra.
Qed.

Lemma kl_term p t : 0 < p -> 0 < t -> t - p <= t * (ln t - ln p) /\ (t * (ln t - ln p) = t - p -> p = t).
Proof.
  intros Hp Ht. assert (Hd : 0 < p / t) by (apply Rdiv_lt_0_compat; auto).
  assert (E : ln p - ln t = ln (p / t)).
  { unfold Rdiv. rewrite ln_mult; [rewrite ln_Rinv by auto; lra|auto|apply Rinv_0_lt_compat; auto]. }
  assert (Hm : t * (p / t - 1) = p - t) by (field; lra).
  split.
  - pose proof (ln_le (p / t) Hd) as H. assert (t * ln (p / t) <= t * (p / t - 1)) by (apply Rmult_le_compat_l; lra). nra.
  - intro Heq. destruct (Req_dec (p / t) 1) as [D|D].
    + assert (p = t * (p / t)) by (field; lra). rewrite D in H. lra.
    + exfalso. pose proof (ln_lt (p / t) Hd D) as H. assert (t * ln (p / t) < t * (p / t - 1)) by (apply Rmult_lt_compat_l; lra). nra.
Qed.

Lemma kl_row_lower ps ts : length ps = length ts -> Forall (fun p => 0 < p) ps -> Forall (fun p => 0 < p) ts ->
  rsum ts - rsum ps <= kl_row (map ln ps) ts /\ (kl_row (map ln ps) ts = rsum ts - rsum ps -> ps = ts).
Proof.
  unfold kl_row. revert ts. induction ps as [|p ps IH]; intros [|t ts] Hl Hp Ht; try discriminate.
  - simpl. split; auto. lra.
  - simpl in *. inversion Hp as [|? ? Hp0 Hps]; subst. inversion Ht as [|? ? Ht0 Hts]; subst.
    destruct (IH ts ltac:(lia) Hps Hts) as (I1 & I2). destruct (kl_term p t Hp0 Ht0) as (K1 & K2). split; [lra|].
    intro E. rewrite (K2 ltac:(lra)), I2; auto. lra.
Qed.

(** logits of one row for the student and the teacher: the same non-zero number of classes *)
Definition matching (student teacher : list (list R)) : Prop :=
  Forall2 (fun s t => length s = length t /\ s <> []) student teacher.

Lemma row_kl T s t : length s = length t -> s <> [] ->
  0 <= kl_row (log_softmax T s) (softmax T t) /\
  (kl_row (log_softmax T s) (softmax T t) = 0 <-> softmax T s = softmax T t).
Proof.
  intros Hl Hs. assert (Ht : t <> []) by (intro E; rewrite E in Hl; destruct s; [congruence|discriminate]).
  rewrite log_softmax_ln. destruct (kl_row_lower (softmax T s) (softmax T t)) as (K1 & K2); try apply softmax_pos.
  { unfold softmax. rewrite !map_length. auto. }
  rewrite !softmax_sum in K1, K2 by auto. split; [lra|]. split; [intro E; apply K2; lra|].
  intros ->. unfold kl_row. clear. induction (softmax T t) as [|p l IH]; simpl; auto. unfold kl_row in IH. rewrite IH. lra.
Qed.

(** C40: for every temperature and all logits the distillation loss is non-negative, and it is zero
    exactly when the student's and the teacher's softened distributions agree on every sample. *)
Theorem C40_distillation_loss_nonneg : forall T student teacher,
  matching student teacher -> student <> [] ->
  0 <= distillation_loss T student teacher /\
  (distillation_loss T student teacher = 0 <-> map (softmax T) student = map (softmax T) teacher).
Proof.
  intros T st te Hm Hne. unfold distillation_loss.
  assert (HN : 0 < INR (length st)). { apply lt_0_INR. destruct st; [congruence|simpl; lia]. }
  assert (K : 0 <= rsum (map (fun x => kl_row (log_softmax T (fst x)) (softmax T (snd x))) (combine st te)) /\
    (rsum (map (fun x => kl_row (log_softmax T (fst x)) (softmax T (snd x))) (combine st te)) = 0 <->
     map (softmax T) st = map (softmax T) te)).
  { clear Hne HN. induction Hm as [|s t st te (Hl & Hs) Hm IH].
    - simpl. split; [lra|]. split; auto.
    - simpl. destruct (row_kl T s t Hl Hs) as (R1 & R2). destruct IH as (I1 & I2). split; [lra|]. split.
      + intro E. f_equal; [apply R2|apply I2]; lra.
      + intro E. injection E as E1 E2. rewrite (proj2 R2 E1), (proj2 I2 E2). lra. }
  destruct K as (K1 & K2). split.
  - apply Rmult_le_pos; auto. left. apply Rinv_0_lt_compat; auto.
  - rewrite <- K2. split; intro E.
    + apply Rmult_eq_reg_r with (r := / INR (length st)).
      * unfold Rdiv in E. rewrite E. lra.
      * apply Rinv_neq_0_compat. lra.
    + unfold Rdiv. rewrite E. lra.
Qed.

(** C40: in particular it is zero when the student computes the teacher's logits, or logits shifted
    by a constant per sample. *)
Theorem C40_distillation_loss_equal_logits : forall T student (shift : list R),
  T <> 0 -> student <> [] -> Forall (fun s => s <> []) student -> length shift = length student ->
  distillation_loss T student (map (fun sc => map (fun v => v + snd sc) (fst sc)) (combine student shift)) = 0.
Proof.
  intros T st sh HT Hne Hrow Hl.
  apply C40_distillation_loss_nonneg; auto.
  - clear Hne. revert sh Hl. induction Hrow as [|s st Hs Hrow IH]; intros [|c sh] Hl; try discriminate; simpl; constructor.
    + rewrite map_length. auto.
    + apply IH. simpl in Hl. lia.
  - clear Hne. revert sh Hl. induction Hrow as [|s st Hs Hrow IH]; intros [|c sh] Hl; try discriminate; simpl; auto.
    f_equal; [|apply IH; simpl in Hl; lia].
    unfold softmax. rewrite !map_map.
    assert (E : forall v, exp ((v + c) / T) = exp (c / T) * exp (v / T)).
    { intro v. rewrite <- exp_plus. f_equal. field. auto. }
    assert (S : forall l, rsum (map (fun x => exp ((x + c) / T)) l) = exp (c / T) * rsum (map (fun u => exp (u / T)) l)).
    { induction l as [|a l IHl]; simpl; [lra|]. rewrite IHl, E. lra. }
    apply map_ext_in. intros v Hv. rewrite S, E. pose proof (exp_pos (c / T)). pose proof (rsum_pos s T Hs). field. lra.
Qed.

Example kd_real_case : matching [[1; 2; 3]; [0; 0; 1]] [[2; 2; 2]; [0; 5; 1]].
Proof. repeat constructor; discriminate. Qed.

Print Assumptions C40_distillation_loss_nonneg.
Print Assumptions C40_distillation_loss_equal_logits.
