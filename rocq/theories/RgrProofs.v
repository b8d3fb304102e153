(** Proofs about the gradients of the regularization losses (C105). *)
From Coq Require Import String List Reals Arith Bool Lia Lra.
From Verif Require Import Base RgrModel RgrSpec.
Import ListNotations.
Local Open Scope string_scope.
Open Scope list_scope.
Open Scope R_scope.

(* ------------------------------------------------------------------ sums *)
Lemma sumn_total : forall n f, sumn n f = total n f.
Proof. induction n; intros; cbn; [reflexivity|now rewrite IHn]. Qed.

Lemma total_ext : forall n f g, (forall p, (p < n)%nat -> f p = g p) -> total n f = total n g.
Proof. induction n; intros f g H; cbn; [reflexivity|]. rewrite (IHn f g), (H n) by (auto with arith). reflexivity. Qed.

Lemma total_plus : forall n f g, total n (fun p => f p + g p) = total n f + total n g.
Proof. induction n; intros; cbn; [ring|]. rewrite IHn. ring. Qed.

Lemma total_minus : forall n f g, total n (fun p => f p - g p) = total n f - total n g.
Proof. induction n; intros; cbn; [ring|]. rewrite IHn. ring. Qed.

Lemma total_scal : forall n k f, total n (fun p => k * f p) = k * total n f.
Proof. induction n; intros; cbn; [ring|]. rewrite IHn. ring. Qed.

Lemma total_0 : forall n, total n (fun _ => 0) = 0.
Proof. induction n; cbn; [reflexivity|]. rewrite IHn. ring. Qed.

Lemma total_le : forall n f g, (forall p, (p < n)%nat -> f p <= g p) -> total n f <= total n g.
Proof. induction n; intros f g H; cbn; [lra|]. assert (f n <= g n) by (apply H; lia). assert (total n f <= total n g) by (apply IHn; intros; apply H; lia). lra. Qed.

Lemma total_nonneg : forall n f, (forall p, (p < n)%nat -> 0 <= f p) -> 0 <= total n f.
Proof. intros. rewrite <- (total_0 n). now apply total_le. Qed.

Lemma total_swap : forall n m (f : nat -> nat -> R), total n (fun p => total m (fun q => f p q)) = total m (fun q => total n (fun p => f p q)).
Proof.
  induction n; intros; cbn; [now rewrite total_0|]. rewrite IHn, <- total_plus. reflexivity.
Qed.

Lemma total_app : forall n m f, total (n + m) f = total n f + total m (fun j => f (n + j)%nat).
Proof.
  intros n m f. induction m; cbn; [rewrite Nat.add_0_r; ring|]. rewrite Nat.add_succ_r. cbn. rewrite IHm. ring.
Qed.

Lemma total_grid : forall r c f, total (r * c) f = total r (fun i => total c (fun j => f (i * c + j)%nat)).
Proof.
  induction r; intros; cbn [Nat.mul total]; [reflexivity|]. rewrite Nat.add_comm, total_app, IHr. reflexivity.
Qed.

Lemma total_delta : forall n k x, (k < n)%nat -> total n (fun i => if Nat.eqb i k then x i else 0) = x k.
Proof.
  induction n; intros k x H; [lia|]. cbn. destruct (Nat.eqb_spec n k) as [->|Hn].
  - rewrite (total_ext k _ (fun _ => 0)), total_0; [ring|]. intros p Hp. destruct (Nat.eqb_spec p k); [lia|reflexivity].
  - rewrite IHn by lia. ring.
Qed.

Lemma total_nonneg_0 : forall n f, (forall p, (p < n)%nat -> 0 <= f p) -> total n f = 0 -> forall p, (p < n)%nat -> f p = 0.
Proof.
  induction n; intros f H H0 p Hp; [lia|]. cbn in H0.
  assert (0 <= total n f) by (apply total_nonneg; intros; apply H; lia). assert (0 <= f n) by (apply H; lia).
  destruct (Nat.eq_dec p n) as [->|]; [lra|]. apply IHn; [intros; apply H; lia|lra|lia].
Qed.

(* ------------------------------------------------------------------ Cauchy-Schwarz *)
Lemma total_le_term : forall n f p, (forall q, (q < n)%nat -> 0 <= f q) -> (p < n)%nat -> f p <= total n f.
Proof.
  intros n f p H Hp. replace (f p) with (total n (fun i => if Nat.eqb i p then f i else 0)) by (now apply total_delta).
  apply total_le. intros q Hq. destruct (Nat.eqb q p); [lra|now apply H].
Qed.

Lemma cauchy : forall n a b, total n (fun p => a p * b p) * total n (fun p => a p * b p) <= total n (fun p => a p * a p) * total n (fun p => b p * b p).
Proof.
  intros n a b.
  set (A := total n (fun p => a p * a p)). set (B := total n (fun p => b p * b p)). set (C := total n (fun p => a p * b p)).
  assert (HA : 0 <= A) by (apply total_nonneg; intros; apply Rle_0_sqr).
  assert (HP : forall t, 0 <= A * (t * t) + 2 * t * C + B).
  { intro t. assert (E : A * (t * t) + 2 * t * C + B = total n (fun p => (t * a p + b p) * (t * a p + b p))).
    { unfold A, B, C. rewrite (Rmult_comm (total _ _) (t * t)), <- !total_scal, <- !total_plus. apply total_ext. intros. ring. }
    rewrite E. apply total_nonneg. intros. apply Rle_0_sqr. }
  destruct (Req_dec A 0) as [E0|E0].
  - assert (HC : C = 0). { unfold C. rewrite (total_ext n _ (fun _ => 0)); [apply total_0|]. intros p Hp.
      assert (a p * a p = 0) by (apply (total_nonneg_0 n (fun p => a p * a p)); [intros; apply Rle_0_sqr|exact E0|exact Hp]). assert (E1 : a p = 0) by (destruct (Rmult_integral _ _ H); assumption). rewrite E1. ring. }
    rewrite HC, E0. lra.
  - assert (HA' : 0 < A) by lra. specialize (HP (- C / A)).
    assert (E : A * (- C / A * (- C / A)) + 2 * (- C / A) * C + B = B - C * C / A) by (field; lra).
    rewrite E in HP. assert (C * C / A * A = C * C) by (field; lra). nra.
Qed.

Lemma sqrt_bound : forall x y, x * x <= y -> x <= sqrt y.
Proof.
  intros x y H. destruct (Rle_dec x 0). { pose proof (sqrt_pos y). lra. }
  apply Rnot_le_lt in n. rewrite <- (sqrt_square x) by lra. apply sqrt_le_1; nra.
Qed.

(* ------------------------------------------------------------------ the subgradient of a length *)
(** with e = sqrt eps as one more coordinate *)
Lemma len_sub : forall n eps a b, 0 <= eps -> 
  let L x := sqrt (total n (fun p => x p * x p) + eps) in
  L a <> 0 -> L b >= L a + total n (fun p => a p / L a * (b p - a p)).
Proof.
  intros n eps a b He L HL.
  assert (HA : 0 <= total n (fun p => a p * a p)) by (apply total_nonneg; intros; apply Rle_0_sqr).
  assert (HB : 0 <= total n (fun p => b p * b p)) by (apply total_nonneg; intros; apply Rle_0_sqr).
  assert (HLa : L a * L a = total n (fun p => a p * a p) + eps) by (unfold L; apply sqrt_sqrt; lra).
  assert (HLb : L b * L b = total n (fun p => b p * b p) + eps) by (unfold L; apply sqrt_sqrt; lra).
  assert (P : 0 < L a) by (pose proof (sqrt_pos (total n (fun p => a p * a p) + eps)); unfold L in *; lra).
  assert (Pb : 0 <= L b) by apply sqrt_pos.
  set (C := total n (fun p => a p * b p)).
  assert (HC : C + eps <= L a * L b).
  { pose proof (cauchy n a b) as CS. fold C in CS. set (A := total n (fun p => a p * a p)) in *. set (B := total n (fun p => b p * b p)) in *.
    assert ((C + eps) * (C + eps) <= (L a * L b) * (L a * L b)).
    { replace ((L a * L b) * (L a * L b)) with ((L a * L a) * (L b * L b)) by ring. rewrite HLa, HLb.
      assert (2 * C <= A + B). { assert (0 <= total n (fun p => (a p - b p) * (a p - b p))) by (apply total_nonneg; intros; apply Rle_0_sqr).
        rewrite (total_ext n _ (fun p => (a p * a p + b p * b p) - 2 * (a p * b p))) in H by (intros; ring).
        rewrite total_minus, total_plus, total_scal in H. fold A B C in H. lra. }
      nra. }
    assert (0 <= L a * L b) by nra. destruct (Rle_dec (C + eps) 0); [lra|]. apply Rnot_le_lt in n0. nra. }
  rewrite (total_ext n _ (fun p => / L a * (a p * b p - a p * a p))) by (intros; field; lra).
  rewrite total_scal, total_minus. fold C.
  assert (E : / L a * (C - total n (fun p => a p * a p)) = (C + eps) / L a - L a).
  { replace (total n (fun p => a p * a p)) with (L a * L a - eps) by lra. field. lra. }
  rewrite E. assert ((C + eps) / L a <= L b). { apply Rmult_le_reg_r with (L a); [exact P|]. replace ((C + eps) / L a * L a) with (C + eps) by (field; lra). nra. }
  lra.
Qed.

(* ------------------------------------------------------------------ group lasso *)
Definition unit_ (eps : R) (n : nat) (G : groups) (w : nat -> R) (p : nat) : R :=
  if Req_EM_T (len eps n G (g_of G p) w) 0 then 0 else w p / len eps n G (g_of G p) w.

Definition cut (G : groups) (k : nat) (x : nat -> R) (p : nat) : R := if Nat.eqb (g_of G p) k then x p else 0.

Lemma len_sub_group : forall eps n G w v k, 0 <= eps ->
  len eps n G k v >= len eps n G k w + total n (fun p => if Nat.eqb (g_of G p) k then unit_ eps n G w p * (v p - w p) else 0).
Proof.
  intros eps n G w v k He.
  assert (E : forall x, len eps n G k x = sqrt (total n (fun p => cut G k x p * cut G k x p) + eps)).
  { intro x. unfold len, squares. f_equal. f_equal. apply total_ext. intros p Hp. unfold cut. destruct (Nat.eqb (g_of G p) k); ring. }
  destruct (Req_dec (len eps n G k w) 0) as [E0|E0].
  - rewrite (total_ext n _ (fun _ => 0)), total_0, E0; [unfold len; pose proof (sqrt_pos (squares n G k v + eps)); lra|].
    intros p Hp. destruct (Nat.eqb_spec (g_of G p) k) as [Ek|]; [|reflexivity]. unfold unit_. rewrite Ek. destruct (Req_EM_T _ _); [ring|contradiction].
  - pose proof (len_sub n eps (cut G k w) (cut G k v) He) as HL. cbv beta zeta in HL. rewrite <- (E w), <- (E v) in HL. specialize (HL E0).
    eapply Rge_trans; [exact HL|]. apply Req_ge. f_equal. apply total_ext. intros p Hp. unfold cut, unit_.
    destruct (Nat.eqb_spec (g_of G p) k) as [Ek|]; [|field; exact E0]. rewrite Ek. destruct (Req_EM_T _ _); [contradiction|reflexivity].
Qed.

Lemma lasso_sub : forall eps s n G w, 0 <= eps -> 0 <= s -> (forall p, (p < n)%nat -> (g_of G p < g_count G)%nat) ->
  subgradient n (lasso eps s n G) w (fun p => s * unit_ eps n G w p).
Proof.
  intros eps s n G w He Hs HG v. unfold lasso.
  assert (H : total (g_count G) (fun k => len eps n G k w + total n (fun p => if Nat.eqb (g_of G p) k then unit_ eps n G w p * (v p - w p) else 0))
              <= total (g_count G) (fun k => len eps n G k v)).
  { apply total_le. intros k Hk. apply Rge_le, len_sub_group, He. }
  rewrite total_plus, total_swap in H.
  rewrite (total_ext n (fun q => total (g_count G) _) (fun p => unit_ eps n G w p * (v p - w p))) in H.
  2:{ intros p Hp. rewrite (total_ext _ _ (fun k => if Nat.eqb k (g_of G p) then unit_ eps n G w p * (v p - w p) else 0)).
      - apply (total_delta _ _ (fun _ => unit_ eps n G w p * (v p - w p))). now apply HG.
      - intros k Hk. now rewrite Nat.eqb_sym. }
  rewrite (total_ext n (fun p => s * unit_ eps n G w p * (v p - w p)) (fun p => s * (unit_ eps n G w p * (v p - w p)))) by (intros; ring).
  rewrite total_scal. apply Rle_ge. nra.
Qed.

Lemma sub_plus : forall n f1 f2 w g1 g2, subgradient n f1 w g1 -> subgradient n f2 w g2 ->
  subgradient n (fun x => f1 x + f2 x) w (fun p => g1 p + g2 p).
Proof.
  intros n f1 f2 w g1 g2 H1 H2 v. specialize (H1 v). specialize (H2 v).
  rewrite (total_ext n _ (fun p => g1 p * (v p - w p) + g2 p * (v p - w p))) by (intros; ring). rewrite total_plus. lra.
Qed.

Fixpoint slopes (s : R) (n : nat) (L : list (R * groups)) (w : nat -> R) (p : nat) : R :=
  match L with [] => 0 | (eps, G) :: t => s * unit_ eps n G w p + slopes s n t w p end.

Definition wf (n : nat) (L : list (R * groups)) : Prop :=
  forall eps G, In (eps, G) L -> 0 <= eps /\ (forall p, (p < n)%nat -> (g_of G p < g_count G)%nat).

Lemma penalty_sub : forall s n L w, 0 <= s -> wf n L -> subgradient n (penalty s n L) w (slopes s n L w).
Proof.
  intros s n L w Hs. induction L as [|(eps, G) t IH]; intro H; cbn.
  - intro v. rewrite (total_ext n _ (fun _ => 0)), total_0; [lra|]. intros; ring.
  - apply (sub_plus n (lasso eps s n G) (penalty s n t) w).
    + apply lasso_sub; [..|apply (H eps G); now left]; [apply (H eps G); now left|exact Hs].
    + apply IH. intros e' G' HI. apply H. now right.
Qed.

(* the derivative with respect to one weight *)
Lemma squares_put : forall n G k w p x, (p < n)%nat ->
  squares n G k (put w p x) = squares n G k w + (if Nat.eqb (g_of G p) k then x * x - w p * w p else 0).
Proof.
  intros n G k w p x Hp. unfold squares.
  rewrite (total_ext n _ (fun q => (if Nat.eqb (g_of G q) k then w q * w q else 0) + (if Nat.eqb q p then (if Nat.eqb (g_of G q) k then x * x - w p * w p else 0) else 0))).
  - rewrite total_plus, total_delta by exact Hp. reflexivity.
  - intros q Hq. unfold put. destruct (Nat.eqb_spec q p) as [->|]; destruct (Nat.eqb (g_of G _) k); ring.
Qed.

Lemma squares_nonneg : forall n G k w, 0 <= squares n G k w.
Proof. intros. apply total_nonneg. intros p Hp. destruct (Nat.eqb _ _); [apply Rle_0_sqr|lra]. Qed.

Lemma lim_ext : forall f g x d, (forall y, f y = g y) -> derivable_pt_lim f x d -> derivable_pt_lim g x d.
Proof. intros f g x d E H e He. destruct (H e He) as [dl Hd]. exists dl. intros h H0 H1. rewrite <- !E. now apply Hd. Qed.

Lemma len_partial : forall eps n G w p k, 0 <= eps -> (p < n)%nat -> len eps n G (g_of G p) w <> 0 ->
  partial (len eps n G k) w p (if Nat.eqb (g_of G p) k then w p / len eps n G k w else 0).
Proof.
  intros eps n G w p k He Hp HL. unfold partial.
  destruct (Nat.eqb_spec (g_of G p) k) as [Ek|Ek].
  - rewrite Ek in HL. assert (P : 0 < squares n G k w + eps).
    { pose proof (squares_nonneg n G k w). destruct (Req_dec (squares n G k w + eps) 0) as [E|]; [|lra]. exfalso. apply HL. unfold len. rewrite E. apply sqrt_0. }
    apply (lim_ext (comp sqrt (fun x => (squares n G k w + eps - w p * w p) + x * x))).
    { intro y. unfold comp, len. rewrite squares_put by exact Hp. rewrite Ek, Nat.eqb_refl. f_equal. ring. }
    replace (w p / len eps n G k w) with (/ (2 * sqrt (squares n G k w + eps)) * (0 + (1 * w p + w p * 1))) by (unfold len in *; field; exact HL).
    apply derivable_pt_lim_comp.
    + apply (derivable_pt_lim_plus (fun _ => squares n G k w + eps - w p * w p) (fun x => x * x)); [apply derivable_pt_lim_const|].
      apply (derivable_pt_lim_mult (fun x => x) (fun x => x)); apply derivable_pt_lim_id.
    + replace (squares n G k w + eps - w p * w p + w p * w p) with (squares n G k w + eps) by ring. now apply derivable_pt_lim_sqrt.
  - apply (lim_ext (fun _ => len eps n G k w)).
    + intro y. unfold len. rewrite squares_put by exact Hp. destruct (Nat.eqb_spec (g_of G p) k); [contradiction|]. now rewrite Rplus_0_r.
    + apply derivable_pt_lim_const.
Qed.

Lemma partial_total : forall m (F : nat -> (nat -> R) -> R) w p (D : nat -> R), (forall k, (k < m)%nat -> partial (F k) w p (D k)) ->
  partial (fun x => total m (fun k => F k x)) w p (total m D).
Proof.
  induction m; intros F w p D H; unfold partial in *; cbn.
  - apply derivable_pt_lim_const.
  - apply (derivable_pt_lim_plus (fun x => total m (fun k => F k (put w p x))) (fun x => F m (put w p x))).
    + apply IHm. intros. apply H. lia.
    + apply H. lia.
Qed.

Lemma lasso_partial : forall eps s n G w p, 0 <= eps -> (p < n)%nat -> (g_of G p < g_count G)%nat -> len eps n G (g_of G p) w <> 0 ->
  partial (lasso eps s n G) w p (s * (w p / len eps n G (g_of G p) w)).
Proof.
  intros eps s n G w p He Hp HG HL. unfold partial, lasso.
  apply (derivable_pt_lim_scal (fun x => total (g_count G) (fun k => len eps n G k (put w p x)))).
  pose proof (partial_total (g_count G) (fun k => len eps n G k) w p _ (fun k _ => len_partial eps n G w p k He Hp HL)) as H. unfold partial in H. cbv beta in H.
  rewrite (total_ext _ _ (fun k => if Nat.eqb k (g_of G p) then w p / len eps n G k w else 0)) in H by (intros; now rewrite Nat.eqb_sym).
  rewrite (total_delta _ _ (fun k => w p / len eps n G k w)) in H by exact HG. exact H.
Qed.

Lemma penalty_partial : forall s n L w p, wf n L -> (p < n)%nat -> (forall eps G, In (eps, G) L -> len eps n G (g_of G p) w <> 0) ->
  partial (penalty s n L) w p (slopes s n L w p).
Proof.
  intros s n L w p. induction L as [|(eps, G) t IH]; intros H Hp HN; unfold partial in *; cbn.
  - apply derivable_pt_lim_const.
  - apply (derivable_pt_lim_plus (fun x => lasso eps s n G (put w p x)) (fun x => penalty s n t (put w p x))).
    + destruct (H eps G) as [He HG]; [now left|]. assert (HL := HN eps G (or_introl eq_refl)).
      unfold unit_. destruct (Req_EM_T _ _); [contradiction|]. apply (lasso_partial eps s n G w p He Hp (HG p Hp) HL).
    + apply IH; [intros e' G' HI; apply H; now right|exact Hp|intros; apply HN; now right].
Qed.

(* the l1 loss *)
Lemma abs_sub : forall x y, Rabs y >= Rabs x + sgn x * (y - x).
Proof.
  intros x y. unfold sgn. destruct (Rlt_dec 0 x).
  - rewrite (Rabs_right x) by lra. pose proof (Rle_abs y). lra.
  - destruct (Rlt_dec x 0).
    + rewrite (Rabs_left x) by lra. pose proof (Rle_abs (- y)). rewrite Rabs_Ropp in H. lra.
    + assert (x = 0) by lra. subst. rewrite Rabs_R0. pose proof (Rabs_pos y). lra.
Qed.

Lemma l1_sub : forall s n w, 0 <= s -> subgradient n (l1 s n) w (fun p => s * sgn (w p)).
Proof.
  intros s n w Hs v. unfold l1.
  assert (H : total n (fun p => Rabs (w p) + sgn (w p) * (v p - w p)) <= total n (fun p => Rabs (v p))).
  { apply total_le. intros. apply Rge_le, abs_sub. }
  rewrite total_plus in H. rewrite (total_ext n (fun p => s * sgn (w p) * (v p - w p)) (fun p => s * (sgn (w p) * (v p - w p)))) by (intros; ring).
  rewrite total_scal. apply Rle_ge. nra.
Qed.

Lemma l1_put : forall s n w p x, (p < n)%nat -> l1 s n (put w p x) = l1 s n w + s * (Rabs x - Rabs (w p)).
Proof.
  intros s n w p x Hp. unfold l1.
  rewrite (total_ext n _ (fun q => Rabs (w q) + (if Nat.eqb q p then Rabs x - Rabs (w p) else 0))).
  - rewrite total_plus, (total_delta n p (fun _ => Rabs x - Rabs (w p))) by exact Hp. ring.
  - intros q Hq. unfold put. destruct (Nat.eqb_spec q p) as [->|]; ring.
Qed.

Lemma l1_partial : forall s n w p, (p < n)%nat -> w p <> 0 -> partial (l1 s n) w p (s * sgn (w p)).
Proof.
  intros s n w p Hp Hw. unfold partial.
  apply (lim_ext (fun x => (l1 s n w - s * Rabs (w p)) + s * Rabs x)). { intro y. rewrite l1_put by exact Hp. ring. }
  replace (s * sgn (w p)) with (0 + s * sgn (w p)) by ring.
  apply (derivable_pt_lim_plus (fun _ => l1 s n w - s * Rabs (w p)) (fun x => s * Rabs x)); [apply derivable_pt_lim_const|].
  apply (derivable_pt_lim_scal Rabs). unfold sgn. destruct (Rlt_dec 0 (w p)); [now apply Rabs_derive_1|].
  destruct (Rlt_dec (w p) 0); [now apply Rabs_derive_2|lra].
Qed.

(* ------------------------------------------------------------------ the model's values and gradients *)
Lemma div_grid : forall i j c, (j < c)%nat -> ((i * c + j) / c = i)%nat.
Proof. intros. rewrite Nat.div_add_l by lia. rewrite Nat.div_small by assumption. lia. Qed.
Lemma mod_grid : forall i j c, (j < c)%nat -> ((i * c + j) mod c = j)%nat.
Proof. intros. rewrite Nat.add_comm, Nat.mod_add by lia. now apply Nat.mod_small. Qed.

Lemma squares_rows : forall r c k w, (k < r)%nat -> squares (r * c) (rows c r) k w = total c (fun j => w (k * c + j)%nat * w (k * c + j)%nat).
Proof.
  intros r c k w Hk. unfold squares. rewrite total_grid.
  rewrite (total_ext r _ (fun i => if Nat.eqb i k then total c (fun j => w (i * c + j)%nat * w (i * c + j)%nat) else 0)).
  - now rewrite (total_delta r k (fun i => total c (fun j => w (i * c + j)%nat * w (i * c + j)%nat))) by exact Hk.
  - intros i Hi. destruct (Nat.eqb_spec i k) as [E|E].
    + apply total_ext. intros j Hj. cbn. rewrite div_grid by exact Hj. destruct (Nat.eqb_spec i k); [reflexivity|contradiction].
    + rewrite (total_ext c _ (fun _ => 0)), total_0; [reflexivity|]. intros j Hj. cbn. rewrite div_grid by exact Hj. destruct (Nat.eqb_spec i k); [contradiction|reflexivity].
Qed.

Lemma squares_cols : forall r c k w, (k < c)%nat -> squares (r * c) (cols c) k w = total r (fun i => w (i * c + k)%nat * w (i * c + k)%nat).
Proof.
  intros r c k w Hk. unfold squares. rewrite total_grid. apply total_ext. intros i Hi.
  rewrite (total_ext c _ (fun j => if Nat.eqb j k then w (i * c + j)%nat * w (i * c + j)%nat else 0)).
  - now rewrite (total_delta c k (fun j => w (i * c + j)%nat * w (i * c + j)%nat)) by exact Hk.
  - intros j Hj. cbn. now rewrite mod_grid.
Qed.

Lemma squares_channels : forall f c a b k w, (k < c)%nat -> squares (f * c * (a * b)) (channels f c a b) k w
  = total f (fun i => total (a * b) (fun j => w ((i * c + k) * (a * b) + j)%nat * w ((i * c + k) * (a * b) + j)%nat)).
Proof.
  intros f c a b k w Hk. unfold squares. rewrite total_grid, total_grid. apply total_ext. intros i Hi.
  rewrite (total_ext c _ (fun m => if Nat.eqb m k then total (a * b) (fun j => w ((i * c + m) * (a * b) + j)%nat * w ((i * c + m) * (a * b) + j)%nat) else 0)).
  - now rewrite (total_delta c k (fun m => total (a * b) (fun j => w ((i * c + m) * (a * b) + j)%nat * w ((i * c + m) * (a * b) + j)%nat))) by exact Hk.
  - intros m Hm. destruct (Nat.eqb_spec m k) as [E|E].
    + apply total_ext. intros j Hj. cbn [g_of channels]. rewrite div_grid, mod_grid by assumption. destruct (Nat.eqb_spec m k); [reflexivity|contradiction].
    + rewrite (total_ext _ _ (fun _ => 0)), total_0; [reflexivity|]. intros j Hj. cbn [g_of channels]. rewrite div_grid, mod_grid by assumption. destruct (Nat.eqb_spec m k); [contradiction|reflexivity].
Qed.

(** what a term of the loss must satisfy *)
Definition term_ok (s : R) (n : nat) (L : list (R * groups)) (w : nat -> R) (t : tns) : Prop :=
  at_ t 0%nat = penalty s n L w /\ (forall p, (p < n)%nat -> gradient t p = slopes s n L w p).

Lemma grad_unit : forall x L s, norm_grad x L (1 * s) = s * (if Req_EM_T L 0 then 0 else x / L).
Proof. intros. unfold norm_grad. destruct (Req_EM_T L 0); [ring|field; assumption]. Qed.

Lemma div_lt_grid : forall p r c, (p < r * c)%nat -> (p / c < r)%nat.
Proof. intros p r c H. destruct c; [lia|]. apply Nat.div_lt_upper_bound; lia. Qed.

Lemma rows_ok : forall r c s w, term_ok s (r * c) [(0, rows c r)] w (mulc s (sum_all (norm_dim1 r c (leaf (r * c) w)))).
Proof.
  intros r c s w.
  assert (E : forall i, (i < r)%nat -> sqrt (sumn c (fun j => sq (w (i * c + j)%nat))) = len 0 (r * c) (rows c r) i w).
  { intros i Hi. unfold len. rewrite Rplus_0_r, squares_rows, sumn_total by exact Hi. reflexivity. }
  split.
  - cbn. rewrite sumn_total. unfold lasso. cbn. rewrite (total_ext r _ _ E). ring.
  - intros p Hp. cbn. rewrite E by (apply div_lt_grid; exact Hp). rewrite grad_unit. unfold unit_. cbn. ring.
Qed.

Lemma cols_ok : forall r c s w, (0 < c)%nat -> term_ok s (r * c) [(0, cols c)] w (mulc s (sum_all (norm_dim0 r c (leaf (r * c) w)))).
Proof.
  intros r c s w Hc.
  assert (E : forall i, (i < c)%nat -> sqrt (sumn r (fun j => sq (w (j * c + i)%nat))) = len 0 (r * c) (cols c) i w).
  { intros i Hi. unfold len. rewrite Rplus_0_r, squares_cols, sumn_total by exact Hi. reflexivity. }
  split.
  - cbn [at_ mulc pointwise sum_all norm_dim0 num leaf penalty]. rewrite sumn_total. unfold lasso. cbn [g_count cols]. rewrite (total_ext c _ _ E). ring.
  - intros p Hp. cbn [gradient bk at_ mulc pointwise sum_all norm_dim0 num leaf slopes]. unfold gradient. cbn [gradient bk at_ mulc pointwise sum_all norm_dim0 num leaf slopes].
    rewrite E by (apply Nat.mod_upper_bound; lia). rewrite grad_unit. unfold unit_. cbn [g_of cols]. ring.
Qed.

Lemma layer_ok : forall n s w, term_ok s n [(0, layer)] w (mulc s (norm_all (leaf n w))).
Proof.
  intros n s w.
  assert (E : sqrt (sumn n (fun p => sq (w p))) = len 0 n layer 0 w).
  { unfold len, squares. rewrite Rplus_0_r, sumn_total. reflexivity. }
  split.
  - cbn. unfold lasso. cbn. rewrite E. ring.
  - intros p Hp. cbn. rewrite E, grad_unit. unfold unit_. cbn. ring.
Qed.

Lemma eps_pos : 0 < epsilon. Proof. unfold epsilon. lra. Qed.

Lemma channels_ok : forall f c a b s w, (0 < f)%nat -> (0 < c)%nat -> term_ok s (f * c * (a * b)) [(epsilon, channels f c a b)] w (mulc s (sum_all (channels_l2 f c a b (leaf (f * c * (a * b)) w)))).
Proof.
  intros f c a b s w Hf Hc.
  assert (E : forall k, (k < c)%nat -> sumn f (fun i => sumn (a * b) (fun j => w (((k * f + i) mod f * c + (k * f + i) / f) * (a * b) + j)%nat * w (((k * f + i) mod f * c + (k * f + i) / f) * (a * b) + j)%nat)) + epsilon
     = squares (f * c * (a * b)) (channels f c a b) k w + epsilon).
  { intros k Hk. rewrite squares_channels, sumn_total by exact Hk. f_equal. apply total_ext. intros i Hi. rewrite sumn_total, mod_grid, div_grid by exact Hi. reflexivity. }
  split.
  - cbn [at_ mulc pointwise sum_all channels_l2 powhalf addc sum_dim1 transp pow2 num leaf penalty]. rewrite sumn_total. unfold lasso. cbn [g_count channels]. unfold len.
    rewrite (total_ext c _ (fun k => sqrt (squares (f * c * (a * b)) (channels f c a b) k w + epsilon))); [ring|]. intros k Hk. rewrite E by exact Hk. reflexivity.
  - intros p Hp. unfold gradient. cbn [bk at_ mulc pointwise sum_all channels_l2 powhalf addc sum_dim1 transp pow2 num leaf slopes].
    assert (Hq : ((p / (a * b)) / c < f)%nat) by (apply div_lt_grid, div_lt_grid; exact Hp).
    rewrite (div_grid ((p / (a * b)) mod c) ((p / (a * b)) / c) f Hq).
    rewrite E by (apply Nat.mod_upper_bound; lia). unfold unit_, len. cbn [g_of channels].
    set (k := ((p / (a * b)) mod c)%nat). pose proof (squares_nonneg (f * c * (a * b)) (channels f c a b) k w) as HS. pose proof eps_pos.
    assert (HP : 0 < sqrt (squares (f * c * (a * b)) (channels f c a b) k w + epsilon)) by (apply sqrt_lt_R0; lra).
    destruct (Req_EM_T _ 0); [lra|]. field. lra.
Qed.

Lemma filters_rows : forall f c a b, filters f c a b = rows (c * a * b) f. Proof. reflexivity. Qed.
Lemma kernels_rows : forall f c a b, kernels f c a b = rows (a * b) (f * c). Proof. reflexivity. Qed.

Lemma plus_ok : forall s n L v w t, term_ok s n L w t -> 
  at_ (plus_ (const v) t) 0%nat = v + penalty s n L w /\ (forall p, (p < n)%nat -> gradient (plus_ (const v) t) p = slopes s n L w p).
Proof. intros s n L v w t [H1 H2]. split; [cbn; now rewrite H1|]. intros p Hp. unfold gradient in *. cbn. rewrite H2 by exact Hp. ring. Qed.

Lemma structures_wf : forall ty shape L, Forall (fun d => (0 < d)%nat) shape -> structures epsilon ty shape = Some L -> wf (size shape) L.
Proof.
  assert (HW : forall n eps G, 0 <= eps -> (forall p, (p < n)%nat -> (g_of G p < g_count G)%nat) -> forall eps' G', (eps, G) = (eps', G') -> 0 <= eps' /\ (forall p, (p < n)%nat -> (g_of G' p < g_count G')%nat)).
  { intros n eps G H1 H2 e' G' E. injection E as <- <-. now split. }
  intros ty shape L HF H. unfold structures in H. pose proof eps_pos.
  destruct shape as [|d0 [|d1 [|d2 [|d3 [|]]]]]; try discriminate H.
  - inversion HF as [|? ? P0 HF1]; subst. inversion HF1 as [|? ? P1 _]; subst.
    assert (HR : forall p, (p < size [d0; d1])%nat -> (g_of (rows d1 d0) p < g_count (rows d1 d0))%nat). { intros p Hp. cbn in *. rewrite Nat.mul_1_r in Hp. now apply div_lt_grid. }
    assert (HC : forall p, (p < size [d0; d1])%nat -> (g_of (cols d1) p < g_count (cols d1))%nat). { intros. cbn. apply Nat.mod_upper_bound. lia. }
    destruct (String.eqb ty "Rows"); [injection H as <-|destruct (String.eqb ty "Cols"); [injection H as <-|destruct (_ || _); [injection H as <-|discriminate H]]];
      intros e G HI; cbn in HI; repeat (destruct HI as [HI|HI]; [revert HI; apply HW; [lra|assumption]|]); contradiction.
  - inversion HF as [|? ? P0 HF1]; subst. inversion HF1 as [|? ? P1 HF2]; subst. inversion HF2 as [|? ? P2 HF3]; subst. inversion HF3 as [|? ? P3 _]; subst.
    assert (E : forall p, (p < size [d0; d1; d2; d3])%nat -> (p < d0 * (d1 * d2 * d3))%nat /\ (p < d0 * d1 * (d2 * d3))%nat). { intros p Hp. cbn in Hp. split; nia. }
    destruct (String.eqb ty "2D"); [injection H as <-|destruct (_ || _); [injection H as <-|destruct (String.eqb ty "Channels"); [injection H as <-|destruct (String.eqb ty "4D"); [injection H as <-|discriminate H]]]];
      intros e G [HI|[]]; revert HI; apply HW; try lra; intros p Hp; destruct (E p Hp); cbn.
    + now apply div_lt_grid.
    + now apply div_lt_grid.
    + apply Nat.mod_upper_bound. lia.
    + lia.
Qed.

Lemma group_ok : forall s ty shape v w L, Forall (fun d => (0 < d)%nat) shape -> structures epsilon ty shape = Some L ->
  exists t, group_loss (Some (s, ty)) shape (leaf (size shape) w) (const v) = Ok t
    /\ at_ t 0%nat = v + penalty s (size shape) L w /\ (forall p, (p < size shape)%nat -> gradient t p = slopes s (size shape) L w p).
Proof.
  intros s ty shape v w L HF H. unfold structures in H.
  destruct shape as [|d0 [|d1 [|d2 [|d3 [|]]]]]; try discriminate H.
  - inversion HF as [|? ? P0 HF1]; subst. inversion HF1 as [|? ? P1 _]; subst.
    assert (En : size [d0; d1] = (d0 * d1)%nat) by (cbn; lia). rewrite En.
    destruct (String.eqb_spec ty "Rows") as [->|N1].
    { injection H as <-. eexists. split; [reflexivity|]. apply plus_ok, rows_ok. }
    destruct (String.eqb_spec ty "Cols") as [->|N2].
    { injection H as <-. eexists. split; [reflexivity|]. apply plus_ok, cols_ok, P1. }
    assert (HRC : exists t, (do x <- rowwise [d0; d1] (leaf (d0 * d1) w) s; do y <- colwise [d0; d1] (leaf (d0 * d1) w) s; Ok (plus_ (plus_ (const v) x) y)) = Ok t
       /\ at_ t 0%nat = v + penalty s (d0 * d1) [(0, rows d1 d0); (0, cols d1)] w /\ (forall p, (p < d0 * d1)%nat -> gradient t p = slopes s (d0 * d1) [(0, rows d1 d0); (0, cols d1)] w p)).
    { eexists. split; [reflexivity|]. destruct (rows_ok d0 d1 s w) as [A1 A2]. destruct (cols_ok d0 d1 s w P1) as [B1 B2]. split.
      - cbn [at_ plus_ const]. cbn [penalty] in A1, B1 |- *. rewrite A1, B1. ring.
      - intros p Hp. specialize (A2 p Hp). specialize (B2 p Hp). unfold gradient in *. cbn [bk plus_ const]. rewrite A2, B2. cbn [slopes]. ring. }
    destruct (String.eqb_spec ty "Rows+Cols") as [->|N3]; [injection H as <-; exact HRC|].
    destruct (String.eqb_spec ty "Cols+Rows") as [->|N4]; [injection H as <-; exact HRC|discriminate H].
  - inversion HF as [|? ? P0 HF1]; subst. inversion HF1 as [|? ? P1 HF2]; subst. inversion HF2 as [|? ? P2 HF3]; subst. inversion HF3 as [|? ? P3 _]; subst.
    assert (EK : size [d0; d1; d2; d3] = (d0 * d1 * (d2 * d3))%nat) by (cbn; ring).
    assert (EF : size [d0; d1; d2; d3] = (d0 * (d1 * d2 * d3))%nat) by (cbn; ring).
    destruct (String.eqb_spec ty "2D") as [->|N1].
    { injection H as <-. rewrite EK. eexists. split; [reflexivity|]. apply plus_ok. rewrite kernels_rows. apply rows_ok. }
    destruct (String.eqb_spec ty "Filters") as [->|N2].
    { injection H as <-. rewrite EF. eexists. split; [reflexivity|]. apply plus_ok. rewrite filters_rows. apply rows_ok. }
    destruct (String.eqb_spec ty "3D") as [->|N3].
    { injection H as <-. rewrite EF. eexists. split; [reflexivity|]. apply plus_ok. rewrite filters_rows. apply rows_ok. }
    cbn [orb] in H. destruct (String.eqb_spec ty "Channels") as [->|N4].
    { injection H as <-. rewrite EK. eexists. split; [reflexivity|]. apply plus_ok, channels_ok; assumption. }
    destruct (String.eqb_spec ty "4D") as [->|N5]; [|discriminate H].
    injection H as <-. eexists. split; [reflexivity|]. apply plus_ok, layer_ok.
Qed.

Lemma group_refused : forall s ty shape w v, structures epsilon ty shape = None -> exists e, group_loss (Some (s, ty)) shape w v = Raise e.
Proof.
  intros s ty shape w v H. unfold group_loss, in_. cbn [existsb]. unfold structures in H.
  repeat match goal with |- context [String.eqb ty ?k] => destruct (String.eqb_spec ty k) as [->|?]; cbn [orb] in *; cbn [String.eqb Ascii.eqb Bool.eqb orb] in H end.
  all: try (eexists; reflexivity).
  all: destruct shape as [|d0 [|d1 [|d2 [|d3 [|]]]]]; try discriminate H; eexists; reflexivity.
Qed.

(* ------------------------------------------------------------------ a step *)
Lemma squares_scaled : forall n G k w w' a, (forall p, (p < n)%nat -> g_of G p = k -> w' p = a * w p) -> squares n G k w' = a * a * squares n G k w.
Proof.
  intros n G k w w' a H. unfold squares. rewrite <- total_scal. apply total_ext. intros p Hp. destruct (Nat.eqb_spec (g_of G p) k); [|ring]. rewrite (H p Hp e). ring.
Qed.

Lemma squares_zero : forall n G k w, squares n G k w = 0 -> forall p, (p < n)%nat -> g_of G p = k -> w p = 0.
Proof.
  intros n G k w H p Hp E. pose proof (total_nonneg_0 n (fun q => if Nat.eqb (g_of G q) k then w q * w q else 0)) as HZ.
  assert (HZ' := HZ (fun q _ => ltac:(cbv beta; destruct (Nat.eqb (g_of G q) k); [apply Rle_0_sqr|lra])) H p Hp). cbv beta in HZ'.
  rewrite E, Nat.eqb_refl in HZ'. destruct (Rmult_integral _ _ HZ'); assumption.
Qed.
