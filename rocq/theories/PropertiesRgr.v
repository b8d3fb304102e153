(** C105: the gradients of the regularization losses. *)
From Coq Require Import String List Reals Arith Bool Lia Lra.
From Verif Require Import Base RgrModel RgrSpec RgrProofs.
Import ListNotations.
Local Open Scope string_scope.
Open Scope list_scope.
Open Scope R_scope.

Definition positive (shape : list nat) : Prop := Forall (fun d => (0 < d)%nat) shape.

(** The value: what was there plus the strength times the sum of the lengths of the structures. *)
Theorem C105_group_value : forall s ty shape v w L, positive shape -> structures epsilon ty shape = Some L ->
  exists t, group_loss (Some (s, ty)) shape (leaf (size shape) w) (const v) = Ok t /\ at_ t 0%nat = v + penalty s (size shape) L w.
Proof. intros s ty shape v w L HP H. destruct (group_ok s ty shape v w L HP H) as (t & A & B & _). now exists t. Qed.

(** The gradient is a subgradient of that value everywhere, also where a structure is all zero. *)
Theorem C105_group_subgradient : forall s ty shape v w L t, positive shape -> 0 <= s -> structures epsilon ty shape = Some L ->
  group_loss (Some (s, ty)) shape (leaf (size shape) w) (const v) = Ok t -> subgradient (size shape) (penalty s (size shape) L) w (gradient t).
Proof.
  intros s ty shape v w L t HP Hs HL Ht. destruct (group_ok s ty shape v w L HP HL) as (t' & A & _ & B). rewrite A in Ht. injection Ht as ->.
  intro u. pose proof (penalty_sub s (size shape) L w Hs (structures_wf ty shape L HP HL) u) as H.
  rewrite (total_ext _ (fun p => gradient t p * (u p - w p)) (fun p => slopes s (size shape) L w p * (u p - w p))); [exact H|]. intros p Hp. now rewrite B.
Qed.

(** Where every structure of a weight is non-zero, it is the derivative. *)
Theorem C105_group_derivative : forall s ty shape v w L t p, positive shape -> structures epsilon ty shape = Some L ->
  group_loss (Some (s, ty)) shape (leaf (size shape) w) (const v) = Ok t -> (p < size shape)%nat ->
  (forall eps G, In (eps, G) L -> len eps (size shape) G (g_of G p) w <> 0) ->
  partial (penalty s (size shape) L) w p (gradient t p).
Proof.
  intros s ty shape v w L t p HP HL Ht Hp HN. destruct (group_ok s ty shape v w L HP HL) as (t' & A & _ & B). rewrite A in Ht. injection Ht as ->.
  rewrite B by exact Hp. apply penalty_partial; [now apply (structures_wf ty)|exact Hp|exact HN].
Qed.

(** The channels' constant makes their loss differentiable everywhere. *)
Theorem C105_channels_smooth : forall s f c h k v w t p, positive [f; c; h; k] ->
  group_loss (Some (s, "Channels")) [f; c; h; k] (leaf (size [f; c; h; k]) w) (const v) = Ok t -> (p < size [f; c; h; k])%nat ->
  partial (lasso epsilon s (size [f; c; h; k]) (channels f c h k)) w p (gradient t p).
Proof.
  intros s f c h k v w t p HP Ht Hp.
  assert (H := C105_group_derivative s "Channels" [f; c; h; k] v w [(epsilon, channels f c h k)] t p HP eq_refl Ht Hp).
  assert (HD : partial (penalty s (size [f; c; h; k]) [(epsilon, channels f c h k)]) w p (gradient t p)).
  { apply H. intros eps G [E|[]]. injection E as <- <-. unfold len. pose proof (squares_nonneg (size [f; c; h; k]) (channels f c h k) (g_of (channels f c h k) p) w). pose proof eps_pos.
    assert (0 < sqrt (squares (size [f; c; h; k]) (channels f c h k) (g_of (channels f c h k) p) w + epsilon)) by (apply sqrt_lt_R0; lra). lra. }
  unfold partial in *. apply (lim_ext _ (fun x => lasso epsilon s (size [f; c; h; k]) (channels f c h k) (put w p x))) in HD; [exact HD|]. intro y. cbn [penalty]. ring.
Qed.

(** A weight that is zero gets no gradient, so a pruned structure stays pruned. *)
Theorem C105_zero_stays : forall s ty shape v w L t p, positive shape -> structures epsilon ty shape = Some L ->
  group_loss (Some (s, ty)) shape (leaf (size shape) w) (const v) = Ok t -> (p < size shape)%nat -> w p = 0 -> gradient t p = 0.
Proof.
  intros s ty shape v w L t p HP HL Ht Hp H0. destruct (group_ok s ty shape v w L HP HL) as (t' & A & _ & B). rewrite A in Ht. injection Ht as ->.
  rewrite B by exact Hp. clear - H0. generalize (size shape). intro n. induction L as [|(eps, G) L IH]; cbn [slopes]; [reflexivity|]. rewrite IH. unfold unit_. rewrite H0. destruct (Req_EM_T _ _); [ring|]. field. assumption.
Qed.

(** A step of SGD on this loss alone multiplies every weight of a structure by 1 - eta s / length. *)
Theorem C105_step : forall s ty shape v w eps G t eta p, positive shape -> structures epsilon ty shape = Some [(eps, G)] ->
  group_loss (Some (s, ty)) shape (leaf (size shape) w) (const v) = Ok t -> (p < size shape)%nat -> len eps (size shape) G (g_of G p) w <> 0 ->
  sgd eta w (gradient t) p = (1 - eta * s / len eps (size shape) G (g_of G p) w) * w p.
Proof.
  intros s ty shape v w eps G t eta p HP HL Ht Hp HN. destruct (group_ok s ty shape v w _ HP HL) as (t' & A & _ & B). rewrite A in Ht. injection Ht as ->.
  unfold sgd. rewrite B by exact Hp. cbn [slopes]. unfold unit_. destruct (Req_EM_T _ _); [contradiction|]. field. exact HN.
Qed.

(** so its length changes by exactly eta s, *)
Theorem C105_step_length : forall s ty shape v w G t eta k, positive shape -> structures epsilon ty shape = Some [(0, G)] ->
  group_loss (Some (s, ty)) shape (leaf (size shape) w) (const v) = Ok t -> len 0 (size shape) G k w <> 0 ->
  len 0 (size shape) G k (sgd eta w (gradient t)) = Rabs (len 0 (size shape) G k w - eta * s).
Proof.
  intros s ty shape v w G t eta k HP HL Ht HN.
  set (l := len 0 (size shape) G k w) in *.
  assert (Hl : 0 <= l) by apply sqrt_pos. assert (HS : l * l = squares (size shape) G k w).
  { unfold l, len. rewrite Rplus_0_r. apply sqrt_sqrt, squares_nonneg. }
  assert (HE : squares (size shape) G k (sgd eta w (gradient t)) = (l - eta * s) * (l - eta * s)).
  { rewrite (squares_scaled _ G k w _ (1 - eta * s / l)).
    - rewrite <- HS. field. exact HN.
    - intros p Hp E. rewrite (C105_step s ty shape v w 0 G t eta p HP HL Ht Hp); rewrite E; [reflexivity|exact HN]. }
  unfold len at 1. rewrite Rplus_0_r, HE. apply sqrt_Rsqr_abs.
Qed.

(** and steps on the regularizer alone reach zero only from a length of exactly eta s. *)
Theorem C105_exact_zero : forall s ty shape v w G t eta k, positive shape -> structures epsilon ty shape = Some [(0, G)] ->
  group_loss (Some (s, ty)) shape (leaf (size shape) w) (const v) = Ok t -> len 0 (size shape) G k w <> 0 ->
  ((forall p, (p < size shape)%nat -> g_of G p = k -> sgd eta w (gradient t) p = 0) <-> len 0 (size shape) G k w = eta * s).
Proof.
  intros s ty shape v w G t eta k HP HL Ht HN. pose proof (C105_step_length s ty shape v w G t eta k HP HL Ht HN) as HE. split.
  - intro HZ. assert (E : len 0 (size shape) G k (sgd eta w (gradient t)) = 0).
    { unfold len. rewrite Rplus_0_r. unfold squares. rewrite (total_ext _ _ (fun _ => 0)), total_0; [apply sqrt_0|].
      intros p Hp. destruct (Nat.eqb_spec (g_of G p) k); [|reflexivity]. rewrite HZ by assumption. ring. }
    rewrite E in HE. destruct (Req_dec (len 0 (size shape) G k w - eta * s) 0); [lra|]. pose proof (Rabs_pos_lt _ H). lra.
  - intros E p Hp Eg. rewrite E in HE. replace (eta * s - eta * s) with 0 in HE by ring. rewrite Rabs_R0 in HE.
    apply (squares_zero (size shape) G k); [|exact Hp|exact Eg]. unfold len in HE. rewrite Rplus_0_r in HE. apply sqrt_eq_0; [apply squares_nonneg|exact HE].
Qed.

(** Types that do not fit the parameter are refused; the combination of channels and layer always fails. *)
Theorem C105_refused : forall s ty shape v w, structures epsilon ty shape = None ->
  exists e, group_loss (Some (s, ty)) shape (leaf (size shape) w) (const v) = Raise e.
Proof. intros. now apply group_refused. Qed.

Theorem C105_combined_refuted : forall s shape v w, group_loss (Some (s, "Channels+4D")) shape w v = Raise AttributeError /\ group_loss (Some (s, "4D+Channels")) shape w v = Raise AttributeError.
Proof. intros. split; reflexivity. Qed.

(** A parameter that is not listed contributes nothing. *)
Theorem C105_unlisted : forall shape n w v, group_loss None shape (leaf n w) (const v) = Ok (const v) /\ l1_loss None (leaf n w) (const v) = const v
  /\ forall p, gradient (const v) p = 0.
Proof. intros. repeat split. Qed.

(** L1: the value, a subgradient, the derivative at non-zero weights, *)
Theorem C105_l1 : forall s n v w,
  let t := l1_loss (Some s) (leaf n w) (const v) in
  at_ t 0%nat = v + l1 s n w
  /\ (0 <= s -> subgradient n (l1 s n) w (gradient t))
  /\ (forall p, (p < n)%nat -> w p <> 0 -> partial (l1 s n) w p (gradient t p))
  /\ (forall p, w p = 0 -> gradient t p = 0).
Proof.
  intros s n v w t. assert (E : forall p, gradient t p = s * sgn (w p)) by (intro p; unfold t, gradient; cbn; ring). repeat split.
  - unfold t, l1. cbn. rewrite sumn_total. ring.
  - intros Hs u. pose proof (l1_sub s n w Hs u) as H. rewrite (total_ext n _ (fun p => s * sgn (w p) * (u p - w p))); [exact H|]. intros. now rewrite E.
  - intros p Hp Hw. rewrite E. now apply l1_partial.
  - intros p Hw. rewrite E, Hw. unfold sgn. destruct (Rlt_dec 0 0); [lra|]. destruct (Rlt_dec 0 0); [lra|]. ring.
Qed.

(** and a step moves a weight by eta s towards zero, and past it if it is nearer than that. *)
Theorem C105_l1_step : forall s n v w eta p, w p <> 0 ->
  let w' := sgd eta w (gradient (l1_loss (Some s) (leaf n w) (const v))) in
  Rabs (w' p) = Rabs (Rabs (w p) - eta * s) /\ (0 < w p < eta * s -> w' p < 0) /\ (- (eta * s) < w p < 0 -> 0 < w' p).
Proof.
  intros s n v w eta p Hw w'. assert (E : w' p = w p - eta * (s * sgn (w p))) by (unfold w', sgd, gradient; cbn; ring). rewrite E. unfold sgn.
  destruct (Rlt_dec 0 (w p)).
  - rewrite (Rabs_right (w p)) by lra. repeat split; [f_equal; ring|intros; lra|intros; lra].
  - destruct (Rlt_dec (w p) 0); [|lra]. rewrite (Rabs_left (w p)) by lra. repeat split; [|intros; lra|intros; lra].
    replace (w p - eta * (s * -1)) with (- (- w p - eta * s)) by ring. apply Rabs_Ropp.
Qed.

(* ------------------------------------------------------------------ concrete cases *)
(** rows (3, 4) and (0, 0) of a 2 x 2 matrix: lengths 5 and 0 *)
Definition w22 (p : nat) : R := match p with 0%nat => 3 | 1%nat => 4 | _ => 0 end.
Example C105_lengths : len 0 4 (rows 2 2) 0 w22 = 5 /\ len 0 4 (rows 2 2) 1 w22 = 0.
Proof.
  unfold len, squares. cbn. split.
  - replace (_ + 0) with (5 * 5) by ring. apply sqrt_square. lra.
  - replace (_ + 0) with 0 by ring. apply sqrt_0.
Qed.
Example C105_applies : positive [2%nat; 2%nat] /\ structures epsilon "Rows" [2%nat; 2%nat] = Some [(0, rows 2 2)] /\ size [2%nat; 2%nat] = 4%nat
  /\ (exists t, group_loss (Some (1, "Rows")) [2%nat; 2%nat] (leaf 4 w22) (const 7) = Ok t) /\ structures epsilon "Rows" [2%nat; 2%nat; 1%nat; 1%nat] = None.
Proof. repeat split; [repeat constructor|eexists; reflexivity]. Qed.
(** with eta s = 5 the first row becomes exactly zero; with eta s = 10 it is reflected *)
Example C105_reflected : forall t, group_loss (Some (1, "Rows")) [2%nat; 2%nat] (leaf 4 w22) (const 7) = Ok t ->
  sgd 10 w22 (gradient t) 0%nat = -3 /\ sgd 10 w22 (gradient t) 1%nat = -4 /\ sgd 5 w22 (gradient t) 0%nat = 0.
Proof.
  intros t H. destruct C105_lengths as [E _].
  assert (HL : len 0 (size [2%nat; 2%nat]) (rows 2 2) 0 w22 = 5) by exact E.
  assert (HP : positive [2%nat; 2%nat]) by (repeat constructor).
  pose proof (fun eta p => C105_step 1 "Rows" [2%nat; 2%nat] 7 w22 0 (rows 2 2) t eta p HP eq_refl H) as HS.
  repeat split; (rewrite HS; [|cbn; lia|change (g_of (rows 2 2) _) with 0%nat; rewrite HL; lra]); change (g_of (rows 2 2) _) with 0%nat; rewrite HL; cbn [w22]; field.
Qed.

Print Assumptions C105_group_value.
Print Assumptions C105_group_subgradient.
Print Assumptions C105_group_derivative.
Print Assumptions C105_channels_smooth.
Print Assumptions C105_zero_stays.
Print Assumptions C105_step.
Print Assumptions C105_step_length.
Print Assumptions C105_exact_zero.
Print Assumptions C105_refused.
Print Assumptions C105_combined_refuted.
Print Assumptions C105_unlisted.
Print Assumptions C105_l1.
Print Assumptions C105_l1_step.
