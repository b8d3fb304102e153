(** Common vocabulary of the model: exceptions as values, Python dictionaries,
    flat tensors of exact rationals.  Nothing here models a particular function of
    /repo; it fixes the semantics ascribed to the Python / PyTorch primitives. *)
From Coq Require Import String List ZArith QArith Qabs Qround Bool Arith Lia Lqa.
Import ListNotations.
Open Scope Q_scope.

(** Python exception classes that the modelled code can raise. *)
Inductive exn : Type :=
| KeyError | IndexError | TypeError | ValueError | AssertionError
| AttributeError | RuntimeError | ZeroDivisionError | NotImplementedError | NameError
| OSError
| UnsatisfiedRequirements (* distiller.quantization.range_linear *).

Inductive res (A : Type) : Type :=
| Ok (a : A)
| Raise (e : exn).
Arguments Ok {A} a.
Arguments Raise {A} e.

Definition bind {A B} (m : res A) (f : A -> res B) : res B :=
  match m with Ok a => f a | Raise e => Raise e end.

Notation "'do' x <- m ; k" := (bind m (fun x => k))
  (at level 200, x pattern, m at level 100, k at level 200, right associativity).

(** Fold with exceptions: a Python [for] loop whose body may raise. *)
Fixpoint foldM {A S} (f : S -> A -> res S) (l : list A) (s : S) : res S :=
  match l with
  | [] => Ok s
  | a :: l' => do s' <- f s a; foldM f l' s'
  end.

(** Python dict with string keys, in insertion order. *)
Definition dict (A : Type) := list (string * A).

Fixpoint dget {A} (d : dict A) (k : string) : option A :=
  match d with
  | [] => None
  | (k', v) :: d' => if String.eqb k k' then Some v else dget d' k
  end.

(** [d[k] = v]: replaces in place, or appends at the end. *)
Fixpoint dset {A} (d : dict A) (k : string) (v : A) : dict A :=
  match d with
  | [] => [(k, v)]
  | (k', v') :: d' => if String.eqb k k' then (k', v) :: d' else (k', v') :: dset d' k v
  end.

Definition dkeys {A} (d : dict A) : list string := map fst d.
Definition dmem {A} (d : dict A) (k : string) : bool :=
  match dget d k with Some _ => true | None => false end.

(** A flat tensor: the elements in row-major order. *)
Definition tensor := list Q.

(** Element-wise combination of two tensors of equal shape (PyTorch raises when the
    shapes are not broadcastable; here the result is cut to the shorter one and the
    theorems that need it carry an explicit equal-length hypothesis). *)
Fixpoint map2 {A B C} (f : A -> B -> C) (a : list A) (b : list B) : list C :=
  match a, b with
  | x :: a', y :: b' => f x y :: map2 f a' b'
  | _, _ => []
  end.

Definition tmul (a b : tensor) : tensor := map2 Qmult a b.

(** Equality of tensors up to equality of rationals (== on each element). *)
Definition teq (a b : tensor) : Prop := Forall2 Qeq a b.

Definition Qltb (x y : Q) : bool := negb (Qle_bool y x).
Definition b2q (b : bool) : Q := if b then 1 else 0.
Definition Zq (z : Z) : Q := inject_Z z.

Definition qsum (l : list Q) : Q := fold_right Qplus 0 l.

(** * Basic lemmas *)
Lemma bind_ok {A B} (m : res A) (f : A -> res B) b :
  bind m f = Ok b <-> exists a, m = Ok a /\ f a = Ok b.
Proof.
  destruct m as [a|e]; simpl; split.
  - intro H; exists a; auto.
  - intros (a' & H1 & H2). inversion H1; subst; auto.
  - discriminate.
  - intros (a' & H1 & _). discriminate.
Qed.

Lemma foldM_app {A S} (f : S -> A -> res S) l1 l2 s :
  foldM f (l1 ++ l2) s = do s' <- foldM f l1 s; foldM f l2 s'.
Proof.
  revert s; induction l1 as [|a l1 IH]; intro s; simpl; auto.
  destruct (f s a); simpl; auto.
Qed.

Lemma foldM_inv {A S} (f : S -> A -> res S) (P : S -> Prop) l :
  (forall s a s', In a l -> P s -> f s a = Ok s' -> P s') ->
  forall s s', P s -> foldM f l s = Ok s' -> P s'.
Proof.
  induction l as [|a l IH]; simpl; intros Hf s s' HP H.
  - inversion H; subst; auto.
  - apply bind_ok in H. destruct H as (s1 & H1 & H2).
    eapply IH; [| |exact H2]; eauto.
Qed.

Lemma dget_dset_same {A} (d : dict A) k v : dget (dset d k v) k = Some v.
Proof.
  induction d as [|(k', v') d IH]; simpl.
  - rewrite String.eqb_refl; auto.
  - destruct (String.eqb k k') eqn:E; simpl; rewrite E; auto.
Qed.

Lemma dget_dset_other {A} (d : dict A) k k' v :
  k <> k' -> dget (dset d k v) k' = dget d k'.
Proof.
  intro Hne. induction d as [|(k0, v0) d IH]; simpl.
  - destruct (String.eqb_spec k' k); [congruence|auto].
  - destruct (String.eqb_spec k k0); simpl.
    + subst. destruct (String.eqb_spec k' k0); [congruence|auto].
    + destruct (String.eqb k' k0); auto.
Qed.

Lemma dget_In {A} (d : dict A) k v : dget d k = Some v -> In (k, v) d.
Proof.
  induction d as [|(k', v') d IH]; simpl; [discriminate|].
  destruct (String.eqb_spec k k'); intro H.
  - inversion H; subst; auto.
  - right; auto.
Qed.

Lemma In_dget {A} (d : dict A) k v :
  NoDup (dkeys d) -> In (k, v) d -> dget d k = Some v.
Proof.
  induction d as [|(k', v') d IH]; simpl; [tauto|].
  intros Hnd [H|H].
  - inversion H; subst. rewrite String.eqb_refl; auto.
  - inversion Hnd; subst. destruct (String.eqb_spec k k').
    + subst. exfalso. apply H2. apply (in_map fst) in H. exact H.
    + auto.
Qed.

Lemma dget_None_notin {A} (d : dict A) k : dget d k = None <-> ~ In k (dkeys d).
Proof.
  induction d as [|(k', v') d IH]; simpl; [tauto|].
  destruct (String.eqb_spec k k').
  - subst; split; [discriminate|intros H; exfalso; auto].
  - rewrite IH. intuition congruence.
Qed.

Lemma dset_keys_mem {A} (d : dict A) k v :
  In k (dkeys d) -> dkeys (dset d k v) = dkeys d.
Proof.
  induction d as [|(k', v') d IH]; simpl; [tauto|].
  intros H. destruct (String.eqb_spec k k'); simpl; auto.
  f_equal. apply IH. destruct H; [congruence|auto].
Qed.

Lemma dset_keys_new {A} (d : dict A) k v :
  ~ In k (dkeys d) -> dkeys (dset d k v) = dkeys d ++ [k].
Proof.
  induction d as [|(k', v') d IH]; simpl; auto.
  intros H. destruct (String.eqb_spec k k'); simpl.
  - exfalso; auto.
  - f_equal. apply IH. auto.
Qed.

Lemma dset_NoDup {A} (d : dict A) k v :
  NoDup (dkeys d) -> NoDup (dkeys (dset d k v)).
Proof.
  intro H. destruct (in_dec string_dec k (dkeys d)).
  - rewrite dset_keys_mem; auto.
  - rewrite dset_keys_new; auto.
    apply NoDup_rev in H. rewrite <- (rev_involutive (dkeys d ++ [k])).
    apply NoDup_rev. rewrite rev_app_distr. simpl. constructor; auto.
    rewrite <- in_rev; auto.
Qed.

Lemma map2_length {A B C} (f : A -> B -> C) a b :
  length (map2 f a b) = Nat.min (length a) (length b).
Proof. revert b; induction a; destruct b; simpl; auto. Qed.

Lemma map2_nth {A B C} (f : A -> B -> C) a b i da db dc :
  (i < length a)%nat -> (i < length b)%nat ->
  nth i (map2 f a b) dc = f (nth i a da) (nth i b db).
Proof.
  revert b i; induction a; destruct b; simpl; intros; try lia.
  destruct i; auto. apply IHa; lia.
Qed.

Lemma teq_refl a : teq a a.
Proof. induction a; constructor; auto; reflexivity. Qed.

Lemma teq_sym a b : teq a b -> teq b a.
Proof. induction 1; constructor; auto; symmetry; auto. Qed.

Lemma teq_trans a b c : teq a b -> teq b c -> teq a c.
Proof.
  intro H; revert c; induction H; intros c Hc; inversion Hc; subst; constructor; auto.
  - etransitivity; eauto.
  - apply IHForall2; auto.
Qed.

Lemma teq_length a b : teq a b -> length a = length b.
Proof. induction 1; simpl; auto. Qed.

Lemma Qltb_lt x y : Qltb x y = true <-> x < y.
Proof.
  unfold Qltb. rewrite negb_true_iff.
  destruct (Qle_bool y x) eqn:E.
  - split; [discriminate|]. intro H. apply Qle_bool_iff in E. lra.
  - split; auto. intros _. apply Qnot_le_lt. intro H. apply Qle_bool_iff in H. congruence.
Qed.

Lemma Qltb_ge x y : Qltb x y = false <-> y <= x.
Proof.
  unfold Qltb. rewrite negb_false_iff. apply Qle_bool_iff.
Qed.

Lemma Qle_bool_ngt x y : Qle_bool x y = false <-> y < x.
Proof.
  split; intro H.
  - apply Qnot_le_lt. intro H'. apply Qle_bool_iff in H'. congruence.
  - destruct (Qle_bool x y) eqn:E; auto. apply Qle_bool_iff in E. lra.
Qed.

Lemma Zq_le a b : (a <= b)%Z <-> Zq a <= Zq b.
Proof. unfold Zq. rewrite <- Zle_Qle. tauto. Qed.
Lemma Zq_lt a b : (a < b)%Z <-> Zq a < Zq b.
Proof. unfold Zq. rewrite <- Zlt_Qlt. tauto. Qed.
Lemma Zq_plus a b : Zq (a + b) == Zq a + Zq b.
Proof. unfold Zq. rewrite inject_Z_plus. reflexivity. Qed.
Lemma Zq_mult a b : Zq (a * b) == Zq a * Zq b.
Proof. unfold Zq. rewrite inject_Z_mult. reflexivity. Qed.
Lemma Zq_opp a : Zq (- a) == - Zq a.
Proof. unfold Zq. rewrite inject_Z_opp. reflexivity. Qed.
Lemma Zq_minus a b : Zq (a - b) == Zq a - Zq b.
Proof. unfold Z.sub. rewrite Zq_plus, Zq_opp. reflexivity. Qed.
Lemma Zq_inj a b : Zq a == Zq b -> a = b.
Proof. intro H. apply Z.le_antisymm; apply Zq_le; rewrite H; lra. Qed.

Lemma Zq_pos z : (0 < z)%Z -> 0 < Zq z.
Proof. exact (proj1 (Zq_lt 0 z)). Qed.
Lemma Zq_nonneg z : (0 <= z)%Z -> 0 <= Zq z.
Proof. exact (proj1 (Zq_le 0 z)). Qed.

(** Splits a successful [do x <- m; k]: the premise [m = Ok x] gets a fresh name, the
    continuation keeps the name [H]. *)
Ltac inv_bind H :=
  apply bind_ok in H;
  let x := fresh "x" in let H1 := fresh "H" in destruct H as (x & H1 & H).
