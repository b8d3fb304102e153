(** Specification vocabulary for the sensitivity analysis. *)
From Coq Require Import String List ZArith QArith Qabs Qround Bool Arith.
From Verif Require Import Base Lists StructModel StructSpec SensModel.
Import ListNotations.

(** How many of the scores of 0..n-1 are strictly below the score of [i]. *)
Definition weaker (n : nat) (score : nat -> Q) (i : nat) : nat :=
  count_below n (fun j => Qltb (score j) (score i)).

(** [x] if [c] holds, else 0. *)
Definition keep_if (c : bool) (x : Q) : Q := if c then x else 0.

(** [t'] is [t] with the [k] weakest elements / filters / input channels set to zero: exactly those
    that have at least [k] strictly weaker ones stay. *)
Definition pruned_to (g : group) (k : nat) (t t' : nd) : Prop :=
  nd_shape t' = nd_shape t /\ length (nd_data t') = length (nd_data t) /\
  match g, nd_shape t with
  | GElement, _ =>
      forall i, (i < length (nd_data t))%nat ->
        nth i (nd_data t') 0 ==
        keep_if (Nat.leb k (weaker (length (nd_data t)) (fun j => Qabs (nth j (nd_data t) 0)) i)) (nth i (nd_data t) 0)
  | GFilter, [F; C; H; W] =>
      forall f c h w, (f < F)%nat -> (c < C)%nat -> (h < H)%nat -> (w < W)%nat ->
        at4 t' C H W f c h w ==
        keep_if (Nat.leb k (weaker F (fun j => qsum (map Qabs (filter_of t C H W j))) f)) (at4 t C H W f c h w)
  | GChannel, [F; C; H; W] =>
      forall f c h w, (f < F)%nat -> (c < C)%nat -> (h < H)%nat -> (w < W)%nat ->
        at4 t' C H W f c h w ==
        keep_if (Nat.leb k (weaker C (fun j => qsum (map Qabs (channel_of t F C H W j))) c)) (at4 t C H W f c h w)
  | _, _ => False
  end.

(** The number of elements, filters or input channels, and how many of them a level asks to prune. *)
Definition structures (g : group) (t : nd) : nat :=
  match g, nd_shape t with
  | GElement, _ => length (nd_data t)
  | GFilter, F :: _ => F
  | GChannel, _ :: C :: _ => C
  | _, _ => 0%nat
  end.
Definition asked (g : group) (t : nd) (s : Q) : nat :=
  Z.to_nat (Qfloor (s * Zq (Z.of_nat (structures g t)))).

(** The largest number asked for by any of the levels. *)
Definition most_asked (g : group) (t : nd) (levels : list Q) : nat :=
  fold_right Nat.max 0%nat (map (asked g t) levels).

(** [a] occurs in [b]. *)
Definition occurs_in (a b : string) : Prop := exists x y, b = (x ++ a ++ y)%string.

(** The parameters that the pruner of parameter [p] handles. *)
Definition handled (g : group) (p q : string) : Prop :=
  match g with GElement => q = p | _ => occurs_in q p end.

(** [W] is the model [M] with every parameter handled for [p] pruned to the largest of the levels,
    and everything else as it was. *)
Definition pruned_model (g : group) (p : string) (levels : list Q) (M W : dict nd) : Prop :=
  dkeys W = dkeys M /\
  forall q t, dget M q = Some t ->
    exists t', dget W q = Some t' /\
      (handled g p q -> pruned_to g (most_asked g t levels) t t') /\
      (~ handled g p q -> t' = t).

(** Look-up in a dictionary with numbers as keys. *)
Fixpoint fget {R} (d : list (Q * R)) (k : Q) : option R :=
  match d with [] => None | (k', v) :: d' => if Qeq_bool k k' then Some v else fget d' k end.

(** A network whose tensors have as many elements as their shapes say, no empty dimension, and
    whose names are distinct. *)
Definition net_ok (m : net) : Prop :=
  NoDup (dkeys (n_params m)) /\
  forall n t, dget (n_params m) n = Some t -> nd_ok t /\ (forall d, In d (nd_shape t) -> (0 < d)%nat).

(** The tensors the analysis looks at: matrices and 4-D tensors, the latter only for structures. *)
Definition examined (g : group) (t : nd) : bool :=
  match g with
  | GElement => Nat.eqb (ndim t) 2 || Nat.eqb (ndim t) 4
  | _ => Nat.eqb (ndim t) 4
  end.

(** A level for which pruning [t] is possible: between 0 and 1 and, for single elements, 0 or large
    enough to prune at least one. *)
Definition level_ok (g : group) (t : nd) (s : Q) : Prop :=
  0 <= s /\ s <= 1 /\ (g = GElement -> ~ s == 0 -> (1 <= asked g t s)%nat).

(** The analysis of parameter [p] can be carried out: it is an entry of the state dictionary and, if it is
    examined, every parameter that its pruner handles can be pruned to each of the levels. *)
Definition analysable (g : group) (m : net) (levels : list Q) (p : string) : Prop :=
  p <> "*"%string /\
  exists t, state_entry m p = Ok t /\
    (examined g t = true -> forall q u, dget (n_params m) q = Some u -> handled g p q ->
       (g <> GElement -> ndim u = 4%nat) /\ forall s, In s levels -> level_ok g u s).

(** The results reported for one parameter: [Ws] are the weights of the model at each level, and the
    dictionary has, for each level, the test result of the last time it was tested. *)
Definition reports {R} (test : dict nd -> R) (levels : list Q) (Ws : list (dict nd)) (d : list (Q * R)) : Prop :=
  length Ws = length levels /\
  (forall i, (i < length levels)%nat ->
     (forall j, (i < j < length levels)%nat -> ~ nth j levels 0 == nth i levels 0) ->
     fget d (nth i levels 0) = Some (test (nth i Ws []))) /\
  (forall s, (forall x, In x levels -> ~ x == s) -> fget d s = None).
