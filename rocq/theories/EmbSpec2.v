(** Specification vocabulary: the range a clipping mode selects, and the parameters of a range. *)
From Coq Require Import String List ZArith QArith Qabs Qminmax Bool.
From Verif Require Import Base Lists QuantModel QuantSpec RangeModel EmbModel.
Import ListNotations.

Definition smallest (l : list Q) (a : Q) : Prop := In a l /\ forall x, In x l -> a <= x.
Definition largest (l : list Q) (a : Q) : Prop := In a l /\ forall x, In x l -> x <= a.
Definition symmetric (m : lqmode) : bool := match m with SYM | SYMR => true | _ => false end.

(** ACIQ factors in hundredths, for a range on both sides of the mean / on one side *)
Definition gauss_factors (half : bool) : list (Z * Z) :=
  if half then [(1, 171); (2, 215); (3, 255); (4, 293); (5, 328); (6, 361); (7, 392); (8, 420)]%Z
  else [(1, 124); (2, 171); (3, 215); (4, 255); (5, 293); (6, 328); (7, 361); (8, 392)]%Z.
Definition laplace_factors (half : bool) : list (Z * Z) :=
  if half then [(0, 186); (1, 283); (2, 389); (3, 502); (4, 620); (5, 741); (6, 864); (7, 989); (8, 1116)]%Z
  else [(0, 105); (1, 186); (2, 283); (3, 389); (4, 503); (5, 620); (6, 741); (7, 864); (8, 989)]%Z.

(** [lo, hi] is the range around [mean] with half width [alpha]; without symmetry not below [least], and of width
    alpha if only one half is wanted *)
Definition around (sym half : bool) (mean least alpha lo hi : Q) : Prop :=
  if sym then hi == Qabs mean + alpha /\ lo == - (Qabs mean + alpha)
  else lo == Qmax least (mean - alpha) /\ hi == lo + (if half then alpha else 2 * alpha).

(** the range selected for a tensor given by its rows *)
Definition tensor_limits (std : list Q -> Q) (rows : list (list Q)) (bits : Z) (m : lqmode) (clip : clipmode) (n_stds : option Q)
    (half : bool) (lo hi : Q) : Prop :=
  let t := concat rows in
  match clip with
  | CNone => smallest t lo /\ largest t hi
  | CAvg => exists los his, Forall2 smallest rows los /\ Forall2 largest rows his /\ lo == mean los /\ hi == mean his
  | CNStd => exists n a b, n_stds = Some n /\ 0 < n /\ smallest t a /\ largest t b /\
               lo == Qmax a (mean t - n * std t) /\ hi == Qmin b (mean t + n * std t)
  | CGauss => exists f a, In (bits, f) (gauss_factors (half && negb (symmetric m))) /\ smallest t a /\
               around (symmetric m) half (mean t) a (inject_Z f / 100 * std t) lo hi
  | CLaplace => exists f a, In (bits, f) (laplace_factors (half && negb (symmetric m))) /\ smallest t a /\
               around (symmetric m) half (mean t) a (inject_Z f / 100 * mean (map (fun x => Qabs (x - mean t)) t)) lo hi
  end.
(** the range selected from recorded statistics *)
Definition stats_limits (st : stats) (bits : Z) (m : lqmode) (clip : clipmode) (n_stds : option Q) (half : bool) (lo hi : Q) : Prop :=
  match clip with
  | CNone => lo == st_min st /\ hi == st_max st
  | CAvg => lo == st_avg_min st /\ hi == st_avg_max st
  | CNStd => exists n, n_stds = Some n /\ 0 < n /\ lo == Qmax (st_min st) (st_mean st - n * st_std st) /\ hi == Qmin (st_max st) (st_mean st + n * st_std st)
  | CGauss => exists f, In (bits, f) (gauss_factors (half && negb (symmetric m))) /\
               around (symmetric m) half (st_mean st) (st_avg_min st) (inject_Z f / 100 * st_std st) lo hi
  | CLaplace => exists f, In (bits, f) (laplace_factors (half && negb (symmetric m))) /\
               around (symmetric m) half (st_mean st) (st_avg_min st) (inject_Z f / 100 * st_b st) lo hi
  end.

(** scale and zero point of a range: the largest magnitude goes to the end of the codes; without symmetry the range,
    extended to contain zero, is spread over all codes; an empty range has scale 1 *)
Definition range_params (bits : Z) (m : lqmode) (lo hi : Q) (p : Q * Q) : Prop :=
  if symmetric m then
    let top := match m with SYMR => inject_Z (2 ^ (bits - 1) - 1) | _ => inject_Z (2 ^ bits - 1) / 2 end in
    let big := Qmax (Qabs lo) (Qabs hi) in
    snd p == 0 /\ (big == 0 -> fst p == 1) /\ (0 < big -> fst p * big == top)
  else
    let a := Qmin lo 0 in let b := Qmax hi 0 in
    lo <= hi /\ (a == b -> fst p == 1) /\ (a < b -> fst p * (b - a) == inject_Z (2 ^ bits - 1)) /\
    exists r, is_round (fst p * a) r /\ snd p == inject_Z r + (match m with ASS => inject_Z (2 ^ (bits - 1)) | _ => 0 end).

(** [s'] approximates the scale [s] with a multiplier of [k] bits *)
Definition approximates (k : option Z) (s s' : Q) : Prop :=
  match k with
  | None => s' == s
  | Some k => exists mult shift, s' == inject_Z mult / 2 ^ shift /\ (0 <= mult <= 2 ^ k - 1)%Z /\ s' <= s /\ ((2 <= k)%Z -> (s - s') * inject_Z (2 ^ (k - 1)) < s)
  end.
