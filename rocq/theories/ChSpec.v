(** Vocabulary for the properties of the activation channel statistics. *)
From Coq Require Import String List Reals Arith Bool.
From Verif Require Import Base CollModel CollSpec ChModel.
Import ListNotations.
Open Scope list_scope.
Open Scope nat_scope.
Open Scope R_scope.

(** a batch of images: [n] samples of [c] channels of [h] by [w] *)
Definition images (a : act) (n c h w : nat) : Prop :=
  a_shape a = [n; c; h; w] /\ length (a_data a) = (n * c * (h * w))%nat /\ (0 < n)%nat /\ (0 < c)%nat /\ (0 < h)%nat /\ (0 < w)%nat.
(** pixel [p] of channel [j] of sample [i] *)
Definition pixel (a : act) (c s i j p : nat) : R := nth ((i * c + j) * s + p) (a_data a) 0.
(** all the values of channel [j], sample after sample *)
Definition channel (a : act) (j : nat) : list R :=
  match a_shape a with
  | [n; c; h; w] => flat_map (fun i => map (fun p => pixel a c (h * w) i j p) (seq 0 (h * w))) (seq 0 n)
  | _ => []
  end.
(** sample [i] of an activation of [n] samples *)
Definition sample (a : act) (i : nat) : list R :=
  let k := (numel a / hd O (a_shape a))%nat in map (fun p => nth (i * k + p) (a_data a) 0) (seq 0 k).
Definition samples (a : act) : list (list R) := map (sample a) (seq 0 (hd O (a_shape a))).
(** a tensor with elements whose first dimension is the number of samples *)
Definition well_formed (a : act) : Prop :=
  (0 < hd O (a_shape a))%nat /\ numel a = fold_right Nat.mul 1%nat (a_shape a) /\ (0 < numel a)%nat.

(** the standard deviation of a sample with the n - 1 denominator; nothing to estimate from one value *)
Definition sample_std (r : list R) : R :=
  match r with [] | [_] => 0 | _ => sqrt (rsum (map (fun x => (x - CollSpec.mean r) ^ 2) r) / (INR (length r) - 1)) end.
(** the fields of the record describe the samples [l], one entry each, in order *)
Definition records_of (l : list (list R)) (s : records) : Prop :=
  length (s_min s) = length l /\ length (s_max s) = length l /\
  (forall i, (i < length l)%nat -> is_min (nth i l []) (nth i (s_min s) 0) /\ is_max (nth i l []) (nth i (s_max s) 0)) /\
  s_mean s = map CollSpec.mean l /\ s_std s = map sample_std l /\
  s_l2 s = map (fun r => sqrt (rsum (map (fun x => x * x) r))) l.

(** a text occurs in another *)
Definition occurs (t s : string) : Prop := exists a b, s = (a ++ t ++ b)%string.
