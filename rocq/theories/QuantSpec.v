(** Specification vocabulary for quantization. *)
From Coq Require Import ZArith QArith Qabs Bool.
From Verif Require Import Base.

(** [z] is the nearest integer to [q]; on a tie, the even one. *)
Definition is_round (q : Q) (z : Z) : Prop :=
  Qabs (Zq z - q) <= 1 # 2 /\ (Qabs (Zq z - q) == 1 # 2 -> Z.even z = true).

(** [c] is the point of [lo, hi] nearest to [x]. *)
Definition is_clamp (x lo hi c : Q) : Prop :=
  lo <= c /\ c <= hi /\ (x <= lo -> c == lo) /\ (hi <= x -> c == hi) /\ (lo <= x -> x <= hi -> c == x).

(** The two's-complement (or unsigned) range of [bits] bits. *)
Definition in_signed (bits z : Z) : Prop := (- 2 ^ (bits - 1) <= z <= 2 ^ (bits - 1) - 1)%Z.
Definition in_unsigned (bits z : Z) : Prop := (0 <= z <= 2 ^ bits - 1)%Z.
