(** Lemmas about rounding, clamping and powers of two. *)
From Coq Require Import String List ZArith QArith Qabs Qround Qpower Bool Arith Lia Lqa Setoid Morphisms.
From Verif Require Import Base Lists StructModel QuantModel QuantSpec.
Import ListNotations.

Lemma Zq_1 : Zq 1 == 1. Proof. reflexivity. Qed.

Lemma floor_bounds q : Zq (Qfloor q) <= q /\ q < Zq (Qfloor q) + 1.
Proof.
  split; [apply Qfloor_le|]. pose proof (Qlt_floor q) as H. unfold Zq. rewrite inject_Z_plus in H. exact H.
Qed.

Lemma Qabs_le x y : - y <= x -> x <= y -> Qabs x <= y.
Proof. intros. apply Qabs_Qle_condition. split; auto. Qed.
Lemma Qabs_le_inv x y : Qabs x <= y -> - y <= x /\ x <= y.
Proof. apply Qabs_Qle_condition. Qed.
Lemma Qabs_eq_inv x y : Qabs x == y -> x == y \/ x == - y.
Proof. intro H. destruct (Qlt_le_dec x 0); [rewrite Qabs_neg in H by lra|rewrite Qabs_pos in H by lra]; lra. Qed.

Lemma rhe_is_round q : is_round q (rhe q).
Proof.
  destruct (floor_bounds q) as [H1 H2]. unfold rhe, is_round.
  destruct (Qltb (q - Zq (Qfloor q)) (1 # 2)) eqn:E1.
  - apply Qltb_lt in E1. split; [apply Qabs_le; lra|]. intro K. apply Qabs_eq_inv in K. lra.
  - apply Qltb_ge in E1. destruct (Qltb (1 # 2) (q - Zq (Qfloor q))) eqn:E2.
    + apply Qltb_lt in E2. rewrite Zq_plus, Zq_1. split; [apply Qabs_le; lra|]. intro K. apply Qabs_eq_inv in K. lra.
    + apply Qltb_ge in E2. destruct (Z.even (Qfloor q)) eqn:E3.
      * split; [apply Qabs_le; lra|auto].
      * split; [rewrite Zq_plus, Zq_1; apply Qabs_le; lra|]. intros _. rewrite Z.add_1_r, Z.even_succ, <- Z.negb_even, E3. reflexivity.
Qed.

Lemma even_odd_adj z : Z.even z = true -> Z.even (z + 1) = true -> False.
Proof. intros H1 H2. rewrite Z.add_1_r, Z.even_succ, <- Z.negb_even, H1 in H2. discriminate. Qed.

Lemma is_round_unique q a b : is_round q a -> is_round q b -> a = b.
Proof.
  intros [A1 A2] [B1 B2]. apply Qabs_le_inv in A1. apply Qabs_le_inv in B1.
  assert (Ha : Zq (a - b) <= 1) by (rewrite Zq_minus; lra).
  assert (Hb : Zq (b - a) <= 1) by (rewrite Zq_minus; lra).
  apply (proj2 (Zq_le _ 1)) in Ha. apply (proj2 (Zq_le _ 1)) in Hb.
  destruct (Z.eq_dec a b); auto. exfalso.
  assert (a = b + 1 \/ b = a + 1)%Z as [E|E] by lia.
  - assert (Zq a == Zq b + 1) by (rewrite E, Zq_plus, Zq_1; reflexivity).
    assert (Z.even a = true) by (apply A2; rewrite Qabs_pos; lra).
    assert (Z.even b = true) by (apply B2; rewrite Qabs_neg; lra).
    apply (even_odd_adj b); auto. rewrite <- E; auto.
  - assert (Zq b == Zq a + 1) by (rewrite E, Zq_plus, Zq_1; reflexivity).
    assert (Z.even a = true) by (apply A2; rewrite Qabs_neg; lra).
    assert (Z.even b = true) by (apply B2; rewrite Qabs_pos; lra).
    apply (even_odd_adj a); auto. rewrite <- E; auto.
Qed.

Lemma is_round_ext q q' z : q == q' -> is_round q z -> is_round q' z.
Proof. unfold is_round. intros E H. setoid_rewrite <- E. exact H. Qed.

Global Instance rhe_Proper : Proper (Qeq ==> eq) rhe.
Proof.
  intros x y E. apply (is_round_unique y); [|apply rhe_is_round].
  apply (is_round_ext x); auto. apply rhe_is_round.
Qed.

Lemma rhe_unique q z : is_round q z -> rhe q = z.
Proof. intro H. apply (is_round_unique q); auto. apply rhe_is_round. Qed.

Lemma rhe_err q : Qabs (Zq (rhe q) - q) <= 1 # 2.
Proof. apply rhe_is_round. Qed.
Lemma rhe_bounds q : q - (1 # 2) <= Zq (rhe q) /\ Zq (rhe q) <= q + (1 # 2).
Proof. pose proof (Qabs_le_inv _ _ (rhe_err q)). lra. Qed.

Lemma rhe_Z z : rhe (Zq z) = z.
Proof.
  apply rhe_unique. split.
  - setoid_replace (Zq z - Zq z) with 0 by ring. simpl. discriminate.
  - setoid_replace (Zq z - Zq z) with 0 by ring. intro H. discriminate.
Qed.

Lemma rhe_mono x y : x <= y -> (rhe x <= rhe y)%Z.
Proof.
  intro H. destruct (Qlt_le_dec x y) as [Hlt|Hge]; [|rewrite (rhe_Proper x y); [lia|lra]].
  destruct (rhe_bounds x) as [A1 A2]. destruct (rhe_bounds y) as [B1 B2].
  assert (K : Zq (rhe x - rhe y) < 1) by (rewrite Zq_minus; lra).
  apply (proj2 (Zq_lt _ 1)) in K. lia.
Qed.

Lemma rhe_opp x : rhe (- x) = (- rhe x)%Z.
Proof.
  apply rhe_unique. destruct (rhe_is_round x) as [A B].
  assert (E : Qabs (Zq (- rhe x) - - x) == Qabs (Zq (rhe x) - x)).
  { rewrite <- Qabs_opp. rewrite Zq_opp. apply Qabs_wd. ring. }
  split; [rewrite E; auto|]. intro K. rewrite E in K. rewrite Z.even_opp. auto.
Qed.

(** Integers bound the rounding. *)
Lemma rhe_le x z : x <= Zq z -> (rhe x <= z)%Z.
Proof. intro H. rewrite <- (rhe_Z z). apply rhe_mono; auto. Qed.
Lemma rhe_ge x z : Zq z <= x -> (z <= rhe x)%Z.
Proof. intro H. rewrite <- (rhe_Z z). apply rhe_mono; auto. Qed.

Lemma rhe_tie z : rhe (Zq z + (1 # 2)) = if Z.even z then z else (z + 1)%Z.
Proof.
  apply rhe_unique. destruct (Z.even z) eqn:E.
  - split; [apply Qabs_le; lra|auto].
  - split; [rewrite Zq_plus, Zq_1; apply Qabs_le; lra|].
    intros _. rewrite Z.add_1_r, Z.even_succ, <- Z.negb_even, E. reflexivity.
Qed.

(* ------------------------------------------------------------------------- *)
Lemma qmax_spec a b : (a <= b /\ qmax a b = b) \/ (b < a /\ qmax a b = a).
Proof.
  unfold qmax. destruct (Qle_bool a b) eqn:E.
  - apply Qle_bool_iff in E. auto.
  - apply Qle_bool_ngt in E. auto.
Qed.
Lemma qmin_spec a b : (a <= b /\ qmin a b = a) \/ (b < a /\ qmin a b = b).
Proof.
  unfold qmin. destruct (Qle_bool a b) eqn:E.
  - apply Qle_bool_iff in E. auto.
  - apply Qle_bool_ngt in E. auto.
Qed.
Lemma qmax_l a b : a <= qmax a b. Proof. destruct (qmax_spec a b) as [[? ->]|[? ->]]; lra. Qed.
Lemma qmax_r a b : b <= qmax a b. Proof. destruct (qmax_spec a b) as [[? ->]|[? ->]]; lra. Qed.
Lemma qmin_l a b : qmin a b <= a. Proof. destruct (qmin_spec a b) as [[? ->]|[? ->]]; lra. Qed.
Lemma qmin_r a b : qmin a b <= b. Proof. destruct (qmin_spec a b) as [[? ->]|[? ->]]; lra. Qed.

Lemma clamp_is_clamp x lo hi : lo <= hi -> is_clamp x lo hi (clamp x lo hi).
Proof.
  intro H. unfold is_clamp, clamp.
  destruct (qmax_spec x lo) as [[A E]|[A E]]; rewrite E;
  match goal with |- context [qmin ?u hi] => destruct (qmin_spec u hi) as [[B F]|[B F]]; rewrite F end;
  repeat split; intros; lra.
Qed.

Lemma clamp_range x lo hi : lo <= hi -> lo <= clamp x lo hi /\ clamp x lo hi <= hi.
Proof. intro H. destruct (clamp_is_clamp x lo hi H) as (A & B & _). auto. Qed.

Lemma clamp_mono x y lo hi : x <= y -> clamp x lo hi <= clamp y lo hi.
Proof.
  intro H. unfold clamp.
  destruct (qmax_spec x lo) as [[A E]|[A E]], (qmax_spec y lo) as [[A' E']|[A' E']]; rewrite E, E';
  match goal with |- qmin ?u hi <= qmin ?w hi =>
    destruct (qmin_spec u hi) as [[B F]|[B F]], (qmin_spec w hi) as [[B' F']|[B' F']]; rewrite F; try rewrite F'; lra end.
Qed.

Lemma clamp_Z z lo hi : (lo <= hi)%Z -> exists c, clamp (Zq z) (Zq lo) (Zq hi) = Zq c /\ (lo <= c <= hi)%Z /\ c = Z.min (Z.max z lo) hi.
Proof.
  intro H. exists (Z.min (Z.max z lo) hi). split; [|split; [lia|auto]]. unfold clamp.
  assert (qmax (Zq z) (Zq lo) = Zq (Z.max z lo)) as ->.
  { destruct (qmax_spec (Zq z) (Zq lo)) as [[A E]|[A E]]; rewrite E; f_equal.
    - apply (proj2 (Zq_le _ _)) in A. lia.
    - apply (proj2 (Zq_lt _ _)) in A. lia. }
  destruct (qmin_spec (Zq (Z.max z lo)) (Zq hi)) as [[A E]|[A E]]; rewrite E; f_equal.
  - apply (proj2 (Zq_le _ _)) in A. lia.
  - apply (proj2 (Zq_lt _ _)) in A. lia.
Qed.

(* ------------------------------------------------------------------------- *)
Lemma pow2_pos k : (0 <= k)%Z -> (1 <= 2 ^ k)%Z.
Proof. intro H. pose proof (Z.pow_pos_nonneg 2 k). lia. Qed.
Lemma pow2_split k : (1 <= k)%Z -> (2 ^ k = 2 * 2 ^ (k - 1))%Z.
Proof. intro H. rewrite <- Z.pow_succ_r by lia. f_equal. lia. Qed.
Lemma pow2_ge2 k : (1 <= k)%Z -> (2 <= 2 ^ k)%Z.
Proof. intro H. rewrite pow2_split by auto. pose proof (pow2_pos (k - 1)). lia. Qed.

(** Clamped rounding of a value within half a step of the integer range. *)
Lemma clamp_round_err v lo hi x : (lo <= hi)%Z -> Zq lo - (1 # 2) <= v -> v <= Zq hi + (1 # 2) ->
  (x == v \/ (x <= v /\ v <= Zq lo + (1 # 2)) \/ (v <= x /\ Zq hi - (1 # 2) <= v)) ->
  Qabs (clamp (Zq (rhe x)) (Zq lo) (Zq hi) - v) <= 1 # 2.
Proof.
  intros H Hl Hh Hx. assert (H' : Zq lo <= Zq hi) by (apply (proj1 (Zq_le _ _)); auto).
  destruct (clamp_range (Zq (rhe x)) (Zq lo) (Zq hi) H') as [R1 R2].
  destruct (clamp_is_clamp (Zq (rhe x)) (Zq lo) (Zq hi) H') as (_ & _ & C1 & C2 & C3).
  destruct (rhe_bounds x) as [B1 B2]. destruct (rhe_bounds v) as [V1 V2].
  apply Qabs_le.
  - destruct Hx as [E|[[E F]|[E F]]].
    + destruct (Qlt_le_dec (Zq (rhe x)) (Zq lo)); [lra|].
      destruct (Qlt_le_dec (Zq hi) (Zq (rhe x))); [rewrite C2 by lra; lra|]. rewrite C3 by lra. lra.
    + lra.
    + destruct (Qlt_le_dec (Zq hi) (Zq (rhe x))); [rewrite C2 by lra; lra|].
      destruct (Qlt_le_dec (Zq (rhe x)) (Zq lo)); [lra|]. rewrite C3 by lra.
      assert (rhe v <= rhe x)%Z by (apply rhe_mono; auto). apply (proj1 (Zq_le _ _)) in H0. lra.
  - destruct Hx as [E|[[E F]|[E F]]].
    + destruct (Qlt_le_dec (Zq (rhe x)) (Zq lo)); [rewrite C1 by lra; lra|].
      destruct (Qlt_le_dec (Zq hi) (Zq (rhe x))); [lra|]. rewrite C3 by lra. lra.
    + destruct (Qlt_le_dec (Zq (rhe x)) (Zq lo)); [rewrite C1 by lra; lra|].
      destruct (Qlt_le_dec (Zq hi) (Zq (rhe x))); [lra|]. rewrite C3 by lra.
      assert (rhe x <= rhe v)%Z by (apply rhe_mono; auto). apply (proj1 (Zq_le _ _)) in H0. lra.
    + lra.
Qed.

(* ------------------------------------------------------------------------- *)
(** Powers of two with integer exponents. *)
Lemma qpow2_pos k : 0 < 2 ^ k.
Proof. apply Qpower_0_lt. reflexivity. Qed.

Lemma qpow2_Z k : (0 <= k)%Z -> 2 ^ k == Zq (2 ^ k).
Proof. intro H. unfold Zq. change 2 with (inject_Z 2). rewrite Zpower_Qpower by auto. reflexivity. Qed.

Lemma qpow2_neg k : 2 ^ (- k) == / 2 ^ k.
Proof. apply Qpower_opp. Qed.

Lemma qpow2_succ k : 2 ^ (k + 1) == 2 * 2 ^ k.
Proof. rewrite Qpower_plus by discriminate. change (2 ^ 1) with 2. ring. Qed.

Lemma floor_log2_spec x : 0 < x -> 2 ^ floor_log2 x <= x /\ x < 2 ^ (floor_log2 x + 1).
Proof.
  intro Hx. unfold floor_log2. destruct (Qle_bool 1 x) eqn:E.
  - apply Qle_bool_iff in E. destruct (floor_bounds x) as [F1 F2].
    assert (1 <= Qfloor x)%Z.
    { change 1%Z with (Qfloor 1). apply Qfloor_resp_le. auto. }
    destruct (Z.log2_spec (Qfloor x) ltac:(lia)) as [L1 L2].
    assert (Hl : (0 <= Z.log2 (Qfloor x))%Z) by apply Z.log2_nonneg.
    rewrite !qpow2_Z by lia. split.
    + apply Qle_trans with (Zq (Qfloor x)); auto. apply (proj1 (Zq_le _ _)). auto.
    + replace (Z.succ (Z.log2 (Qfloor x))) with (Z.log2 (Qfloor x) + 1)%Z in L2 by lia.
      assert (Qfloor x + 1 <= 2 ^ (Z.log2 (Qfloor x) + 1))%Z as L3 by lia.
      apply (proj1 (Zq_le _ _)) in L3. rewrite Zq_plus, Zq_1 in L3. lra.
  - apply Qle_bool_ngt in E. set (y := / x). assert (Hy : 1 < y).
    { unfold y. apply Qmult_lt_r with (z := x); auto. rewrite (Qmult_comm (/ x)), Qmult_inv_r by lra. lra. }
    assert (Hxy : x == / y) by (unfold y; rewrite Qinv_involutive; reflexivity).
    pose proof (Qle_ceiling y) as C1. pose proof (Qceiling_lt y) as C2. fold (Zq (Qceiling y)) in C1.
    assert (C3 : Zq (Qceiling y) - 1 < y).
    { fold (Zq (Qceiling y - 1)) in C2. rewrite Zq_minus, Zq_1 in C2. exact C2. }
    assert (1 < Qceiling y)%Z.
    { apply (proj2 (Zq_lt _ _)). change (Zq 1) with 1. lra. }
    destruct (Z.log2_up_spec (Qceiling y) ltac:(lia)) as [L1 L2].
    set (k := Z.log2_up (Qceiling y)) in *.
    assert (Hk : (0 < k)%Z) by (apply Z.log2_up_pos; lia).
    (* 2^(k-1) < y <= 2^k *)
    assert (U : y <= 2 ^ k).
    { rewrite qpow2_Z by lia. apply Qle_trans with (Zq (Qceiling y)); auto. apply (proj1 (Zq_le _ _)). auto. }
    assert (Lo : 2 ^ (k - 1) < y).
    { rewrite qpow2_Z by lia. assert (2 ^ Z.pred k <= Qceiling y - 1)%Z as L3 by lia.
      apply (proj1 (Zq_le _ _)) in L3. rewrite Zq_minus, Zq_1 in L3.
      replace (k - 1)%Z with (Z.pred k) by lia. lra. }
    pose proof (qpow2_pos k). pose proof (qpow2_pos (k - 1)).
    split.
    + rewrite qpow2_neg, Hxy. apply Qle_shift_inv_l; [lra|].
      setoid_replace (/ 2 ^ k * y) with (y / 2 ^ k) by (unfold Qdiv; ring).
      apply Qle_shift_div_r; [auto|lra].
    + replace (- k + 1)%Z with (- (k - 1))%Z by lia. rewrite qpow2_neg, Hxy.
      apply Qlt_shift_inv_l; [auto|].
      setoid_replace (/ y * 2 ^ (k - 1)) with (2 ^ (k - 1) / y) by (unfold Qdiv; ring).
      apply Qlt_shift_div_r; lra.
Qed.
