(** Lemmas about the conversion to PyTorch quantization. *)
From Coq Require Import String List ZArith QArith Qabs Qround Qpower Bool Arith Lia Lqa Setoid Morphisms.
From Verif Require Import Base Lists StructModel QuantModel QuantSpec QuantProofs PropertiesQuant RangeModel RangeSpec RangeProofs PtqModel PtqSpec.
Import ListNotations.

Lemma tlong_Zq x k : x == Zq k -> tlong x = k.
Proof.
  intro E. unfold tlong. destruct (Qle_bool 0 x).
  - rewrite E. apply Qfloor_Z.
  - rewrite E. apply Qceiling_Z.
Qed.

(** the integer offset between Distiller's quantized values and PyTorch's *)
Definition pt_off (bits : Z) (m : lqmode) (dt : tdtype) : Z :=
  let half := (2 ^ (bits - 1))%Z in
  match m, dt with
  | ASU, QInt8 => (- half)%Z
  | ASU, _ => 0%Z
  | _, QInt8 => 0%Z
  | _, _ => half
  end.

Lemma convert1_eq bits m dt s z k : dt <> QInt32 -> z == Zq k -> (is_sym (PM m) = true -> k = 0%Z) ->
  convert1 bits m dt (s, z) = (1 / s, (pt_off bits m dt - k)%Z).
Proof.
  intros Hd Hz Hk. unfold convert1. cbn [fst snd]. rewrite (tlong_Zq _ _ Hz). f_equal.
  destruct m, dt; try congruence; cbn [is_sym mode_is lqmode_eqb orb andb negb tdtype_eqb pt_off] in *; try (rewrite (Hk eq_refl)); lia.
Qed.

Definition zp_range (bits : Z) (m : lqmode) (k : Z) : Prop :=
  match m with
  | SYM | SYMR => k = 0%Z
  | ASU => (- (2 ^ bits - 1) <= k <= 0)%Z
  | ASS => (- (2 ^ bits - 1) + 2 ^ (bits - 1) <= k <= 2 ^ (bits - 1))%Z
  end.

Lemma range_facts bits m mn mx s z : mode_ok bits (PM m) -> params_from_range bits (PM m) mn mx = Ok (s, z) ->
  exists k, z == Zq k /\ 0 < s /\ zp_range bits m k /\
  forall x, d_in_range m mn mx x ->
    Zq (fst (mode_range bits (PM m))) - (1 # 2) <= s * x - Zq k <= Zq (snd (mode_range bits (PM m))) + (1 # 2).
Proof.
  intros [Hb Hr] H. unfold params_from_range in H. inv_bind H.
  pose proof (pow2_split bits Hb) as P2. pose proof (pow2_pos (bits - 1) ltac:(lia)) as P1.
  destruct (is_sym (PM m)) eqn:Es.
  - unfold sym_params in H0. cbn [existsb map] in H0. set (sat := qmax (Qabs mn) (Qabs mx)) in *.
    assert (Hsat : 0 <= sat) by (pose proof (qmax_l (Qabs mn) (Qabs mx)); pose proof (Qabs_nonneg mn); unfold sat; lra).
    destruct (Qltb sat 0 || false); [discriminate|].
    assert (Hx : [sym1 bits (mode_is (PM m) SYMR) sat] = x) by congruence. subst x. cbn [first_param] in H.
    assert (Hx : sym1 bits (mode_is (PM m) SYMR) sat = (s, z)) by congruence. clear H H0.
    assert (Hs : sym_n bits (mode_is (PM m) SYMR) / (if Qeq_bool sat 0 then sym_n bits (mode_is (PM m) SYMR) else sat) = s) by exact (f_equal fst Hx).
    assert (Hz : 0 = z) by exact (f_equal snd Hx). clear Hx.
    set (n := sym_n bits (mode_is (PM m) SYMR)) in *.
    assert (Hn : 0 < n).
    { unfold n, sym_n. destruct (mode_is (PM m) SYMR).
      - apply Zq_pos. specialize (Hr eq_refl). pose proof (pow2_ge2 (bits - 1) ltac:(lia)). lia.
      - apply Qlt_shift_div_l; [lra|]. assert (0 < Zq (2 ^ bits - 1)) by (apply Zq_pos; lia). lra. }
    exists 0%Z. split; [rewrite <- Hz; reflexivity|].
    assert (Hsp : 0 < s /\ forall x, Qabs x <= sat -> - n <= s * x <= n).
    { destruct (Qeq_bool sat 0) eqn:E0.
      - apply Qeq_bool_iff in E0. assert (S1 : s == 1) by (rewrite <- Hs; field; lra). split; [lra|].
        intros x Hx. apply Qabs_le_inv in Hx. assert (x == 0) by lra. rewrite H, S1. lra.
      - assert (Hp : 0 < sat) by (destruct (Qlt_le_dec 0 sat); auto; assert (sat == 0) as K by lra; apply Qeq_bool_iff in K; congruence).
        assert (S1 : s * sat == n) by (rewrite <- Hs; field; lra).
        assert (Sp : 0 < s) by (rewrite <- Hs; apply Qlt_shift_div_l; lra). split; auto.
        intros x Hx. apply Qabs_le_inv in Hx. nra. }
    destruct Hsp as [Sp Hrx]. split; auto. split; [destruct m; try discriminate; reflexivity|].
    intros x Hx. assert (Hx' : Qabs x <= sat) by (destruct m; try discriminate; exact Hx). specialize (Hrx x Hx').
    change (Zq 0) with 0. unfold mode_range, get_quantized_range. unfold n, sym_n in Hrx.
    destruct m; try discriminate; cbn [mode_is lqmode_eqb negb fst snd] in *.
    + assert (E : Zq (2 ^ bits - 1) / 2 == Zq (2 ^ (bits - 1)) - (1 # 2)).
      { rewrite P2, Zq_minus, Zq_mult. change (Zq 2) with 2. change (Zq 1) with 1. field. }
      rewrite E in Hrx. rewrite !Zq_minus, Zq_opp, Zq_minus. change (Zq 1) with 1. lra.
    + rewrite Zq_opp. lra.
  - unfold asym_params in H0. cbn [combine existsb fst snd map2] in H0. destruct (Qltb mx mn || false); [discriminate|].
    assert (Hx : [asym1 bits true (mode_is (PM m) ASS) mn mx] = x) by congruence. subst x. cbn [first_param] in H. clear H0.
    pose proof (asym1_eq bits (mode_is (PM m) ASS) mn mx Hb) as HA. cbv zeta in HA.
    destruct HA as (s' & z' & k & Ea & Hs & Hz & Hk & Hl & Hh & Hdeg & Hnd). rewrite Ea in H. injection H as <- <-.
    set (lo := qmin mn 0) in *. set (hi := qmax mx 0) in *.
    assert (HN : s' * (hi - lo) <= Zq (2 ^ bits - 1)).
    { destruct (Qeq_dec hi lo) as [E|E]; [|specialize (Hnd E); lra]. destruct (Hdeg E) as (D1 & D2 & D3). rewrite E.
      assert (s' * (lo - lo) == 0) as -> by ring. apply Zq_nonneg. lia. }
    assert (HNd : hi == lo -> Zq (2 ^ bits - 1) >= 0) by (intro; apply Zq_nonneg; lia).
    assert (Hk0 : (k <= 0)%Z) by (rewrite Hk; apply (rhe_le _ 0); change (Zq 0) with 0; nra).
    assert (HkN : (- (2 ^ bits - 1) <= k)%Z).
    { rewrite Hk. apply rhe_ge. rewrite Zq_opp. nra. }
    pose proof (rhe_bounds (s' * lo)) as Kb. rewrite <- Hk in Kb.
    assert (HR : forall x, lo <= x <= hi -> - (1 # 2) <= s' * x - Zq k <= Zq (2 ^ bits - 1) + (1 # 2)).
    { intros x Hx. assert (s' * lo <= s' * x) by (apply Qmult_le_l; lra). assert (s' * x <= s' * hi) by (apply Qmult_le_l; lra).
      assert (s' * (hi - lo) == s' * hi - s' * lo) by ring. lra. }
    exists (k + (if mode_is (PM m) ASS then 2 ^ (bits - 1) else 0))%Z. split; auto. split; auto.
    destruct m; try discriminate; cbn [mode_is lqmode_eqb] in *.
    + split; [unfold zp_range; lia|]. intros x Hx. specialize (HR x Hx). rewrite Z.add_0_r.
      unfold mode_range, get_quantized_range. cbn [mode_is lqmode_eqb negb fst snd]. change (Zq 0) with 0. lra.
    + split; [unfold zp_range; lia|]. intros x Hx. specialize (HR x Hx).
      unfold mode_range, get_quantized_range. cbn [mode_is lqmode_eqb negb fst snd].
      rewrite Zq_plus, !Zq_minus, Zq_opp, Zq_minus. change (Zq 1) with 1.
      rewrite P2, Zq_minus, Zq_mult in HR. change (Zq 1) with 1 in HR. change (Zq 2) with 2 in HR. lra.
Qed.

(** two integers nearest to the same number *)
Lemma near2 t u v : Qabs (Zq u - t) <= 1 # 2 -> Qabs (Zq v - t) <= 1 # 2 -> (Z.abs (u - v) <= 1)%Z.
Proof.
  intros A B. apply Qabs_le_inv in A. apply Qabs_le_inv in B.
  assert (u - v <= 1)%Z by (apply Zq_le; rewrite Zq_minus; change (Zq 1) with 1; lra).
  assert (-1 <= u - v)%Z by (apply Zq_le; rewrite Zq_minus; change (Zq (-1)) with (-1); lra). lia.
Qed.
Lemma near2_eq t u v : Qabs (Zq u - t) <= 1 # 2 -> Qabs (Zq v - t) <= 1 # 2 -> (forall h, ~ t == Zq h + (1 # 2)) -> u = v.
Proof.
  intros A B N. pose proof (near2 t u v A B). apply Qabs_le_inv in A. apply Qabs_le_inv in B.
  destruct (Z.eq_dec u v) as [|D]; auto. exfalso.
  assert (C : (u = v + 1 \/ v = u + 1)%Z) by lia. destruct C as [-> | ->].
  - apply (N v). rewrite Zq_plus in A. change (Zq 1) with 1 in A. lra.
  - apply (N u). rewrite Zq_plus in B. change (Zq 1) with 1 in B. lra.
Qed.

(** the integer of Distiller *)
Definition dq_int (bits : Z) (m : lqmode) (v : Z) : Z :=
  Z.min (Z.max v (fst (mode_range bits (PM m)))) (snd (mode_range bits (PM m))).
Lemma d_quantize_int bits m p x : (1 <= bits)%Z -> d_quantize bits m p x == Zq (dq_int bits m (rhe (fst p * x - snd p))).
Proof.
  intro Hb. unfold d_quantize, linear_quantize_clamp, linear_quantize.
  destruct (clamp_Z (rhe (fst p * x - snd p)) (fst (mode_range bits (PM m))) (snd (mode_range bits (PM m)))) as (c & E & _ & C).
  { pose proof (mode_range_le bits (PM m) Hb). lia. }
  rewrite E. unfold dq_int. rewrite C. reflexivity.
Qed.
