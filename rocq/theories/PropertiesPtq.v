(** C75: conversion of quantization parameters to PyTorch. *)
From Coq Require Import String List ZArith QArith Qabs Qround Qpower Bool Arith Lia Lqa Setoid Morphisms.
From Verif Require Import Base Lists StructModel QuantModel QuantSpec QuantProofs PropertiesQuant RangeModel RangeSpec RangeProofs PtqModel PtqSpec PtqProofs.
Import ListNotations.

Definition dt8 (dt : tdtype) : Prop := dt = QInt8 \/ dt = QUInt8.

Lemma t_valid_gen bits m dt s k : (1 <= bits <= 8)%Z -> dt8 dt -> 0 < s -> zp_range bits m k ->
  t_valid dt (1 / s, (pt_off bits m dt - k)%Z).
Proof.
  intros Hb Hd Hs Hk. split; cbn [fst snd].
  - apply Qlt_shift_div_l; lra.
  - pose proof (pow2_split bits ltac:(lia)). pose proof (pow2_pos (bits - 1) ltac:(lia)).
    assert (2 ^ bits <= 2 ^ 8)%Z by (apply Z.pow_le_mono_r; lia). change (2 ^ 8)%Z with 256%Z in *.
    destruct Hd as [-> | ->], m; unfold zp_range, pt_off, dt_min, dt_max in *; lia.
Qed.

(** the two fake-quantized values, as integers *)
Lemma t_deq_quant rnd dt s zt x (k off : Z) : 0 < s -> zt = (off - k)%Z ->
  t_dequantize (1 / s, zt) (t_quantize rnd dt (1 / s, zt) x) ==
  (Zq (Z.min (Z.max (rnd (x / (1 / s))%Q - k) (dt_min dt - off)) (dt_max dt - off)) + Zq k) / s.
Proof.
  intros Hs ->. unfold t_dequantize, t_quantize. cbn [fst snd]. rewrite <- Zq_plus.
  replace (Z.min (Z.max (rnd (x / (1 / s))%Q - k) (dt_min dt - off)) (dt_max dt - off) + k)%Z
    with (Z.min (Z.max (rnd (x / (1 / s))%Q + (off - k)) (dt_min dt)) (dt_max dt) - (off - k))%Z by lia.
  field. lra.
Qed.
Lemma rnd_near rnd s x k : nearest rnd -> 0 < s -> Qabs (Zq (rnd (x / (1 / s))%Q - k) - (s * x - Zq k)) <= 1 # 2.
Proof.
  intros Hn Hs. rewrite Zq_minus. pose proof (Hn (x / (1 / s))) as K.
  assert (E : Zq (rnd (x / (1 / s))%Q) - Zq k - (s * x - Zq k) == Zq (rnd (x / (1 / s))%Q) - x / (1 / s)) by (field; lra).
  rewrite E. exact K.
Qed.
Lemma d_fq_int bits m s z k x : (1 <= bits)%Z -> 0 < s -> z == Zq k ->
  d_dequantize (s, z) (d_quantize bits m (s, z) x) == (Zq (dq_int bits m (rhe (s * x - Zq k))) + Zq k) / s.
Proof.
  intros Hb Hs Hz. unfold d_dequantize, linear_dequantize. rewrite d_quantize_int by auto. cbn [fst snd].
  rewrite (rhe_Proper (s * x - z) (s * x - Zq k)) by (rewrite Hz; reflexivity).
  generalize (Zq (dq_int bits m (rhe (s * x - Zq k)))). intro w. rewrite Hz. reflexivity.
Qed.
Lemma int_diff s a b k : 0 < s -> (Z.abs (a - b) <= 1)%Z -> Qabs ((Zq a + Zq k) / s - (Zq b + Zq k) / s) <= 1 / s.
Proof.
  intros Hs H. assert (E : (Zq a + Zq k) / s - (Zq b + Zq k) / s == Zq (a - b) / s) by (rewrite Zq_minus; field; lra).
  rewrite E, Qabs_div_pos by auto. apply Qdiv_le_compat; auto. apply Qabs_le.
  - change (- (1)) with (Zq (-1)). apply (proj1 (Zq_le _ _)). lia.
  - change 1 with (Zq 1). apply (proj1 (Zq_le _ _)). lia.
Qed.

(** the range of PyTorch's integers, in Distiller's frame, contains Distiller's range and, with 8 bits, extends
    it by one value at most, in the restricted mode *)
Lemma frame bits m dt : (1 <= bits <= 8)%Z -> dt8 dt ->
  let r := mode_range bits (PM m) in let off := pt_off bits m dt in
  (dt_min dt - off <= fst r /\ fst r <= snd r /\ snd r <= dt_max dt - off)%Z /\
  (bits = 8%Z -> (snd r = dt_max dt - off /\ dt_min dt - off = if lqmode_eqb m SYMR then fst r - 1 else fst r)%Z).
Proof.
  intros Hb Hd r off. pose proof (pow2_split bits ltac:(lia)). pose proof (pow2_pos (bits - 1) ltac:(lia)).
  assert (2 ^ bits <= 2 ^ 8)%Z by (apply Z.pow_le_mono_r; lia). change (2 ^ 8)%Z with 256%Z in *.
  unfold r, off, mode_range, get_quantized_range, pt_off.
  split; [|intros ->]; destruct Hd as [-> | ->], m; cbn [mode_is lqmode_eqb negb fst snd dt_min dt_max]; try lia.
Qed.

(** C75: with parameters made from any saturation range, for up to 8 bits, every mode and both 8-bit dtypes: the
    converted parameters are valid in PyTorch, and PyTorch's quantize / dequantize of any value in the range
    gives Distiller's value, up to one step when the value is exactly half way between two steps.  With 8 bits
    that also holds outside the range. *)
Theorem C75_same_values :
  forall bits m mn mx p dt rnd, mode_ok bits (PM m) -> (bits <= 8)%Z -> dt8 dt -> nearest rnd ->
  params_from_range bits (PM m) mn mx = Ok p ->
  exists c, qparams_to_pytorch [p] bits m dt false = Ok [c] /\ t_valid dt c /\ fst c == 1 / fst p /\
  forall x,
    let t := t_dequantize c (t_quantize rnd dt c x) in
    let d := d_dequantize p (d_quantize bits m p x) in
    let tie := exists h, fst p * x == Zq h + (1 # 2) in
    (d_in_range m mn mx x \/ bits = 8%Z -> Qabs (t - d) <= fst c) /\
    (d_in_range m mn mx x \/ (bits = 8%Z /\ m <> SYMR) -> ~ tie -> t == d).
Proof.
  intros bits m mn mx [s z] dt rnd Hok Hb8 Hd Hn Hp. pose proof Hok as [Hb _].
  destruct (range_facts bits m mn mx s z Hok Hp) as (k & Hz & Hs & Hk & Hin).
  assert (Hd' : dt <> QInt32) by (destruct Hd as [-> | ->]; discriminate).
  assert (Hk0 : is_sym (PM m) = true -> k = 0%Z) by (destruct m; try discriminate; intros _; exact Hk).
  exists (1 / s, (pt_off bits m dt - k)%Z). split.
  { unfold qparams_to_pytorch. assert (tdtype_eqb dt QInt32 = false) as -> by (destruct Hd as [-> | ->]; reflexivity).
    assert ((if is_sym (PM m) && tdtype_eqb dt QUInt8 then false else false) = false) as -> by (destruct (is_sym (PM m) && tdtype_eqb dt QUInt8); auto).
    cbn [map]. rewrite (convert1_eq bits m dt s z k) by auto. reflexivity. }
  split; [apply t_valid_gen; auto; lia|]. split; [reflexivity|].
  intros x t d tie. cbn [fst] in *.
  destruct (frame bits m dt ltac:(lia) Hd) as [(F1 & F2 & F3) F4]. set (off := pt_off bits m dt) in *.
  set (r := mode_range bits (PM m)) in *.
  set (u := (rnd (x / (1 / s))%Q - k)%Z). set (v := rhe (s * x - Zq k)).
  pose proof (rnd_near rnd s x k Hn Hs) as Nu. fold u in Nu. pose proof (rhe_err (s * x - Zq k)) as Nv. fold v in Nv.
  pose proof (near2 _ _ _ Nu Nv) as N1.
  assert (Et : t == (Zq (Z.min (Z.max u (dt_min dt - off)) (dt_max dt - off)) + Zq k) / s) by (apply t_deq_quant; auto).
  assert (Ed : d == (Zq (dq_int bits m v) + Zq k) / s) by (apply d_fq_int; auto).
  unfold dq_int in Ed. fold r in Ed.
  assert (Hir : d_in_range m mn mx x -> (fst r - 1 <= v <= snd r + 1)%Z /\ (fst r - 1 <= u <= snd r + 1)%Z /\
     ((u = fst r - 1 -> v <= fst r) /\ (v = fst r - 1 -> u <= fst r) /\ (u = snd r + 1 -> snd r <= v) /\ (v = snd r + 1 -> snd r <= u))%Z).
  { intro Hx. specialize (Hin x Hx). fold r in Hin. apply Qabs_le_inv in Nu. apply Qabs_le_inv in Nv.
    assert (G : forall w, Zq w - (s * x - Zq k) <= 1 # 2 -> - (1 # 2) <= Zq w - (s * x - Zq k) -> (fst r - 1 <= w <= snd r + 1)%Z).
    { intros w W1 W2. split; apply Zq_le; rewrite ?Zq_minus, ?Zq_plus; change (Zq 1) with 1; lra. }
    split; [apply G; lra|]. split; [apply G; lra|]. lia. }
  split.
  - intro Hx. rewrite Et, Ed. apply int_diff; auto. destruct Hx as [Hx|Hx].
    + specialize (Hir Hx). lia.
    + destruct (F4 Hx) as [G1 G2]. destruct (lqmode_eqb m SYMR); lia.
  - intros Hx Ht. assert (Euv : u = v).
    { apply (near2_eq (s * x - Zq k)); auto. intros h Eh. apply Ht. exists (h + k)%Z. rewrite Zq_plus. lra. }
    rewrite Et, Ed, Euv. destruct Hx as [Hx|[Hx Hm]].
    + assert (Hv : (fst r <= v <= snd r)%Z).
      { specialize (Hin x Hx). fold r in Hin. apply Qabs_le_inv in Nv.
        assert (A : ~ (v <= fst r - 1)%Z).
        { intro K. apply Ht. exists (v + k)%Z. apply Zq_le in K. rewrite Zq_minus in K. change (Zq 1) with 1 in K. rewrite Zq_plus. lra. }
        assert (B : ~ (snd r + 1 <= v)%Z).
        { intro K. apply Ht. exists (snd r + k)%Z. apply Zq_le in K. rewrite Zq_plus in K. change (Zq 1) with 1 in K. rewrite Zq_plus. lra. }
        lia. }
      replace (Z.min (Z.max v (dt_min dt - off)) (dt_max dt - off)) with (Z.min (Z.max v (fst r)) (snd r)) by lia. reflexivity.
    + destruct (F4 Hx) as [G1 G2]. assert (lqmode_eqb m SYMR = false) as K by (destruct m; auto; congruence). rewrite K in G2.
      replace (Z.min (Z.max v (dt_min dt - off)) (dt_max dt - off)) with (Z.min (Z.max v (fst r)) (snd r)) by lia. reflexivity.
Qed.

(** C75: several channels are converted one by one. *)
Theorem C75_per_channel :
  forall par bits m dt reduce,
  (forall c, qparams_to_pytorch par bits m dt reduce = Ok c ->
     length c = length par /\ forall i p, nth_error par i = Some p -> exists q, nth_error c i = Some q /\ qparams_to_pytorch [p] bits m dt reduce = Ok [q]) /\
  (forall e, qparams_to_pytorch par bits m dt reduce = Raise e -> forall p, qparams_to_pytorch [p] bits m dt reduce = Raise e).
Proof.
  intros par bits m dt reduce. unfold qparams_to_pytorch. destruct (tdtype_eqb dt QInt32); [split; [discriminate|congruence]|].
  set (rd := if is_sym (PM m) && tdtype_eqb dt QUInt8 then false else reduce). destruct rd.
  - destruct (negb (bits =? 8)%Z); [split; [discriminate|congruence]|].
    destruct (is_sym (PM m) && tdtype_eqb dt QUInt8); [split; [discriminate|congruence]|].
    split; [|discriminate]. intros c H. assert (map (convert1 7 m dt) (map (reduce1 m) par) = c) as <- by congruence.
    rewrite !map_length. split; auto. intros i p Hp. exists (convert1 7 m dt (reduce1 m p)). split; auto.
    rewrite map_map. erewrite map_nth_error; eauto.
  - split; [|discriminate]. intros c H. assert (map (convert1 bits m dt) par = c) as <- by congruence.
    rewrite map_length. split; auto. intros i p Hp. exists (convert1 bits m dt p). split; auto.
    erewrite map_nth_error; eauto.
Qed.

(** C75: what is refused: the dtype qint32; reduce_range with a number of bits other than 8 (ignored for a symmetric
    mode with quint8).  The NotImplementedError of the code never happens. *)
Theorem C75_refused :
  forall par bits m dt reduce e,
  qparams_to_pytorch par bits m dt reduce = Raise e <->
  e = AssertionError /\ (dt = QInt32 \/ (reduce = true /\ bits <> 8%Z /\ ~ (is_sym (PM m) = true /\ dt = QUInt8))).
Proof.
  intros par bits m dt reduce e. unfold qparams_to_pytorch.
  destruct (tdtype_eqb dt QInt32) eqn:E1.
  - assert (dt = QInt32) as -> by (destruct dt; try discriminate; auto). split; [intro H; split; [congruence|auto]|intros [-> _]; auto].
  - assert (N1 : dt <> QInt32) by (intros ->; discriminate).
    assert (Hi : is_sym (PM m) && tdtype_eqb dt QUInt8 = true <-> (is_sym (PM m) = true /\ dt = QUInt8)).
    { rewrite andb_true_iff. split; intros [A B]; split; auto; [destruct dt; try discriminate; auto|rewrite B; auto]. }
    destruct (is_sym (PM m) && tdtype_eqb dt QUInt8) eqn:E2.
    + split; [discriminate|]. intros [_ [A|(_ & _ & A)]]; [congruence|]. exfalso. apply A. apply Hi. auto.
    + assert (N2 : ~ (is_sym (PM m) = true /\ dt = QUInt8)) by (intro A; apply Hi in A; discriminate).
      destruct reduce.
      * destruct (Z.eqb_spec bits 8) as [->|N3]; cbn [negb].
        -- split; [discriminate|]. intros [_ [A|(_ & A & _)]]; congruence.
        -- split; [intro H; split; [congruence|auto]|]. intros [-> _]. auto.
      * split; [discriminate|]. intros [_ [A|(A & _)]]; congruence.
Qed.

Lemma scale_7 m mn mx s z s7 z7 : m <> SYM -> ~ (mn == 0 /\ mx == 0) ->
  params_from_range 8 (PM m) mn mx = Ok (s, z) -> params_from_range 7 (PM m) mn mx = Ok (s7, z7) ->
  s7 == s * (if is_sym (PM m) then 63 / 127 else 127 / 255).
Proof.
  intros Hm Hnz H8 H7. unfold params_from_range in H8, H7. inv_bind H8. inv_bind H7.
  destruct (is_sym (PM m)) eqn:Es.
  - assert (mode_is (PM m) SYMR = true) as Er by (destruct m; auto; congruence). rewrite Er in *.
    unfold sym_params in H, H0. cbn [existsb map] in H, H0. set (sat := qmax (Qabs mn) (Qabs mx)) in *.
    destruct (Qltb sat 0 || false); [discriminate|].
    assert (Hs : sym_n 8 true / (if Qeq_bool sat 0 then sym_n 8 true else sat) = s).
    { assert ([sym1 8 true sat] = x) by congruence. subst x. cbn [first_param] in H8.
      exact (f_equal (fun r => match r with Ok p => fst p | _ => 0 end) H8). }
    assert (Hs7 : sym_n 7 true / (if Qeq_bool sat 0 then sym_n 7 true else sat) = s7).
    { assert ([sym1 7 true sat] = x0) by congruence. subst x0. cbn [first_param] in H7.
      exact (f_equal (fun r => match r with Ok p => fst p | _ => 0 end) H7). }
    assert (E0 : Qeq_bool sat 0 = false).
    { apply not_true_is_false. intro K. apply Qeq_bool_iff in K. apply Hnz.
      pose proof (qmax_l (Qabs mn) (Qabs mx)). pose proof (qmax_r (Qabs mn) (Qabs mx)). fold sat in H1, H2.
      pose proof (Qabs_le mn 0). assert (Qabs mn <= 0) as K1 by lra. assert (Qabs mx <= 0) as K2 by lra.
      apply Qabs_le_inv in K1. apply Qabs_le_inv in K2. split; lra. }
    rewrite E0 in Hs, Hs7. rewrite <- Hs, <- Hs7. unfold sym_n. change (Zq (2 ^ (8 - 1) - 1)) with 127. change (Zq (2 ^ (7 - 1) - 1)) with 63.
    field. intro K. apply Qeq_bool_iff in K. congruence.
  - unfold asym_params in H, H0. cbn [combine existsb fst snd map2] in H, H0. destruct (Qltb mx mn || false) eqn:El; [discriminate|].
    rewrite orb_false_r in El. apply Qltb_ge in El.
    assert (Hx : [asym1 8 true (mode_is (PM m) ASS) mn mx] = x) by congruence. subst x.
    assert (Hx : [asym1 7 true (mode_is (PM m) ASS) mn mx] = x0) by congruence. subst x0. cbn [first_param] in *.
    destruct (asym1_eq 8 (mode_is (PM m) ASS) mn mx ltac:(lia)) as (s' & z' & k & Ea & Hs & Hz & Hk & Hl & Hh & Hdeg & Hnd).
    destruct (asym1_eq 7 (mode_is (PM m) ASS) mn mx ltac:(lia)) as (t' & w' & k' & Ea' & Ht & Hz' & Hk' & _ & _ & _ & Hnd').
    rewrite Ea in H8. rewrite Ea' in H7. injection H8 as <- _. injection H7 as <- _.
    assert (Hne : ~ qmax mx 0 == qmin mn 0).
    { intro K. apply Hnz. destruct (qmax_spec mx 0) as [[? E]|[? E]], (qmin_spec mn 0) as [[? F]|[? F]]; rewrite E, F in *; split; lra. }
    specialize (Hnd Hne). specialize (Hnd' Hne). change (Zq (2 ^ 8 - 1)) with 255 in Hnd. change (Zq (2 ^ 7 - 1)) with 127 in Hnd'.
    set (dd := qmax mx 0 - qmin mn 0) in *. assert (Hd : ~ dd == 0) by (unfold dd; lra).
    assert (E1 : s' == 255 / dd) by (rewrite <- Hnd; field; auto). assert (E2 : t' == 127 / dd) by (rewrite <- Hnd'; field; auto).
    rewrite E1, E2. field. auto.
Qed.

(** C75: reduce_range (8 bits to 7).  The step is that of 7-bit parameters for the same range; the quantized value of
    any number in the range fits in 7 bits up to one more step at either end, and stands for the number with an
    error of at most 3/4 of a step. *)
Theorem C75_reduce_range :
  forall m mn mx p dt rnd, dt8 dt -> ~ (is_sym (PM m) = true /\ dt = QUInt8) -> nearest rnd ->
  params_from_range 8 (PM m) mn mx = Ok p ->
  exists c, qparams_to_pytorch [p] 8 m dt true = Ok [c] /\ t_valid dt c /\
  (m <> SYM -> ~ (mn == 0 /\ mx == 0) -> forall p7, params_from_range 7 (PM m) mn mx = Ok p7 -> fst c == 1 / fst p7) /\
  forall x, d_in_range m mn mx x ->
    let q := t_quantize rnd dt c x in
    (match dt with QInt8 => -65 <= q <= 64 | _ => 0 <= q <= 128 end)%Z /\
    Qabs (t_dequantize c q - x) <= (3 # 4) * fst c.
Proof.
  intros m mn mx [s z] dt rnd Hd Hns Hn Hp.
  assert (Hok : mode_ok 8 (PM m)) by (split; [lia|intros; lia]).
  destruct (range_facts 8 m mn mx s z Hok Hp) as (k & Hz & Hs & Hk & Hin).
  assert (Hd' : dt <> QInt32) by (destruct Hd as [-> | ->]; discriminate).
  set (ratio := if is_sym (PM m) then 63 / 127 else 127 / 255).
  set (k' := if is_sym (PM m) then 0%Z else rhe ((Zq k - (if lqmode_eqb m ASS then 128 else 0)) * (127 / 255) + (if lqmode_eqb m ASS then 128 else 0) / 2)).
  assert (Hr0 : 0 < ratio < (1 # 2)) by (unfold ratio; destruct (is_sym (PM m)); split; reflexivity).
  assert (Er : exists z', reduce1 m (s, z) = (s * ratio, z') /\ z' == Zq k').
  { unfold reduce1, ratio, k'. destruct (is_sym (PM m)) eqn:Es; cbn [fst snd]; eexists; split; try reflexivity.
    - rewrite Hz. destruct m; try discriminate; unfold zp_range in Hk; rewrite Hk; reflexivity.
    - unfold Zq at 1. apply inject_Z_injective. apply rhe_Proper. rewrite Hz. reflexivity. }
  destruct Er as (z' & Er & Hz').
  set (s' := s * ratio) in *. assert (Hs' : 0 < s') by (unfold s'; nra).
  assert (Hk0 : is_sym (PM m) = true -> k' = 0%Z) by (unfold k'; intros ->; auto).
  exists (1 / s', (pt_off 7 m dt - k')%Z). split.
  { unfold qparams_to_pytorch. assert (tdtype_eqb dt QInt32 = false) as -> by (destruct Hd as [-> | ->]; reflexivity).
    assert (is_sym (PM m) && tdtype_eqb dt QUInt8 = false) as ->.
    { apply not_true_is_false. rewrite andb_true_iff. intros [A B]. apply Hns. split; auto. destruct dt; try discriminate; auto. }
    cbn [map Z.eqb Pos.eqb negb]. rewrite Er. rewrite (convert1_eq 7 m dt s' z' k'); auto. }
  (* the converted zero point *)
  assert (Hkr : zp_range 7 m k' /\ (is_sym (PM m) = false -> Qabs (Zq k' - (Zq k * (127 / 255) + (if lqmode_eqb m ASS then 64 - 128 * (127 / 255) else 0))) <= 1 # 2)).
  { destruct m; unfold k', zp_range in *; cbn [is_sym mode_is lqmode_eqb orb] in *; try (split; [reflexivity|discriminate]).
    - change (2 ^ 8 - 1)%Z with 255%Z in Hk. change (2 ^ 7 - 1)%Z with 127%Z.
      destruct Hk as [K1 K2]. apply Zq_le in K1. apply Zq_le in K2. rewrite Zq_opp in K1. change (Zq 255) with 255 in K1. change (Zq 0) with 0 in K2.
      assert (Ez : (Zq k - 0) * (127 / 255) + 0 / 2 == Zq k * (127 / 255)) by field. rewrite (rhe_Proper _ _ Ez).
      split; [split|intros _].
      + apply rhe_ge. rewrite Zq_opp. change (Zq 127) with 127. change (127 / 255) with ((127 # 255) * 1) . assert (127 / 255 == 127 # 255) as E by reflexivity. setoid_replace ((127 # 255) * 1) with (127 # 255) by reflexivity. lra.
      + apply (rhe_le _ 0). change (Zq 0) with 0. setoid_replace (127 / 255) with (127 # 255) by reflexivity. lra.
      + pose proof (rhe_err (Zq k * (127 / 255))). rewrite Qplus_0_r. auto.
    - change (2 ^ 8 - 1)%Z with 255%Z in Hk. change (2 ^ (8 - 1))%Z with 128%Z in Hk. change (2 ^ 7 - 1)%Z with 127%Z. change (2 ^ (7 - 1))%Z with 64%Z.
      destruct Hk as [K1 K2]. apply Zq_le in K1. apply Zq_le in K2. change (Zq (-(255) + 128)) with (-127 # 1) in K1. change (Zq 128) with 128 in K2.
      assert (Ez : (Zq k - 128) * (127 / 255) + 128 / 2 == Zq k * (127 / 255) + (64 - 128 * (127 / 255))) by field. rewrite (rhe_Proper _ _ Ez).
      split; [split|intros _].
      + apply rhe_ge. change (Zq (-(127) + 64)) with (-63 # 1). setoid_replace (127 / 255) with (127 # 255) by reflexivity. lra.
      + apply (rhe_le _ 64). change (Zq 64) with 64. setoid_replace (127 / 255) with (127 # 255) by reflexivity. lra.
      + apply rhe_err. }
  destruct Hkr as [Hkr Hke].
  split; [apply t_valid_gen; auto; lia|]. split.
  { intros Hm Hnz [s7 z7] H7. cbn [fst]. pose proof (scale_7 m mn mx s z s7 z7 Hm Hnz Hp H7) as E. fold ratio in E. rewrite E. reflexivity. }
  intros x Hx q. specialize (Hin x Hx).
  assert (Eq : q = (Z.min (Z.max ((rnd (x / (1 / s')))%Q - k') (dt_min dt - pt_off 7 m dt)) (dt_max dt - pt_off 7 m dt) + pt_off 7 m dt)%Z).
  { unfold q, t_quantize. cbn [fst snd]. lia. }
  assert (Et : t_dequantize (1 / s', (pt_off 7 m dt - k')%Z) q == (Zq (q - pt_off 7 m dt) + Zq k') / s').
  { unfold t_dequantize. cbn [fst snd]. rewrite !Zq_minus. field. lra. }
  pose proof (rnd_near rnd s' x k' Hn Hs') as Nu. set (u := (rnd (x / (1 / s'))%Q - k')%Z) in *.
  set (v := s' * x - Zq k') in *.
  (* v stays in the 7-bit range up to 3/4 of a step *)
  assert (Hv : Zq (fst (mode_range 7 (PM m))) - (3 # 4) < v < Zq (snd (mode_range 7 (PM m))) + (3 # 4)).
  { unfold v, s', ratio, mode_range, get_quantized_range in *.
    destruct m; unfold zp_range in *; cbn [is_sym mode_is lqmode_eqb orb negb fst snd] in *.
    - rewrite Hk in Hin. rewrite Hkr. change (Zq 0) with 0 in *. change (Zq (- (2 ^ (8 - 1) - 1) - 1)) with (-128 # 1) in Hin. change (Zq (2 ^ (8 - 1) - 1)) with 127 in Hin.
      change (Zq (- (2 ^ (7 - 1) - 1) - 1)) with (-64 # 1). change (Zq (2 ^ (7 - 1) - 1)) with 63. setoid_replace (63 / 127) with (63 # 127) by reflexivity. lra.
    - rewrite Hk in Hin. rewrite Hkr. change (Zq 0) with 0 in *. change (Zq (- (2 ^ (8 - 1) - 1))) with (-127 # 1) in Hin. change (Zq (2 ^ (8 - 1) - 1)) with 127 in Hin.
      change (Zq (- (2 ^ (7 - 1) - 1))) with (-63 # 1). change (Zq (2 ^ (7 - 1) - 1)) with 63. setoid_replace (63 / 127) with (63 # 127) by reflexivity. lra.
    - specialize (Hke eq_refl). apply Qabs_le_inv in Hke. change (Zq 0) with 0 in *. change (Zq (2 ^ 8 - 1)) with 255 in Hin. change (Zq (2 ^ 7 - 1)) with 127.
      setoid_replace (127 / 255) with (127 # 255) in Hke by reflexivity. setoid_replace (127 / 255) with (127 # 255) by reflexivity. lra.
    - specialize (Hke eq_refl). apply Qabs_le_inv in Hke. change (Zq (- (2 ^ (8 - 1) - 1) - 1)) with (-128 # 1) in Hin. change (Zq (2 ^ (8 - 1) - 1)) with 127 in Hin.
      change (Zq (- (2 ^ (7 - 1) - 1) - 1)) with (-64 # 1). change (Zq (2 ^ (7 - 1) - 1)) with 63.
      setoid_replace (127 / 255) with (127 # 255) in Hke by reflexivity. setoid_replace (127 / 255) with (127 # 255) by reflexivity. lra. }
  apply Qabs_le_inv in Nu.
  set (lo := fst (mode_range 7 (PM m))) in *. set (hi := snd (mode_range 7 (PM m))) in *.
  assert (Hu : (lo - 1 <= u <= hi + 1)%Z).
  { split; apply Z.lt_succ_r; apply Zq_lt; unfold Z.succ; rewrite ?Zq_plus, ?Zq_minus; change (Zq 1) with 1; lra. }
  assert (Hlh : (fst (mode_range 7 (PM m)) = if is_sym (PM m) then (if lqmode_eqb m SYMR then -63 else -64) else if lqmode_eqb m ASS then -64 else 0)%Z /\
    (snd (mode_range 7 (PM m)) = if lqmode_eqb m ASU then 127 else 63)%Z) by (destruct m; split; reflexivity).
  fold lo hi in Hlh. destruct Hlh as [Hlo Hhi].
  assert (Hcase : (q - pt_off 7 m dt = u \/ (u = lo - 1 /\ q - pt_off 7 m dt = lo))%Z /\ match dt with QInt8 => -65 <= q <= 64 | _ => 0 <= q <= 128 end%Z).
  { rewrite Eq. clear - Hd Hns Hu Hlo Hhi. destruct Hd as [-> | ->], m; cbn [is_sym mode_is lqmode_eqb orb] in *; try (exfalso; apply Hns; auto; fail);
    unfold pt_off, dt_min, dt_max; cbn; lia. }
  destruct Hcase as [Hcase Hq]. split; auto. rewrite Et. cbn [fst].
  assert (Ev : x == (v + Zq k') / s') by (unfold v; field; lra).
  assert (Ed : (Zq (q - pt_off 7 m dt) + Zq k') / s' - x == (Zq (q - pt_off 7 m dt) - v) / s') by (rewrite Ev at 1; field; lra).
  rewrite Ed, Qabs_div_pos by auto. assert (E34 : (3 # 4) * (1 / s') == (3 # 4) / s') by (field; lra). rewrite E34.
  apply Qdiv_le_compat; auto. apply Qabs_le; destruct Hcase as [-> | [C1 ->]]; try lra.
  - rewrite C1, Zq_minus in Nu. change (Zq 1) with 1 in Nu. lra.
Qed.

(** C75: the engine decides about reduce_range: for FBGEMM it is asked for except where it is not supported, and for
    QNNPACK never.  So with the flag computed by the code, the conversion of 8-bit parameters always succeeds. *)
Theorem C75_engine :
  forall eng m dt p, dt8 dt -> (need_reduce_range eng m dt = true <-> eng = FBGEMM /\ ~ (is_sym (PM m) = true /\ dt = QUInt8)) /\
  exists c, qparams_to_pytorch [p] 8 m dt (need_reduce_range eng m dt) = Ok [c].
Proof.
  intros eng m dt p Hd. split.
  - destruct eng, m, Hd as [-> | ->]; cbn; split; intro H; try discriminate; auto; try (split; auto; intros [? ?]; discriminate);
      destruct H as [? H]; try discriminate; exfalso; apply H; auto.
  - destruct eng, m, Hd as [-> | ->]; cbn; eexists; reflexivity.
Qed.

Example C75_ex :
  exists p c, params_from_range 8 (PM ASS) (-1) 3 = Ok p /\ qparams_to_pytorch [p] 8 ASS QUInt8 false = Ok [c] /\
    snd c = 64%Z /\ fst c == 4 / 255 /\ t_quantize rhe QUInt8 c 2 = 192%Z.
Proof. do 2 eexists. split; [reflexivity|]. split; [reflexivity|]. repeat split; vm_compute; reflexivity. Qed.
Example C75_ex_reduced :
  exists p c, params_from_range 8 (PM ASU) (-1) 3 = Ok p /\ qparams_to_pytorch [p] 8 ASU QUInt8 true = Ok [c] /\
    snd c = 32%Z /\ fst c == 4 / 127 /\ t_quantize rhe QUInt8 c 3 = 127%Z.
Proof. do 2 eexists. split; [reflexivity|]. split; [reflexivity|]. repeat split; vm_compute; reflexivity. Qed.

(** C75: reduce_range does not keep the quantized values within 7 bits: rounding the zero-point twice can add a step. *)
Theorem C75_reduce_overflow_refuted :
  exists mn mx p c, params_from_range 8 (PM ASU) mn mx = Ok p /\ qparams_to_pytorch [p] 8 ASU QUInt8 true = Ok [c] /\
    mn <= mx /\ t_quantize rhe QUInt8 c mx = 128%Z.
Proof.
  exists (-2536 # 10), (14 # 10). do 2 eexists. split; [reflexivity|]. split; [reflexivity|]. split; vm_compute; [discriminate|reflexivity].
Qed.

(** C75: for SYMMETRIC (not restricted) reduce_range uses the ratio of the restricted mode, so the step differs from that
    of 7-bit parameters of the same range (63/127 instead of 127/255). *)
Theorem C75_reduce_symmetric_refuted :
  exists p c p7, params_from_range 8 (PM SYM) (-1) 1 = Ok p /\ qparams_to_pytorch [p] 8 SYM QInt8 true = Ok [c] /\
    params_from_range 7 (PM SYM) (-1) 1 = Ok p7 /\ ~ fst c == 1 / fst p7.
Proof. do 3 eexists. split; [reflexivity|]. split; [reflexivity|]. split; [reflexivity|]. vm_compute. discriminate. Qed.

(** C75: with fewer than 8 bits the saturation of Distiller is lost: PyTorch saturates at the 8-bit range. *)
Theorem C75_saturation_lost_refuted :
  exists p c, params_from_range 4 (PM ASU) 0 1 = Ok p /\ qparams_to_pytorch [p] 4 ASU QUInt8 false = Ok [c] /\
    d_dequantize p (d_quantize 4 ASU p 10) == 1 /\ t_dequantize c (t_quantize rhe QUInt8 c 10) == 10.
Proof. do 2 eexists. split; [reflexivity|]. split; [reflexivity|]. split; vm_compute; reflexivity. Qed.

Print Assumptions C75_same_values.
Print Assumptions C75_per_channel.
Print Assumptions C75_refused.
Print Assumptions C75_reduce_range.
Print Assumptions C75_engine.
Print Assumptions C75_reduce_overflow_refuted.
Print Assumptions C75_reduce_symmetric_refuted.
Print Assumptions C75_saturation_lost_refuted.
