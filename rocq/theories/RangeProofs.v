(** Lemmas about the range-linear wrappers. *)
From Coq Require Import String List ZArith QArith Qabs Qround Qpower Bool Arith Lia Lqa Setoid Morphisms.
From Verif Require Import Base Lists StructModel QuantModel QuantSpec QuantProofs PropertiesQuant RangeModel RangeSpec.
Import ListNotations.

(** * Clamping and rounding *)
Lemma clamp_lip x y lo hi c d : lo <= hi -> is_clamp x lo hi c -> is_clamp y lo hi d -> Qabs (c - d) <= Qabs (x - y).
Proof.
  intros H (A1 & A2 & A3 & A4 & A5) (B1 & B2 & B3 & B4 & B5).
  pose proof (Qle_Qabs (x - y)) as K1. pose proof (Qle_Qabs (- (x - y))) as K2. rewrite Qabs_opp in K2.
  destruct (Qlt_le_dec x lo) as [X|X]; [specialize (A3 ltac:(lra))|destruct (Qlt_le_dec hi x) as [X'|X']; [specialize (A4 ltac:(lra))|specialize (A5 X X')]];
  (destruct (Qlt_le_dec y lo) as [Y|Y]; [specialize (B3 ltac:(lra))|destruct (Qlt_le_dec hi y) as [Y'|Y']; [specialize (B4 ltac:(lra))|specialize (B5 Y Y')]]);
  apply Qabs_le; lra.
Qed.

Lemma relu_lip x y : Qabs (relu x - relu y) <= Qabs (x - y).
Proof.
  unfold relu. pose proof (Qle_Qabs (x - y)) as K1. pose proof (Qle_Qabs (- (x - y))) as K2. rewrite Qabs_opp in K2.
  destruct (qmax_spec x 0) as [[? ->]|[? ->]], (qmax_spec y 0) as [[? ->]|[? ->]]; apply Qabs_le; lra.
Qed.
Lemma relu_if_lip h x y : Qabs (relu_if h x - relu_if h y) <= Qabs (x - y).
Proof. destruct h; [apply relu_lip|apply Qle_refl]. Qed.
Lemma relu_scale s x : 0 < s -> relu (x / s) == relu x / s.
Proof.
  intro Hs. unfold relu. assert (Hi : 0 < / s) by (apply Qinv_lt_0_compat; auto).
  destruct (qmax_spec x 0) as [[A ->]|[A ->]], (qmax_spec (x / s) 0) as [[B ->]|[B ->]]; try (unfold Qdiv; ring).
  - assert (x / s <= 0). { unfold Qdiv. rewrite <- (Qmult_0_l (/ s)). apply Qmult_le_compat_r; lra. } lra.
  - assert (0 < x / s). { unfold Qdiv. rewrite <- (Qmult_0_l (/ s)). apply Qmult_lt_r; lra. } lra.
Qed.

Lemma Qabs_tri3 a b c : Qabs (a - c) <= Qabs (a - b) + Qabs (b - c).
Proof. assert (E : a - c == (a - b) + (b - c)) by ring. rewrite E. apply Qabs_triangle. Qed.

Lemma Qabs_div_pos x s : 0 < s -> Qabs (x / s) == Qabs x / s.
Proof.
  intro H. unfold Qdiv. rewrite Qabs_Qmult. rewrite (Qabs_pos (/ s)); [reflexivity|].
  apply Qlt_le_weak, Qinv_lt_0_compat; auto.
Qed.
Lemma Qdiv_le_compat x y s : 0 < s -> x <= y -> x / s <= y / s.
Proof. intros. unfold Qdiv. apply Qmult_le_compat_r; auto. apply Qlt_le_weak, Qinv_lt_0_compat; auto. Qed.

(** quantize to [lo,hi] and back: half a step from the clamped value *)
Lemma fq_err v scale zp lo hi c : 0 < scale -> (lo <= hi)%Z ->
  is_clamp v (linear_dequantize (Zq lo) scale zp) (linear_dequantize (Zq hi) scale zp) c ->
  Qabs (fq v scale zp lo hi - c) <= 1 / (2 * scale).
Proof.
  intros Hs Hlh (C1 & C2 & C3 & C4 & C5). unfold linear_dequantize in *.
  assert (K : forall a b, a <= b / scale <-> scale * a <= b).
  { intros a b. split; intro H.
    - assert (scale * a <= scale * (b / scale)) by (apply Qmult_le_l; auto). assert (scale * (b / scale) == b) by (field; lra). lra.
    - apply Qle_shift_div_l; auto. lra. }
  assert (K' : forall a b, b / scale <= a <-> b <= scale * a).
  { intros a b. split; intro H.
    - assert (scale * (b / scale) <= scale * a) by (apply Qmult_le_l; auto). assert (scale * (b / scale) == b) by (field; lra). lra.
    - apply Qle_shift_div_r; auto. lra. }
  apply K' in C1. apply K in C2.
  destruct (quant_err scale zp lo hi Hs Hlh c v) as (q & A & B & D); [lra|lra| |].
  - destruct (Qlt_le_dec (scale * v) (Zq lo + zp)) as [L|L].
    + right; left. assert (E : v <= (Zq lo + zp) / scale) by (apply K; lra). specialize (C3 E).
      split; [lra|]. rewrite C3. assert (scale * ((Zq lo + zp) / scale) == Zq lo + zp) by (field; lra). lra.
    + destruct (Qlt_le_dec (Zq hi + zp) (scale * v)) as [G|G].
      * right; right. assert (E : (Zq hi + zp) / scale <= v) by (apply K'; lra). specialize (C4 E).
        split; [lra|]. rewrite C4. assert (scale * ((Zq hi + zp) / scale) == Zq hi + zp) by (field; lra). lra.
      * left. symmetry. apply C5; [apply K'|apply K]; lra.
  - unfold fq. rewrite A. auto.
Qed.

Lemma deq_le scale zp lo hi : 0 < scale -> (lo <= hi)%Z ->
  linear_dequantize (Zq lo) scale zp <= linear_dequantize (Zq hi) scale zp.
Proof. intros Hs H. unfold linear_dequantize. apply Qdiv_le_compat; auto. apply (proj1 (Zq_le _ _)) in H. lra. Qed.

(** the final requantization step *)
Lemma finish_err bits m half rs out acc sacc y e c :
  0 < fst out -> 0 < sacc -> rs == fst out / sacc ->
  let r := mode_range bits (PM m) in (fst r <= snd r)%Z ->
  Qabs (acc / sacc - y) <= e ->
  is_clamp (relu_if half y) (linear_dequantize (Zq (fst r)) (fst out) (snd out)) (linear_dequantize (Zq (snd r)) (fst out) (snd out)) c ->
  Qabs (finish bits m half rs out acc - c) <= 1 / (2 * fst out) + e.
Proof.
  intros Hs Ha Hrs r Hlh He Hc. unfold finish. fold r.
  set (acc' := if half then relu acc else acc).
  assert (E0 : acc' / sacc == relu_if half (acc / sacc)).
  { unfold acc', relu_if. destruct half; [rewrite relu_scale by auto|]; reflexivity. }
  set (v := relu_if half (acc / sacc)).
  assert (E1 : linear_quantize_clamp acc' rs (snd out) (Zq (fst r)) (Zq (snd r)) = linear_quantize_clamp v (fst out) (snd out) (Zq (fst r)) (Zq (snd r))).
  { unfold linear_quantize_clamp, linear_quantize. do 2 f_equal. apply rhe_Proper. rewrite Hrs. fold v in E0. rewrite <- E0. field. lra. }
  rewrite E1. fold (fq v (fst out) (snd out) (fst r) (snd r)).
  set (lo := linear_dequantize (Zq (fst r)) (fst out) (snd out)) in *.
  set (hi := linear_dequantize (Zq (snd r)) (fst out) (snd out)) in *.
  assert (Hle : lo <= hi) by (apply deq_le; auto).
  pose proof (clamp_is_clamp v lo hi Hle) as Hd.
  pose proof (fq_err v _ _ _ _ _ Hs Hlh Hd) as F1.
  pose proof (clamp_lip _ _ _ _ _ _ Hle Hd Hc) as F2.
  pose proof (relu_if_lip half (acc / sacc) y) as F3. fold v in F3.
  pose proof (Qabs_tri3 (fq v (fst out) (snd out) (fst r) (snd r)) (clamp v lo hi) c). lra.
Qed.

(** ... which is exact when the accumulator is already in output units *)
Lemma finish_int_err bits m half out (a z : Z) y e c :
  0 < fst out -> snd out == Zq z ->
  let r := mode_range bits (PM m) in (fst r <= snd r)%Z ->
  Qabs (Zq a / fst out - y) <= e ->
  is_clamp (relu_if half y) (linear_dequantize (Zq (fst r)) (fst out) (snd out)) (linear_dequantize (Zq (snd r)) (fst out) (snd out)) c ->
  Qabs (finish bits m half 1 out (Zq a) - c) <= e.
Proof.
  intros Hs Hz r Hlh He Hc. unfold finish. fold r.
  set (acc' := if half then relu (Zq a) else Zq a).
  assert (Ea : exists a', acc' = Zq a').
  { unfold acc'. destruct half; [|eauto]. unfold relu. destruct (qmax_spec (Zq a) 0) as [[_ ->]|[_ ->]]; [exists 0%Z; reflexivity|eauto]. }
  destruct Ea as (a' & Ea).
  assert (E0 : acc' / fst out == relu_if half (Zq a / fst out)).
  { unfold acc', relu_if. destruct half; [rewrite relu_scale by auto|]; reflexivity. }
  set (v := relu_if half (Zq a / fst out)) in *.
  set (lo := linear_dequantize (Zq (fst r)) (fst out) (snd out)) in *.
  set (hi := linear_dequantize (Zq (snd r)) (fst out) (snd out)) in *.
  assert (Hle : lo <= hi) by (apply deq_le; auto).
  assert (Hq : is_clamp v lo hi (linear_dequantize (linear_quantize_clamp acc' 1 (snd out) (Zq (fst r)) (Zq (snd r))) (fst out) (snd out))).
  { unfold linear_quantize_clamp, linear_quantize.
    assert (rhe (1 * acc' - snd out) = (a' - z)%Z) as ->.
    { rewrite <- (rhe_Z (a' - z)). apply rhe_Proper. rewrite Zq_minus, Hz, Ea. ring. }
    pose proof (clamp_is_clamp (Zq (a' - z)) (Zq (fst r)) (Zq (snd r)) ltac:(apply (proj1 (Zq_le _ _)); auto)) as (Q1 & Q2 & Q3 & Q4 & Q5).
    set (q := clamp (Zq (a' - z)) (Zq (fst r)) (Zq (snd r))) in *.
    assert (Ev : v == (Zq (a' - z) + snd out) / fst out).
    { rewrite <- E0, Ea. rewrite Zq_minus, Hz. field. lra. }
    assert (L : forall p w, p <= w <-> (p + snd out) / fst out <= (w + snd out) / fst out).
    { intros p w. split; intro K; [apply Qdiv_le_compat; lra|].
      assert (fst out * ((p + snd out) / fst out) <= fst out * ((w + snd out) / fst out)) by (apply Qmult_le_l; auto).
      assert (fst out * ((p + snd out) / fst out) == p + snd out) by (field; lra).
      assert (fst out * ((w + snd out) / fst out) == w + snd out) by (field; lra). lra. }
    unfold linear_dequantize, lo, hi, linear_dequantize in *. unfold is_clamp. repeat split.
    - apply (proj1 (L _ _)); auto.
    - apply (proj1 (L _ _)); auto.
    - intro K. rewrite Ev in K. apply L in K. rewrite (Q3 K). reflexivity.
    - intro K. rewrite Ev in K. apply L in K. rewrite (Q4 K). reflexivity.
    - intros K1 K2. rewrite Ev in K1, K2. apply L in K1. apply L in K2. rewrite (Q5 K1 K2), Ev. reflexivity. }
  pose proof (clamp_lip _ _ _ _ _ _ Hle Hq Hc) as F2.
  pose proof (relu_if_lip half (Zq a / fst out) y) as F3. fold v in F3. lra.
Qed.

(** * Ranges *)
Lemma mode_range_le bits m : (1 <= bits)%Z -> (fst (mode_range bits m) <= 0 <= snd (mode_range bits m))%Z.
Proof.
  intro H. unfold mode_range, get_quantized_range. pose proof (pow2_pos (bits - 1) ltac:(lia)). pose proof (pow2_pos bits ltac:(lia)).
  destruct (negb (mode_is m ASU)), (mode_is m SYMR); cbn [fst snd]; lia.
Qed.
Lemma accum_le accum : (1 <= accum)%Z -> let ar := get_quantized_range accum true false in (fst ar <= snd ar)%Z.
Proof. intros H ar. unfold ar, get_quantized_range. pose proof (pow2_pos (accum - 1) ltac:(lia)). cbn [fst snd]. lia. Qed.
Lemma clamp_id x lo hi : lo <= x -> x <= hi -> clamp x lo hi == x.
Proof. intros. destruct (clamp_is_clamp x lo hi ltac:(lra)) as (_ & _ & _ & _ & K). auto. Qed.

(** quantization of an in-range value *)
Lemma quant_in_range v s lo hi : (lo <= hi)%Z -> Zq lo <= s * v -> s * v <= Zq hi ->
  Qabs (linear_quantize_clamp v s 0 (Zq lo) (Zq hi) - s * v) <= 1 # 2.
Proof.
  intros Hlh H1 H2. unfold linear_quantize_clamp, linear_quantize.
  rewrite clamp_id.
  - rewrite (rhe_Proper _ (s * v)) by ring. apply rhe_err.
  - apply (proj1 (Zq_le _ _)). apply rhe_ge. lra.
  - apply (proj1 (Zq_le _ _)). apply rhe_le. lra.
Qed.
Lemma quant_Z v s z lo hi : (lo <= hi)%Z -> exists q, linear_quantize_clamp v s z (Zq lo) (Zq hi) = Zq q /\ (lo <= q <= hi)%Z.
Proof. intro H. unfold linear_quantize_clamp. destruct (clamp_Z (linear_quantize v s z) lo hi H) as (q & A & B & _). eauto. Qed.

(** * Parameters computed from a row *)
Definition mode_ok (bits : Z) (m : pymode) : Prop := (1 <= bits)%Z /\ (mode_is m SYMR = true -> (2 <= bits)%Z).

Lemma params_from_range_spec bits m mn mx s z :
  (match m with PM _ => True | PPair _ _ => False end) ->
  mode_ok bits m -> mn <= mx -> params_from_range bits m mn mx = Ok (s, z) ->
  let r := mode_range bits m in
  0 < s /\ (is_sym m = true -> z == 0) /\ (exists k, z == Zq k) /\
  (forall x, mn <= x -> x <= mx -> Qabs (fq x s z (fst r) (snd r) - x) <= 1 / (2 * s)) /\
  (mn == 0 -> mx == 0 -> s == 1).
Proof.
  intros Hpm [Hb Hr] Hm H r. unfold params_from_range in H. inv_bind H. destruct m as [m|]; [|contradiction]. clear Hpm.
  unfold r, mode_range. destruct (is_sym (PM m)) eqn:Es.
  - assert (Hs : negb (mode_is (PM m) ASU) = true) by (destruct m; try discriminate; reflexivity).
    assert (Hp : exists p, x = [p]).
    { unfold sym_params in H0. destruct (existsb _ _); [discriminate|]. injection H0 as <-. eexists; reflexivity. }
    destruct Hp as ((s' & z') & ->). injection H as -> ->.
    set (sat := qmax (Qabs mn) (Qabs mx)) in *.
    assert (Hsat : 0 <= sat) by (pose proof (qmax_l (Qabs mn) (Qabs mx)); pose proof (Qabs_nonneg mn); unfold sat; lra).
    rewrite Hs. pose proof (C26_symmetric bits sat (mode_is (PM m) SYMR) s z Hb Hr Hsat H0) as (A & B & C & D & E & F & _).
    split; auto. split; auto. split; [exists 0%Z; rewrite B; reflexivity|]. split.
    + intros x Hx1 Hx2.
      assert (Ha : - sat <= x /\ x <= sat).
      { pose proof (qmax_l (Qabs mn) (Qabs mx)). pose proof (qmax_r (Qabs mn) (Qabs mx)). fold sat in H, H1.
        pose proof (Qle_Qabs mx). pose proof (Qle_Qabs (- mn)) as G. rewrite Qabs_opp in G. lra. }
      destruct (Qlt_le_dec 0 sat) as [P|P].
      * apply F; auto. unfold is_clamp. repeat split; intros; lra.
      * assert (Ex : x == 0) by lra. unfold fq.
        assert (Hq0 : linear_quantize_clamp x s z (Zq (fst (get_quantized_range bits true (mode_is (PM m) SYMR)))) (Zq (snd (get_quantized_range bits true (mode_is (PM m) SYMR)))) == 0).
        { rewrite <- D. unfold linear_quantize_clamp, linear_quantize.
          rewrite (rhe_Proper (s * x - z) (s * 0 - z)) by (rewrite Ex; reflexivity). reflexivity. }
        unfold linear_dequantize. rewrite Hq0, B, Ex.
        assert ((0 + 0) / s - 0 == 0) as -> by (field; lra). simpl. apply Qle_shift_div_l; lra.
    + intros E1 E2. apply C. unfold sat. destruct (qmax_spec (Qabs mn) (Qabs mx)) as [[_ ->]|[_ ->]]; rewrite ?E1, ?E2; reflexivity.
  - assert (Hp : exists p, x = [p]).
    { unfold asym_params in H0. destruct (existsb _ _); [discriminate|]. injection H0 as <-. eexists; reflexivity. }
    destruct Hp as ((s' & z') & ->). injection H as -> ->.
    assert (Hsg : negb (mode_is (PM m) ASU) = mode_is (PM m) ASS /\ mode_is (PM m) SYMR = false) by (destruct m; try discriminate; auto).
    destruct Hsg as [Hsg Hsr]. rewrite Hsg, Hsr.
    pose proof (C26_asymmetric bits mn mx _ s z Hb Hm H0) as (A & B & C & D & _).
    split; auto. split; [discriminate|].
    assert (Eq : (exists k, z == Zq k) /\ (mn == 0 -> mx == 0 -> s == 1)).
    { pose proof (asym1_eq bits (mode_is (PM m) ASS) mn mx Hb) as HA. cbv zeta in HA.
      destruct HA as (s' & z' & k & Ea & _ & Hz & _ & Hl & Hh & Hdeg & _).
      unfold asym_params in H0. cbn [combine existsb fst snd map2] in H0. destruct (Qltb mx mn || false); [discriminate|].
      rewrite Ea in H0. injection H0 as -> ->. split; eauto. intros E1 E2. apply Hdeg.
      destruct (qmax_spec mx 0) as [[_ ->]|[_ ->]], (qmin_spec mn 0) as [[_ ->]|[_ ->]]; lra. }
    destruct Eq as [Eq1 Eq2]. split; auto. split; auto. intros x Hx1 Hx2.
    destruct (Qlt_le_dec mn 0) as [P|P]; [|destruct (Qlt_le_dec 0 mx) as [P'|P']].
    + apply (D (or_introl P)). pose proof (qmin_l mn 0). pose proof (qmax_l mx 0). unfold is_clamp. repeat split; intros; lra.
    + apply (D (or_intror P')). pose proof (qmin_l mn 0). pose proof (qmax_l mx 0). unfold is_clamp. repeat split; intros; lra.
    + assert (Ex : x == 0) by lra. unfold fq, linear_dequantize in *.
      assert (linear_quantize_clamp x s z (Zq (fst (get_quantized_range bits (mode_is (PM m) ASS) false))) (Zq (snd (get_quantized_range bits (mode_is (PM m) ASS) false)))
        = linear_quantize_clamp 0 s z (Zq (fst (get_quantized_range bits (mode_is (PM m) ASS) false))) (Zq (snd (get_quantized_range bits (mode_is (PM m) ASS) false)))) as ->.
      { unfold linear_quantize_clamp, linear_quantize. do 2 f_equal. apply rhe_Proper. rewrite Ex. reflexivity. }
      rewrite B, Ex. assert (0 - 0 == 0) as -> by ring. simpl. apply Qle_shift_div_l; lra.
Qed.
