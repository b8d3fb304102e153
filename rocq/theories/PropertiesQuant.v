(** Properties C25-C30 and C45: linear quantization primitives, clipped-linear quantizers and
    range statistics. *)
From Coq Require Import String List ZArith QArith Qabs Qround Qpower Bool Arith Lia Lqa Setoid Morphisms.
From Verif Require Import Base Lists StructModel StructSpec StructProofs QuantModel QuantSpec QuantProofs.
Import ListNotations.

(* ------------------------------------------------------------------------- *)
(** * C25 *)
Theorem C25_quantized_range :
  forall bits, (1 <= bits)%Z ->
  (forall z, (fst (get_quantized_range bits true false) <= z <= snd (get_quantized_range bits true false))%Z <-> in_signed bits z) /\
  (forall z restrict, (fst (get_quantized_range bits false restrict) <= z <= snd (get_quantized_range bits false restrict))%Z <-> in_unsigned bits z) /\
  (forall z, (fst (get_quantized_range bits true true) <= z <= snd (get_quantized_range bits true true))%Z <->
             in_signed bits z /\ in_signed bits (- z)) /\
  (let size := fun p : Z * Z => (snd p - fst p + 1)%Z in
   size (get_quantized_range bits true false) = (2 ^ bits)%Z /\
   size (get_quantized_range bits false false) = (2 ^ bits)%Z /\
   size (get_quantized_range bits true true) = (2 ^ bits - 1)%Z).
Proof.
  intros bits Hb. unfold get_quantized_range, in_signed, in_unsigned. cbn [fst snd].
  pose proof (pow2_split bits Hb). pose proof (pow2_pos (bits - 1)).
  split; [intros; lia|]. split; [intros; lia|]. split; [intros; lia|]. cbv zeta. cbn [fst snd]. lia.
Qed.

Example C25_example : get_quantized_range 4 false false = (0, 15)%Z /\ get_quantized_range 4 true false = (-8, 7)%Z /\
  get_quantized_range 4 true true = (-7, 7)%Z.
Proof. repeat split. Qed.

(* ------------------------------------------------------------------------- *)
(** * C26 *)
(** the rounding used is the nearest integer, ties to even *)
Theorem C26_round_half_even : forall q z, linear_quantize q 1 0 = z <-> is_round q z.
Proof.
  intros q z. unfold linear_quantize. rewrite (rhe_Proper (1 * q - 0) q) by ring. split.
  - intros <-. apply rhe_is_round.
  - apply rhe_unique.
Qed.

Section Err.
Variables (scale zp : Q) (lo hi : Z).
Hypothesis Hs : 0 < scale.
Hypothesis Hlh : (lo <= hi)%Z.

Lemma quant_err c x : Zq lo - (1 # 2) <= scale * c - zp -> scale * c - zp <= Zq hi + (1 # 2) ->
  (x == c \/ (x <= c /\ scale * c - zp <= Zq lo + (1 # 2)) \/ (c <= x /\ Zq hi - (1 # 2) <= scale * c - zp)) ->
  exists q, linear_quantize_clamp x scale zp (Zq lo) (Zq hi) = Zq q /\ (lo <= q <= hi)%Z /\
    Qabs (linear_dequantize (Zq q) scale zp - c) <= 1 / (2 * scale).
Proof using Hs Hlh.
  intros H1 H2 Hx. unfold linear_quantize_clamp, linear_quantize.
  destruct (clamp_Z (rhe (scale * x - zp)) lo hi Hlh) as (q & E & Hq & _).
  exists q. split; auto. split; auto.
  assert (K : Qabs (Zq q - (scale * c - zp)) <= 1 # 2).
  { rewrite <- E. apply clamp_round_err; auto.
    destruct Hx as [Hx|[[Hx F]|[Hx F]]].
    - left. rewrite Hx. reflexivity.
    - right; left. split; auto. assert (scale * x <= scale * c) by (apply Qmult_le_l; auto). lra.
    - right; right. split; auto. assert (scale * c <= scale * x) by (apply Qmult_le_l; auto). lra. }
  unfold linear_dequantize.
  assert (E2 : (Zq q + zp) / scale - c == (Zq q - (scale * c - zp)) / scale) by (field; lra).
  rewrite E2. unfold Qdiv at 1. rewrite Qabs_Qmult.
  rewrite (Qabs_pos (/ scale)) by (apply Qlt_le_weak, Qinv_lt_0_compat; auto).
  setoid_replace (1 / (2 * scale)) with ((1 # 2) * / scale) by (field; lra).
  apply Qmult_le_compat_r; auto. apply Qlt_le_weak, Qinv_lt_0_compat; auto.
Qed.
End Err.

Lemma quant_mono scale zp lo hi x y : 0 <= scale -> x <= y ->
  linear_quantize_clamp x scale zp lo hi <= linear_quantize_clamp y scale zp lo hi.
Proof.
  intros Hs Hxy. apply clamp_mono. apply (proj1 (Zq_le _ _)). apply rhe_mono.
  assert (scale * x <= scale * y) by (rewrite !(Qmult_comm scale); apply Qmult_le_compat_r; auto). lra.
Qed.

(** parameters of an asymmetric range *)
Lemma asym1_eq bits (signed : bool) mn mx : (1 <= bits)%Z ->
  let N := Zq (2 ^ bits - 1) in
  let lo := qmin mn 0 in let hi := qmax mx 0 in
  let off := if signed then (2 ^ (bits - 1))%Z else 0%Z in
  exists scale zp r, asym1 bits true signed mn mx = (scale, zp) /\ 0 < scale /\ zp == Zq (r + off)%Z /\
    r = rhe (scale * lo) /\ lo <= 0 /\ 0 <= hi /\
    (hi == lo -> scale == 1 /\ lo == 0 /\ hi == 0) /\
    (~ hi == lo -> scale * (hi - lo) == N).
Proof.
  intros Hb N lo hi off. unfold asym1. fold lo hi N.
  assert (Hlo : lo <= 0) by apply qmin_r. assert (Hhi : 0 <= hi) by apply qmax_r.
  assert (HN : 0 < N) by (apply Zq_pos; pose proof (pow2_ge2 bits Hb); lia).
  set (scale := N / (if Qeq_bool (hi - lo) 0 then N else hi - lo)).
  exists scale. eexists. exists (rhe (scale * lo)). split; [reflexivity|].
  assert (Hz : hi == lo -> scale == 1).
  { intro E. unfold scale. assert (Qeq_bool (hi - lo) 0 = true) as -> by (apply Qeq_bool_iff; lra). field. lra. }
  assert (Hnz : ~ hi == lo -> scale * (hi - lo) == N).
  { intro E. unfold scale. destruct (Qeq_bool (hi - lo) 0) eqn:F.
    - apply Qeq_bool_iff in F. lra.
    - field. lra. }
  split; [|repeat split; auto].
  - destruct (Qeq_dec hi lo) as [E|E]; [rewrite Hz by auto; reflexivity|].
    unfold scale. destruct (Qeq_bool (hi - lo) 0) eqn:F; [apply Qeq_bool_iff in F; lra|].
    apply Qlt_shift_div_l; lra.
  - unfold off. destruct signed; rewrite Zq_plus; [reflexivity|change (Zq 0) with 0; ring].
  - lra.
  - lra.
Qed.

Theorem C26_asymmetric :
  forall bits mn mx signed scale zp, (1 <= bits)%Z -> mn <= mx ->
  asym_params bits [mn] [mx] true signed = Ok [(scale, zp)] ->
  let lo := fst (get_quantized_range bits signed false) in
  let hi := snd (get_quantized_range bits signed false) in
  let quant := fun x => linear_quantize_clamp x scale zp (Zq lo) (Zq hi) in
  let dequant := fun q => linear_dequantize q scale zp in
  0 < scale /\
  (* zero is exact *)
  dequant (quant 0) == 0 /\
  (* the output is an integer in the range *)
  (forall x, exists q, quant x = Zq q /\ (lo <= q <= hi)%Z) /\
  (* the error is at most half a step, for inputs in the range widened to contain 0; inputs
     outside it saturate *)
  (mn < 0 \/ 0 < mx -> forall x c, is_clamp x (qmin mn 0) (qmax mx 0) c ->
     Qabs (dequant (quant x) - c) <= (qmax mx 0 - qmin mn 0) / (2 * Zq (2 ^ bits - 1)) /\
     Qabs (dequant (quant x) - c) <= 1 / (2 * scale)) /\
  (* monotone *)
  (forall x y, x <= y -> quant x <= quant y).
Proof.
  intros bits mn mx signed scale zp Hb Hm Hp lo hi quant dequant.
  unfold asym_params in Hp. cbn [combine existsb fst snd] in Hp.
  assert (Qltb mx mn = false) as E by (apply Qltb_ge; auto). rewrite E in Hp. cbn [orb map2] in Hp.
  pose proof (asym1_eq bits signed mn mx Hb) as HA. cbv zeta in HA.
  destruct HA as (scale' & zp' & r & Ea & Hs & Hz & Hr & Hl & Hh & Hdeg & Hnd).
  rewrite Ea in Hp. injection Hp as -> ->. clear E Ea.
  set (l := qmin mn 0) in *. set (h := qmax mx 0) in *.
  pose proof (pow2_split bits Hb) as Hsp. pose proof (pow2_pos (bits - 1) ltac:(lia)) as Hpp.
  set (off := if signed then (2 ^ (bits - 1))%Z else 0%Z) in *.
  assert (Elo : lo = (- off)%Z) by (unfold lo, off, get_quantized_range; destruct signed; simpl; lia).
  assert (Ehi : hi = (2 ^ bits - 1 - off)%Z) by (unfold hi, off, get_quantized_range; destruct signed; simpl; lia).
  assert (Hlh : (lo <= hi)%Z) by (rewrite Elo, Ehi; lia).
  assert (Qlo : Zq lo == - Zq off) by (rewrite Elo, Zq_opp; reflexivity).
  assert (Qhi : Zq hi == Zq (2 ^ bits - 1) - Zq off) by (rewrite Ehi, Zq_minus; reflexivity).
  rewrite Zq_plus in Hz.
  destruct (rhe_bounds (scale * l)) as [R1 R2]. rewrite <- Hr in R1, R2.
  assert (HN0 : Zq 1 <= Zq (2 ^ bits - 1)) by (apply (proj1 (Zq_le _ _)); lia). rewrite Zq_1 in HN0.
  split; [auto|]. split.
  - (* zero *)
    unfold dequant, quant, linear_quantize_clamp, linear_quantize.
    assert (Ez : rhe (scale * 0 - zp) = (- (r + off))%Z).
    { rewrite (rhe_Proper _ (Zq (- (r + off)))); [apply rhe_Z|]. rewrite Zq_opp, Zq_plus, Hz. ring. }
    rewrite Ez.
    assert (Hrr : (- (2 ^ bits - 1) <= r <= 0)%Z).
    { rewrite Hr. split.
      - destruct (Qeq_dec h l) as [E|E].
        + destruct (Hdeg E) as (_ & El & _). rewrite (rhe_Proper _ (Zq 0)); [rewrite rhe_Z; lia|]. rewrite El. change (Zq 0) with 0. ring.
        + apply rhe_ge. rewrite Zq_opp. specialize (Hnd E).
          assert (0 <= scale * h) by (apply Qmult_le_0_compat; lra). lra.
      - apply rhe_le. change (Zq 0) with 0.
        assert (0 <= scale * (- l)) by (apply Qmult_le_0_compat; lra). lra. }
    destruct (clamp_Z (- (r + off)) lo hi Hlh) as (q & Eq & Hq & Ec). rewrite Eq.
    assert (q = (- (r + off))%Z) as -> by (rewrite Ec, Elo, Ehi; lia).
    unfold linear_dequantize. rewrite Zq_opp, Zq_plus, Hz. field. lra.
  - split; [|split].
    + intro x. unfold quant, linear_quantize_clamp. destruct (clamp_Z (linear_quantize x scale zp) lo hi Hlh) as (q & A & B & _). eauto.
    + intros Hne x c (C1 & C2 & C3 & C4 & C5).
      assert (Hn : ~ h == l).
      { intro E. destruct (Hdeg E) as (_ & E1 & E2). unfold h, l in E1, E2.
        destruct (qmin_spec mn 0) as [[? F]|[? F]]; rewrite F in E1; destruct (qmax_spec mx 0) as [[? G]|[? G]]; rewrite G in E2; lra. }
      specialize (Hnd Hn).
      assert (S1 : scale * l <= scale * c) by (apply Qmult_le_l; auto).
      assert (S2 : scale * c <= scale * h) by (apply Qmult_le_l; auto).
      destruct (quant_err scale zp lo hi Hs Hlh c x) as (q & A & B & D).
      * rewrite Hz. lra.
      * rewrite Hz. lra.
      * destruct (Qlt_le_dec x l) as [K|K]; [|destruct (Qlt_le_dec h x) as [K'|K']].
        -- right; left. assert (c == l) as Ec by (apply C3; lra). split; [lra|]. rewrite Hz, Ec. lra.
        -- right; right. assert (c == h) as Ec by (apply C4; lra). split; [lra|]. rewrite Hz, Ec. lra.
        -- left. symmetry. apply C5; auto.
      * unfold quant, dequant. rewrite A. split; auto.
        assert (Es : (h - l) / (2 * Zq (2 ^ bits - 1)) == 1 / (2 * scale)).
        { rewrite <- Hnd. field. split; [|lra]. intro. apply Hn. lra. }
        rewrite Es. auto.
    + intros x y Hxy. exact (quant_mono scale zp _ _ x y (Qlt_le_weak _ _ Hs) Hxy).
Qed.

(** Parameters are computed element by element (per-channel); ValueError exactly when a minimum
    exceeds its maximum. *)
Theorem C26_asymmetric_elementwise :
  forall bits mn mx integral signed, length mn = length mx ->
  ((exists i, (i < length mn)%nat /\ nth i mx 0 < nth i mn 0) -> asym_params bits mn mx integral signed = Raise ValueError) /\
  ((forall i, (i < length mn)%nat -> nth i mn 0 <= nth i mx 0) ->
     exists ps, asym_params bits mn mx integral signed = Ok ps /\ length ps = length mn /\
       forall i, (i < length mn)%nat ->
         asym_params bits [nth i mn 0] [nth i mx 0] integral signed = Ok [nth i ps (0, 0)]).
Proof.
  intros bits mn mx integral signed Hl. unfold asym_params. split.
  - intros (i & Hi & Hlt). assert (existsb (fun p : Q * Q => Qltb (snd p) (fst p)) (combine mn mx) = true) as ->; auto.
    apply existsb_exists. exists (nth i mn 0, nth i mx 0). split.
    + rewrite <- combine_nth by auto. apply nth_In. rewrite combine_length. lia.
    + apply Qltb_lt. auto.
  - intro H. assert (existsb (fun p : Q * Q => Qltb (snd p) (fst p)) (combine mn mx) = false) as ->.
    { apply not_true_is_false. intro K. apply existsb_exists in K. destruct K as (p & Hp & Hlt).
      apply (In_nth _ _ (0, 0)) in Hp. destruct Hp as (i & Hi & <-). rewrite combine_length in Hi.
      rewrite combine_nth in Hlt by auto. apply Qltb_lt in Hlt. simpl in Hlt. specialize (H i ltac:(lia)). lra. }
    eexists. split; [reflexivity|]. rewrite map2_length. split; [lia|].
    intros i Hi. cbn [combine existsb fst snd orb map2].
    assert (Qltb (nth i mx 0) (nth i mn 0) = false) as -> by (apply Qltb_ge; apply H; auto). cbn [orb].
    rewrite (map2_nth _ _ _ i 0 0) by lia. reflexivity.
Qed.

(** All-zero ranges: scale 1 and zero point 0. *)
Theorem C26_degenerate_range :
  forall bits signed scale zp, (1 <= bits)%Z -> asym_params bits [0] [0] true signed = Ok [(scale, zp)] ->
  scale == 1 /\ zp == (if signed then Zq (2 ^ (bits - 1)) else 0).
Proof.
  intros bits signed scale zp Hb H. unfold asym_params in H. cbn [combine existsb fst snd orb map2] in H.
  change (Qltb 0 0) with false in H. cbn [orb] in H.
  destruct (asym1_eq bits signed 0 0 Hb) as (s & z & r & Ea & Hs & Hz & Hr & _ & _ & Hdeg & _). rewrite Ea in H.
  injection H as -> ->. destruct (Hdeg ltac:(reflexivity)) as (A & B & _). split; auto.
  rewrite Hz, Zq_plus, Hr. rewrite (rhe_Proper _ (Zq 0)) by (rewrite B; change (Zq 0) with 0; ring).
  rewrite rhe_Z. change (Zq 0) with 0. destruct signed; change (Zq 0) with 0; ring.
Qed.

Theorem C26_symmetric :
  forall bits sat restrict scale zp, (1 <= bits)%Z -> (restrict = true -> (2 <= bits)%Z) -> 0 <= sat ->
  sym_params bits [sat] restrict = Ok [(scale, zp)] ->
  let lo := fst (get_quantized_range bits true restrict) in
  let hi := snd (get_quantized_range bits true restrict) in
  let quant := fun x => linear_quantize_clamp x scale zp (Zq lo) (Zq hi) in
  let dequant := fun q => linear_dequantize q scale zp in
  0 < scale /\ zp == 0 /\ (sat == 0 -> scale == 1) /\ quant 0 == 0 /\
  (forall x, exists q, quant x = Zq q /\ (lo <= q <= hi)%Z) /\
  (0 < sat -> forall x c, is_clamp x (- sat) sat c -> Qabs (dequant (quant x) - c) <= 1 / (2 * scale)) /\
  (forall x y, x <= y -> quant x <= quant y).
Proof.
  intros bits sat restrict scale zp Hb Hres Hsat Hp lo hi quant dequant.
  unfold sym_params in Hp. cbn [existsb map] in Hp. assert (Qltb sat 0 = false) as E by (apply Qltb_ge; auto).
  rewrite E in Hp. cbn [orb] in Hp. unfold sym1 in Hp. injection Hp as Hsc Hzp. clear E.
  pose proof (pow2_split bits Hb) as Hsp. pose proof (pow2_pos (bits - 1) ltac:(lia)) as Hpp.
  set (n := sym_n bits restrict) in *.
  assert (Hn : 0 < n).
  { unfold n, sym_n. destruct restrict.
    - apply Zq_pos. specialize (Hres eq_refl). pose proof (pow2_ge2 (bits - 1) ltac:(lia)). lia.
    - assert (0 < Zq (2 ^ bits - 1)) by (apply Zq_pos; lia). apply Qlt_shift_div_l; lra. }
  assert (H1 : sat == 0 -> scale == 1).
  { intro E. rewrite <- Hsc. assert (Qeq_bool sat 0 = true) as -> by (apply Qeq_bool_iff; auto). field. lra. }
  assert (H2 : 0 < sat -> scale * sat == n).
  { intro E. rewrite <- Hsc. destruct (Qeq_bool sat 0) eqn:F; [apply Qeq_bool_iff in F; lra|]. field. lra. }
  assert (Hs : 0 < scale).
  { rewrite <- Hsc. destruct (Qeq_bool sat 0) eqn:F; apply Qlt_shift_div_l; try lra.
    assert (~ sat == 0) by (intro K; apply Qeq_bool_iff in K; congruence). lra. }
  assert (Hlh : (lo <= 0 <= hi)%Z).
  { unfold lo, hi, get_quantized_range. destruct restrict; simpl; lia. }
  assert (Hzp' : zp == 0) by (rewrite <- Hzp; reflexivity).
  split; auto. split; auto. split; auto. split; [|split; [|split]].
  - unfold quant, linear_quantize_clamp, linear_quantize. rewrite (rhe_Proper _ (Zq 0)), rhe_Z.
    + destruct (clamp_Z 0 lo hi ltac:(lia)) as (q & Eq & _ & Ec). rewrite Eq, Ec.
      replace (Z.min (Z.max 0 lo) hi) with 0%Z by lia. reflexivity.
    + rewrite Hzp'. change (Zq 0) with 0. ring.
  - intro x. unfold quant, linear_quantize_clamp. destruct (clamp_Z (linear_quantize x scale zp) lo hi ltac:(lia)) as (q & A & B & _). eauto.
  - intros Hp x c (C1 & C2 & C3 & C4 & C5). specialize (H2 Hp).
    assert (S1 : scale * (- sat) <= scale * c) by (apply Qmult_le_l; auto).
    assert (S2 : scale * c <= scale * sat) by (apply Qmult_le_l; auto).
    assert (Bl : Zq lo - (1 # 2) <= - n /\ - n <= Zq lo + (1 # 2)).
    { unfold lo, n, sym_n, get_quantized_range. destruct restrict; cbn [fst].
      - rewrite Zq_opp. lra.
      - assert (Zq (2 ^ bits) == 2 * Zq (2 ^ (bits - 1))) by (rewrite Hsp, Zq_mult; reflexivity).
        rewrite !Zq_minus, Zq_opp, Zq_minus, Zq_1, H. assert ((2 * Zq (2 ^ (bits - 1)) - 1) / 2 == Zq (2 ^ (bits - 1)) - (1 # 2)) as -> by field. lra. }
    assert (Bh : n <= Zq hi + (1 # 2) /\ Zq hi - (1 # 2) <= n).
    { unfold hi, n, sym_n, get_quantized_range. destruct restrict; cbn [snd].
      - lra.
      - assert (Zq (2 ^ bits) == 2 * Zq (2 ^ (bits - 1))) by (rewrite Hsp, Zq_mult; reflexivity).
        rewrite !Zq_minus, Zq_1, H. assert ((2 * Zq (2 ^ (bits - 1)) - 1) / 2 == Zq (2 ^ (bits - 1)) - (1 # 2)) as -> by field. lra. }
    destruct (quant_err scale zp lo hi Hs ltac:(lia) c x) as (q & A & B & D).
    + rewrite Hzp'. lra.
    + rewrite Hzp'. lra.
    + destruct (Qlt_le_dec x (- sat)) as [K|K]; [|destruct (Qlt_le_dec sat x) as [K'|K']].
      * right; left. assert (c == - sat) as Ec by (apply C3; lra). split; [lra|]. rewrite Hzp', Ec. lra.
      * right; right. assert (c == sat) as Ec by (apply C4; lra). split; [lra|]. rewrite Hzp', Ec. lra.
      * left. symmetry. apply C5; auto.
    + unfold quant, dequant. rewrite A. auto.
  - intros x y Hxy. exact (quant_mono scale zp _ _ x y (Qlt_le_weak _ _ Hs) Hxy).
Qed.

Theorem C26_symmetric_elementwise :
  forall bits sat restrict,
  ((exists x, In x sat /\ x < 0) -> sym_params bits sat restrict = Raise ValueError) /\
  ((forall x, In x sat -> 0 <= x) -> exists ps, sym_params bits sat restrict = Ok ps /\ length ps = length sat /\
     forall i, (i < length sat)%nat -> sym_params bits [nth i sat 0] restrict = Ok [nth i ps (0, 0)]).
Proof.
  intros bits sat restrict. unfold sym_params. split.
  - intros (x & Hx & Hlt). assert (existsb (fun s => Qltb s 0) sat = true) as ->; auto.
    apply existsb_exists. exists x. split; auto. apply Qltb_lt; auto.
  - intro H. assert (existsb (fun s => Qltb s 0) sat = false) as ->.
    { apply not_true_is_false. intro K. apply existsb_exists in K. destruct K as (p & Hp & Hlt).
      apply Qltb_lt in Hlt. specialize (H p Hp). lra. }
    eexists. split; [reflexivity|]. rewrite map_length. split; auto. intros i Hi.
    cbn [existsb map]. assert (Qltb (nth i sat 0) 0 = false) as -> by (apply Qltb_ge; apply H; apply nth_In; auto).
    cbn [orb]. do 2 f_equal. rewrite nth_indep with (d' := sym1 bits restrict 0) by (rewrite map_length; auto).
    rewrite map_nth. reflexivity.
Qed.

(** Finding: with restrict_qrange and one bit the scale is 0 (the quantized range is {0}). *)
Theorem C26_one_bit_restricted_refuted :
  forall sat, 0 < sat -> exists scale, sym_params 1 [sat] true = Ok [(scale, 0)] /\ scale == 0.
Proof.
  intros sat H. unfold sym_params. cbn [existsb map]. assert (Qltb sat 0 = false) as -> by (apply Qltb_ge; lra).
  cbn [orb]. eexists. split; [reflexivity|]. change (sym_n 1 true) with 0.
  destruct (Qeq_bool sat 0); unfold Qdiv; ring.
Qed.

Example C26_example :
  asym_params 8 [-1] [3] true false = Ok [(Zq 255 / (3 - -1), Zq (-64))] /\
  linear_quantize_clamp 0 (Zq 255 / (3 - -1)) (Zq (-64)) 0 255 = 64 /\
  sym_params 8 [2] false = Ok [(Zq 255 / 2 / 2, 0)].
Proof. repeat split; vm_compute; reflexivity. Qed.

(* ------------------------------------------------------------------------- *)
(** * C27 *)
Theorem C27_requantize_identity :
  forall q scale zp, ~ scale == 0 -> linear_quantize (linear_dequantize (Zq q) scale zp) scale zp = q.
Proof.
  intros q scale zp Hs. unfold linear_quantize, linear_dequantize.
  rewrite (rhe_Proper _ (Zq q)); [apply rhe_Z|]. field. auto.
Qed.

Theorem C27_fake_quant_idempotent :
  forall x scale zp lo hi, ~ scale == 0 -> (lo <= hi)%Z ->
  let fake := fun x => linear_dequantize (linear_quantize_clamp x scale zp (Zq lo) (Zq hi)) scale zp in
  fake (fake x) = fake x /\ quantize_ste (quantize_ste x scale zp true) scale zp true = quantize_ste x scale zp true.
Proof.
  intros x scale zp lo hi Hs Hlh fake. unfold fake, quantize_ste, linear_quantize_clamp.
  destruct (clamp_Z (linear_quantize x scale zp) lo hi Hlh) as (q & E & Hq & _). rewrite E.
  rewrite !C27_requantize_identity by auto. split; auto.
  destruct (clamp_Z q lo hi Hlh) as (q' & E' & _ & Ec). rewrite E'. do 2 f_equal. lia.
Qed.

Example C27_example : linear_quantize (linear_dequantize (Zq 5) (1 # 3) (Zq (-2))) (1 # 3) (Zq (-2)) = 5%Z.
Proof. reflexivity. Qed.

(* ------------------------------------------------------------------------- *)
(** * C28 *)
Lemma shift_bound s m : 0 < s -> (1 <= m)%Z ->
  let k := floor_log2 (Zq (2 ^ m - 1) / s) in
  s * 2 ^ k <= Zq (2 ^ m - 1) /\ Zq (2 ^ m - 1) < 2 * (s * 2 ^ k).
Proof.
  intros Hs Hm k. assert (HN : 0 < Zq (2 ^ m - 1)) by (apply Zq_pos; pose proof (pow2_ge2 m Hm); lia).
  assert (Hx : 0 < Zq (2 ^ m - 1) / s) by (apply Qlt_shift_div_l; lra).
  destruct (floor_log2_spec _ Hx) as [A B]. fold k in A, B. rewrite qpow2_succ in B.
  assert (E : Zq (2 ^ m - 1) == s * (Zq (2 ^ m - 1) / s)) by (field; lra).
  split.
  - rewrite E. apply Qmult_le_l; auto.
  - rewrite E at 1. assert (s * (Zq (2 ^ m - 1) / s) < s * (2 * 2 ^ k)) by (apply Qmult_lt_l; auto). lra.
Qed.

Theorem C28_scale_approximation :
  forall s m limit, 0 < s -> (1 <= m)%Z ->
  let shift := scale_approx_shift s m limit in
  let mult := scale_approx_mult s shift in
  (* the multiplier fits in m bits *)
  (0 <= mult <= 2 ^ m - 1)%Z /\ (limit = true -> (shift <= m)%Z) /\
  (* the approximation never exceeds the scale, and is less than one unit in the last place below *)
  approx_scale s m limit == Zq mult / 2 ^ shift /\ 0 <= approx_scale s m limit /\ approx_scale s m limit <= s /\
  s - approx_scale s m limit < 1 / 2 ^ shift /\
  (* without the limit the relative error is below 2^-(m-1) *)
  (limit = false -> (2 <= m)%Z -> (s - approx_scale s m limit) * Zq (2 ^ (m - 1)) < s).
Proof.
  intros s m limit Hs Hm shift mult.
  pose proof (shift_bound s m Hs Hm) as HB. cbv zeta in HB. destruct HB as [B1 B2].
  set (k := floor_log2 (Zq (2 ^ m - 1) / s)) in *.
  assert (Hk : (shift <= k)%Z) by (unfold shift, scale_approx_shift; fold k; destruct limit; lia).
  assert (P : 0 < 2 ^ shift) by apply qpow2_pos.
  assert (P2 : 2 ^ shift <= 2 ^ k) by (apply Qpower_le_compat_l; [auto|lra]).
  assert (U : s * 2 ^ shift <= Zq (2 ^ m - 1)).
  { apply Qle_trans with (s * 2 ^ k); auto. apply Qmult_le_l; auto. }
  assert (U0 : 0 < s * 2 ^ shift) by (apply Qmult_lt_0_compat; auto).
  destruct (floor_bounds (s * 2 ^ shift)) as [F1 F2]. fold mult in F1, F2. change (Qfloor (s * 2 ^ shift)) with mult in *.
  assert (M0 : (0 <= mult)%Z).
  { unfold mult, scale_approx_mult. change 0%Z with (Qfloor 0). apply Qfloor_resp_le. lra. }
  split; [split; auto; apply (proj2 (Zq_le _ _)); lra|].
  split; [unfold shift, scale_approx_shift; intros ->; lia|].
  assert (E : approx_scale s m limit == Zq mult / 2 ^ shift) by reflexivity.
  split; [auto|]. rewrite E. split; [|split; [|split]].
  - apply Qle_shift_div_l; auto. assert (0 <= Zq mult) by (apply Zq_nonneg; auto). lra.
  - apply Qle_shift_div_r; auto.
  - assert (s - Zq mult / 2 ^ shift == (s * 2 ^ shift - Zq mult) / 2 ^ shift) as -> by (field; lra).
    unfold Qdiv. apply Qmult_lt_r; [apply Qinv_lt_0_compat; auto|]. lra.
  - intros -> H2. assert (shift = k) as Esk by reflexivity.
    set (p := Zq (2 ^ (m - 1))). set (y := s * 2 ^ shift) in *.
    assert (Hp1 : (2 <= 2 ^ (m - 1))%Z) by (apply pow2_ge2; lia).
    assert (Hp : 2 <= p) by (apply (proj1 (Zq_le 2 _)); auto).
    assert (HN : Zq (2 ^ m - 1) == 2 * p - 1).
    { rewrite (pow2_split m Hm), Zq_minus, Zq_mult. reflexivity. }
    assert (Hy : p - (1 # 2) < y) by (unfold y; rewrite Esk; lra).
    (* (y - mult) * p < y *)
    assert (G : (y - Zq mult) * p < y).
    { destruct (Qlt_le_dec y p) as [Hlt|Hge].
      - assert (mult = 2 ^ (m - 1) - 1)%Z as Em.
        { assert (Zq mult < p) as K1 by lra. apply (proj2 (Zq_lt _ _)) in K1.
          assert (Zq (2 ^ (m - 1) - 1) < Zq mult + 1) as K2 by (rewrite Zq_minus, Zq_1; fold p; lra).
          rewrite <- Zq_1, <- Zq_plus in K2. apply (proj2 (Zq_lt _ _)) in K2. lia. }
        assert (Zq mult == p - 1) as -> by (rewrite Em, Zq_minus; reflexivity).
        setoid_replace ((y - (p - 1)) * p) with (y + (p - 1) * (y - p)) by ring.
        assert ((p - 1) * (y - p) < 0); [|lra].
        setoid_replace ((p - 1) * (y - p)) with (- ((p - 1) * (p - y))) by ring.
        assert (0 < (p - 1) * (p - y)) by (apply Qmult_lt_0_compat; lra). lra.
      - assert ((y - Zq mult) * p < 1 * p) by (apply Qmult_lt_r; lra). lra. }
    assert (E2 : (s - Zq mult / 2 ^ shift) * p == (y - Zq mult) * p / 2 ^ shift) by (unfold y; field; lra).
    rewrite E2. apply Qlt_shift_div_r; auto.
Qed.

(** Finding: with the limit, a scale below 2^-m is approximated by 0 (every output becomes 0). *)
Theorem C28_limit_small_scale_refuted :
  forall s m, 0 < s -> (1 <= m)%Z -> s * Zq (2 ^ m) < 1 -> approx_scale s m true == 0.
Proof.
  intros s m Hs Hm H. unfold approx_scale.
  pose proof (shift_bound s m Hs Hm) as HB. cbv zeta in HB. destruct HB as [_ B2].
  unfold scale_approx_shift. set (k := floor_log2 (Zq (2 ^ m - 1) / s)) in *.
  set (sh := Z.min m k). assert (sh <= m)%Z by lia.
  assert (2 ^ sh <= 2 ^ m) by (apply Qpower_le_compat_l; [auto|lra]).
  rewrite <- qpow2_Z in H by lia.
  assert (s * 2 ^ sh <= s * 2 ^ m) by (apply Qmult_le_l; auto).
  pose proof (qpow2_pos sh).
  assert (0 < s * 2 ^ sh) by (apply Qmult_lt_0_compat; auto).
  assert (scale_approx_mult s sh = 0%Z) as ->.
  { unfold scale_approx_mult. destruct (floor_bounds (s * 2 ^ sh)) as [F1 F2].
    assert (0 <= Qfloor (s * 2 ^ sh))%Z by (change 0%Z with (Qfloor 0); apply Qfloor_resp_le; lra).
    assert (Zq (Qfloor (s * 2 ^ sh)) < Zq 1) as K by (rewrite Zq_1; lra). apply (proj2 (Zq_lt _ _)) in K. lia. }
  change (Zq 0) with 0. unfold Qdiv. ring.
Qed.

Example C28_example : scale_approx_shift (1 # 100) 8 false = 14%Z /\ scale_approx_mult (1 # 100) 14 = 163%Z.
Proof. split; vm_compute; reflexivity. Qed.

(* ------------------------------------------------------------------------- *)
(** * C29 *)
Lemma wrpn_eq bits x : (1 <= bits)%Z ->
  let s := Zq (2 ^ bits - 1) / 2 in wrpn bits x == Zq (rhe (s * clamp x (-1) 1)) / s.
Proof.
  intros Hb s. unfold wrpn, sym1. cbn [fst snd]. change (Qeq_bool 1 0) with false. cbv iota.
  unfold quantize_ste, linear_dequantize, linear_quantize, sym_n. fold s.
  assert (E : s / 1 == s) by field.
  rewrite (rhe_Proper _ (s * clamp x (-1) 1)) by (rewrite E; ring). rewrite E. unfold Qdiv. ring.
Qed.

(** WRPN weights are on a grid of step 2/(2^n - 1), zero stays zero, the map is odd and monotone
    and the error is at most half a step. *)
Theorem C29_wrpn :
  forall bits, (1 <= bits)%Z ->
  wrpn bits 0 == 0 /\
  (forall x, exists k, (- 2 ^ (bits - 1) <= k <= 2 ^ (bits - 1))%Z /\ wrpn bits x == Zq k * 2 / Zq (2 ^ bits - 1)) /\
  (forall x y, x <= y -> wrpn bits x <= wrpn bits y) /\
  (forall x, wrpn bits (- x) == - wrpn bits x) /\
  (forall x c, is_clamp x (-1) 1 c -> Qabs (wrpn bits x - c) <= 1 / Zq (2 ^ bits - 1)).
Proof.
  intros bits Hb. set (s := Zq (2 ^ bits - 1) / 2).
  assert (HN : 0 < Zq (2 ^ bits - 1)) by (apply Zq_pos; pose proof (pow2_ge2 bits Hb); lia).
  assert (Hs : 0 < s) by (apply Qlt_shift_div_l; lra).
  pose proof (pow2_split bits Hb) as Hsp.
  assert (Es : s == Zq (2 ^ (bits - 1)) - (1 # 2)).
  { unfold s. rewrite Zq_minus, Hsp, Zq_mult, Zq_1. change (Zq 2) with 2. field. }
  assert (E : forall x, wrpn bits x == Zq (rhe (s * clamp x (-1) 1)) / s) by (intro x; apply wrpn_eq; auto).
  assert (Hc : forall x, -1 <= clamp x (-1) 1 /\ clamp x (-1) 1 <= 1) by (intro x; apply clamp_range; lra).
  split; [|split; [|split; [|split]]].
  - rewrite E. change (clamp 0 (-1) 1) with 0. rewrite (rhe_Proper _ (Zq 0)), rhe_Z by (change (Zq 0) with 0; ring).
    change (Zq 0) with 0. unfold Qdiv. ring.
  - intro x. exists (rhe (s * clamp x (-1) 1)). split.
    + destruct (Hc x) as [C1 C2].
      assert (S1 : s * (-1) <= s * clamp x (-1) 1) by (apply Qmult_le_l; auto).
      assert (S2 : s * clamp x (-1) 1 <= s * 1) by (apply Qmult_le_l; auto).
      split.
      * apply rhe_ge. rewrite Zq_opp. lra.
      * apply rhe_le. lra.
    + rewrite E. unfold s. field. lra.
  - intros x y Hxy. rewrite !E. apply Qmult_le_compat_r; [|apply Qlt_le_weak, Qinv_lt_0_compat; auto].
    apply (proj1 (Zq_le _ _)). apply rhe_mono. apply Qmult_le_l; auto. apply clamp_mono; auto.
  - intro x. rewrite !E. assert (clamp (- x) (-1) 1 == - clamp x (-1) 1) as Ec.
    { unfold clamp. destruct (qmax_spec (- x) (-1)) as [[A F]|[A F]], (qmax_spec x (-1)) as [[A' F']|[A' F']]; rewrite F, F';
      match goal with |- qmin ?u 1 == - qmin ?w 1 =>
        destruct (qmin_spec u 1) as [[B G]|[B G]], (qmin_spec w 1) as [[B' G']|[B' G']]; rewrite G; try rewrite G'; lra end. }
    rewrite (rhe_Proper _ (- (s * clamp x (-1) 1))) by (rewrite Ec; ring). rewrite rhe_opp, Zq_opp. field. lra.
  - intros x c (C1 & C2 & C3 & C4 & C5).
    assert (Ec : clamp x (-1) 1 == c).
    { destruct (clamp_is_clamp x (-1) 1 ltac:(lra)) as (D1 & D2 & D3 & D4 & D5).
      destruct (Qlt_le_dec x (-1)); [rewrite D3, C3; lra|]. destruct (Qlt_le_dec 1 x); [rewrite D4, C4; lra|].
      rewrite D5, C5; lra. }
    rewrite E. rewrite (rhe_Proper _ (s * c)) by (rewrite Ec; reflexivity).
    pose proof (rhe_err (s * c)) as R.
    assert (Zq (rhe (s * c)) / s - c == (Zq (rhe (s * c)) - s * c) / s) as -> by (field; lra).
    unfold Qdiv at 1. rewrite Qabs_Qmult, (Qabs_pos (/ s)) by (apply Qlt_le_weak, Qinv_lt_0_compat; auto).
    assert (1 / Zq (2 ^ bits - 1) == (1 # 2) * / s) as -> by (unfold s; field; lra).
    apply Qmult_le_compat_r; auto. apply Qlt_le_weak, Qinv_lt_0_compat; auto.
Qed.

(** Finding: for n >= 2 bits all 2^n + 1 levels occur, and weight 1 is mapped above 1. *)
Theorem C29_wrpn_levels_refuted :
  forall bits, (2 <= bits)%Z ->
  (forall k, (- 2 ^ (bits - 1) <= k <= 2 ^ (bits - 1))%Z -> exists x, -1 <= x /\ x <= 1 /\ wrpn bits x == Zq k * 2 / Zq (2 ^ bits - 1)) /\
  1 < wrpn bits 1.
Proof.
  intros bits Hb. set (s := Zq (2 ^ bits - 1) / 2).
  pose proof (pow2_split bits ltac:(lia)) as Hsp. pose proof (pow2_ge2 (bits - 1) ltac:(lia)) as Hp2.
  assert (HN : 0 < Zq (2 ^ bits - 1)) by (apply Zq_pos; lia).
  assert (Hs : 0 < s) by (apply Qlt_shift_div_l; lra).
  assert (Es : s == Zq (2 ^ (bits - 1)) - (1 # 2)).
  { unfold s. rewrite Zq_minus, Hsp, Zq_mult, Zq_1. change (Zq 2) with 2. field. }
  assert (E : forall x, wrpn bits x == Zq (rhe (s * clamp x (-1) 1)) / s) by (intro x; apply wrpn_eq; lia).
  assert (Hev : Z.even (2 ^ (bits - 1) - 1) = false).
  { rewrite (pow2_split (bits - 1)) by lia. rewrite Z.even_sub, Z.even_mul. reflexivity. }
  assert (Htop : rhe s = (2 ^ (bits - 1))%Z).
  { rewrite (rhe_Proper s (Zq (2 ^ (bits - 1) - 1) + (1 # 2))) by (rewrite Es, Zq_minus, Zq_1; ring).
    rewrite rhe_tie, Hev. lia. }
  split.
  - assert (Hk : forall k, (- 2 ^ (bits - 1) <= k <= 2 ^ (bits - 1))%Z -> exists x, -1 <= x /\ x <= 1 /\ rhe (s * x) = k).
    { intros k Hk. destruct (Z.eq_dec k (2 ^ (bits - 1))) as [->|K1]; [|destruct (Z.eq_dec k (- 2 ^ (bits - 1))) as [->|K2]].
      - exists 1. split; [lra|]. split; [lra|]. rewrite (rhe_Proper _ s) by ring. auto.
      - exists (-1). split; [lra|]. split; [lra|]. rewrite (rhe_Proper _ (- s)) by ring. rewrite rhe_opp, Htop. auto.
      - exists (Zq k / s). assert (Zq (- (2 ^ (bits - 1) - 1)) <= Zq k) as A1 by (apply (proj1 (Zq_le _ _)); lia).
        assert (Zq k <= Zq (2 ^ (bits - 1) - 1)) as A2 by (apply (proj1 (Zq_le _ _)); lia).
        rewrite Zq_opp in A1. rewrite Zq_minus, Zq_1 in A1, A2.
        split; [apply Qle_shift_div_l; lra|]. split; [apply Qle_shift_div_r; lra|].
        rewrite (rhe_Proper _ (Zq k)); [apply rhe_Z|]. field. lra. }
    intros k K. destruct (Hk k K) as (x & X1 & X2 & X3). exists x. split; auto. split; auto.
    rewrite E. destruct (clamp_is_clamp x (-1) 1 ltac:(lra)) as (_ & _ & _ & _ & D5).
    rewrite (rhe_Proper _ (s * x)) by (rewrite D5 by auto; reflexivity). rewrite X3. unfold s. field. lra.
  - rewrite E. change (clamp 1 (-1) 1) with 1. rewrite (rhe_Proper _ s) by ring. rewrite Htop.
    apply Qlt_shift_div_l; auto. lra.
Qed.

(** DoReFa (n >= 2 bits): [th] stands for tanh. *)
Section Dorefa.
Variables (th : Q -> Q) (bits : Z).
Hypothesis Hb : (2 <= bits)%Z.
Let N := Zq (2 ^ bits - 1).

Lemma N_pos : 0 < N.
Proof using Hb. apply Zq_pos. pose proof (pow2_ge2 bits ltac:(lia)). lia. Qed.

Lemma unit_params : exists s z, asym1 bits true false 0 1 = (s, z) /\ s == N /\ z == 0.
Proof using Hb.
  pose proof N_pos as HN. unfold asym1. fold N.
  change (qmin 0 0) with 0. change (qmax 1 0) with 1. change (Qeq_bool (1 - 0) 0) with false. cbv iota.
  eexists. eexists. split; [reflexivity|]. split; [field|].
  rewrite (rhe_Proper _ (Zq 0)), rhe_Z; [reflexivity|]. change (Zq 0) with 0. ring.
Qed.

Lemma dorefa_elem u s z : s == N -> z == 0 -> 2 * quantize_ste u s z true - 1 == (2 * Zq (rhe (N * u)) - N) / N.
Proof using Hb.
  pose proof N_pos. intros Es Ez. unfold quantize_ste, linear_dequantize, linear_quantize.
  rewrite (rhe_Proper _ (N * u)) by (rewrite Es, Ez; ring). rewrite Es, Ez. field. lra.
Qed.
End Dorefa.

Lemma max_norm_spec l : l <> [] -> (forall x, In x l -> Qabs x <= max_norm l) /\ exists x, In x l /\ max_norm l = Qabs x.
Proof.
  destruct l as [|a l]; [congruence|]. intros _. unfold max_norm. cbn [map].
  assert (K : forall (l : list Q) m, m <= fold_left qmax (map Qabs l) m /\ (forall x, In x l -> Qabs x <= fold_left qmax (map Qabs l) m) /\
     (fold_left qmax (map Qabs l) m = m \/ exists x, In x l /\ fold_left qmax (map Qabs l) m = Qabs x)).
  { clear. induction l as [|b l IH]; intro m; cbn [map fold_left].
    - split; [lra|]. split; [intros x []|auto].
    - destruct (IH (qmax m (Qabs b))) as (A & B & C). pose proof (qmax_l m (Qabs b)). pose proof (qmax_r m (Qabs b)).
      split; [lra|]. split.
      + intros x [<-|Hx]; [lra|auto].
      + destruct C as [C|(x & Hx & C)].
        * rewrite C. destruct (qmax_spec m (Qabs b)) as [[_ E]|[_ E]]; rewrite E; [right; exists b; split; [left|]; auto|auto].
        * right. exists x. split; [right; auto|auto]. }
  destruct (K l (Qabs a)) as (A & B & C). split.
  - intros x [<-|Hx]; auto.
  - destruct C as [C|(x & Hx & C)]; [exists a|exists x]; split; auto; [left; auto|right; auto].
Qed.

(** (C20) what the norm functions are *)
Theorem C20_norm_functions :
  forall l, l <> [] ->
  l1_norm l == qsum (map Qabs l) /\
  (forall x, In x l -> Qabs x <= max_norm l) /\ exists x, In x l /\ max_norm l == Qabs x.
Proof.
  intros l H. destruct (max_norm_spec l H) as [A (x & B & C)]. split; [reflexivity|]. split; auto.
  exists x. rewrite C. split; auto. reflexivity.
Qed.

Theorem C29_dorefa :
  forall th bits t, (2 <= bits)%Z ->
  (exists x, In x t /\ ~ th x == 0) ->
  exists out, dorefa_param th bits t = map Some out /\ length out = length t /\
  (forall i, (i < length t)%nat ->
     (* on the grid of 2^n odd multiples of 1/(2^n - 1) in [-1, 1]; never zero *)
     (exists k, (0 <= k <= 2 ^ bits - 1)%Z /\ nth i out 0 == Zq (2 * k - (2 ^ bits - 1)) / Zq (2 ^ bits - 1)) /\
     -1 <= nth i out 0 /\ nth i out 0 <= 1 /\ ~ nth i out 0 == 0) /\
  (* monotone in tanh of the weight, whose extreme elements are mapped to +1 / -1 *)
  (forall i j, (i < length t)%nat -> (j < length t)%nat -> th (nth i t 0) <= th (nth j t 0) -> nth i out 0 <= nth j out 0) /\
  (forall i, (i < length t)%nat -> (forall x, In x t -> Qabs (th x) <= th (nth i t 0)) -> nth i out 0 == 1) /\
  (forall i, (i < length t)%nat -> (forall x, In x t -> Qabs (th x) <= - th (nth i t 0)) -> nth i out 0 == -1).
Proof.
  intros th bits t Hb (x0 & Hx0 & Hnz). pose proof (N_pos bits Hb) as HN. set (N := Zq (2 ^ bits - 1)) in *.
  destruct (unit_params bits Hb) as (s & z & Ep & Es & Ez). fold N in Es.
  unfold dorefa_param. destruct (Z.eqb_spec bits 1); [lia|]. rewrite Ep. cbn [fst snd].
  set (M := max_norm (map th t)).
  assert (Hne : map th t <> []) by (destruct t; [destruct Hx0|discriminate]).
  destruct (max_norm_spec (map th t) Hne) as [HM1 (y & Hy & HM2)]. fold M in HM1, HM2.
  assert (HM : 0 < M).
  { assert (Qabs (th x0) <= M) by (apply HM1; apply in_map; auto).
    assert (0 < Qabs (th x0)); [|lra]. destruct (Qlt_le_dec 0 (Qabs (th x0))) as [|K]; auto. exfalso. apply Hnz.
    apply Qabs_le_inv in K. lra. }
  assert (Qeq_bool M 0 = false) as E0.
  { apply not_true_is_false. intro K. apply Qeq_bool_iff in K. lra. }
  rewrite E0.
  set (g := fun w => 2 * quantize_ste (th w / (2 * M) + (1 # 2)) s z true - 1).
  exists (map g t). rewrite !map_map. split; [reflexivity|]. rewrite map_length. split; auto.
  assert (Eg : forall w, g w == (2 * Zq (rhe (N * (th w / (2 * M) + (1 # 2)))) - N) / N) by (intro w; unfold g; rewrite (dorefa_elem bits Hb _ s z Es Ez); reflexivity).
  assert (En : forall i, (i < length t)%nat -> nth i (map g t) 0 = g (nth i t 0)).
  { intros i Hi. rewrite nth_indep with (d' := g 0) by (rewrite map_length; auto). apply map_nth. }
  assert (Hu : forall w, In w t -> 0 <= th w / (2 * M) + (1 # 2) /\ th w / (2 * M) + (1 # 2) <= 1).
  { intros w Hw. assert (Qabs (th w) <= M) as K by (apply HM1; apply in_map; auto). apply Qabs_le_inv in K.
    assert (- (1 # 2) <= th w / (2 * M)) by (apply Qle_shift_div_l; lra).
    assert (th w / (2 * M) <= 1 # 2) by (apply Qle_shift_div_r; lra). lra. }
  assert (Hk : forall w, In w t -> (0 <= rhe (N * (th w / (2 * M) + (1 # 2))) <= 2 ^ bits - 1)%Z).
  { intros w Hw. destruct (Hu w Hw) as [U1 U2]. split.
    - apply rhe_ge. change (Zq 0) with 0. apply Qmult_le_0_compat; lra.
    - apply rhe_le. fold N. assert (N * (th w / (2 * M) + (1 # 2)) <= N * 1) by (apply Qmult_le_l; auto). lra. }
  pose proof (pow2_split bits ltac:(lia)) as Hsp.
  split; [|split; [|split]].
  - intros i Hi. assert (Hin : In (nth i t 0) t) by (apply nth_In; auto). rewrite En by auto.
    specialize (Hk _ Hin). specialize (Eg (nth i t 0)). set (k := rhe _) in *.
    assert (K1 : Zq 0 <= Zq k) by (apply (proj1 (Zq_le _ _)); lia).
    assert (K2 : Zq k <= N) by (apply (proj1 (Zq_le _ _)); lia). change (Zq 0) with 0 in K1.
    split; [exists k; split; auto; rewrite Eg, Zq_minus, Zq_mult; reflexivity|].
    rewrite Eg. split; [apply Qle_shift_div_l; lra|]. split; [apply Qle_shift_div_r; lra|].
    intro K. assert (2 * Zq k - N == 0) as K3.
    { rewrite <- (Qmult_1_r (2 * Zq k - N)). rewrite <- (Qmult_inv_r N) by lra.
      setoid_replace ((2 * Zq k - N) * (N * / N)) with ((2 * Zq k - N) / N * N) by (field; lra). rewrite K. ring. }
    assert (Zq (2 * k) == Zq (2 ^ bits - 1)) as K4 by (rewrite Zq_mult; change (Zq 2) with 2; fold N; lra).
    apply Zq_inj in K4. lia.
  - intros i j Hi Hj Hij. rewrite !En by auto. rewrite !Eg. apply Qmult_le_compat_r; [|apply Qlt_le_weak, Qinv_lt_0_compat; auto].
    assert (Zq (rhe (N * (th (nth i t 0%Q) / (2 * M) + (1 # 2)))) <= Zq (rhe (N * (th (nth j t 0%Q) / (2 * M) + (1 # 2))))); [|lra].
    apply (proj1 (Zq_le _ _)). apply rhe_mono. apply Qmult_le_l; auto.
    assert (th (nth i t 0%Q) / (2 * M) <= th (nth j t 0%Q) / (2 * M)); [|lra].
    apply Qmult_le_compat_r; auto. apply Qlt_le_weak, Qinv_lt_0_compat. lra.
  - intros i Hi Hmx. rewrite En by auto. rewrite Eg.
    assert (th (nth i t 0%Q) == M) as Em.
    { apply in_map_iff in Hy. destruct Hy as (w & <- & Hw). specialize (Hmx w Hw). rewrite <- HM2 in Hmx.
      assert (Qabs (th (nth i t 0%Q)) <= M) as K by (apply HM1; apply in_map; apply nth_In; auto). apply Qabs_le_inv in K. lra. }
    rewrite (rhe_Proper _ (Zq (2 ^ bits - 1))) by (rewrite Em; fold N; field; lra). rewrite rhe_Z. fold N. field. lra.
  - intros i Hi Hmx. rewrite En by auto. rewrite Eg.
    assert (th (nth i t 0%Q) == - M) as Em.
    { apply in_map_iff in Hy. destruct Hy as (w & <- & Hw). specialize (Hmx w Hw). rewrite <- HM2 in Hmx.
      assert (Qabs (th (nth i t 0%Q)) <= M) as K by (apply HM1; apply in_map; apply nth_In; auto). apply Qabs_le_inv in K. lra. }
    rewrite (rhe_Proper _ (Zq 0)) by (rewrite Em; change (Zq 0) with 0; field; lra). rewrite rhe_Z. change (Zq 0) with 0. field. lra.
Qed.

(** Findings: a pruned (zero) weight becomes +1/(2^n - 1); an all-zero tensor becomes NaN. *)
Theorem C29_dorefa_zero_refuted :
  forall th bits t i, (2 <= bits)%Z -> th 0 == 0 -> (i < length t)%nat -> nth i t 0 = 0 ->
  ((exists x, In x t /\ ~ th x == 0) ->
     exists v, nth i (dorefa_param th bits t) None = Some v /\ v == 1 / Zq (2 ^ bits - 1)) /\
  ((forall x, In x t -> th x == 0) -> dorefa_param th bits t = map (fun _ => None) t).
Proof.
  intros th bits t i Hb H0 Hi Hz. pose proof (N_pos bits Hb) as HN. set (N := Zq (2 ^ bits - 1)) in *.
  destruct (unit_params bits Hb) as (s & z & Ep & Es & Ez). fold N in Es.
  unfold dorefa_param. destruct (Z.eqb_spec bits 1); [lia|]. rewrite Ep. cbn [fst snd].
  set (M := max_norm (map th t)).
  assert (Hne : map th t <> []) by (destruct t; [simpl in Hi; lia|discriminate]).
  destruct (max_norm_spec (map th t) Hne) as [HM1 (y & Hy & HM2)]. fold M in HM1, HM2. split.
  - intros (x0 & Hx0 & Hnz).
    assert (HM : 0 < M).
    { assert (Qabs (th x0) <= M) by (apply HM1; apply in_map; auto).
      assert (0 < Qabs (th x0)); [|lra]. destruct (Qlt_le_dec 0 (Qabs (th x0))) as [|K]; auto. exfalso. apply Hnz.
      apply Qabs_le_inv in K. lra. }
    assert (Qeq_bool M 0 = false) as E0 by (apply not_true_is_false; intro K; apply Qeq_bool_iff in K; lra).
    rewrite E0, map_map.
    set (g := fun x => Some (2 * quantize_ste (th x / (2 * M) + (1 # 2)) s z true - 1)).
    exists (2 * quantize_ste (th 0 / (2 * M) + (1 # 2)) s z true - 1). split.
    + rewrite nth_indep with (d' := g 0) by (rewrite map_length; auto). rewrite (map_nth g), Hz. reflexivity.
    + rewrite (dorefa_elem bits Hb _ _ _ Es Ez). fold N.
      pose proof (pow2_split bits ltac:(lia)) as Hsp.
      assert (EN : N == 2 * Zq (2 ^ (bits - 1)) - 1) by (unfold N; rewrite Zq_minus, Hsp, Zq_mult; reflexivity).
      rewrite (rhe_Proper _ (Zq (2 ^ (bits - 1) - 1) + (1 # 2))).
      * rewrite rhe_tie. assert (Z.even (2 ^ (bits - 1) - 1) = false) as ->.
        { rewrite (pow2_split (bits - 1)) by lia. rewrite Z.even_sub, Z.even_mul. reflexivity. }
        replace (2 ^ (bits - 1) - 1 + 1)%Z with (2 ^ (bits - 1))%Z by lia.
        assert (2 * Zq (2 ^ (bits - 1)) - N == 1) as -> by lra. reflexivity.
      * rewrite H0, EN, Zq_minus, Zq_1. field. lra.
  - intro Hall. assert (Qeq_bool M 0 = true) as ->; [|rewrite map_map; reflexivity].
    apply Qeq_bool_iff. rewrite HM2. apply in_map_iff in Hy. destruct Hy as (w & <- & Hw). rewrite (Hall w Hw). reflexivity.
Qed.

(** Binary DoReFa: every weight becomes +/- the mean magnitude, zero included. *)
Theorem C29_dorefa_binary :
  forall th t i, (i < length t)%nat ->
  let e := mean (map Qabs t) in
  exists v, nth i (dorefa_param th 1 t) None = Some v /\
    (0 <= nth i t 0 -> v == e) /\ (nth i t 0 < 0 -> v == - e).
Proof.
  intros th t i Hi e. unfold dorefa_param. cbn [Z.eqb Pos.eqb]. unfold dorefa_binary. fold e. rewrite map_map.
  set (g := fun x => Some ((if Qeq_bool x 0 then 1 else qsign x) * e)).
  exists ((if Qeq_bool (nth i t 0) 0 then 1 else qsign (nth i t 0)) * e). split.
  - rewrite nth_indep with (d' := g 0) by (rewrite map_length; auto). rewrite (map_nth g). reflexivity.
  - unfold qsign. split; intro H.
    + destruct (Qeq_bool (nth i t 0) 0) eqn:E; [ring|].
      assert (~ nth i t 0 == 0) by (intro K; apply Qeq_bool_iff in K; congruence).
      assert (Qltb 0 (nth i t 0) = true) as -> by (apply Qltb_lt; lra). ring.
    + destruct (Qeq_bool (nth i t 0) 0) eqn:E; [apply Qeq_bool_iff in E; lra|].
      assert (Qltb 0 (nth i t 0) = false) as -> by (apply Qltb_ge; lra).
      assert (Qltb (nth i t 0) 0 = true) as -> by (apply Qltb_lt; lra). ring.
Qed.

Example C29_example :
  dorefa_param (fun x => x) 2 [0; 1; - (1 # 2)] =
    [Some (2 * ((2 + Zq (rhe (3 / 1 * 0))) / (3 / 1)) - 1); Some (2 * ((3 + Zq (rhe (3 / 1 * 0))) / (3 / 1)) - 1);
     Some (2 * ((1 + Zq (rhe (3 / 1 * 0))) / (3 / 1)) - 1)] \/
  exists a b c, dorefa_param (fun x => x) 2 [0; 1; - (1 # 2)] = [Some a; Some b; Some c] /\ a == 1 # 3 /\ b == 1 /\ c == - (1 # 3).
Proof. right. eexists. eexists. eexists. split; [reflexivity|]. repeat split; vm_compute; reflexivity. Qed.

(* ------------------------------------------------------------------------- *)
(** * C30 *)
Theorem C30_clipped_quantization :
  forall bits clip, (1 <= bits)%Z -> 0 < clip ->
  let N := Zq (2 ^ bits - 1) in
  exists f, (forall x, clipped_forward bits clip true x = Ok (f x)) /\
  (forall x, exists k, (0 <= k <= 2 ^ bits - 1)%Z /\ f x == Zq k * clip / N /\ clipped_forward bits clip false x = Ok (Zq k)) /\
  (forall x, 0 <= f x /\ f x <= clip) /\
  (forall x y, x <= y -> f x <= f y) /\
  (forall x c, is_clamp x 0 clip c -> Qabs (f x - c) <= clip / (2 * N)) /\
  f 0 == 0 /\ f clip == clip.
Proof.
  intros bits clip Hb Hc N. assert (HN : 0 < N) by (apply Zq_pos; pose proof (pow2_ge2 bits Hb); lia).
  assert (Ep : exists s z, clipped_params bits clip = Ok (s, z) /\ s == N / clip /\ z == 0).
  { unfold clipped_params. assert (Qltb clip 0 = false) as -> by (apply Qltb_ge; lra). unfold asym1. fold N.
    change (qmin 0 0) with 0. destruct (qmax_spec clip 0) as [[A _]|[A ->]]; [lra|].
    destruct (Qeq_bool (clip - 0) 0) eqn:E; [apply Qeq_bool_iff in E; lra|].
    eexists. eexists. split; [reflexivity|]. split; [field; lra|].
    rewrite (rhe_Proper _ (Zq 0)), rhe_Z; [reflexivity|]. change (Zq 0) with 0. ring. }
  destruct Ep as (s & z & Ep & Es & Ez).
  assert (Hs : 0 < s) by (rewrite Es; apply Qlt_shift_div_l; lra).
  set (f := fun x => quantize_ste (clamp x 0 clip) s z true).
  assert (Ef : forall x, f x == Zq (rhe (N / clip * clamp x 0 clip)) * clip / N).
  { intro x. unfold f, quantize_ste, linear_dequantize, linear_quantize.
    rewrite (rhe_Proper _ (N / clip * clamp x 0 clip)) by (rewrite Es, Ez; ring). rewrite Es, Ez. field. lra. }
  assert (Hcl : forall x, 0 <= clamp x 0 clip /\ clamp x 0 clip <= clip) by (intro x; apply clamp_range; lra).
  assert (Hi : 0 < / N) by (apply Qinv_lt_0_compat; auto).
  assert (Hk : forall x, (0 <= rhe (N / clip * clamp x 0 clip) <= 2 ^ bits - 1)%Z).
  { intro x. destruct (Hcl x) as [C1 C2]. assert (Hnc : 0 < N / clip) by (apply Qlt_shift_div_l; lra). split.
    - apply rhe_ge. change (Zq 0) with 0. apply Qmult_le_0_compat; lra.
    - apply rhe_le. fold N. apply Qle_trans with (N / clip * clip); [apply Qmult_le_l; auto|].
      setoid_replace (N / clip * clip) with N by (field; lra). lra. }
  assert (Hg : forall k, (0 <= k <= 2 ^ bits - 1)%Z -> 0 <= Zq k * clip / N /\ Zq k * clip / N <= clip).
  { intros k K. assert (0 <= Zq k) by (apply Zq_nonneg; lia). assert (Zq k <= N) by (apply (proj1 (Zq_le _ _)); lia).
    assert (0 <= Zq k * clip) by (apply Qmult_le_0_compat; lra).
    assert (Zq k * clip <= N * clip) by (apply Qmult_le_compat_r; lra).
    split; [apply Qle_shift_div_l; lra|apply Qle_shift_div_r; lra]. }
  exists f. split; [intro x; unfold clipped_forward; rewrite Ep; reflexivity|].
  split; [|split; [|split; [|split; [|split]]]].
  - intro x. exists (rhe (N / clip * clamp x 0 clip)). split; auto. split; auto.
    unfold clipped_forward. rewrite Ep. cbn [bind fst snd]. unfold quantize_ste, linear_quantize.
    rewrite (rhe_Proper _ (N / clip * clamp x 0 clip)) by (rewrite Es, Ez; ring). reflexivity.
  - intro x. rewrite Ef. apply Hg. auto.
  - intros x y Hxy. rewrite !Ef. apply Qmult_le_compat_r; [|lra]. apply Qmult_le_compat_r; [|lra].
    apply (proj1 (Zq_le _ _)). apply rhe_mono. assert (Hnc : 0 < N / clip) by (apply Qlt_shift_div_l; lra).
    apply Qmult_le_l; auto. apply clamp_mono; auto.
  - intros x c (C1 & C2 & C3 & C4 & C5).
    assert (Ec : clamp x 0 clip == c).
    { destruct (clamp_is_clamp x 0 clip ltac:(lra)) as (D1 & D2 & D3 & D4 & D5).
      destruct (Qlt_le_dec x 0); [rewrite D3, C3; lra|]. destruct (Qlt_le_dec clip x); [rewrite D4, C4; lra|].
      rewrite D5, C5; lra. }
    rewrite Ef. rewrite (rhe_Proper _ (N / clip * c)) by (rewrite Ec; reflexivity).
    pose proof (rhe_err (N / clip * c)) as R.
    assert (Zq (rhe (N / clip * c)) * clip / N - c == (Zq (rhe (N / clip * c)) - N / clip * c) * (clip / N)) as -> by (field; lra).
    assert (0 < clip / N) by (apply Qlt_shift_div_l; lra).
    rewrite Qabs_Qmult, (Qabs_pos (clip / N)) by lra.
    assert (clip / (2 * N) == (1 # 2) * (clip / N)) as -> by (field; lra). apply Qmult_le_compat_r; auto. lra.
  - rewrite Ef. destruct (clamp_is_clamp 0 0 clip ltac:(lra)) as (_ & _ & D3 & _ & _).
    rewrite (rhe_Proper _ (Zq 0)) by (rewrite D3 by lra; change (Zq 0) with 0; ring). rewrite rhe_Z. change (Zq 0) with 0. field. lra.
  - rewrite Ef. destruct (clamp_is_clamp clip 0 clip ltac:(lra)) as (_ & _ & _ & D4 & _).
    rewrite (rhe_Proper _ (Zq (2 ^ bits - 1))) by (rewrite D4 by lra; fold N; field; lra). rewrite rhe_Z. fold N. field. lra.
Qed.

(** The learned-clip variant (PACT) computes the same function while clip_val > 0, and raises
    ValueError once training drives clip_val below 0. *)
Theorem C30_learned_clip :
  forall bits clip deq x, (1 <= bits)%Z ->
  (0 < clip -> exists a b, learned_clipped_forward bits clip deq x = Ok a /\ clipped_forward bits clip deq x = Ok b /\ a == b) /\
  (clip < 0 -> learned_clipped_forward bits clip deq x = Raise ValueError /\ clipped_forward bits clip deq x = Raise ValueError).
Proof.
  intros bits clip deq x Hb. unfold learned_clipped_forward, clipped_forward. split; intro Hc.
  - unfold clipped_params. assert (Qltb clip 0 = false) as -> by (apply Qltb_ge; lra). cbn [bind].
    eexists. eexists. split; [reflexivity|]. split; [reflexivity|].
    assert (E : (if Qltb (qmax x 0) clip then qmax x 0 else clip) == clamp x 0 clip).
    { unfold clamp. destruct (Qltb (qmax x 0) clip) eqn:F.
      - apply Qltb_lt in F. destruct (qmin_spec (qmax x 0) clip) as [[A ->]|[A ->]]; lra.
      - apply Qltb_ge in F. destruct (qmin_spec (qmax x 0) clip) as [[A ->]|[A ->]]; lra. }
    set (p := asym1 bits true false 0 clip). unfold quantize_ste, linear_dequantize, linear_quantize.
    rewrite (rhe_Proper _ (fst p * clamp x 0 clip - snd p)) by (rewrite E; reflexivity). destruct deq; reflexivity.
  - unfold clipped_params. assert (Qltb clip 0 = true) as -> by (apply Qltb_lt; lra). auto.
Qed.

Example C30_example : exists v, clipped_forward 2 3 true 2 = Ok v /\ v == 2.
Proof. eexists. split; vm_compute; reflexivity. Qed.

(* ------------------------------------------------------------------------- *)
(** * C45: range statistics *)
Lemma row_min_spec l a : row_min l = Ok a -> In a l /\ forall x, In x l -> a <= x.
Proof.
  destruct l as [|b l]; [discriminate|]. intro H. injection H as <-.
  assert (K : forall l m, fold_left qmin l m <= m /\ (forall x, In x l -> fold_left qmin l m <= x) /\
     (fold_left qmin l m = m \/ In (fold_left qmin l m) l)).
  { clear. induction l as [|b l IH]; intro m; cbn [fold_left].
    - split; [lra|]. split; [intros x []|auto].
    - destruct (IH (qmin m b)) as (A & B & C). pose proof (qmin_l m b). pose proof (qmin_r m b).
      split; [lra|]. split; [intros x [<-|Hx]; [lra|auto]|].
      destruct C as [C|C]; [|right; right; auto]. rewrite C.
      destruct (qmin_spec m b) as [[_ E]|[_ E]]; rewrite E; [auto|right; left; auto]. }
  destruct (K l b) as (A & B & C). split.
  - destruct C as [C|C]; [rewrite C; left; auto|right; auto].
  - intros x [<-|Hx]; auto.
Qed.

Lemma row_max_spec l a : row_max l = Ok a -> In a l /\ forall x, In x l -> x <= a.
Proof.
  destruct l as [|b l]; [discriminate|]. intro H. injection H as <-.
  assert (K : forall l m, m <= fold_left qmax l m /\ (forall x, In x l -> x <= fold_left qmax l m) /\
     (fold_left qmax l m = m \/ In (fold_left qmax l m) l)).
  { clear. induction l as [|b l IH]; intro m; cbn [fold_left].
    - split; [lra|]. split; [intros x []|auto].
    - destruct (IH (qmax m b)) as (A & B & C). pose proof (qmax_l m b). pose proof (qmax_r m b).
      split; [lra|]. split; [intros x [<-|Hx]; [lra|auto]|].
      destruct C as [C|C]; [|right; right; auto]. rewrite C.
      destruct (qmax_spec m b) as [[_ E]|[_ E]]; rewrite E; [right; left; auto|auto]. }
  destruct (K l b) as (A & B & C). split.
  - destruct C as [C|C]; [rewrite C; left; auto|right; auto].
  - intros x [<-|Hx]; auto.
Qed.

Lemma mapM_nth {A B} (f : A -> res B) l r : mapM f l = Ok r -> length r = length l /\
  forall i da db, (i < length l)%nat -> f (nth i l da) = Ok (nth i r db).
Proof.
  revert r; induction l as [|a l IH]; intros r H; simpl in H.
  - injection H as <-. split; auto. simpl; intros; lia.
  - inv_bind H. inv_bind H. injection H as <-. destruct (IH _ H1) as [A1 A2]. split; [simpl; lia|].
    intros [|i] da db Hi; simpl in *; auto. apply A2. lia.
Qed.

(** Slice [i] of a tensor along its leading dimensions 0..d: consecutive elements. *)
Definition slice (t : nd) (d i : nat) : list Q :=
  let g := numel (skipn (S d) (nd_shape t)) in tab g (fun j => nth (i * g + j) (nd_data t) 0).

Theorem C45_min_max :
  forall t p, tensor_min_max t None = Ok p -> exists a b, p = [(a, b)] /\ In a (nd_data t) /\ In b (nd_data t) /\
    forall x, In x (nd_data t) -> a <= x /\ x <= b.
Proof.
  intros t p H. unfold tensor_min_max in H. cbn [dim_rows bind mapM] in H. inv_bind H. injection H as <-.
  inv_bind H0. inv_bind H0. injection H0 as <-.
  destruct (row_min_spec _ _ H) as [A1 A2]. destruct (row_max_spec _ _ H1) as [B1 B2]. eexists. eexists. split; [reflexivity|]. auto.
Qed.

Lemma numel_app a b : numel (a ++ b) = (numel a * numel b)%nat.
Proof. unfold numel. induction a as [|x a IH]; simpl; [lia|]. rewrite IH. ring. Qed.

Theorem C45_min_max_per_dim :
  forall t d p, length (nd_data t) = numel (nd_shape t) -> (0 < numel (nd_shape t))%nat -> (d < length (nd_shape t))%nat ->
  tensor_min_max t (Some d) = Ok p ->
  length p = numel (firstn (S d) (nd_shape t)) /\
  forall i, (i < length p)%nat ->
    In (fst (nth i p (0, 0))) (slice t d i) /\ In (snd (nth i p (0, 0))) (slice t d i) /\
    forall x, In x (slice t d i) -> fst (nth i p (0, 0)) <= x /\ x <= snd (nth i p (0, 0)).
Proof.
  intros t d p Hok Hpos Hd H. unfold tensor_min_max, dim_rows in H.
  assert (Nat.ltb d (ndim t) = true) as E by (apply Nat.ltb_lt; auto). rewrite E in H.
  set (g := numel (skipn (S d) (nd_shape t))) in *. set (n := numel (firstn (S d) (nd_shape t))).
  assert (Hng : numel (nd_shape t) = (n * g)%nat).
  { unfold n, g. rewrite <- numel_app, firstn_skipn. auto. }
  assert (Hg : (0 < g)%nat) by nia.
  rewrite (view_rows_ok g n) in H by lia. cbn [bind] in H.
  destruct (mapM_nth _ _ _ H) as [L1 L2]. rewrite tab_length in L1, L2. split; auto.
  intros i Hi. specialize (L2 i [] (0, 0) ltac:(lia)). rewrite tab_nth in L2 by lia.
  inv_bind L2. inv_bind L2. injection L2 as L2. rewrite <- L2. cbn [fst snd].
  destruct (row_min_spec _ _ H0) as [A1 A2]. destruct (row_max_spec _ _ H1) as [B1 B2]. unfold slice. fold g. auto.
Qed.

Theorem C45_per_dim_error : forall t d, (length (nd_shape t) <= d)%nat -> tensor_min_max t (Some d) = Raise ValueError.
Proof.
  intros t d H. unfold tensor_min_max, dim_rows. assert (Nat.ltb d (ndim t) = false) as -> by (apply Nat.ltb_ge; auto). reflexivity.
Qed.

Lemma mean_bounds l lo hi : l <> [] -> (forall x, In x l -> lo <= x /\ x <= hi) -> lo <= mean l /\ mean l <= hi.
Proof.
  intros Hne H. assert (Hn : 0 < Zq (Z.of_nat (length l))) by (apply Zq_pos; destruct l; [congruence|simpl; lia]).
  assert (K : Zq (Z.of_nat (length l)) * lo <= qsum l /\ qsum l <= Zq (Z.of_nat (length l)) * hi).
  { clear Hne Hn. induction l as [|a l IH].
    - simpl. change (Zq 0) with 0. lra.
    - assert (IH' := IH (fun x Hx => H x (or_intror Hx))). destruct (H a (or_introl eq_refl)).
      change (qsum (a :: l)) with (a + qsum l).
      assert (E : Zq (Z.of_nat (length (a :: l))) == Zq (Z.of_nat (length l)) + 1).
      { change (length (a :: l)) with (S (length l)). rewrite Nat2Z.inj_succ, <- Z.add_1_r, Zq_plus. reflexivity. }
      rewrite E. lra. }
  unfold mean. split; [apply Qle_shift_div_l|apply Qle_shift_div_r]; auto; lra.
Qed.

(** Averaged ranges lie inside the full range (whole tensor or averaged across a dimension). *)
Theorem C45_avg_min_max :
  forall t d lo hi a b, length (nd_data t) = numel (nd_shape t) -> (0 < numel (nd_shape t))%nat ->
  match d with Some k => (k < length (nd_shape t))%nat | None => True end ->
  tensor_min_max t None = Ok [(lo, hi)] -> tensor_avg_min_max t d = Ok (a, b) ->
  lo <= a /\ a <= b /\ b <= hi /\
  exists m, tensor_avg_max_abs t d = Ok m /\ m <= qmax (Qabs lo) (Qabs hi).
Proof.
  intros t d lo hi a b Hok Hpos Hd Hf Ha. unfold tensor_avg_max_abs. rewrite Ha. cbn [bind fst snd].
  unfold tensor_avg_min_max in Ha. inv_bind Ha. injection Ha as <- <-.
  destruct (C45_min_max t _ Hf) as (lo' & hi' & E & L1 & L2 & L3). injection E as <- <-.
  assert (K : x <> [] /\ forall e, In e x -> lo <= fst e /\ fst e <= snd e /\ snd e <= hi).
  { destruct d as [k|].
    - destruct (C45_min_max_per_dim t k x Hok Hpos Hd H) as [A1 A2]. split.
      + intros ->. simpl length in A1. rewrite <- (firstn_skipn (S k) (nd_shape t)), numel_app in Hpos. nia.
      + intros e He. apply (In_nth _ _ (0, 0)) in He. destruct He as (i & Hi & <-).
        destruct (A2 i Hi) as (B1 & B2 & B3).
        assert (Hin : forall y, In y (slice t k i) -> In y (nd_data t)).
        { intros y Hy. unfold slice in Hy. apply in_map_iff in Hy. destruct Hy as (j & <- & Hj). apply in_seq in Hj.
          apply nth_In. rewrite Hok. rewrite <- (firstn_skipn (S k) (nd_shape t)) at 2. rewrite numel_app.
          rewrite A1 in Hi. nia. }
        destruct (L3 _ (Hin _ B1)). destruct (L3 _ (Hin _ B2)). destruct (B3 _ B2). auto.
    - destruct (C45_min_max t _ H) as (u & v & -> & M1 & M2 & M3). split; [discriminate|].
      intros e [<-|[]]. cbn [fst snd]. destruct (L3 _ M1), (L3 _ M2), (M3 _ M2). auto. }
  destruct K as [Kne K].
  assert (N1 : map fst x <> []) by (destruct x; [congruence|discriminate]).
  assert (N2 : map snd x <> []) by (destruct x; [congruence|discriminate]).
  destruct (mean_bounds (map fst x) lo hi N1) as [P1 P2].
  { intros y Hy. apply in_map_iff in Hy. destruct Hy as (e & <- & He). destruct (K e He) as (? & ? & ?). split; auto. eapply Qle_trans; eauto. }
  destruct (mean_bounds (map snd x) lo hi N2) as [P3 P4].
  { intros y Hy. apply in_map_iff in Hy. destruct Hy as (e & <- & He). destruct (K e He) as (? & ? & ?). split; auto. eapply Qle_trans; eauto. }
  assert (P5 : mean (map fst x) <= mean (map snd x)).
  { unfold mean. rewrite !map_length. apply Qmult_le_compat_r.
    - clear -K. induction x as [|e x IH]; [apply Qle_refl|].
      change (qsum (map fst (e :: x))) with (fst e + qsum (map fst x)). change (qsum (map snd (e :: x))) with (snd e + qsum (map snd x)).
      destruct (K e (or_introl eq_refl)) as (_ & ? & _). specialize (IH (fun e He => K e (or_intror He))). lra.
    - apply Qinv_le_0_compat. apply Zq_nonneg. lia. }
  split; auto. split; auto. split; auto. eexists. split; [reflexivity|].
  set (u := mean (map fst x)) in *. set (v := mean (map snd x)) in *.
  pose proof (qmax_l (Qabs lo) (Qabs hi)) as G1. pose proof (qmax_r (Qabs lo) (Qabs hi)) as G2.
  pose proof (Qle_Qabs hi). pose proof (Qle_Qabs (- lo)) as G3. rewrite Qabs_opp in G3.
  set (m := qmax (Qabs lo) (Qabs hi)) in *.
  assert (Qabs u <= m) by (apply Qabs_le; lra). assert (Qabs v <= m) by (apply Qabs_le; lra).
  destruct (qmax_spec (Qabs u) (Qabs v)) as [[_ ->]|[_ ->]]; auto.
Qed.

(** Symmetric ranges: max_abs bounds every element's magnitude and is attained. *)
Theorem C45_max_abs :
  forall t m, tensor_max_abs t None = Ok m -> exists a, m = [a] /\ (forall x, In x (nd_data t) -> Qabs x <= a) /\
    exists x, In x (nd_data t) /\ a == Qabs x.
Proof.
  intros t m H. unfold tensor_max_abs in H. inv_bind H. injection H as <-.
  destruct (C45_min_max t _ H0) as (a & b & -> & A & B & C). cbn [map fst snd]. eexists. split; [reflexivity|].
  pose proof (qmax_l (Qabs a) (Qabs b)). pose proof (qmax_r (Qabs a) (Qabs b)).
  split.
  - intros x Hx. destruct (C x Hx). pose proof (Qle_Qabs b). pose proof (Qle_Qabs (- a)) as G. rewrite Qabs_opp in G.
    apply Qabs_le; lra.
  - destruct (qmax_spec (Qabs a) (Qabs b)) as [[_ E]|[_ E]]; rewrite E; [exists b|exists a]; split; auto; reflexivity.
Qed.

(** mean +/- n standard deviations, cut to the observed range. *)
Theorem C45_mean_n_stds :
  forall std t n a b, 0 <= std t -> mean_n_stds_min_max std t n = Ok (a, b) ->
  0 < n /\ a <= mean t /\ mean t <= b /\ mean t - n * std t <= a /\ b <= mean t + n * std t /\
  exists lo hi, In lo t /\ In hi t /\ (forall x, In x t -> lo <= x /\ x <= hi) /\ lo <= a /\ b <= hi.
Proof.
  intros std t n a b Hs H. unfold mean_n_stds_min_max in H. destruct (Qle_bool n 0) eqn:E; [discriminate|].
  apply Qle_bool_ngt in E. inv_bind H. inv_bind H. injection H as <- <-.
  destruct (row_min_spec _ _ H0) as [A1 A2]. destruct (row_max_spec _ _ H1) as [B1 B2].
  assert (Hne : t <> []) by (intros ->; destruct A1).
  destruct (mean_bounds t x x0 Hne) as [M1 M2]; [intros y Hy; split; auto|].
  assert (0 <= n * std t) by (apply Qmult_le_0_compat; lra).
  split; auto.
  destruct (qmax_spec x (mean t - n * std t)) as [[P ->]|[P ->]], (qmin_spec x0 (mean t + n * std t)) as [[R ->]|[R ->]];
    repeat split; try lra; exists x, x0; repeat split; auto; lra.
Qed.

Theorem C45_n_stds_error : forall std t n, n <= 0 -> mean_n_stds_min_max std t n = Raise ValueError.
Proof. intros std t n H. unfold mean_n_stds_min_max. apply Qle_bool_iff in H. rewrite H. reflexivity. Qed.

(** ACIQ: the symmetric clipping range contains mean +/- alpha; the asymmetric one starts no lower
    than the average minimum and spans 2 alpha (alpha when half_range). *)
Theorem C45_aciq :
  forall m mn alpha, 0 <= alpha ->
  (let r := aciq_symmetric m alpha in fst r == - snd r /\ fst r <= m - alpha /\ m + alpha <= snd r) /\
  (forall half, mn <= m -> let r := aciq_asymmetric m mn alpha half in
     mn <= fst r /\ fst r <= m /\ m <= snd r /\ snd r - fst r == (if half then alpha else 2 * alpha)).
Proof.
  intros m mn alpha Ha. unfold aciq_symmetric, aciq_asymmetric. cbv zeta. cbn [fst snd].
  pose proof (Qle_Qabs m). pose proof (Qle_Qabs (- m)) as G. rewrite Qabs_opp in G. split.
  - repeat split; lra.
  - intros half Hm. destruct (qmax_spec mn (m - alpha)) as [[P ->]|[P ->]]; destruct half; repeat split; lra.
Qed.

Theorem C45_alpha_laplace :
  forall t bits half a, t <> [] -> get_alpha_laplace t bits half = Ok a -> (bits <= 8)%nat /\ 0 <= a /\
    (forall c, (forall x, In x t -> x == c) -> a == 0).
Proof.
  intros t bits half a Hne H. unfold get_alpha_laplace in H. inv_bind H. injection H as <-.
  assert (Hb : (bits <= 8)%nat /\ 0 < x).
  { unfold alpha_laplace in H0. destruct half; do 9 (destruct bits as [|bits]; [injection H0 as <-; split; [lia|reflexivity]|]);
    destruct bits; discriminate. }
  split; [tauto|].
  set (dev := map (fun y => Qabs (y - mean t)) t). assert (Hd : dev <> []) by (unfold dev; destruct t; [congruence|discriminate]).
  split.
  - apply Qmult_le_0_compat; [|lra].
    assert (K : forall l, (forall y, In y l -> 0 <= y) -> 0 <= qsum l).
    { clear. induction l as [|y l IH]; intro H; [apply Qle_refl|]. change (qsum (y :: l)) with (y + qsum l).
      assert (0 <= y) by (apply H; left; auto). assert (0 <= qsum l) by (apply IH; intros; apply H; right; auto). lra. }
    assert (Hl : (0 < Z.of_nat (length dev))%Z).
    { clear - Hd. clearbody dev. destruct dev; [congruence|]. cbn [length]. lia. }
    unfold mean at 1. apply Qle_shift_div_l; [exact (Zq_pos _ Hl)|].
    rewrite Qmult_0_l. apply K. intros y Hy. unfold dev in Hy. apply in_map_iff in Hy. destruct Hy as (z & <- & _). exact (Qabs_nonneg (z - mean t)).
  - intros c Hc. destruct (mean_bounds t c c Hne) as [M1 M2]; [intros y Hy; pose proof (Hc y Hy); split; lra|].
    destruct (mean_bounds dev 0 0 Hd) as [D1 D2].
    + intros y Hy. unfold dev in Hy. apply in_map_iff in Hy. destruct Hy as (z & <- & Hz). specialize (Hc z Hz).
      assert (E : z - mean t == 0) by lra. rewrite (Qabs_wd _ _ E). split; discriminate.
    + assert (E : mean dev == 0) by lra. change (mean dev * x == 0). rewrite E. ring.
Qed.

(** The ACIQ tables: defined exactly for 0..8 (Laplace) and 1..8 (Gauss) bits, strictly increasing in
    the number of bits, and half_range with b bits clips like the full range with b+1 bits. (The
    Laplace entry for 3 bits is 5.02, while the full-range one for 4 bits is 5.03.) *)
Theorem C45_alpha_tables :
  (forall half b, (exists a, alpha_laplace half b = Ok a) <-> (b <= 8)%nat) /\
  (forall half b, (exists a, alpha_gauss half b = Ok a) <-> (1 <= b <= 8)%nat) /\
  (forall half b b' a a', (b < b')%nat -> alpha_laplace half b = Ok a -> alpha_laplace half b' = Ok a' -> a < a') /\
  (forall half b b' a a', (b < b')%nat -> alpha_gauss half b = Ok a -> alpha_gauss half b' = Ok a' -> a < a') /\
  (forall b a a', alpha_laplace true b = Ok a -> alpha_laplace false (S b) = Ok a' ->
     a == (if Nat.eqb b 3 then a' - (1 # 100) else a')) /\
  (forall b a a', alpha_gauss true b = Ok a -> alpha_gauss false (S b) = Ok a' -> a == a').
Proof.
  repeat split.
  - intros (a & H). unfold alpha_laplace in H. destruct half; do 9 (destruct b as [|b]; [lia|]); destruct b; discriminate.
  - intro H. destruct half; do 9 (destruct b as [|b]; [eexists; reflexivity|]); lia.
  - destruct H as (a & H). destruct b; [discriminate|lia].
  - destruct H as (a & H). unfold alpha_gauss in H. destruct half; do 9 (destruct b as [|b]; [discriminate || lia|]); destruct b; discriminate.
  - intro H. destruct half; do 9 (destruct b as [|b]; [try lia; eexists; reflexivity|]); lia.
  - intros half b b' a a' Hlt H H'.
    assert (b' <= 8)%nat.
    { destruct (Nat.le_gt_cases b' 8); auto. unfold alpha_laplace in H'. destruct half; do 9 (destruct b' as [|b']; [lia|]); destruct b'; discriminate. }
    destruct half; do 9 (destruct b' as [|b']; [do 9 (destruct b as [|b]; [try lia; injection H as <-; injection H' as <-; reflexivity|]); lia|]); lia.
  - intros half b b' a a' Hlt H H'.
    assert (b' <= 8)%nat.
    { destruct (Nat.le_gt_cases b' 8); auto. unfold alpha_gauss in H'. destruct half; do 9 (destruct b' as [|b']; [discriminate || lia|]); destruct b'; discriminate. }
    destruct half; do 9 (destruct b' as [|b']; [do 9 (destruct b as [|b]; [first [discriminate H | lia | (injection H as <-; injection H' as <-; reflexivity)]|]); lia|]); lia.
  - intros b a a' H H'. do 8 (destruct b as [|b]; [injection H as <-; injection H' as <-; reflexivity|]).
    unfold alpha_laplace in H'. destruct b; [discriminate|destruct b; discriminate].
  - intros b a a' H H'. destruct b; [discriminate|]. do 7 (destruct b as [|b]; [injection H as <-; injection H' as <-; reflexivity|]).
    unfold alpha_gauss in H'. destruct b; [discriminate|destruct b; discriminate].
Qed.

Example C45_example :
  tensor_min_max (mkND [2; 2]%nat [1; -2; 3; 0]) (Some 0%nat) = Ok [(-2, 1); (0, 3)] /\
  exists a b, tensor_avg_min_max (mkND [2; 2]%nat [1; -2; 3; 0]) (Some 0%nat) = Ok (a, b) /\ a == -1 /\ b == 2.
Proof. split; [reflexivity|]. eexists. eexists. split; [vm_compute; reflexivity|]. split; reflexivity. Qed.

Print Assumptions C25_quantized_range.
Print Assumptions C26_round_half_even.
Print Assumptions C26_asymmetric.
Print Assumptions C26_asymmetric_elementwise.
Print Assumptions C26_degenerate_range.
Print Assumptions C26_symmetric.
Print Assumptions C26_symmetric_elementwise.
Print Assumptions C26_one_bit_restricted_refuted.
Print Assumptions C27_requantize_identity.
Print Assumptions C27_fake_quant_idempotent.
Print Assumptions C28_scale_approximation.
Print Assumptions C28_limit_small_scale_refuted.
Print Assumptions C29_wrpn.
Print Assumptions C29_wrpn_levels_refuted.
Print Assumptions C20_norm_functions.
Print Assumptions C29_dorefa.
Print Assumptions C29_dorefa_zero_refuted.
Print Assumptions C29_dorefa_binary.
Print Assumptions C30_clipped_quantization.
Print Assumptions C30_learned_clip.
Print Assumptions C45_min_max.
Print Assumptions C45_min_max_per_dim.
Print Assumptions C45_per_dim_error.
Print Assumptions C45_avg_min_max.
Print Assumptions C45_max_abs.
Print Assumptions C45_mean_n_stds.
Print Assumptions C45_n_stds_error.
Print Assumptions C45_aciq.
Print Assumptions C45_alpha_laplace.
Print Assumptions C45_alpha_tables.
