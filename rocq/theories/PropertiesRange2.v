(** C31 (wrappers without weights), C32 (simulated integer weights), C33 (range tracking). *)
From Coq Require Import String List ZArith QArith Qabs Qround Qpower Bool Arith Lia Lqa Setoid Morphisms.
From Verif Require Import Base Lists StructModel QuantModel QuantSpec QuantProofs PropertiesQuant RangeModel RangeSpec RangeProofs RangeWrapProofs PropertiesRange.
Import ListNotations.

Lemma bits_range_le bits m : mode_ok bits (PM m) -> (fst (mode_range bits (PM m)) <= snd (mode_range bits (PM m)))%Z.
Proof. intros [H _]. pose proof (mode_range_le bits (PM m) H). lia. Qed.

(** the value a quantized input element stands for *)
Definition in_value (i : qmd * Q) : Q := linear_dequantize (snd i) (q_scale (fst i)) (q_zp (fst i)).

Lemma rescale_err ar sy i v : 0 < sy -> 0 < q_scale (fst i) -> (fst ar <= snd ar)%Z ->
  is_clamp (in_value i) (Zq (fst ar) / sy) (Zq (snd ar) / sy) v ->
  (exists k, rescale_input ar sy (fst i) (snd i) = Zq k /\ (fst ar <= k <= snd ar)%Z) /\ Qabs (rescale_input ar sy (fst i) (snd i) / sy - v) <= 1 / (2 * sy).
Proof.
  intros Hy Hx Har Hc. unfold rescale_input. split; [apply quant_Z; auto|].
  assert (E : linear_quantize_clamp (snd i + q_zp (fst i)) (sy / q_scale (fst i)) 0 (Zq (fst ar)) (Zq (snd ar)) =
              linear_quantize_clamp (in_value i) sy 0 (Zq (fst ar)) (Zq (snd ar))).
  { unfold linear_quantize_clamp, linear_quantize. do 2 f_equal. apply rhe_Proper. unfold in_value, linear_dequantize. field. lra. }
  rewrite E. apply bias_err; auto.
Qed.

Lemma clamp_Zq k lo hi : (lo <= hi)%Z -> exists q, clamp (Zq k) (Zq lo) (Zq hi) = Zq q.
Proof. intro H. destruct (clamp_Z k lo hi H) as (q & A & _). eauto. Qed.

Definition qlen {A} (l : list A) : Q := Zq (Z.of_nat (length l)).

(** C31: element-wise addition of any number of quantized inputs. *)
Theorem C31_add_error :
  forall bits m accum half out z ins vs a c, mode_ok bits (PM m) -> (1 <= accum)%Z ->
  0 < fst out -> snd out == Zq z -> Forall (fun i => 0 < q_scale (fst i)) ins ->
  let ar := get_quantized_range accum true false in
  let r := mode_range bits (PM m) in
  let alo := Zq (fst ar) / fst out in let ahi := Zq (snd ar) / fst out in
  Forall2 (fun i v => is_clamp (in_value i) alo ahi v) ins vs ->
  is_clamp (qsum vs) alo ahi a ->
  is_clamp (relu_if half a) (linear_dequantize (Zq (fst r)) (fst out) (snd out)) (linear_dequantize (Zq (snd r)) (fst out) (snd out)) c ->
  Qabs (eltwise_add bits m accum half out ins - c) <= qlen ins / (2 * fst out).
Proof.
  intros bits m accum half out z ins vs a c Hok Hacc Hy Hz Hsx ar r alo ahi Hv Ha Hc.
  pose proof (accum_le accum Hacc) as Har. fold ar in Har.
  unfold eltwise_add. fold ar.
  assert (K : (exists k, qsum (map (fun i => rescale_input ar (fst out) (fst i) (snd i)) ins) == Zq k) /\
    Qabs (qsum (map (fun i => rescale_input ar (fst out) (fst i) (snd i)) ins) / fst out - qsum vs) <= qlen ins / (2 * fst out)).
  { clear Ha. induction Hv as [|i v ins vs Hi Hv IH].
    - split; [exists 0%Z; reflexivity|]. unfold qlen. cbn [map length Z.of_nat].
      assert (E : qsum [] / fst out - qsum [] == 0) by (unfold qsum; cbn [fold_right]; field; lra). rewrite E.
      change (Qabs 0) with 0. apply Qle_shift_div_l; [lra|]. change (Zq 0) with 0. lra.
    - inversion Hsx as [|? ? S1 S2]; subst. destruct (IH S2) as ((k & Ek) & IH2).
      destruct (rescale_err ar (fst out) i v Hy S1 Har Hi) as ((k0 & Ek0 & _) & E0).
      cbn [map]. set (u := rescale_input ar (fst out) (fst i) (snd i)) in *. set (t := qsum (map _ ins)) in *.
      change (qsum (u :: map (fun i => rescale_input ar (fst out) (fst i) (snd i)) ins)) with (u + t).
      change (qsum (v :: vs)) with (v + qsum vs). split.
      + exists (k0 + k)%Z. rewrite Zq_plus, Ek0, Ek. reflexivity.
      + assert (E1 : (u + t) / fst out - (v + qsum vs) == (u / fst out - v) + (t / fst out - qsum vs)) by (field; lra).
        assert (E2 : qlen (i :: ins) / (2 * fst out) == 1 / (2 * fst out) + qlen ins / (2 * fst out)).
        { unfold qlen. cbn [length]. rewrite Nat2Z.inj_succ. unfold Z.succ. rewrite Zq_plus. change (Zq 1) with 1. field. lra. }
        rewrite E1, E2. pose proof (Qabs_triangle (u / fst out - v) (t / fst out - qsum vs)). lra. }
  destruct K as ((k & Ek) & Ke). set (S := qsum (map _ ins)) in *.
  assert (Hq : Zq (fst ar) <= Zq (snd ar)) by (apply (proj1 (Zq_le _ _)); auto).
  destruct (clamp_Zq k _ _ Har) as (q & Eq).
  assert (Eqq : clamp S (Zq (fst ar)) (Zq (snd ar)) == Zq q).
  { rewrite <- Eq. destruct (clamp_is_clamp S _ _ Hq) as (S1 & S2 & S3 & S4 & S5), (clamp_is_clamp (Zq k) _ _ Hq) as (T1 & T2 & T3 & T4 & T5).
    clear Eq.
    destruct (Qlt_le_dec (Zq k) (Zq (fst ar))); [rewrite S3, T3 by lra; reflexivity|].
    destruct (Qlt_le_dec (Zq (snd ar)) (Zq k)); [rewrite S4, T4 by lra; reflexivity|]. rewrite S5, T5 by lra. exact Ek. }
  assert (Ef : finish bits m half 1 out (clamp S (Zq (fst ar)) (Zq (snd ar))) == finish bits m half 1 out (Zq q)).
  { unfold finish. set (u := if half then relu (clamp S _ _) else _). set (w := if half then relu (Zq q) else _).
    assert (Euw : u == w).
    { unfold u, w. destruct half; auto. unfold relu. destruct (qmax_spec (clamp S (Zq (fst ar)) (Zq (snd ar))) 0) as [[? ->]|[? ->]], (qmax_spec (Zq q) 0) as [[? ->]|[? ->]]; lra. }
    assert (El : linear_quantize_clamp u 1 (snd out) (Zq (fst (mode_range bits (PM m)))) (Zq (snd (mode_range bits (PM m)))) =
                 linear_quantize_clamp w 1 (snd out) (Zq (fst (mode_range bits (PM m)))) (Zq (snd (mode_range bits (PM m))))).
    { unfold linear_quantize_clamp, linear_quantize. do 2 f_equal. apply rhe_Proper. rewrite Euw. reflexivity. }
    rewrite El. reflexivity. }
  rewrite Ef.
  pose proof (clamp_scaled S (Zq (fst ar)) (Zq (snd ar)) (fst out) Hy Hq) as Kc.
  pose proof (clamp_lip _ _ _ _ _ _ (Qdiv_le_compat _ _ _ Hy Hq) Kc Ha) as K2.
  apply (finish_int_err bits m half out q z a _ c Hy Hz (bits_range_le _ _ Hok)); auto.
  rewrite <- Eqq. lra.
Qed.

(** C31: concatenation re-quantizes each input element to the output range. *)
Theorem C31_concat_error :
  forall bits m accum half out z i v c, mode_ok bits (PM m) -> (1 <= accum)%Z ->
  0 < fst out -> snd out == Zq z -> 0 < q_scale (fst i) ->
  let ar := get_quantized_range accum true false in
  let r := mode_range bits (PM m) in
  is_clamp (in_value i) (Zq (fst ar) / fst out) (Zq (snd ar) / fst out) v ->
  is_clamp (relu_if half v) (linear_dequantize (Zq (fst r)) (fst out) (snd out)) (linear_dequantize (Zq (snd r)) (fst out) (snd out)) c ->
  Qabs (concat_elem bits m accum half out i - c) <= 1 / (2 * fst out).
Proof.
  intros bits m accum half out z i v c Hok Hacc Hy Hz Hsx ar r Hv Hc.
  pose proof (accum_le accum Hacc) as Har. fold ar in Har.
  destruct (rescale_err ar (fst out) i v Hy Hsx Har Hv) as ((k & Ek & _) & E). unfold concat_elem. fold ar. rewrite Ek in *.
  apply (finish_int_err bits m half out k z v _ c Hy Hz (bits_range_le _ _ Hok)); auto.
Qed.

(** C31: element-wise multiplication of any number of inputs: the only error is the final rounding. *)
Theorem C31_mult_error :
  forall bits m accum half out ins a c, mode_ok bits (PM m) -> (1 <= accum)%Z ->
  0 < fst out -> Forall (fun i => 0 < q_scale (fst i)) ins ->
  let ar := get_quantized_range accum true false in
  let r := mode_range bits (PM m) in
  let sacc := qprod (map (fun i => q_scale (fst i)) ins) in
  is_clamp (qprod (map in_value ins)) (Zq (fst ar) / sacc) (Zq (snd ar) / sacc) a ->
  is_clamp (relu_if half a) (linear_dequantize (Zq (fst r)) (fst out) (snd out)) (linear_dequantize (Zq (snd r)) (fst out) (snd out)) c ->
  Qabs (eltwise_mult bits m accum half None out ins - c) <= 1 / (2 * fst out).
Proof.
  intros bits m accum half out ins a c Hok Hacc Hy Hsx ar r sacc Ha Hc.
  pose proof (accum_le accum Hacc) as Har. fold ar in Har.
  assert (K : 0 < sacc /\ qprod (map (fun i => snd i + q_zp (fst i)) ins) == sacc * qprod (map in_value ins)).
  { unfold sacc. clear - Hsx. induction Hsx as [|i ins Hi Hs (IH1 & IH2)]; cbn [map].
    - split; reflexivity.
    - cbn [qprod fold_right] in *. fold (qprod (map (fun i => q_scale (fst i)) ins)) in *.
      fold (qprod (map (fun i => snd i + q_zp (fst i)) ins)) in *. fold (qprod (map in_value ins)) in *. split.
      + apply Qmult_lt_0_compat; auto.
      + rewrite IH2. unfold in_value at 2, linear_dequantize. field. lra. }
  destruct K as [K1 K2]. unfold eltwise_mult. fold ar sacc. cbn [approx_opt].
  assert (E : 1 / (2 * fst out) == 1 / (2 * fst out) + 0) by ring. rewrite E.
  apply (finish_err bits m half _ out _ sacc a 0 c); auto.
  - reflexivity.
  - apply bits_range_le; auto.
  - apply (accum_err sacc (fst ar) (snd ar) (qprod (map in_value ins)) 0 0 0); auto.
    + rewrite K2. ring.
    + assert (E0 : 0 / sacc - 0 == 0) by (field; lra). rewrite E0. simpl. lra.
    + eapply is_clamp_ext; [reflexivity|reflexivity|]. destruct Ha as (A & B & C & D & F). unfold is_clamp. rewrite Qplus_0_r. repeat split; auto.
Qed.

(** C31: one element of a quantized matrix product. *)
Theorem C31_matmul_error :
  forall bits m accum half out md0 md1 row col a c, mode_ok bits (PM m) -> (1 <= accum)%Z ->
  0 < fst out -> 0 < q_scale md0 -> 0 < q_scale md1 ->
  let ar := get_quantized_range accum true false in
  let r := mode_range bits (PM m) in
  let sacc := q_scale md0 * q_scale md1 in
  is_clamp (dot (map (fun q => in_value (md0, q)) row) (map (fun q => in_value (md1, q)) col)) (Zq (fst ar) / sacc) (Zq (snd ar) / sacc) a ->
  is_clamp (relu_if half a) (linear_dequantize (Zq (fst r)) (fst out) (snd out)) (linear_dequantize (Zq (snd r)) (fst out) (snd out)) c ->
  Qabs (matmul_elem bits m accum half None out md0 md1 row col - c) <= 1 / (2 * fst out).
Proof.
  intros bits m accum half out md0 md1 row col a c Hok Hacc Hy H0 H1 ar r sacc Ha Hc.
  pose proof (accum_le accum Hacc) as Har. fold ar in Har.
  assert (K1 : 0 < sacc) by (apply Qmult_lt_0_compat; auto).
  unfold matmul_elem. fold ar sacc. cbn [approx_opt].
  assert (E : 1 / (2 * fst out) == 1 / (2 * fst out) + 0) by ring. rewrite E.
  assert (Sc : forall md l, 0 < q_scale md -> Forall2 (fun u v => u == q_scale md * v) (map (fun q => q + q_zp md) l) (map (fun q => in_value (md, q)) l)).
  { intros md l Hmd. induction l; simpl; constructor; auto. unfold in_value, linear_dequantize. cbn [fst snd]. field. lra. }
  pose proof (dot_scaled _ _ _ _ _ _ (Sc md0 row H0) (Sc md1 col H1)) as Ed.
  apply (finish_err bits m half _ out _ sacc a 0 c); auto.
  - reflexivity.
  - apply bits_range_le; auto.
  - apply (accum_err sacc (fst ar) (snd ar) (dot (map (fun q => in_value (md0, q)) row) (map (fun q => in_value (md1, q)) col)) 0 0 0); auto.
    + rewrite Ed. unfold sacc. ring.
    + assert (E0 : 0 / sacc - 0 == 0) by (field; lra). rewrite E0. simpl. lra.
    + destruct Ha as (A & B & C & D & F). unfold is_clamp. rewrite Qplus_0_r. repeat split; auto.
Qed.

(** * C32 *)
(** C32: in any good history the stored weights are the quantized float weights, shifted by the zero
    point exactly when the wrapper says so (never with symmetric weights); without parameter changes
    the parameters are those of construction; and what state_dict saves is the quantized weights. *)
Theorem C32_weights_survive :
  forall cfg g dims W b bits ok ops s0 s, p_acts cfg = Some bits -> mode_ok (p_wts cfg) (PM (p_mode_w cfg)) ->
  pw_init cfg dims W b = Ok s0 ->
  good_history (negb (is_sym (PM (p_mode_w cfg)))) ok false ops -> pw_run cfg g ops s0 = Ok s ->
  let Wq := quant_rows (p_wts cfg) (p_mode_w cfg) (w_par s) W in
  rows_eq (w_weight s) (if w_shifted s then shift_rows 1 (w_par s) Wq else Wq) /\
  (is_sym (PM (p_mode_w cfg)) = true -> w_shifted s = false) /\
  rows_eq (w_weight (pw_state_dict cfg s)) Wq /\
  w_shifted (pw_state_dict cfg s) = false /\
  pw_state_dict cfg (pw_state_dict cfg s) = pw_state_dict cfg s /\
  ((forall o, In o ops -> match o with OpSet _ _ | OpQuantizerSet _ _ => False | _ => True end) -> w_par s = w_par s0).
Proof.
  intros cfg g dims W b bits ok ops s0 s Ha Hokw Hi Hg Hr Wq0.
  destruct (run_inv cfg g W bits Ha ok ops false s0 s Hg (init_inv cfg W b bits Ha dims s0 Hokw Hi) Hr) as (sh & Hinv).
  destruct Hinv as [I1 I2 I3 I4 I5 I6 I7]. unfold Wq in I7. fold Wq0 in I7.
  split; [rewrite I5; exact I7|]. split.
  { intro E. rewrite I5. apply I6. rewrite E. reflexivity. }
  assert (Hsd : w_shifted (pw_state_dict cfg s) = false).
  { unfold pw_state_dict. rewrite Ha. destruct (w_shifted s) eqn:E; auto. }
  split; [|split; [exact Hsd|split]].
  - unfold pw_state_dict. rewrite Ha, I5. destruct sh; auto.
    eapply rows_eq_trans; [apply shift_rows_ext; exact I7|]. apply shift_unshift.
  - unfold pw_state_dict at 1. rewrite Ha, Hsd. reflexivity.
  - clear - Ha Hr. revert s0 Hr. induction ops as [|o ops IH]; intros s0 Hr Ho; cbn [pw_run foldM] in Hr.
    + injection Hr as ->. reflexivity.
    + inv_bind Hr. rewrite (IH _ Hr); [|intros; apply Ho; right; auto].
      specialize (Ho o (or_introl eq_refl)). destruct o as [md y| |n v|n v]; try contradiction; cbn [pw_step] in H.
      * inv_bind H. injection H as <-. unfold pw_forward in H0. rewrite Ha in H0. unfold quantized_forward in H0.
        destruct (par_stable cfg (q_scale md) s0) as (P1 & _).
        inv_bind H0. injection H0 as <-. exact P1.
      * injection H as <-. unfold pw_state_dict. rewrite Ha. destruct (w_shifted s0); reflexivity.
Qed.

Lemma finish_ext bits m half rs out a a' : a == a' -> finish bits m half rs out a = finish bits m half rs out a'.
Proof.
  intro E. unfold finish. f_equal. unfold linear_quantize_clamp, linear_quantize. do 2 f_equal. apply rhe_Proper.
  assert (E2 : (if half then relu a else a) == (if half then relu a' else a')).
  { destruct half; auto. unfold relu. destruct (qmax_spec a 0) as [[? ->]|[? ->]], (qmax_spec a' 0) as [[? ->]|[? ->]]; lra. }
  rewrite E2. reflexivity.
Qed.
Lemma clamp_ext a a' lo hi : a == a' -> clamp a lo hi == clamp a' lo hi.
Proof.
  intro E. destruct (Qlt_le_dec hi lo).
  - unfold clamp. destruct (qmax_spec a lo) as [[? ->]|[? ->]], (qmax_spec a' lo) as [[? ->]|[? ->]];
      repeat match goal with |- context [qmin ?x ?y] => destruct (qmin_spec x y) as [[? ->]|[? ->]] end; lra.
  - pose proof (clamp_is_clamp a lo hi q) as A. pose proof (clamp_is_clamp a' lo hi q) as B.
    pose proof (clamp_lip _ _ _ _ _ _ q A B) as K. assert (E0 : a - a' == 0) by lra. rewrite E0 in K. change (Qabs 0) with 0 in K.
    apply Qabs_Qle_condition in K. lra.
Qed.

(** the forward of a static wrapper, element by element *)
Lemma forward_static cfg g md x s s' out bits : p_acts cfg = Some bits -> preset_of cfg = true ->
  pw_forward cfg g md x s = Ok (s', out) ->
  let s1 := shift_once cfg (adjust cfg (q_scale md) s) in
  let ar := accum_range cfg in
  let xs := map (fun v => v + q_zp md) (map (fun v => linear_quantize_clamp v (q_scale md) (q_zp md) (Zq (q_lo md)) (Zq (q_hi md))) x) in
  out = map (fun p => finish bits (p_mode_a cfg) (p_half cfg) (approx_opt (fst (w_out s1) / bc 1 (w_accum_scale s1) (fst p)) (p_approx cfg)) (w_out s1)
          (clamp (layer_at (w_weight s1) (w_bias s1) xs p) (Zq (fst ar)) (Zq (snd ar)))) g.
Proof.
  intros Ha Hp H s1 ar xs. unfold pw_forward in H. rewrite Ha in H. unfold quantized_forward in H. fold s1 in H. fold ar in H. fold xs in H. rewrite Hp in H.
  inv_bind H. injection H0 as <-. injection H as _ <-. unfold layer, finish. clearbody s1 xs. clear - cfg.
  induction g as [|p g IH]; [destruct (p_half cfg); reflexivity|]. destruct (p_half cfg); cbn [map map2]; f_equal; exact IH.
Qed.

(** C32: saving a wrapper does not change what it computes. *)
Theorem C32_save_does_not_change_output :
  forall cfg g dims W b st bits ops s0 s s1 s2 md x out1 out2,
  p_acts cfg = Some bits -> p_stats cfg = Some st -> mode_ok (p_wts cfg) (PM (p_mode_w cfg)) ->
  pw_init cfg dims W b = Ok s0 ->
  good_history (negb (is_sym (PM (p_mode_w cfg)))) (eq (q_scale md)) false ops -> pw_run cfg g ops s0 = Ok s ->
  pw_forward cfg g md x s = Ok (s1, out1) -> pw_forward cfg g md x (pw_state_dict cfg s) = Ok (s2, out2) -> out2 = out1.
Proof.
  intros cfg g dims W b st bits ops s0 s s1 s2 md x out1 out2 Ha Hst Hokw Hi Hg Hr F1 F2.
  assert (Hp : preset_of cfg = true) by (unfold preset_of; rewrite Ha, Hst; reflexivity).
  destruct (run_static cfg g W b (q_scale md) bits Ha ops false s0 s Hp Hg (init_inv cfg W b bits Ha dims s0 Hokw Hi)
              (init_static cfg W b (q_scale md) bits Ha dims st s0 Hst Hi) Hr) as [(sh & Hinv) Hs].
  assert (Hs2 : inv_static cfg b (q_scale md) (pw_state_dict cfg s)).
  { unfold pw_state_dict. rewrite Ha. destruct (w_shifted s); auto. destruct Hs. constructor; auto. }
  assert (Hinv2 : inv cfg W false (pw_state_dict cfg s)).
  { destruct (step_inv cfg g W bits Ha (eq (q_scale md)) sh s OpStateDict (pw_state_dict cfg s) [] I Hinv eq_refl) as (sh' & Hi' & _).
    destruct (i_sh _ _ _ _ Hi'). assert (E : w_shifted (pw_state_dict cfg s) = false).
    { unfold pw_state_dict. rewrite Ha. destruct (w_shifted s) eqn:E; auto. }
    rewrite E in Hi'. exact Hi'. }
  apply (forward_static _ _ _ _ _ _ _ _ Ha Hp) in F1. apply (forward_static _ _ _ _ _ _ _ _ Ha Hp) in F2.
  pose proof (forward_weight cfg W (q_scale md) s sh Hinv) as W1.
  pose proof (forward_weight cfg W (q_scale md) _ false Hinv2) as W2.
  destruct (par_stable cfg (q_scale md) s) as (P1 & P2 & P3 & P4 & P5).
  destruct (par_stable cfg (q_scale md) (pw_state_dict cfg s)) as (R1 & R2 & R3 & R4 & R5).
  destruct (adjust_static cfg b (q_scale md) s Hp Hs) as [A1 A2].
  destruct (adjust_static cfg b (q_scale md) _ Hp Hs2) as [B1 B2].
  assert (Ep : w_par (pw_state_dict cfg s) = w_par s /\ w_out (pw_state_dict cfg s) = w_out s).
  { unfold pw_state_dict. rewrite Ha. destruct (w_shifted s); auto. }
  destruct Ep as [Ep Eo]. rewrite Ep in *.
  rewrite F1, F2. rewrite P2, R2, P4, R4, P5, R5, A1, A2, B1, B2, Eo. apply map_ext. intros [c win]. apply finish_ext, clamp_ext.
  unfold layer_at. cbn [fst snd]. apply Qplus_comp; [|reflexivity].
  assert (E : rows_eq (w_weight (shift_once cfg (adjust cfg (q_scale md) (pw_state_dict cfg s)))) (w_weight (shift_once cfg (adjust cfg (q_scale md) s)))).
  { eapply rows_eq_trans; [exact W2|]. apply rows_eq_sym. exact W1. }
  generalize (gather (map (fun v => v + q_zp md) (map (fun v => linear_quantize_clamp v (q_scale md) (q_zp md) (Zq (q_lo md)) (Zq (q_hi md))) x)) win). intro xs.
  assert (En : Forall2 Qeq (nth c (w_weight (shift_once cfg (adjust cfg (q_scale md) (pw_state_dict cfg s)))) []) (nth c (w_weight (shift_once cfg (adjust cfg (q_scale md) s))) [])).
  { clear - E. revert c. induction E; intros [|c]; simpl; auto. }
  revert En. generalize (nth c (w_weight (shift_once cfg (adjust cfg (q_scale md) (pw_state_dict cfg s)))) []) (nth c (w_weight (shift_once cfg (adjust cfg (q_scale md) s))) []).
  clear. intros l l' En. revert xs. induction En; intros [|u xs]; try reflexivity.
  unfold dot in *. cbn [map2]. change (qsum ((x * u) :: map2 Qmult l xs)) with (x * u + qsum (map2 Qmult l xs)).
  change (qsum ((y * u) :: map2 Qmult l' xs)) with (y * u + qsum (map2 Qmult l' xs)). rewrite (IHEn xs), H. reflexivity.
Qed.

(** ** A concrete layer: 4-bit asymmetric weights, 4-bit activations with preset statistics *)
Definition ex_cfg : pcfg := mkPcfg (Some 4%Z) 4 32 ASU ASU false
  (Some (mkStats (-1) 3 (-1) 3 1 1 1)) CNone None true None true.
Definition ex_W : list (list Q) := [[1; 2]; [3; -1]].
Definition ex_b : option (list Q) := Some [1#2; -(1#4)].
(** two output channels, two positions each; the last window is zero-padded *)
Definition ex_g : geom := [(0, [Some 0; Some 1]); (0, [Some 1; None]); (1, [Some 0; Some 1]); (1, [Some 1; None])]%nat.
Definition ex_md : qmd := mkQmd 4 0 0 15.
Definition ex_x : list Q := [1; -(1#3)].
Definition ex_ops : list pw_op := [OpSet WScale 3; OpForward ex_md ex_x; OpStateDict; OpSet WZp (-4); OpForward ex_md [2; 2]; OpSet OutScale 5].
Definition get {A} (d : A) (r : res A) : A := match r with Ok a => a | _ => d end.
Definition ex_none : pw := mkPw [] [] [] None None None (1, 0) (1, 0) [] false 0 false.
Definition ex_s0 : pw := get ex_none (pw_init ex_cfg 2 ex_W ex_b).
Definition ex_s : pw := get ex_none (pw_run ex_cfg ex_g ex_ops ex_s0).
Definition ex_out := get (ex_none, []) (pw_forward ex_cfg ex_g ex_md ex_x ex_s).

Example C31_static_nontrivial :
  mode_ok 4 (PM ASU) /\ pw_init ex_cfg 2 ex_W ex_b = Ok ex_s0 /\
  good_history true (eq (q_scale ex_md)) false ex_ops /\ pw_run ex_cfg ex_g ex_ops ex_s0 = Ok ex_s /\
  0 < fst (w_out ex_s) /\ w_shifted ex_s = true /\ pw_forward ex_cfg ex_g ex_md ex_x ex_s = Ok ex_out /\
  Forall2 Qeq (snd ex_out) [8#5; 2#5; 11#5; 0].
Proof.
  split; [split; [vm_compute; discriminate|discriminate]|].
  split; [vm_compute; reflexivity|].
  split; [cbn [good_history ex_ops orb]; repeat (split; [vm_compute; try reflexivity; try discriminate|]); exact I|].
  split; [vm_compute; reflexivity|]. split; [vm_compute; reflexivity|]. split; [vm_compute; reflexivity|]. split; [vm_compute; reflexivity|].
  vm_compute. repeat constructor.
Qed.

(** C32: a weight parameter changed through the wrapper after a forward: the new quantized weights are
    not shifted although the wrapper says they are, so the next save exports wrong weights. *)
Theorem C32_set_after_forward_refuted :
  ~ (forall cfg g dims W b bits ops s0 s, p_acts cfg = Some bits -> mode_ok (p_wts cfg) (PM (p_mode_w cfg)) ->
     pw_init cfg dims W b = Ok s0 ->
     (forall o, In o ops -> match o with OpForward _ _ | OpStateDict => True | OpSet WScale v => 0 < v | _ => False end) ->
     pw_run cfg g ops s0 = Ok s ->
     rows_eq (w_weight (pw_state_dict cfg s)) (quant_rows (p_wts cfg) (p_mode_w cfg) (w_par s) W)).
Proof.
  intro H. specialize (H ex_cfg ex_g 2%nat ex_W ex_b 4%Z [OpForward ex_md ex_x; OpSet WScale 3] ex_s0
    (get ex_none (pw_run ex_cfg ex_g [OpForward ex_md ex_x; OpSet WScale 3] ex_s0)) eq_refl).
  assert (K : rows_eq (w_weight (pw_state_dict ex_cfg (get ex_none (pw_run ex_cfg ex_g [OpForward ex_md ex_x; OpSet WScale 3] ex_s0))))
     (quant_rows 4 ASU (w_par (get ex_none (pw_run ex_cfg ex_g [OpForward ex_md ex_x; OpSet WScale 3] ex_s0))) ex_W)).
  { apply H.
    - split; [vm_compute; discriminate|discriminate].
    - vm_compute. reflexivity.
    - intros o [<-|[<-|[]]]; [exact I|reflexivity].
    - vm_compute. reflexivity. }
  vm_compute in K. inversion K as [|? ? ? ? K1 K2]; subst. inversion K1 as [|? ? ? ? K3 K4]; subst. discriminate.
Qed.

(** C32: PostTrainLinearQuantizer.set_linear_quant_param on a weight parameter changes the buffer but
    not the stored weights, even before any forward. *)
Theorem C32_quantizer_set_stale_refuted :
  ~ (forall cfg dims W b bits v s0 s, p_acts cfg = Some bits -> mode_ok (p_wts cfg) (PM (p_mode_w cfg)) ->
     pw_init cfg dims W b = Ok s0 -> 0 < v -> quantizer_set_param cfg WScale v s0 = Ok s ->
     rows_eq (w_weight s) (quant_rows (p_wts cfg) (p_mode_w cfg) (w_par s) W)).
Proof.
  intro H. specialize (H ex_cfg 2%nat ex_W ex_b 4%Z 3 ex_s0 (get ex_none (quantizer_set_param ex_cfg WScale 3 ex_s0)) eq_refl).
  assert (K : rows_eq (w_weight (get ex_none (quantizer_set_param ex_cfg WScale 3 ex_s0)))
     (quant_rows 4 ASU (w_par (get ex_none (quantizer_set_param ex_cfg WScale 3 ex_s0))) ex_W)).
  { apply H; try reflexivity. split; [vm_compute; discriminate|discriminate]. }
  vm_compute in K. inversion K as [|? ? ? ? K1 K2]; subst. inversion K1 as [|? ? ? ? K3 K4]; subst. discriminate.
Qed.

(** C32: with preset statistics the accumulator scale is computed at the first forward; a later input with
    another scale (e.g. after the producing layer's output scale was set through its wrapper) is
    interpreted with the old one: the output is not within the error bound of C31. *)
Theorem C32_stale_accumulator_refuted :
  ~ (forall cfg g dims W st bits ops s0 s s' md x out,
     p_acts cfg = Some bits -> p_stats cfg = Some st -> p_approx cfg = None -> p_half cfg = false ->
     mode_ok bits (PM (p_mode_a cfg)) -> mode_ok (p_wts cfg) (PM (p_mode_w cfg)) -> (1 <= p_accum cfg)%Z ->
     pw_init cfg dims W None = Ok s0 ->
     (forall o, In o ops -> match o with OpForward md _ => 0 < q_scale md | OpStateDict => True | _ => False end) ->
     pw_run cfg g ops s0 = Ok s -> 0 < q_scale md -> 0 < fst (w_out s) ->
     pw_forward cfg g md x s = Ok (s', out) ->
     forall j c win o, nth_error g j = Some (c, win) -> (c < length W)%nat -> nth_error out j = Some o ->
       let r := mode_range bits (PM (p_mode_a cfg)) in
       let y := dot (nth c (weight_fq (p_wts cfg) (p_mode_w cfg) (w_par s) W) []) (gather (input_fq md x) win) in
       Qabs y <= 1 ->
       linear_dequantize (Zq (fst r)) (fst (w_out s)) (snd (w_out s)) <= y ->
       y <= linear_dequantize (Zq (snd r)) (fst (w_out s)) (snd (w_out s)) ->
       Qabs (o - y) <= 1 / (2 * fst (w_out s))).
Proof.
  set (cfg := mkPcfg (Some 4%Z) 4 32 ASU SYM false (Some (mkStats (-4) 4 (-4) 4 0 1 1)) CNone None false None true).
  set (md1 := mkQmd 1 0 (-8) 7). set (md2 := mkQmd 7 0 (-8) 7).
  set (s0 := get ex_none (pw_init cfg 2 [[1]] None)).
  set (ops := [OpForward md1 [1]]).
  set (s := get ex_none (pw_run cfg [(0%nat, [Some 0%nat])] ops s0)).
  set (o := get (ex_none, []) (pw_forward cfg [(0%nat, [Some 0%nat])] md2 [1] s)).
  intro H. specialize (H cfg [(0%nat, [Some 0%nat])] 2%nat [[1]] (mkStats (-4) 4 (-4) 4 0 1 1) 4%Z ops s0 s (fst o) md2 [1] (snd o)).
  assert (K : Qabs (nth 0 (snd o) 0 - dot (nth 0 (weight_fq 4 SYM (w_par s) [[1]]) []) (gather (input_fq md2 [1]) [Some 0%nat])) <= 1 / (2 * fst (w_out s))).
  { apply (H eq_refl eq_refl eq_refl eq_refl) with (j := 0%nat) (win := [Some 0%nat]); try (vm_compute; reflexivity); try (vm_compute; discriminate);
      try (split; [vm_compute; discriminate|vm_compute; try discriminate; auto]); try discriminate.
    intros op [<-|[]]. reflexivity. }
  vm_compute in K. contradiction K. reflexivity.
Qed.

(** C32: setting any quantization parameter of a per-channel layer fails unless it has two channels. *)
Theorem C32_per_channel_set_fails :
  forall cfg n v s, p_per_channel cfg = true -> length (w_par s) <> 2%nat ->
  (exists e, pw_set_param cfg n v s = Raise e) /\ (exists e, quantizer_set_param cfg n v s = Raise e).
Proof.
  intros cfg n v s Hp Hl. assert (E : forall n, fill_param cfg n v s = Raise ValueError).
  { intro n0. unfold fill_param, clipping_readable. rewrite Hp. apply Nat.eqb_neq in Hl. rewrite Hl. reflexivity. }
  split; destruct n; cbn [pw_set_param quantizer_set_param]; rewrite ?E; cbn [bind]; eauto; destruct (p_save_fp cfg); cbn [negb bind]; eauto.
Qed.
(** C32: after any successful setting of a quantization parameter (through the layer or through the quantizer), the next
    forward of a layer with preset statistics computes its accumulator scale and its bias again, for the input it is given:
    the output is that of the same layer that never ran before, whatever accumulator scale the earlier forwards left. *)
Definition never_ran (acc : list Q) (s : pw) : pw :=
  mkPw (w_weight s) (w_float s) (w_par s) (w_bias s) (w_fp_bias s) (w_base_b s) (w_b_par s) (w_out s) acc (w_shifted s) 0 false.
Theorem C32_set_refreshes_accumulator :
  forall cfg g n v s s1 md x s2 out acc, preset_of cfg = true ->
  pw_set_param cfg n v s = Ok s1 \/ quantizer_set_param cfg n v s = Ok s1 ->
  pw_forward cfg g md x s1 = Ok (s2, out) ->
  (w_accum_scale s2 = map (fun p => let a := q_scale md * fst p in
                             match p_approx cfg with Some k => if Z.eqb k 0 then a else approx_scale a k false | None => a end) (w_par s1)) /\
  exists s3, pw_forward cfg g md x (never_ran acc s1) = Ok (s3, out).
Proof.
  intros cfg g n v s s1 md x s2 out acc Hp H F.
  assert (K : w_readjust s1 = true).
  { assert (Fp : forall s1, fill_param cfg n v s = Ok s1 -> w_readjust s1 = true).
    { intros s' Hf. unfold fill_param in Hf. destruct (negb (clipping_readable cfg s)); [discriminate|]. rewrite Hp in Hf. cbn [negb] in Hf.
      destruct n; try discriminate; injection Hf as <-; reflexivity. }
    destruct H as [H|H].
    - unfold pw_set_param in H. destruct n; auto; (destruct (negb (p_save_fp cfg)); [discriminate|]); inv_bind H; injection H as <-; cbn [w_readjust]; apply Fp; auto.
    - unfold quantizer_set_param in H. destruct n; auto; destruct (p_save_fp cfg); try discriminate; auto. }
  unfold preset_of in Hp. unfold pw_forward in *. destruct (p_acts cfg) as [bits|] eqn:Ea; [|discriminate]. destruct (p_stats cfg) as [st|] eqn:Est; [|discriminate].
  assert (Hp' : preset_of cfg = true) by (unfold preset_of; rewrite Ea, Est; reflexivity). rewrite Hp' in *.
  unfold quantized_forward in *.
  assert (A1 : adjust cfg (q_scale md) s1 = mkPw (w_weight s1) (w_float s1) (w_par s1) (match w_bias s1, w_fp_bias s1 with Some _, Some fb => Some (quant_bias (accum_range cfg) (get_accum_scale cfg (q_scale md) (w_par s1)) fb) | bb, _ => bb end)
      (w_fp_bias s1) (w_base_b s1) (w_b_par s1) (w_out s1) (get_accum_scale cfg (q_scale md) (w_par s1)) (w_shifted s1) (w_forwards s1) false).
  { unfold adjust. rewrite Hp', K, orb_true_r. reflexivity. }
  assert (A2 : adjust cfg (q_scale md) (never_ran acc s1) = mkPw (w_weight s1) (w_float s1) (w_par s1) (match w_bias s1, w_fp_bias s1 with Some _, Some fb => Some (quant_bias (accum_range cfg) (get_accum_scale cfg (q_scale md) (w_par s1)) fb) | bb, _ => bb end)
      (w_fp_bias s1) (w_base_b s1) (w_b_par s1) (w_out s1) (get_accum_scale cfg (q_scale md) (w_par s1)) (w_shifted s1) 0 false).
  { unfold adjust. rewrite Hp'. reflexivity. }
  rewrite A1 in F. rewrite A2. unfold shift_once in *. cbn [w_shifted w_weight w_bias w_par w_fp_bias w_base_b w_b_par w_out w_accum_scale w_forwards w_readjust w_float] in *.
  destruct (negb (is_sym (PM (p_mode_w cfg))) && negb (w_shifted s1)); cbn [w_shifted w_weight w_bias w_par w_fp_bias w_base_b w_b_par w_out w_accum_scale w_forwards w_readjust w_float bind] in *;
    injection F as <- <-; (split; [reflexivity|eexists; reflexivity]).
Qed.
Print Assumptions C32_set_refreshes_accumulator.
Print Assumptions C31_add_error.
Print Assumptions C31_concat_error.
Print Assumptions C31_mult_error.
Print Assumptions C31_matmul_error.
Print Assumptions C32_weights_survive.
Print Assumptions C32_save_does_not_change_output.
Print Assumptions C32_set_after_forward_refuted.
Print Assumptions C32_quantizer_set_stale_refuted.
Print Assumptions C32_stale_accumulator_refuted.
Print Assumptions C32_per_channel_set_fails.
