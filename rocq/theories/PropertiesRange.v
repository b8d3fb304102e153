(** C31, C32: post-training range-based quantization of layers. *)
From Coq Require Import String List ZArith QArith Qabs Qround Qpower Bool Arith Lia Lqa Setoid Morphisms.
From Verif Require Import Base Lists StructModel QuantModel QuantSpec QuantProofs PropertiesQuant RangeModel RangeSpec RangeProofs RangeWrapProofs.
Import ListNotations.

(** * Parameters of a tensor *)
Lemma params_of_row_spec bits lm r s z : mode_ok bits (PM lm) -> params_of_row bits (PM lm) r = Ok (s, z) ->
  let q := mode_range bits (PM lm) in
  0 < s /\ (is_sym (PM lm) = true -> z == 0) /\ (exists k, z == Zq k) /\
  (forall x, In x r -> Qabs (fq x s z (fst q) (snd q) - x) <= 1 / (2 * s)).
Proof.
  intros Hok H q. unfold params_of_row in H. inv_bind H. inv_bind H.
  destruct (row_min_spec _ _ H0) as [A1 A2]. destruct (row_max_spec _ _ H1) as [B1 B2].
  pose proof (params_from_range_spec bits (PM lm) x x0 s z I Hok (B2 _ A1) H) as (P1 & P2 & P3 & P4 & _).
  repeat split; auto.
Qed.

Lemma params_from_rows_spec bits lm pc rows par : mode_ok bits (PM lm) -> params_from_rows rows bits (PM lm) pc = Ok par ->
  length par = (if pc then length rows else 1%nat) /\
  Forall (fun p => 0 < fst p /\ (is_sym (PM lm) = true -> snd p == 0) /\ exists k, snd p == Zq k) par /\
  forall c x, (c < length rows)%nat -> In x (nth c rows []) ->
    let q := mode_range bits (PM lm) in
    Qabs (fq x (scale_of par c) (zp_of par c) (fst q) (snd q) - x) <= 1 / (2 * scale_of par c).
Proof.
  intros Hok H. unfold params_from_rows in H. destruct pc.
  - destruct (mapM_nth _ _ _ H) as [L1 L2]. split; auto. split.
    + apply Forall_forall. intros p Hp. destruct (In_nth _ _ (1, 0) Hp) as (i & Hi & E). rewrite <- E.
      specialize (L2 i [] (1, 0) ltac:(lia)).
      destruct (nth i par (1, 0)) as [s z] eqn:Ep. destruct (params_of_row_spec _ _ _ _ _ Hok L2) as (P1 & P2 & P3 & _). auto.
    + intros c x Hc Hx q. specialize (L2 c [] (1, 0) Hc).
      destruct (nth c par (1, 0)) as [s z] eqn:Ep.
      assert (Eb : bc (1, 0) par c = (s, z)).
      { unfold bc. destruct par as [|u [|v par]]; auto. simpl in L1. assert (c = 0%nat) by lia. subst. simpl in Ep. auto. }
      unfold scale_of, zp_of. rewrite Eb. cbn [fst snd].
      destruct (params_of_row_spec _ _ _ _ _ Hok L2) as (_ & _ & _ & P). auto.
  - inv_bind H. injection H as <-. destruct x as [s z]. destruct (params_of_row_spec _ _ _ _ _ Hok H0) as (P1 & P2 & P3 & P4).
    split; auto. split; [constructor; auto|]. intros c x Hc Hx q. unfold scale_of, zp_of, bc. cbn [fst snd]. apply P4.
    apply in_concat. exists (nth c rows []). split; auto. apply nth_In; auto.
Qed.

(** C31: each stored weight stands for a value within half a quantization step (of its channel) of the
    float weight, and the stored weights are integers in the range of the mode. *)
Theorem C31_weight_error :
  forall cfg dims W b s0, mode_ok (p_wts cfg) (PM (p_mode_w cfg)) -> (exists bits, p_acts cfg = Some bits) ->
  pw_init cfg dims W b = Ok s0 ->
  let r := mode_range (p_wts cfg) (PM (p_mode_w cfg)) in
  length (w_weight s0) = length W /\ (length (w_par s0) = if p_per_channel cfg then length W else 1%nat) /\
  forall c i, (c < length W)%nat -> (i < length (nth c W []))%nat ->
    let s := scale_of (w_par s0) c in let z := zp_of (w_par s0) c in
    0 < s /\ (exists k, z == Zq k) /\
    (exists q, nth i (nth c (w_weight s0) []) 0 = Zq q /\ (fst r <= q <= snd r)%Z) /\
    Qabs (linear_dequantize (nth i (nth c (w_weight s0) []) 0) s z - nth i (nth c W []) 0) <= 1 / (2 * s).
Proof.
  intros cfg dims W b s0 Hok (bits & Hb) H r. unfold pw_init in H. rewrite Hb in H. inv_bind H.
  destruct (p_per_channel cfg && _); [discriminate|]. inv_bind H. inv_bind H. injection H as <-.
  cbn [w_weight w_par]. destruct (params_from_rows_spec _ _ _ _ _ Hok H1) as (L & F & E).
  assert (Hlen : length (quant_rows (p_wts cfg) (p_mode_w cfg) x0 W) = length W) by (unfold quant_rows; apply mapi_length).
  split; auto. split; auto. intros c i Hc Hi. set (s := scale_of x0 c). set (z := zp_of x0 c).
  assert (Hcp : 0 < s /\ (is_sym (PM (p_mode_w cfg)) = true -> z == 0) /\ exists k, z == Zq k).
  { unfold s, z, scale_of, zp_of. apply (bc_Forall (fun p => 0 < fst p /\ (is_sym (PM (p_mode_w cfg)) = true -> snd p == 0) /\ exists k, snd p == Zq k)); auto.
    split; [reflexivity|]. split; [reflexivity|]. exists 0%Z. reflexivity. }
  destruct Hcp as (P1 & _ & P3). split; auto. split; auto.
  assert (En : nth i (nth c (quant_rows (p_wts cfg) (p_mode_w cfg) x0 W) []) 0 = linear_quantize_clamp (nth i (nth c W []) 0) s z (Zq (fst r)) (Zq (snd r))).
  { unfold quant_rows. rewrite (mapi_nth _ 0 W c [] []) by auto. cbn [Nat.add].
    rewrite nth_indep with (d' := linear_quantize_clamp 0 s z (Zq (fst r)) (Zq (snd r))) by (rewrite map_length; auto).
    apply (map_nth (fun x => linear_quantize_clamp x s z (Zq (fst r)) (Zq (snd r)))). }
  rewrite En. split.
  - apply quant_Z. destruct Hok as [Hok _]. pose proof (mode_range_le (p_wts cfg) (PM (p_mode_w cfg)) Hok). unfold r. lia.
  - apply (E c (nth i (nth c W []) 0) Hc). apply nth_In; auto.
Qed.

Section Hist.
Variables (cfg : pcfg) (g : geom) (W : list (list Q)) (b0 : option (list Q)) (sx : Q) (bits : Z).
Hypothesis Hacts : p_acts cfg = Some bits.
Let asym := negb (is_sym (PM (p_mode_w cfg))).

Lemma init_inv dims s0 : mode_ok (p_wts cfg) (PM (p_mode_w cfg)) -> pw_init cfg dims W b0 = Ok s0 ->
  inv cfg W false s0.
Proof using Hacts.
  intros Hok H. unfold pw_init in H. rewrite Hacts in H. inv_bind H.
  destruct (p_per_channel cfg && _); [discriminate|]. inv_bind H. inv_bind H. injection H as <-.
  destruct (params_from_rows_spec _ _ _ _ _ Hok H1) as (L & F & _).
  constructor; cbn [w_float w_par w_shifted w_weight]; auto.
  - destruct (p_per_channel cfg); auto.
  - eapply Forall_impl; [|exact F]. cbv beta. tauto.
  - intro E. eapply Forall_impl; [|exact F]. cbv beta. intros p (_ & K & _). apply K. apply negb_false_iff in E. auto.
  - apply rows_eq_refl.
Qed.

Lemma init_static dims st s0 : p_stats cfg = Some st -> pw_init cfg dims W b0 = Ok s0 -> inv_static cfg b0 sx s0.
Proof using Hacts.
  intros Hst H. unfold pw_init in H. rewrite Hacts, Hst in H. inv_bind H.
  destruct (p_per_channel cfg && _); [discriminate|]. inv_bind H. inv_bind H. injection H as <-.
  constructor; cbn [w_fp_bias w_bias w_forwards w_readjust]; try tauto; try congruence.
Qed.

Lemma step_inv ok sh s o s' ops : good_history asym ok sh (o :: ops) -> inv cfg W sh s -> pw_step cfg g s o = Ok s' ->
  exists sh', inv cfg W sh' s' /\ good_history asym ok sh' ops.
Proof using Hacts.
  intros Hg Hi H. destruct o as [md x| |n v|n v]; cbn [pw_step good_history] in *.
  - destruct Hg as [E Hg]. inv_bind H. injection H as <-. unfold pw_forward in H0. rewrite Hacts in H0.
    unfold quantized_forward in H0.
    pose proof (shift_inv _ _ _ _ (adjust_inv cfg W (q_scale md) _ _ Hi)) as K. fold asym in K.
    inv_bind H0. injection H0 as <-. cbn [fst]. exists (sh || asym). split; auto.
    destruct K as [K1 K2 K3 K4 K5 K6 K7]. constructor; auto.
  - injection H as <-. unfold pw_state_dict. rewrite Hacts. exists false. split; auto.
    destruct Hi as [K1 K2 K3 K4 K5 K6 K7]. rewrite K5. destruct sh.
    + constructor; cbn [w_float w_par w_shifted w_weight]; auto.
      eapply rows_eq_trans; [apply shift_rows_ext; exact K7|]. apply shift_unshift.
    + constructor; auto.
  - destruct Hi as [K1 K2 K3 K4 K5 K6 K7]. destruct n; cbn [pw_set_param] in H.
    + destruct Hg as (-> & Hv & Hg). destruct (negb (p_save_fp cfg)); [discriminate|]. inv_bind H.
      injection H as <-. unfold fill_param in H0. destruct (negb (clipping_readable cfg s)); [discriminate|]. injection H0 as <-.
      exists false. split; auto. cbn [w_par w_float w_weight]. rewrite Hacts, K1.
      constructor; cbn [w_par w_float w_weight w_shifted]; auto.
      * rewrite map_length. auto.
      * apply Forall_forall. intros p Hp. apply in_map_iff in Hp. destruct Hp as (p0 & <- & _). exact Hv.
      * intro E. apply Forall_forall. intros p Hp. apply in_map_iff in Hp. destruct Hp as (p0 & <- & Hp0).
        specialize (K4 E). rewrite Forall_forall in K4. exact (K4 p0 Hp0).
      * apply rows_eq_refl.
    + destruct Hg as (-> & Hv & Hg). destruct (negb (p_save_fp cfg)); [discriminate|]. inv_bind H.
      injection H as <-. unfold fill_param in H0. destruct (negb (clipping_readable cfg s)); [discriminate|]. injection H0 as <-.
      exists false. split; auto. cbn [w_par w_float w_weight]. rewrite Hacts, K1.
      constructor; cbn [w_par w_float w_weight w_shifted]; auto.
      * rewrite map_length. auto.
      * apply Forall_forall. intros p Hp. apply in_map_iff in Hp. destruct Hp as (p0 & <- & Hp0).
        rewrite Forall_forall in K3. exact (K3 p0 Hp0).
      * intro E. apply Forall_forall. intros p Hp. apply in_map_iff in Hp. destruct Hp as (p0 & <- & Hp0). exact (Hv E).
      * apply rows_eq_refl.
    + exists sh. split; auto. unfold fill_param in H. destruct (negb (clipping_readable cfg s)); [discriminate|].
      destruct (negb (preset_of cfg)); [discriminate|]. injection H as <-. constructor; auto.
    + exists sh. split; auto. unfold fill_param in H. destruct (negb (clipping_readable cfg s)); [discriminate|].
      destruct (negb (preset_of cfg)); [discriminate|]. injection H as <-. constructor; auto.
    + unfold fill_param in H. destruct (negb (clipping_readable cfg s)); discriminate.
  - destruct Hi as [K1 K2 K3 K4 K5 K6 K7]. destruct n; cbn [quantizer_set_param] in H; try contradiction.
    + exists sh. split; auto. unfold fill_param in H. destruct (negb (clipping_readable cfg s)); [discriminate|].
      destruct (negb (preset_of cfg)); [discriminate|]. injection H as <-. constructor; auto.
    + exists sh. split; auto. unfold fill_param in H. destruct (negb (clipping_readable cfg s)); [discriminate|].
      destruct (negb (preset_of cfg)); [discriminate|]. injection H as <-. constructor; auto.
    + unfold fill_param in H. destruct (negb (clipping_readable cfg s)); discriminate.
Qed.

Lemma run_inv ok ops : forall sh s s', good_history asym ok sh ops -> inv cfg W sh s -> pw_run cfg g ops s = Ok s' ->
  exists sh', inv cfg W sh' s'.
Proof using Hacts.
  induction ops as [|o ops IH]; intros sh s s' Hg Hi H; cbn [pw_run foldM] in H.
  - injection H as <-. eauto.
  - inv_bind H. destruct (step_inv _ _ _ _ _ _ Hg Hi H0) as (sh' & Hi' & Hg'). eapply IH; eauto.
Qed.

Lemma par_stable s : w_par (shift_once cfg (adjust cfg sx s)) = w_par s /\ w_out (shift_once cfg (adjust cfg sx s)) = w_out s /\
  w_fp_bias (shift_once cfg (adjust cfg sx s)) = w_fp_bias s /\
  w_accum_scale (shift_once cfg (adjust cfg sx s)) = w_accum_scale (adjust cfg sx s) /\
  w_bias (shift_once cfg (adjust cfg sx s)) = w_bias (adjust cfg sx s).
Proof using.
  unfold shift_once, adjust. destruct (preset_of cfg); [destruct (Nat.eqb _ _ || _)|]; destruct (negb _ && negb _); repeat split; reflexivity.
Qed.

Lemma step_static sh s o s' ops : preset_of cfg = true -> good_history asym (eq sx) sh (o :: ops) -> inv_static cfg b0 sx s ->
  pw_step cfg g s o = Ok s' -> inv_static cfg b0 sx s'.
Proof using Hacts.
  intros Hp Hg Hi H. destruct o as [md x| |n v|n v]; cbn [pw_step good_history] in *.
  - destruct Hg as [E Hg]. inv_bind H. injection H as <-. unfold pw_forward in H0. rewrite Hacts in H0.
    unfold quantized_forward in H0. rewrite <- E in H0. inv_bind H0. injection H0 as <-. cbn [fst].
    destruct (par_stable s) as (P1 & P2 & P3 & P4 & P5). destruct (adjust_static cfg b0 sx s Hp Hi) as [A1 A2].
    destruct Hi as [I1 I2 I3]. constructor; cbn [w_fp_bias w_bias w_forwards w_readjust w_accum_scale w_par].
    + congruence.
    + rewrite P5, A2. destruct b0; cbn [option_map]; split; congruence.
    + intros _ _. rewrite P1, P4, P5. auto.
  - injection H as <-. unfold pw_state_dict. rewrite Hacts. destruct (w_shifted s); auto.
    destruct Hi as [I1 I2 I3]. constructor; auto.
  - assert (K : forall m s1, fill_param cfg m v s = Ok s1 -> inv_static cfg b0 sx s1).
    { intros m s1 Hm. unfold fill_param in Hm. destruct (negb (clipping_readable cfg s)); [discriminate|].
      destruct Hi as [I1 I2 I3]. rewrite Hp in Hm. cbn [negb] in Hm.
      destruct m; try discriminate; injection Hm as <-; constructor; cbn [w_fp_bias w_bias w_forwards w_readjust]; auto; discriminate. }
    destruct n; cbn [pw_set_param] in H; try (eapply K; eassumption).
    + destruct (negb (p_save_fp cfg)); [discriminate|]. inv_bind H. injection H as <-. specialize (K _ _ H0).
      assert (w_readjust x = true) as E.
      { unfold fill_param in H0. destruct (negb (clipping_readable cfg s)); [discriminate|]. injection H0 as <-. reflexivity. }
      destruct K as [I1 I2 I3]. constructor; cbn [w_fp_bias w_bias w_forwards w_readjust]; auto.
    + destruct (negb (p_save_fp cfg)); [discriminate|]. inv_bind H. injection H as <-. specialize (K _ _ H0).
      assert (w_readjust x = true) as E.
      { unfold fill_param in H0. destruct (negb (clipping_readable cfg s)); [discriminate|]. injection H0 as <-. reflexivity. }
      destruct K as [I1 I2 I3]. constructor; cbn [w_fp_bias w_bias w_forwards w_readjust]; auto.
  - assert (K : forall m s1, fill_param cfg m v s = Ok s1 -> inv_static cfg b0 sx s1).
    { intros m s1 Hm. unfold fill_param in Hm. destruct (negb (clipping_readable cfg s)); [discriminate|].
      destruct Hi as [I1 I2 I3]. rewrite Hp in Hm. cbn [negb] in Hm.
      destruct m; try discriminate; injection Hm as <-; constructor; cbn [w_fp_bias w_bias w_forwards w_readjust]; auto; discriminate. }
    destruct n; cbn [quantizer_set_param] in H; try contradiction; eapply K; eassumption.
Qed.

Lemma run_static ops : forall sh s s', preset_of cfg = true -> good_history asym (eq sx) sh ops -> inv cfg W sh s -> inv_static cfg b0 sx s ->
  pw_run cfg g ops s = Ok s' -> (exists sh', inv cfg W sh' s') /\ inv_static cfg b0 sx s'.
Proof using Hacts.
  induction ops as [|o ops IH]; intros sh s s' Hp Hg Hi Hs H; cbn [pw_run foldM] in H.
  - injection H as <-. eauto.
  - inv_bind H. destruct (step_inv _ _ _ _ _ _ Hg Hi H0) as (sh' & Hi' & Hg').
    pose proof (step_static _ _ _ _ _ Hp Hg Hs H0) as Hs'. eapply IH; eauto.
Qed.
End Hist.

(** * Output of a forward *)
Lemma clamp_scaled x lo hi s : 0 < s -> lo <= hi -> is_clamp (x / s) (lo / s) (hi / s) (clamp x lo hi / s).
Proof.
  intros Hs H. destruct (clamp_is_clamp x lo hi H) as (A1 & A2 & A3 & A4 & A5).
  assert (L : forall p w, p / s <= w / s -> p <= w).
  { intros p w K. assert (s * (p / s) <= s * (w / s)) by (apply Qmult_le_l; auto).
    assert (s * (p / s) == p) by (field; lra). assert (s * (w / s) == w) by (field; lra). lra. }
  unfold is_clamp. repeat split.
  - apply Qdiv_le_compat; auto.
  - apply Qdiv_le_compat; auto.
  - intro K. rewrite A3; [reflexivity|]. apply L; auto.
  - intro K. rewrite A4; [reflexivity|]. apply L; auto.
  - intros K1 K2. rewrite A5; [reflexivity| |]; apply L; auto.
Qed.

(** the accumulator of a position with scale [sacc]: [lin] the float dot product, [bq] the quantized bias *)
Lemma accum_err sacc lo hi lin bq b' e A a :
  0 < sacc -> (lo <= hi)%Z -> A == sacc * lin + bq -> Qabs (bq / sacc - b') <= e ->
  is_clamp (lin + b') (Zq lo / sacc) (Zq hi / sacc) a ->
  Qabs (clamp A (Zq lo) (Zq hi) / sacc - a) <= e.
Proof.
  intros Hs Hlh HA He Ha. assert (Hq : Zq lo <= Zq hi) by (apply (proj1 (Zq_le _ _)); auto).
  pose proof (clamp_scaled A (Zq lo) (Zq hi) sacc Hs Hq) as K.
  pose proof (clamp_lip _ _ _ _ _ _ (Qdiv_le_compat _ _ _ Hs Hq) K Ha) as K2.
  assert (E : A / sacc - (lin + b') == bq / sacc - b') by (rewrite HA; field; lra).
  rewrite E in K2. lra.
Qed.

Lemma is_clamp_ext x lo hi lo' hi' c : lo == lo' -> hi == hi' -> is_clamp x lo hi c -> is_clamp x lo' hi' c.
Proof. intros E1 E2 (A & B & C & D & E). unfold is_clamp. rewrite <- E1, <- E2. repeat split; auto. Qed.

Lemma bias_err sacc lo hi v b' : 0 < sacc -> (lo <= hi)%Z -> is_clamp v (Zq lo / sacc) (Zq hi / sacc) b' ->
  Qabs (linear_quantize_clamp v sacc 0 (Zq lo) (Zq hi) / sacc - b') <= 1 / (2 * sacc).
Proof.
  intros Hs Hlh Hc.
  assert (Hc' : is_clamp v (linear_dequantize (Zq lo) sacc 0) (linear_dequantize (Zq hi) sacc 0) b').
  { eapply is_clamp_ext; [| |exact Hc]; unfold linear_dequantize; rewrite Qplus_0_r; reflexivity. }
  pose proof (fq_err v sacc 0 lo hi b' Hs Hlh Hc') as K. unfold fq, linear_dequantize in K. rewrite Qplus_0_r in K. exact K.
Qed.

(** C31, static activations: after any good history, each output element of a forward is within half
    an output step (plus half an accumulator step for the bias) of the float computation on the
    dequantized input and weights: bias saturated to the accumulator range, sum saturated to the
    accumulator range, fused ReLU, result saturated to the output range. *)
Theorem C31_static_output_error :
  forall cfg g dims W b st bits ops s0 s s' md x out,
  p_acts cfg = Some bits -> p_stats cfg = Some st -> p_approx cfg = None ->
  mode_ok bits (PM (p_mode_a cfg)) -> mode_ok (p_wts cfg) (PM (p_mode_w cfg)) -> (1 <= p_accum cfg)%Z ->
  pw_init cfg dims W b = Ok s0 ->
  good_history (negb (is_sym (PM (p_mode_w cfg)))) (eq (q_scale md)) false ops -> pw_run cfg g ops s0 = Ok s ->
  0 < q_scale md -> 0 < fst (w_out s) ->
  pw_forward cfg g md x s = Ok (s', out) ->
  length out = length g /\
  forall j c win bv b' a y, nth_error g j = Some (c, win) -> (c < length W)%nat ->
    match b with Some l => nth_error l c = Some bv | None => bv == 0 end ->
    let sacc := q_scale md * scale_of (w_par s) c in
    let ar := get_quantized_range (p_accum cfg) true false in
    let r := mode_range bits (PM (p_mode_a cfg)) in
    is_clamp bv (Zq (fst ar) / sacc) (Zq (snd ar) / sacc) b' ->
    is_clamp (dot (nth c (weight_fq (p_wts cfg) (p_mode_w cfg) (w_par s) W) []) (gather (input_fq md x) win) + b')
             (Zq (fst ar) / sacc) (Zq (snd ar) / sacc) a ->
    is_clamp (relu_if (p_half cfg) a) (linear_dequantize (Zq (fst r)) (fst (w_out s)) (snd (w_out s)))
             (linear_dequantize (Zq (snd r)) (fst (w_out s)) (snd (w_out s))) y ->
    exists o, nth_error out j = Some o /\
    Qabs (o - y) <= 1 / (2 * fst (w_out s)) + (if b then 1 / (2 * sacc) else 0).
Proof.
  intros cfg g dims W b st bits ops s0 s s' md x out Ha Hst Hap Hoka Hokw Hacc Hi Hg Hr Hsx Hso Hf.
  assert (Hp : preset_of cfg = true) by (unfold preset_of; rewrite Ha, Hst; reflexivity).
  destruct (run_static cfg g W b (q_scale md) bits Ha ops false s0 s Hp Hg (init_inv cfg W b bits Ha dims s0 Hokw Hi)
              (init_static cfg W b (q_scale md) bits Ha dims st s0 Hst Hi) Hr) as [(sh & Hinv) Hs].
  pose proof (forward_weight cfg W (q_scale md) s sh Hinv) as Hw.
  destruct (par_stable cfg (q_scale md) s) as (P1 & P2 & P3 & P4 & P5).
  destruct (adjust_static cfg b (q_scale md) s Hp Hs) as [A1 A2].
  unfold pw_forward in Hf. rewrite Ha in Hf. unfold quantized_forward in Hf. rewrite Hp in Hf. inv_bind Hf.
  injection H as <-. injection Hf as <- <-.
  set (s1 := shift_once cfg (adjust cfg (q_scale md) s)) in *.
  rewrite P4, P2, A1. rewrite P5, A2. clearbody s1. clear P1 P2 P3 P4 P5 A1 A2.
  assert (Hap' : forall q, approx_opt q (p_approx cfg) = q) by (intro; rewrite Hap; reflexivity).
  assert (Hgas : get_accum_scale cfg (q_scale md) (w_par s) = map (fun p => q_scale md * fst p) (w_par s)).
  { unfold get_accum_scale. rewrite Hap. reflexivity. }
  rewrite Hgas.
  assert (Hmap2len : forall A B C (f : A -> B -> C) l l', length l = length l' -> length (map2 f l l') = length l).
  { intros A B C f l. induction l; destruct l'; simpl; intros; try discriminate; auto. }
  split.
  { rewrite map_length, Hmap2len; auto. unfold layer. destruct (p_half cfg); rewrite ?map_length; reflexivity. }
  intros j c win bv b' a y Hj Hc Hb sacc ar r Hb' Ha' Hy.
  destruct Hinv as [I1 I2 I3 I4 I5 I6 I7].
  pose proof (scale_pos (w_par s) c I3) as Hsc.
  assert (Hsacc : 0 < sacc) by (unfold sacc; apply Qmult_lt_0_compat; auto).
  assert (Hbc : bc 1 (map (fun p => q_scale md * fst p) (w_par s)) c = sacc).
  { rewrite (bc_map (fun p => q_scale md * fst p) (1, 0) 1) by (destruct I2; [left|right]; lia). reflexivity. }
  pose proof (accum_le (p_accum cfg) Hacc) as Har. fold ar in Har.
  set (xs := map (fun v => v + q_zp md) _).
  set (bq := option_map _ b).
  set (A := layer_at (w_weight s1) bq xs (c, win)).
  set (acc0 := clamp A (Zq (fst ar)) (Zq (snd ar))).
  exists (finish bits (p_mode_a cfg) (p_half cfg) (fst (w_out s) / sacc) (w_out s) acc0). split.
  - rewrite nth_error_map.
    rewrite (map2_nth_error _ _ _ j (c, win) (if p_half cfg then relu acc0 else acc0)).
    + cbn [option_map]. unfold finish. cbn [fst]. rewrite Hbc, Hap'. reflexivity.
    + auto.
    + unfold layer. destruct (p_half cfg); rewrite ?nth_error_map, Hj; reflexivity.
  - set (e := if b then 1 / (2 * sacc) else 0).
    apply (finish_err bits (p_mode_a cfg) (p_half cfg) (fst (w_out s) / sacc) (w_out s) acc0 sacc a e y); auto.
    + reflexivity.
    + destruct Hoka as [Hoka _]. pose proof (mode_range_le bits (PM (p_mode_a cfg)) Hoka). lia.
    + set (lin := dot (nth c (weight_fq (p_wts cfg) (p_mode_w cfg) (w_par s) W) []) (gather (input_fq md x) win)) in *.
      set (bqv := match bq with Some l => nth c l 0 | None => 0 end).
      apply (accum_err sacc (fst ar) (snd ar) lin bqv b' e A a); auto.
      * unfold A, layer_at. cbn [fst snd]. fold bqv.
        pose proof (accum_dot cfg W (w_weight s1) md x (w_par s) c win I3 Hsx Hc Hw) as Ed. fold xs in Ed.
        unfold blin in Ed. fold lin in Ed. rewrite Ed. unfold sacc. ring.
      * unfold e, bqv, bq. destruct b as [bl|]; cbn [option_map].
        -- assert (En : nth c (quant_bias (accum_range cfg) (map (fun p => q_scale md * fst p) (w_par s)) bl) 0
              = linear_quantize_clamp bv sacc 0 (Zq (fst ar)) (Zq (snd ar))).
           { unfold quant_bias. rewrite (mapi_nth _ 0 bl c 0 0).
             - cbn [Nat.add]. rewrite Hbc. rewrite (nth_error_nth _ _ 0 Hb). reflexivity.
             - apply nth_error_Some. rewrite Hb. discriminate. }
           rewrite En. apply bias_err; auto.
        -- destruct Hb' as (_ & _ & _ & _ & K).
           assert (Eb : b' == 0).
           { rewrite K; auto; rewrite Hb.
             - apply Qle_shift_div_r; auto. rewrite Qmult_0_l. change 0 with (Zq 0). apply (proj1 (Zq_le _ _)). unfold ar, get_quantized_range. pose proof (pow2_pos (p_accum cfg - 1) ltac:(lia)). cbn [fst]. lia.
             - apply Qle_shift_div_l; auto. rewrite Qmult_0_l. change 0 with (Zq 0). apply (proj1 (Zq_le _ _)). unfold ar, get_quantized_range. pose proof (pow2_pos (p_accum cfg - 1) ltac:(lia)). cbn [snd]. lia. }
           rewrite Eb. assert (0 / sacc - 0 == 0) as -> by (field; lra). simpl. lra.
Qed.

(** * Dynamic activations *)
Section Dyn.
Variables (cfg : pcfg) (g : geom) (W : list (list Q)) (b0 : option (list Q)) (bits : Z) (bp : Q * Q).
Hypothesis Hacts : p_acts cfg = Some bits.
Hypothesis Hst : p_stats cfg = None.

Let np : preset_of cfg = false.
Proof using Hacts Hst. unfold preset_of. rewrite Hacts, Hst. reflexivity. Qed.

Lemma step_dyn s o s' : inv_dyn cfg b0 bp s -> pw_step cfg g s o = Ok s' -> inv_dyn cfg b0 bp s'.
Proof using Hacts Hst.
  intros [I1 I2 I3] H. destruct o as [md x| |n v|n v]; cbn [pw_step] in H.
  - inv_bind H. injection H as <-. unfold pw_forward in H0. rewrite Hacts in H0. unfold quantized_forward in H0.
    inv_bind H0. injection H0 as <-. cbn [fst].
    assert (K : w_b_par (shift_once cfg (adjust cfg (q_scale md) s)) = w_b_par s /\
                w_base_b (shift_once cfg (adjust cfg (q_scale md) s)) = w_base_b s /\
                (w_bias (shift_once cfg (adjust cfg (q_scale md) s)) = None <-> w_bias s = None)).
    { unfold shift_once, adjust. rewrite np.
      assert (E : match w_bias s, w_base_b s with
             | Some _, Some bq =>
                 Some (quant_bias (accum_range cfg) (map (fun a => approx_opt (a / fst (w_b_par s)) (p_approx cfg)) (get_accum_scale cfg (q_scale md) (w_par s)))
                                  (map (fun x => x + snd (w_b_par s)) bq))
             | bb, _ => bb end = None <-> w_bias s = None).
      { destruct (w_bias s), (w_base_b s); split; intro; congruence. }
      destruct (negb _ && negb _); cbn [w_b_par w_base_b w_bias]; repeat split; auto; apply E. }
    destruct K as (K1 & K2 & K3). constructor; cbn [w_b_par w_base_b w_bias].
    + congruence.
    + rewrite K3. auto.
    + congruence.
  - injection H as <-. unfold pw_state_dict. rewrite Hacts. destruct (w_shifted s); constructor; auto.
  - assert (K : forall m s1, fill_param cfg m v s = Ok s1 -> inv_dyn cfg b0 bp s1).
    { intros m s1 Hm. unfold fill_param in Hm. destruct (negb (clipping_readable cfg s)); [discriminate|].
      rewrite np in Hm. cbn [negb] in Hm. destruct m; try discriminate; injection Hm as <-; constructor; auto. }
    destruct n; cbn [pw_set_param] in H; try (eapply K; eassumption);
      (destruct (negb (p_save_fp cfg)); [discriminate|]; inv_bind H; injection H as <-; specialize (K _ _ H0);
       destruct K; constructor; auto).
  - assert (K : forall m s1, fill_param cfg m v s = Ok s1 -> inv_dyn cfg b0 bp s1).
    { intros m s1 Hm. unfold fill_param in Hm. destruct (negb (clipping_readable cfg s)); [discriminate|].
      rewrite np in Hm. cbn [negb] in Hm. destruct m; try discriminate; injection Hm as <-; constructor; auto. }
    destruct n; cbn [quantizer_set_param] in H; try (eapply K; eassumption);
      (destruct (p_save_fp cfg); [|discriminate]; eapply K; eassumption).
Qed.
Lemma run_dyn ops : forall s s', inv_dyn cfg b0 bp s -> pw_run cfg g ops s = Ok s' -> inv_dyn cfg b0 bp s'.
Proof using Hacts Hst.
  induction ops as [|o ops IH]; intros s s' Hi H; cbn [pw_run foldM] in H.
  - injection H as <-. auto.
  - inv_bind H. eapply IH; [|exact H]. eapply step_dyn; eauto.
Qed.
End Dyn.

Lemma init_dyn cfg dims W b bits s0 : p_acts cfg = Some bits -> p_stats cfg = None -> pw_init cfg dims W b = Ok s0 ->
  inv_dyn cfg b (w_b_par s0) s0 /\ match b with Some bv => params_of_row (p_accum cfg) (PM SYM) bv = Ok (w_b_par s0) | None => True end.
Proof.
  intros Ha Hst H. unfold pw_init in H. rewrite Ha, Hst in H. inv_bind H.
  destruct (p_per_channel cfg && _); [discriminate|]. inv_bind H. inv_bind H. injection H as <-. cbn [w_b_par].
  split.
  - constructor; cbn [w_b_par w_bias w_base_b]; try tauto.
  - destruct b; auto.
Qed.

(** C31, dynamic activations: as above, without output saturation (the output range is the range of the
    computed values) and with the extra error of quantizing the bias once more. *)
Theorem C31_dynamic_output_error :
  forall cfg g dims W b bits ops s0 s s' md x out,
  p_acts cfg = Some bits -> p_stats cfg = None -> p_approx cfg = None ->
  mode_ok bits (PM (p_mode_a cfg)) -> mode_ok (p_wts cfg) (PM (p_mode_w cfg)) -> (1 <= p_accum cfg)%Z ->
  pw_init cfg dims W b = Ok s0 ->
  good_history (negb (is_sym (PM (p_mode_w cfg)))) (fun _ => True) false ops -> pw_run cfg g ops s0 = Ok s ->
  0 < q_scale md -> pw_forward cfg g md x s = Ok (s', out) ->
  length out = length g /\
  exists vals sy zy, params_of_row bits (PM (p_mode_a cfg)) vals = Ok (sy, zy) /\ length vals = length g /\ 0 < sy /\
  forall j c win bv b' a, nth_error g j = Some (c, win) -> (c < length W)%nat ->
    match b with Some l => nth_error l c = Some bv | None => bv == 0 end ->
    let sacc := q_scale md * scale_of (w_par s) c in
    let ar := get_quantized_range (p_accum cfg) true false in
    is_clamp bv (Zq (fst ar) / sacc) (Zq (snd ar) / sacc) b' ->
    is_clamp (dot (nth c (weight_fq (p_wts cfg) (p_mode_w cfg) (w_par s) W) []) (gather (input_fq md x) win) + b')
             (Zq (fst ar) / sacc) (Zq (snd ar) / sacc) a ->
    let e := if b then 1 / (2 * sacc) + 1 / (2 * fst (w_b_par s)) else 0 in
    exists v o, nth_error vals j = Some v /\ nth_error out j = Some o /\
    Qabs (v - relu_if (p_half cfg) a) <= e /\ Qabs (o - relu_if (p_half cfg) a) <= 1 / (2 * sy) + e.
Proof.
  intros cfg g dims W b bits ops s0 s s' md x out Ha Hst Hap Hoka Hokw Hacc Hi Hg Hr Hsx Hf.
  assert (Hp : preset_of cfg = false) by (unfold preset_of; rewrite Ha, Hst; reflexivity).
  destruct (run_inv cfg g W bits Ha _ ops false s0 s Hg (init_inv cfg W b bits Ha dims s0 Hokw Hi) Hr) as (sh & Hinv).
  destruct (init_dyn cfg dims W b bits s0 Ha Hst Hi) as [Hd0 Hbp].
  pose proof (run_dyn cfg g b bits (w_b_par s0) Ha Hst ops s0 s Hd0 Hr) as [D1 D2 D3].
  rewrite <- D1 in D3, Hbp. clear Hd0 D1.
  pose proof (forward_weight cfg W (q_scale md) s sh Hinv) as Hw.
  destruct (par_stable cfg (q_scale md) s) as (P1 & P2 & P3 & P4 & P5).
  assert (Hgas : get_accum_scale cfg (q_scale md) (w_par s) = map (fun p => q_scale md * fst p) (w_par s)).
  { unfold get_accum_scale. rewrite Hap. reflexivity. }
  set (sa := map (fun p => q_scale md * fst p) (w_par s)) in *.
  set (bpar := w_b_par s) in *.
  set (ar := get_quantized_range (p_accum cfg) true false).
  set (bfin := option_map (fun l => quant_bias ar (map (fun a => a / fst bpar) sa)
     (map (fun x => x + snd bpar) (map (fun x => linear_quantize_clamp x (fst bpar) (snd bpar) (Zq (fst ar)) (Zq (snd ar))) l))) b).
  assert (A1 : w_accum_scale (adjust cfg (q_scale md) s) = sa /\ w_bias (adjust cfg (q_scale md) s) = bfin).
  { unfold adjust. rewrite Hp. cbn [w_accum_scale w_bias]. rewrite Hgas. split; auto. fold bpar. rewrite D3, Hap. unfold approx_opt.
    destruct b as [bl|]; cbn [option_map].
    - destruct (w_bias s) eqn:Eb; [reflexivity|]. destruct D2 as [D2 _]. specialize (D2 eq_refl). discriminate.
    - destruct D2 as [_ D2]. rewrite (D2 eq_refl). reflexivity. }
  destruct A1 as [A1 A2].
  unfold pw_forward in Hf. rewrite Ha in Hf. unfold quantized_forward in Hf. rewrite Hp in Hf. inv_bind Hf. inv_bind H.
  injection H as <-. injection Hf as <- <-.
  set (s1 := shift_once cfg (adjust cfg (q_scale md) s)) in *.
  rewrite P4, A1. rewrite P4, P5, A1, A2 in H0. rewrite P5, A2. clearbody s1. clear P1 P2 P3 P4 P5 A1 A2.
  set (xs := map (fun v => v + q_zp md) _) in *. fold ar in H0. unfold accum_range. fold ar.
  set (accs := if p_half cfg then _ else _) in *.
  rename x1 into po.
  assert (Hap' : forall q, approx_opt q (p_approx cfg) = q) by (intro; rewrite Hap; reflexivity).
  assert (Hmap2len : forall A B C (f : A -> B -> C) l l', length l = length l' -> length (map2 f l l') = length l).
  { intros A B C f l. induction l; destruct l'; simpl; intros; try discriminate; auto. }
  assert (Hlacc : length accs = length g).
  { unfold accs, layer. destruct (p_half cfg); rewrite ?map_length; reflexivity. }
  split; [rewrite map_length, Hmap2len; auto|].
  destruct po as [sy zy]. rewrite !Hap'. cbn [fst snd]. exists (map2 (fun p a => a / bc 1 sa (fst p)) g accs), sy, zy.
  split; [exact H0|]. split; [rewrite Hmap2len; auto|].
  destruct (params_of_row_spec _ _ _ _ _ Hoka H0) as (Q1 & _ & _ & Q4).
  split; auto.
  intros j c win bv b' a Hj Hc Hb. set (sacc := q_scale md * scale_of (w_par s) c). fold ar. intros Hb' Ha'. set (e := if b then _ else _).
  destruct Hinv as [I1 I2 I3 I4 I5 I6 I7].
  pose proof (scale_pos (w_par s) c I3) as Hsc.
  assert (Hsacc : 0 < sacc) by (unfold sacc; apply Qmult_lt_0_compat; auto).
  assert (Hbc : bc 1 sa c = sacc).
  { unfold sa. rewrite (bc_map (fun p => q_scale md * fst p) (1, 0) 1) by (destruct I2; [left|right]; lia). reflexivity. }
  pose proof (accum_le (p_accum cfg) Hacc) as Har. fold ar in Har.
  set (A := layer_at (w_weight s1) bfin xs (c, win)).
  set (acc0 := clamp A (Zq (fst ar)) (Zq (snd ar))).
  set (acc1 := if p_half cfg then relu acc0 else acc0).
  assert (Hjacc : nth_error accs j = Some acc1).
  { unfold accs, acc1, layer. destruct (p_half cfg); rewrite ?nth_error_map, Hj; reflexivity. }
  exists (acc1 / sacc).
  set (r := mode_range bits (PM (p_mode_a cfg))) in *.
  exists (linear_dequantize (linear_quantize_clamp acc1 (sy / sacc) zy (Zq (fst r)) (Zq (snd r))) sy zy).
  assert (Hv : nth_error (map2 (fun p a => a / bc 1 sa (fst p)) g accs) j = Some (acc1 / sacc)).
  { rewrite (map2_nth_error _ _ _ j (c, win) acc1); auto. cbn [fst]. rewrite Hbc. reflexivity. }
  split; auto. split.
  { rewrite nth_error_map. rewrite (map2_nth_error _ _ _ j (c, win) acc1); auto. cbn [option_map fst]. rewrite Hbc, !Hap'. reflexivity. }
  assert (He : Qabs (acc0 / sacc - a) <= e).
  { set (lin := dot (nth c (weight_fq (p_wts cfg) (p_mode_w cfg) (w_par s) W) []) (gather (input_fq md x) win)) in *.
    set (bqv := match bfin with Some l => nth c l 0 | None => 0 end).
    apply (accum_err sacc (fst ar) (snd ar) lin bqv b' e A a); auto.
    - unfold A, layer_at. cbn [fst snd]. fold bqv.
      pose proof (accum_dot cfg W (w_weight s1) md x (w_par s) c win I3 Hsx Hc Hw) as Ed. fold xs in Ed.
      unfold blin in Ed. fold lin in Ed. rewrite Ed. unfold sacc. ring.
    - unfold e, bqv, bfin. destruct b as [bl|]; cbn [option_map].
      + destruct bpar as [bs bz]. cbn [fst snd].
        assert (Hokb : mode_ok (p_accum cfg) (PM SYM)) by (split; auto; discriminate).
        destruct (params_of_row_spec _ _ _ _ _ Hokb Hbp) as (B1 & B2 & _ & B4).
        specialize (B2 eq_refl). specialize (B4 bv (nth_error_In _ _ Hb)).
        change (mode_range (p_accum cfg) (PM SYM)) with ar in B4.
        set (q0 := linear_quantize_clamp bv bs bz (Zq (fst ar)) (Zq (snd ar))) in *.
        set (b2 := (q0 + bz) / bs).
        assert (En : nth c (quant_bias ar (map (fun a0 => a0 / bs) sa) (map (fun x => x + bz) (map (fun x => linear_quantize_clamp x bs bz (Zq (fst ar)) (Zq (snd ar))) bl))) 0
              = linear_quantize_clamp (q0 + bz) (sacc / bs) 0 (Zq (fst ar)) (Zq (snd ar))).
        { unfold quant_bias. rewrite map_map. rewrite (mapi_nth _ 0 _ c 0 0).
          - cbn [Nat.add]. rewrite (bc_map (fun a0 => a0 / bs) 1) by (unfold sa; rewrite map_length; destruct I2; [left|right]; lia). rewrite Hbc.
            erewrite (nth_error_nth (map _ bl) c 0) by (rewrite nth_error_map, Hb; reflexivity). reflexivity.
          - rewrite map_length. apply nth_error_Some. rewrite Hb. discriminate. }
        rewrite En.
        assert (E2 : linear_quantize_clamp (q0 + bz) (sacc / bs) 0 (Zq (fst ar)) (Zq (snd ar)) = linear_quantize_clamp b2 sacc 0 (Zq (fst ar)) (Zq (snd ar))).
        { unfold linear_quantize_clamp, linear_quantize. do 2 f_equal. apply rhe_Proper. unfold b2. field. lra. }
        rewrite E2.
        assert (Hq : Zq (fst ar) / sacc <= Zq (snd ar) / sacc) by (apply Qdiv_le_compat; auto; apply (proj1 (Zq_le _ _)); auto).
        pose proof (clamp_is_clamp b2 _ _ Hq) as Hd.
        pose proof (bias_err sacc (fst ar) (snd ar) b2 _ Hsacc Har Hd) as K1.
        pose proof (clamp_lip _ _ _ _ _ _ Hq Hd Hb') as K2.
        unfold fq, linear_dequantize in B4. fold q0 in B4. fold b2 in B4.
        pose proof (Qabs_tri3 (linear_quantize_clamp b2 sacc 0 (Zq (fst ar)) (Zq (snd ar)) / sacc) (clamp b2 (Zq (fst ar) / sacc) (Zq (snd ar) / sacc)) b') as K3.
        lra.
      + destruct Hb' as (_ & _ & _ & _ & K).
        assert (Eb : b' == 0).
        { rewrite K; auto; rewrite Hb.
          - apply Qle_shift_div_r; auto. rewrite Qmult_0_l. change 0 with (Zq 0). apply (proj1 (Zq_le _ _)). unfold ar, get_quantized_range. pose proof (pow2_pos (p_accum cfg - 1) ltac:(lia)). cbn [fst]. lia.
          - apply Qle_shift_div_l; auto. rewrite Qmult_0_l. change 0 with (Zq 0). apply (proj1 (Zq_le _ _)). unfold ar, get_quantized_range. pose proof (pow2_pos (p_accum cfg - 1) ltac:(lia)). cbn [snd]. lia. }
        rewrite Eb. assert (0 / sacc - 0 == 0) as -> by (field; lra). simpl. lra. }
  assert (E0 : acc1 / sacc == relu_if (p_half cfg) (acc0 / sacc)).
  { unfold acc1, relu_if. destruct (p_half cfg); [rewrite relu_scale by auto|]; reflexivity. }
  assert (Hve : Qabs (acc1 / sacc - relu_if (p_half cfg) a) <= e).
  { rewrite E0. pose proof (relu_if_lip (p_half cfg) (acc0 / sacc) a). lra. }
  split; auto.
  specialize (Q4 (acc1 / sacc) (nth_error_In _ _ Hv)).
  assert (E1 : linear_quantize_clamp acc1 (sy / sacc) zy (Zq (fst r)) (Zq (snd r)) = linear_quantize_clamp (acc1 / sacc) sy zy (Zq (fst r)) (Zq (snd r))).
  { unfold linear_quantize_clamp, linear_quantize. do 2 f_equal. apply rhe_Proper. field. lra. }
  rewrite E1. unfold fq in Q4.
  pose proof (Qabs_tri3 (linear_dequantize (linear_quantize_clamp (acc1 / sacc) sy zy (Zq (fst r)) (Zq (snd r))) sy zy) (acc1 / sacc) (relu_if (p_half cfg) a)). lra.
Qed.
Print Assumptions C31_weight_error.
Print Assumptions C31_static_output_error.
Print Assumptions C31_dynamic_output_error.
