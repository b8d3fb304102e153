(** C77: conversion of the wrapper of a layer with weights to a native PyTorch quantized layer. *)
From Coq Require Import String List ZArith QArith Qabs Qround Qpower Bool Arith Lia Lqa Setoid Morphisms.
From Verif Require Import Base Lists StructModel QuantModel QuantSpec QuantProofs PropertiesQuant RangeModel RangeSpec RangeProofs RangeWrapProofs PropertiesRange PtqModel PtqSpec PtqProofs PropertiesPtq PropertiesPtq2.
Import ListNotations.

Lemma mode_ok8 m : mode_ok 8 (PM m).
Proof. split; [lia|intros _; lia]. Qed.

(** what the constructor leaves behind *)
Lemma init_facts cfg dims W b st s0 : p_acts cfg = Some 8%Z -> p_stats cfg = Some st -> p_wts cfg = 8%Z -> p_approx cfg = None ->
  pw_init cfg dims W b = Ok s0 ->
  Forall (par_ok (p_mode_w cfg)) (w_par s0) /\ length (w_par s0) = (if p_per_channel cfg then length W else 1%nat) /\
  (exists mn mx, params_from_range 8 (PM (p_mode_a cfg)) mn mx = Ok (w_out s0)) /\
  w_bias s0 = b /\ w_forwards s0 = 0%nat /\ w_readjust s0 = false.
Proof.
  intros Ha Hst Hw Hap H. unfold pw_init in H. rewrite Ha, Hst in H. inv_bind H.
  destruct (p_per_channel cfg && _); [discriminate|]. inv_bind H. inv_bind H. injection H as <-.
  rewrite Hw in *. destruct (params_from_rows_spec _ _ _ _ _ (mode_ok8 _) H1) as (L & F & _).
  cbn [w_par w_out w_bias w_forwards w_readjust]. split; [exact F|]. split; auto. split; [|auto].
  unfold params_from_stats in H0. inv_bind H0. inv_bind H0. rewrite Hap in H0. cbn [approx_opt] in H0.
  exists (fst x2), (snd x2). rewrite H3. rewrite <- H0. destruct x3; reflexivity.
Qed.

Lemma plain_good sx asym ops : plain_history sx ops -> forall sh, good_history asym (eq sx) sh ops.
Proof.
  induction ops as [|o ops IH]; intros H sh; cbn [good_history]; auto.
  assert (H' : plain_history sx ops) by (intros o' Ho'; apply H; right; auto).
  destruct (H o (or_introl eq_refl)) as [-> | (md & x & -> & E)]; cbn [good_history]; auto.
Qed.

Lemma F2_len {A B} (R : A -> B -> Prop) a b : Forall2 R a b -> length a = length b.
Proof. induction 1; simpl; congruence. Qed.
Lemma F2_nth {A B} (R : A -> B -> Prop) a b : Forall2 R a b -> forall i x, nth_error a i = Some x -> exists y, nth_error b i = Some y /\ R x y.
Proof. induction 1; intros [|i] z Hz; simpl in *; try discriminate; [injection Hz as <-; eauto|eauto]. Qed.
Lemma rows_nth a b c : rows_eq a b -> Forall2 Qeq (nth c a []) (nth c b []).
Proof. intro H. revert c. induction H; intros [|c]; simpl; try constructor; auto. Qed.
Lemma dot_rows w w' x : Forall2 Qeq w w' -> dot w x == dot w' x.
Proof.
  intro H. revert x. induction H as [|u v l l' Huv Hll IH]; intro x; [reflexivity|]. destruct x as [|y x]; [reflexivity|].
  specialize (IH x). unfold dot in *. simpl. unfold qsum in *. simpl. rewrite IH, Huv. reflexivity.
Qed.
Lemma mapi_nth_error {A B} (f : nat -> A -> B) l : forall k c a, nth_error l c = Some a -> nth_error (mapi f k l) c = Some (f (k + c)%nat a).
Proof.
  induction l as [|x l IH]; intros k [|c] a H; simpl in *; try discriminate.
  - injection H as <-. rewrite Nat.add_0_r. reflexivity.
  - rewrite (IH (S k) c a H). do 2 f_equal. lia.
Qed.
(** quantizing with any rounding, then dequantizing *)
Lemma clampZ_is u a b : (a <= b)%Z -> is_clamp (Zq u) (Zq a) (Zq b) (Zq (Z.min (Z.max u a) b)).
Proof.
  intro H. split; [|split; [|split; [|split]]].
  - apply (proj1 (Zq_le _ _)). lia.
  - apply (proj1 (Zq_le _ _)). lia.
  - intro K. apply (proj2 (Zq_le _ _)) in K. replace (Z.min (Z.max u a) b) with a by lia. reflexivity.
  - intro K. apply (proj2 (Zq_le _ _)) in K. replace (Z.min (Z.max u a) b) with b by lia. reflexivity.
  - intros K1 K2. apply (proj2 (Zq_le _ _)) in K1. apply (proj2 (Zq_le _ _)) in K2. replace (Z.min (Z.max u a) b) with u by lia. reflexivity.
Qed.
Lemma t_fq_err rnd dt s off k x y : nearest rnd -> 0 < s -> (dt_min dt <= dt_max dt)%Z ->
  is_clamp x ((Zq (dt_min dt - off) + Zq k) / s) ((Zq (dt_max dt - off) + Zq k) / s) y ->
  Qabs (t_dequantize (1 / s, (off - k)%Z) (t_quantize rnd dt (1 / s, (off - k)%Z) x) - y) <= 1 / (2 * s).
Proof.
  intros Hn Hs Hd Hy. rewrite (t_deq_quant rnd dt s (off - k)%Z x k off Hs eq_refl).
  set (u := (rnd (x / (1 / s))%Q - k)%Z). set (lo := (dt_min dt - off)%Z) in *. set (hi := (dt_max dt - off)%Z) in *.
  assert (Hlh : (lo <= hi)%Z) by (unfold lo, hi; lia).
  pose proof (rnd_near rnd s x k Hn Hs) as Nu. fold u in Nu.
  assert (Hc : is_clamp (s * x - Zq k) (Zq lo) (Zq hi) (s * y - Zq k)).
  { destruct Hy as (Y1 & Y2 & Y3 & Y4 & Y5).
    assert (K : forall a z, (Zq z + Zq k) / s <= a <-> Zq z <= s * a - Zq k).
    { intros a z. split; intro H.
      - assert (s * ((Zq z + Zq k) / s) <= s * a) by (apply Qmult_le_l; auto). assert (s * ((Zq z + Zq k) / s) == Zq z + Zq k) by (field; lra). lra.
      - apply Qle_shift_div_r; auto. lra. }
    assert (K' : forall a z, a <= (Zq z + Zq k) / s <-> s * a - Zq k <= Zq z).
    { intros a z. split; intro H.
      - assert (s * a <= s * ((Zq z + Zq k) / s)) by (apply Qmult_le_l; auto). assert (s * ((Zq z + Zq k) / s) == Zq z + Zq k) by (field; lra). lra.
      - apply Qle_shift_div_l; auto. lra. }
    split; [apply K; auto|]. split; [apply K'; auto|]. split; [|split].
    - intro H. apply K' in H. rewrite (Y3 H). field. lra.
    - intro H. apply K in H. rewrite (Y4 H). field. lra.
    - intros H1 H2. apply K in H1. apply K' in H2. rewrite (Y5 H1 H2). ring. }
  pose proof (clamp_lip _ _ _ _ _ _ (proj1 (Zq_le _ _) Hlh) (clampZ_is u lo hi Hlh) Hc) as L.
  assert (E : (Zq (Z.min (Z.max u lo) hi) + Zq k) / s - y == (Zq (Z.min (Z.max u lo) hi) - (s * y - Zq k)) / s) by (field; lra).
  rewrite E, Qabs_div_pos by auto. assert (E2 : 1 / (2 * s) == (1 # 2) / s) by (field; lra). rewrite E2. apply Qdiv_le_compat; auto. lra.
Qed.
Lemma clamp_exists x lo hi : lo <= hi -> is_clamp x lo hi (clamp x lo hi).
Proof.
  intro H. unfold clamp, is_clamp. destruct (qmax_spec x lo) as [[A E]|[A E]]; rewrite E;
  [destruct (qmin_spec lo hi) as [[B F]|[B F]]|destruct (qmin_spec x hi) as [[B F]|[B F]]]; rewrite ?F; repeat split; intros; lra.
Qed.

Section Conv.
Variables (conv3d_ok reduce : bool) (cfg : pcfg) (g : geom) (dims : nat) (W : list (list Q)) (b : list Q) (st : stats)
  (k : lkind) (ops : list pw_op) (sx : Q) (s0 s : pw).
Hypotheses (Ha : p_acts cfg = Some 8%Z) (Hst : p_stats cfg = Some st) (Hw : p_wts cfg = 8%Z) (Hap : p_approx cfg = None)
  (Hacc : (1 <= p_accum cfg)%Z) (HW : W <> []) (Hsx : 0 < sx) (Hk : k <> KConv3d \/ conv3d_ok = true)
  (Hi : pw_init cfg dims W (Some b) = Ok s0) (Hpl : plain_history sx ops) (Hr : pw_run cfg g ops s0 = Ok s)
  (Hsh : is_sym (PM (p_mode_w cfg)) = true \/ forward_since_save ops false = false).

Lemma conv_state : inv cfg W false s /\ w_par s = w_par s0 /\ w_out s = w_out s0 /\
  (existsb is_forward ops = false -> w_bias s = Some b) /\
  (existsb is_forward ops = true -> w_accum_scale s = map (fun p => sx * fst p) (w_par s0) /\
     w_bias s = Some (quant_bias (accum_range cfg) (map (fun p => sx * fst p) (w_par s0)) b)).
Proof using Ha Hst Hw Hap Hi Hpl Hr Hsh.
  destruct (init_facts cfg dims W (Some b) st s0 Ha Hst Hw Hap Hi) as (_ & _ & _ & Hb & Hf & Hre).
  assert (Hp : preset_of cfg = true) by (unfold preset_of; rewrite Ha, Hst; reflexivity).
  assert (I0 : inv cfg W (false && negb (is_sym (PM (p_mode_w cfg)))) s0).
  { eapply init_inv; eauto. rewrite Hw. apply mode_ok8. }
  assert (S0 : inv_static cfg (Some b) sx s0) by (eapply init_static; eauto).
  destruct (plain_run cfg g W (Some b) sx Ha ops false s0 s Hpl Hp I0 S0) as (A1 & A2 & A3 & A4 & A5 & A6 & A7); auto; try congruence.
  assert (E : forward_since_save ops false && negb (is_sym (PM (p_mode_w cfg))) = false).
  { destruct Hsh as [-> | ->]; [apply andb_false_r|reflexivity]. }
  rewrite E in A1. split; auto. split; auto. split; auto.
  assert (Hgas : get_accum_scale cfg sx (w_par s) = map (fun p => sx * fst p) (w_par s0)).
  { rewrite A3. unfold get_accum_scale. rewrite Hap. reflexivity. }
  split.
  - intro K. apply A6. apply A7. auto.
  - intro K. assert (N : w_forwards s <> 0%nat) by (intro N; apply A7 in N; destruct N; congruence).
    destruct A2 as [_ _ A2]. destruct (A2 N (A5 N)) as [B1 B2]. rewrite Hgas in B1, B2. split; [exact B1|]. exact B2.
Qed.

Lemma conv_ok : exists l, pw_to_pytorch conv3d_ok cfg k reduce s = Ok l /\ l_kind l = k /\ l_relu l = p_half cfg /\
  Forall (Forall (fun z => (-128 <= z <= 127)%Z)) (pt_int (l_weight l)) /\
  rows_eq (pt_value (l_weight l)) (weight_fq 8 (p_mode_w cfg) (w_par s0) W) /\
  qparams_to_pytorch [w_out s0] 8 (p_mode_a cfg) QUInt8 reduce = Ok [(l_scale l, l_zp l)] /\
  exists bb, w_bias s = Some bb /\
  l_bias l = (if forallb is_int bb then mapi (fun c x => linear_dequantize x (bc 1 (w_accum_scale s) c) 0) 0 bb else bb).
Proof using Ha Hst Hw Hap HW Hk Hi Hpl Hr Hsh.
  destruct conv_state as (I & Ep & Eo & B1 & B2).
  destruct (init_facts cfg dims W (Some b) st s0 Ha Hst Hw Hap Hi) as (P1 & P2 & _).
  destruct I as [_ _ _ _ _ _ Iw]. unfold Wq in Iw. rewrite Hw in Iw. rewrite Ep in Iw.
  assert (Lw : length (w_weight s) = length W).
  { rewrite (F2_len _ _ _ Iw). unfold quant_rows. apply mapi_length. }
  assert (HWl : (0 < length W)%nat) by (destruct W; [congruence|simpl; lia]).
  destruct (C76_same_values (w_weight s) (w_par s0) 8 (p_mode_w cfg) QInt8 (p_per_channel cfg)) as (r & E1 & _ & E3 & E4).
  - lia.
  - left; reflexivity.
  - eapply q_elem_rows_eq; [exact Iw|]. apply quant_rows_elems. lia.
  - exact P1.
  - rewrite P2, Lw. destruct (p_per_channel cfg); auto.
  - rewrite P2. destruct (p_per_channel cfg); lia.
  - assert (Hbb : exists bb, w_bias s = Some bb) by (destruct (existsb is_forward ops); [destruct (B2 eq_refl) as [_ B]|pose proof (B1 eq_refl) as B]; eauto).
    destruct Hbb as [bb Hbb].
    assert (Ho : exists o, qparams_to_pytorch [w_out s0] 8 (p_mode_a cfg) QUInt8 reduce = Ok [o]).
    { unfold qparams_to_pytorch. cbn [tdtype_eqb]. destruct (is_sym (PM (p_mode_a cfg))); [|destruct reduce]; cbn [andb Z.eqb Pos.eqb negb map]; eauto. }
    destruct Ho as [[os oz] Ho].
    exists (mkPtLayer k (p_half cfg) r (if forallb is_int bb then mapi (fun c x => linear_dequantize x (bc 1 (w_accum_scale s) c) 0) 0 bb else bb) os oz).
    split.
    { unfold pw_to_pytorch. rewrite Ha. cbn [Z.eqb Pos.eqb negb]. assert (preset_of cfg = true) as -> by (unfold preset_of; rewrite Ha, Hst; reflexivity).
      cbn [negb]. rewrite Hw. cbn [Z.eqb Pos.eqb negb]. rewrite Ep, E1. cbn [bind]. rewrite Hbb, Eo, Ho. cbn [bind one_param fst snd].
      destruct k; auto. destruct Hk as [K3|K3]; [congruence|rewrite K3; reflexivity]. }
    cbn [l_kind l_relu l_weight l_bias l_scale l_zp]. repeat split; auto.
    + eapply rows_eq_trans; [exact E4|]. rewrite <- dequant_quant. apply dequant_rows_ext. exact Iw.
    + eauto.
Qed.
End Conv.

(** C77: after any mix of forwards (with inputs of one scale) and state_dict calls, a statically quantized 8-bit layer
    with a bias is converted - for asymmetric weights, when no forward came after the last state_dict - to the
    native layer of its kind, with the ReLU fused iff it was fused, with int8 weights standing for exactly
    Distiller's quantized weights, and the converted output parameters.  The bias is the float one, or after a
    forward its quantized value (within half an accumulator step). *)
Theorem C77_layer_parameters :
  forall conv3d_ok reduce cfg g dims W b st k ops sx s0 s,
  p_acts cfg = Some 8%Z -> p_stats cfg = Some st -> p_wts cfg = 8%Z -> p_approx cfg = None -> (1 <= p_accum cfg)%Z ->
  W <> [] -> 0 < sx -> k <> KConv3d \/ conv3d_ok = true ->
  pw_init cfg dims W (Some b) = Ok s0 -> plain_history sx ops -> pw_run cfg g ops s0 = Ok s ->
  is_sym (PM (p_mode_w cfg)) = true \/ forward_since_save ops false = false ->
  exists l, pw_to_pytorch conv3d_ok cfg k reduce s = Ok l /\ l_kind l = k /\ l_relu l = p_half cfg /\
    Forall (Forall (fun z => (-128 <= z <= 127)%Z)) (pt_int (l_weight l)) /\
    rows_eq (pt_value (l_weight l)) (weight_fq 8 (p_mode_w cfg) (w_par s0) W) /\
    qparams_to_pytorch [w_out s0] 8 (p_mode_a cfg) QUInt8 reduce = Ok [(l_scale l, l_zp l)] /\
    length (l_bias l) = length b /\
    (existsb is_forward ops = false -> forallb is_int b = false -> l_bias l = b) /\
    (existsb is_forward ops = true -> forall c bv b', (c < length W)%nat -> nth_error b c = Some bv ->
       let sacc := sx * scale_of (w_par s0) c in
       let ar := get_quantized_range (p_accum cfg) true false in
       is_clamp bv (Zq (fst ar) / sacc) (Zq (snd ar) / sacc) b' ->
       exists v, nth_error (l_bias l) c = Some v /\ Qabs (v - b') <= 1 / (2 * sacc)).
Proof.
  intros conv3d_ok reduce cfg g dims W b st k ops sx s0 s Ha Hst Hw Hap Hacc HW Hsx Hk Hi Hpl Hr Hsh.
  destruct (conv_ok conv3d_ok reduce cfg g dims W b st k ops sx s0 s Ha Hst Hw Hap HW Hk Hi Hpl Hr Hsh) as (l & E1 & E2 & E3 & E4 & E5 & E6 & bb & E7 & E8).
  destruct (conv_state cfg g dims W b st ops sx s0 s Ha Hst Hw Hap Hi Hpl Hr Hsh) as (I & Ep & Eo & B1 & B2).
  destruct (init_facts cfg dims W (Some b) st s0 Ha Hst Hw Hap Hi) as (P1 & P2 & _).
  exists l. split; auto. split; auto. split; auto. split; auto. split; auto. split; auto.
  split; [|split].
  - rewrite E8. assert (Lb : length bb = length b).
    { destruct (existsb is_forward ops) eqn:E; [destruct (B2 eq_refl) as [_ K]|pose proof (B1 eq_refl) as K]; rewrite K in E7; injection E7 as <-; auto.
      unfold quant_bias. apply mapi_length. }
    destruct (forallb is_int bb); rewrite ?mapi_length; auto.
  - intros K Kb. rewrite (B1 K) in E7. injection E7 as <-. rewrite E8, Kb. reflexivity.
  - intros K c bv b' Hc Hb sacc ar Hb'. destruct (B2 K) as [B3 B4]. rewrite B4 in E7. injection E7 as <-.
    assert (Hpar : Forall (fun p => 0 < fst p) (w_par s0)) by (eapply Forall_impl; [|exact P1]; intros p (Q1 & _); exact Q1).
    pose proof (scale_pos (w_par s0) c Hpar) as Hsc.
    assert (Hsacc : 0 < sacc) by (unfold sacc; apply Qmult_lt_0_compat; auto).
    assert (Hbc : bc 1 (map (fun p => sx * fst p) (w_par s0)) c = sacc).
    { rewrite (bc_map (fun p => sx * fst p) (1, 0) 1) by (rewrite P2; destruct (p_per_channel cfg); lia). reflexivity. }
    pose proof (accum_le (p_accum cfg) Hacc) as Har. fold ar in Har.
    assert (Hall : forallb is_int (quant_bias (accum_range cfg) (map (fun p => sx * fst p) (w_par s0)) b) = true).
    { apply forallb_forall. intros z Hz. unfold quant_bias in Hz.
      assert (F : Forall (fun z => is_int z = true) (mapi (fun c x => linear_quantize_clamp x (bc 1 (map (fun p : Q * Q => sx * fst p) (w_par s0)) c) 0 (Zq (fst (accum_range cfg))) (Zq (snd (accum_range cfg)))) 0 b)).
      { apply mapi_Forall. intros i x _ _. destruct (quant_Z x (bc 1 (map (fun p : Q * Q => sx * fst p) (w_par s0)) i) 0 (fst (accum_range cfg)) (snd (accum_range cfg))) as (q & Eq & _); [exact Har|].
        rewrite Eq. apply (is_int_Zq _ q). reflexivity. }
      rewrite Forall_forall in F. apply F. exact Hz. }
    rewrite E8, Hall, B3. eexists. split.
    + apply mapi_nth_error. unfold quant_bias. apply mapi_nth_error. exact Hb.
    + cbn [Nat.add]. rewrite Hbc. unfold linear_dequantize. rewrite Qplus_0_r. apply bias_err; auto.
Qed.

(** the clamped values in PyTorch's output range and in Distiller's *)
Lemma out_ranges m mn mx p s z k : params_from_range 8 (PM m) mn mx = Ok p -> p = (s, z) -> z == Zq k -> 0 < s ->
  let r := mode_range 8 (PM m) in let off := pt_off 8 m QUInt8 in
  forall x y y', is_clamp x (linear_dequantize (Zq (fst r)) s z) (linear_dequantize (Zq (snd r)) s z) y ->
  is_clamp x ((Zq (dt_min QUInt8 - off) + Zq k) / s) ((Zq (dt_max QUInt8 - off) + Zq k) / s) y' ->
  Qabs (y' - y) <= if lqmode_eqb m SYMR then 1 / s else 0.
Proof.
  intros _ _ Hz Hs r off x y y' Hy Hy'. destruct (frame 8 m QUInt8 ltac:(lia) (or_intror eq_refl)) as [(F1 & F2 & F3) F4].
  destruct (F4 eq_refl) as [G1 G2]. fold r off in F1, F2, F3, G1, G2. rewrite <- G1, G2 in Hy'.
  assert (E : forall w, linear_dequantize (Zq w) s z == (Zq w + Zq k) / s) by (intro w; unfold linear_dequantize; rewrite Hz; reflexivity).
  apply (is_clamp_ext _ _ _ _ _ _ (E (fst r)) (E (snd r))) in Hy.
  assert (HL : (Zq (fst r) + Zq k) / s <= (Zq (snd r) + Zq k) / s).
  { apply Qdiv_le_compat; auto. apply Qplus_le_l. apply (proj1 (Zq_le _ _)). exact F2. }
  destruct (lqmode_eqb m SYMR).
  - assert (E1 : (Zq (fst r - 1) + Zq k) / s == (Zq (fst r) + Zq k) / s - 1 / s) by (rewrite Zq_minus; change (Zq 1) with 1; field; lra).
    apply (is_clamp_ext _ _ _ _ _ _ E1 (Qeq_refl _)) in Hy'.
    assert (H1 : 0 < 1 / s) by (apply Qlt_shift_div_l; lra).
    destruct Hy as (Y1 & Y2 & Y3 & Y4 & Y5), Hy' as (Z1 & Z2 & Z3 & Z4 & Z5).
    set (a := (Zq (fst r) + Zq k) / s) in *. set (h := (Zq (snd r) + Zq k) / s) in *. set (d := 1 / s) in *. clearbody a h d.
    destruct (Qlt_le_dec x (a - d)) as [X|X]; [|destruct (Qlt_le_dec x a) as [X2|X2]; [|destruct (Qlt_le_dec h x) as [X3|X3]]].
    + rewrite (Y3 ltac:(lra)), (Z3 ltac:(lra)). apply Qabs_le; lra.
    + rewrite (Y3 ltac:(lra)), (Z5 ltac:(lra) ltac:(lra)). apply Qabs_le; lra.
    + rewrite (Y4 ltac:(lra)), (Z4 ltac:(lra)). apply Qabs_le; lra.
    + rewrite (Y5 ltac:(lra) ltac:(lra)), (Z5 ltac:(lra) ltac:(lra)). apply Qabs_le; lra.
  - pose proof (clamp_lip _ _ _ _ _ _ HL Hy' Hy) as K. assert (E0 : x - x == 0) by ring. rewrite E0 in K. exact K.
Qed.

(** C77: the converted layer computes, up to rounding, what the Distiller layer computes: with the same quantized
    input, each output (dequantized) is within one output step (two in the restricted symmetric mode, whose lowest
    level exists in PyTorch only) and the rounding of the bias, when the bias and the sum fit the accumulator. *)
Theorem C77_output_close :
  forall conv3d_ok cfg g dims W b st k ops s0 s s' md x out l rnd,
  p_acts cfg = Some 8%Z -> p_stats cfg = Some st -> p_wts cfg = 8%Z -> p_approx cfg = None -> (1 <= p_accum cfg)%Z ->
  W <> [] -> 0 < q_scale md -> k <> KConv3d \/ conv3d_ok = true ->
  pw_init cfg dims W (Some b) = Ok s0 -> plain_history (q_scale md) ops -> pw_run cfg g ops s0 = Ok s ->
  is_sym (PM (p_mode_w cfg)) = true \/ forward_since_save ops false = false ->
  existsb is_forward ops = true \/ forallb is_int b = false ->
  pw_to_pytorch conv3d_ok cfg k false s = Ok l -> nearest rnd -> pw_forward cfg g md x s = Ok (s', out) ->
  let tout := map (t_dequantize (l_scale l, l_zp l)) (t_layer rnd g l (input_fq md x)) in
  length tout = length out /\
  forall j c win bv, nth_error g j = Some (c, win) -> (c < length W)%nat -> nth_error b c = Some bv ->
    let sacc := q_scale md * scale_of (w_par s0) c in
    let ar := get_quantized_range (p_accum cfg) true false in
    let v := dot (nth c (weight_fq 8 (p_mode_w cfg) (w_par s0) W) []) (gather (input_fq md x) win) + bv in
    Zq (fst ar) / sacc <= bv <= Zq (snd ar) / sacc -> Zq (fst ar) / sacc <= v <= Zq (snd ar) / sacc ->
    exists o t, nth_error out j = Some o /\ nth_error tout j = Some t /\
      Qabs (t - o) <= (if lqmode_eqb (p_mode_a cfg) SYMR then 2 else 1) / fst (w_out s0)
                      + (if existsb is_forward ops then 1 / sacc else 1 / (2 * sacc)).
Proof.
  intros conv3d_ok cfg g dims W b st k ops s0 s s' md x out l rnd Ha Hst Hw Hap Hacc HW Hsx Hk Hi Hpl Hr Hsh Hbi Hl Hn Hf tout.
  destruct (C77_layer_parameters conv3d_ok false cfg g dims W b st k ops (q_scale md) s0 s Ha Hst Hw Hap Hacc HW Hsx Hk Hi Hpl Hr Hsh)
    as (l' & E1 & _ & Erelu & _ & Ew & Eq & Elb & Eb1 & Eb2).
  rewrite Hl in E1. injection E1 as <-.
  destruct (conv_state cfg g dims W b st ops (q_scale md) s0 s Ha Hst Hw Hap Hi Hpl Hr Hsh) as (I & Ep & Eo & _ & _).
  destruct (init_facts cfg dims W (Some b) st s0 Ha Hst Hw Hap Hi) as (P1 & P2 & (mn & mx & P3) & _).
  destruct (w_out s0) as [so zo] eqn:Ews. destruct (range_facts 8 (p_mode_a cfg) mn mx so zo (mode_ok8 _) P3) as (ko & Hz & Hso & Hko & _).
  assert (Epar : (l_scale l, l_zp l) = (1 / so, (pt_off 8 (p_mode_a cfg) QUInt8 - ko)%Z)).
  { unfold qparams_to_pytorch in Eq. cbn [tdtype_eqb map] in Eq.
    rewrite (convert1_eq 8 (p_mode_a cfg) QUInt8 so zo ko) in Eq; auto; try discriminate.
    - destruct (is_sym (PM (p_mode_a cfg))); cbn [andb] in Eq; congruence.
    - intro Hs'. destruct (p_mode_a cfg); try discriminate; exact Hko. }
  destruct (C31_static_output_error cfg g dims W (Some b) st 8 ops s0 s s' md x out Ha Hst Hap (mode_ok8 _)) as [Lo Ho]; auto.
  { rewrite Hw. apply mode_ok8. }
  { apply plain_good. exact Hpl. }
  { rewrite Eo. cbn [fst]. exact Hso. }
  split.
  { unfold tout, t_layer, layer. rewrite !map_length. auto. }
  intros j c win bv Hj Hc Hb sacc ar v Hbv Hv.
  assert (Hpar : Forall (fun p => 0 < fst p) (w_par s0)) by (eapply Forall_impl; [|exact P1]; intros p (Q1 & _); exact Q1).
  pose proof (scale_pos (w_par s0) c Hpar) as Hsc.
  assert (Hsacc : 0 < sacc) by (unfold sacc; apply Qmult_lt_0_compat; auto).
  assert (Har : Zq (fst ar) / sacc <= Zq (snd ar) / sacc) by lra.
  assert (Hin : forall q, Zq (fst ar) / sacc <= q <= Zq (snd ar) / sacc -> is_clamp q (Zq (fst ar) / sacc) (Zq (snd ar) / sacc) q).
  { intros q Hq. unfold is_clamp. repeat split; try tauto; intros; lra. }
  set (r := mode_range 8 (PM (p_mode_a cfg))).
  assert (HL : linear_dequantize (Zq (fst r)) so zo <= linear_dequantize (Zq (snd r)) so zo).
  { unfold linear_dequantize. apply Qdiv_le_compat; auto. apply Qplus_le_l. apply (proj1 (Zq_le _ _)). unfold r.
    pose proof (mode_range_le 8 (PM (p_mode_a cfg)) ltac:(lia)). lia. }
  rewrite Ep, Eo, Hw in Ho. cbn [fst snd] in Ho.
  set (vr := relu_if (p_half cfg) v).
  destruct (Ho j c win bv bv v (clamp vr (linear_dequantize (Zq (fst r)) so zo) (linear_dequantize (Zq (snd r)) so zo)) Hj Hc Hb) as (o & Eo1 & Eo2); auto.
  { apply clamp_exists. exact HL. }
  fold sacc in Eo2. set (yd := clamp vr _ _) in Eo2.
  (* the native layer *)
  assert (Hlb : exists lb, nth_error (l_bias l) c = Some lb /\ Qabs (lb - bv) <= if existsb is_forward ops then 1 / (2 * sacc) else 0).
  { destruct (existsb is_forward ops) eqn:Ef.
    - apply (Eb2 eq_refl c bv bv Hc Hb). apply Hin. exact Hbv.
    - destruct Hbi as [Hbi|Hbi]; [congruence|]. rewrite (Eb1 eq_refl Hbi). exists bv. split; auto.
      assert (E0 : bv - bv == 0) by ring. rewrite E0. apply Qle_refl. }
  destruct Hlb as (lb & Elc & Hlb).
  set (pre := layer_at (pt_value (l_weight l)) (Some (l_bias l)) (input_fq md x) (c, win)).
  assert (Epre : pre == v + (lb - bv)).
  { unfold pre, layer_at, v. cbn [fst snd]. rewrite (nth_error_nth _ _ 0 Elc). rewrite (dot_rows _ _ _ (rows_nth _ _ c Ew)). ring. }
  set (prer := if l_relu l then relu pre else pre).
  exists o, (t_dequantize (l_scale l, l_zp l) (t_quantize rnd QUInt8 (l_scale l, l_zp l) prer)).
  split; auto. split.
  { unfold tout, t_layer, layer. rewrite !nth_error_map, Hj. reflexivity. }
  rewrite Epar. set (off := pt_off 8 (p_mode_a cfg) QUInt8) in *.
  set (lo' := (Zq (dt_min QUInt8 - off) + Zq ko) / so). set (hi' := (Zq (dt_max QUInt8 - off) + Zq ko) / so).
  assert (HL' : lo' <= hi').
  { unfold lo', hi'. apply Qdiv_le_compat; auto. apply Qplus_le_l. apply (proj1 (Zq_le _ _)). unfold dt_min, dt_max. lia. }
  pose proof (t_fq_err rnd QUInt8 so off ko prer (clamp prer lo' hi') Hn Hso ltac:(unfold dt_min, dt_max; lia) (clamp_exists _ _ _ HL')) as T1.
  pose proof (clamp_lip _ _ _ _ _ _ HL' (clamp_exists prer lo' hi' HL') (clamp_exists vr lo' hi' HL')) as T2.
  assert (T3 : Qabs (clamp vr lo' hi' - yd) <= if lqmode_eqb (p_mode_a cfg) SYMR then 1 / so else 0).
  { apply (out_ranges (p_mode_a cfg) mn mx (so, zo) so zo ko P3 eq_refl Hz Hso vr); apply clamp_exists; auto. }
  assert (T4 : Qabs (prer - vr) <= if existsb is_forward ops then 1 / (2 * sacc) else 0).
  { assert (E : Qabs (pre - v) <= if existsb is_forward ops then 1 / (2 * sacc) else 0).
    { rewrite Epre. assert (E0 : v + (lb - bv) - v == lb - bv) by ring. rewrite E0. exact Hlb. }
    unfold prer, vr, relu_if. rewrite Erelu. destruct (p_half cfg); auto. eapply Qle_trans; [apply relu_lip|exact E]. }
  set (t := t_dequantize _ _) in *. set (y1 := clamp prer lo' hi') in *. set (y2 := clamp vr lo' hi') in *.
  assert (Et : t - o == (t - y1) + (y1 - y2) + (y2 - yd) - (o - yd)) by ring.
  rewrite Et.
  assert (Tr : Qabs (t - y1 + (y1 - y2) + (y2 - yd) - (o - yd)) <= Qabs (t - y1) + Qabs (y1 - y2) + Qabs (y2 - yd) + Qabs (o - yd)).
  { eapply Qle_trans; [apply Qabs_triangle|]. rewrite Qabs_opp. apply Qplus_le_l. eapply Qle_trans; [apply Qabs_triangle|]. apply Qplus_le_l. apply Qabs_triangle. }
  eapply Qle_trans; [exact Tr|].
  assert (D1 : 1 / (2 * so) + 1 / (2 * so) == 1 / so) by (field; lra).
  assert (D2 : 1 / (2 * sacc) + 1 / (2 * sacc) == 1 / sacc) by (field; lra).
  assert (D3 : 2 / so == 1 / so + 1 / so) by (field; lra).
  cbn [fst]. destruct (lqmode_eqb (p_mode_a cfg) SYMR), (existsb is_forward ops); lra.
Qed.

(* ---- a concrete layer: 2 output channels of 2 inputs, per-channel weights, fused ReLU ---- *)
Definition px_st : stats := mkStats (-1) 6 (-1) 6 2 1 1.
Definition px_cfg (mw : lqmode) (pc : bool) : pcfg := mkPcfg (Some 8%Z) 8 32 ASU mw pc (Some px_st) CNone None true None false.
Definition px_W : list (list Q) := [[-1; 3]; [1#2; 2]].
Definition px_b : list Q := [1#3; -1#4].
Definition px_g : geom := [(0%nat, [Some 0%nat; Some 1%nat]); (1%nat, [Some 0%nat; Some 1%nat])].
Definition px_md : qmd := mkQmd 10 0 0 255.
Definition px_x : list Q := [4#5; 7#10].
Definition px_ops : list pw_op := [OpForward px_md px_x; OpStateDict; OpForward px_md [1; 1]].
Definition get {A} (d : A) (r : res A) : A := match r with Ok a => a | Raise _ => d end.
Definition px_d : pw := mkPw [] [] [] None None None (1, 0) (1, 0) [] false 0 false.
Definition px_s0 (mw : lqmode) (pc : bool) : pw := get px_d (pw_init (px_cfg mw pc) 2 px_W (Some px_b)).
Definition px_run (mw : lqmode) (pc : bool) (ops : list pw_op) : pw := get px_d (pw_run (px_cfg mw pc) px_g ops (px_s0 mw pc)).
Definition px_l (mw : lqmode) (pc : bool) (ops : list pw_op) : ptlayer :=
  get (mkPtLayer KConv3d false (mkPt [] []) [] 0 0) (pw_to_pytorch false (px_cfg mw pc) KLinear false (px_run mw pc ops)).

Example C77_ex :
  pw_init (px_cfg SYM true) 2 px_W (Some px_b) = Ok (px_s0 SYM true) /\ plain_history 10 px_ops /\
  pw_run (px_cfg SYM true) px_g px_ops (px_s0 SYM true) = Ok (px_run SYM true px_ops) /\
  existsb is_forward px_ops = true /\
  pw_to_pytorch false (px_cfg SYM true) KLinear false (px_run SYM true px_ops) = Ok (px_l SYM true px_ops) /\
  pt_int (l_weight (px_l SYM true px_ops)) = [[-42; 127]; [32; 127]]%Z /\
  (exists s' out, pw_forward (px_cfg SYM true) px_g px_md px_x (px_run SYM true px_ops) = Ok (s', out) /\
     map Qred out = [28#17; 392#255] /\
     map (fun v => Qred (t_dequantize (l_scale (px_l SYM true px_ops), l_zp (px_l SYM true px_ops)) v))
       (t_layer rhe px_g (px_l SYM true px_ops) (input_fq px_md px_x)) = [28#17; 392#255]).
Proof.
  split; [vm_compute; reflexivity|]. split.
  { intros o [<-|[<-|[<-|[]]]]; [right|left|right]; try reflexivity; do 2 eexists; split; reflexivity. }
  split; [vm_compute; reflexivity|]. split; [reflexivity|]. split; [vm_compute; reflexivity|]. split; [vm_compute; reflexivity|].
  do 2 eexists. split; [vm_compute; reflexivity|]. split; vm_compute; reflexivity.
Qed.

(** C77: asymmetric weights converted after a forward without a state_dict in between are wrong (the stored weights
    already include the zero-point, and the conversion adds it again). *)
Theorem C77_asymmetric_after_forward_refuted :
  ~ (forall cfg g dims W b st ops sx s0 s l,
     p_acts cfg = Some 8%Z -> p_stats cfg = Some st -> p_wts cfg = 8%Z -> p_approx cfg = None -> (1 <= p_accum cfg)%Z ->
     W <> [] -> 0 < sx -> pw_init cfg dims W (Some b) = Ok s0 -> plain_history sx ops -> pw_run cfg g ops s0 = Ok s ->
     pw_to_pytorch true cfg KLinear false s = Ok l ->
     rows_eq (pt_value (l_weight l)) (weight_fq 8 (p_mode_w cfg) (w_par s0) W)).
Proof.
  intro H. assert (Hp : plain_history 10 [OpForward px_md px_x]).
  { intros o [<-|[]]. right. do 2 eexists; split; reflexivity. }
  specialize (H (px_cfg ASU false) px_g 2%nat px_W px_b px_st [OpForward px_md px_x] 10 (px_s0 ASU false)
    (px_run ASU false [OpForward px_md px_x]) (px_l ASU false [OpForward px_md px_x]) eq_refl eq_refl eq_refl eq_refl ltac:(simpl; lia) ltac:(discriminate) ltac:(reflexivity)
    ltac:(vm_compute; reflexivity) Hp ltac:(vm_compute; reflexivity) ltac:(vm_compute; reflexivity)).
  vm_compute in H. inversion H. inversion H3. discriminate.
Qed.

(** C77: a layer without a bias cannot be converted. *)
Theorem C77_no_bias_refuted :
  forall conv3d_ok reduce cfg g dims W st k ops sx s0 s,
  p_acts cfg = Some 8%Z -> p_stats cfg = Some st -> p_wts cfg = 8%Z -> p_approx cfg = None ->
  pw_init cfg dims W None = Ok s0 -> plain_history sx ops -> pw_run cfg g ops s0 = Ok s ->
  forall l, pw_to_pytorch conv3d_ok cfg k reduce s <> Ok l.
Proof.
  intros conv3d_ok reduce cfg g dims W st k ops sx s0 s Ha Hst Hw Hap Hi Hpl Hr l H.
  destruct (init_facts cfg dims W None st s0 Ha Hst Hw Hap Hi) as (_ & _ & _ & Hb & Hf & Hre).
  assert (Hp : preset_of cfg = true) by (unfold preset_of; rewrite Ha, Hst; reflexivity).
  assert (I0 : inv cfg W (false && negb (is_sym (PM (p_mode_w cfg)))) s0).
  { eapply init_inv; eauto. rewrite Hw. apply mode_ok8. }
  assert (S0 : inv_static cfg None sx s0) by (eapply init_static; eauto).
  destruct (plain_run cfg g W None sx Ha ops false s0 s Hpl Hp I0 S0) as (_ & A2 & _); auto; try congruence.
  destruct A2 as [_ [_ A2] _]. unfold pw_to_pytorch in H. rewrite (A2 eq_refl) in H.
  repeat match type of H with (if ?c then _ else _) = _ => destruct c; [discriminate|] end. inv_bind H. discriminate.
Qed.
Example C77_no_bias_ex :
  exists s0, pw_init (px_cfg SYM true) 2 px_W None = Ok s0 /\ pw_to_pytorch true (px_cfg SYM true) KLinear false s0 = Raise AttributeError.
Proof. eexists. split; vm_compute; reflexivity. Qed.

(** C77: a bias whose values happen to be integers is taken for a quantized one: before the first forward it is
    divided by the scale of the weights. *)
Theorem C77_integral_bias_refuted :
  forall conv3d_ok reduce cfg g dims W b st k ops sx s0 s,
  p_acts cfg = Some 8%Z -> p_stats cfg = Some st -> p_wts cfg = 8%Z -> p_approx cfg = None ->
  W <> [] -> k <> KConv3d \/ conv3d_ok = true ->
  pw_init cfg dims W (Some b) = Ok s0 -> plain_history sx ops -> pw_run cfg g ops s0 = Ok s ->
  existsb is_forward ops = false -> forallb is_int b = true ->
  exists l, pw_to_pytorch conv3d_ok cfg k reduce s = Ok l /\ forall c bv, (c < length W)%nat -> nth_error b c = Some bv -> exists v, nth_error (l_bias l) c = Some v /\ v == bv / scale_of (w_par s0) c.
Proof.
  intros conv3d_ok reduce cfg g dims W b st k ops sx s0 s Ha Hst Hw Hap HW Hk Hi Hpl Hr Hnf Hib.
  assert (Hno : forall o, In o ops -> o = OpStateDict).
  { intros o Ho. destruct (Hpl o Ho) as [|(md & x & -> & _)]; auto.
    assert (existsb is_forward ops = true) by (apply existsb_exists; eauto). congruence. }
  assert (Hfs : forall sh, forward_since_save ops sh = false \/ (ops = [] /\ sh = true)).
  { clear - Hno. induction ops as [|o ops IH]; intro sh; [destruct sh; auto|]. rewrite (Hno o (or_introl eq_refl)).
    cbn [forward_since_save]. left. destruct (IH ltac:(intros; apply Hno; right; auto) false) as [E|[_ E]]; auto; discriminate. }
  assert (Hsh : is_sym (PM (p_mode_w cfg)) = true \/ forward_since_save ops false = false).
  { right. destruct (Hfs false) as [|[_ E]]; auto; discriminate. }
  destruct (conv_ok conv3d_ok reduce cfg g dims W b st k ops sx s0 s Ha Hst Hw Hap HW Hk Hi Hpl Hr Hsh) as (l & E1 & _ & _ & _ & _ & _ & bb & E7 & E8).
  destruct (conv_state cfg g dims W b st ops sx s0 s Ha Hst Hw Hap Hi Hpl Hr Hsh) as (_ & _ & _ & B1 & _).
  destruct (init_facts cfg dims W (Some b) st s0 Ha Hst Hw Hap Hi) as (_ & P2 & _).
  rewrite (B1 Hnf) in E7. injection E7 as <-. rewrite Hib in E8. exists l. split; auto.
  assert (Eacc : w_accum_scale s = map fst (w_par s0)).
  { assert (E0 : w_accum_scale s0 = map fst (w_par s0)).
    { clear - Hi Ha Hst. unfold pw_init in Hi. rewrite Ha, Hst in Hi. inv_bind Hi. destruct (p_per_channel cfg && _); [discriminate|].
      inv_bind Hi. inv_bind Hi. injection Hi as <-. reflexivity. }
    rewrite <- E0. clear - Hr Hno Ha. revert s0 Hr. induction ops as [|o ops IH]; intros s0 Hr; cbn [pw_run foldM] in Hr.
    - congruence.
    - rewrite (Hno o (or_introl eq_refl)) in Hr. cbn [pw_step bind] in Hr.
      rewrite (IH ltac:(intros; apply Hno; right; auto) _ Hr). unfold pw_state_dict. rewrite Ha; destruct (w_shifted s0); reflexivity. }
  intros c bv Hc Hb. eexists. split.
  - rewrite E8. apply mapi_nth_error. exact Hb.
  - cbn [Nat.add]. unfold linear_dequantize. rewrite Eacc.
    rewrite (bc_map fst (1, 0) 1) by (rewrite P2; destruct (p_per_channel cfg); lia). unfold scale_of. rewrite Qplus_0_r. reflexivity.
Qed.
Example C77_integral_bias_ex :
  exists s0 l, pw_init (px_cfg SYM true) 2 px_W (Some [1; 2]) = Ok s0 /\ pw_to_pytorch true (px_cfg SYM true) KLinear false s0 = Ok l /\ map Qred (l_bias l) = [2#85; 8#255].
Proof. do 2 eexists. split; [vm_compute; reflexivity|]. split; vm_compute; reflexivity. Qed.

(** C77: what is refused: activations of a number of bits other than 8 or without statistics, weights of a number of bits
    other than 8; an unsupported class raises TypeError, not the intended message. *)
Theorem C77_refused :
  forall conv3d_ok reduce cfg k s,
  (p_acts cfg <> Some 8%Z \/ p_stats cfg = None -> pw_to_pytorch conv3d_ok cfg k reduce s = Raise AssertionError) /\ (forall st, p_acts cfg = Some 8%Z -> p_stats cfg = Some st ->
     (k = KConv3d -> conv3d_ok = false -> pw_to_pytorch conv3d_ok cfg k reduce s = Raise TypeError) /\ (k <> KConv3d \/ conv3d_ok = true -> p_wts cfg <> 8%Z -> pw_to_pytorch conv3d_ok cfg k reduce s = Raise AssertionError)).
Proof.
  intros conv3d_ok reduce cfg k s. unfold pw_to_pytorch, preset_of. split.
  - intro H. destruct (p_acts cfg) as [z|] eqn:E; [|reflexivity]. destruct (Z.eqb_spec z 8) as [->|]; [|reflexivity]. cbn [negb].
    destruct H as [H|H]; [congruence|]. rewrite H. reflexivity.
  - intros st -> ->. cbn [Z.eqb Pos.eqb negb]. split.
    + intros -> ->. reflexivity.
    + intros Hk Hw. assert ((match k with KConv3d => negb conv3d_ok | _ => false end) = false) as ->.
      { destruct k; auto. destruct Hk as [Hk| ->]; [congruence|reflexivity]. }
      destruct (Z.eqb_spec (p_wts cfg) 8); [congruence|reflexivity].
Qed.

Print Assumptions C76_same_values.
Print Assumptions C76_refused.
Print Assumptions C76_qint32_refuted.
Print Assumptions C77_layer_parameters.
Print Assumptions C77_output_close.
Print Assumptions C77_asymmetric_after_forward_refuted.
Print Assumptions C77_no_bias_refuted.
Print Assumptions C77_integral_bias_refuted.
Print Assumptions C77_refused.
