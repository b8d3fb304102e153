(** C46 (input quantization settings), C47 (clipping values), C48 (statistics clipping). *)
From Coq Require Import String List ZArith QArith Qabs Qround Qpower Bool Arith Lia Lqa Setoid Morphisms.
From Verif Require Import Base Lists StructModel QuantModel QuantSpec QuantProofs PropertiesQuant RangeModel RangeSpec RangeProofs RangeWrapProofs PropertiesRange PropertiesEma.
Import ListNotations.

(** * C46 *)
(** C46: which metadata an input gets: the one already attached to the tensor, unless there is an
    override (then it is an error to have one); otherwise an override or automatic fallback is needed. *)
Theorem C46_metadata_source :
  forall out o fb st approx t,
  match t_md t, o with
  | Some md, None => input_metadata out o fb st approx t = Ok md
  | Some _, Some _ => input_metadata out o fb st approx t = Raise RuntimeError
  | None, None => fb = false -> input_metadata out o fb st approx t = Raise RuntimeError
  | None, Some _ => True
  end /\
  (t_md t = None -> (o <> None \/ fb = true) ->
     let s := match o with Some o => override_settings out o | None => out end in
     match st with
     | Some st => input_metadata out o fb (Some st) approx t =
         do p <- params_from_stats st (s_bits s) (s_mode s) (s_clip s) (s_nstds s) (s_halfr s) approx;
         Ok (mkQmd (fst p) (snd p) (fst (mode_range (s_bits s) (s_mode s))) (snd (mode_range (s_bits s) (s_mode s))))
     | None => input_metadata out o fb None approx t =
         do p <- params_of_row (s_bits s) (s_mode s) (t_data t);
         Ok (mkQmd (approx_opt (fst p) approx) (snd p) (fst (mode_range (s_bits s) (s_mode s))) (snd (mode_range (s_bits s) (s_mode s))))
     end).
Proof.
  intros out o fb st approx t. unfold input_metadata. split.
  - destruct (t_md t), o; auto. intros ->. reflexivity.
  - intros -> H. destruct o, fb, st; cbv zeta; try reflexivity; destruct H; congruence.
Qed.

(** C46: preparing an input leaves the metadata on the caller's tensor; preparing that tensor again gives
    the same quantized values and metadata without an override, and fails with one. *)
Theorem C46_prepare_twice :
  forall out o fb st approx t t' q md, prepare_input out o fb st approx t = Ok (t', q, md) ->
  t_data t' = t_data t /\ t_md t' = Some md /\
  prepare_input out o fb st approx t' = match o with None => Ok (t', q, md) | Some _ => Raise RuntimeError end.
Proof.
  intros out o fb st approx t t' q md H. unfold prepare_input in H. inv_bind H. injection H as <- <- <-.
  split; auto. split; auto. unfold prepare_input, input_metadata. cbn [t_md t_data bind]. destruct o; reflexivity.
Qed.

(** C46: without statistics, an input with no override or an override taken from the output settings
    is represented within half a quantization step. *)
Theorem C46_dynamic_input_error :
  forall out lm o fb t t' q md, s_mode out = PM lm -> mode_ok (s_bits out) (PM lm) ->
  o = None \/ o = Some FromOutput -> t_md t = None ->
  prepare_input out o fb None None t = Ok (t', q, md) ->
  0 < q_scale md /\ length q = length (t_data t) /\
  forall i, (i < length (t_data t))%nat ->
    (exists k, nth i q 0 = Zq k /\ (q_lo md <= k <= q_hi md)%Z) /\
    Qabs (linear_dequantize (nth i q 0) (q_scale md) (q_zp md) - nth i (t_data t) 0) <= 1 / (2 * q_scale md).
Proof.
  intros out lm o fb t t' q md Hm Hok Ho Ht H. unfold prepare_input in H. inv_bind H. injection H as <- <- <-. rename x into md.
  assert (K : dynamic_input_md out o None (t_data t) = Ok md).
  { unfold input_metadata in H0. rewrite Ht in H0. destruct o, fb; try discriminate; exact H0. }
  assert (K2 : dynamic_input_md out None None (t_data t) = Ok md).
  { destruct Ho as [-> | ->]; exact K. }
  clear K H0. unfold dynamic_input_md in K2. rewrite Hm in K2. inv_bind K2. destruct x as [s z]. injection K2 as <-.
  cbn [q_scale q_zp q_lo q_hi approx_opt fst snd]. destruct (params_of_row_spec _ _ _ _ _ Hok H) as (P1 & _ & _ & P4).
  split; auto. rewrite map_length. split; auto. intros i Hi. set (r := mode_range (s_bits out) (PM lm)) in *.
  set (f := fun v => linear_quantize_clamp v s z (Zq (fst r)) (Zq (snd r))).
  rewrite nth_indep with (d' := f 0) by (rewrite map_length; auto). rewrite (map_nth f). split.
  - assert (Hle : (fst r <= snd r)%Z).
    { destruct Hok as [Hok _]. pose proof (mode_range_le (s_bits out) (PM lm) Hok). fold r in H0. lia. }
    exact (quant_Z (nth i (t_data t) 0) s z (fst r) (snd r) Hle).
  - exact (P4 (nth i (t_data t) 0) (nth_In _ 0 Hi)).
Qed.

(** Finding (C46): with a custom override the mode is stored as a pair; scale and zero point are those of
    the unsigned asymmetric mode, but the values are clamped to the signed range. *)
Theorem C46_custom_override_params :
  forall out b m c n approx x md, dynamic_input_md out (Some (Custom b m c n)) approx x = Ok md ->
  let bits := match b with Some b => b | None => s_bits out end in
  q_lo md = (- 2 ^ (bits - 1))%Z /\ q_hi md = (2 ^ (bits - 1) - 1)%Z /\
  exists p, params_of_row bits (PM ASU) x = Ok p /\ q_scale md = approx_opt (fst p) approx /\ q_zp md = snd p.
Proof.
  intros out b m c n approx x md H bits. unfold dynamic_input_md in H. cbn [override_settings s_bits s_mode] in H. fold bits in H.
  inv_bind H. injection H as <-. cbn [q_lo q_hi q_scale q_zp]. unfold mode_range, get_quantized_range. cbn [mode_is negb fst snd].
  split; [lia|]. split; [lia|]. exists x0. split; auto.
Qed.
Theorem C46_custom_override_error_refuted :
  ~ (forall out o fb t t' q md, (1 <= s_bits out)%Z -> t_md t = None ->
     prepare_input out (Some o) fb None None t = Ok (t', q, md) ->
     forall i, (i < length (t_data t))%nat ->
     Qabs (linear_dequantize (nth i q 0) (q_scale md) (q_zp md) - nth i (t_data t) 0) <= 1 / (2 * q_scale md)).
Proof.
  set (o := mkQset 8 (PM ASU) CNone None false). set (ov := Custom None (Some ASU) None None). set (t := mkTobj [0; 255] None).
  intro H. destruct (prepare_input o (Some ov) false None None t) as [[[t' q] md]|] eqn:E; [|vm_compute in E; discriminate].
  specialize (H o ov false t t' q md ltac:(cbn; lia) eq_refl E 1%nat ltac:(cbn; lia)).
  vm_compute in E. injection E as <- <- <-. vm_compute in H. contradiction H. reflexivity.
Qed.

(** * C47 *)
(** C47: setting the output clipping to a range in symmetric mode or a range containing 0: reading
    it back in the unsigned asymmetric mode gives the range moved by at most half a step at each end. *)
Theorem C47_asymmetric_roundtrip :
  forall bits half a b s z, (1 <= bits)%Z -> a <= 0 -> 0 <= b -> a < b ->
  set_output_clipping bits (PM ASU) half (CPair a b) = Ok (s, z) ->
  let r := get_clipping_values s z bits (PM ASU) in
  0 < s /\ Qabs (fst r - a) <= 1 / (2 * s) /\ Qabs (snd r - b) <= 1 / (2 * s) /\ snd r - fst r == b - a.
Proof.
  intros bits half a b s z Hb Ha Hbb Hab H r. unfold set_output_clipping in H. cbn [check_clipping_val bind fst snd] in H.
  unfold params_from_range in H. cbn [is_sym mode_is lqmode_eqb orb] in H. unfold asym_params in H. cbn [combine existsb fst snd map2] in H.
  destruct (Qltb b a || false); [discriminate|]. cbn [bind first_param] in H.
  pose proof (asym1_eq bits false a b Hb) as HA. cbv zeta in HA.
  destruct HA as (s' & z' & k & Ea & Hs & Hz & Hk & Hl & Hh & Hdeg & Hnd). rewrite Ea in H. injection H as <- <-.
  assert (E1 : qmin a 0 == a) by (destruct (qmin_spec a 0) as [[? ->]|[? ->]]; lra).
  assert (E2 : qmax b 0 == b) by (destruct (qmax_spec b 0) as [[? ->]|[? ->]]; lra).
  assert (Hne : ~ qmax b 0 == qmin a 0) by lra. specialize (Hnd Hne). rewrite Z.add_0_r in Hz.
  pose proof (rhe_err (s' * qmin a 0)) as K. rewrite <- Hk in K.
  assert (Es : s' * qmin a 0 == s' * a) by (rewrite E1; reflexivity). rewrite Es in K.
  assert (En : s' * (b - a) == Zq (2 ^ bits - 1)) by (rewrite <- Hnd, E1, E2; reflexivity). clear Hnd Hdeg Ea Hk.
  unfold r, get_clipping_values. cbn [is_sym mode_is lqmode_eqb orb fst snd]. unfold linear_dequantize. change (Zq 0) with 0.
  split; auto. assert (E3 : 1 / (2 * s') == (1#2) / s') by (field; lra). rewrite E3.
  assert (F1 : (0 + z') / s' - a == (Zq k - s' * a) / s') by (rewrite Hz; field; lra).
  assert (F2 : (Zq (2 ^ bits - 1) + z') / s' - b == (Zq k - s' * a) / s') by (rewrite <- En, Hz; field; lra).
  split; [rewrite F1, Qabs_div_pos by auto; apply Qdiv_le_compat; auto|].
  split; [rewrite F2, Qabs_div_pos by auto; apply Qdiv_le_compat; auto|]. lra.
Qed.

(** C47: symmetric modes, restricted range: an exact round trip at the top, one step lower at the bottom. *)
Theorem C47_symmetric_restricted_roundtrip :
  forall bits half v s z, (2 <= bits)%Z -> 0 < v -> set_output_clipping bits (PM SYMR) half (CScalar v) = Ok (s, z) ->
  let r := get_clipping_values s z bits (PM SYMR) in
  0 < s /\ z == 0 /\ snd r == v /\ fst r == - v - 1 / s.
Proof.
  intros bits half v s z Hb Hv H r. unfold set_output_clipping in H. cbn [check_clipping_val is_sym mode_is lqmode_eqb orb bind fst snd] in H.
  unfold params_from_range in H. cbn [is_sym mode_is lqmode_eqb orb] in H. unfold sym_params in H. cbn [existsb map] in H.
  destruct (Qltb _ 0 || false); [discriminate|]. cbn [bind first_param] in H.
  set (sat := qmax (Qabs (- v)) (Qabs v)) in *.
  assert (Hx : sym1 bits true sat = (s, z)) by exact (f_equal (fun r => match r with Ok p => p | _ => (0, 0) end) H).
  assert (Hs : sym_n bits true / (if Qeq_bool sat 0 then sym_n bits true else sat) = s) by exact (f_equal fst Hx).
  assert (Hz : 0 = z) by exact (f_equal snd Hx). clear H Hx.
  assert (Es : sat == v).
  { unfold sat. pose proof (Qabs_opp v) as K1. pose proof (Qabs_pos v ltac:(lra)) as K2.
    destruct (qmax_spec (Qabs (- v)) (Qabs v)) as [[_ ->]|[_ ->]]; lra. }
  assert (E0 : Qeq_bool sat 0 = false) by (apply not_true_is_false; intro K; apply Qeq_bool_iff in K; lra). rewrite E0 in Hs.
  unfold sym_n in Hs. pose proof (pow2_ge2 (bits - 1) ltac:(lia)) as Hp.
  assert (Hn : 0 < Zq (2 ^ (bits - 1) - 1)) by (apply Zq_pos; lia).
  assert (Hs' : s == Zq (2 ^ (bits - 1) - 1) / v) by (rewrite <- Hs, Es; reflexivity).
  assert (Hsp : 0 < s) by (rewrite Hs'; apply Qlt_shift_div_l; lra).
  unfold r, get_clipping_values. cbn [is_sym mode_is lqmode_eqb orb fst snd]. unfold linear_dequantize. rewrite <- Hz.
  split; auto. split; [reflexivity|].
  assert (Ev : s * v == Zq (2 ^ (bits - 1) - 1)) by (rewrite Hs'; field; lra).
  assert (Em : Zq (- 2 ^ (bits - 1)) == - (Zq (2 ^ (bits - 1) - 1)) - 1).
  { rewrite Zq_minus. unfold Zq. rewrite inject_Z_opp. change (inject_Z 1) with 1. ring. }
  split; [rewrite <- Ev; field; lra|]. rewrite Em, <- Ev. field. lra.
Qed.

(** Finding (C47): in the signed asymmetric mode the clipping values read back are those of the unsigned
    range: off by half the range. *)
Theorem C47_signed_asymmetric_getter_refuted :
  ~ (forall bits a b s z, (1 <= bits)%Z -> a < 0 -> 0 < b -> set_output_clipping bits (PM ASS) false (CPair a b) = Ok (s, z) ->
     let r := get_clipping_values s z bits (PM ASS) in Qabs (fst r - a) <= (b - a) / 4).
Proof.
  intro H. specialize (H 8%Z (-128) 127). destruct (set_output_clipping 8 (PM ASS) false (CPair (-128) 127)) as [[s z]|] eqn:E; [|vm_compute in E; discriminate].
  specialize (H s z ltac:(lia) ltac:(lra) ltac:(lra) eq_refl). vm_compute in E. injection E as <- <-. vm_compute in H. contradiction H. reflexivity.
Qed.

(** Finding (C47): the weight-clipping setter in symmetric modes uses the absolute value of the larger
    bound, so for a range whose negative side is longer the scale clips the negative side. *)
Theorem C47_weight_clipping_refuted :
  ~ (forall bits m a b s z, (2 <= bits)%Z -> is_sym m = true -> a <= b -> set_weight_clipping bits m (CPair a b) = Ok (s, z) ->
     let lo := fst (mode_range bits m) in Zq lo - (1#2) <= s * a).
Proof.
  intro H. specialize (H 8%Z (PM SYM) (-4) 1). destruct (set_weight_clipping 8 (PM SYM) (CPair (-4) 1)) as [[s z]|] eqn:E; [|vm_compute in E; discriminate].
  specialize (H s z ltac:(lia) eq_refl ltac:(lra) eq_refl). vm_compute in E. injection E as <- <-. vm_compute in H. contradiction H. reflexivity.
Qed.
(** ... and ignores the restricted range. *)
Theorem C47_weight_clipping_ignores_restriction :
  forall bits v, set_weight_clipping bits (PM SYMR) v = set_weight_clipping bits (PM SYM) v.
Proof. intros bits v. destruct v; reflexivity. Qed.

(** C47: a scalar is refused for an asymmetric mode unless the output is known to be non-negative. *)
Theorem C47_scalar_clipping :
  forall bits m half v, is_sym m = false ->
  (half = false -> set_output_clipping bits m half (CScalar v) = Raise ValueError) /\
  (half = true -> set_output_clipping bits m half (CScalar v) = set_output_clipping bits m half (CPair 0 v)) /\
  set_weight_clipping bits m (CScalar v) = Raise ValueError.
Proof. intros bits m half v E. unfold set_output_clipping, set_weight_clipping, check_clipping_val. rewrite E. repeat split; intros ->; reflexivity. Qed.

(** * C48 *)
(** C48: clipping recorded statistics to [lo, hi] clips the minimum and the maximum. *)
Theorem C48_clip_min_max :
  forall s lo hi, lo <= hi -> st_min s <= st_max s ->
  is_clamp (st_min s) lo hi (st_min (clip_stats s lo hi)) /\ is_clamp (st_max s) lo hi (st_max (clip_stats s lo hi)) /\
  st_min (clip_stats s lo hi) <= st_max (clip_stats s lo hi) /\
  st_mean (clip_stats s lo hi) = st_mean s /\ st_std (clip_stats s lo hi) = st_std s /\ st_b (clip_stats s lo hi) = st_b s.
Proof.
  intros s lo hi Hlh Hs. unfold clip_stats.
  destruct (Qltb (st_max s) lo) eqn:E1; [apply Qltb_lt in E1|apply Qltb_ge in E1].
  - cbn [st_min st_max st_mean st_std st_b]. unfold is_clamp. repeat split; intros; lra.
  - destruct (Qltb hi (st_min s)) eqn:E2; [apply Qltb_lt in E2|apply Qltb_ge in E2]; cbn [st_min st_max st_mean st_std st_b].
    + unfold is_clamp. repeat split; intros; lra.
    + unfold is_clamp. destruct (qmax_spec lo (st_min s)) as [[? ->]|[? ->]], (qmin_spec hi (st_max s)) as [[? ->]|[? ->]]; repeat split; intros; lra.
Qed.

(** C48: the averaged bounds are clipped only on their own side: if they overlap [lo, hi] the result is
    still ordered and inside. *)
Theorem C48_clip_averages :
  forall s lo hi, lo <= hi -> st_avg_min s <= st_avg_max s -> st_avg_min s <= hi -> lo <= st_avg_max s ->
  let t := clip_stats s lo hi in lo <= st_avg_min t /\ st_avg_min t <= st_avg_max t /\ st_avg_max t <= hi.
Proof.
  intros s lo hi Hlh H1 H2 H3. unfold clip_stats.
  destruct (Qltb (st_max s) lo); [cbn [st_avg_min st_avg_max]; lra|]. destruct (Qltb hi (st_min s)); cbn [st_avg_min st_avg_max]; [lra|].
  destruct (qmax_spec lo (st_avg_min s)) as [[? ->]|[? ->]], (qmin_spec hi (st_avg_max s)) as [[? ->]|[? ->]]; lra.
Qed.

(** Finding (C48): otherwise the averaged range can become inverted, and asking for average-clipped
    quantization parameters then fails. *)
Theorem C48_inverted_average_refuted :
  ~ (forall s lo hi bits, (1 <= bits)%Z -> lo <= hi -> st_min s <= st_avg_min s -> st_avg_min s <= st_avg_max s -> st_avg_max s <= st_max s ->
     exists p, params_from_stats (clip_stats s lo hi) bits (PM ASU) CAvg None false None = Ok p).
Proof.
  intro H. destruct (H (mkStats (-3) 1 (-3) (-2) 0 1 1) 0 6 8%Z) as (p & E); try (cbn; lra); try lia. vm_compute in E. discriminate.
Qed.

Example C46_example : exists t' q md,
  prepare_input (mkQset 8 (PM SYM) CNone None false) None true None None (mkTobj [1; -2; 4#3] None) = Ok (t', q, md) /\
  prepare_input (mkQset 8 (PM SYM) CNone None false) (Some FromOutput) true None None t' = Raise RuntimeError.
Proof. do 3 eexists. split; [vm_compute; reflexivity|vm_compute; reflexivity]. Qed.
Example C47_example : exists s z, set_output_clipping 8 (PM ASU) false (CPair (-1) (3#2)) = Ok (s, z) /\ s == 102 /\ z == -102.
Proof. do 2 eexists. split; [vm_compute; reflexivity|vm_compute; auto]. Qed.
Example C47_restricted_example : exists s z, set_output_clipping 8 (PM SYMR) false (CScalar 2) = Ok (s, z) /\ s == (127#2).
Proof. do 2 eexists. split; [vm_compute; reflexivity|vm_compute; auto]. Qed.
Example C48_example : let t := clip_stats (mkStats (-3) 9 (-1) 4 1 1 1) 0 6 in st_min t == 0 /\ st_max t == 6 /\ st_avg_min t == 0 /\ st_avg_max t == 4.
Proof. vm_compute. auto. Qed.
Print Assumptions C46_metadata_source.
Print Assumptions C46_prepare_twice.
Print Assumptions C46_dynamic_input_error.
Print Assumptions C46_custom_override_params.
Print Assumptions C46_custom_override_error_refuted.
Print Assumptions C47_asymmetric_roundtrip.
Print Assumptions C47_symmetric_restricted_roundtrip.
Print Assumptions C47_signed_asymmetric_getter_refuted.
Print Assumptions C47_weight_clipping_refuted.
Print Assumptions C47_weight_clipping_ignores_restriction.
Print Assumptions C47_scalar_clipping.
Print Assumptions C48_clip_min_max.
Print Assumptions C48_clip_averages.
Print Assumptions C48_inverted_average_refuted.
