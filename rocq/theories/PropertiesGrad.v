(** C102: gradients of quantized training. *)
From Coq Require Import String List Reals ZArith Arith Bool Lia Lra Psatz.
From Verif Require Import Base GradModel GradSpec GradProofs GradProofs2.
Import ListNotations.
Open Scope R_scope.

Lemma nth_In0 (x : list R) i : (i < length x)%nat -> In (nth i x 0) x.
Proof. apply nth_In. Qed.

Lemma asym_params_0 bits c p : asym_params bits 0 c = Ok p ->
  0 <= c /\ p = ((2 ^ bits - 1) / (if Req_EM_T c 0 then 2 ^ bits - 1 else c), 0).
Proof.
  unfold asym_params. destruct (Rlt_dec c 0); [discriminate|]. intros E. injection E as <-.
  assert (0 <= c) by lra. split; auto.
  rewrite Rmin_left, Rmax_left by lra. rewrite Rminus_0_r, Rmult_0_r, rnd_0. reflexivity.
Qed.

(* ------------------------------------------------------------------------- *)
(** ** Activations: WRPN and DoReFa (fixed clipping value) *)

(** The gradient is the one of clipping to [0, clip_val], for every input without an element exactly on
    a boundary. *)
Theorem C102_clipped_activation bits clip_val deq x g t :
  clipped_linear bits clip_val deq (leaf x) = Ok t -> length g = length x ->
  (forall v, In v x -> v <> 0 /\ v <> clip_val) ->
  is_gradient (map (clip 0 clip_val)) x g (fst (back t g)).
Proof.
  unfold clipped_linear. intros H Lg Hk.
  destruct (asym_params bits 0 clip_val) as [p|] eqn:E; [|discriminate]. cbn [bind] in H. injection H as <-.
  apply asym_params_0 in E as [Hc _]. cbn.
  apply (gradient_map (clip 0 clip_val) (fun a => if Rle_dec 0 a then if Rle_dec a clip_val then 1 else 0 else 0)); auto.
  intros i Hi. destruct (Hk _ (nth_In0 x i Hi)). apply clip_d; auto.
Qed.

(** On a boundary it is passed through. *)
Theorem C102_clipped_activation_elements bits clip_val deq x g t i :
  clipped_linear bits clip_val deq (leaf x) = Ok t -> length g = length x -> (i < length x)%nat ->
  (0 <= nth i x 0 <= clip_val -> nth i (fst (back t g)) 0 = nth i g 0) /\
  (~ (0 <= nth i x 0 <= clip_val) -> nth i (fst (back t g)) 0 = 0).
Proof.
  unfold clipped_linear. intros H Lg Hi.
  destruct (asym_params bits 0 clip_val) as [p|] eqn:E; [|discriminate]. cbn [bind] in H. injection H as <-.
  cbn. rewrite (map2_nth _ x g i 0 0 0) by lia.
  destruct (Rle_dec 0 (nth i x 0)); [destruct (Rle_dec (nth i x 0) clip_val)|]; split; intros; try lra.
Qed.

(* ------------------------------------------------------------------------- *)
(** ** Activations: PACT (learned clipping value) *)

Lemma learned_back bits c deq x g t :
  learned_clipped_linear bits (leaf_scalar (length x) c) deq (leaf x) = Ok t -> length g = length x ->
  length (fst (back t g)) = length x /\
  (forall i, (i < length x)%nat -> nth i (fst (back t g)) 0 =
     if Rlt_dec (Rmax (nth i x 0) 0) c then if Rlt_dec 0 (nth i x 0) then nth i g 0 else 0 else 0) /\
  snd (back t g) = total (map2 (fun v gv => if Rlt_dec (Rmax v 0) c then 0 else gv) x g).
Proof.
  unfold learned_clipped_linear. intros H Lg.
  destruct (asym_params bits 0 _) as [p|] eqn:E; [|discriminate]. cbn [bind] in H. injection H as <-.
  cbn. unfold gadd. cbn.
  assert (Lm : length (map2 (fun v gx => if Rlt_dec v c then gx else 0) (map (fun v => Rmax v 0) x) g) = length x).
  { rewrite map2_length, map_length. lia. }
  split; [|split].
  - rewrite !map2_length, map_length, repeat_length. lia.
  - intros i Hi.
    rewrite (map2_nth _ _ _ i 0 0 0) by (rewrite ?map2_length, ?map_length, ?repeat_length; lia).
    rewrite (map2_nth _ _ _ i 0 0 0) by (rewrite ?map2_length, ?map_length; lia).
    rewrite (map2_nth _ _ _ i 0 0 0) by (rewrite ?map_length; lia).
    rewrite nth_repeat. rewrite nth_map0 by auto.
    destruct (Rlt_dec (Rmax (nth i x 0) 0) c); destruct (Rlt_dec 0 (nth i x 0)); lra.
  - rewrite Rplus_0_l. f_equal. clear E Lm. revert g Lg. induction x; destruct g; simpl; intros; auto; try lia.
    f_equal. apply IHx. lia.
Qed.

Lemma sum_clip_d c x g : 0 < c -> length g = length x -> (forall v, In v x -> v <> c) ->
  derivable_pt_lim (fun c' => dot g (map (clip 0 c') x)) c
    (total (map2 (fun v gv => if Rlt_dec (Rmax v 0) c then 0 else gv) x g)).
Proof.
  intros Hc. revert g; induction x as [|v x IH]; intros g Lg Hk; destruct g as [|gv g]; simpl in Lg; try lia.
  - simpl. apply (dlim_ext _ (fct_cte 0)); [reflexivity|]. apply derivable_pt_lim_const.
  - cbn [map2 map total fold_right].
    assert (P : derivable_pt_lim (fun c' => gv * clip 0 c' v + 0) c (gv * (if Rlt_dec (Rmax v 0) c then 0 else 1))).
    { apply (dlim_comp_affine (fun c' => clip 0 c' v)).
      assert (Hv : v <> c) by (apply Hk; left; auto).
      destruct (Rlt_dec (Rmax v 0) c) as [l|l].
      - eapply dlim_loc; [|apply (dlim_affine 0 (Rmax v 0))].
        exists (c - Rmax v 0). split; [lra|]. intros t Ht. apply Rabs_def2 in Ht.
        unfold clip, Rmax in *. destruct (Rle_dec v 0); [lra|]. destruct (Rle_dec t v); lra.
      - eapply dlim_loc; [|apply (dlim_affine 1 0)].
        assert (c < v). { unfold Rmax in l. destruct (Rle_dec v 0); lra. }
        exists (v - c). split; [lra|]. intros t Ht. apply Rabs_def2 in Ht.
        unfold clip. destruct (Rle_dec v 0); [lra|]. destruct (Rle_dec t v); lra. }
    assert (P2 := derivable_pt_lim_plus _ _ _ _ _ P (IH g ltac:(lia) (fun w Hw => Hk w (or_intror Hw)))).
    replace ((if Rlt_dec (Rmax v 0) c then 0 else gv) + fold_right Rplus 0
       (map2 (fun v0 gv0 => if Rlt_dec (Rmax v0 0) c then 0 else gv0) x g))
      with (gv * (if Rlt_dec (Rmax v 0) c then 0 else 1) +
            total (map2 (fun v0 gv0 => if Rlt_dec (Rmax v0 0) c then 0 else gv0) x g)).
    + eapply dlim_ext; [|exact P2]. intros t'. unfold plus_fct. simpl. lra.
    + unfold total. destruct (Rlt_dec (Rmax v 0) c); lra.
Qed.

(** For every positive clipping value, input and incoming gradient off the boundaries: the gradient of
    the input and the gradient of clip_val are both the ones of clipping to [0, clip_val]. *)
Theorem C102_learned_clip bits c deq x g t :
  learned_clipped_linear bits (leaf_scalar (length x) c) deq (leaf x) = Ok t -> length g = length x ->
  0 < c -> (forall v, In v x -> v <> 0 /\ v <> c) ->
  is_gradient (map (clip 0 c)) x g (fst (back t g)) /\
  derivable_pt_lim (fun c' => dot g (map (clip 0 c') x)) c (snd (back t g)).
Proof.
  intros H Lg Hc Hk. destruct (learned_back _ _ _ _ _ _ H Lg) as [B1 [B2 B3]]. split.
  - split; auto. intros i Hi. rewrite B2 by auto.
    destruct (Hk _ (nth_In0 x i Hi)) as [K1 K2].
    destruct (gradient_map (clip 0 c) (fun a => if Rle_dec 0 a then if Rle_dec a c then 1 else 0 else 0) x g Lg) as [_ G].
    { intros j Hj. destruct (Hk _ (nth_In0 x j Hj)). apply clip_d; auto; lra. }
    specialize (G i Hi). rewrite (map2_nth _ x g i 0 0 0) in G by lia.
    match goal with |- derivable_pt_lim _ _ ?r => match type of G with derivable_pt_lim _ _ ?r' => replace r with r'; [exact G|] end end.
    unfold Rmax. destruct (Rle_dec (nth i x 0) 0); destruct (Rle_dec 0 (nth i x 0)); try lra;
      destruct (Rlt_dec 0 (nth i x 0)); try lra;
      try (destruct (Rlt_dec 0 c); lra);
      destruct (Rle_dec (nth i x 0) c); destruct (Rlt_dec (nth i x 0) c); lra.
  - rewrite B3. apply sum_clip_d; auto. intros v Hv. apply (Hk v Hv).
Qed.

(** Element by element, boundaries included: only elements strictly inside pass their gradient on, and
    the elements at or above clip_val give theirs to clip_val. *)
Theorem C102_learned_clip_elements bits c deq x g t :
  learned_clipped_linear bits (leaf_scalar (length x) c) deq (leaf x) = Ok t -> length g = length x -> 0 < c ->
  (forall i, (i < length x)%nat ->
     (0 < nth i x 0 < c -> nth i (fst (back t g)) 0 = nth i g 0) /\
     (~ (0 < nth i x 0 < c) -> nth i (fst (back t g)) 0 = 0)) /\
  snd (back t g) = dot g (map (fun v => if Rle_dec c v then 1 else 0) x).
Proof.
  intros H Lg Hc. destruct (learned_back _ _ _ _ _ _ H Lg) as [B1 [B2 B3]]. split.
  - intros i Hi. rewrite B2 by auto. unfold Rmax.
    destruct (Rle_dec (nth i x 0) 0); destruct (Rlt_dec 0 (nth i x 0)); try lra.
    + destruct (Rlt_dec 0 c); split; intros; lra.
    + destruct (Rlt_dec (nth i x 0) c); split; intros; lra.
  - rewrite B3. clear B1 B2 B3 H. revert g Lg.
    induction x as [|v x IH]; destruct g as [|gv g]; simpl; intros; auto; try lia.
    unfold total in *. rewrite IH by lia. unfold Rmax.
    destruct (Rle_dec v 0); destruct (Rle_dec c v); try lra.
    + destruct (Rlt_dec 0 c); lra.
    + destruct (Rlt_dec v c); lra.
    + destruct (Rlt_dec v c); lra.
Qed.

(** A clipping value of exactly 0: the output is 0, nothing reaches the input, and clip_val receives
    the gradient of every element, negative inputs included; below 0 the forward pass raises. *)
Theorem C102_learned_clip_degenerate bits deq x g c : length g = length x ->
  (c = 0 -> exists t, learned_clipped_linear bits (leaf_scalar (length x) c) deq (leaf x) = Ok t /\
     (forall i, nth i (fst (back t g)) 0 = 0) /\ snd (back t g) = dot g (map (fun _ => 1) x)) /\
  (c < 0 -> learned_clipped_linear bits (leaf_scalar (length x) c) deq (leaf x) = Raise ValueError).
Proof.
  intros Lg. split; intros Hc.
  - subst c.
    destruct (learned_clipped_linear bits (leaf_scalar (length x) 0) deq (leaf x)) as [t|] eqn:E.
    + exists t. split; auto. destruct (learned_back _ _ _ _ _ _ E Lg) as [B1 [B2 B3]]. split.
      * intros i. destruct (Nat.lt_ge_cases i (length x)) as [Hi|Hi].
        -- rewrite B2 by auto. destruct (Rlt_dec (Rmax (nth i x 0) 0) 0); auto.
           exfalso. pose proof (Rmax_r (nth i x 0) 0). lra.
        -- apply nth_overflow. lia.
      * rewrite B3. clear - Lg. revert g Lg. induction x; destruct g; simpl; intros; auto; try lia.
        unfold total in *. rewrite IHx by lia.
        destruct (Rlt_dec (Rmax a 0) 0); [pose proof (Rmax_r a 0); lra|]. lra.
    + exfalso. unfold learned_clipped_linear, asym_params in E. cbn in E.
      destruct (Rlt_dec 0 0); [lra|discriminate].
  - unfold learned_clipped_linear, asym_params. cbn. destruct (Rlt_dec c 0); [reflexivity|lra].
Qed.

(* ------------------------------------------------------------------------- *)
(** ** Weights *)

Lemma sym_scale_1 bits s : sym_scale bits 1 = Ok s -> s = (2 ^ bits - 1) / 2.
Proof.
  unfold sym_scale. destruct (Rlt_dec 1 0); [lra|]. destruct (Req_EM_T 1 0); [lra|].
  intros E. injection E as <-. lra.
Qed.

(** WRPN: the float weights receive the gradient of clipping to [-1, 1] *)
Theorem C102_wrpn_weights bits w g :
  length g = length w -> (forall v, In v w -> v <> -1 /\ v <> 1) ->
  exists t, wrpn_quantize_param bits (leaf w) = Ok t /\ is_gradient (map (clip (-1) 1)) w g (fst (back t g)).
Proof.
  intros Lg Hk. unfold wrpn_quantize_param, sym_scale.
  destruct (Rlt_dec 1 0); [lra|]. cbn [bind]. eexists. split; [reflexivity|]. cbn.
  apply (gradient_map (clip (-1) 1) (fun a => if Rle_dec (-1) a then if Rle_dec a 1 then 1 else 0 else 0)); auto.
  intros i Hi. destruct (Hk _ (nth_In0 w i Hi)). apply clip_d; auto; lra.
Qed.

Lemma T0 k : forall y g, length y = length g ->
  total (map2 (fun x gx => - gx * x / (k * k)) y (map (fun gx => gx * 1 * 2 * 1) g)) = - (2 * dot g y / (k * k)).
Proof.
  induction y; destruct g; simpl; intros; try lia; try (unfold Rdiv; lra).
  unfold total in *. rewrite IHy by lia. unfold Rdiv. lra.
Qed.

(** DoReFa and PACT, more than one bit: the float weights receive the gradient of
    tanh(w) / max |tanh(w)|, the dependence of the maximum on the weights included.  The weight of
    largest magnitude is assumed unique and not 0. *)
Theorem C102_dorefa_weights bits w g m : (bits <> 1)%nat ->
  length g = length w -> (m < length w)%nat -> nth m w 0 <> 0 ->
  (forall k, (k < length w)%nat -> k <> m -> Rabs (nth k w 0) < Rabs (nth m w 0)) ->
  exists t, dorefa_quantize_param bits (leaf w) = Ok t /\ is_gradient dorefa w g (fst (back t g)).
Proof.
  intros Hb Lg Hm Hnz Hu. unfold dorefa_quantize_param.
  destruct (Nat.eqb_spec bits 1) as [?|_]; [contradiction|].
  destruct (asym_params bits 0 1) as [p|] eqn:Ep.
  2: { exfalso. unfold asym_params in Ep. destruct (Rlt_dec 1 0); [lra|discriminate]. }
  cbn [bind].
  set (y := map tanh w).
  pose proof (M_pos w m Hm Hnz) as MP. fold y in MP.
  set (M := Rabs (nth m y 0)) in *.
  assert (Ey : length y = length w) by apply y_len.
  assert (Ha : exists a0 ar, val (tabs (ttanh (leaf w))) = a0 :: ar /\ maximum a0 ar = M /\ a0 :: ar = map Rabs y).
  { cbn. fold y. destruct (map Rabs y) as [|a0 ar] eqn:Ea.
    - apply (f_equal (@length R)) in Ea. rewrite map_length in Ea. simpl in Ea. lia.
    - exists a0, ar. split; auto. split; auto.
      assert (La : length (a0 :: ar) = length w) by (rewrite <- Ea, map_length; auto).
      rewrite (maximum_at a0 ar m).
      + rewrite <- Ea. rewrite nth_map0 by lia. reflexivity.
      + lia.
      + intros k Hk. rewrite <- Ea. rewrite !nth_map0 by lia.
        apply (y_le w m Hm Hu). lia. }
  destruct Ha as [a0 [ar [Ha [Hmax Hay]]]].
  unfold tmax. rewrite Ha. cbn [bind]. rewrite Hmax, Hay.
  eexists. split; [reflexivity|].
  assert (Lt : forall l1 l2 : list R, length l1 = length l2 -> forall d, map2 (fun x gx : R => gx * d) l1 l2 = map (fun gx => gx * d) l2).
  { induction l1; destruct l2; simpl; intros; auto; try lia. f_equal. apply IHl1. lia. }
  cbn -[first_hit total map2 map gadd]. fold y.
  repeat rewrite Lt by (rewrite ?map2_length, ?map_length; lia).
  rewrite !map_map. unfold gadd. cbn [fst].
  split.
  - rewrite !map2_length, ?first_hit_length, ?map2_length, ?map_length. lia.
  - intros i Hi.
    match goal with |- derivable_pt_lim _ _ ?r => replace r with (dorefa_grad w g m i) end.
    { apply dorefa_derivative; auto. }
    rewrite (map2_nth _ _ _ i 0 0 0) by (rewrite ?map2_length, ?first_hit_length, ?map2_length, ?map_length; lia).
    rewrite (map2_nth _ w _ i 0 0 0) by (rewrite ?map_length; lia).
    rewrite (map2_nth _ w _ i 0 0 0) by (rewrite ?map2_length, ?first_hit_length, ?map_length; lia).
    rewrite (map2_nth _ y _ i 0 0 0) by (rewrite ?first_hit_length, ?map_length; lia).
    rewrite (first_hit_at M _ (map Rabs y) m).
    2: rewrite map_length; lia.
    2: rewrite nth_map0 by lia; reflexivity.
    2: { intros k Hk Hne. rewrite map_length in Hk. rewrite nth_map0 by lia.
         pose proof (y_lt w m Hm Hu k ltac:(lia) Hne). fold y in H. fold M in H. lra. }
    2: rewrite map_length; lia.
    rewrite nth_map0 by lia.
    unfold dorefa_grad. fold y. fold M.
    rewrite <- (y_nth w i Hi). fold y.
    assert (T : forall k, total (map2 (fun x gx => - gx * x / (k * k)) y (map (fun gx => gx * 1 * 2 * 1) g)) = - (2 * dot g y / (k * k))).
    { intros k. apply T0. lia. }
    rewrite T.
    destruct (Nat.eqb_spec i m) as [->|].
    + field. lra.
    + field. lra.
Qed.

(** 1 bit: the weights become plus or minus their mean magnitude (0 counts as positive), and the gradient
    of the binarized weights is handed to the float weights unchanged, whatever the weights *)
Theorem C102_binary_weights w g : exists t,
  dorefa_quantize_param 1 (leaf w) = Ok t /\ fst (back t g) = g /\ length (val t) = length w /\
  forall i, (i < length w)%nat ->
    (0 <= nth i w 0 -> nth i (val t) 0 = fold_right Rplus 0 (map Rabs w) / INR (length w)) /\
    (nth i w 0 < 0 -> nth i (val t) 0 = - (fold_right Rplus 0 (map Rabs w) / INR (length w))).
Proof.
  eexists. split; [reflexivity|]. split; [reflexivity|]. cbn. rewrite map_length. split; auto.
  intros i Hi. rewrite nth_map0 by auto. unfold rsign, total.
  destruct (Req_EM_T (nth i w 0) 0); destruct (Rlt_dec 0 (nth i w 0)); destruct (Rlt_dec (nth i w 0) 0);
    split; intros; lra.
Qed.

(* ------------------------------------------------------------------------- *)
(** ** The gradients are straight-through: the function they belong to is within half a
    quantization step of what the forward pass returned *)

Lemma quant_dequant_close s x : 0 < s -> Rabs (linear_dequantize s 0 (linear_quantize s 0 x) - x) <= / (2 * s).
Proof.
  intros Hs. unfold linear_dequantize, linear_quantize.
  pose proof (rnd_close (s * x - 0)) as H. rewrite Rminus_0_r in *.
  replace ((rnd (s * x) + 0) / s - x) with ((rnd (s * x) - s * x) * / s) by (field; lra).
  rewrite Rabs_mult. rewrite (Rabs_right (/ s)).
  2: { apply Rle_ge. left. apply Rinv_0_lt_compat; auto. }
  replace (/ (2 * s)) with (1 / 2 * / s) by (field; lra).
  apply Rmult_le_compat_r; auto. left. apply Rinv_0_lt_compat; auto.
Qed.

Lemma pow2_gt bits : (0 < bits)%nat -> 1 <= 2 ^ bits - 1.
Proof.
  intros. destruct bits; [lia|]. simpl. pose proof (pow_R1_Rle 2 bits). lra.
Qed.

Theorem C102_clipped_activation_forward bits c x : (0 < bits)%nat -> 0 < c ->
  exists t, clipped_linear bits c true (leaf x) = Ok t /\ length (val t) = length x /\
  forall i, (i < length x)%nat -> Rabs (nth i (val t) 0 - clip 0 c (nth i x 0)) <= c / (2 * (2 ^ bits - 1)).
Proof.
  intros Hb Hc. unfold clipped_linear.
  destruct (asym_params bits 0 c) as [p|] eqn:E.
  2: { exfalso. unfold asym_params in E. destruct (Rlt_dec c 0); [lra|discriminate]. }
  apply asym_params_0 in E as [_ ->]. cbn [bind fst snd]. eexists. split; [reflexivity|]. cbn.
  rewrite !map_length. split; auto. intros i Hi.
  rewrite map_map, nth_map0 by auto. rewrite clamp_clip by lra.
  destruct (Req_EM_T c 0); [lra|]. pose proof (pow2_gt bits Hb).
  assert (0 < (2 ^ bits - 1) / c) by (apply Rdiv_lt_0_compat; lra).
  eapply Rle_trans; [apply quant_dequant_close; auto|].
  right. field. split; lra.
Qed.

Theorem C102_learned_clip_forward bits c x : (0 < bits)%nat -> 0 < c ->
  exists t, learned_clipped_linear bits (leaf_scalar (length x) c) true (leaf x) = Ok t /\ length (val t) = length x /\
  forall i, (i < length x)%nat -> Rabs (nth i (val t) 0 - clip 0 c (nth i x 0)) <= c / (2 * (2 ^ bits - 1)).
Proof.
  intros Hb Hc. unfold learned_clipped_linear. cbn [sval leaf_scalar].
  destruct (asym_params bits 0 c) as [p|] eqn:E.
  2: { exfalso. unfold asym_params in E. destruct (Rlt_dec c 0); [lra|discriminate]. }
  apply asym_params_0 in E as [_ ->]. cbn [bind fst snd]. eexists. split; [reflexivity|]. cbn.
  rewrite !map_length. split; auto. intros i Hi.
  rewrite !map_map, nth_map0 by auto.
  replace (if Rlt_dec (Rmax (nth i x 0) 0) c then Rmax (nth i x 0) 0 else c) with (clip 0 c (nth i x 0)).
  2: { unfold clip, Rmax. destruct (Rle_dec (nth i x 0) 0); [destruct (Rlt_dec 0 c); lra|].
       destruct (Rle_dec c (nth i x 0)); destruct (Rlt_dec (nth i x 0) c); lra. }
  destruct (Req_EM_T c 0); [lra|]. pose proof (pow2_gt bits Hb).
  assert (0 < (2 ^ bits - 1) / c) by (apply Rdiv_lt_0_compat; lra).
  eapply Rle_trans; [apply quant_dequant_close; auto|].
  right. field. split; lra.
Qed.

Theorem C102_wrpn_weights_forward bits w : (0 < bits)%nat ->
  exists t, wrpn_quantize_param bits (leaf w) = Ok t /\ length (val t) = length w /\
  forall i, (i < length w)%nat -> Rabs (nth i (val t) 0 - clip (-1) 1 (nth i w 0)) <= 1 / (2 ^ bits - 1).
Proof.
  intros Hb. unfold wrpn_quantize_param.
  destruct (sym_scale bits 1) as [s|] eqn:E.
  2: { exfalso. unfold sym_scale in E. destruct (Rlt_dec 1 0); [lra|discriminate]. }
  apply sym_scale_1 in E. subst s. cbn [bind]. eexists. split; [reflexivity|]. cbn.
  rewrite !map_length. split; auto. intros i Hi.
  rewrite map_map, nth_map0 by auto. rewrite clamp_clip by lra. pose proof (pow2_gt bits Hb).
  eapply Rle_trans; [apply quant_dequant_close; lra|].
  right. field. lra.
Qed.

Theorem C102_dorefa_weights_forward bits w m : (1 < bits)%nat -> (m < length w)%nat -> nth m w 0 <> 0 ->
  exists t, dorefa_quantize_param bits (leaf w) = Ok t /\ length (val t) = length w /\
  forall i, (i < length w)%nat -> Rabs (nth i (val t) 0 - nth i (dorefa w) 0) <= 1 / (2 ^ bits - 1).
Proof.
  intros Hb Hm Hnz. unfold dorefa_quantize_param.
  destruct (Nat.eqb_spec bits 1) as [?|_]; [lia|].
  destruct (asym_params bits 0 1) as [p|] eqn:Ep.
  2: { exfalso. unfold asym_params in Ep. destruct (Rlt_dec 1 0); [lra|discriminate]. }
  apply asym_params_0 in Ep as [_ ->]. cbn [bind fst snd].
  assert (Ha : exists a0 ar, val (tabs (ttanh (leaf w))) = a0 :: ar /\ maximum a0 ar = largest (map tanh w)).
  { cbn. unfold largest. destruct (map Rabs (map tanh w)) as [|a0 ar] eqn:Ea.
    - apply (f_equal (@length R)) in Ea. rewrite !map_length in Ea. simpl in Ea. lia.
    - exists a0, ar. split; auto.
      assert (Pos : Forall (fun v => 0 <= v) (a0 :: ar)).
      { rewrite <- Ea. apply Forall_forall. intros v Hv. apply in_map_iff in Hv as [u [<- _]]. apply Rabs_pos. }
      clear - Pos. revert a0 Pos. induction ar as [|b r IH]; intros a0 Pos; inversion Pos; subst.
      + simpl. rewrite Rmax_left; auto.
      + cbn [maximum]. rewrite (IH b H2). reflexivity. }
  destruct Ha as [a0 [ar [Ha Hmax]]]. unfold tmax. rewrite Ha. cbn [bind]. rewrite Hmax.
  eexists. split; [reflexivity|]. cbn. rewrite !map_length. split; auto.
  intros i Hi. rewrite !map_map, nth_map0 by auto. unfold dorefa. rewrite nth_map0 by auto.
  set (L := largest (map tanh w)).
  assert (HL : 0 < L).
  { eapply Rlt_le_trans; [|apply (largest_ge (map tanh w) m); rewrite map_length; auto].
    rewrite nth_map0 by auto. rewrite tanh_abs. rewrite <- tanh_0 at 1. apply tanh_lt. apply Rabs_pos_lt; auto. }
  destruct (Req_EM_T 1 0); [lra|].
  replace ((2 ^ bits - 1) / 1) with (2 ^ bits - 1) by lra.
  pose proof (pow2_gt bits ltac:(lia)) as Hp.
  set (u := tanh (nth i w 0) / (2 * L) + 1 / 2).
  pose proof (quant_dequant_close (2 ^ bits - 1) u ltac:(lra)) as Q1.
  replace (2 * linear_dequantize (2 ^ bits - 1) 0 (linear_quantize (2 ^ bits - 1) 0 u) + -1 - tanh (nth i w 0) / L)
    with (2 * (linear_dequantize (2 ^ bits - 1) 0 (linear_quantize (2 ^ bits - 1) 0 u) - u)).
  2: { unfold u. field. lra. }
  rewrite Rabs_mult, (Rabs_right 2) by lra.
  apply Rle_trans with (2 * / (2 * (2 ^ bits - 1))); [lra|]. right. field. lra.
Qed.

(* ------------------------------------------------------------------------- *)
(** ** PACT's clipping values in the optimizer *)

Lemma prefix_spec a b : String.prefix a b = true <-> exists c, b = (a ++ c)%string.
Proof.
  revert b; induction a as [|ch a IH]; intros b; simpl.
  - split; eauto. intros _. destruct b; reflexivity.
  - destruct b as [|ch' b]; [split; [discriminate|intros [? ?]; discriminate]|].
    cbn [String.prefix]. destruct (Ascii.ascii_dec ch ch') as [->|n].
    + rewrite IH. split; intros [c Hc]; exists c; [f_equal; auto|injection Hc; auto].
    + split; [discriminate|]. intros [c Hc]. injection Hc; intros; congruence.
Qed.
Lemma str_in_spec a b : str_in a b = true <-> mentions a b.
Proof.
  unfold mentions. induction b as [|ch b IH].
  - cbn [str_in]. rewrite orb_false_r, prefix_spec. split.
    + intros [c Hc]. exists ""%string, c. auto.
    + intros [u [v Hv]]. destruct u; [|discriminate]. exists v. auto.
  - cbn [str_in]. rewrite orb_true_iff, prefix_spec, IH. split.
    + intros [[c Hc]|[u [v Hv]]]; [exists ""%string, c; auto|exists (String ch u), v; simpl; f_equal; auto].
    + intros [u [v Hv]]. destruct u as [|ch' u]; [left; exists v; auto|].
      right. injection Hv; intros -> ->. eauto.
Qed.

(** Preparing a model with an optimizer that has none of the clipping values yet adds exactly one
    group; the group has exactly the parameters whose name contains 'clip_val', the requested weight
    decay or else the optimizer's default, and the optimizer's default learning rate; nothing else
    changes. *)
Theorem C102_pact_optimizer named decay o :
  (forall n p, In (n, p) named -> mentions "clip_val" n -> ~ exists g, In g (o_groups o) /\ In p (g_params g)) ->
  exists grp, update_optimizer (pact_groups named decay) (Some o) = Ok (Some (mkO (o_lr o) (o_wd o) (o_groups o ++ [grp]))) /\
    (forall p, In p (g_params grp) <-> exists n, In (n, p) named /\ mentions "clip_val" n) /\
    (NoDup (map snd named) -> NoDup (g_params grp)) /\
    g_lr grp = o_lr o /\
    (forall d, decay = Some d -> g_wd grp = d) /\ (decay = None -> g_wd grp = o_wd o).
Proof.
  intros H. unfold update_optimizer, pact_groups. cbn [foldM fst snd]. unfold add_param_group.
  set (ps := map snd (filter (fun p => str_in "clip_val" (fst p)) named)).
  assert (Hps : forall p, In p ps <-> exists n, In (n, p) named /\ mentions "clip_val" n).
  { intros p. unfold ps. rewrite in_map_iff. split.
    - intros [[n q] [<- Hf]]. apply filter_In in Hf as [Hin Hs]. exists n. split; auto. apply str_in_spec; auto.
    - intros [n [Hin Hs]]. exists (n, p). split; auto. apply filter_In. split; auto. apply str_in_spec; auto. }
  destruct (existsb _ ps) eqn:E.
  - exfalso. apply existsb_exists in E as [p [Hp Hx]]. apply existsb_exists in Hx as [q [Hq Eq]].
    apply Nat.eqb_eq in Eq. subst q. apply in_flat_map in Hq as [g [Hg1 Hg2]].
    apply Hps in Hp as [n [Hn Hm]]. apply (H n p Hn Hm). eauto.
  - cbn [bind]. eexists. split; [reflexivity|]. cbn [g_params g_lr g_wd].
    repeat split; auto; try (apply Hps).
    + intros Hnd. unfold ps. clear - Hnd. induction named as [|[n p] r IH]; simpl in *; [constructor|].
      inversion Hnd; subst. destruct (str_in "clip_val" n); simpl; auto. constructor; auto.
      intro Hin. apply H1. apply in_map_iff in Hin as [[n' p'] [E Hf]]. simpl in E. subst p'.
      apply filter_In in Hf as [Hf _]. apply in_map_iff. exists (n', p). auto.
    + intros d ->. reflexivity.
    + intros ->. reflexivity.
Qed.

(** It raises when a parameter so named is already being optimized (a model with clipping values of
    its own, or a model prepared twice with one optimizer). *)
Theorem C102_pact_optimizer_taken named decay o n p g :
  In (n, p) named -> mentions "clip_val" n -> In g (o_groups o) -> In p (g_params g) ->
  update_optimizer (pact_groups named decay) (Some o) = Raise ValueError.
Proof.
  intros Hn Hm Hg Hp. unfold update_optimizer, pact_groups. cbn [foldM fst snd]. unfold add_param_group.
  replace (existsb _ _) with true; auto. symmetry. apply existsb_exists. exists p. split.
  - apply in_map_iff. exists (n, p). split; auto. apply filter_In. split; auto. apply str_in_spec; auto.
  - apply existsb_exists. exists p. split; [|apply Nat.eqb_refl]. apply in_flat_map. eauto.
Qed.

Lemma sgd_group_miss grad g p : ~ In p (g_params g) -> forall v, sgd_group grad v g p = v p.
Proof.
  unfold sgd_group. intros H v. revert v. induction (g_params g) as [|q l IH]; intros v; simpl; auto.
  rewrite IH by (intro; apply H; right; auto).
  destruct (grad q); auto. destruct (Nat.eqb_spec p q); auto. subst. exfalso. apply H. left; auto.
Qed.
Lemma sgd_group_hit grad g p d : NoDup (g_params g) -> In p (g_params g) -> grad p = Some d -> forall v,
  sgd_group grad v g p = map2 (fun w e => w - g_lr g * (e + g_wd g * w)) (v p) d.
Proof.
  unfold sgd_group. intros Hnd Hin Hd. induction (g_params g) as [|q l IH]; [contradiction|]; intros v; simpl.
  inversion Hnd; subst. destruct Hin as [->|Hin].
  - rewrite Hd. pose proof (sgd_group_miss grad (mkG l (g_lr g) (g_wd g)) p H1) as Miss.
    unfold sgd_group in Miss. cbn [g_params g_lr g_wd] in Miss. rewrite Miss. rewrite Nat.eqb_refl. auto.
  - rewrite IH; auto. f_equal. destruct (grad q); auto. destruct (Nat.eqb_spec p q); auto. subst. contradiction.
Qed.

(** An optimization step moves every parameter by the settings of the one group it is in. *)
Theorem C102_step o grad v g p d :
  NoDup (flat_map g_params (o_groups o)) -> In g (o_groups o) -> In p (g_params g) -> grad p = Some d ->
  sgd_step o grad v p = map2 (fun w e => w - g_lr g * (e + g_wd g * w)) (v p) d.
Proof.
  unfold sgd_step. intros Hnd Hg Hp Hd. revert v.
  induction (o_groups o) as [|h l IH]; [contradiction|]; intros v. cbn [fold_left flat_map] in *.
  assert (Hnd1 : NoDup (g_params h) /\ NoDup (flat_map g_params l) /\ forall q, In q (g_params h) -> ~ In q (flat_map g_params l)).
  { clear - Hnd. induction (g_params h) as [|q r IH]; simpl in *; [split; [constructor|split; auto]|].
    inversion Hnd; subst. destruct (IH H2) as [A [B C]]. split; [constructor; auto; intro; apply H1; apply in_or_app; auto|].
    split; auto. intros z [->|Hz]; auto. intro. apply H1. apply in_or_app; auto. }
  destruct Hnd1 as [N1 [N2 N3]].
  destruct Hg as [->|Hg].
  - assert (Hmiss : forall l v', ~ In p (flat_map g_params l) -> fold_left (sgd_group grad) l v' p = v' p).
    { clear. induction l; intros v' Hn; auto. cbn [fold_left flat_map] in *. rewrite IHl.
      - apply sgd_group_miss. intro. apply Hn. apply in_or_app; auto.
      - intro. apply Hn. apply in_or_app; auto. }
    rewrite Hmiss by auto. apply sgd_group_hit; auto.
  - rewrite IH; auto. f_equal. apply sgd_group_miss. intro Hc. apply (N3 _ Hc). apply in_flat_map. eauto.
Qed.

(** Nothing keeps a learned clipping value positive: whatever the clipping value, the learning rate and
    the weight decay, a one-element batch and a loss gradient exist after which a step leaves a clipping
    value on which the next forward pass raises.  (The English claim "training can go on" fails.) *)
Theorem C102_training_goes_on_refuted bits deq c lr wd : 0 < c -> 0 < lr ->
  exists x g t, learned_clipped_linear bits (leaf_scalar (length x) c) deq (leaf x) = Ok t /\ length g = length x /\
    forall x', learned_clipped_linear bits
      (leaf_scalar (length x') (c - lr * (snd (back t g) + wd * c))) deq (leaf x') = Raise ValueError.
Proof.
  intros Hc Hlr. exists [c + 1], [(c + 1) / lr - wd * c].
  destruct (learned_clipped_linear bits (leaf_scalar (length [c + 1]) c) deq (leaf [c + 1])) as [t|] eqn:E.
  - exists t. split; auto. split; auto. intros x'.
    destruct (C102_learned_clip_elements _ _ _ _ _ _ E (eq_refl : length [(c + 1) / lr - wd * c] = _) Hc) as [_ S1].
    rewrite S1. cbn. destruct (Rle_dec c (c + 1)); [|lra].
    replace (c - lr * (((c + 1) / lr - wd * c) * 1 + 0 + wd * c)) with (-1) by (field; lra).
    apply (proj2 (C102_learned_clip_degenerate bits deq x' x' (-1) eq_refl)). lra.
  - exfalso. unfold learned_clipped_linear, asym_params in E. cbn in E.
    destruct (Rlt_dec c 0); [lra|discriminate].
Qed.

(* ------------------------------------------------------------------------- *)
(** ** Instances *)

(** a batch with elements below, inside and above the range *)
Example grad_ex1 : exists t, clipped_linear 4 1 true (leaf [-1; 1 / 2; 3]) = Ok t /\
  fst (back t [5; 6; 7]) = [0; 6; 0].
Proof.
  unfold clipped_linear, asym_params. destruct (Rlt_dec 1 0); [lra|]. cbn [bind]. eexists. split; [reflexivity|].
  cbn. repeat (destruct (Rle_dec _ _); try lra). repeat f_equal; lra.
Qed.
Example grad_ex2 : exists t, learned_clipped_linear 4 (leaf_scalar 4 2) true (leaf [-1; 1 / 2; 3; 4]) = Ok t /\
  snd (back t [5; 6; 7; 8]) = 15.
Proof.
  unfold learned_clipped_linear, asym_params. cbn [sval leaf_scalar]. destruct (Rlt_dec 2 0); [lra|]. cbn [bind].
  eexists. split; [reflexivity|]. cbn. unfold Rmax.
  repeat (destruct (Rle_dec _ _); try lra). repeat (destruct (Rlt_dec _ _); try lra).
Qed.
(** weights with a unique largest magnitude *)
Example grad_ex3 : let w := [1 / 2; -2; 0; 1] in (1 < length w)%nat /\ nth 1 w 0 <> 0 /\
  (forall k, (k < length w)%nat -> k <> 1%nat -> Rabs (nth k w 0) < Rabs (nth 1 w 0)).
Proof.
  cbn. repeat split; try lia; try lra. intros k Hk Hne.
  destruct k as [|[|[|[|k]]]]; try lia; cbn; rewrite (Rabs_left (-2)) by lra; unfold Rabs; destruct (Rcase_abs _); lra.
Qed.
(** a model with two clipping values and an optimizer that has its weights *)
Example grad_ex4 : exists o', update_optimizer
   (pact_groups [("conv.weight", 0%nat); ("relu.clip_val", 1%nat); ("relu2.clip_val", 2%nat)]%string (Some (1 / 10)))
   (Some (mkO 1 0 [mkG [0%nat] 1 0])) = Ok (Some o') /\
  o_groups o' = [mkG [0%nat] 1 0; mkG [1%nat; 2%nat] 1 (1 / 10)].
Proof. eexists. split; reflexivity. Qed.

Print Assumptions C102_clipped_activation.
Print Assumptions C102_clipped_activation_elements.
Print Assumptions C102_learned_clip.
Print Assumptions C102_learned_clip_elements.
Print Assumptions C102_learned_clip_degenerate.
Print Assumptions C102_wrpn_weights.
Print Assumptions C102_dorefa_weights.
Print Assumptions C102_binary_weights.
Print Assumptions C102_clipped_activation_forward.
Print Assumptions C102_learned_clip_forward.
Print Assumptions C102_wrpn_weights_forward.
Print Assumptions C102_dorefa_weights_forward.
Print Assumptions C102_pact_optimizer.
Print Assumptions C102_pact_optimizer_taken.
Print Assumptions C102_step.
Print Assumptions C102_training_goes_on_refuted.
