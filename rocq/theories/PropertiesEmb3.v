(** C89, C90: which parameters, for every clipping mode; clipping of embeddings; inputs of the fake-quantization wrapper. *)
From Coq Require Import String List ZArith QArith Qabs Qround Qpower Qminmax Bool Arith Lia Lqa Setoid Morphisms.
From Verif Require Import Base Lists StructModel QuantModel QuantSpec QuantProofs PropertiesQuant RangeModel RangeSpec RangeProofs PtqModel PtqSpec PtqProofs EmbModel EmbSpec EmbSpec2 EmbProofs PropertiesEmb PropertiesEmb2.
Import ListNotations.

Ltac nz := let K := fresh in intro K; lra.
Lemma qmax_Qmax a b : qmax a b == Qmax a b.
Proof. destruct (QuantProofs.qmax_spec a b) as [[H ->]|[H ->]]; destruct (Q.max_spec a b) as [[K ->]|[K ->]]; lra. Qed.
Lemma qmin_Qmin a b : qmin a b == Qmin a b.
Proof. destruct (qmin_spec a b) as [[H ->]|[H ->]]; destruct (Q.min_spec a b) as [[K ->]|[K ->]]; lra. Qed.
Lemma is_sym_PM m : is_sym (PM m) = symmetric m. Proof. destruct m; reflexivity. Qed.

Lemma row_smallest l a : row_min l = Ok a -> smallest l a. Proof. apply row_min_spec. Qed.
Lemma row_largest l a : row_max l = Ok a -> largest l a. Proof. apply row_max_spec. Qed.

Lemma gauss_in h bits f : (1 <= bits)%Z -> alpha_gauss h (Z.to_nat bits) = Ok f -> exists z, In (bits, z) (gauss_factors h) /\ f == inject_Z z / 100.
Proof.
  intros Hb H. assert (E : bits = Z.of_nat (Z.to_nat bits)) by lia. rewrite E. clear E Hb. unfold alpha_gauss in H.
  destruct (Z.to_nat bits) as [|n]; [discriminate|].
  do 8 (destruct n as [|n]; [destruct h; injection H as <-; (eexists; split; [cbn; intuition reflexivity|reflexivity])|]). destruct h; destruct n; discriminate.
Qed.
Lemma laplace_in h bits f : (0 <= bits)%Z -> alpha_laplace h (Z.to_nat bits) = Ok f -> exists z, In (bits, z) (laplace_factors h) /\ f == inject_Z z / 100.
Proof.
  intros Hb H. assert (E : bits = Z.of_nat (Z.to_nat bits)) by lia. rewrite E. clear E Hb. unfold alpha_laplace in H.
  destruct (Z.to_nat bits) as [|n].
  { destruct h; injection H as <-; (eexists; split; [cbn; intuition reflexivity|reflexivity]). }
  do 8 (destruct n as [|n]; [destruct h; injection H as <-; (eexists; split; [cbn; intuition reflexivity|reflexivity])|]). destruct h; destruct n; discriminate.
Qed.

Lemma around_aciq m half mean least alpha alpha' : alpha == alpha' ->
  let r := if is_sym (PM m) then aciq_symmetric mean alpha else aciq_asymmetric mean least alpha half in
  around (symmetric m) half mean least alpha' (fst r) (snd r).
Proof.
  intro E. rewrite is_sym_PM. unfold around, aciq_symmetric, aciq_asymmetric. cbv zeta. destruct (symmetric m); cbn [fst snd].
  - split; rewrite E; reflexivity.
  - rewrite qmax_Qmax. split; [rewrite E; reflexivity|]. destruct half; rewrite E; reflexivity.
Qed.

Lemma Ok_inj {A} (x y : A) : Ok x = Ok y -> x = y. Proof. intro H. injection H as ->. reflexivity. Qed.
Lemma tensor_range_limits std rows bits m clip n half lo hi : (1 <= bits)%Z ->
  tensor_range std rows bits (PM m) clip n half = Ok (lo, hi) -> tensor_limits std rows bits m clip n half lo hi.
Proof.
  intros Hb H. unfold tensor_range in H. unfold tensor_limits. set (t := concat rows) in *.
  assert (Eh : (if is_sym (PM m) then false else half) = half && negb (symmetric m)) by (rewrite is_sym_PM; destruct (symmetric m), half; auto).
  destruct clip.
  - inv_bind H. inv_bind H. injection H as <- <-. auto using row_smallest, row_largest.
  - inv_bind H. injection H as <- <-. exists (map fst x), (map snd x).
    assert (K : Forall2 smallest rows (map fst x) /\ Forall2 largest rows (map snd x)).
    { clear - H0. revert x H0. induction rows as [|r rows IH]; intros x H; cbn [mapM] in H; [injection H as <-; split; constructor|].
      inv_bind H. inv_bind H. injection H as <-. inv_bind H0. inv_bind H0. injection H0 as <-. destruct (IH _ H1). cbn.
      split; constructor; auto using row_smallest, row_largest. }
    destruct K. repeat split; auto; reflexivity.
  - destruct n as [n|]; [|discriminate]. unfold mean_n_stds_min_max in H. destruct (Qle_bool n 0) eqn:E; [discriminate|].
    apply Qle_bool_ngt in E. inv_bind H. inv_bind H. injection H as <- <-. exists n, x, x0.
    do 4 (split; [auto using row_smallest, row_largest|]). split; [apply qmax_Qmax|apply qmin_Qmin].
  - rewrite Eh in H. inv_bind H. inv_bind H. inv_bind H1. injection H1 as <-. injection H as H. apply gauss_in in H2; auto. destruct H2 as (f & I & Ef).
    exists f, x. split; auto. split; [apply row_smallest; auto|].
    pose proof (around_aciq m half (mean t) x (std t * x1) (inject_Z f / 100 * std t) ltac:(rewrite Ef; ring)) as A. cbv zeta in A. rewrite H in A. exact A.
  - rewrite Eh in H. inv_bind H. inv_bind H. unfold get_alpha_laplace in H1. inv_bind H1. apply Ok_inj in H1, H. subst x0. apply laplace_in in H2; [|lia]. destruct H2 as (f & I & Ef).
    exists f, x. split; auto. split; [apply row_smallest; auto|].
    assert (Ea : mean (map (fun y => Qabs (y - mean t)) t) * x1 == inject_Z f / 100 * mean (map (fun y => Qabs (y - mean t)) t)) by (rewrite Ef; apply Qmult_comm).
    pose proof (around_aciq m half (mean t) x _ _ Ea) as A.
    cbv zeta in A. rewrite H in A. exact A.
Qed.

Lemma stats_range_limits st bits m clip n half lo hi : (1 <= bits)%Z ->
  stats_range st bits (PM m) clip n half = Ok (lo, hi) -> stats_limits st bits m clip n half lo hi.
Proof.
  intros Hb H. unfold stats_range in H. unfold stats_limits.
  assert (Eh : is_sym (PM m) = symmetric m) by apply is_sym_PM.
  destruct clip.
  - injection H as <- <-. split; reflexivity.
  - injection H as <- <-. split; reflexivity.
  - destruct n as [n|]; [|discriminate]. destruct (Qle_bool n 0) eqn:E; [discriminate|].
    apply Qle_bool_ngt in E. injection H as <- <-. exists n. split; auto. split; auto. split; [apply qmax_Qmax|apply qmin_Qmin].
  - assert (K : exists a, alpha_gauss (half && negb (symmetric m)) (Z.to_nat bits) = Ok a /\
        (if is_sym (PM m) then aciq_symmetric (st_mean st) (st_std st * a) else aciq_asymmetric (st_mean st) (st_avg_min st) (st_std st * a) half) = (lo, hi)).
    { rewrite Eh in *. destruct (symmetric m); inv_bind H; unfold alpha_of in H0; inv_bind H0; apply Ok_inj in H0; subst x; apply Ok_inj in H; exists x0; (split; [destruct half; assumption|exact H]). }
    destruct K as (a & K1 & K2). apply gauss_in in K1; auto. destruct K1 as (f & I & Ef). exists f. split; auto.
    pose proof (around_aciq m half (st_mean st) (st_avg_min st) (st_std st * a) (inject_Z f / 100 * st_std st) ltac:(rewrite Ef; ring)) as A. cbv zeta in A. rewrite K2 in A. exact A.
  - assert (K : exists a, alpha_laplace (half && negb (symmetric m)) (Z.to_nat bits) = Ok a /\
        (if is_sym (PM m) then aciq_symmetric (st_mean st) (st_b st * a) else aciq_asymmetric (st_mean st) (st_avg_min st) (st_b st * a) half) = (lo, hi)).
    { rewrite Eh in *. destruct (symmetric m); inv_bind H; unfold alpha_of in H0; inv_bind H0; apply Ok_inj in H0; subst x; apply Ok_inj in H; exists x0; (split; [destruct half; assumption|exact H]). }
    destruct K as (a & K1 & K2). apply laplace_in in K1; [|lia]. destruct K1 as (f & I & Ef). exists f. split; auto.
    pose proof (around_aciq m half (st_mean st) (st_avg_min st) (st_b st * a) (inject_Z f / 100 * st_b st) ltac:(rewrite Ef; ring)) as A. cbv zeta in A. rewrite K2 in A. exact A.
Qed.

Lemma sym_n_pos bits r : (1 <= bits)%Z -> (r = true -> (2 <= bits)%Z) -> 0 < sym_n bits r.
Proof.
  intros Hb Hr. unfold sym_n. destruct r.
  - apply Zq_pos. pose proof (Z.pow_le_mono_r 2 1 (bits - 1) ltac:(lia) ltac:(specialize (Hr eq_refl); lia)). lia.
  - apply Qlt_shift_div_l; [reflexivity|]. rewrite Qmult_0_l. apply Zq_pos. pose proof (Z.pow_le_mono_r 2 1 bits ltac:(lia) ltac:(lia)). lia.
Qed.
Lemma params_range_params bits m lo hi p : mode_ok bits (PM m) -> params_from_range bits (PM m) lo hi = Ok p -> range_params bits m lo hi p.
Proof.
  intros [Hb Hr] H. unfold params_from_range in H. unfold range_params. rewrite is_sym_PM in H. destruct (symmetric m) eqn:Es.
  - inv_bind H. unfold sym_params in H0. destruct (existsb _ _); [discriminate|]. injection H0 as <-. injection H as <-. cbv zeta.
    set (n := sym_n bits (mode_is (PM m) SYMR)). change (lqmode_eqb m SYMR) with (mode_is (PM m) SYMR).
    assert (Hn : 0 < n) by (apply sym_n_pos; auto).
    assert (Et : n == match m with SYMR => inject_Z (2 ^ (bits - 1) - 1) | _ => inject_Z (2 ^ bits - 1) / 2 end) by (unfold n; destruct m; try discriminate; reflexivity).
    rewrite <- Et. pose proof (qmax_Qmax (Qabs lo) (Qabs hi)) as Eb. unfold sym1. fold n. cbn [fst snd].
    destruct (Qeq_bool (qmax (Qabs lo) (Qabs hi)) 0) eqn:Z0.
    + apply Qeq_bool_iff in Z0. split; [reflexivity|]. split; [intros _; field; clear - Hn; nz|]. intro P. exfalso. lra.
    + apply Qeq_bool_neq in Z0. split; [reflexivity|]. split; [intro K; exfalso; apply Z0; rewrite Eb; exact K|]. intro P. rewrite <- Eb. field. exact Z0.
  - inv_bind H. unfold asym_params in H0. destruct (existsb _ _) eqn:Ex; [discriminate|]. injection H0 as <-. injection H as <-. cbv zeta.
    cbn in Ex. rewrite orb_false_r in Ex. assert (Hle : lo <= hi) by (apply Qnot_lt_le; intro K; apply Qltb_lt in K; congruence).
    pose proof (qmin_Qmin lo 0) as Ea. pose proof (qmax_Qmax hi 0) as Eb.
    set (n := Zq (2 ^ bits - 1)). assert (Hn : 0 < n). { apply Zq_pos. pose proof (Z.pow_le_mono_r 2 1 bits ltac:(lia) ltac:(lia)). lia. }
    unfold asym1. fold n. cbn [fst snd]. set (a := qmin lo 0) in *. set (b := qmax hi 0) in *.
    set (sc := n / (if Qeq_bool (b - a) 0 then n else b - a)).
    split; auto. split; [|split].
    + intro E. unfold sc. assert (K : b - a == 0) by lra. apply Qeq_bool_iff in K. rewrite K. field. nz.
    + intro E. unfold sc. rewrite <- Ea, <- Eb in *. destruct (Qeq_bool (b - a) 0) eqn:Z0; [apply Qeq_bool_iff in Z0; lra|]. apply Qeq_bool_neq in Z0. change (inject_Z (2 ^ bits - 1)) with n. field. auto.
    + exists (rhe (sc * a)). split; [eapply is_round_ext; [|apply rhe_is_round]; rewrite Ea; reflexivity|]. destruct m; try discriminate; cbn [mode_is lqmode_eqb]; unfold Zq; ring.
Qed.

(** C89: an embedding's scale and zero point are those of the range that the clipping mode selects: from the statistics
    if there are any, otherwise from the table. *)
Theorem C89_parameters : forall std cfg bits W s, e_bits cfg = Some bits -> mode_ok bits (PM (e_mode cfg)) -> emb_init std cfg W = Ok s ->
  exists lo hi,
    match e_stats cfg with
    | Some st => stats_limits st bits (e_mode cfg) (e_clip cfg) (e_nstds cfg) (e_half cfg) lo hi
    | None => tensor_limits std W bits (e_mode cfg) (e_clip cfg) (e_nstds cfg) (e_half cfg) lo hi
    end /\ range_params bits (e_mode cfg) lo hi (b_par s) /\ b_md s = b_par s.
Proof.
  intros std cfg bits W s Hb Hok H. unfold emb_init in H. rewrite Hb in H. inv_bind H. injection H as <-. cbn [b_par b_md]. pose proof (proj1 Hok) as Hb1.
  destruct (e_stats cfg) as [st|].
  - unfold params_from_stats in H0. inv_bind H0. inv_bind H0. injection H0 as <-. destruct x0 as [lo hi]. exists lo, hi. destruct x1 as [s0 z0]. cbn [fst snd approx_opt] in *.
    split; [|split]; auto using stats_range_limits, params_range_params.
  - unfold params_from_tensor in H0. inv_bind H0. destruct x0 as [lo hi]. exists lo, hi. split; [|split]; auto using tensor_range_limits, params_range_params.
Qed.

(** C89: N_STD clipping without a number of deviations is refused; which exception depends on the statistics. *)
Theorem C89_n_stds_missing : forall std cfg bits W, e_bits cfg = Some bits -> e_clip cfg = CNStd -> e_nstds cfg = None ->
  emb_init std cfg W = Raise (match e_stats cfg with Some _ => ValueError | None => UnsatisfiedRequirements end).
Proof.
  intros std cfg bits W Hb Hc Hn. unfold emb_init. rewrite Hb, Hc, Hn. destruct (e_stats cfg); reflexivity.
Qed.

(** C89: setting the clipping in a symmetric mode: the upper value counts, which must not be negative; the parameters become
    those that send it to the end of the (full) range of codes. *)
Theorem C89_clipping_symmetric : forall std cfg bits W ops s0 s v x, e_bits cfg = Some bits -> (1 <= bits)%Z -> e_save cfg = true -> symmetric (e_mode cfg) = true ->
  emb_init std cfg W = Ok s0 -> Forall wrapper_op ops -> emb_run cfg ops s0 = Ok s -> v = CScalar x \/ (exists a, v = CPair a x) ->
  (x < 0 -> emb_set_clipping cfg v s = Raise ValueError) /\
  (0 <= x -> exists s1, emb_set_clipping cfg v s = Ok s1 /\ snd (b_par s1) == 0 /\ (x == 0 -> fst (b_par s1) == 1) /\
     (0 < x -> fst (b_par s1) * x == inject_Z (2 ^ bits - 1) / 2) /\ (b_linked s = true -> b_md s1 = b_par s1) /\
     Forall2 (Forall2 (fun w q => exists z, q = Zq z /\ is_code bits (e_mode cfg) (b_par s1) w z)) W (b_weight s1)).
Proof.
  intros std cfg bits W ops s0 s v x Hb Hb1 Hs Hm H0 Hw Hr Hv. destruct (emb_init_inv _ _ _ _ _ Hb H0) as [Hi _].
  pose proof (emb_run_inv _ _ _ _ Hb _ _ Hi Hw Hr) as [E1 E2 E3]. rewrite Hs in E2.
  unfold emb_set_clipping, emb_clip_params, get_bits. rewrite Hb.
  assert (Hc : exists a, check_clipping_val v (PM (e_mode cfg)) false = Ok (a, x)).
  { destruct Hv as [->|[a ->]]; cbn [check_clipping_val]; [rewrite is_sym_PM, Hm|]; eauto. }
  destruct Hc as [a ->]. cbn [bind snd]. rewrite is_sym_PM, Hm. unfold sym_params. cbn [existsb]. rewrite orb_false_r.
  destruct (Qltb x 0) eqn:Ex; [apply Qltb_lt in Ex; split; [reflexivity|intro; exfalso; lra]|].
  split; [intro K; apply Qltb_lt in K; congruence|]. intros Hx. cbn [map first_param bind fst snd].
  pose proof (sym_n_pos bits false Hb1 ltac:(discriminate)) as Hn.
  unfold emb_set. rewrite E2. cbn [bind]. unfold sym1. cbn [fst snd]. set (n := sym_n bits false) in *.
  unfold emb_fill. cbn [b_float b_par b_md b_linked b_weight fill1 fst snd]. rewrite ?E2. cbn [bind]. eexists. split; [reflexivity|]. cbn [b_par b_md b_weight fst snd].
  split; [reflexivity|]. split; [|split; [|split]].
  - intro K. apply Qeq_bool_iff in K. rewrite K. field. nz.
  - intro K. destruct (Qeq_bool x 0) eqn:Z0; [apply Qeq_bool_iff in Z0; lra|]. change (inject_Z (2 ^ bits - 1) / 2) with n. field. nz.
  - intros ->. reflexivity.
  - unfold get_bits. rewrite Hb. unfold quant_table. rewrite mode_range_code. cbn [fst snd]. clear - Hb1. set (par := (_, _)).
    induction W as [|r W IH]; cbn [map]; constructor; auto. induction r as [|w r IH']; cbn [map]; constructor; auto.
    destruct (lqc_code bits (e_mode cfg) par w Hb1) as (q & E & K). exists q. split; [exact E|exact K].
Qed.

(** C89: reading the clipping gives the values that the smallest and the largest code stand for (symmetric restricted: one code
    further down): every value a look-up returns lies between. *)
Theorem C89_read_clipping : forall std cfg bits W ops s0 s, e_bits cfg = Some bits -> (1 <= bits)%Z -> e_mode cfg <> ASS ->
  emb_init std cfg W = Ok s0 -> Forall wrapper_op ops -> emb_run cfg ops s0 = Ok s -> 0 < fst (b_par s) ->
  let c := emb_get_clipping cfg s in
  fst c * fst (b_par s) == inject_Z (code_min bits (match e_mode cfg with SYMR => SYM | m => m end)) + snd (b_par s) /\
  snd c * fst (b_par s) == inject_Z (code_max bits (e_mode cfg)) + snd (b_par s) /\
  forall idx out md, (forall i, In i idx -> (i < length W)%nat) -> emb_forward idx s = Ok (out, md) -> Forall (Forall (fun v => fst c <= v <= snd c)) out.
Proof.
  intros std cfg bits W ops s0 s Hb Hb1 Hm H0 Hw Hr Hs c.
  assert (A : fst c * fst (b_par s) == inject_Z (code_min bits (match e_mode cfg with SYMR => SYM | m => m end)) + snd (b_par s) /\
              snd c * fst (b_par s) == inject_Z (code_max bits (e_mode cfg)) + snd (b_par s)).
  { unfold c, emb_get_clipping, get_clipping_values, get_bits, linear_dequantize. rewrite Hb. destruct (e_mode cfg); try congruence; cbn [is_sym mode_is lqmode_eqb orb fst snd code_min code_max]; unfold Zq; split; field; nz. }
  destruct A as [A1 A2]. do 2 (split; [assumption|]). intros idx out md Hidx Hf.
  destruct (C89_lookup _ _ _ _ _ _ _ _ Hb Hb1 H0 Hw Hr Hidx) as (out' & md' & E & B & _). rewrite Hf in E. injection E as <- <-.
  clear Hf Hidx. induction B as [|i row idx out Hrow B IH]; constructor; auto. clear - Hrow A1 A2 Hs Hb1 Hm.
  induction Hrow as [|w v ws vs (q & Hq & Ev)]; constructor; auto.
  pose proof (code_range _ _ _ _ _ Hb1 Hq) as [L1 L2].
  assert (L3 : (code_min bits (match e_mode cfg with SYMR => SYM | m => m end) <= code_min bits (e_mode cfg))%Z) by (destruct (e_mode cfg); cbn; lia).
  assert (M1 : Zq (code_min bits (match e_mode cfg with SYMR => SYM | m => m end)) <= Zq q) by (rewrite <- Zq_le; lia).
  assert (M2 : Zq q <= Zq (code_max bits (e_mode cfg))) by (rewrite <- Zq_le; lia).
  assert (Ev' : v * fst (b_par s) == Zq q + snd (b_par s)) by (rewrite Ev; field; nz). unfold Zq in *.
  split; apply (Qmult_le_r _ _ (fst (b_par s)) Hs); lra.
Qed.
(** C89 (finding): in the asymmetric signed mode reading the clipping is off by 2^(bits-1) codes. *)
Theorem C89_read_clipping_refuted : forall cfg bits s, e_bits cfg = Some bits -> e_mode cfg = ASS -> 0 < fst (b_par s) ->
  let c := emb_get_clipping cfg s in
  fst c * fst (b_par s) == inject_Z (code_min bits ASS) + snd (b_par s) + inject_Z (2 ^ (bits - 1)).
Proof.
  intros cfg bits s Hb Hm Hs c. unfold c, emb_get_clipping, get_clipping_values, get_bits, linear_dequantize. rewrite Hb, Hm. cbn [is_sym mode_is lqmode_eqb orb fst snd code_min].
  unfold Zq. rewrite inject_Z_opp. change (inject_Z 0) with 0. field. nz.
Qed.

(* ------------------------------------------------------------------------- *)
(** * Fake quantization *)

(** C90: the scale and zero point attached to the output are those of the range that the clipping mode selects, from the
    statistics of the output if there are any, otherwise from the module's result (after the fused ReLU), the scale
    approximated if a number of multiplier bits is given. *)
Theorem C90_output_parameters std rows m cfg bits ins y md ts : f_bits cfg = Some bits -> mode_ok bits (PM (f_mode cfg)) ->
  fake_forward std rows m cfg ins = Ok (y, md, ts) ->
  exists xs acc sc sc' z lo hi, wm_fun m xs = Ok acc /\ md = Some (mkQmd sc' z (code_min bits (f_mode cfg)) (code_max bits (f_mode cfg))) /\
  match f_stats cfg with
  | Some st => stats_limits st bits (f_mode cfg) (f_clip cfg) (f_nstds cfg) (f_half cfg) lo hi
  | None => tensor_limits std (rows (map (relu_if (f_half cfg)) acc)) bits (f_mode cfg) (f_clip cfg) (f_nstds cfg) (f_half cfg) lo hi
  end /\ range_params bits (f_mode cfg) lo hi (sc, z) /\
  (0 < sc -> match f_approx cfg with Some k => (1 <= k)%Z | None => True end -> approximates (f_approx cfg) sc sc').
Proof.
  intros Hb Hok H. pose proof (proj1 Hok) as Hb1. unfold fake_forward in H. rewrite Hb in H. inv_bind H. inv_bind H. inv_bind H. injection H as <- <- <-.
  rewrite mode_range_code. cbn [fst snd]. eexists _, x0.
  assert (Er : (if f_half cfg then map relu x0 else x0) = map (relu_if (f_half cfg)) x0).
  { unfold relu_if. destruct (f_half cfg); auto. rewrite map_id. auto. }
  rewrite Er in H2.
  assert (AP : forall sc, 0 < sc -> match f_approx cfg with Some k => (1 <= k)%Z | None => True end -> approximates (f_approx cfg) sc (approx_opt sc (f_approx cfg))).
  { intros sc Hsc Hk. unfold approximates, approx_opt. destruct (f_approx cfg) as [k|]; [|reflexivity].
    pose proof (C28_scale_approximation sc k false Hsc Hk) as HA. cbv zeta in HA. destruct HA as (A & _ & B & C & D & _ & F).
    eexists _, _. split; [exact B|]. split; [exact A|]. split; auto. }
  unfold fake_out_params in H2. destruct (f_stats cfg) as [st|].
  - unfold params_from_stats in H2. inv_bind H2. inv_bind H2. injection H2 as <-. destruct x2 as [lo hi], x3 as [sc z]. cbn [fst snd] in *.
    exists sc, (approx_opt sc (f_approx cfg)), z, lo, hi. split; [exact H1|]. split; [reflexivity|]. split; [apply stats_range_limits; auto|]. split; [apply params_range_params; auto|]. auto.
  - inv_bind H2. injection H2 as <-. unfold params_from_tensor in H. inv_bind H. match type of H with params_from_range _ _ (fst ?r) _ = Ok ?p => destruct r as [lo hi], p as [sc z] end. cbn [fst snd] in *.
    exists sc, (approx_opt sc (f_approx cfg)), z, lo, hi. split; [exact H1|]. split; [reflexivity|]. split; [apply tensor_range_limits; auto|]. split; [apply params_range_params; auto|]. auto.
Qed.

Lemma prepare_all_nth cfg bits l : forall i p, prepare_all cfg bits i l = Ok p -> forall j t, nth_error l j = Some t ->
  exists e, nth_error p j = Some e /\ fake_prepare cfg bits (i + j) t = Ok e.
Proof.
  induction l as [|t l IH]; intros i p H j t0 E; cbn [prepare_all] in H; [destruct j; discriminate|].
  inv_bind H. inv_bind H. injection H as <-. destruct j as [|j]; cbn in E.
  - injection E as <-. exists x. rewrite Nat.add_0_r. auto.
  - destruct (IH _ _ H1 _ _ E) as (e & A & B). exists e. split; auto. rewrite <- Nat.add_succ_comm. auto.
Qed.

(** C90: the parameters with which input number [j], not quantized yet, is quantized: with output statistics, those from the
    statistics of input [j] (which must exist); without, those of its own values; with the settings of the override of
    input [j] if there is one, and one of override and automatic fall-back is needed.  An input that is quantized already
    must not have an override. *)
Theorem C90_input_parameters std rows m cfg bits ins y md ts j t : f_bits cfg = Some bits -> f_qin cfg = true ->
  fake_forward std rows m cfg ins = Ok (y, md, ts) -> nth_error ins j = Some t ->
  exists t' md', nth_error ts j = Some t' /\ t_md t' = Some md' /\
  let set := match f_ovr cfg j with Some o => override_settings (f_qset cfg bits) o | None => f_qset cfg bits end in
  match t_md t with
  | Some md0 => md' = md0 /\ f_ovr cfg j = None
  | None => (f_ovr cfg j = None -> f_auto cfg = true) /\ q_lo md' = fst (mode_range (s_bits set) (s_mode set)) /\ q_hi md' = snd (mode_range (s_bits set) (s_mode set)) /\
      match f_stats cfg with
      | Some _ => exists st, f_instats cfg j = Some st /\ params_from_stats st (s_bits set) (s_mode set) (s_clip set) (s_nstds set) (s_halfr set) (f_approx cfg) = Ok (q_scale md', q_zp md')
      | None => exists sc, params_of_row (s_bits set) (s_mode set) (t_data t) = Ok (sc, q_zp md') /\ q_scale md' = approx_opt sc (f_approx cfg)
      end
  end.
Proof.
  intros Hb Hq H Ht. unfold fake_forward in H. rewrite Hb in H. inv_bind H. inv_bind H. inv_bind H. injection H as _ _ <-.
  destruct (prepare_all_nth _ _ _ _ _ H0 _ _ Ht) as ([t1 r] & A & B). cbn [Nat.add] in B.
  assert (N : exists t', nth_error (match wm_view m with
                | Some i => if negb (f_half cfg) && match nth_error x i with Some x => snd (snd x) | None => false end
                            then upd_nth i (set_data (map (fun v => linear_dequantize (linear_quantize_clamp v (fst x1) (snd x1) (Zq (fst (mode_range bits (PM (f_mode cfg))))) (Zq (snd (mode_range bits (PM (f_mode cfg)))))) (fst x1) (snd x1)) (if f_half cfg then map relu x0 else x0))) (map fst x) else map fst x
                | None => map fst x
                end) j = Some t' /\ t_md t' = t_md t1).
  { assert (N0 : nth_error (map fst x) j = Some t1) by (rewrite nth_error_map, A; reflexivity).
    destruct (wm_view m) as [i|]; [|eauto]. destruct (_ && _); [|eauto].
    assert (N1 := f_equal (option_map t_md) N0). rewrite <- nth_error_map in N1. erewrite <- upd_nth_md in N1. rewrite nth_error_map in N1. cbn [option_map] in N1.
    destruct (nth_error _ _) as [t'|] eqn:E in N1; [|discriminate]. cbn in N1. injection N1 as N1. exists t'. split; [exact E|exact N1]. }
  destruct N as (t' & N1 & N2). exists t'. cbv zeta. unfold fake_prepare in B. rewrite Hq in B. cbn [negb] in B. inv_bind B. inv_bind B.
  assert (M : t_md t1 = Some x3) by (destruct (t_md t); injection B as <- _; reflexivity).
  exists x3. split; [exact N1|]. split; [congruence|]. clear B N1 N2 A M. unfold input_metadata in H3. destruct (t_md t) as [md0|].
  - destruct (f_ovr cfg j); [discriminate|]. injection H3 as ->. auto.
  - assert (Hauto : f_ovr cfg j = None -> f_auto cfg = true) by (intro K; rewrite K in H3; destruct (f_auto cfg); auto; discriminate).
    split; [exact Hauto|].
    assert (Hp : match x2 with Some st => preset_input_md (f_qset cfg bits) (f_ovr cfg j) (f_approx cfg) st | None => dynamic_input_md (f_qset cfg bits) (f_ovr cfg j) (f_approx cfg) (t_data t) end = Ok x3).
    { destruct (f_ovr cfg j); auto. rewrite (Hauto eq_refl) in H3. auto. }
    clear H3. destruct (f_stats cfg) as [so|].
    + destruct (f_instats cfg j) as [st|]; [|discriminate]. injection H as <-. unfold preset_input_md in Hp. inv_bind Hp. injection Hp as <-. cbn. do 2 (split; [reflexivity|]). exists st. split; [reflexivity|]. match goal with |- _ = Ok (fst ?p, snd ?p) => destruct p end. eassumption.
    + injection H as <-. unfold dynamic_input_md in Hp. inv_bind Hp. injection Hp as <-. cbn. do 2 (split; [reflexivity|]). match goal with H : params_of_row _ _ _ = Ok ?p |- _ => destruct p as [sc z]; cbn; exists sc; auto end.
Qed.

(** C90: with output statistics, an input that is not quantized and has none is a KeyError. *)
Theorem C90_missing_input_statistics std rows m cfg bits st t rest : f_bits cfg = Some bits -> f_qin cfg = true -> f_stats cfg = Some st ->
  t_md t = None -> f_instats cfg 0 = None -> fake_forward std rows m cfg (t :: rest) = Raise KeyError.
Proof. intros Hb Hq Hs Ht Hi. unfold fake_forward. rewrite Hb. cbn [prepare_all]. unfold fake_prepare. rewrite Hq, Hs, Ht, Hi. reflexivity. Qed.

Definition no_input_quantization (cfg : fcfg) : fcfg :=
  mkFcfg (f_bits cfg) (f_mode cfg) (f_clip cfg) (f_nstds cfg) (f_half cfg) (f_approx cfg) (f_stats cfg) false (f_ovr cfg) (f_auto cfg) (f_instats cfg).
(** C90: inputs that are all quantized already are used as they are: no statistics of inputs are needed. *)
Theorem C90_quantized_inputs std rows m cfg ins : Forall (fun t => t_md t <> None) ins -> (forall j, f_ovr cfg j = None) ->
  fake_forward std rows m cfg ins = fake_forward std rows m (no_input_quantization cfg) ins.
Proof.
  intros Hq Ho. unfold fake_forward. cbn [no_input_quantization f_bits f_half f_mode]. destruct (f_bits cfg) as [bits|]; auto.
  assert (E : forall i, prepare_all cfg bits i ins = prepare_all (no_input_quantization cfg) bits i ins).
  { induction Hq as [|t ins Ht Hq IH]; intro i; auto. cbn [prepare_all]. rewrite IH. f_equal.
    unfold fake_prepare, no_input_quantization. cbn [f_qin negb]. destruct (f_qin cfg); auto. cbn [negb].
    unfold input_metadata. destruct t as [d [q|]]; cbn in *; [|congruence]. rewrite Ho. destruct (f_stats cfg); reflexivity. }
  rewrite E. reflexivity.
Qed.

Example ex_read : exists s, emb_init (fun _ => 0) ex_cfg ex_W = Ok s /\ 0 < fst (b_par s). Proof. eexists. split; reflexivity. Qed.
Example ex_limits : exists s, emb_init (fun _ => 1) (mkEcfg (Some 4%Z) ASU None true CGauss None true) [[0; 1]; [2; 5]] = Ok s /\ ~ fst (b_par s) == 0.
Proof. eexists. split; [reflexivity|]. intro K. vm_compute in K. discriminate. Qed.
Example ex_quantized : Forall (fun t => t_md t <> None) [mkTobj [1; 2] (Some (mkQmd 2 0 (-128) 127))]. Proof. repeat constructor. discriminate. Qed.

Print Assumptions C89_parameters.
Print Assumptions C89_n_stds_missing.
Print Assumptions C89_clipping_symmetric.
Print Assumptions C89_read_clipping.
Print Assumptions C89_read_clipping_refuted.
Print Assumptions C90_output_parameters.
Print Assumptions C90_input_parameters.
Print Assumptions C90_missing_input_statistics.
Print Assumptions C90_quantized_inputs.
