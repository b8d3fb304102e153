(** C89: quantized embeddings. *)
From Coq Require Import String List ZArith QArith Qabs Qround Qpower Bool Arith Lia Lqa Setoid Morphisms.
From Verif Require Import Base Lists StructModel QuantModel QuantSpec QuantProofs PropertiesQuant RangeModel RangeSpec RangeProofs PtqModel PtqSpec PtqProofs EmbModel EmbSpec EmbProofs.
Import ListNotations.

(** C89: after construction with any settings (statistics or not, any clipping) and any history of look-ups, changes of
    the parameters through the wrapper (w_scale, w_zero_point, weight_clipping) and moves between devices, every
    look-up returns for each index the original float row, each weight replaced by what its code under the current
    parameters stands for.  The metadata attached to it are the current parameters unless the parameters were
    changed after a move. *)
Theorem C89_lookup : forall std cfg bits W ops s0 s idx, e_bits cfg = Some bits -> (1 <= bits)%Z ->
  emb_init std cfg W = Ok s0 -> Forall wrapper_op ops -> emb_run cfg ops s0 = Ok s ->
  (forall i, In i idx -> (i < length W)%nat) ->
  exists out md, emb_forward idx s = Ok (out, md) /\
  Forall2 (fun i row => Forall2 (stored bits (e_mode cfg) (b_par s)) (nth i W []) row) idx out /\
  (no_change_after_move ops -> md = b_par s).
Proof.
  intros std cfg bits W ops s0 s idx Hb Hb1 H0 Hw Hr Hidx. destruct (emb_init_inv _ _ _ _ _ Hb H0) as [Hi Hl].
  pose proof (emb_run_inv _ _ _ _ Hb _ _ Hi Hw Hr) as [E1 E2 E3].
  assert (K : exists rows, mapM (fun i => match nth_error (b_weight s) i with Some r => Ok r | None => Raise IndexError end) idx = Ok rows /\
    rows = map (fun i => map (fun x => linear_quantize_clamp x (fst (b_par s)) (snd (b_par s)) (Zq (code_min bits (e_mode cfg))) (Zq (code_max bits (e_mode cfg)))) (nth i W [])) idx).
  { rewrite E1. clear - Hidx. induction idx as [|i idx IH].
    - exists []. auto.
    - destruct IH as (rows & A & ->). { intros j Hj. apply Hidx. right; auto. }
      eexists. split; [|reflexivity]. cbn [mapM map]. rewrite quant_table_nth by (apply Hidx; left; auto). cbn [bind]. rewrite A. reflexivity. }
  destruct K as (rows & A & B). unfold emb_forward. rewrite A. cbn [bind]. eexists _, _. split; [reflexivity|]. split.
  - subst rows. clear - Hb1. induction idx as [|i idx IH]; cbn [map]; constructor; auto. apply row_stored; auto.
  - intro Hn. apply (emb_run_md _ _ _ _ Hb _ _ Hw Hi Hl Hn Hr).
Qed.

(** C89: an index outside the table is an IndexError. *)
Theorem C89_bad_index : forall std cfg bits W ops s0 s i, e_bits cfg = Some bits ->
  emb_init std cfg W = Ok s0 -> Forall wrapper_op ops -> emb_run cfg ops s0 = Ok s -> (length W <= i)%nat ->
  emb_forward [i] s = Raise IndexError.
Proof.
  intros std cfg bits W ops s0 s i Hb H0 Hw Hr Hi. destruct (emb_init_inv _ _ _ _ _ Hb H0) as [I0 _].
  pose proof (emb_run_inv _ _ _ _ Hb _ _ I0 Hw Hr) as [E1 E2 E3]. unfold emb_forward. cbn [mapM]. rewrite E1.
  assert (nth_error (quant_table bits (e_mode cfg) (b_par s) W) i = None) as ->.
  { apply nth_error_None. unfold quant_table. rewrite map_length. auto. }
  reflexivity.
Qed.

(** C89: the next layer, which quantizes its input with the metadata of the look-up, gets back exactly the stored
    codes: no second rounding. *)
Theorem C89_next_layer : forall std cfg bits W ops s0 s idx out md, e_bits cfg = Some bits -> mode_ok bits (PM (e_mode cfg)) ->
  emb_init std cfg W = Ok s0 -> Forall wrapper_op ops -> no_change_after_move ops -> emb_run cfg ops s0 = Ok s ->
  (forall i, In i idx -> (i < length W)%nat) -> emb_forward idx s = Ok (out, md) ->
  Forall2 (fun i row => Forall2 (fun w v => exists q, is_code bits (e_mode cfg) md w q /\
    linear_quantize_clamp v (fst md) (snd md) (Zq (code_min bits (e_mode cfg))) (Zq (code_max bits (e_mode cfg))) = Zq q) (nth i W []) row) idx out.
Proof.
  intros std cfg bits W ops s0 s idx out md Hb [Hb1 Hr2] H0 Hw Hn Hr Hidx Hf.
  destruct (C89_lookup _ _ _ _ _ _ _ _ Hb Hb1 H0 Hw Hr Hidx) as (out' & md' & E & A & B). rewrite Hf in E. injection E as <- <-.
  rewrite (B Hn). destruct (emb_init_inv _ _ _ _ _ Hb H0) as [Hi Hl].
  assert (Hne : ~ fst (b_par s) == 0).
  { apply (emb_run_ne _ _ _ _ Hb Hb1 _ _ Hi Hw) with (2 := Hr). destruct (init_par _ _ _ _ _ Hb H0) as (mn & mx & Hp).
    destruct (b_par s0) as [a b]. destruct (range_facts bits (e_mode cfg) mn mx a b (conj Hb1 Hr2) Hp) as (k & _ & Hs & _). cbn. lra. }
  eapply F2_impl; [|exact A]. cbv beta. intros i row. apply F2_impl. intros w v (q & Hq & Hv).
  exists q. split; auto. apply requant; auto. apply (code_range _ _ _ _ _ Hb1 Hq).
Qed.

(** C89: without clipping, a look-up in a fresh wrapper is within half a quantization step of every weight; with
    statistics, of every weight in their range. *)
Theorem C89_error : forall std cfg bits W s idx out md, e_bits cfg = Some bits -> mode_ok bits (PM (e_mode cfg)) ->
  e_clip cfg = CNone -> (match e_stats cfg with Some st => st_min st <= st_max st | None => True end) ->
  emb_init std cfg W = Ok s -> emb_forward idx s = Ok (out, md) -> (forall i, In i idx -> (i < length W)%nat) ->
  0 < fst md /\
  Forall2 (fun i row => Forall2 (fun w v =>
     (match e_stats cfg with Some st => st_min st <= w <= st_max st | None => True end) ->
     Qabs (v - w) <= 1 / (2 * fst md)) (nth i W []) row) idx out.
Proof.
  intros std cfg bits W s idx out md Hb Hok Hc Hst H0 Hf Hidx.
  destruct (C89_lookup std cfg bits W [] s s idx Hb (proj1 Hok) H0 (Forall_nil _) eq_refl Hidx) as (out' & md' & E & A & B).
  rewrite Hf in E. injection E as <- <-. rewrite (B I).
  assert (K : exists mn mx, mn <= mx /\ params_from_range bits (PM (e_mode cfg)) mn mx = Ok (b_par s) /\
    forall i w, In i idx -> In w (nth i W []) -> (match e_stats cfg with Some st => st_min st <= w <= st_max st | None => True end) -> mn <= w <= mx).
  { unfold emb_init in H0. rewrite Hb, Hc in H0. inv_bind H0. injection H0 as <-. cbn [b_par]. destruct (e_stats cfg) as [st|].
    - unfold params_from_stats in H. cbn [stats_range bind] in H. inv_bind H. injection H as <-. cbn [fst snd approx_opt] in *.
      exists (st_min st), (st_max st). split; auto. split; [destruct x0; auto|]. auto.
    - unfold params_from_tensor in H. cbn [tensor_range] in H. inv_bind H. inv_bind H0. inv_bind H0. injection H0 as <-. cbn [fst snd] in H.
      destruct (row_min_spec _ _ H1) as [I1 M1]. destruct (row_max_spec _ _ H2) as [I2 M2].
      exists x1, x2. split; [apply M1; auto|]. split; auto. intros i w Hi Hw _.
      assert (In w (concat W)) by (apply in_concat; exists (nth i W []); split; auto; apply nth_In; auto). auto. }
  destruct K as (mn & mx & Hmm & Hp & Hin). destruct (b_par s) as [sc z] eqn:Ep. cbn [fst].
  destruct (params_from_range_spec bits (PM (e_mode cfg)) mn mx sc z I Hok Hmm Hp) as (Hs & _ & _ & Herr & _). split; auto.
  clear - A Hin Herr Hok. revert Hin. induction A as [|i row idx out H A IH]; intro Hin; constructor.
  - assert (Hi : forall w, In w (nth i W []) -> match e_stats cfg with Some st => st_min st <= w <= st_max st | None => True end -> mn <= w <= mx)
      by (intros w Hw; apply (Hin i w); [left|]; auto).
    clear - H Hi Herr Hok. revert Hi. induction H as [|w v ws vs Hx H IH]; intro Hi; constructor; [|apply IH; intros; apply Hi; [right|]; auto].
    intro Hw. destruct (Hi w (or_introl eq_refl) Hw) as [A1 A2]. specialize (Herr w A1 A2).
    rewrite mode_range_code in Herr. unfold fq in Herr. cbn [fst snd] in Herr.
    destruct (lqc_code bits (e_mode cfg) (sc, z) w (proj1 Hok)) as (q' & E' & Hq'). cbn [fst snd] in E'. rewrite E' in Herr.
    destruct Hx as (q & Hq & Hv). assert (q = q').
    { destruct Hq as (a & Ha & ->), Hq' as (b & Hb' & ->). rewrite (is_round_unique _ _ _ Ha Hb'). auto. }
    subst q'. rewrite Hv. exact Herr.
  - apply IH. intros j w Hj. apply Hin. right; auto.
Qed.

(** C89: without the float copy of the weights the parameters cannot be changed through the wrapper. *)
Theorem C89_needs_float_copy : forall std cfg bits W ops s0 s, e_bits cfg = Some bits -> e_save cfg = false ->
  emb_init std cfg W = Ok s0 -> Forall wrapper_op ops -> emb_run cfg ops s0 = Ok s ->
  b_par s = b_par s0 /\
  (forall v, emb_set cfg EScale v s = Raise UnsatisfiedRequirements /\ emb_set cfg EZp v s = Raise UnsatisfiedRequirements) /\
  (forall v p, emb_clip_params bits (e_mode cfg) v = Ok p -> emb_set_clipping cfg v s = Raise UnsatisfiedRequirements).
Proof.
  intros std cfg bits W ops s0 s Hb Hs H0 Hw Hr. destruct (emb_init_inv _ _ _ _ _ Hb H0) as [Hi _].
  pose proof (emb_run_inv _ _ _ _ Hb _ _ Hi Hw Hr) as [E1 E2 E3]. rewrite Hs in E2. split.
  - clear E1 E2 E3 H0. revert s0 Hi Hw Hr. unfold emb_run. induction ops as [|o ops IH]; intros s0 Hi Hw Hr; cbn [foldM] in Hr.
    + injection Hr as <-. auto.
    + inversion_clear Hw. inv_bind Hr. destruct (emb_step_inv _ _ _ _ _ _ Hb Hi H H1) as [A _].
      rewrite (IH x A H0 Hr). destruct Hi as [I1 I2 I3]. rewrite Hs in I2.
      destruct o as [idx|n v|v|n v|]; cbn [emb_step] in H1.
      * inv_bind H1. injection H1 as <-. auto.
      * unfold emb_set in H1. rewrite I2 in H1. destruct n; discriminate.
      * unfold emb_set_clipping in H1. inv_bind H1. unfold emb_set in H1 at 1. rewrite I2 in H1. discriminate.
      * contradiction.
      * injection H1 as <-. auto.
  - split.
    + intro v. unfold emb_set. rewrite E2. auto.
    + intros v p Hp. unfold emb_set_clipping, get_bits. rewrite Hb, Hp. cbn [bind]. unfold emb_set. rewrite E2. reflexivity.
Qed.

(** C89: setting weight_clipping in an asymmetric mode gives exactly the parameters of that range, so that a fresh wrapper with
    statistics of that range would look up the same rows; and values are re-quantized from the float weights whatever
    the settings before. *)
Theorem C89_clipping_asymmetric : forall std cfg bits W ops s0 s a b st, e_bits cfg = Some bits -> e_save cfg = true ->
  e_mode cfg = ASU \/ e_mode cfg = ASS -> a <= b -> st_min st = a -> st_max st = b ->
  emb_init std cfg W = Ok s0 -> Forall wrapper_op ops -> emb_run cfg ops s0 = Ok s ->
  exists s1 s2, emb_set_clipping cfg (CPair a b) s = Ok s1 /\
  emb_init std (mkEcfg (Some bits) (e_mode cfg) (Some st) true CNone None false) W = Ok s2 /\
  b_par s1 = b_par s2 /\ b_weight s1 = b_weight s2.
Proof.
  intros std cfg bits W ops s0 s a b st Hb Hs Hm Hab Ea Eb H0 Hw Hr. destruct (emb_init_inv _ _ _ _ _ Hb H0) as [Hi _].
  pose proof (emb_run_inv _ _ _ _ Hb _ _ Hi Hw Hr) as [E1 E2 E3]. rewrite Hs in E2.
  assert (Esym : is_sym (PM (e_mode cfg)) = false) by (destruct Hm as [-> | ->]; reflexivity).
  assert (Hlt : Qltb b a = false).
  { destruct (Qltb b a) eqn:E; auto. apply Qltb_lt in E. lra. }
  set (p := asym1 bits true (mode_is (PM (e_mode cfg)) ASS) a b).
  assert (Ep : emb_clip_params bits (e_mode cfg) (CPair a b) = Ok p).
  { unfold emb_clip_params. cbn [check_clipping_val bind fst snd]. rewrite Esym. unfold asym_params. cbn [combine existsb fst snd map2].
    rewrite Hlt. reflexivity. }
  assert (Ep2 : params_from_range bits (PM (e_mode cfg)) a b = Ok p).
  { unfold params_from_range. rewrite Esym. unfold asym_params. cbn [combine existsb fst snd map2]. rewrite Hlt. reflexivity. }
  unfold emb_set_clipping, get_bits. rewrite Hb, Ep. cbn [bind]. unfold emb_set at 1. rewrite E2. unfold get_bits. rewrite Hb. cbn [bind].
  unfold emb_set, get_bits. cbn [b_float emb_fill]. rewrite E2, Hb.
  eexists _, _. split; [reflexivity|].
  unfold emb_init. cbn [e_bits e_stats e_mode e_clip e_nstds e_half e_save].
  unfold params_from_stats. cbn [stats_range bind fst snd]. rewrite Ea, Eb, Ep2. cbn [bind approx_opt].
  split; [reflexivity|]. cbn. split; reflexivity.
Qed.

(** C89: changing the scale through the quantizer (PostTrainLinearQuantizer.set_linear_quant_param, as the search of
    quantization parameters does) does not re-quantize the table: every looked-up value is multiplied by old / new
    scale instead. *)
Theorem C89_quantizer_set_refuted : forall s v idx out md, b_linked s = true -> ~ fst (b_par s) == 0 -> ~ v == 0 ->
  emb_forward idx s = Ok (out, md) ->
  exists s' out', emb_quantizer_set EScale v s = Ok s' /\ emb_forward idx s' = Ok (out', (v, snd (b_par s))) /\
  Forall2 (Forall2 (fun x x' => x' == x * (fst (b_par s) / v))) out out'.
Proof.
  intros s v idx out md Hl Hs Hv Hf. unfold emb_quantizer_set. rewrite Hl.
  unfold emb_forward in Hf. inv_bind Hf. eexists _, _. split; [reflexivity|].
  unfold emb_forward. unfold emb_fill. cbn [b_weight b_par b_md fill1]. rewrite Hl. rewrite H. cbn [bind fst snd]. split; [reflexivity|]. injection Hf as <- _. clear H.
  induction x as [|r rows IH]; cbn [map]; constructor; auto. induction r as [|q r IH']; cbn [map]; constructor; auto.
  unfold linear_dequantize. field. auto.
Qed.

(** ... so with a two-fold scale the model computes with halved weights *)
Definition ex_cfg : ecfg := mkEcfg (Some 8%Z) SYMR None true CNone None false.
Definition ex_W : list (list Q) := [[1; -1]; [127 # 127; 0]].
Example ex_emb : exists s0 s, emb_init (fun _ => 0) ex_cfg ex_W = Ok s0 /\
  emb_run ex_cfg [EoLookup [1%nat]; EoMove; EoLookup [0%nat; 1%nat]] s0 = Ok s /\ no_change_after_move [EoLookup [1%nat]; EoMove; EoLookup [0%nat; 1%nat]] /\
  exists o md, emb_forward [0%nat] s = Ok (o, md) /\ map (map Qred) o = [[1; -1]].
Proof. eexists _, _. split; [reflexivity|]. split; [reflexivity|]. split; [cbn; repeat constructor|]. eexists _, _. split; [reflexivity|]. reflexivity. Qed.
Example ex_quantizer_set : exists s0 s o md, emb_init (fun _ => 0) ex_cfg ex_W = Ok s0 /\
  emb_quantizer_set EScale 254 s0 = Ok s /\ emb_forward [0%nat] s = Ok (o, md) /\ map (map Qred) o = [[1 # 2; -1 # 2]] /\
  exists s' o' md', emb_set ex_cfg EScale 254 s0 = Ok s' /\ emb_forward [0%nat] s' = Ok (o', md') /\ map (map Qred) o' = [[1 # 2; -1 # 2]] /\
  exists s'' o'' md'', emb_set ex_cfg EScale 64 s0 = Ok s'' /\ emb_forward [0%nat] s'' = Ok (o'', md'') /\ map (map Qred) o'' = [[1; -1]].
Proof. repeat (eexists || split); reflexivity. Qed.

(** C89: a change after the module moved to another device leaves the metadata of the look-ups at the old values; a change
    through the quantizer then reaches only the metadata. *)
Theorem C89_stale_metadata_refuted : exists s0 s1 o md,
  emb_init (fun _ => 0) ex_cfg ex_W = Ok s0 /\ emb_run ex_cfg [EoMove; EoSet EScale 64] s0 = Ok s1 /\
  emb_forward [0%nat] s1 = Ok (o, md) /\ map (map Qred) o = [[1; -1]] /\ ~ fst md == fst (b_par s1) /\
  exists s2 o2 md2, emb_run ex_cfg [EoMove; EoQuantizerSet EScale 64] s0 = Ok s2 /\ emb_forward [0%nat] s2 = Ok (o2, md2) /\
  fst md2 == 64 /\ fst (b_par s2) == 127.
Proof.
  eexists _, _, _, _. split; [reflexivity|]. split; [reflexivity|]. split; [reflexivity|]. split; [reflexivity|].
  split; [intro K; vm_compute in K; discriminate|]. eexists _, _, _. split; [reflexivity|]. split; [reflexivity|]. split; reflexivity.
Qed.

(** C89: conversion to PyTorch.  With at most 8 bits and without a float copy, the converted module (a float embedding
    followed by a quantization to torch.quint8 with the converted parameters, range not reduced) gives exactly the values of the wrapper. *)
Theorem C89_convert : forall std cfg bits W ops s0 s rnd reduce, e_bits cfg = Some bits -> mode_ok bits (PM (e_mode cfg)) -> (bits <= 8)%Z ->
  e_save cfg = false -> (reduce = false \/ is_sym (PM (e_mode cfg)) = true) -> nearest rnd ->
  emb_init std cfg W = Ok s0 -> Forall wrapper_op ops -> emb_run cfg ops s0 = Ok s ->
  exists tbl c, emb_to_pytorch cfg reduce s = Ok (tbl, c) /\ t_valid QUInt8 c /\
  (forall idx out md, emb_forward idx s = Ok (out, md) ->
     mapM (fun i => match nth_error tbl i with Some r => Ok r | None => Raise IndexError end) idx = Ok out /\
     ((forall i, In i idx -> (i < length W)%nat) ->
      Forall (Forall (fun v => t_dequantize c (t_quantize rnd QUInt8 c v) == v)) out)).
Proof.
  intros std cfg bits W ops s0 s rnd reduce Hb Hok Hb8 Hs Hred Hn H0 Hw Hr. pose proof Hok as [Hb1 _].
  destruct (C89_needs_float_copy _ _ _ _ _ _ _ Hb Hs H0 Hw Hr) as [Epar _].
  destruct (init_par _ _ _ _ _ Hb H0) as (mn & mx & Hp). destruct (b_par s0) as [sc z] eqn:E0. rewrite <- E0 in Epar.
  destruct (range_facts bits (e_mode cfg) mn mx sc z Hok Hp) as (k & Hz & Hsc & Hk & _).
  assert (Ec : qparams_to_pytorch [b_par s] bits (e_mode cfg) QUInt8 reduce = Ok [(1 / sc, (pt_off bits (e_mode cfg) QUInt8 - k)%Z)]).
  { unfold qparams_to_pytorch. cbn [tdtype_eqb]. rewrite Epar, E0, andb_true_r.
    assert (Er : (if is_sym (PM (e_mode cfg)) then false else reduce) = false) by (destruct Hred as [-> | ->]; [destruct (is_sym _)|]; reflexivity).
    rewrite Er. cbn [map]. rewrite (convert1_eq bits (e_mode cfg) QUInt8 sc z k); [reflexivity|discriminate|auto|].
    intro Es. destruct (e_mode cfg); try discriminate; exact Hk. }
  unfold emb_to_pytorch, get_bits. rewrite Hs, Hb, Ec. cbn [bind one_param]. eexists _, _. split; [reflexivity|].
  pose proof (pow2_split bits Hb1) as P2. pose proof (pow2_pos (bits - 1) ltac:(lia)) as P1.
  assert (P8 : (2 ^ bits <= 2 ^ 8)%Z) by (apply Z.pow_le_mono_r; lia). change (2 ^ 8)%Z with 256%Z in P8.
  split.
  { split; cbn [fst snd]; [apply Qlt_shift_div_l; lra|]. unfold zp_range in Hk. destruct (e_mode cfg); cbn [pt_off dt_min dt_max]; lia. }
  intros idx out md Hf. split.
  - unfold emb_forward in Hf. inv_bind Hf. injection Hf as <- _. revert x H. induction idx as [|i idx IH]; intros x H; cbn [mapM] in *.
    + injection H as <-. reflexivity.
    + inv_bind H. inv_bind H. injection H as <-. rewrite nth_error_map. destruct (nth_error (b_weight s) i); [|discriminate].
      injection H1 as ->. cbn [option_map bind]. rewrite (IH _ H2). reflexivity.
  - intro Hidx. destruct (C89_lookup _ _ _ _ _ _ _ _ Hb Hb1 H0 Hw Hr Hidx) as (out' & md' & E & A & _). rewrite Hf in E. injection E as <- <-.
    rewrite Epar, E0 in A. clear - A Hz Hsc Hk Hb1 Hn P1 P2 P8.
    induction A as [|i row idx out H A IH]; constructor; auto. clear A IH.
    induction H as [|w v ws vs (q & Hq & Hv) H IH]; constructor; auto. clear IH H.
    pose proof (code_range _ _ _ _ _ Hb1 Hq) as Hrange. cbn [fst snd] in Hv.
    unfold t_dequantize, t_quantize. cbn [fst snd].
    assert (Er : rnd (v / (1 / sc)) = (q + k)%Z).
    { pose proof (Hn (v / (1 / sc))) as K.
      assert (Eq : v / (1 / sc) == Zq (q + k)) by (rewrite Hv, Hz, Zq_plus; field; lra).
      assert (K2 : Qabs (Zq (rnd (v / (1 / sc)) - (q + k))) <= 1 # 2).
      { rewrite Zq_minus. assert (Eq2 : Zq (rnd (v / (1 / sc))) - Zq (q + k) == Zq (rnd (v / (1 / sc))) - v / (1 / sc)) by (rewrite Eq at 3; reflexivity).
        rewrite Eq2. exact K. }
      apply Qabs_le_inv in K2. destruct K2 as [L1 L2].
      assert (M1 : Zq (rnd (v / (1 / sc)) - (q + k)) < Zq 1) by (rewrite Zq_1; lra).
      assert (M2 : Zq (-1) < Zq (rnd (v / (1 / sc)) - (q + k))) by (change (Zq (-1)) with (-(1)); lra).
      rewrite <- Zq_lt in M1, M2. lia. }
    rewrite Er.
    assert (Em : (Z.min (Z.max (q + k + (pt_off bits (e_mode cfg) QUInt8 - k)) (dt_min QUInt8)) (dt_max QUInt8) - (pt_off bits (e_mode cfg) QUInt8 - k) = q + k)%Z).
    { unfold code_min, code_max in Hrange. destruct (e_mode cfg); cbn [pt_off dt_min dt_max]; lia. }
    rewrite Em, Zq_plus, Hv, Hz. field. lra.
Qed.

(** C89: but a wrapper with a float copy cannot be converted at all. *)
Theorem C89_convert_float_copy_refuted : forall std cfg W s0 reduce, e_save cfg = true -> emb_init std cfg W = Ok s0 ->
  emb_to_pytorch cfg reduce s0 = Raise AttributeError.
Proof. intros std cfg W s0 reduce Hs H. unfold emb_to_pytorch. rewrite Hs. reflexivity. Qed.

(** C89: quantizing activations only (no weight bits) cannot be combined with an embedding. *)
Theorem C89_no_weight_bits_refuted : forall std cfg W, e_bits cfg = None -> emb_init std cfg W = Raise TypeError.
Proof. intros std cfg W H. unfold emb_init. rewrite H. reflexivity. Qed.

Example ex_convert : exists s0 tbl c, emb_init (fun _ => 0) (mkEcfg (Some 8%Z) ASU None false CNone None false) ex_W = Ok s0 /\
  emb_to_pytorch (mkEcfg (Some 8%Z) ASU None false CNone None false) false s0 = Ok (tbl, c).
Proof. eexists _, _, _. split; reflexivity. Qed.

Print Assumptions C89_lookup.
Print Assumptions C89_bad_index.
Print Assumptions C89_next_layer.
Print Assumptions C89_error.
Print Assumptions C89_needs_float_copy.
Print Assumptions C89_clipping_asymmetric.
Print Assumptions C89_quantizer_set_refuted.
Print Assumptions C89_stale_metadata_refuted.
Print Assumptions C89_convert.
Print Assumptions C89_convert_float_copy_refuted.
Print Assumptions C89_no_weight_bits_refuted.
