(** Lemmas about the embedding wrapper. *)
From Coq Require Import String List ZArith QArith Qabs Qround Qpower Bool Arith Lia Lqa Setoid Morphisms.
From Verif Require Import Base Lists StructModel QuantModel QuantSpec QuantProofs PropertiesQuant RangeModel RangeSpec RangeProofs PtqModel PtqSpec PtqProofs EmbModel EmbSpec.
Import ListNotations.

Lemma mode_range_code bits m : mode_range bits (PM m) = (code_min bits m, code_max bits m).
Proof. destruct m; unfold mode_range, get_quantized_range, code_min, code_max; cbn [mode_is lqmode_eqb negb]; f_equal; lia. Qed.

Lemma code_le bits m : (1 <= bits)%Z -> (code_min bits m <= 0 <= code_max bits m)%Z.
Proof. intro H. pose proof (mode_range_le bits (PM m) H) as K. rewrite mode_range_code in K. exact K. Qed.

Lemma lqc_code bits m par w : (1 <= bits)%Z ->
  exists q, linear_quantize_clamp w (fst par) (snd par) (Zq (code_min bits m)) (Zq (code_max bits m)) = Zq q /\
  is_code bits m par w q.
Proof.
  intro Hb. pose proof (code_le bits m Hb). unfold linear_quantize_clamp.
  destruct (clamp_Z (linear_quantize w (fst par) (snd par)) (code_min bits m) (code_max bits m) ltac:(lia)) as (c & E & _ & Hc).
  exists c. split; auto. exists (linear_quantize w (fst par) (snd par)). split; [apply rhe_is_round|exact Hc].
Qed.
Lemma code_range bits m par w q : (1 <= bits)%Z -> is_code bits m par w q -> (code_min bits m <= q <= code_max bits m)%Z.
Proof. intros Hb (z & _ & ->). pose proof (code_le bits m Hb). lia. Qed.

(** a row of the table and what it stands for *)
Lemma row_stored bits m par w : (1 <= bits)%Z ->
  Forall2 (stored bits m par) w
    (map (fun q => linear_dequantize q (fst par) (snd par))
       (map (fun x => linear_quantize_clamp x (fst par) (snd par) (Zq (code_min bits m)) (Zq (code_max bits m))) w)).
Proof.
  intro Hb. induction w as [|x w IH]; simpl; constructor; auto.
  destruct (lqc_code bits m par x Hb) as (q & E & K). exists q. split; auto. rewrite E. reflexivity.
Qed.

Lemma quant_table_nth bits m par W i : (i < length W)%nat ->
  nth_error (quant_table bits m par W) i =
  Some (map (fun x => linear_quantize_clamp x (fst par) (snd par) (Zq (code_min bits m)) (Zq (code_max bits m))) (nth i W [])).
Proof.
  intro H. unfold quant_table. rewrite mode_range_code. cbn [fst snd].
  rewrite nth_error_map. rewrite (nth_error_nth' W [] H). reflexivity.
Qed.

(** the invariant of a history *)
Record einv (cfg : ecfg) (bits : Z) (W : list (list Q)) (s : emb) : Prop := mkEinv {
  v_weight : b_weight s = quant_table bits (e_mode cfg) (b_par s) W;
  v_float : b_float s = if e_save cfg then Some W else None;
  v_link : b_linked s = true -> b_md s = b_par s }.

Lemma emb_init_inv std cfg bits W s : e_bits cfg = Some bits -> emb_init std cfg W = Ok s ->
  einv cfg bits W s /\ b_linked s = true.
Proof.
  intros Hb H. unfold emb_init in H. rewrite Hb in H. inv_bind H. injection H as <-. split; auto. constructor; auto.
Qed.

Lemma emb_set_inv cfg bits W n v s s' : e_bits cfg = Some bits -> einv cfg bits W s -> emb_set cfg n v s = Ok s' ->
  einv cfg bits W s' /\ b_linked s' = b_linked s /\ b_par s' = fill1 n v (b_par s) /\ n <> EOther.
Proof.
  intros Hb [E1 E2 E3] H. unfold emb_set in H. unfold get_bits in H. rewrite Hb in H.
  destruct n; try discriminate; destruct (b_float s) as [W'|] eqn:EF; try discriminate;
  injection H as <-; destruct (e_save cfg) eqn:ES; try discriminate; injection E2 as ->;
  (split; [constructor; cbn; auto; [rewrite ES; auto|intro L; rewrite L; auto]|split; [reflexivity|split; [reflexivity|discriminate]]]).
Qed.

Lemma emb_step_inv cfg bits W s o s' : e_bits cfg = Some bits -> einv cfg bits W s -> wrapper_op o ->
  emb_step cfg s o = Ok s' -> einv cfg bits W s' /\ b_linked s' = (match o with EoMove => false | _ => b_linked s end).
Proof.
  intros Hb Hi Hw H. destruct o as [idx|n v|v|n v|]; cbn [emb_step] in H.
  - inv_bind H. injection H as <-. auto.
  - destruct (emb_set_inv _ _ _ _ _ _ _ Hb Hi H) as (A & B & _). auto.
  - unfold emb_set_clipping in H. inv_bind H. inv_bind H.
    destruct (emb_set_inv _ _ _ _ _ _ _ Hb Hi H1) as (A & B & _).
    destruct (emb_set_inv _ _ _ _ _ _ _ Hb A H) as (A' & B' & _). split; auto. congruence.
  - contradiction.
  - injection H as <-. split; auto. destruct Hi as [E1 E2 E3]. constructor; cbn; auto. discriminate.
Qed.

Lemma emb_run_inv cfg bits W ops : e_bits cfg = Some bits -> forall s s', einv cfg bits W s -> Forall wrapper_op ops ->
  emb_run cfg ops s = Ok s' -> einv cfg bits W s'.
Proof.
  intro Hb. unfold emb_run. induction ops as [|o ops IH]; intros s s' Hi Hw H; cbn [foldM] in H.
  - injection H as <-. auto.
  - inversion_clear Hw. inv_bind H. destruct (emb_step_inv _ _ _ _ _ _ Hb Hi H0 H2) as [A _]. eauto.
Qed.

(** the metadata *)
Lemma emb_run_unchanged cfg bits W ops : e_bits cfg = Some bits -> forall s s', Forall wrapper_op ops ->
  einv cfg bits W s -> Forall (fun o => changes o = false) ops -> emb_run cfg ops s = Ok s' ->
  b_md s = b_par s -> b_md s' = b_par s'.
Proof.
  intro Hb. unfold emb_run. induction ops as [|o ops IH]; intros s s' Hw Hi Hc H E; cbn [foldM] in H.
  - injection H as <-. auto.
  - inversion_clear Hw. inversion_clear Hc. inv_bind H. destruct (emb_step_inv _ _ _ _ _ _ Hb Hi H0 H4) as [A _].
    apply (IH x s'); auto. destruct o; try discriminate; cbn [emb_step] in H4.
    + inv_bind H4. injection H4 as <-. auto.
    + injection H4 as <-. auto.
Qed.
Lemma emb_run_md cfg bits W ops : e_bits cfg = Some bits -> forall s s', Forall wrapper_op ops ->
  einv cfg bits W s -> b_linked s = true -> no_change_after_move ops -> emb_run cfg ops s = Ok s' -> b_md s' = b_par s'.
Proof.
  intro Hb. induction ops as [|o ops IH]; intros s s' Hw Hi Hl Hn H.
  - injection H as <-. destruct Hi; auto.
  - unfold emb_run in H. cbn [foldM] in H. inv_bind H. inversion_clear Hw.
    destruct (emb_step_inv _ _ _ _ _ _ Hb Hi H1 H0) as [A L].
    destruct o; cbn [no_change_after_move] in Hn; try (apply (IH x s'); auto; congruence).
    apply (emb_run_unchanged cfg bits W ops Hb x s'); auto. cbn [emb_step] in H0. injection H0 as <-.
    cbn. destruct Hi; auto.
Qed.

(** * Scales stay non-zero *)
Lemma sym1_ne bits sat : (1 <= bits)%Z -> ~ fst (sym1 bits false sat) == 0.
Proof.
  intro Hb. unfold sym1. cbn [fst]. pose proof (pow2_ge2 bits Hb).
  assert (Hn : 0 < sym_n bits false).
  { unfold sym_n. apply Qlt_shift_div_l; [lra|]. assert (0 < Zq (2 ^ bits - 1)) by (apply Zq_pos; lia). lra. }
  destruct (Qeq_bool sat 0) eqn:E.
  - intro K. assert (sym_n bits false / sym_n bits false == 1) by (field; lra). lra.
  - intro K. assert (Hs : ~ sat == 0) by (intro K'; apply Qeq_bool_iff in K'; congruence).
    assert (sym_n bits false == sym_n bits false / sat * sat) by (field; auto). rewrite K in H0. lra.
Qed.
Lemma asym1_ne bits sg mn mx : (1 <= bits)%Z -> ~ fst (asym1 bits true sg mn mx) == 0.
Proof.
  intro Hb. unfold asym1. cbn [fst]. pose proof (pow2_ge2 bits Hb).
  assert (Hn : 0 < Zq (2 ^ bits - 1)) by (apply Zq_pos; lia). set (n := Zq (2 ^ bits - 1)) in *.
  destruct (Qeq_bool (qmax mx 0 - qmin mn 0) 0) eqn:E.
  - intro K. assert (n / n == 1) by (field; lra). lra.
  - set (d := qmax mx 0 - qmin mn 0) in *. assert (Hs : ~ d == 0) by (intro K'; apply Qeq_bool_iff in K'; congruence).
    intro K. assert (n == n / d * d) by (field; auto). rewrite K in H0. lra.
Qed.
Lemma emb_clip_params_ne bits m v p : (1 <= bits)%Z -> emb_clip_params bits m v = Ok p -> ~ fst p == 0.
Proof.
  intros Hb H. unfold emb_clip_params in H. inv_bind H. inv_bind H. destruct (is_sym (PM m)).
  - unfold sym_params in H1. destruct (existsb _ _); [discriminate|]. injection H1 as <-. cbn [map first_param] in H.
    injection H as <-. apply sym1_ne; auto.
  - unfold asym_params in H1. destruct (existsb _ _); [discriminate|]. injection H1 as <-. cbn [map2 first_param] in H.
    injection H as <-. apply asym1_ne; auto.
Qed.

Lemma init_par std cfg bits W s : e_bits cfg = Some bits -> emb_init std cfg W = Ok s ->
  exists mn mx, params_from_range bits (PM (e_mode cfg)) mn mx = Ok (b_par s).
Proof.
  intros Hb H. unfold emb_init in H. rewrite Hb in H. inv_bind H. injection H as <-. cbn [b_par].
  destruct (e_stats cfg).
  - unfold params_from_stats in H0. inv_bind H0. inv_bind H0. injection H0 as <-. destruct x1 as [a b]. cbn [approx_opt fst snd] in *. eauto.
  - unfold params_from_tensor in H0. inv_bind H0. eauto.
Qed.

Lemma emb_step_ne cfg bits W s o s' : e_bits cfg = Some bits -> (1 <= bits)%Z -> einv cfg bits W s -> wrapper_op o ->
  ~ fst (b_par s) == 0 -> emb_step cfg s o = Ok s' -> ~ fst (b_par s') == 0.
Proof.
  intros Hb Hb1 Hi Hw Hn H. destruct o as [idx|n v|v|n v|]; cbn [emb_step] in H.
  - inv_bind H. injection H as <-. auto.
  - destruct (emb_set_inv _ _ _ _ _ _ _ Hb Hi H) as (_ & _ & E & _). rewrite E. destruct n; cbn; auto.
  - unfold emb_set_clipping in H. inv_bind H. inv_bind H. unfold get_bits in H0. rewrite Hb in H0.
    destruct (emb_set_inv _ _ _ _ _ _ _ Hb Hi H1) as (A & _ & E & _).
    destruct (emb_set_inv _ _ _ _ _ _ _ Hb A H) as (_ & _ & E' & _). rewrite E', E. cbn.
    apply (emb_clip_params_ne _ _ _ _ Hb1 H0).
  - contradiction.
  - injection H as <-. auto.
Qed.
Lemma emb_run_ne cfg bits W ops : e_bits cfg = Some bits -> (1 <= bits)%Z -> forall s s', einv cfg bits W s -> Forall wrapper_op ops ->
  ~ fst (b_par s) == 0 -> emb_run cfg ops s = Ok s' -> ~ fst (b_par s') == 0.
Proof.
  intros Hb Hb1. unfold emb_run. induction ops as [|o ops IH]; intros s s' Hi Hw Hn H; cbn [foldM] in H.
  - injection H as <-. auto.
  - inversion_clear Hw. inv_bind H. destruct (emb_step_inv _ _ _ _ _ _ Hb Hi H0 H2) as [A _].
    pose proof (emb_step_ne _ _ _ _ _ _ Hb Hb1 Hi H0 Hn H2). eauto.
Qed.

Lemma F2_impl {A B} (P R : A -> B -> Prop) l l' : (forall a b, P a b -> R a b) -> Forall2 P l l' -> Forall2 R l l'.
Proof. intros H F. induction F; constructor; auto. Qed.

(** quantizing a stored value again *)
Lemma requant s z lo hi q v : ~ s == 0 -> (lo <= q <= hi)%Z -> v == (Zq q + z) / s ->
  linear_quantize_clamp v s z (Zq lo) (Zq hi) = Zq q.
Proof.
  intros Hs Hq Hv. unfold linear_quantize_clamp, linear_quantize.
  assert (E : rhe (s * v - z) = q).
  { rewrite <- (rhe_Z q). apply rhe_Proper. rewrite Hv. field. auto. }
  rewrite E. destruct (clamp_Z q lo hi ltac:(lia)) as (c & E1 & _ & ->). rewrite E1. f_equal. lia.
Qed.
