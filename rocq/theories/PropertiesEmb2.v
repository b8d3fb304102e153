(** C90: the floating-point wrapper and the fake-quantization wrapper. *)
From Coq Require Import String List ZArith QArith Qabs Qround Qpower Bool Arith Lia Lqa Setoid Morphisms.
From Verif Require Import Base Lists StructModel QuantModel QuantSpec QuantProofs PropertiesQuant RangeModel RangeSpec RangeProofs PtqModel PtqSpec PtqProofs EmbModel EmbSpec EmbProofs.
Import ListNotations.

(** induction over nested values *)
Lemma pyval_rect2 (P : pyval -> Prop) : (forall d t, P (VTen d t)) -> (forall l, Forall P l -> P (VTup l)) ->
  (forall l, Forall P l -> P (VList l)) -> (forall l, Forall P l -> P (VNamed l)) -> (forall n, P (VOther n)) -> forall v, P v.
Proof.
  intros H1 H2 H3 H4 H5. fix IH 1.
  intros [d t|l|l|l|n].
  - apply H1.
  - apply H2. revert l. fix go 1. intros [|v l]; constructor; [apply IH|apply go].
  - apply H3. revert l. fix go 1. intros [|v l]; constructor; [apply IH|apply go].
  - apply H4. revert l. fix go 1. intros [|v l]; constructor; [apply IH|apply go].
  - apply H5.
Qed.

Lemma dtype_eqb_eq a b : dtype_eqb a b = true <-> a = b.
Proof. destruct a, b; cbn; split; intro H; auto; discriminate. Qed.

Section Cast.
Variable cast : dtype -> Q -> Q.

(** the elements converted one after the other *)
Lemma convert_list d l : Forall (fun v => (no_named v -> exists w, convert_to cast d v = Ok w /\ skeleton w = skeleton v /\
     tensors w = map (fun p : dtype * list Q => (d, if dtype_eqb (fst p) d then snd p else map (cast d) (snd p))) (tensors v)) /\
     (~ no_named v -> convert_to cast d v = Raise TypeError)) l ->
  let go := fix go l := match l with [] => Ok [] | v :: l => do w <- convert_to cast d v; do ws <- go l; Ok (w :: ws) end in
  let nn := fix nn l := match l with [] => True | v :: l => no_named v /\ nn l end in
  (nn l -> exists ws, go l = Ok ws /\ map skeleton ws = map skeleton l /\
     flat_map tensors ws = map (fun p : dtype * list Q => (d, if dtype_eqb (fst p) d then snd p else map (cast d) (snd p))) (flat_map tensors l)) /\
  (~ nn l -> go l = Raise TypeError) /\ ((exists ws, go l = Ok ws) \/ go l = Raise TypeError).
Proof.
  intros F go nn. induction F as [|v l [A B] F IH].
  - cbn. split; [intros _; exists []; auto|]. split; [tauto|left; exists []; auto].
  - destruct IH as (I1 & I2 & I3).
    assert (D : no_named v \/ ~ no_named v).
    { clear. induction v as [d t|l F|l F|l F|n] using pyval_rect2; cbn; auto.
      - induction F as [|v l [H|H] F [IH|IH]]; tauto.
      - induction F as [|v l [H|H] F [IH|IH]]; tauto. }
    split; [|split].
    + intros [Hv Hl]. destruct (A Hv) as (w & E1 & E2 & E3). destruct (I1 Hl) as (ws & G1 & G2 & G3).
      exists (w :: ws). cbn [go]. rewrite E1. cbn [bind]. fold go. rewrite G1. cbn [bind]. split; auto. cbn [map flat_map].
      rewrite E2, G2, E3, G3, map_app. auto.
    + intro N. cbn [go]. destruct D as [Hv|Hv].
      * destruct (A Hv) as (w & E1 & _). rewrite E1. cbn [bind]. fold go. rewrite I2; auto. intro K. apply N. split; auto.
      * rewrite (B Hv). reflexivity.
    + cbn [go]. destruct D as [Hv|Hv].
      * destruct (A Hv) as (w & E1 & _). rewrite E1. cbn [bind]. fold go. destruct I3 as [(ws & ->)| ->]; cbn [bind]; eauto.
      * rewrite (B Hv). auto.
Qed.

(** C90: conversion reaches every tensor at any depth of lists and tuples, keeps the structure, the order and all other
    values, and leaves a tensor that already has the type as it is; a tuple with named fields (a PackedSequence, say)
    anywhere is a TypeError. *)
Theorem C90_convert d v :
  (no_named v -> exists w, convert_to cast d v = Ok w /\ skeleton w = skeleton v /\
     tensors w = map (fun p : dtype * list Q => (d, if dtype_eqb (fst p) d then snd p else map (cast d) (snd p))) (tensors v)) /\
  (~ no_named v -> convert_to cast d v = Raise TypeError).
Proof.
  induction v as [d0 t|l F|l F|l F|n] using pyval_rect2.
  - split; [|cbn; tauto]. intros _. cbn [convert_to]. unfold ten_to. destruct (dtype_eqb d0 d) eqn:E; eexists; (split; [reflexivity|]); cbn; rewrite E; auto.
    apply dtype_eqb_eq in E. subst. auto.
  - destruct (convert_list d l F) as (A & B & _). split.
    + intro N. destruct (A N) as (ws & G1 & G2 & G3). exists (VTup ws). cbn [convert_to]. rewrite G1. cbn [bind skeleton tensors]. rewrite G2. auto.
    + intro N. cbn [convert_to]. rewrite (B N). auto.
  - destruct (convert_list d l F) as (A & B & _). split.
    + intro N. destruct (A N) as (ws & G1 & G2 & G3). exists (VList ws). cbn [convert_to]. rewrite G1. cbn [bind skeleton tensors]. rewrite G2. auto.
    + intro N. cbn [convert_to]. rewrite (B N). auto.
  - split; [cbn; tauto|]. intros _. destruct (convert_list d l F) as (_ & _ & [(ws & G)|G]); cbn [convert_to]; rewrite G; auto.
  - split; [|cbn; tauto]. intros _. exists (VOther n). auto.
Qed.

(** C90: the floating-point wrapper runs the module on inputs all of the chosen precision (the inputs as they are without
    convert_input) and returns the module's result with all tensors in float32 (as it is without return_fp32). *)
Theorem C90_float_wrapper f d (conv ret : bool) ins o : Forall no_named ins -> 
  exists ins', map skeleton ins' = map skeleton ins /\
  flat_map tensors ins' = (if conv then map (fun p : dtype * list Q => (d, if dtype_eqb (fst p) d then snd p else map (cast d) (snd p))) (flat_map tensors ins) else flat_map tensors ins) /\
  (conv = false -> ins' = ins) /\
  (f d ins' = Ok o -> no_named o \/ ret = false -> exists out, fp_forward cast f d conv ret ins = Ok out /\ skeleton out = skeleton o /\
     tensors out = (if ret then map (fun p : dtype * list Q => (F32, if dtype_eqb (fst p) F32 then snd p else map (cast F32) (snd p))) (tensors o) else tensors o)) /\
  (forall e, f d ins' = Raise e -> fp_forward cast f d conv ret ins = Raise e).
Proof.
  intros Hn. assert (Ht : no_named (VTup ins)). { cbn. induction Hn; auto. }
  destruct (proj1 (C90_convert d (VTup ins)) Ht) as (w & E1 & E2 & E3).
  assert (Hw : exists l, w = VTup l) by (destruct w; try discriminate; eauto). destruct Hw as (l & ->).
  assert (K : forall l', (if conv then do v <- convert_to cast d (VTup ins); match v with VTup l => Ok l | _ => Raise TypeError end else Ok ins) = Ok l' ->
     (forall o, f d l' = Ok o -> no_named o \/ ret = false -> exists out, fp_forward cast f d conv ret ins = Ok out /\ skeleton out = skeleton o /\
        tensors out = (if ret then map (fun p : dtype * list Q => (F32, if dtype_eqb (fst p) F32 then snd p else map (cast F32) (snd p))) (tensors o) else tensors o)) /\
     (forall e, f d l' = Raise e -> fp_forward cast f d conv ret ins = Raise e)).
  { intros l' E. unfold fp_forward. rewrite E. cbn [bind]. split.
    - intros o0 Ho Hno. rewrite Ho. cbn [bind]. destruct ret; [|eauto]. destruct Hno as [Hno|]; [|discriminate].
      destruct (proj1 (C90_convert F32 o0) Hno) as (w & G1 & G2 & G3). eauto.
    - intros e He. rewrite He. reflexivity. }
  destruct conv.
  - destruct (K l) as [K1 K2]. { rewrite E1. reflexivity. }
    exists l. cbn in E2, E3. injection E2 as E2. split; auto. split; auto. split; [discriminate|]. split; auto.
  - destruct (K ins eq_refl) as [K1 K2]. exists ins. split; auto.
Qed.
End Cast.

(** C90: only the precisions 16, 32 and 64 exist; anything else, None included, is a KeyError. *)
Theorem C90_precisions s : (s = "16"%string /\ precision s = Ok F16) \/ (s = "32"%string /\ precision s = Ok F32) \/
  (s = "64"%string /\ precision s = Ok F64) \/ precision s = Raise KeyError.
Proof.
  unfold precision. destruct (String.eqb_spec s "16"); [subst; auto|]. destruct (String.eqb_spec s "32"); [subst; auto|].
  destruct (String.eqb_spec s "64"); [subst; auto 6|]. auto.
Qed.
Example ex_precision_none : precision "None" = Raise KeyError. Proof. reflexivity. Qed.

(* ------------------------------------------------------------------------- *)
(** * Fake quantization *)

(** what the module receives for an input: the tensor itself when inputs are not quantized or the tensor is already
    quantized, otherwise the value its code stands for *)
Definition received (cfg : fcfg) (t t' : tobj) (x : list Q) : Prop :=
  t_data t' = t_data t /\
  (f_qin cfg = false -> t' = t /\ x = t_data t) /\
  (f_qin cfg = true -> exists md, t_md t' = Some md /\
     match t_md t with
     | Some md0 => md = md0 /\ x = t_data t
     | None => x = map (fun v => fq v (q_scale md) (q_zp md) (q_lo md) (q_hi md)) (t_data t)
     end).

Lemma fake_prepare_spec cfg bits i t t' x b : fake_prepare cfg bits i t = Ok (t', (x, b)) ->
  received cfg t t' x /\ b = (negb (f_qin cfg) || match t_md t with Some _ => true | None => false end).
Proof.
  unfold fake_prepare, received. destruct (f_qin cfg) eqn:Eq; cbn [negb orb].
  - intro H. inv_bind H. inv_bind H. destruct (t_md t) as [md0|] eqn:Em.
    + assert (x1 = md0). { unfold input_metadata in H1. rewrite Em in H1. destruct (f_ovr cfg i); [discriminate|]. injection H1 as ->. auto. }
      subst x1. injection H as <- <- <-. cbn. split; auto. split; auto. split; [discriminate|]. intros _. eauto.
    + injection H as <- <- <-. cbn. split; auto. split; auto. split; [discriminate|]. intros _. exists x1. split; auto.
  - intro H. injection H as <- <- <-. split; auto. split; auto. split; auto. discriminate.
Qed.

Lemma prepare_all_spec cfg bits l : forall i p, prepare_all cfg bits i l = Ok p ->
  Forall2 (fun t e => received cfg t (fst e) (fst (snd e)) /\ snd (snd e) = (negb (f_qin cfg) || match t_md t with Some _ => true | None => false end)) l p.
Proof.
  induction l as [|t l IH]; intros i p H; cbn [prepare_all] in H.
  - injection H as <-. constructor.
  - inv_bind H. inv_bind H. injection H as <-. constructor; eauto. destruct x as [t' [x b]]. cbn. eapply fake_prepare_spec; eauto.
Qed.

Lemma upd_nth_data y i l : nth_error (map t_data l) i = Some y -> map t_data (upd_nth i (set_data y) l) = map t_data l.
Proof. revert i. induction l as [|t l IH]; intros [|i] H; cbn in *; auto; [injection H as <-; auto|f_equal; auto]. Qed.
Lemma upd_nth_md y i l : map t_md (upd_nth i (set_data y) l) = map t_md l.
Proof. revert i. induction l as [|t l IH]; intros [|i]; cbn; auto. f_equal. auto. Qed.
Lemma upd_nth_other {A} (f : A -> A) i l j : j <> i -> nth_error (upd_nth i f l) j = nth_error l j.
Proof. revert i j. induction l as [|t l IH]; intros [|i] [|j] H; cbn; auto; try congruence. Qed.

(** C90: the module runs on the received inputs; each output value is the value the code of the module's result (after
    the fused ReLU) stands for, under the parameters in the metadata attached to the output.  The metadata of the
    caller's tensors: as received.  The data of the caller's tensors are unchanged, except those of the input of which
    the module's result is a view, when that input went to the module itself and there is no fused ReLU: it is
    overwritten with the output. *)
Theorem C90_fake_forward std rows m cfg bits ins y md ts : f_bits cfg = Some bits -> (1 <= bits)%Z ->
  fake_forward std rows m cfg ins = Ok (y, md, ts) ->
  exists xs acc sc z, md = Some (mkQmd sc z (code_min bits (f_mode cfg)) (code_max bits (f_mode cfg))) /\
  wm_fun m xs = Ok acc /\ Forall2 (stored bits (f_mode cfg) (sc, z)) (map (relu_if (f_half cfg)) acc) y /\
  (exists ts0, Forall2 (fun t (e : tobj * list Q) => received cfg t (fst e) (snd e)) ins (combine ts0 xs) /\ length ts0 = length ins /\ length xs = length ins /\
     map t_md ts = map t_md ts0) /\
  (forall j, match nth_error ins j, nth_error ts j with
             | Some t, Some t' => t_data t' =
                 if (match wm_view m with Some i => Nat.eqb i j | None => false end) && negb (f_half cfg) &&
                    (negb (f_qin cfg) || match t_md t with Some _ => true | None => false end) then y else t_data t
             | None, None => True
             | _, _ => False
             end).
Proof.
  intros Hb Hb1 H. unfold fake_forward in H. rewrite Hb in H. inv_bind H. inv_bind H. inv_bind H.
  rewrite mode_range_code in H. cbn [fst snd] in H.
  pose proof (prepare_all_spec _ _ _ _ _ H0) as P. rename x into p, x0 into acc, x1 into out.
  set (acc' := if f_half cfg then map relu acc else acc) in *.
  assert (Ea : acc' = map (relu_if (f_half cfg)) acc).
  { unfold acc', relu_if. destruct (f_half cfg); auto. symmetry. apply map_id. }
  set (y0 := map (fun v => linear_dequantize (linear_quantize_clamp v (fst out) (snd out) (Zq (code_min bits (f_mode cfg))) (Zq (code_max bits (f_mode cfg)))) (fst out) (snd out)) acc') in *.
  injection H as <- <- <-.
  assert (HP : Forall2 (fun t (e : tobj * list Q) => received cfg t (fst e) (snd e)) ins (combine (map fst p) (map (fun x : tobj * (list Q * bool) => fst (snd x)) p))).
  { clear - P. induction P as [|t e l p' [A B] P IH]; cbn; constructor; auto. }
  assert (HL : length p = length ins) by (symmetry; clear - P; induction P; cbn; auto).
  assert (Hd : forall j, match nth_error ins j, nth_error (map fst p) j with Some t, Some t' => t_data t' = t_data t | None, None => True | _, _ => False end).
  { clear - P. induction P as [|t e l p' [A B] P IH]; intros [|j]; cbn; auto. destruct A; auto. apply IH. }
  assert (Hf : forall j t e, nth_error ins j = Some t -> nth_error p j = Some e -> snd (snd e) = (negb (f_qin cfg) || match t_md t with Some _ => true | None => false end)).
  { clear - P. induction P as [|t e l p' [A B] P IH]; intros [|j] t0 e0; cbn; intros K1 K2; try discriminate; eauto. injection K1 as <-; injection K2 as <-; exact B. }
  exists (map (fun x => fst (snd x)) p), acc, (fst out), (snd out). split; [reflexivity|]. split; auto. split.
  { rewrite <- Ea. unfold y0. pose proof (row_stored bits (f_mode cfg) out acc' Hb1) as K. rewrite map_map in K. destruct out; exact K. }
  split.
  { exists (map fst p). split; [exact HP|]. rewrite !map_length. split; auto. split; auto.
    destruct (wm_view m); auto. destruct (negb (f_half cfg) && _); auto. apply upd_nth_md. }
  intro j. specialize (Hd j). destruct (wm_view m) as [i|]; [|rewrite !andb_false_l; exact Hd].
  destruct (negb (f_half cfg) && match nth_error p i with Some x => snd (snd x) | None => false end) eqn:E.
  - apply andb_true_iff in E. destruct E as [E1 E2]. rewrite E1, andb_true_r. destruct (Nat.eqb_spec i j) as [->|N].
    + destruct (nth_error p j) as [e|] eqn:Ep; [|discriminate].
      destruct (nth_error ins j) as [t|] eqn:Et.
      * rewrite (Hf j t e Et Ep) in E2. rewrite E2. cbn [andb].
        assert (G : nth_error (upd_nth j (set_data y0) (map fst p)) j = Some (set_data y0 (fst e))).
        { clear - Ep. revert j Ep. induction p as [|a p IH]; intros [|j] Ep; cbn in *; try discriminate; auto. injection Ep as ->. auto. }
        rewrite G. reflexivity.
      * apply nth_error_None in Et. assert (j < length p)%nat by (apply nth_error_Some; congruence). lia.
    + rewrite upd_nth_other by auto. exact Hd.
  - destruct (Nat.eqb_spec i j) as [->|N]; [|cbn [andb]; exact Hd]. cbn [andb].
    destruct (nth_error ins j) as [t|] eqn:Et; [|exact Hd]. destruct (nth_error (map fst p) j) as [t'|] eqn:Ep; auto.
    rewrite nth_error_map in Ep. destruct (nth_error p j) as [e|] eqn:Ee; [|discriminate]. cbn [option_map] in Ep. injection Ep as <-.
    rewrite (Hf j t e Et Ee) in E. rewrite E. exact Hd.
Qed.

(** C90: without clipping and scale approximation, each output value is within half a step of the module's result (after
    the fused ReLU): always with dynamic parameters, in the recorded range with statistics. *)
Theorem C90_fake_error std rows m cfg bits ins y md ts : f_bits cfg = Some bits -> mode_ok bits (PM (f_mode cfg)) ->
  f_clip cfg = CNone -> f_approx cfg = None -> (forall t, concat (rows t) = t) ->
  (match f_stats cfg with Some st => st_min st <= st_max st | None => True end) ->
  fake_forward std rows m cfg ins = Ok (y, md, ts) ->
  exists xs acc sc, wm_fun m xs = Ok acc /\ 0 < sc /\ (exists z lo hi, md = Some (mkQmd sc z lo hi)) /\
  Forall2 (fun a v => (match f_stats cfg with Some st => st_min st <= relu_if (f_half cfg) a <= st_max st | None => True end) ->
                      Qabs (v - relu_if (f_half cfg) a) <= 1 / (2 * sc)) acc y.
Proof.
  intros Hb Hok Hc Ha Hrows Hst H. pose proof Hok as [Hb1 _].
  unfold fake_forward in H. rewrite Hb in H. inv_bind H. inv_bind H. inv_bind H. rename x into p, x0 into acc, x1 into out.
  set (acc' := if f_half cfg then map relu acc else acc) in *.
  assert (Ea : acc' = map (relu_if (f_half cfg)) acc).
  { unfold acc', relu_if. destruct (f_half cfg); auto. symmetry. apply map_id. }
  injection H as <- <- _. exists (map (fun x => fst (snd x)) p), acc, (fst out). split; auto.
  assert (K : exists mn mx, mn <= mx /\ params_from_range bits (PM (f_mode cfg)) mn mx = Ok out /\
     forall a, In a acc' -> (match f_stats cfg with Some st => st_min st <= a <= st_max st | None => True end) -> mn <= a <= mx).
  { unfold fake_out_params in H2. rewrite Hc, Ha in H2. destruct (f_stats cfg) as [st|].
    - unfold params_from_stats in H2. cbn [stats_range bind fst snd] in H2. inv_bind H2. injection H2 as <-.
      exists (st_min st), (st_max st). split; auto. split; [destruct x; auto|]. auto.
    - inv_bind H2. injection H2 as <-. unfold params_from_tensor in H. cbn [tensor_range] in H. rewrite Hrows in H. inv_bind H. inv_bind H2. inv_bind H2.
      injection H2 as <-. cbn [fst snd] in H. destruct (row_min_spec _ _ H3) as [I1 M1]. destruct (row_max_spec _ _ H4) as [I2 M2].
      exists x1, x2. split; [apply M1; auto|]. split; [destruct x; exact H|]. auto. }
  destruct K as (mn & mx & Hmm & Hp & Hin). destruct out as [sc z]. cbn [fst snd].
  destruct (params_from_range_spec bits (PM (f_mode cfg)) mn mx sc z I Hok Hmm Hp) as (Hs & _ & _ & Herr & _). split; auto.
  split; [eauto|]. rewrite Ea in Hin |- *. clear - Hin Herr. induction acc as [|a acc IH]; cbn [map]; constructor.
  - intro Hr. destruct (Hin (relu_if (f_half cfg) a)) as [B1 B2]; [left; auto|auto|]. apply (Herr _ B1 B2).
  - apply IH. intros b Hb. apply Hin. right; auto.
Qed.

(** C90: with activations not quantized the wrapper is the module (with the fused ReLU). *)
Theorem C90_fake_pass_through std rows m cfg ins : f_bits cfg = None ->
  fake_forward std rows m cfg ins = do o <- wm_fun m (map t_data ins); Ok (map (relu_if (f_half cfg)) o, None, ins).
Proof.
  intro H. unfold fake_forward. rewrite H. destruct (wm_fun m (map t_data ins)); cbn [bind]; auto. unfold relu_if.
  destruct (f_half cfg); auto. rewrite map_id. auto.
Qed.

(** A residual block: a fake-quantized module whose result is a view (a flatten) of a tensor that is used again. *)
Definition flat : wmod := mkWmod (fun l => Ok (nth 0 l [])) (Some 0%nat).
Definition ex_fcfg : fcfg := mkFcfg (Some 2%Z) ASU CNone None false None None false (fun _ => None) true (fun _ => None).
Theorem C90_view_overwritten_refuted : exists y md ts,
  fake_forward (fun _ => 0) (fun t => [t]) flat ex_fcfg [mkTobj [0; 1 # 2; 3] None] = Ok (y, md, ts) /\
  map Qred y = [0; 0; 3] /\ map (fun t => map Qred (t_data t)) ts = [[0; 0; 3]].
Proof. eexists _, _, _. split; [reflexivity|]. split; reflexivity. Qed.
Example ex_fake : exists y md ts, let m := mkWmod (fun l => Ok (map (fun x => x - 1) (nth 0 l []))) None in
  fake_forward (fun _ => 0) (fun t => [t]) m (mkFcfg (Some 8%Z) SYM CNone None true None (Some (mkStats 0 2 0 2 1 1 1)) true (fun _ => None) true (fun _ => Some (mkStats (- (1)) 3 (-(1)) 3 1 1 1))) [mkTobj [0; 1 # 2; 3] None] = Ok (y, md, ts) /\
  map t_data ts = [[0; 1 # 2; 3]] /\ length y = 3%nat.
Proof. eexists _, _, _. split; [vm_compute; reflexivity|]. split; reflexivity. Qed.
Example ex_float : fp_forward (fun _ q => q) (fun d l => Ok (VList l)) F16 true true [VTen F32 [1]; VTup [VTen I64 [2]; VOther 5]] =
  Ok (VList [VTen F32 [1]; VTup [VTen F32 [2]; VOther 5]]) /\ Forall no_named [VTen F32 [1]; VTup [VTen I64 [2]; VOther 5]].
Proof. split; [reflexivity|]. repeat constructor. Qed.

Print Assumptions C90_convert.
Print Assumptions C90_float_wrapper.
Print Assumptions C90_precisions.
Print Assumptions C90_fake_forward.
Print Assumptions C90_fake_error.
Print Assumptions C90_fake_pass_through.
Print Assumptions C90_view_overwritten_refuted.
