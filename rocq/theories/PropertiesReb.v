(** C104: rebuilding a quantizer from a checkpoint. *)
From Coq Require Import String List ZArith QArith Qabs Bool Arith Lia Lqa.
From Verif Require Import Base Names StructModel QuantModel RangeModel QzrModel PrepModel PrepSpec PrepProofs ReplModel RebModel RebSpec RebProofs.
Import ListNotations.
Local Open Scope string_scope.
Open Scope list_scope.


Lemma fill_unknown s kw e : fill s kw = Ok e -> forall k, known s k = false -> dget e k = None.
Proof.
  revert e. induction s as [|[k0 d] s IH]; intros e H k K; cbn [fill] in H; [injection H as <-; reflexivity|].
  apply bind_inv in H. destruct H as (v & Hv & H). apply bind_inv in H. destruct H as (e' & He & H). injection H as <-.
  cbn [dget]. cbn [known existsb fst] in K. destruct (String.eqb k k0); [discriminate|]. apply IH; auto.
Qed.
Lemma ptq_inv files kw q md : ptq_new files kw = Ok (q, md) -> exists e m c st d d',
  call ptq_sig kw = Ok e /\
  (arg e "overrides" = VNone /\ d = [] \/ arg e "overrides" = VODict d) /\
  bits_entries (arg e "bits_activations", arg e "bits_parameters", arg e "bits_accum") d = Ok d' /\
  quant_mode (arg e "mode") = Ok m /\ verify_enum clip_named (as_clip (arg e "clip_acts")) = Ok c /\
  ((match c with CNStd => true | _ => false end) && is_none (arg e "clip_n_stds") = false) /\
  stats_arg files (arg e "model_activation_stats") = Ok st /\
  q = mkQuant Ptq VNone (arg e "bits_activations", arg e "bits_parameters", arg e "bits_accum") d' false
            [("mode", VPair (fst m) (snd m)); ("clip_acts", VClip c); ("clip_n_stds", arg e "clip_n_stds");
             ("clip_half_range", arg e "clip_half_range"); ("per_channel_wts", arg e "per_channel_wts");
             ("scale_approx_mult_bits", arg e "scale_approx_mult_bits");
             ("inputs_quant_auto_fallback", arg e "inputs_quant_auto_fallback"); ("fpq_module", arg e "fpq_module");
             ("model_activation_stats", if truth st then st else VDict []);
             ("fp16", arg e "fp16"); ("save_fp_weights", arg e "save_fp_weights"); ("also_clip_weights", arg e "also_clip_weights")] /\
  md = mkMeta Ptq
            [("bits_activations", arg e "bits_activations"); ("bits_parameters", arg e "bits_parameters"); ("bits_accum", arg e "bits_accum");
             ("mode", mode_dict m); ("clip_acts", VStr (clip_name c)); ("clip_n_stds", arg e "clip_n_stds");
             ("clip_half_range", arg e "clip_half_range"); ("per_channel_wts", arg e "per_channel_wts");
             ("scale_approx_mult_bits", arg e "scale_approx_mult_bits");
             ("inputs_quant_auto_fallback", arg e "inputs_quant_auto_fallback"); ("fpq_module", arg e "fpq_module");
             ("model_activation_stats", st); ("overrides", arg e "overrides")].
Proof.
  unfold ptq_new. intros H. apply bind_inv in H. destruct H as (e & He & H). apply bind_inv in H. destruct H as (r & Hr & H).
  destruct (truth (arg e "fp16") && _); [discriminate|]. apply bind_inv in H. destruct H as (m & Hm & H). apply bind_inv in H. destruct H as (c & Hc & H).
  destruct (_ && is_none (arg e "clip_n_stds")) eqn:Ec; [discriminate|]. apply bind_inv in H. destruct H as (st & Hst & H).
  destruct (base_init_shape _ _ _ _ _ _ _ _ Hr) as (d & d' & Ho & Hd & _ & ->). cbn [fst snd q_default q_over] in H. injection H as <- <-.
  exists e, m, c, st, d, d'. repeat split; auto.
Qed.

(* ------------------------------------------------------------------------- *)
(** The quantizer works with the arguments given, or their defaults; modes and the clipping may be named. *)
Theorem C104_ptq_settings files kw q md : new files Ptq kw = Ok (q, md) ->
  q_default q = (given kw "bits_activations" (VInt 8), given kw "bits_parameters" (VInt 8), given kw "bits_accum" (VInt 32)) /\
  (forall k d, In (k, d) [("clip_n_stds", VNone); ("clip_half_range", VBool false); ("per_channel_wts", VBool false);
      ("scale_approx_mult_bits", VNone); ("inputs_quant_auto_fallback", VBool true); ("fpq_module", VNone); ("fp16", VBool false);
      ("save_fp_weights", VBool false); ("also_clip_weights", VBool false)] -> dget (q_set q) k = Some (given kw k d)) /\
  (exists a w, quant_mode (given kw "mode" (VMode SYM)) = Ok (a, w) /\ dget (q_set q) "mode" = Some (VPair a w)) /\
  (exists c, verify_enum clip_named (as_clip (given kw "clip_acts" (VClip CNone))) = Ok c /\ dget (q_set q) "clip_acts" = Some (VClip c)).
Proof.
  cbn [new]. intros H. apply ptq_inv in H. destruct H as (e & m & c & st & d & d' & He & Ho & Hd & Hm & Hc & Hn & Hs & -> & ->).
  assert (G : forall k v, dget ptq_sig k = Some (Some v) -> known ptq_sig k = true -> arg e k = given kw k v).
  { intros k v S K. rewrite (call_arg _ _ _ _ He K), S. reflexivity. }
  cbn [q_default q_set]. split; [|split; [|split]].
  - rewrite !(G "bits_activations" (VInt 8)), (G "bits_parameters" (VInt 8)), (G "bits_accum" (VInt 32)) by reflexivity. reflexivity.
  - intros k v I. cbn [In] in I. repeat (destruct I as [[= <- <-]|I]; [cbn [dget String.eqb Ascii.eqb Bool.eqb]; rewrite G with (v := v) by reflexivity || idtac; try reflexivity; fail|]); try contradiction.
    all: repeat (destruct I as [[= <- <-]|I]; [match goal with |- dget _ ?k = Some (given _ _ ?v) => rewrite <- (G k v) by reflexivity; reflexivity end|]); contradiction.
  - destruct m as [a w]. exists a, w. rewrite <- (G "mode" (VMode SYM)) by reflexivity. split; auto.
  - exists c. rewrite <- (G "clip_acts" (VClip CNone)) by reflexivity. split; auto.
Qed.

(** A post-training quantizer is rebuilt from what it recorded, whatever has become of the files: the same overrides, bits and
    settings, and it records the same; except that fp16, save_fp_weights and also_clip_weights are lost. *)
Theorem C104_ptq_rebuilt files files2 kw q md : (forall s v, files s = Some v -> is_dict v) ->
  new files Ptq kw = Ok (q, md) ->
  exists q', rebuild files2 md true = Ok (q', md) /\ same_but ["fp16"; "save_fp_weights"; "also_clip_weights"] q q' /\ q_optim q' = q_optim q /\
    (forall k, In k ["fp16"; "save_fp_weights"; "also_clip_weights"] -> dget (q_set q') k = Some (VBool false)) /\
    ((forall k, In k ["fp16"; "save_fp_weights"; "also_clip_weights"] -> given kw k (VBool false) = VBool false) -> q' = q).
Proof.
  intros FS H. cbn [new] in H. pose proof H as H0. apply ptq_inv in H. destruct H as (e & m & c & st & d & d' & He & Ho & Hd & Hm & Hc & Hn & Hs & -> & ->).
  assert (G : forall k v, dget ptq_sig k = Some (Some v) -> known ptq_sig k = true -> arg e k = given kw k v).
  { intros k v S K. rewrite (call_arg _ _ _ _ He K), S. reflexivity. }
  assert (S2 : stats_arg files2 st = Ok st).
  { unfold stats_arg in Hs. destruct (arg e "model_activation_stats"); try discriminate; try (injection Hs as <-; reflexivity).
    destruct (files s) as [v|] eqn:F; [|discriminate]. injection Hs as <-. pose proof (FS _ _ F). destruct v; try contradiction; reflexivity. }
  unfold rebuild. cbn [m_type m_params new]. unfold ptq_new.
  match goal with |- context [call ptq_sig ?k] =>
    let r := eval cbn in (call ptq_sig k) in change (call ptq_sig k) with r end.
  cbn [bind]. cbn [arg dget String.eqb Ascii.eqb Bool.eqb].
  assert (BI : base_init Ptq VNone (arg e "bits_activations") (arg e "bits_parameters") (arg e "bits_accum") (arg e "overrides") false =
    Ok (mkQuant Ptq VNone (arg e "bits_activations", arg e "bits_parameters", arg e "bits_accum") d' false [],
        mkMeta Ptq [("bits_activations", arg e "bits_activations"); ("bits_weights", arg e "bits_parameters"); ("bits_bias", arg e "bits_accum"); ("overrides", VODict d)])).
  { unfold base_init. destruct Ho as [(-> & ->)| ->]; cbn [bind andb]; rewrite Hd; reflexivity. }
  rewrite BI. cbn [bind fst snd q_default q_over truth andb]. rewrite mode_roundtrip. cbn [bind].
  rewrite clip_roundtrip. cbn [bind]. rewrite Hn, S2. cbn [bind].
  eexists. split; [reflexivity|]. repeat split.
  - intros k N. cbn [q_set dget]. cbn [In] in N.
    repeat match goal with |- context [String.eqb k ?s] => destruct (String.eqb_spec k s) as [->|]; [try reflexivity; exfalso; tauto|] end. reflexivity.
  - intros k [<-|[<-|[<-|[]]]]; reflexivity.
  - intros D. rewrite (G "fp16" (VBool false)), (G "save_fp_weights" (VBool false)), (G "also_clip_weights" (VBool false)) by reflexivity.
    rewrite !D by (cbn; auto). reflexivity.
Qed.

(** (Finding)  A model quantized with fp16=True is rebuilt as an integer-quantized one. *)
Theorem C104_fp16_refuted : exists q q' md, new (fun _ => None) Ptq [("fp16", VBool true)] = Ok (q, md) /\
  rebuild (fun _ => None) md true = Ok (q', md) /\
  dget (q_set q) "fp16" = Some (VBool true) /\ dget (q_set q') "fp16" = Some (VBool false) /\ dget (q_set q') "fpq_module" = Some VNone /\
  q_default q' = (VInt 8, VInt 8, VInt 32).
Proof. do 3 eexists. split; [vm_compute; reflexivity|]. split; [vm_compute; reflexivity|]. repeat split. Qed.

(** (Finding)  No checkpoint of quantization-aware training can be loaded: the optimizer is not recorded. *)
Theorem C104_training_refuted files files2 c kw q md dummy : new files c kw = Ok (q, md) ->
  (In c [Wrpn; Dorefa; Pact] -> rebuild files2 md dummy = Raise TypeError) /\
  (In c [Qat; Ncf] -> rebuild files2 md dummy = Raise ValueError).
Proof.
  intros H. split; intros I.
  - assert (K : clipped_new c kw = Ok (q, md) /\ (c = Wrpn \/ c = Dorefa \/ c = Pact)) by (destruct I as [<-|[<-|[<-|[]]]]; auto).
    destruct K as [K Hc]. unfold clipped_new in K. apply bind_inv in K. destruct K as (e & He & K). apply bind_inv in K. destruct K as (r & Hr & K).
    destruct (base_init_shape _ _ _ _ _ _ _ _ Hr) as (d & d' & _ & _ & _ & ->). injection K as <- <-.
    cbn [snd]. unfold rebuild. cbn [m_type m_params]. destruct Hc as [->|[->| ->]]; reflexivity.
  - assert (K : qat_new c kw = Ok (q, md) /\ (c = Qat \/ c = Ncf)) by (destruct I as [<-|[<-|[]]]; auto).
    destruct K as [K Hc]. unfold qat_new in K. apply bind_inv in K. destruct K as (e & He & K). apply bind_inv in K. destruct K as (r & Hr & K).
    destruct (base_init_shape _ _ _ _ _ _ _ _ Hr) as (d & d' & _ & _ & _ & ->). apply bind_inv in K. destruct K as (m & Hm & K). injection K as <- <-.
    cbn [snd]. unfold rebuild. cbn [m_type m_params]. destruct Hc as [->| ->]; reflexivity.
Qed.

(** With an optimizer added to what was recorded the quantizer is the same again, but for the settings that are not recorded: the
    clipping values of PACT, and the number of bits of the inputs. *)
Theorem C104_by_hand files files2 c kw q md o : new files c kw = Ok (q, md) -> In c [Wrpn; Dorefa; Pact; Qat; Ncf] -> o <> VNone ->
  exists q', new files2 c (("optimizer", o) :: m_params md) = Ok (q', md) /\ q_optim q' = o /\
    same_but (match c with Pact => ["act_clip_init_val"; "act_clip_decay"] | Qat => ["num_bits_inputs"] | _ => [] end) q q'.
Proof.
  intros H I No.
  assert (On : is_none o = false) by (destruct o; auto; congruence).
  assert (BI : forall c a w b d d', bits_entries (a, w, b) d = Ok d' ->
      base_init c o a w b (VODict d) true = Ok (mkQuant c o (a, w, b) d' true [],
        mkMeta c [("bits_activations", a); ("bits_weights", w); ("bits_bias", b); ("overrides", VODict d)])).
  { intros c0 a w b d d' Hb. unfold base_init. cbn [bind]. rewrite On. cbn [andb]. rewrite Hb. reflexivity. }
  assert (CL : In c [Wrpn; Dorefa; Pact] \/ In c [Qat; Ncf]) by (cbn in *; tauto).
  destruct CL as [J|J].
  - assert (K : clipped_new c kw = Ok (q, md) /\ (c = Wrpn \/ c = Dorefa \/ c = Pact)) by (destruct J as [<-|[<-|[<-|[]]]]; auto).
    destruct K as [K Hc]. unfold clipped_new in K. apply bind_inv in K. destruct K as (e & He & K). apply bind_inv in K. destruct K as (r & Hr & K).
    destruct (base_init_shape _ _ _ _ _ _ _ _ Hr) as (d & d' & Ho & Hd & _ & ->). injection K as <- <-. specialize (BI c _ _ _ d d' Hd).
    assert (N : new files2 c = clipped_new c) by (destruct Hc as [->|[->| ->]]; reflexivity).
    rewrite N. unfold clipped_new. cbn [snd m_params].
    destruct Hc as [->|[->| ->]].
    1, 2: match goal with |- context [call clipped_sig ?k] => let r := eval cbn in (call clipped_sig k) in change (call clipped_sig k) with r end;
      cbn [bind arg dget String.eqb Ascii.eqb Bool.eqb]; rewrite BI; cbn [bind fst snd]; eexists; split; [reflexivity|]; repeat split.
    match goal with |- context [call pact_sig ?k] => let r := eval cbn in (call pact_sig k) in change (call pact_sig k) with r end.
    cbn [bind arg dget String.eqb Ascii.eqb Bool.eqb]; rewrite BI; cbn [bind fst snd]; eexists; split; [reflexivity|]; repeat split.
    intros k N0. cbn [q_set dget]. cbn [In] in N0.
    repeat match goal with |- context [String.eqb k ?s] => destruct (String.eqb_spec k s) as [->|]; [exfalso; tauto|] end. reflexivity.
  - assert (K : qat_new c kw = Ok (q, md) /\ (c = Qat \/ c = Ncf)) by (destruct J as [<-|[<-|[]]]; auto).
    destruct K as [K Hc]. unfold qat_new in K. apply bind_inv in K. destruct K as (e & He & K). apply bind_inv in K. destruct K as (r & Hr & K).
    destruct (base_init_shape _ _ _ _ _ _ _ _ Hr) as (d & d' & Ho & Hd & _ & ->). apply bind_inv in K. destruct K as (m & Hm & K). injection K as <- <-.
    specialize (BI c _ _ _ d d' Hd).
    destruct Hc as [->| ->]; cbn [new]; unfold qat_new; cbn [snd m_params app].
    + match goal with |- context [call qat_sig ?k] => let r := eval cbn in (call qat_sig k) in change (call qat_sig k) with r end.
      cbn [bind arg dget String.eqb Ascii.eqb Bool.eqb]. rewrite BI. cbn [bind]. rewrite mode_roundtrip. cbn [bind fst snd m_params q_optim q_default q_over].
      eexists. split; [reflexivity|]. repeat split.
      intros k N0. cbn [q_set dget]. cbn [In] in N0.
      repeat match goal with |- context [String.eqb k ?s] => destruct (String.eqb_spec k s) as [->|]; [try reflexivity; exfalso; tauto|] end. reflexivity.
    + assert (NB : arg e "num_bits_inputs" = VNone).
      { unfold arg. unfold call in He. destruct (forallb _ kw); [|discriminate]. rewrite (fill_unknown _ _ _ He); reflexivity. }
      match goal with |- context [call ncf_sig ?k] => let r := eval cbn in (call ncf_sig k) in change (call ncf_sig k) with r end.
      cbn [bind]. cbn [arg dget String.eqb Ascii.eqb Bool.eqb is_none]. rewrite BI. cbn [bind]. rewrite mode_roundtrip.
      cbn [bind fst snd m_params q_optim q_default q_over app].
      eexists. split; [reflexivity|]. repeat split. rewrite NB. cbn [is_none]. reflexivity.
Qed.

(** ** Overrides *)
Lemma entries_bits dq : forall d d', bits_entries dq d = Ok d' -> forall p v', In (p, v') d' -> exists v, In (p, v) d /\ bits_entry dq v = Ok v'.
Proof.
  induction d as [|(k, v) d IH]; intros d' H p v' I; cbn [bits_entries] in H; [injection H as <-; destruct I|].
  apply bind_inv in H. destruct H as (w & Hw & H). apply bind_inv in H. destruct H as (r & Hr & H). injection H as <-.
  destruct I as [[= <- <-]|I]; [exists v; cbn; auto|]. destruct (IH _ Hr _ _ I) as (u & A & B). exists u; cbn; auto.
Qed.
Lemma filter_get (d : env) k x : dget (filter (fun p : string * pv => negb (String.eqb k (fst p))) d) x = if String.eqb k x then None else dget d x.
Proof.
  induction d as [|(a, b) d IH]; cbn; [destruct (String.eqb k x); auto|].
  destruct (String.eqb_spec k a) as [->|N]; cbn.
  - rewrite IH. destruct (String.eqb_spec a x) as [->|M]; auto. destruct (String.eqb_spec x a); [congruence|auto].
  - rewrite IH. destruct (String.eqb_spec x a) as [->|M]; auto. destruct (String.eqb_spec k a); [contradiction|auto].
Qed.
Lemma entry_bits da dw db v v' : bits_entry (da, dw, db) v = Ok v' ->
  dget (entries v') "bits" = Some (VQBits (given (entries v) "bits_activations" da) (given (entries v) "bits_weights" dw) (given (entries v) "bits_bias" db)) /\
  (forall k, ~ In k ["bits"; "bits_activations"; "bits_weights"; "bits_bias"] -> dget (entries v') k = dget (entries v) k) /\
  (forall k, In k ["bits_activations"; "bits_weights"; "bits_bias"] -> dget (entries v') k = None).
Proof.
  intros H. assert (C : exists d, entries v = d /\ exists d', entries v' = d' /\
     d' = dset (filter (fun p : string * pv => negb (String.eqb "bits_bias" (fst p))) (filter (fun p : string * pv => negb (String.eqb "bits_weights" (fst p)))
            (filter (fun p : string * pv => negb (String.eqb "bits_activations" (fst p))) d))) "bits"
            (VQBits (given d "bits_activations" da)
                    (given (filter (fun p : string * pv => negb (String.eqb "bits_activations" (fst p))) d) "bits_weights" dw)
                    (given (filter (fun p : string * pv => negb (String.eqb "bits_weights" (fst p))) (filter (fun p : string * pv => negb (String.eqb "bits_activations" (fst p))) d)) "bits_bias" db))).
  { unfold bits_entry in H. destruct v; try discriminate; (destruct (existsb _ _); [discriminate|]); unfold pop in H; injection H as <-;
      eexists; (split; [reflexivity|]); eexists; split; reflexivity. }
  destruct C as (d & -> & d' & -> & ->). unfold given. rewrite !filter_get. change (String.eqb "bits_activations" "bits_weights") with false.
  change (String.eqb "bits_weights" "bits_bias") with false. change (String.eqb "bits_activations" "bits_bias") with false. cbv iota.
  split; [apply dget_dset_same|]. split.
  - intros k N. cbn [In] in N. rewrite dget_dset_other by tauto. rewrite !filter_get.
    repeat match goal with |- context [String.eqb ?s k] => destruct (String.eqb_spec s k); [exfalso; tauto|] end. reflexivity.
  - intros k I. assert (k <> "bits") by (intros ->; destruct I as [I|[I|[I|[]]]]; discriminate). rewrite dget_dset_other by auto. rewrite !filter_get.
    destruct I as [<-|[<-|[<-|[]]]]; reflexivity.
Qed.

(** Each override ends up with the bits it names, or the default ones, and its other arguments; the bits' own names are removed -
    from the caller's dictionary. *)
Theorem C104_override_bits files c kw q md : new files c kw = Ok (q, md) -> forall p v', In (p, v') (q_over q) ->
  exists v d, dget kw "overrides" = Some (VODict d) /\ In (p, v) d /\
  let '(da, dw, db) := q_default q in
  dget (entries v') "bits" = Some (VQBits (given (entries v) "bits_activations" da) (given (entries v) "bits_weights" dw) (given (entries v) "bits_bias" db)) /\
  (forall k, ~ In k ["bits"; "bits_activations"; "bits_weights"; "bits_bias"] -> dget (entries v') k = dget (entries v) k) /\
  (forall k, In k ["bits_activations"; "bits_weights"; "bits_bias"] -> dget (entries v') k = None).
Proof.
  intros H p v' I.
  assert (B : exists s e c0 o a w b copy r, call s kw = Ok e /\ known s "overrides" = true /\ dget s "overrides" = Some (Some VNone) /\
     base_init c0 o a w b (arg e "overrides") copy = Ok r /\ q_default q = q_default (fst r) /\ q_over q = q_over (fst r)).
  { destruct c; cbn [new] in H.
    - unfold base_new in H. apply bind_inv in H. destruct H as (e & He & H). do 9 eexists. split; [exact He|]. split; [reflexivity|]. split; [reflexivity|]. split; [exact H|]. auto.
    - unfold clipped_new in H. apply bind_inv in H. destruct H as (e & He & H). apply bind_inv in H. destruct H as (r & Hr & H). injection H as <- _.
      do 9 eexists. split; [exact He|]. split; [reflexivity|]. split; [reflexivity|]. split; [exact Hr|]. auto.
    - unfold clipped_new in H. apply bind_inv in H. destruct H as (e & He & H). apply bind_inv in H. destruct H as (r & Hr & H). injection H as <- _.
      do 9 eexists. split; [exact He|]. split; [reflexivity|]. split; [reflexivity|]. split; [exact Hr|]. auto.
    - unfold clipped_new in H. apply bind_inv in H. destruct H as (e & He & H). apply bind_inv in H. destruct H as (r & Hr & H). injection H as <- _.
      do 9 eexists. split; [exact He|]. split; [reflexivity|]. split; [reflexivity|]. split; [exact Hr|]. auto.
    - unfold qat_new in H. apply bind_inv in H. destruct H as (e & He & H). apply bind_inv in H. destruct H as (r & Hr & H). apply bind_inv in H. destruct H as (m & Hm & H). injection H as <- _.
      do 9 eexists. split; [exact He|]. split; [reflexivity|]. split; [reflexivity|]. split; [exact Hr|]. auto.
    - unfold qat_new in H. apply bind_inv in H. destruct H as (e & He & H). apply bind_inv in H. destruct H as (r & Hr & H). apply bind_inv in H. destruct H as (m & Hm & H). injection H as <- _.
      do 9 eexists. split; [exact He|]. split; [reflexivity|]. split; [reflexivity|]. split; [exact Hr|]. auto.
    - unfold ptq_new in H. apply bind_inv in H. destruct H as (e & He & H). apply bind_inv in H. destruct H as (r & Hr & H).
      destruct (truth (arg e "fp16") && _); [discriminate|]. apply bind_inv in H. destruct H as (m & Hm & H). apply bind_inv in H. destruct H as (cc & Hc & H).
      destruct (_ && is_none (arg e "clip_n_stds")); [discriminate|]. apply bind_inv in H. destruct H as (st & Hst & H). injection H as <- _.
      do 9 eexists. split; [exact He|]. split; [reflexivity|]. split; [reflexivity|]. split; [exact Hr|]. auto. }
  destruct B as (s & e & c0 & o & a & w & b & copy & r & He & Kn & Df & Hr & E1 & E2).
  destruct (base_init_shape _ _ _ _ _ _ _ _ Hr) as (d & d' & Ho & Hd & _ & ->). cbn [fst q_default q_over] in *. rewrite E1. rewrite E2 in I.
  destruct (entries_bits _ _ _ Hd _ _ I) as (v & Iv & Hv). exists v, d. split; [|split; [exact Iv|apply entry_bits; exact Hv]].
  destruct Ho as [(_ & ->)|Ho]; [destruct Iv|]. rewrite (call_arg _ _ _ _ He Kn), Df in Ho. destruct (dget kw "overrides"); congruence.
Qed.

(** (Finding)  Hence a second quantizer made with the same dictionary of overrides uses its default bits for all of them. *)
Theorem C104_overrides_consumed_refuted files c kw q md files2 c2 kw2 q2 md2 :
  new files c kw = Ok (q, md) -> dget kw2 "overrides" = Some (VODict (q_over q)) -> new files2 c2 kw2 = Ok (q2, md2) ->
  forall p v, In (p, v) (q_over q2) -> let '(da, dw, db) := q_default q2 in dget (entries v) "bits" = Some (VQBits da dw db).
Proof.
  intros H1 O H2 p v I. destruct (C104_override_bits _ _ _ _ _ H2 _ _ I) as (v1 & d & O' & I1 & A).
  rewrite O in O'. injection O' as <-. destruct (q_default q2) as [[da dw] db]. destruct A as (A & _).
  destruct (C104_override_bits _ _ _ _ _ H1 _ _ I1) as (v0 & d0 & _ & _ & B). destruct (q_default q) as [[x y] z]. destruct B as (_ & _ & B).
  unfold given in A. rewrite !B in A by (cbn; auto). exact A.
Qed.

(** ** Statistics: the record kept is the one updated by the preparation; preparing a model like the first with it again gives the
    same statistics and the same wrappers. *)
Theorem C104_prepared_again g mods am qm ov st st' ws : folds_distinct mods ->
  NoDup (map (fun e : string * pmod => normalize_module_name (fst e)) mods) -> NoDup (dkeys st) ->
  prepare g mods am st qm ov = Ok (st', ws) -> prepare g mods am st' qm ov = Ok (st', ws).
Proof.
  intros (FD & NE) ND NK H. unfold prepare in *. apply bind_inv in H. destruct H as (s1 & H1 & H). apply bind_inv in H. destruct H as (s2 & H2 & H).
  apply bind_inv in H. destruct H as (w & H3 & H). injection H as <- <-.
  assert (B : bn_stats mods s2 = Ok s2).
  { unfold bn_stats. destruct s2 as [|p s2'] eqn:E2; auto. rewrite <- E2 in *. apply (bn_absent mods); auto; [intros x X; exact X|].
    intros n b F. pose proof H1 as H1'. rewrite bn_stats_pairs in H1' by auto. destruct (bn_pairs_get _ FD _ _ H1') as (A & _).
    specialize (A _ _ (folds_In _ _ _ F)). unfold stats_fusions in H2. destruct s1 as [|q s1'] eqn:E1; [congruence|].
    apply (fusions_keys mods am qm mods _ _ H2). exact A. }
  rewrite B. cbn [bind]. rewrite (fusions_twice mods am qm s1 s2 ND (bn_nodup _ _ _ NE NK H1) H2). cbn [bind].
  rewrite H3. reflexivity.
Qed.

(* ------------------------------------------------------------------------- *)
(** ** Instances *)
Definition ex_over : pv := VODict [("conv1", VODict [("bits_activations", VInt 4); ("clip_acts", VStr "AVG")]); ("fc.*", VDict [("bits_weights", VNone)])].
Definition ex_files (s : string) : option pv := if String.eqb s "stats.yaml" then Some (VODict [("conv1", VElse 1)]) else None.
Definition ex_kw : env := [("overrides", ex_over); ("mode", VDict [("activations", VStr "ASYMMETRIC_UNSIGNED"); ("weights", VMode SYMR)]);
  ("clip_acts", VStr "N_STD"); ("clip_n_stds", VInt 2); ("model_activation_stats", VStr "stats.yaml"); ("per_channel_wts", VBool true)].
Example reb_ex1 : exists q md, new ex_files Ptq ex_kw = Ok (q, md) /\ rebuild (fun _ => None) md true = Ok (q, md) /\
  q_over q = [("conv1", VODict [("clip_acts", VStr "AVG"); ("bits", VQBits (VInt 4) (VInt 8) (VInt 32))]); ("fc.*", VDict [("bits", VQBits (VInt 8) VNone (VInt 32))])].
Proof. do 2 eexists. split; [vm_compute; reflexivity|]. split; [vm_compute; reflexivity|reflexivity]. Qed.
Example reb_ex2 : (forall s v, ex_files s = Some v -> is_dict v) /\
  exists q md, new ex_files Pact [("optimizer", VElse 7); ("overrides", ex_over); ("act_clip_init_val", VInt 4)] = Ok (q, md).
Proof.
  split; [|do 2 eexists; vm_compute; reflexivity]. intros s v. unfold ex_files. destruct (String.eqb s _); [intros [= <-]; exact I|discriminate].
Qed.
(** two layers in a row before activations: the hypotheses of [C104_prepared_again] *)
Definition ex_mods : dict pmod := [("", mkPmod PtOther true None); ("conv", mkPmod PtParam false (Some ["bn"])); ("bn", mkPmod PtIdentity false None);
  ("relu", mkPmod PtRelu false None)].
Definition ex_am : dict adjent := [("conv", mkAdj [] [mkOp "relu" "Relu"]); ("relu", mkAdj [mkOp "conv" "Conv"] [])].
Definition ex_qb (n : string) : string * qbits := (n, mkQb (Some 8%Z) (Some 8%Z) (Some 32%Z)).
Definition ex_qm : dict qbits := map ex_qb ["conv"; "bn"; "relu"; ""].
Definition ex_ls (lo hi : Q) : lstats := mkLs [(0%nat, mkStats lo hi lo hi 0 1 1)] (mkStats lo hi lo hi 0 1 1).
Example reb_ex3 : folds_distinct ex_mods /\ exists st' ws,
  prepare (mkPcfg SYM CNone None false None) ex_mods ex_am [("conv", ex_ls (-1) 1); ("bn", ex_ls (-3) 5); ("relu", ex_ls (-3) 5)] ex_qm [] = Ok (st', ws) /\
  map fst st' = ["conv"; "relu"] /\ prepare (mkPcfg SYM CNone None false None) ex_mods ex_am st' ex_qm [] = Ok (st', ws).
Proof.
  split.
  - split; [|intros n m [H|[H|[H|[H|[]]]]]; injection H as <- <-; discriminate].
    cbn. constructor; [intros [H|[]]; discriminate|]. constructor; [intros []|constructor].
  - do 2 eexists. split; [vm_compute; reflexivity|]. split; vm_compute; reflexivity.
Qed.

Print Assumptions C104_ptq_settings.
Print Assumptions C104_ptq_rebuilt.
Print Assumptions C104_fp16_refuted.
Print Assumptions C104_training_refuted.
Print Assumptions C104_by_hand.
Print Assumptions C104_override_bits.
Print Assumptions C104_overrides_consumed_refuted.
Print Assumptions C104_prepared_again.
