(** C91: the wrapper that replaces a module.  C92: the command line. *)
From Coq Require Import String Ascii List ZArith QArith Qabs Bool Arith Lia.
From Verif Require Import Base Names Lists StructModel QuantModel RangeModel QzrModel QzrSpec PrepModel EmbModel ReplModel ReplSpec PropertiesQzr.
Import ListNotations.
Local Open Scope string_scope.
Open Scope list_scope.

Lemma mem_str_in l s : mem_str l s = true <-> In s l.
Proof.
  unfold mem_str. rewrite existsb_exists. split.
  - intros (x & I & E). apply String.eqb_eq in E. subst. auto.
  - intro I. exists s. split; auto. apply String.eqb_refl.
Qed.

Lemma params_accepted t f k : factory_of t = Some f -> (In k (params_of f) <-> accepted_by t k).
Proof.
  intro H. unfold accepted_by, no_wrapper_class. destruct t; cbn in H; try discriminate; injection H as <-; cbn [params_of In];
    (split; [intro I; repeat (destruct I as [<-|I]); try contradiction; cbn; tauto || (intuition congruence)|]);
    intros [I|[[I N]|[[I N]|[[I N]|[I N]]]]]; cbn in I; try (destruct N; congruence); intuition (subst; auto 20; try congruence).
Qed.

Section Weights.
Variable wp : option Z -> lqmode -> clipmode -> option Q -> bool -> res unit.
Variable ep : Z -> lqmode -> clipmode -> option Q -> bool -> res unit.
Notation replacement := (replacement wp ep).

(** C91: an override argument that means nothing for the class of a module is refused: the model cannot be prepared. *)
Theorem C91_unknown_argument z t kids st pw q w k : factory_of t <> None -> In k (wkeys w) -> ~ accepted_by t k ->
  replacement z t kids st pw q w = Raise TypeError.
Proof.
  intros Hf Hk Ha. unfold ReplModel.replacement. destruct (factory_of t) as [f|] eqn:E; [|congruence].
  destruct (wkeys w) as [|k0 l] eqn:Ek; [destruct Hk|]. rewrite andb_false_r. unfold run_factory.
  replace (existsb _ _) with true; auto. symmetry. apply existsb_exists. exists k. rewrite Ek. split; auto.
  apply negb_true_iff. destruct (mem_str (params_of f) k) eqn:M; auto. exfalso. apply Ha. eapply params_accepted; eauto. apply mem_str_in; auto.
Qed.

Lemma asked_eq z w : check_fp16 (dflt (w_fp16 w) (z_fp16 z)) (dflt (w_fpq w) (z_fpq z)) = asked z w.
Proof.
  unfold check_fp16, asked, dflt. destruct (w_fp16 w) as [[]|], (w_fpq w) as [v|], (z_fp16 z); try (destruct (fpq_true v) eqn:E); try (destruct (fpq_true (z_fpq z)) eqn:E0); auto.
Qed.

Lemma clip_chosen z w c : verify_enum clip_named (match w_clip w with Some v => if falsy_enum v then ENum (z_clip z) else v | None => ENum (z_clip z) end) = Ok c ->
  chosen_clip (w_clip w) (z_clip z) c.
Proof.
  unfold chosen_clip. destruct (w_clip w) as [[a|s| |]|]; cbn; try (intros [= ->]; auto; fail); try discriminate.
  destruct s as [|a s]; [intros [= ->]; auto|]. cbn [verify_enum]. unfold clip_named.
  destruct (String.eqb_spec (String a s) "NONE") as [->|_]; [intros [= <-]; auto|].
  destruct (String.eqb_spec (String a s) "AVG") as [->|_]; [intros [= <-]; auto|].
  destruct (String.eqb_spec (String a s) "N_STD") as [->|_]; [intros [= <-]; auto|].
  destruct (String.eqb_spec (String a s) "GAUSS") as [->|_]; [intros [= <-]; auto|].
  destruct (String.eqb_spec (String a s) "LAPLACE") as [->|_]; [intros [= <-]; auto 6|]. discriminate.
Qed.

Lemma enum_means e m : verify_enum mode_named e = Ok m -> means_mode e m.
Proof.
  unfold means_mode. destruct e as [a|s| |]; cbn; try discriminate; [intros [= ->]; auto|]. unfold mode_named.
  destruct (String.eqb_spec s "SYMMETRIC") as [->|_]; [intros [= <-]; right; eexists; cbn; auto 12|].
  destruct (String.eqb_spec s "ASYMMETRIC_UNSIGNED") as [->|_]; [intros [= <-]; right; eexists; cbn; auto 12|].
  destruct (String.eqb_spec s "ASYMMETRIC_SIGNED") as [->|_]; [intros [= <-]; right; eexists; cbn; auto 12|].
  destruct (String.eqb_spec s "SYMMETRIC_RESTRICTED") as [->|_]; [intros [= <-]; right; eexists; cbn; auto 12|]. discriminate.
Qed.

Lemma mode_chosen o d v : verify_mode (dflt o (MPair (fst d) (snd d))) = Ok v -> chosen_mode o d v.
Proof.
  unfold chosen_mode. destruct o as [[e|a b|a b]|]; cbn.
  - intro H. inv_bind H. injection H as <-. cbn. split; auto. apply enum_means; auto.
  - intro H. inv_bind H. inv_bind H. injection H as <-. split; apply enum_means; auto.
  - intros [= <-]. auto.
  - intros [= <-]. destruct d; auto.
Qed.

Lemma fake_init_inv relu s fpq qin r : fake_init relu s fpq qin = Ok r -> exists s' d, r = RFake s' d qin /\
  (if fpq_true fpq then fpq_dtype fpq = Ok d else d = F32) /\
  a_acts s' = a_acts s /\ a_mode s' = a_mode s /\ a_clip s' = a_clip s /\ a_nstds s' = a_nstds s /\ a_half s' = relu || a_half s /\
  a_approx s' = a_approx s /\ a_inputs s' = a_inputs s /\ a_auto s' = a_auto s /\
  (a_stats s' = a_stats s \/ (relu = true /\ (a_clip s = CGauss \/ a_clip s = CLaplace))).
Proof.
  unfold fake_init. intro H. inv_bind H. inv_bind H. inv_bind H. injection H as <-. eexists _, _. split; [reflexivity|].
  split. { destruct (fpq_true fpq); auto. congruence. }
  repeat (split; [reflexivity|]). cbn. destruct relu; cbn in H0; [|injection H0 as <-; auto].
  unfold is_aciq in H0. destruct (a_clip s); auto; try (injection H0 as <-; auto).
Qed.

(** the keys of a successful replacement *)
Lemma accepted_auto z t kids st pw q w r : replacement z t kids st pw q w = Ok r -> factory_of t <> None ->
  (t = PtParam -> w_auto w = None) /\ (t <> PtParam -> w_mode w = None).
Proof.
  intros H Hf. split; intro Ht.
  - destruct (w_auto w) eqn:E; auto. exfalso. rewrite (C91_unknown_argument z t kids st pw q w "inputs_quant_auto_fallback") in H; auto; try discriminate.
    + unfold wkeys. rewrite E. rewrite !in_app_iff. cbn. auto 20.
    + subst t. unfold accepted_by, no_wrapper_class. cbn. intuition discriminate.
  - destruct (w_mode w) eqn:E; auto. exfalso. rewrite (C91_unknown_argument z t kids st pw q w "mode") in H; auto; try discriminate.
    + unfold wkeys. rewrite E. rewrite !in_app_iff. cbn. auto 20.
    + unfold accepted_by, no_wrapper_class. cbn. intuition (try discriminate; try congruence).
Qed.

(** C91: each setting of the wrapper is the one given for the layer, and where none is given, the quantizer's; the
    number of bits is that of the layer; a fake-quantized ReLU has half range. *)
Theorem C91_settings z t kids st pw q w r : replacement z t kids st pw q w = Ok r ->
  match r with
  | RParam s wts accum pc save also => settings_from z t st q w s /\ t = PtParam /\ q_wts q = Some wts /\ accum = z_accum z /\
      chosen (w_perch w) (z_perch z) pc /\ save = z_save z /\ also = z_also z
  | RNonParam s => settings_from z t st q w s /\ (t = PtEltwise /\ st <> None \/ t = PtMatmul)
  | RFake s d qin => settings_from z t st q w s /\ (if fpq_true (asked z w) then fpq_dtype (asked z w) = Ok d else d = F32) /\
      (no_wrapper_class t -> chosen (w_qin w) true qin) /\ (~ no_wrapper_class t -> qin = false)
  | REmb bits mode clip n half save st' => t = PtEmb /\ q_wts q = Some bits /\ mode = snd (z_mode z) /\ save = z_save z /\ st' = st /\
      if z_also z then chosen (w_clip w) (ENum (z_clip z)) clip /\ chosen (w_nstds w) (z_nstds z) n /\ chosen (w_half w) (z_half z) half
      else clip = ENum CNone /\ n = None /\ half = false
  | RFp d conv => fpq_dtype (asked z w) = Ok d /\ (conv = true <-> t <> PtEmb)
  | RIdent => (t = PtRelu \/ t = PtRelu6) /\ w_ident w = Some true /\ pw = Ok true
  | RSame => factory_of t = None \/ (q_acts q = None /\ q_wts q = None /\ wkeys w = []) \/ (no_wrapper_class t /\ kids = true) \/
      (t = PtEltwise /\ st = None)
  end.
Proof.
  intro H. pose proof (accepted_auto _ _ _ _ _ _ _ _ H) as Hacc. unfold ReplModel.replacement in H.
  destruct (factory_of t) as [f|] eqn:Ef; [|injection H as <-; auto].
  destruct ((match q_acts q, q_wts q with None, None => true | _, _ => false end) && match wkeys w with [] => true | _ => false end) eqn:E0.
  { injection H as <-. right; left. apply andb_true_iff in E0. destruct E0 as [A B]. destruct (q_acts q), (q_wts q), (wkeys w); try discriminate; auto. }
  destruct Hacc as [Ha Hm]; [congruence|].
  unfold run_factory in H. destruct (existsb _ (wkeys w)); [discriminate|]. rewrite asked_eq in H.
  destruct f; cbn [negb] in H.
  - assert (Ht : t = PtParam) by (destruct t; cbn in Ef; congruence). subst t. specialize (Ha eq_refl).
    destruct (fpq_true (asked z w) && negb (dflt (w_fake w) false)) eqn:Efp.
    { inv_bind H. injection H as <-. split; auto. split; auto. intros _ K; discriminate. }
    inv_bind H. inv_bind H. pose proof (clip_chosen _ _ _ H0). pose proof (mode_chosen _ _ _ H1).
    assert (S0 : forall s, a_acts s = q_acts q -> a_mode s = x0 -> a_clip s = x -> a_nstds s = dflt (w_nstds w) (z_nstds z) ->
       a_half s = dflt (w_half w) (z_half z) -> a_approx s = dflt (w_approx w) (z_approx z) -> a_inputs s = dflt (w_inputs w) [] -> a_auto s = z_auto z -> a_stats s = st ->
       settings_from z PtParam st q w s).
    { intros s K1 K2 K3 K4 K5 K6 K7 K8 K9. unfold settings_from, chosen. rewrite K1, K2, K3, K4, K5, K6, K7, K8, K9, Ha. unfold dflt.
      repeat split; auto; try congruence. intros [|]; discriminate. }
    destruct (dflt (w_fake w) false || acts_only q).
    + apply fake_init_inv in H. destruct H as (s' & d & -> & D & K1 & K2 & K3 & K4 & K5 & K6 & K7 & K8 & [K9|[K9 _]]); [|discriminate].
      cbn in *. split; [apply S0; auto|]. split; auto. split; auto. unfold no_wrapper_class. intros; intuition discriminate.
    + unfold param_init in H. inv_bind H. destruct (q_wts q) as [b|] eqn:Ew; [|discriminate]. inv_bind H. injection H as <-.
      split; [apply S0; auto|]. unfold chosen, dflt. auto 10.
  - assert (Ht : t = PtEltwise \/ t = PtMatmul) by (destruct t; cbn in Ef; try discriminate; auto).
    assert (Hne : t <> PtParam /\ t <> PtRelu /\ t <> PtRelu6 /\ t <> PtEmb /\ ~ no_wrapper_class t) by (unfold no_wrapper_class; destruct Ht; subst; intuition discriminate).
    destruct Hne as (N1 & N2 & N3 & N4 & N5). specialize (Hm N1).
    destruct (fpq_true (asked z w) && negb (dflt (w_fake w) false)) eqn:Efp.
    { inv_bind H. injection H as <-. split; auto. split; auto. }
    inv_bind H. pose proof (clip_chosen _ _ _ H0).
    assert (S0 : forall s, a_acts s = q_acts q -> a_mode s = z_mode z -> a_clip s = x -> a_nstds s = dflt (w_nstds w) (z_nstds z) ->
       a_half s = dflt (w_half w) (z_half z) -> a_approx s = dflt (w_approx w) (z_approx z) -> a_inputs s = dflt (w_inputs w) [] -> a_auto s = dflt (w_auto w) (z_auto z) -> a_stats s = st ->
       settings_from z t st q w s).
    { intros s K1 K2 K3 K4 K5 K6 K7 K8 K9. unfold settings_from, chosen. rewrite K1, K2, K3, K4, K5, K6, K7, K8, K9. unfold dflt.
      repeat split; auto; try congruence. intros [|]; congruence. }
    destruct (dflt (w_fake w) false).
    + apply fake_init_inv in H. destruct H as (s' & d & -> & D & K1 & K2 & K3 & K4 & K5 & K6 & K7 & K8 & [K9|[K9 _]]); [|discriminate].
      cbn in *. split; [apply S0; auto|]. split; auto. split; auto. tauto.
    + unfold non_param_init in H. cbn [a_stats] in H. destruct Ht; subst t.
      * destruct st as [ls|]; [|injection H as <-; auto]. inv_bind H. injection H as <-. split; [apply S0; auto|]. left. split; auto. discriminate.
      * destruct st; inv_bind H; injection H as <-; split; auto; apply S0; auto.
  - assert (Ht : t = PtEmb) by (destruct t; cbn in Ef; congruence). subst t.
    destruct (fpq_true (asked z w)).
    { inv_bind H. injection H as <-. split; auto. split; [discriminate|congruence]. }
    unfold emb_wrap in H. destruct (q_wts q) as [b|] eqn:Ew; [|discriminate]. inv_bind H. injection H as <-.
    repeat (split; [reflexivity|]). destruct (z_also z); cbn; unfold chosen, dflt; auto.
  - assert (Ht : no_wrapper_class t) by (unfold no_wrapper_class; destruct t; cbn in Ef; try discriminate; auto).
    assert (Hne : t <> PtParam /\ t <> PtEmb) by (unfold no_wrapper_class in Ht; intuition congruence). destruct Hne as [N1 N2]. specialize (Hm N1).
    inv_bind H. destruct x.
    { injection H as <-. destruct t, (w_ident w) as [[]|]; cbn in H0; try discriminate; auto. }
    destruct kids; [injection H as <-; auto|].
    destruct (negb (dflt (w_fake w) true)).
    { inv_bind H. injection H as <-. split; auto. split; auto. }
    inv_bind H. pose proof (clip_chosen _ _ _ H1).
    apply fake_init_inv in H. destruct H as (s' & d & -> & D & K1 & K2 & K3 & K4 & K5 & K6 & K7 & K8 & K9). cbn in K1, K2, K3, K4, K5, K6, K7, K8, K9.
    split; [|split; [exact D|split; [unfold chosen, dflt; auto|tauto]]].
    unfold settings_from, chosen. rewrite K1, K2, K3, K4, K5, K6, K7, K8.
    split; auto. split; [congruence|]. split; auto. split; auto. split; auto.
    split. { intros A B. destruct t; try congruence; reflexivity. } split. { intros [|]; subst t; auto. }
    split; auto. split; auto. split; auto. destruct K9 as [K9|[K9 K9']]; [left; exact K9|right; split; auto].
    destruct t; cbn in K9; try discriminate; auto.
Qed.

(** C91: which wrapper.  A module runs in floating point (of the precision asked for) iff a precision is asked for and it is
    not to be fake-quantized (for a class without wrapper: iff it is explicitly not to be fake-quantized).  A layer with
    quantized activations but float weights is fake-quantized. *)
Theorem C91_kind z t kids st pw q w r : replacement z t kids st pw q w = Ok r ->
  (t = PtParam \/ t = PtEltwise \/ t = PtMatmul -> q_acts q <> None \/ q_wts q <> None \/ wkeys w <> [] ->
     ((exists d c, r = RFp d c) <-> fpq_true (asked z w) = true /\ w_fake w <> Some true) /\
     ((exists s d qin, r = RFake s d qin) <-> w_fake w = Some true \/ (fpq_true (asked z w) = false /\ t = PtParam /\ q_acts q <> None /\ q_wts q = None))) /\
  (t = PtEmb -> q_acts q <> None \/ q_wts q <> None \/ wkeys w <> [] -> ((exists d c, r = RFp d c) <-> fpq_true (asked z w) = true)) /\
  (no_wrapper_class t -> kids = false -> r <> RIdent -> q_acts q <> None \/ q_wts q <> None \/ wkeys w <> [] ->
     ((exists d c, r = RFp d c) <-> w_fake w = Some false) /\ ((exists s d qin, r = RFake s d qin) <-> w_fake w <> Some false)).
Proof.
  intro H. unfold ReplModel.replacement in H.
  assert (E0 : q_acts q <> None \/ q_wts q <> None \/ wkeys w <> [] ->
     (match q_acts q, q_wts q with None, None => true | _, _ => false end) && match wkeys w with [] => true | _ => false end = false).
  { intros [K|[K|K]]; destruct (q_acts q), (q_wts q), (wkeys w); auto; congruence. }
  split; [|split].
  - intros Ht Hq. assert (Ef : factory_of t = Some FParam /\ t = PtParam \/ factory_of t = Some FNonParam /\ t <> PtParam).
    { destruct Ht as [->|[->| ->]]; [left|right|right]; split; auto; discriminate. }
    assert (Hf : (dflt (w_fake w) false = true <-> w_fake w = Some true)).
    { unfold dflt. destruct (w_fake w) as [[]|]; split; congruence. }
    destruct Ef as [[Ef T]|[Ef T]]; rewrite Ef, (E0 Hq) in H; unfold run_factory in H; destruct (existsb _ (wkeys w)); try discriminate; rewrite asked_eq in H.
    + destruct (fpq_true (asked z w)) eqn:A; destruct (dflt (w_fake w) false) eqn:F; cbn [andb negb orb] in H.
      * inv_bind H. inv_bind H. apply fake_init_inv in H. destruct H as (s' & d & -> & _). split; split.
        -- intros (? & ? & ?); discriminate. -- intros [_ K]. exfalso. apply K, Hf; auto. -- intros _. left. apply Hf; auto. -- eauto.
      * inv_bind H. injection H as <-. split; split; [intros _; split; auto; intro K; apply Hf in K; discriminate|eauto|intros (? & ? & ? & ?); discriminate|].
        intros [K|(K & _)]; [apply Hf in K|]; discriminate.
      * inv_bind H. inv_bind H. apply fake_init_inv in H. destruct H as (s' & d & -> & _). split; split.
        -- intros (? & ? & ?); discriminate. -- intros [K _]. discriminate. -- intros _. left. apply Hf; auto. -- eauto.
      * inv_bind H. inv_bind H. destruct (acts_only q) eqn:Ao.
        -- apply fake_init_inv in H. destruct H as (s' & d & -> & _). split; split; [intros (? & ? & ?); discriminate|intros [K _]; discriminate| |eauto].
           intros _. right. unfold acts_only in Ao. destruct (q_acts q), (q_wts q); try discriminate. split; auto. split; auto. split; auto. discriminate.
        -- unfold param_init in H. inv_bind H. destruct (q_wts q) eqn:W; [|discriminate]. inv_bind H. injection H as <-. split; split;
             [intros (? & ? & ?); discriminate|intros [K _]; discriminate|intros (? & ? & ? & ?); discriminate|].
           intros [K|(_ & _ & _ & K)]; [apply Hf in K|]; discriminate.
    + assert (Q : forall s, non_param_init t s = Ok r -> (forall d c, r <> RFp d c) /\ (forall s d b, r <> RFake s d b)).
      { intros s K. unfold non_param_init in K. assert (r = RSame \/ r = RNonParam s) as [->| ->]; [|split; discriminate|split; discriminate].
        destruct t, (a_stats s); try (inv_bind K); injection K as <-; auto. }
      destruct (fpq_true (asked z w)) eqn:A; destruct (dflt (w_fake w) false) eqn:F; cbn [andb negb orb] in H.
      * inv_bind H. apply fake_init_inv in H. destruct H as (s' & d & -> & _). split; split.
        -- intros (? & ? & ?); discriminate. -- intros [_ K]. exfalso. apply K, Hf; auto. -- intros _. left. apply Hf; auto. -- eauto.
      * inv_bind H. injection H as <-. split; split; [intros _; split; auto; intro K; apply Hf in K; discriminate|eauto|intros (? & ? & ? & ?); discriminate|].
        intros [K|(K & _)]; [apply Hf in K|]; discriminate.
      * inv_bind H. apply fake_init_inv in H. destruct H as (s' & d & -> & _). split; split.
        -- intros (? & ? & ?); discriminate. -- intros [K _]. discriminate. -- intros _. left. apply Hf; auto. -- eauto.
      * inv_bind H. apply Q in H. destruct H as [Q1 Q2]. split; split; [intros (? & ? & ?); exfalso; eapply Q1; eauto|intros [K _]; discriminate|intros (? & ? & ? & ?); exfalso; eapply Q2; eauto|].
        intros [K|(_ & K & _)]; [apply Hf in K; discriminate|congruence].
  - intros -> Hq. cbn [factory_of] in H. rewrite (E0 Hq) in H. unfold run_factory in H. destruct (existsb _ (wkeys w)); [discriminate|]. rewrite asked_eq in H.
    destruct (fpq_true (asked z w)).
    + inv_bind H. injection H as <-. split; eauto.
    + unfold emb_wrap in H. destruct (q_wts q); [|discriminate]. inv_bind H. injection H as <-. split; [intros (? & ? & ?); discriminate|discriminate].
  - intros Ht -> Hid Hq. assert (Ef : factory_of t = Some FFake) by (unfold no_wrapper_class in Ht; destruct Ht as [->|[->|[->| ->]]]; auto).
    rewrite Ef, (E0 Hq) in H. unfold run_factory in H. destruct (existsb _ (wkeys w)); [discriminate|]. rewrite asked_eq in H.
    inv_bind H. destruct x; [injection H as <-; congruence|].
    destruct (w_fake w) as [[]|] eqn:F; cbn [dflt negb] in H.
    + inv_bind H. apply fake_init_inv in H. destruct H as (s' & d & -> & _). split; split; [intros (? & ? & ?); discriminate|discriminate|discriminate|eauto].
    + inv_bind H. injection H as <-. split; split; eauto; [intros (? & ? & ? & ?); discriminate|congruence].
    + inv_bind H. apply fake_init_inv in H. destruct H as (s' & d & -> & _). split; split; [intros (? & ? & ?); discriminate|discriminate|discriminate|eauto].
Qed.

(** C91: the summary of this choice used for C88 agrees with it. *)
Theorem C91_refines z g am sts done n t kids fused q w r :
  z_fp16 z = false -> w_fp16 w = None -> (forall s, z_fpq z <> FStr s) -> (forall s, w_fpq w <> Some (FStr s)) ->
  g_half g = z_half z -> PrepModel.g_fpq g = fpq_z (z_fpq z) ->
  let pw := match dget am n with
            | None => Raise KeyError
            | Some a => match a_preds a with [] => Raise IndexError | p :: _ => match dget done (go_name p) with Some x => Ok (is_rlq x) | None => Raise KeyError end end
            end in
  replacement z t kids (dget sts (normalize_module_name n)) pw q w = Ok r ->
  replace g am sts done n (mkPmod t kids fused) q (to_kw w) = Ok (erase r).
Proof.
  intros Z1 W1 Z2 W2 G1 G2 pw H.
  assert (Hv : forall v d, fpq_dtype (FInt v) = Ok d -> fp_wrapper (Some v) = Ok (WFp (dtype_bits d))).
  { intros v d. unfold fpq_dtype, fp_wrapper. cbn [existsb]. destruct (Z.eqb_spec v 16) as [->|_]; [intros [= <-]; reflexivity|].
    destruct (Z.eqb_spec v 32) as [->|_]; [intros [= <-]; reflexivity|]. destruct (Z.eqb_spec v 64) as [->|_]; [intros [= <-]; reflexivity|discriminate]. }
  assert (Hfp : forall d, fpq_dtype (asked z w) = Ok d -> fp_wrapper (dflt (option_map fpq_z (w_fpq w)) (fpq_z (z_fpq z))) = Ok (WFp (dtype_bits d))).
  { intros d. unfold asked. rewrite Z1, W1. destruct (w_fpq w) as [[|v|s]|]; try (exfalso; eapply W2; eauto; fail); cbn [option_map dflt fpq_z].
    - discriminate.
    - destruct (fpq_true (FInt v)); apply Hv.
    - destruct (z_fpq z) as [|v|s]; try (exfalso; eapply Z2; eauto; fail); cbn [fpq_z]; [discriminate|]. destruct (fpq_true (FInt v)); apply Hv. }
  assert (Htr : truthy (dflt (option_map fpq_z (w_fpq w)) (fpq_z (z_fpq z))) = fpq_true (asked z w)).
  { unfold asked. rewrite Z1, W1. destruct (w_fpq w) as [[|v|s]|]; try (exfalso; eapply W2; eauto; fail); cbn; auto.
    - destruct (negb (v =? 0)%Z) eqn:Ev; cbn; rewrite Ev; auto.
    - destruct (z_fpq z) as [|v|s]; try (exfalso; eapply Z2; eauto; fail); cbn; auto. destruct (negb (v =? 0)%Z) eqn:Ev; cbn; rewrite Ev; auto. }
  assert (Hke : kw_empty (to_kw w) = match wkeys w with [] => true | _ => false end).
  { unfold kw_empty, to_kw. cbn. destruct (wkeys w) eqn:Ek; [|destruct (w_half w), (w_ident w), (w_fake w), (w_fpq w), (w_qin w); auto].
    unfold wkeys in Ek. repeat (apply app_eq_nil in Ek; destruct Ek as [? Ek]). destruct (w_half w), (w_ident w), (w_fake w), (w_fpq w), (w_qin w); cbn in *; congruence. }
  unfold ReplModel.replacement in H. unfold replace. cbn [pm_type pm_kids].
  change (k_half (to_kw w)) with (w_half w). change (k_ident (to_kw w)) with (w_ident w). change (k_fake (to_kw w)) with (w_fake w).
  change (k_qin (to_kw w)) with (w_qin w). change (k_fpq (to_kw w)) with (option_map fpq_z (w_fpq w)). rewrite G1, G2, Hke.
  destruct (factory_of t) as [f|] eqn:Ef.
  2:{ injection H as <-. destruct t; try discriminate; auto. }
  destruct ((match q_acts q, q_wts q with None, None => true | _, _ => false end) && match wkeys w with [] => true | _ => false end) eqn:E0.
  { injection H as <-. destruct t; try discriminate; auto. }
  unfold run_factory in H. destruct (existsb _ (wkeys w)); [discriminate|]. rewrite asked_eq in H.
  destruct f.
  - assert (t = PtParam) by (destruct t; cbn in Ef; congruence). subst t. rewrite Htr.
    destruct (fpq_true (asked z w) && negb (dflt (w_fake w) false)).
    { inv_bind H. injection H as <-. rewrite (Hfp _ H0). auto. }
    inv_bind H. inv_bind H. fold (acts_only q). destruct (dflt (w_fake w) false || acts_only q).
    + apply fake_init_inv in H. destruct H as (s' & d & -> & D & K1 & K2 & K3 & K4 & K5 & _). cbn in *. rewrite K1, K5. auto.
    + unfold param_init in H. inv_bind H. destruct (q_wts q); [|discriminate]. inv_bind H. injection H as <-. auto.
  - assert (Ht : t = PtEltwise \/ t = PtMatmul) by (destruct t; cbn in Ef; try discriminate; auto).
    assert (K : (if truthy (dflt (option_map fpq_z (w_fpq w)) (fpq_z (z_fpq z))) && negb (dflt (w_fake w) false) then fp_wrapper (dflt (option_map fpq_z (w_fpq w)) (fpq_z (z_fpq z)))
       else if dflt (w_fake w) false then Ok (WFake (q_acts q) (dflt (w_half w) (z_half z)) false)
       else if (match t with PtMatmul => true | _ => false end) || dmem sts (normalize_module_name n) then Ok (WQuant (q_acts q) (dflt (w_half w) (z_half z))) else Ok WSame) = Ok (erase r)).
    { rewrite Htr. destruct (fpq_true (asked z w) && negb (dflt (w_fake w) false)).
      { inv_bind H. injection H as <-. rewrite (Hfp _ H0). auto. }
      inv_bind H. destruct (dflt (w_fake w) false).
      + apply fake_init_inv in H. destruct H as (s' & d & -> & D & K1 & K2 & K3 & K4 & K5 & _). cbn in *. rewrite K1, K5. auto.
      + unfold non_param_init in H. cbn [a_stats] in H. unfold dmem. destruct Ht; subst t; destruct (dget sts (normalize_module_name n)); try (inv_bind H); injection H as <-; auto. }
    destruct Ht; subst t; exact K.
  - assert (t = PtEmb) by (destruct t; cbn in Ef; congruence). subst t. rewrite Htr.
    destruct (fpq_true (asked z w)).
    { inv_bind H. injection H as <-. rewrite (Hfp _ H0). auto. }
    unfold emb_wrap in H. destruct (q_wts q); [|discriminate]. inv_bind H. injection H as <-. auto.
  - assert (K : (do ident <- (if (match t with PtRelu | PtRelu6 => true | _ => false end) && dflt (w_ident w) false then pw else Ok false);
       if ident then Ok WIdent else if kids then Ok WSame else if negb (dflt (w_fake w) true) then fp_wrapper (dflt (option_map fpq_z (w_fpq w)) (fpq_z (z_fpq z)))
       else Ok (WFake (q_acts q) ((match t with PtRelu | PtRelu6 => true | _ => false end) || dflt (w_half w) (z_half z)) (dflt (w_qin w) true))) = Ok (erase r)).
    { inv_bind H. rewrite H0. cbn [bind]. destruct x; [injection H as <-; auto|]. destruct kids; [injection H as <-; auto|].
      destruct (negb (dflt (w_fake w) true)). { inv_bind H. injection H as <-. rewrite (Hfp _ H1). auto. }
      inv_bind H. apply fake_init_inv in H. destruct H as (s' & d & -> & D & K1 & K2 & K3 & K4 & K5 & _). cbn in *. rewrite K1, K5. auto. }
    destruct t; try discriminate; exact K.
Qed.
End Weights.

Definition kw_none : okw := mkOkw None None None None None None None None None None None None None [].
Definition ex_pq : pq := mkPq (SYM, SYM) CNone None false None false false FNone true 32 false false.
Definition ex_q8 : qbits := mkQb (Some 8%Z) (Some 8%Z) (Some 32%Z).
Definition ex_ls : lstats := mkLs [(0%nat, mkStats (- (1)) 1 (- (1)) 1 0 1 1)] (mkStats (- (2)) 2 (- (2)) 2 0 1 1).

Example ex_replacement : exists s, replacement (fun _ _ _ _ _ => Ok tt) (fun _ _ _ _ _ => Ok tt) ex_pq PtParam false (Some ex_ls) (Ok false) ex_q8
    (mkOkw (Some true) (Some (MOne (EStr "ASYMMETRIC_UNSIGNED"))) None None (Some (EStr "AVG")) None None None None None None None None []) =
  Ok (RParam s 8 32 true false false) /\ a_mode s = (ASU, ASU) /\ a_clip s = CAvg /\ a_acts s = Some 8%Z.
Proof. eexists. split; [vm_compute; reflexivity|]. repeat split. Qed.
Example ex_refines : exists r, replacement (fun _ _ _ _ _ => Ok tt) (fun _ _ _ _ _ => Ok tt) ex_pq PtParam false (Some ex_ls) (Ok false) ex_q8 kw_none = Ok r /\ erase r = WQuant (Some 8%Z) false.
Proof. eexists. split; [vm_compute; reflexivity|reflexivity]. Qed.
Example ex_unknown : In "mode" (wkeys (mkOkw None (Some (MOne ENone)) None None None None None None None None None None None [])) /\ ~ accepted_by PtRelu "mode".
Proof. split; [cbn; auto|]. unfold accepted_by, no_wrapper_class. cbn. intuition discriminate. Qed.

Section Findings.
Variable wp : option Z -> lqmode -> clipmode -> option Q -> bool -> res unit.
Variable ep : Z -> lqmode -> clipmode -> option Q -> bool -> res unit.
Notation replacement := (replacement wp ep).

(** C91 (finding): 'fake: False' means a floating-point module; for a module without wrapper and with no precision set this is
    a KeyError. *)
Theorem C91_not_fake_refuted z t st pw q w : no_wrapper_class t -> w_fake w = Some false -> (forall k, In k (wkeys w) -> accepted_by t k) ->
  w_ident w = None -> asked z w = FNone -> replacement z t false st pw q w = Raise KeyError.
Proof.
  intros Ht Hf Hk Hi Ha. unfold ReplModel.replacement.
  assert (Ef : factory_of t = Some FFake) by (unfold no_wrapper_class in Ht; destruct Ht as [->|[->|[->| ->]]]; auto). rewrite Ef.
  assert (Hne : wkeys w <> []). { unfold wkeys. rewrite Hf. cbn. destruct (has (w_perch w) "per_channel_wts"), (has (w_mode w) "mode"), (has (w_fp16 w) "fp16"), (has (w_approx w) "scale_approx_mult_bits"), (has (w_clip w) "clip_acts"), (has (w_nstds w) "clip_n_stds"), (has (w_half w) "clip_half_range"), (has (w_inputs w) "input_overrides"), (has (w_auto w) "inputs_quant_auto_fallback"), (has (w_fpq w) "fpq_module"); discriminate. }
  destruct (wkeys w) as [|k0 l] eqn:Ek; [congruence|]. rewrite andb_false_r. unfold run_factory.
  replace (existsb _ _) with false. { rewrite asked_eq, Ha, Hi, Hf. cbn. rewrite andb_false_r. reflexivity. }
  symmetry. destruct (existsb _ (wkeys w)) eqn:E; auto. apply existsb_exists in E. destruct E as (k & I & E). apply negb_true_iff in E. rewrite Ek in I.
  apply Hk in I. apply (params_accepted t FFake k Ef) in I. apply mem_str_in in I. congruence.
Qed.
Example ex_not_fake : replacement ex_pq PtOther false None (Ok false) ex_q8 (mkOkw None None None None None None None None None None (Some false) None None []) = Raise KeyError.
Proof. reflexivity. Qed.

(** C91 (finding): a layer that is not quantized (bits NONE) but has another override argument is not left alone: a TypeError. *)
Theorem C91_unquantized_with_argument_refuted z st pw q w : (forall k, In k (wkeys w) -> accepted_by PtParam k) -> wkeys w <> [] ->
  q_acts q = None -> q_wts q = None -> asked z w = FNone -> w_fake w <> Some true ->
  (exists c, chosen_clip (w_clip w) (z_clip z) c) -> w_mode w = None ->
  replacement z PtParam false st pw q w = Raise TypeError.
Proof.
  intros Hk Hne Ha Hw Hp Hf [c Hc] Hm. unfold ReplModel.replacement. cbn [factory_of]. rewrite Ha, Hw.
  destruct (wkeys w) as [|k0 l] eqn:Ek; [congruence|]. cbn [andb]. unfold run_factory.
  replace (existsb _ _) with false.
  2:{ symmetry. destruct (existsb _ (wkeys w)) eqn:E; auto. apply existsb_exists in E. destruct E as (k & I & E). apply negb_true_iff in E. rewrite Ek in I.
      apply Hk in I. apply (params_accepted PtParam FParam k eq_refl) in I. apply mem_str_in in I. congruence. }
  rewrite asked_eq, Hp. cbn [fpq_true andb]. unfold acts_only. rewrite Ha, Hw, Hm.
  replace (dflt (w_fake w) false) with false by (destruct (w_fake w) as [[]|]; cbn; congruence). cbn [orb].
  assert (E : exists c, verify_enum clip_named (match w_clip w with Some v => if falsy_enum v then ENum (z_clip z) else v | None => ENum (z_clip z) end) = Ok c).
  { unfold chosen_clip in Hc. destruct (w_clip w) as [[a|s| |]|]; cbn; eauto; [|contradiction]. destruct s as [|a s]; [eexists; reflexivity|].
    cbn [verify_enum]. cbn [In] in Hc.
    repeat (destruct Hc as [Hc|Hc]; [inversion Hc; subst; eexists; reflexivity|]). contradiction. }
  destruct E as [c0 ->]. cbn. reflexivity.
Qed.
Example ex_unquantized : replacement ex_pq PtParam false (Some ex_ls) (Ok false) (mkQb None None None) (mkOkw None None None None (Some (EStr "NONE")) None None None None None None None None []) = Raise TypeError.
Proof. reflexivity. Qed.

(** C91 (finding): the clipping mode of an embedding's override is not verified: given by its name, as in a YAML file, it is a
    KeyError without statistics, and with statistics it is ignored (no clipping) - even if there is no such mode. *)
Theorem C91_embedding_clip_name_refuted z st pw q b s : z_also z = true -> z_fp16 z = false -> z_fpq z = FNone -> q_wts q = Some b ->
  let w := mkOkw None None None None (Some (EStr s)) None None None None None None None None [] in
  match st with
  | None => replacement z PtEmb false st pw q w = Raise KeyError
  | Some ls => z_half z = false -> forall p, params_from_stats (ls_output ls) b (PM (snd (z_mode z))) CNone None false None = Ok p ->
               exists r, replacement z PtEmb false st pw q w = Ok r
  end.
Proof.
  intros Ha Hf Hq Hb w. unfold ReplModel.replacement. cbn [factory_of]. rewrite Hb.
  assert (E : (match q_acts q with Some _ => false | None => false end && match wkeys w with [] => true | _ :: _ => false end) = false) by (destruct (q_acts q); auto).
  destruct st as [ls|]; cbn -[params_from_stats]; rewrite Hf, Hq, Ha; destruct (q_acts q); cbn -[params_from_stats]; try rewrite Hb; auto; cbn -[params_from_stats];
    intros Hh p Hp; unfold params_from_stats in *; cbn [stats_range] in *; cbn [bind] in *; destruct (params_from_range _ _ _ _); try discriminate; cbn [bind]; eauto.
Qed.
Example ex_emb_clip : replacement (mkPq (SYM, SYM) CNone None false None false false FNone true 32 false true) PtEmb false None (Ok false) ex_q8 (mkOkw None None None None (Some (EStr "AVG")) None None None None None None None None []) = Raise KeyError.
Proof. reflexivity. Qed.

(** C91 (finding): 'fp16: True' for a layer is ignored when the quantizer has another precision (for the whole model that
    combination is refused). *)
Theorem C91_fp16_ignored_refuted z pw st q w : z_fpq z = FInt 32 -> w_fpq w = None -> w_fp16 w = Some true -> w_fake w = None ->
  (forall k, In k (wkeys w) -> accepted_by PtParam k) -> replacement z PtParam false st pw q w = Ok (RFp F32 true).
Proof.
  intros Hz Hq Hf Hk Ha. unfold ReplModel.replacement. cbn [factory_of].
  assert (Hne : In "fp16" (wkeys w)). { unfold wkeys. rewrite Hf. rewrite !in_app_iff. cbn. auto 20. }
  destruct (wkeys w) as [|k0 l] eqn:Ek; [destruct Hne|]. rewrite andb_false_r. unfold run_factory.
  replace (existsb _ _) with false.
  2:{ symmetry. destruct (existsb _ (wkeys w)) eqn:E; auto. apply existsb_exists in E. destruct E as (k & I & E). apply negb_true_iff in E. rewrite Ek in I.
      apply Ha in I. apply (params_accepted PtParam FParam k eq_refl) in I. apply mem_str_in in I. congruence. }
  rewrite Hq, Hf, Hk, Hz. reflexivity.
Qed.
Theorem C91_fp16_conflict clip n fpq : clip <> CNStd -> (pq_check clip n true fpq = Raise ValueError <-> ~ (fpq = FNone \/ fpq = FInt 16 \/ fpq = FStr "16" \/ fpq = FStr "None")).
Proof.
  intro Hc. unfold pq_check. cbn [andb]. destruct fpq as [|v|s].
  - cbn. split; [destruct clip; try discriminate; congruence|intro K; exfalso; apply K; auto].
  - destruct (Z.eqb_spec v 16) as [->|N]; cbn.
    + split; [destruct clip; try discriminate; congruence|intro K; exfalso; apply K; auto].
    + split; auto. intros _ [K|[K|[K|K]]]; congruence.
  - destruct (String.eqb_spec s "16") as [->|N1]; cbn; [split; [destruct clip; try discriminate; congruence|intro K; exfalso; apply K; auto]|].
    destruct (String.eqb_spec s "None") as [->|N2]; cbn; [split; [destruct clip; try discriminate; congruence|intro K; exfalso; apply K; auto 6]|].
    split; auto. intros _ [K|[K|[K|K]]]; congruence.
Qed.

(** C91 (finding): with GAUSS or LAPLACE clipping a model with a ReLU that is not fused cannot be prepared without statistics. *)
Theorem C91_relu_aciq_refuted z pw q : z_clip z = CGauss \/ z_clip z = CLaplace -> q_acts q <> None ->
  replacement z PtRelu false None pw q kw_none = Raise TypeError.
Proof.
  intros Hc Hq. unfold ReplModel.replacement. cbn [factory_of]. destruct (q_acts q) as [b|] eqn:E; [|congruence]. cbn.
  destruct Hc as [-> | ->]; cbn; destruct (q_wts q); auto.
Qed.
End Findings.

(** C91 (finding): building a wrapper again from the recorded arguments (as the initialisation of the numerical search does)
    loses 'from_output' of the input overrides: the second wrapper quantizes this input with different settings. *)
Theorem C91_rebuild_refuted : exists z st q w s s' out, let mk := replacement (fun _ _ _ _ _ => Ok tt) (fun _ _ _ _ _ => Ok tt) z PtMatmul false st (Ok false) q in
  mk w = Ok (RNonParam s) /\ mk (with_clip CNone (after_init (q_acts q) w)) = Ok (RNonParam s') /\
  out = mkQset 8 (PM (fst (a_mode s))) (a_clip s) (a_nstds s) (a_half s) /\ a_mode s' = a_mode s /\ a_clip s' = a_clip s /\
  (exists o o', nget (a_inputs s) 0 = Some o /\ nget (a_inputs s') 0 = Some o' /\ override_settings out o <> override_settings out o' /\
   exists md md', preset_input_md out (Some o) None (mkStats (- (1)) 1 (- (1)) 1 0 1 1) = Ok md /\ preset_input_md out (Some o') None (mkStats (- (1)) 1 (- (1)) 1 0 1 1) = Ok md' /\ ~ (q_zp md == q_zp md')%Q).
Proof.
  exists ex_pq, (Some ex_ls), ex_q8, (mkOkw None None None None None None None (Some [(0%nat, FromOutput)]) None None None None None []).
  eexists _, _, _. cbv zeta. split; [vm_compute; reflexivity|]. split; [vm_compute; reflexivity|]. split; [reflexivity|]. split; [reflexivity|]. split; [reflexivity|].
  eexists _, _. split; [reflexivity|]. split; [reflexivity|]. split; [discriminate|]. eexists _, _. split; [vm_compute; reflexivity|]. split; [vm_compute; reflexivity|].
  vm_compute. discriminate.
Qed.

(* ------------------------------------------------------------------------- *)
(** * C92 *)
Lemma dset_all_get {A} (l : list (string * A)) : forall (d : dict A) k, (forall x y, In (k, x) l -> In (k, y) l -> x = y) ->
  dget (dset_all d l) k = match find (fun e => String.eqb k (fst e)) l with Some e => Some (snd e) | None => dget d k end.
Proof.
  unfold dset_all. induction l as [|[k0 v] l IH]; intros d k H; cbn [fold_left find fst snd]; auto.
  rewrite IH by (intros; apply H; right; auto). destruct (find (fun e => String.eqb k (fst e)) l) as [e|] eqn:F.
  - apply find_some in F. destruct F as [F1 F2]. apply String.eqb_eq in F2. destruct (String.eqb_spec k k0) as [->|]; auto.
    destruct e as [k1 v1]. cbn in *. subst k1. f_equal. apply (H v1 v); auto.
  - destruct (String.eqb_spec k k0) as [->|N].
    + cbn [snd]. clear. induction d as [|[k v'] d IH]; cbn [dset dget]; [rewrite String.eqb_refl; auto|]. destruct (String.eqb_spec k0 k); cbn [dget]; [subst; rewrite String.eqb_refl; auto|]. destruct (String.eqb_spec k0 k); [congruence|auto].
    + clear - N. induction d as [|[k' v'] d IH]; cbn [dset dget]; [destruct (String.eqb_spec k k0); congruence|]. destruct (String.eqb_spec k0 k') as [->|]; cbn [dget]; destruct (String.eqb_spec k k'); auto; congruence.
Qed.
Lemma find_tag {A} (v : A) l k : find (fun e : string * A => String.eqb k (fst e)) (map (fun l => (l, v)) l) = if mem_str l k then Some (k, v) else None.
Proof. induction l as [|x l IH]; cbn; auto. destruct (String.eqb_spec k x) as [->|]; auto. Qed.
Lemma find_dset {A} (d : dict A) k v k' : find (fun e : string * A => String.eqb k' (fst e)) (dset d k v) = if String.eqb k' k then Some (k, v) else find (fun e : string * A => String.eqb k' (fst e)) d.
Proof.
  induction d as [|[a b] d IH]; cbn [dset find fst]; [destruct (String.eqb k' k); auto|].
  destruct (String.eqb_spec k a) as [->|N]; cbn [find fst].
  - destruct (String.eqb_spec k' a); auto.
  - destruct (String.eqb_spec k' a) as [->|]; [destruct (String.eqb_spec a k); [congruence|auto]|]. auto.
Qed.
Lemma find_dset_all {A} (v : A) l k : forall d, find (fun e : string * A => String.eqb k (fst e)) (dset_all d (map (fun l => (l, v)) l)) = if mem_str l k then Some (k, v) else find (fun e : string * A => String.eqb k (fst e)) d.
Proof.
  unfold dset_all, mem_str. induction l as [|x l IH]; intro d; cbn [map fold_left existsb fst snd]; auto. rewrite IH, find_dset.
  destruct (String.eqb_spec k x) as [->|]; cbn [orb]; auto. destruct (existsb (String.eqb x) l); auto.
Qed.
Lemma in_dset {A} (d : dict A) k v e : In e (dset d k v) -> e = (k, v) \/ In e d.
Proof. induction d as [|[a b] d IH]; cbn; [intros [|[]]; auto|]. destruct (String.eqb_spec k a) as [->|]; cbn; intros [|I]; auto. apply IH in I. tauto. Qed.
Lemma in_dset_all {A} (v : A) l : forall d e, In e (dset_all d (map (fun l => (l, v)) l)) -> In (fst e) l /\ snd e = v \/ In e d.
Proof.
  unfold dset_all. induction l as [|x l IH]; intros d e; cbn [map fold_left fst snd]; auto. intro I. apply IH in I. destruct I as [[I E]|I]; [left; split; [right|]; auto|].
  apply in_dset in I. destruct I as [->|I]; auto. left. cbn. auto.
Qed.

(** C92: from_args: a bit width of 0 means no quantization; the modes of activations and weights are their own or the common
    one; the layers to leave float get an override that removes their bits, the layers not to clip - if they are not among
    those - one that switches clipping off, and no other layer an override; statistics unless dynamic. *)
Theorem C92_arguments a : let x := from_args a in
  (x_acts x = None <-> g_bits_acts a = 0%Z) /\ (forall b, x_acts x = Some b -> b = g_bits_acts a) /\
  (x_wts x = None <-> g_bits_wts a = 0%Z) /\ (forall b, x_wts x = Some b -> b = g_bits_wts a) /\ x_accum x = g_bits_accum a /\
  chosen (g_mode_acts a) (ReplModel.g_mode a) (fst (x_mode x)) /\ chosen (g_mode_wts a) (ReplModel.g_mode a) (snd (x_mode x)) /\
  x_clip x = ReplModel.g_clip a /\ x_nstds x = ReplModel.g_nstds a /\ x_perch x = g_perch a /\ x_approx x = g_approx a /\ x_save x = g_save a /\
  x_stats x = (if g_dynamic a then None else g_stats_file a) /\
  (forall l, dget (x_over x) l = Some NoQuant <-> In l (g_no_quant a)) /\
  (forall l, dget (x_over x) l = Some NoClip <-> In l (g_no_clip a) /\ ~ In l (g_no_quant a)).
Proof.
  cbn. unfold bits_arg, chosen, dflt.
  assert (G : forall l, dget (args_overrides a) l = if mem_str (g_no_quant a) l then Some NoQuant else if mem_str (g_no_clip a) l then Some NoClip else None).
  { intro l. unfold args_overrides. set (f := fun l => negb (mem_str (g_no_quant a) l)).
    rewrite dset_all_get.
    - rewrite find_dset_all. cbn [find]. rewrite dset_all_get.
      + rewrite find_tag. cbn [dget]. destruct (mem_str (filter f (g_no_clip a)) l) eqn:M.
        * apply mem_str_in in M. apply filter_In in M. destruct M as [M1 M2]. unfold f in M2. apply negb_true_iff in M2. rewrite M2. apply mem_str_in in M1. rewrite M1. auto.
        * destruct (mem_str (g_no_quant a) l) eqn:N; auto. destruct (mem_str (g_no_clip a) l) eqn:K; auto. apply mem_str_in in K. exfalso.
          assert (In l (filter f (g_no_clip a))) by (apply filter_In; split; auto; unfold f; rewrite N; auto). apply mem_str_in in H. congruence.
      + intros x y Hx Hy. apply in_map_iff in Hx, Hy. destruct Hx as (? & [= _ <-] & _), Hy as (? & [= _ <-] & _). auto.
    - intros x y Hx Hy. apply in_dset_all in Hx, Hy. destruct Hx as [[_ Hx]|[]], Hy as [[_ Hy]|[]]. cbn in *. congruence. }
  assert (B : forall b, ((if (b =? 0)%Z then None else Some b) = None <-> b = 0%Z) /\ forall v, (if (b =? 0)%Z then None else Some b) = Some v -> v = b).
  { intro b. destruct (Z.eqb_spec b 0); split; try split; congruence. }
  do 2 (split; [apply B|]). do 2 (split; [apply B|]). do 9 (split; [auto|]). split.
  - intro l. rewrite G. rewrite <- mem_str_in. destruct (mem_str (g_no_quant a) l); [split; auto|]. destruct (mem_str (g_no_clip a) l); split; discriminate.
  - intro l. rewrite G. rewrite <- !mem_str_in. destruct (mem_str (g_no_quant a) l); [split; [discriminate|intros [_ K]; congruence]|].
    destruct (mem_str (g_no_clip a) l); split; auto; try discriminate. intros [K _]; discriminate.
Qed.

Lemma ngroups_name s : ngroups (name_regex s) = 0%nat.
Proof. induction s as [|c s IH]; cbn; auto. rewrite IH. destruct (Ascii.eqb c "."); auto. Qed.
Lemma name_text s : plain s = true -> rtext (name_regex s) = s.
Proof.
  induction s as [|c s IH]; cbn [plain name_regex rtext]; auto. intro H. apply andb_true_iff in H. destruct H as [H H2]. apply andb_true_iff in H. destruct H as [H _].
  rewrite (IH H2). destruct (Ascii.eqb_spec c ".") as [->|N]; auto. rewrite orb_false_r in H. cbn [rtext]. unfold esc. apply negb_true_iff in H. rewrite H. reflexivity.
Qed.
Lemma name_matches k : forall b n, plain n = true -> ((exists b', rm (name_regex k) (b, n) (b', "")) <-> same_but_dots k n).
Proof.
  induction k as [|a k IH]; intros b n Hn; cbn [name_regex same_but_dots].
  - destruct n as [|c n]; split; auto; [intros _; exists b; constructor|intros [b' H]; inversion H|intros []].
  - split.
    + intros [b' H]. inversion H as [| | | |? ? ? [b1 s1] ? H1 H2| | | | | | | |]; subst.
      destruct n as [|c n]; [destruct (Ascii.eqb a "."); inversion H1|]. cbn in Hn. apply andb_true_iff in Hn. destruct Hn as [_ Hn].
      destruct (Ascii.eqb_spec a ".") as [->|N]; inversion H1; subst; (split; [auto|]); match goal with |- same_but_dots _ ?m => apply (IH false m Hn); eauto end.
    + destruct n as [|c n]; [intros []|]. cbn in Hn. apply andb_true_iff in Hn. destruct Hn as [Hc Hn]. apply andb_true_iff in Hc. destruct Hc as [_ Hc].
      intros [E H]. apply (IH false n Hn) in H. destruct H as [b' H]. exists b'. eapply rm_cat; [|exact H].
      destruct (Ascii.eqb_spec a ".") as [->|N].
      * constructor. intros ->. discriminate.
      * destruct E as [->|]; [constructor|congruence].
Qed.

Lemma dset_keys {A} (d : dict A) k v : NoDup (map fst d) -> NoDup (map fst (dset d k v)) /\ forall x, In x (map fst (dset d k v)) <-> x = k \/ In x (map fst d).
Proof.
  induction d as [|[a b] d IH]; cbn; intro H; [split; [repeat constructor; auto|intuition]|].
  inversion H as [|? ? H1 H2]; subst. destruct (IH H2) as [A1 A2]. destruct (String.eqb_spec k a) as [->|N]; cbn.
  - split; auto. intuition.
  - split; [constructor; auto; rewrite A2; intuition|]. intro x. rewrite A2. intuition.
Qed.
Lemma dset_all_nodup {A} (l : list (string * A)) : forall d, NoDup (map fst d) -> NoDup (map fst (dset_all d l)).
Proof. unfold dset_all. induction l as [|e l IH]; intros d H; cbn; auto. apply IH, dset_keys, H. Qed.
Lemma dget_in {A} (d : dict A) k v : NoDup (map fst d) -> (dget d k = Some v <-> In (k, v) d).
Proof.
  induction d as [|[a b] d IH]; cbn; intro H; [split; [discriminate|tauto]|]. inversion H as [|? ? H1 H2]; subst. destruct (String.eqb_spec k a) as [->|N].
  - split; [intros [= ->]; auto|]. intros [[= ->]|I]; auto. exfalso. apply H1, in_map_iff. exists (a, v). auto.
  - rewrite (IH H2). split; auto. intros [[= -> ->]|I]; congruence.
Qed.

(** C92: a layer named in the list of layers to leave float gets no bits and no other argument, hence stays; a layer named in
    the list not to clip keeps the bits and gets the argument that switches clipping off; a layer whose name no listed name
    resembles gets the defaults.  (Names as torch makes them; a leading or inner 'module.' is removed first.) *)
Theorem C92_layers a full d : Forall (fun l => plain l = true) (g_no_quant a ++ g_no_clip a) -> plain (name_to_match full) = true ->
  let n := name_to_match full in
  let e := module_entry d (as_overrides d (x_over (from_args a))) full in
  (In n (g_no_quant a) -> e = Ok (mkQb None None (q_bias d), [])) /\
  (In n (g_no_clip a) -> ~ In n (g_no_quant a) -> e = Ok (d, [("clip_acts", 0%Z)])) /\
  ((forall l, In l (g_no_quant a) \/ In l (g_no_clip a) -> ~ same_but_dots l n) -> e = Ok (d, [])).
Proof.
  intros Hp Hn n e. destruct (C92_arguments a) as (_ & _ & _ & _ & _ & _ & _ & _ & _ & _ & _ & _ & _ & G1 & G2).
  set (x := x_over (from_args a)) in *.
  assert (ND : NoDup (map fst x)). { unfold x, from_args, args_overrides. cbn [x_over]. apply dset_all_nodup, dset_all_nodup. constructor. }
  assert (Hx : forall k v, In (k, v) x -> plain k = true).
  { intros k v I. rewrite Forall_forall in Hp. apply Hp. apply in_app_iff. apply (dget_in _ _ _ ND) in I. destruct v; [left; apply G1; auto|right; apply G2; auto]. }
  destruct (C35_override_choice d (as_overrides d x) full) as (b & k & E & A & _ & C).
  - unfold as_overrides. rewrite map_map. apply Forall_forall. intros p I. apply in_map_iff in I. destruct I as ([k v] & <- & I). split; [reflexivity|apply ngroups_name].
  - unfold as_overrides. rewrite map_map. cbn [fst snd]. erewrite map_ext_in; [exact ND|]. intros [k v] I. unfold pat_text. cbn. apply name_text. eapply Hx; eauto.
  - exact Hn.
  - unfold e. rewrite E. fold n in A, C. clear e E.
    assert (L : forall v, dget x n = Some v -> literal_key (as_overrides d x) n (entry_of d v)).
    { intros v Hv. apply (dget_in _ _ _ ND) in Hv. exists (name_regex n, []). split.
      - unfold as_overrides. apply in_map_iff. exists (n, v). split; auto.
      - unfold pat_text. cbn. apply name_text. exact Hn. }
    split; [|split].
    + intro I. apply G1 in I. apply L in I. apply A in I. destruct I as [-> ->]. reflexivity.
    + intros I N. destruct (A _ (L _ (proj2 (G2 n) (conj I N)))) as [-> ->]. reflexivity.
    + intro N. destruct C as [-> ->]; auto. intros p v I M. unfold as_overrides in I. apply in_map_iff in I. destruct I as ([l v0] & [= <- <-] & I). cbn in M.
      apply (name_matches l true n Hn) in M. apply (N l); auto. apply (dget_in _ _ _ ND) in I. destruct v0; [left; apply G1; auto|right; apply G2; auto].
Qed.

(** C92 (finding): the names are regular expressions: asking for one layer to stay float can leave another one float. *)
Definition ex_args (nq nc : list string) : qargs := mkQargs 8 8 32 SYM None None CAvg None false false None None nq nc false.
Theorem C92_dot_refuted : let a := ex_args ["conv.1"] [] in
  ~ In "conv21" (g_no_quant a) /\ module_entry ex_q8 (as_overrides ex_q8 (x_over (from_args a))) "conv21" = Ok (mkQb None None (Some 32%Z), []).
Proof. cbn. split; [intros [H|[]]; discriminate|reflexivity]. Qed.
Example ex_literal_wins : let a := ex_args ["fc.1"] ["fc_1"] in
  module_entry ex_q8 (as_overrides ex_q8 (x_over (from_args a))) "fc_1" = Ok (ex_q8, [("clip_acts", 0%Z)]) /\
  module_entry ex_q8 (as_overrides ex_q8 (x_over (from_args a))) "fc-1" = Ok (mkQb None None (Some 32%Z), []).
Proof. split; reflexivity. Qed.
Example ex_layers : Forall (fun l => plain l = true) (g_no_quant (ex_args ["layer1.0.conv"] ["fc"]) ++ g_no_clip (ex_args ["layer1.0.conv"] ["fc"])) /\
  module_entry ex_q8 (as_overrides ex_q8 (x_over (from_args (ex_args ["layer1.0.conv"] ["fc"])))) "module.layer1.0.conv" = Ok (mkQb None None (Some 32%Z), []).
Proof. split; [repeat constructor|reflexivity]. Qed.

Print Assumptions C91_unknown_argument.
Print Assumptions C91_settings.
Print Assumptions C91_kind.
Print Assumptions C91_refines.
Print Assumptions C91_not_fake_refuted.
Print Assumptions C91_unquantized_with_argument_refuted.
Print Assumptions C91_embedding_clip_name_refuted.
Print Assumptions C91_fp16_ignored_refuted.
Print Assumptions C91_fp16_conflict.
Print Assumptions C91_relu_aciq_refuted.
Print Assumptions C91_rebuild_refuted.
Print Assumptions C92_arguments.
Print Assumptions C92_layers.
Print Assumptions C92_dot_refuted.
