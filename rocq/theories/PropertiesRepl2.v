(** C91, C92, C93: further properties of the replacement of modules by wrappers. *)
From Coq Require Import String Ascii List ZArith QArith Bool Arith Lia.
From Verif Require Import Base Lists Names StructModel QuantModel RangeModel QzrModel QzrSpec PrepModel EmbModel ReplModel ReplSpec LapqModel LinitModel PropertiesRepl.
Import ListNotations.
Local Open Scope string_scope.
Open Scope list_scope.

Section Weights.
Variable wp : option Z -> lqmode -> clipmode -> option Q -> bool -> res unit.
Variable ep : Z -> lqmode -> clipmode -> option Q -> bool -> res unit.
Notation replacement := (replacement wp ep).

Lemma accepted_mem t f k : factory_of t = Some f -> accepted_by t k -> mem_str (params_of f) k = true.
Proof.
  intros Ef A. apply mem_str_in. unfold accepted_by, no_wrapper_class in A. cbn [In] in A.
  destruct t; cbn in Ef; try discriminate; injection Ef as <-; cbn [params_of]; cbn [In]; intuition (subst; try discriminate; try congruence; auto 20).
Qed.
Lemma all_accepted t f w : factory_of t = Some f -> (forall k, In k (wkeys w) -> accepted_by t k) -> existsb (fun k => negb (mem_str (params_of f) k)) (wkeys w) = false.
Proof.
  intros Ef A. apply not_true_is_false. intro H. apply existsb_exists in H. destruct H as (k & Hk & N). rewrite (accepted_mem t f k Ef (A k Hk)) in N. discriminate.
Qed.

(** C91: a clipping mode given by a name that is none of the modes is refused; so is a value that is neither a name nor a
    mode. *)
Theorem C91_unknown_clip z t kids st pw q w c : t = PtParam \/ t = PtEltwise \/ t = PtMatmul -> (forall k, In k (wkeys w) -> accepted_by t k) ->
  fpq_true (asked z w) = false -> w_clip w = Some c ->
  (forall s, c = EStr s -> s <> "" /\ ~ In s ["NONE"; "AVG"; "N_STD"; "GAUSS"; "LAPLACE"] -> replacement z t kids st pw q w = Raise ValueError) /\
  (c = EElse -> replacement z t kids st pw q w = Raise TypeError).
Proof.
  intros Ht A Hq Hw.
  assert (Kw : wkeys w <> []). { intro K. assert (X : In "clip_acts" (wkeys w)) by (unfold wkeys; rewrite Hw; rewrite !in_app_iff; do 4 right; left; left; reflexivity). rewrite K in X. destruct X. }
  assert (G : forall e, verify_enum clip_named (match w_clip w with Some v => if falsy_enum v then ENum (z_clip z) else v | None => ENum (z_clip z) end) = Raise e -> replacement z t kids st pw q w = Raise e).
  { intros e E. unfold ReplModel.replacement. assert (N : match wkeys w with [] => true | _ => false end = false) by (destruct (wkeys w); congruence).
    destruct Ht as [->|[->| ->]]; cbn [factory_of]; rewrite N, andb_false_r; unfold run_factory.
    - rewrite (all_accepted PtParam FParam w eq_refl A). cbv zeta. rewrite asked_eq, Hq; cbn [andb]. rewrite E. reflexivity.
    - rewrite (all_accepted PtEltwise FNonParam w eq_refl A). cbv zeta. rewrite asked_eq, Hq; cbn [andb]. rewrite E. reflexivity.
    - rewrite (all_accepted PtMatmul FNonParam w eq_refl A). cbv zeta. rewrite asked_eq, Hq; cbn [andb]. rewrite E. reflexivity. }
  split.
  - intros s -> [Ns Ni]. apply G. rewrite Hw. destruct s as [|a s]; [congruence|]. cbn [falsy_enum verify_enum]. unfold clip_named. cbn [In] in Ni.
    repeat match goal with |- context [String.eqb ?x ?y] => destruct (String.eqb_spec x y) as [K|_]; [exfalso; apply Ni; rewrite K; auto 10|] end. reflexivity.
  - intros ->. apply G. rewrite Hw. reflexivity.
Qed.

(** C91: the parameters of the weights are computed from the bits and mode of the layer, clipped as the activations are when
    weights are to be clipped too, and not at all otherwise; so are those of an embedding, from statistics if there are any. *)
Theorem C91_weight_parameters z t kids st pw q w r : replacement z t kids st pw q w = Ok r ->
  match r with
  | RParam s b _ pc _ also => wp (Some b) (snd (a_mode s)) (if also then a_clip s else CNone) (if also then a_nstds s else None) pc = Ok tt
  | REmb b mode clip n half _ (Some ls) => exists p, params_from_stats (ls_output ls) b (PM mode) (match clip with ENum c => c | _ => CNone end) n half None = Ok p
  | REmb b mode clip n half _ None => exists c, clip = ENum c /\ ep b mode c n half = Ok tt
  | _ => True
  end.
Proof.
  intro H. unfold ReplModel.replacement in H. destruct (factory_of t) as [f|] eqn:Ef; [|injection H as <-; exact I]. destruct (_ && _) in H; [injection H as <-; exact I|].
  unfold run_factory in H. destruct (existsb _ (wkeys w)); [discriminate|]. destruct f; cbv zeta in H.
  - destruct (_ && _) in H. { inv_bind H. injection H as <-. exact I. } inv_bind H. inv_bind H. destruct (_ || _) in H.
    + unfold fake_init in H. inv_bind H. inv_bind H. inv_bind H. injection H as <-. exact I.
    + unfold param_init in H. inv_bind H. destruct (q_wts q); [|discriminate]. inv_bind H. injection H as <-. destruct x2. destruct (z_also z); assumption.
  - destruct (_ && _) in H. { inv_bind H. injection H as <-. exact I. } inv_bind H. destruct (dflt (w_fake w) false).
    + unfold fake_init in H. inv_bind H. inv_bind H. inv_bind H. injection H as <-. exact I.
    + unfold non_param_init in H. destruct t, st; cbn [a_stats] in H; try (inv_bind H); injection H as <-; exact I.
  - destruct (fpq_true _). { inv_bind H. injection H as <-. exact I. }
    unfold emb_wrap in H. destruct (q_wts q) as [b|]; [|discriminate]. inv_bind H. injection H as <-. destruct st as [ls|].
    + inv_bind H0. eauto.
    + destruct (fst (fst (if z_also z then _ else _))) as [c| | |]; try discriminate. exists c. destruct x. auto.
  - inv_bind H. destruct x; [injection H as <-; exact I|]. destruct kids; [injection H as <-; exact I|]. destruct (negb _) in H; [inv_bind H; injection H as <-; exact I|]. inv_bind H.
    unfold fake_init in H. inv_bind H. inv_bind H. inv_bind H. injection H as <-. exact I.
Qed.

(** C91: a ReLU clipped by a distribution uses the extremes of its own output with the mean, deviation and b of its input. *)
Theorem C91_relu_statistics z t kids st pw q w s d qin : replacement z t kids st pw q w = Ok (RFake s d qin) -> (t = PtRelu \/ t = PtRelu6) -> (a_clip s = CGauss \/ a_clip s = CLaplace) ->
  exists ls i ls', st = Some ls /\ nget (ls_inputs ls) 0 = Some i /\ a_stats s = Some ls' /\ ls_inputs ls' = ls_inputs ls /\
    let o := ls_output ls in let o' := ls_output ls' in
    st_min o' = st_min o /\ st_max o' = st_max o /\ st_avg_min o' = st_avg_min o /\ st_avg_max o' = st_avg_max o /\
    st_mean o' = st_mean i /\ st_std o' = st_std i /\ st_b o' = st_b i.
Proof.
  intros H Ht Hc. unfold ReplModel.replacement in H. assert (Ef : factory_of t = Some FFake) by (destruct Ht; subst; reflexivity). rewrite Ef in H. destruct (_ && _) in H; [discriminate|].
  unfold run_factory in H. destruct (existsb _ (wkeys w)); [discriminate|]. cbv zeta in H. inv_bind H. destruct x; [discriminate|]. destruct kids; [discriminate|]. destruct (negb _) in H; [inv_bind H; discriminate|].
  inv_bind H. assert (Er : match t with PtRelu | PtRelu6 => true | _ => false end = true) by (destruct Ht; subst; reflexivity). rewrite Er in H.
  unfold fake_init in H. cbn [a_clip a_stats a_acts a_mode a_nstds a_half a_approx a_inputs a_auto] in H. inv_bind H. inv_bind H. inv_bind H. injection H as <- _ _. cbn [a_clip a_stats] in *.
  replace (true && is_aciq x) with true in H2 by (destruct Hc as [-> | ->]; reflexivity). unfold relu_stats in H2. destruct st as [ls|]; [|discriminate]. destruct (nget (ls_inputs ls) 0) as [i|] eqn:Ei; [|discriminate]. injection H2 as <-.
  eexists ls, i, _. split; [reflexivity|]. split; [exact Ei|]. split; [reflexivity|]. split; [reflexivity|]. cbv zeta. cbn [ls_output st_min st_max st_avg_min st_avg_max st_mean st_std st_b]. repeat split.
Qed.
End Weights.
Example ex_unknown_clip : replacement (fun _ _ _ _ _ => Ok tt) (fun _ _ _ _ _ => Ok tt) ex_pq PtParam false (Some ex_ls) (Ok false) ex_q8 (mkOkw None None None None (Some (EStr "MAX")) None None None None None None None None []) = Raise ValueError.
Proof. reflexivity. Qed.

(** C92: what the command line cannot ask for. *)
Theorem C92_not_offered a : x_also (from_args a) = false /\ x_fpq (from_args a) = FNone /\ x_half (from_args a) = false.
Proof. repeat split. Qed.

(** C93: the wrappers initialised are all the quantizing ones, fake or not: not the module itself, an identity or a float
    wrapper. *)
Theorem C93_wrappers_initialised r : int_wrapper r = true <-> r <> RSame /\ r <> RIdent /\ forall d c, r <> RFp d c.
Proof.
  split.
  - intro H. repeat split; intros; destruct r; discriminate.
  - intros (A & B & C). destruct r; try reflexivity; [congruence|congruence|]. exfalso. eapply C; reflexivity.
Qed.
(** C93: with modes by layer, a quantizing wrapper without a mode of its own is an error. *)
Theorem C93_missing_mode wp ep pwr opt z d pre n rest ms l :
  (forall m lm, In m pre -> dget ms m = Some lm -> int_wrapper (sl_wrap lm) = false) -> (forall m, In m pre -> dget ms m <> None) ->
  dget ms n = Some l -> int_wrapper (sl_wrap l) = true -> dget d n = None ->
  init_model wp ep pwr opt z (MDictOf d) (pre ++ n :: rest) ms = Raise KeyError.
Proof.
  intros Hp Hk Hn Hi Hd. unfold init_model. induction pre as [|m pre IH]; cbn [app foldM].
  - unfold init_step at 1. rewrite Hn, Hi. cbn [negb mode_for]. rewrite Hd. reflexivity.
  - unfold init_step at 1. destruct (dget ms m) as [lm|] eqn:E; [|exfalso; apply (Hk m); [left; auto|exact E]].
    rewrite (Hp m lm (or_introl eq_refl) E). cbn [negb bind]. apply IH; intros; [eapply Hp; eauto; right; auto|apply Hk; right; auto].
Qed.
Print Assumptions C91_unknown_clip.
Print Assumptions C91_weight_parameters.
Print Assumptions C91_relu_statistics.
Print Assumptions C92_not_offered.
Print Assumptions C93_wrappers_initialised.
Print Assumptions C93_missing_mode.
