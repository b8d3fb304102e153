(** C82, C83: the greedy search for post-training quantization settings. *)
From Coq Require Import String List ZArith QArith Bool Arith Lia Lqa.
From Verif Require Import Base GreedyModel GreedySpec GreedyProofs GreedyProofs2 GreedyProofs3.
Import ListNotations.
Open Scope list_scope.
Open Scope string_scope.

(** ** C82 *)

(** One layer: the first candidate of highest score, each scored with the settings of the other layers as they are. *)
Theorem C82_local : forall score n b cands o,
  NoDup (dkeys (entry_of b n)) -> uniform cands ->
  search_best_local_settings score n b cands = Ok o ->
  (cands = [] /\ o = []) \/ first_best (fun c => score (dset b n (dupdate (entry_of b n) c))) cands o.
Proof. intros. eapply search_best; eauto. Qed.

Lemma searched_filter modules order nq :
  searched modules order nq =
  filter (fun n => negb (skipped modules n)) (filter (fun n => negb (existsb (String.eqb n) nq)) order).
Proof.
  assert (forall c, transparent c = is_skip c) as Ht by (destruct c; reflexivity).
  unfold searched, skipped. induction order as [|n l IH]; simpl; auto.
  destruct (existsb (String.eqb n) nq); simpl; auto.
  assert (match dget modules n with Some c => transparent c | None => false end = match dget modules n with Some c => is_skip c | None => false end) as ->
    by (destruct (dget modules n); auto).
  destruct (match dget modules n with Some c => is_skip c | None => false end); simpl; [auto|f_equal; auto].
Qed.

Lemma filter_NoDup {A} (f : A -> bool) l : NoDup l -> NoDup (filter f l).
Proof. apply NoDup_filter. Qed.

(** The whole search, no inputs to quantize: one entry per searched layer, in topological order, each the first best
    given those before it; a checkpoint is saved after every layer. *)
Theorem C82_greedy : forall score modules in_gen gen order no_quant final saved,
  (forall n d cands, gen n d = Ok cands -> uniform cands) -> NoDup order ->
  ptq_greedy_search score modules in_gen gen None order no_quant [] = Ok (final, saved) ->
  dkeys final = searched modules order no_quant /\
  greedy_outcome score gen final /\
  saved = prefixes final /\
  exists q, score final = Ok q.
Proof.
  intros score modules in_gen gen order nq final saved Hg Hnd H. unfold ptq_greedy_search in H.
  cbn [get_inputs_to_quantize fold_left foldM bind fst snd] in H.
  apply bind_ok in H. destruct H as (st & H & H1). apply bind_ok in H1. destruct H1 as (q & Hq & H1).
  inversion H1; subst; clear H1.
  apply chain_run in H; auto.
  - destruct H as (new & He & Hch). rewrite <- searched_filter in Hch. simpl in He.
    apply chain_closed in Hch.
    + destruct Hch as (rest & Hf & Hk & Hp & Ho). simpl in Hf, Hp. split; [rewrite Hf; auto|]. split; auto. split; [|eauto].
      rewrite He. symmetry. exact Hp.
    + simpl. rewrite searched_filter. apply filter_NoDup, filter_NoDup, Hnd.
    + intros pre n e post E. destruct pre; discriminate.
  - intro n. constructor.
  - apply filter_NoDup, Hnd.
  - intros n _. reflexivity.
Qed.

(** It completes when every configuration can be evaluated. *)
Theorem C82_completes : forall score modules in_gen gen order no_quant,
  (forall d, exists q, score d = Ok q) -> (forall n d, exists cands, gen n d = Ok cands) ->
  (forall n, In n order -> In n (dkeys modules)) ->
  exists final saved, ptq_greedy_search score modules in_gen gen None order no_quant [] = Ok (final, saved).
Proof.
  intros score modules in_gen gen order nq Hs Hg Hm. unfold ptq_greedy_search.
  cbn [get_inputs_to_quantize fold_left foldM bind fst snd].
  destruct (run_total score modules gen (filter (fun n => negb (existsb (String.eqb n) nq)) order) Hs Hg) with (st := (@nil (string * ov), @nil string, @nil (dict ov)))
    as (((b & l) & s) & Hst).
  { intros n Hn. apply filter_In in Hn. apply Hm, Hn. }
  unfold dict in *. rewrite Hst. cbn [bind fst snd]. destruct (Hs b) as (q & Hq). unfold dict in *. rewrite Hq. cbn [bind]. eauto.
Qed.

(** The candidates for a layer. *)
Definition default_mod_gen (modules : dict mclass) (succs : string -> list mclass) (ba bw : val) (n : string) (_ : dict ov) : res (list ov) :=
  match dget modules n with Some c => Ok (module_override_generator c (succs n) ba bw) | None => Raise KeyError end.

Theorem C82_candidates : forall c succs ba bw, c <> MReLU ->
  let cands := module_override_generator c succs ba bw in
  map (fun o => dget o "clip_acts") cands = map (fun s => Some (VStr s)) ["NONE"; "AVG"; "GAUSS"; "LAPLACE"] /\
  forall o, In o cands ->
    dget o "bits_activations" = Some ba /\ dget o "bits_weights" = Some bw /\
    (exists h, dget o "clip_half_range" = Some (VBool h) /\
       (h = true <-> (forall s, In s succs -> s = MReLU) /\
                     (dget o "clip_acts" = Some (VStr "GAUSS") \/ dget o "clip_acts" = Some (VStr "LAPLACE")))) /\
    (c = MLinear \/ c = MConv2d \/ c = MConv3d ->
       dkeys o = ["clip_acts"; "bits_weights"; "bits_activations"; "bits_bias"; "clip_half_range"] /\ dget o "bits_bias" = Some (VInt 32)) /\
    (~ (c = MLinear \/ c = MConv2d \/ c = MConv3d) ->
       dkeys o = ["clip_acts"; "fpq_module"; "fake"; "bits_weights"; "bits_activations"; "clip_half_range"] /\
       (integer_class c -> dget o "fpq_module" = Some VNone /\ dget o "fake" = Some (VBool false)) /\
       (~ integer_class c -> dget o "fpq_module" = Some (VInt 32) /\ dget o "fake" = Some (VBool true))).
Proof.
  intros c succs ba bw Hc cands.
  assert (is_relu c = false) as Hr by (destruct c; auto; tauto).
  assert (forall o, In o cands -> exists clip, In clip clip_modes /\
    o = dset (if is_param c
               then [("clip_acts", VStr clip); ("bits_weights", bw); ("bits_activations", ba); ("bits_bias", VInt 32)]
               else [("clip_acts", VStr clip); ("fpq_module", if is_quantized c then VNone else VInt 32); ("fake", VBool (negb (is_quantized c)));
                     ("bits_weights", bw); ("bits_activations", ba)])
             "clip_half_range" (VBool (forallb is_relu succs && (String.eqb clip "GAUSS" || String.eqb clip "LAPLACE")))) as Hin.
  { intros o Ho. unfold cands, module_override_generator in Ho. rewrite Hr in Ho. apply in_map_iff in Ho.
    destruct Ho as (clip & <- & Hcl). exists clip. split; auto. destruct c; try discriminate; reflexivity. }
  split.
  - unfold cands, module_override_generator. rewrite Hr. destruct (is_param c); reflexivity.
  - intros o Ho. destruct (Hin o Ho) as (clip & Hcl & ->).
    split; [destruct (is_param c); reflexivity|]. split; [destruct (is_param c); reflexivity|]. split.
    + eexists. split; [destruct (is_param c); reflexivity|].
      rewrite andb_true_iff, orb_true_iff, forallb_forall.
      assert ((forall x, In x succs -> is_relu x = true) <-> (forall s, In s succs -> s = MReLU)) as ->.
      { split; intros H x Hx; [specialize (H x Hx); destruct x; auto; discriminate|rewrite (H x Hx); auto]. }
      rewrite !String.eqb_eq.
      assert (dget (dset (if is_param c
               then [("clip_acts", VStr clip); ("bits_weights", bw); ("bits_activations", ba); ("bits_bias", VInt 32)]
               else [("clip_acts", VStr clip); ("fpq_module", if is_quantized c then VNone else VInt 32); ("fake", VBool (negb (is_quantized c)));
                     ("bits_weights", bw); ("bits_activations", ba)])
             "clip_half_range" (VBool (forallb is_relu succs && (String.eqb clip "GAUSS" || String.eqb clip "LAPLACE")))) "clip_acts" = Some (VStr clip)) as ->
        by (destruct (is_param c); reflexivity).
      split; intros (Ha & Hb); split; auto; destruct Hb as [Hb|Hb]; [left|right|left|right]; congruence.
    + split.
      * intros [->|[->| ->]]; split; reflexivity.
      * intro Hn. assert (is_param c = false) as -> by (destruct c; auto; tauto). split; [reflexivity|].
        split; intro Hi.
        -- assert (is_quantized c = true) as -> by (unfold integer_class in Hi; intuition (subst; reflexivity)). split; reflexivity.
        -- assert (is_quantized c = false) as -> by (unfold integer_class in Hi; destruct c; auto; tauto). split; reflexivity.
Qed.

(** They set the same keys, and all of them a width for the activations: the theorems apply to the default search. *)
Theorem C82_default_uniform : forall modules succs ba bw n d cands,
  default_mod_gen modules succs ba bw n d = Ok cands ->
  uniform cands /\ cands <> [] /\ forall c, In c cands -> dget c "bits_activations" = Some ba.
Proof.
  intros modules succs ba bw n d cands H. unfold default_mod_gen in H. destruct (dget modules n) as [c|]; [|discriminate].
  inversion H; subst; clear H. split; [apply default_uniform|]. split.
  - unfold module_override_generator. destruct (is_relu c); discriminate.
  - intros o Ho. unfold module_override_generator in Ho. destruct (is_relu c).
    + destruct Ho as [<-|[]]. reflexivity.
    + apply in_map_iff in Ho. destruct Ho as (cl & <- & _). destruct (is_param c); reflexivity.
Qed.

(** The 16-bit setting meant for Tanh and Sigmoid never applies: they get 32 bits. *)
Theorem C82_fp16_refuted : forall c succs ba bw o, c = MTanh \/ c = MSigmoid ->
  In o (module_override_generator c succs ba bw) ->
  dget o "fpq_module" = Some (VInt 32) /\ dget o "fpq_module" <> Some (VInt 16).
Proof.
  intros c succs ba bw o Hc Ho.
  assert (dget o "fpq_module" = Some (VInt 32)) as E.
  { destruct Hc as [->| ->]; simpl in Ho; destruct Ho as [<-|[<-|[<-|[<-|[]]]]]; reflexivity. }
  split; auto. rewrite E. discriminate.
Qed.

(** A layer with no module after it (the last one, or one followed only by functional operations) is clipped to half the
    range with GAUSS and LAPLACE, as if a ReLU followed. *)
Theorem C82_half_range_refuted : forall c ba bw o clip, c <> MReLU -> (clip = "GAUSS" \/ clip = "LAPLACE") ->
  In o (module_override_generator c [] ba bw) -> dget o "clip_acts" = Some (VStr clip) ->
  dget o "clip_half_range" = Some (VBool true).
Proof.
  intros c ba bw o clip Hc Hcl Ho Hd. destruct (C82_candidates c [] ba bw Hc) as (_ & H). destruct (H o Ho) as (_ & _ & (h & Hh & Hi) & _).
  rewrite Hh. f_equal. f_equal. apply Hi. split; [intros ? []|]. destruct Hcl as [->| ->]; auto.
Qed.

(** With inputs to quantize: their settings are searched first, one entry per layer that has inputs listed (whatever the
    number of its inputs listed, only the last one gets settings), then the layers. *)
Theorem C82_with_inputs : forall score modules npred ba bw gen order no_quant args final saved,
  (forall n d cands, gen n d = Ok cands -> uniform cands) -> NoDup order ->
  ptq_greedy_search score modules (default_in_gen modules npred ba bw) gen None order no_quant args = Ok (final, saved) ->
  exists b,
    (forall n, In n (dkeys b) <-> indices_for n args <> [] /\ forall c, dget modules n = Some c -> transparent c = false) /\
    NoDup (dkeys b) /\
    (forall n e, In (n, e) b -> exists before idx clip,
       indices_for n args = (before ++ [idx])%list /\ In clip clip_modes /\
       e = [("input_overrides", VInputs [(idx, VDict [("bits_activations", ba); ("clip_acts", VStr clip)])])]) /\
    greedy_chain score gen (searched modules order no_quant) b saved final.
Proof.
  intros score modules npred ba bw gen order nq args final saved Hg Hnd H. unfold ptq_greedy_search in H.
  apply bind_ok in H. destruct H as (st0 & H0 & H). apply bind_ok in H. destruct H as (st & H & H1).
  apply bind_ok in H1. destruct H1 as (q & Hq & H1). inversion H1; subst; clear H1.
  pose proof (inputs_NoDup args) as HN.
  apply inputs_run in H0; [|simpl; auto|].
  2: { intros n idxs Hin. apply In_dget in Hin; auto. rewrite inputs_dget in Hin.
       destruct (indices_for n args); [discriminate|]. inversion Hin. discriminate. }
  destruct H0 as (b & -> & Hk & He). cbn [fst snd app] in H. exists b.
  assert (forall n e, In (n, e) b -> exists before idx clip,
       indices_for n args = (before ++ [idx])%list /\ In clip clip_modes /\
       e = [("input_overrides", VInputs [(idx, VDict [("bits_activations", ba); ("clip_acts", VStr clip)])])]) as He'.
  { intros n e Hin. destruct (He n e Hin) as (idxs & Hi & pre & idx & clip & -> & Hc & ->).
    exists pre, idx, clip. split; [|split; auto]. apply In_dget in Hi; auto. rewrite inputs_dget in Hi.
    destruct (indices_for n args); [discriminate|]. congruence. }
  assert (forall n, entry_of b n = [] \/ In (n, entry_of b n) b) as Hen.
  { intro n. unfold entry_of. destruct (dget b n) eqn:E; auto. right. apply dget_In; auto. }
  assert (forall n, In n (dkeys b) <-> In n (filter (fun n => negb (skipped modules n)) (dkeys (get_inputs_to_quantize args)))) as Hk'
    by (intro n; rewrite <- Hk; reflexivity).
  assert (NoDup (dkeys b)) as Hbn by (pose proof (filter_NoDup (fun n => negb (skipped modules n)) _ HN) as E; rewrite <- Hk in E; exact E).
  split; [|split; [auto|split; auto]].
  - intro n. assert ((forall c, dget modules n = Some c -> transparent c = false) <-> skipped modules n = false) as ->.
    { unfold skipped. destruct (dget modules n) as [c|].
      - assert (is_skip c = transparent c) as -> by (destruct c; reflexivity). split; [intro H1; apply H1; auto|intros H1 c' E; inversion E; subst; auto].
      - split; auto. intros _ c E. discriminate. }
    rewrite Hk', filter_In, negb_true_iff. split; intros (Ha & Hb); split; auto.
    + intro E. apply (in_map_iff) in Ha. destruct Ha as ((n', l) & <- & Hin). apply In_dget in Hin; auto.
      rewrite inputs_dget in Hin. simpl in E. rewrite E in Hin. discriminate.
    + destruct (dget (get_inputs_to_quantize args) n) eqn:E.
      * apply dget_In in E. apply (in_map fst) in E. exact E.
      * rewrite inputs_dget in E. destruct (indices_for n args); [tauto|discriminate].
  - apply chain_run in H; auto.
    + destruct H as (new & E & Hch). rewrite <- searched_filter in Hch. rewrite E. exact Hch.
    + intro n. destruct (Hen n) as [->|Hin]; [constructor|]. destruct (He' _ _ Hin) as (? & ? & ? & _ & _ & ->).
      repeat constructor. intros [].
    + apply filter_NoDup, Hnd.
    + intros n _. unfold not_done. destruct (Hen n) as [->|Hin]; [reflexivity|].
      destruct (He' _ _ Hin) as (? & ? & ? & _ & _ & ->). reflexivity.
Qed.

(** Candidates with different keys: a later candidate is scored with the keys of the earlier ones still set, so the
    settings that are returned need not be any that was scored, and can be worse than a candidate on its own. *)
Definition ab_score (d : dict ov) : res Q :=
  match dget d "conv" with
  | Some e => Ok (match dget e "a", dget e "b" with
                  | Some _, Some _ => 2 | Some _, None => 1 | _, _ => 0 end)
  | None => Ok 0
  end.
Definition ab_gen (_ : string) (_ : dict ov) : res (list ov) := Ok [[("a", VInt 1)]; [("b", VInt 2)]].

Theorem C82_different_keys_refuted :
  exists final saved,
    ptq_greedy_search ab_score [("conv", MConv2d)] (fun _ _ _ => Ok []) ab_gen None ["conv"] [] [] = Ok (final, saved) /\
    final = [("conv", [("b", VInt 2)])] /\
    ab_score final = Ok 0 /\ ab_score [("conv", [("a", VInt 1)])] = Ok 1.
Proof. eexists. eexists. split; [vm_compute; reflexivity|]. repeat split; reflexivity. Qed.

(** ** C83 *)

(** Resuming from any saved checkpoint gives what the uninterrupted search gives, and saves the same later checkpoints. *)
Theorem C83_resume : forall score modules in_gen gen order no_quant final saved k S,
  (forall n d cands, gen n d = Ok cands ->
     cands <> [] /\ forall c, In c cands -> NoDup (dkeys c) /\ has c "bits_activations" = true) ->
  NoDup order ->
  ptq_greedy_search score modules in_gen gen None order no_quant [] = Ok (final, saved) ->
  nth_error saved k = Some S ->
  ptq_greedy_search score modules in_gen gen (Some S) order no_quant [] = Ok (final, skipn (Datatypes.S k) saved).
Proof.
  intros score modules in_gen gen order nq final saved k S Hg Hnd H Hk. unfold ptq_greedy_search in *.
  cbn [get_inputs_to_quantize fold_left foldM bind fst snd] in *.
  apply bind_ok in H. destruct H as (st & H & H1). apply bind_ok in H1. destruct H1 as (q & Hq & H1).
  inversion H1; subst; clear H1.
  eapply resume_fold in H; [| |exact Hg|exact Hk]; [|apply filter_NoDup, Hnd].
  destruct H as (loaded & H). unfold dict in *. rewrite H. cbn [bind fst snd]. unfold dict in *. rewrite Hq. auto.
Qed.

(** For the default candidates the condition is that the width given for the activations is not zero or None. *)
Theorem C83_resume_default : forall score modules in_gen succs ba bw order no_quant final saved k S,
  truthy ba = true -> NoDup order ->
  ptq_greedy_search score modules in_gen (default_mod_gen modules succs ba bw) None order no_quant [] = Ok (final, saved) ->
  nth_error saved k = Some S ->
  ptq_greedy_search score modules in_gen (default_mod_gen modules succs ba bw) (Some S) order no_quant [] = Ok (final, skipn (Datatypes.S k) saved).
Proof.
  intros score modules in_gen succs ba bw order nq final saved k S Hb Hnd H Hk. eapply C83_resume; eauto.
  intros n d cands Hc. destruct (C82_default_uniform _ _ _ _ _ _ _ Hc) as ((Hu & _) & Hne & Ha). split; auto.
  intros c Hin. split; auto. unfold has. rewrite (Ha c Hin). auto.
Qed.

(** With inputs to quantize this fails: a layer whose inputs have settings is searched again on resuming, now with the
    settings of the layers after it in place. *)
Definition two_layers : dict mclass := [("conv1", MConv2d); ("conv2", MConv2d)].
Definition clip_of (d : dict ov) (n : string) : string :=
  match dget d n with
  | Some e => match dget e "clip_acts" with Some (VStr s) => s | _ => "" end
  | None => ""
  end.
Definition fickle_score (d : dict ov) : res Q :=
  Ok (if String.eqb (clip_of d "conv2") "" then (if String.eqb (clip_of d "conv1") "AVG" then 1 else 0)
      else (if String.eqb (clip_of d "conv1") "GAUSS" then 1 else 0)).
Definition fickle_run (resume : option (dict ov)) : res (dict ov * list (dict ov)) :=
  ptq_greedy_search fickle_score two_layers (default_in_gen two_layers (fun _ => 1%nat) (VInt 8) (VInt 8))
    (default_mod_gen two_layers (fun _ => []) (VInt 8) (VInt 8)) resume ["conv1"; "conv2"] [] [("conv1", 0%nat)].

Theorem C83_resume_with_inputs_refuted :
  exists final saved S final' saved',
    fickle_run None = Ok (final, saved) /\ nth_error saved 1 = Some S /\ S = final /\
    fickle_run (Some S) = Ok (final', saved') /\ clip_of final "conv1" = "AVG" /\ clip_of final' "conv1" = "GAUSS".
Proof.
  eexists. eexists. eexists. eexists. eexists.
  split; [vm_compute; reflexivity|]. split; [vm_compute; reflexivity|]. split; [vm_compute; reflexivity|].
  split; [vm_compute; reflexivity|]. split; vm_compute; reflexivity.
Qed.

(** The input settings of a checkpoint are not searched again. *)
Theorem C83_inputs_kept : forall score modules in_gen gen b no_quant args q,
  (forall n i, In (n, i) args -> exists c e v, dget modules n = Some c /\ dget b n = Some e /\
     dget e "input_overrides" = Some (VInputs v) /\ v <> []) ->
  score b = Ok q ->
  ptq_greedy_search score modules in_gen gen (Some b) [] no_quant args = Ok (b, []).
Proof.
  intros score modules in_gen gen b nq args q Ha Hq. unfold ptq_greedy_search. cbn [filter].
  assert (forall l, (forall n idxs, In (n, idxs) l -> exists c e v, dget modules n = Some c /\ dget b n = Some e /\
     dget e "input_overrides" = Some (VInputs v) /\ v <> []) -> forall loaded,
     exists loaded', foldM (input_module score modules in_gen) l (b, loaded) = Ok (b, loaded')) as L.
  { induction l as [|(n, idxs) l IH]; intros Hl loaded; cbn [foldM]; eauto.
    destruct (Hl n idxs (or_introl eq_refl)) as (c & e & v & Hc & Hb & He & Hv).
    assert (forall n idxs, In (n, idxs) l -> exists c e v, dget modules n = Some c /\ dget b n = Some e /\
     dget e "input_overrides" = Some (VInputs v) /\ v <> []) as Hl' by (intros; eapply Hl; simpl; eauto).
    unfold input_module at 1, module_of. rewrite Hc. cbn [bind]. destruct (is_skip c); cbn [bind]; [apply IH; auto|].
    unfold ov, dict in *. rewrite Hb. assert (has e "input_overrides" = true) as -> by (unfold has; rewrite He; destruct v; [tauto|reflexivity]).
    cbn [bind]. apply IH; auto. }
  destruct (L (get_inputs_to_quantize args)) with (loaded := @nil string) as (loaded & Hr).
  { intros n idxs Hin. apply In_dget in Hin; [|apply inputs_NoDup]. rewrite inputs_dget in Hin.
    destruct (indices_for n args) as [|i l] eqn:E; [discriminate|].
    assert (In i (indices_for n args)) as Hi by (rewrite E; simpl; auto). unfold indices_for in Hi.
    apply in_map_iff in Hi. destruct Hi as ((n', i') & <- & Hf). apply filter_In in Hf. simpl in Hf. destruct Hf as (Hf & Hn).
    apply String.eqb_eq in Hn. subst n'. eapply Ha; eauto. }
  unfold ov, dict in *. rewrite Hr. cbn [bind foldM fst snd]. unfold ov, dict in *. rewrite Hq. auto.
Qed.

(** Two inputs of one layer listed: the settings of the first are lost. *)
Theorem C82_two_inputs_refuted :
  exists final saved e,
    ptq_greedy_search (fun _ => Ok 0) [("add", MEltAdd)] (default_in_gen [("add", MEltAdd)] (fun _ => 2%nat) (VInt 8) (VInt 8))
      (default_mod_gen [("add", MEltAdd)] (fun _ => []) (VInt 8) (VInt 8)) None ["add"] [] [("add", 0%nat); ("add", 1%nat)] = Ok (final, saved) /\
    dget final "add" = Some e /\
    dget e "input_overrides" = Some (VInputs [(1%nat, VDict [("bits_activations", VInt 8); ("clip_acts", VStr "NONE")])]).
Proof.
  eexists. eexists. eexists.
  split; [vm_compute; reflexivity|]. split; vm_compute; reflexivity.
Qed.

(** *** The hypotheses are met *)
Definition net3 : dict mclass := [("conv1", MConv2d); ("relu", MReLU); ("conv2", MConv2d); ("fc", MLinear)].
Definition pick_score (d : dict ov) : res Q :=
  Ok ((if String.eqb (clip_of d "conv1") "AVG" then 1 else 0) + (if String.eqb (clip_of d "conv2") "GAUSS" then 1 else 0)
      + (if String.eqb (clip_of d "fc") "NONE" then 1 else 0)).
Definition net3_run (resume : option (dict ov)) : res (dict ov * list (dict ov)) :=
  ptq_greedy_search pick_score net3 (fun _ _ _ => Ok [])
    (default_mod_gen net3 (fun n => if String.eqb n "conv1" then [MReLU] else []) (VInt 8) (VInt 8)) resume
    ["conv1"; "relu"; "conv2"; "fc"] [] [].
Example net3_result :
  match net3_run None with
  | Ok (final, saved) => map (clip_of final) ["conv1"; "relu"; "conv2"; "fc"] = ["AVG"; ""; "GAUSS"; "NONE"] /\
                         length saved = 3%nat /\
                         (forall k S, nth_error saved k = Some S -> net3_run (Some S) = Ok (final, skipn (Datatypes.S k) saved))
  | Raise _ => False
  end.
Proof.
  destruct (net3_run None) as [(final & saved)|] eqn:E; [|vm_compute in E; discriminate].
  split; [vm_compute in E; inversion E; reflexivity|]. split; [vm_compute in E; inversion E; reflexivity|].
  intros k S H. eapply C83_resume_default; eauto.
  repeat (constructor; [simpl; intuition discriminate|]); constructor.
Qed.

Print Assumptions C82_local.
Print Assumptions C82_greedy.
Print Assumptions C82_completes.
Print Assumptions C82_candidates.
Print Assumptions C82_default_uniform.
Print Assumptions C82_fp16_refuted.
Print Assumptions C82_half_range_refuted.
Print Assumptions C82_with_inputs.
Print Assumptions C82_different_keys_refuted.
Print Assumptions C82_two_inputs_refuted.
Print Assumptions C83_resume.
Print Assumptions C83_resume_default.
Print Assumptions C83_inputs_kept.
Print Assumptions C83_resume_with_inputs_refuted.
