(** C98: loading a checkpoint gives back what was saved. *)
From Coq Require Import String Ascii List ZArith QArith Bool Arith Lia.
From Verif Require Import Base Lists Names SchedModel CkptModel CkptProofs CkfModel.
Import ListNotations.
Local Open Scope string_scope.
Open Scope list_scope.

Lemma same_shape_true p q : same_shape p q = true <-> fst p = fst q.
Proof. unfold same_shape. destruct (list_eq_dec Nat.eq_dec (fst p) (fst q)); intuition congruence. Qed.
Lemma is_nil_true {A} (l : list A) : is_nil l = true <-> l = [].
Proof. destruct l; cbn; intuition congruence. Qed.
Lemma missing_nil ps sd : missing ps sd = [] <-> forall n, In n (dkeys ps) -> dget sd n <> None.
Proof.
  unfold missing. split.
  - intros H n Hn E. assert (K : In n []) by (rewrite <- H; apply filter_In; split; auto; unfold dmem; rewrite E; reflexivity). destruct K.
  - intro H. destruct (filter _ _) as [|x l] eqn:E; auto. exfalso. assert (K : In x (x :: l)) by (left; auto). rewrite <- E in K. apply filter_In in K.
    destruct K as [K1 K2]. unfold dmem in K2. destruct (dget sd x) eqn:D; [discriminate|]. apply (H x); auto.
Qed.
Lemma unexpected_nil ps sd : unexpected ps sd = [] <-> forall n, In n (dkeys sd) -> In n (dkeys ps).
Proof.
  unfold unexpected. split.
  - intros H n Hn. destruct (dget ps n) eqn:E; [apply dget_In in E; apply (in_map fst) in E; exact E|].
    assert (K : In n []) by (rewrite <- H; apply filter_In; split; auto; unfold dmem; rewrite E; reflexivity). destruct K.
  - intro H. destruct (filter _ _) as [|x l] eqn:E; auto. exfalso. assert (K : In x (x :: l)) by (left; auto). rewrite <- E in K. apply filter_In in K.
    destruct K as [K1 K2]. unfold dmem in K2. destruct (dget ps x) eqn:D; [discriminate|]. apply dget_None_notin in D. auto.
Qed.
Lemma mismatched_nil ps sd : mismatched ps sd = [] <-> forall n p x, In (n, p) ps -> dget sd n = Some x -> fst p = fst x.
Proof.
  unfold mismatched. split.
  - intros H n p x Hn D. destruct (same_shape p x) eqn:Sx; [apply same_shape_true; auto|]. assert (K : In n []); [|destruct K]. rewrite <- H.
    apply (in_map fst _ (n, p)). apply filter_In. split; auto. cbn [fst snd]. rewrite D, Sx. reflexivity.
  - intro H. destruct (map _ _) as [|x l] eqn:E; auto. exfalso. assert (K : In x (x :: l)) by (left; auto). rewrite <- E in K. apply in_map_iff in K.
    destruct K as ((n, p) & <- & K). apply filter_In in K. destruct K as [K1 K2]. cbn [fst snd] in K2. destruct (dget sd n) as [y|] eqn:D; [|discriminate].
    rewrite (proj2 (same_shape_true p y)) in K2 by eauto. discriminate.
Qed.
Lemma load_weights_keys ps sd : dkeys (load_weights ps sd) = dkeys ps.
Proof. unfold load_weights, dkeys. rewrite map_map. reflexivity. Qed.
Lemma load_weights_app a b sd : load_weights (a ++ b) sd = load_weights a sd ++ load_weights b sd.
Proof. apply map_app. Qed.
Lemma load_weights_in ps sd n p : In (n, p) (load_weights ps sd) -> missing ps sd = [] -> mismatched ps sd = [] ->
  dget sd n = Some p /\ exists p0, In (n, p0) ps /\ fst p0 = fst p.
Proof.
  intros H M S0. unfold load_weights in H. apply in_map_iff in H. destruct H as ((n', p0) & E & Hin). cbn [fst snd] in E. injection E as -> E.
  destruct (dget sd n) as [x|] eqn:D; [|exfalso; apply (proj1 (missing_nil ps sd) M n); auto; apply (in_map fst) in Hin; exact Hin].
  pose proof (proj1 (mismatched_nil ps sd) S0 n p0 x Hin D) as Sh. rewrite (proj2 (same_shape_true p0 x) Sh) in E. subst p. split; eauto.
Qed.

Lemma masks_fold (ps : dict tensor) acc n : In n (dkeys (fold_left (fun d np => dset d (fst np) new_masker) ps acc)) <-> In n (dkeys acc) \/ In n (dkeys ps).
Proof.
  revert acc. induction ps as [|(k, p) ps IH]; intro acc; cbn [fold_left fst]; [cbn; tauto|]. rewrite IH. change (dkeys ((k, p) :: ps)) with (k :: dkeys ps). cbn [In].
  destruct (in_dec string_dec k (dkeys acc)) as [I|I]; [rewrite dset_keys_mem by auto|rewrite dset_keys_new by auto; rewrite in_app_iff]; cbn [In]; intuition (subst; auto).
Qed.
Lemma masks_in (ps : dict ptensor) n : In n (dkeys (create_model_masks_dict (plain ps))) <-> In n (dkeys ps).
Proof. unfold create_model_masks_dict. rewrite masks_fold. unfold plain, dkeys. rewrite map_map. cbn. tauto. Qed.
Lemma masks_fold_keys (ps : dict tensor) acc : NoDup (dkeys acc ++ dkeys ps) -> dkeys (fold_left (fun d np => dset d (fst np) new_masker) ps acc) = dkeys acc ++ dkeys ps.
Proof.
  revert acc. induction ps as [|(k, p) ps IH]; intros acc H; [cbn [fold_left]; rewrite app_nil_r; reflexivity|]. cbn [fold_left fst]. change (dkeys ((k, p) :: ps)) with (k :: dkeys ps) in *.
  assert (N : ~ In k (dkeys acc)) by (intro K; apply NoDup_remove_2 in H; apply H; apply in_app_iff; auto).
  rewrite IH; rewrite dset_keys_new by exact N; rewrite <- app_assoc; [reflexivity|exact H].
Qed.
Lemma masks_keys (ps : dict ptensor) : NoDup (dkeys ps) -> dkeys (create_model_masks_dict (plain ps)) = dkeys ps.
Proof.
  intro H. assert (E : dkeys (plain ps) = dkeys ps) by (unfold plain, dkeys; rewrite map_map; reflexivity).
  unfold create_model_masks_dict. rewrite masks_fold_keys; cbn [dkeys map app]; fold (dkeys (plain ps)); rewrite E; auto.
Qed.

Lemma NoDup_app_left {A} (a b : list A) : NoDup (a ++ b) -> NoDup a.
Proof. induction a as [|x a IH]; intro H; [constructor|]. inversion H; subst. constructor; [intro K; apply H2; apply in_app_iff; auto|auto]. Qed.

Section Load.
Variables R Qm Oc Hy Os X : Type.
Variable no_extras : X.
Notation ckdata := (ckdata R Qm Oc Hy Os X).
Notation save_args := (save_args R Qm Oc Hy Os X).
Notation save_data := (save_data no_extras).
Notation mdl := (mdl R Qm).
Variable norm_recipe : R -> R.
Variable thin : list R -> mdl -> dict masker -> mdl * res (dict masker).
Variable prep : Qm -> mdl -> mdl * res unit.
Variable convert : Qm -> option (mdl -> res mdl).
Variable create : string -> option string -> bool -> res mdl.
Variable ctor : Oc -> nat -> res unit.
Notation load := (load norm_recipe thin prep convert create ctor).
Notation load_into := (load_into norm_recipe thin prep convert ctor).
Notation load_optimizer := (load_optimizer ctor).

(** Specification: an entry of the state dictionary, found under the name or, with [nrm], under a name that is the name after
    the first component "module" is dropped *)
Definition from_file (sd : dict ptensor) (nrm : bool) (n : string) (p : ptensor) : Prop :=
  if nrm then exists k, In (k, p) sd /\ normalize_module_name k = n else In (n, p) sd.
(** names and shapes *)
Definition signature (ps : dict ptensor) : list (string * list nat) := map (fun np => (fst np, fst (snd np))) ps.

Lemma rekey_from sd n p : dget (rekey normalize_module_name sd) n = Some p -> from_file sd true n p.
Proof.
  rewrite dget_rekey. intro H. apply dget_In in H. apply in_rev in H. apply in_map_iff in H. destruct H as ((k, v) & E & Hin). cbn [fst snd] in E.
  injection E as E1 E2. subst. exists k. auto.
Qed.
Lemma rekey_keys (sd : dict ptensor) k : In k (dkeys sd) -> In (normalize_module_name k) (dkeys (rekey normalize_module_name sd)).
Proof.
  intro H. destruct (dget (rekey normalize_module_name sd) (normalize_module_name k)) as [v|] eqn:E; [apply dget_In in E; apply (in_map fst) in E; exact E|].
  exfalso. rewrite dget_rekey in E. apply dget_None_notin in E. apply E. unfold dkeys in *. rewrite map_rev, <- in_rev, map_map. cbn [fst].
  apply in_map_iff in H. destruct H as (kv & <- & Hin). apply in_map_iff. exists kv. auto.
Qed.
Lemma load_state_ok ps sd strict : load_state ps sd strict = Ok tt <->
  missing ps sd = [] /\ mismatched ps sd = [] /\ (strict = true -> unexpected ps sd = []).
Proof.
  unfold load_state. destruct (is_nil (mismatched ps sd)) eqn:M; cbn [negb orb].
  - apply is_nil_true in M. destruct (is_nil (missing ps sd)) eqn:M2.
    + apply is_nil_true in M2. destruct strict; cbn [andb].
      * destruct (is_nil (unexpected ps sd)) eqn:U; cbn [negb andb]; [apply is_nil_true in U; intuition|].
        split; [discriminate|]. intros (_ & _ & K). rewrite (proj2 (is_nil_true _) (K eq_refl)) in U. discriminate.
      * intuition discriminate.
    + split; [destruct strict; cbn; discriminate|]. intros (K & _ & _). apply (is_nil_true (missing ps sd)) in K. congruence.
  - split; [discriminate|]. intros (_ & K & _). apply (is_nil_true (mismatched ps sd)) in K. congruence.
Qed.

(** ** What is in a checkpoint *)
(** All parameters and buffers, the epoch, the masks of the scheduler, the optimizer, the recipes and the quantizer's
    metadata; the architecture is the argument unless that is None or "", and then the model's. *)
Theorem C98_saved : forall (a : save_args) (c : ckdata), save_data a = Ok c ->
  (exists sd, c_state c = Some sd /\ forall n p, In (n, p) sd <-> In (n, p) (ml_params (s_model a)) \/ In (n, p) (ml_bufs (s_model a))) /\
  c_epoch c = Some (s_epoch a) /\ c_opt c = s_opt a /\ c_thin c = ml_recipes (s_model a) /\ c_quant c = ml_quant (s_model a) /\
  (s_sched a = None -> c_sched c = None) /\
  (forall s, s_sched a = Some s -> exists ms, c_sched c = Some (Some ms) /\ forall n x, dget ms n = Some x <-> exists m, dget s n = Some m /\ mk_mask m = x) /\
  c_parallel c = ml_parallel (s_model a) /\
  (ml_parallel (s_model a) <> None -> c_dataset c = ml_dataset (s_model a)) /\
  (forall n, s_arch a = Some n -> n <> "" -> c_arch c = Some (Some n)) /\
  (forall n, s_arch a = None -> ml_arch (s_model a) = Some n -> ml_parallel (s_model a) <> None -> ml_dataset (s_model a) <> None -> c_arch c = Some (Some n)).
Proof.
  intros a c H. unfold CkfModel.save_data in H. destruct (s_extras a) as [|x|]; [| |discriminate]; cbn [bind] in H;
  (match type of H with Ok ?x = Ok _ => assert (E : c = x) by congruence end; subst c; clear H; unfold make_checkpoint;
   cbn [c_state c_epoch c_opt c_thin c_quant c_sched c_parallel c_dataset c_arch];
   split; [eexists; split; [reflexivity|]; intros n p; unfold model_state; rewrite in_app_iff; reflexivity|]; do 4 (split; [reflexivity|]);
   split; [intros ->; reflexivity|];
   split; [intros s ->; eexists; split; [reflexivity|]; intros n y; rewrite dget_state_dict; destruct (dget s n) as [m|];
           [split; [intro K; injection K as K; eauto|intros (m' & K1 & K2); congruence]|split; [discriminate|intros (m' & K & _); discriminate]]|];
   split; [reflexivity|];
   split; [destruct (ml_parallel (s_model a)); [reflexivity|congruence]|];
   split; [intros n -> Hn; destruct (ml_parallel (s_model a)), (ml_dataset (s_model a)), (ml_arch (s_model a)); cbn [falsy]; try reflexivity;
           destruct (String.eqb_spec n ""); [congruence|reflexivity]
          |intros n -> -> P D; destruct (ml_parallel (s_model a)), (ml_dataset (s_model a)); cbn [falsy]; congruence]).
Qed.

(** ** What loading returns *)
Lemma load_into_ok m (c : ckdata) sd lean strict m' mk o e : snd (load_into m c sd lean strict) = Ok (m', mk, o, e) ->
  exists mk1 nrm t w, load_sched m c = Ok (mk1, nrm) /\
    t = load_thinning norm_recipe thin m c mk1 nrm /\ exists mk2, snd t = Ok mk2 /\
    snd (load_quant prep convert (fst t) c) = Ok w /\
    let sd' := if nrm then rekey normalize_module_name sd else sd in
    m' = set_state w sd' /\ load_state (model_state w) sd' strict = Ok tt /\
    (lean = true -> mk = None /\ o = None /\ e = 0%Z) /\
    (lean = false -> mk = mk2 /\ load_optimizer (length (ml_params m')) c = Ok o /\ sanity_check m' c = Ok tt /\
       e = match c_epoch c with Some (Some e) => (e + 1)%Z | _ => 0%Z end) /\
    fst (load_into m c sd lean strict) = if converted convert c then fst (load_quant prep convert (fst t) c) else m'.
Proof.
  unfold CkfModel.load_into. destruct (load_sched m c) as [[mk1 nrm]|]; [|discriminate].
  destruct (load_thinning norm_recipe thin m c mk1 nrm) as [t1 [mk2|]] eqn:T; cbn [fst snd]; [|discriminate].
  destruct (load_quant prep convert t1 c) as [q1 [w|]] eqn:Q1; cbn [fst snd]; [|discriminate].
  set (sd' := if nrm then rekey normalize_module_name sd else sd). destruct (load_state (model_state w) sd' strict) as [[]|] eqn:L; [|discriminate]. cbn [bind].
  intro H. exists mk1, nrm, (t1, Ok mk2), w. cbn [fst snd]. rewrite T. split; [reflexivity|]. split; [reflexivity|]. exists mk2. rewrite Q1. cbn [fst snd]. split; [reflexivity|]. split; [reflexivity|]. cbv zeta. fold sd'.
  destruct lean.
  - injection H as <- <- <- <-. split; [reflexivity|]. split; [exact L|]. split; [auto|]. split; [discriminate|]. reflexivity.
  - destruct (load_optimizer (length (ml_params (set_state w sd'))) c) as [o1|] eqn:O; [|discriminate]. cbn [bind] in H.
    destruct (sanity_check (set_state w sd') c) as [[]|] eqn:Sc; [|discriminate]. cbn [bind] in H. injection H as <- <- <- <-.
    split; [reflexivity|]. split; [exact L|]. split; [discriminate|]. split; [auto|]. reflexivity.
Qed.
Lemma load_into_same m (c : ckdata) sd mk nrm : load_sched m c = Ok (mk, nrm) -> c_thin c = None -> c_quant c = None ->
  forall lean strict, load_into m c sd lean strict =
   let sd' := if nrm then rekey normalize_module_name sd else sd in
   let m' := set_state m sd' in
   (m', do _ <- load_state (model_state m) sd' strict;
        if lean then Ok (m', None, None, 0%Z)
        else do o <- load_optimizer (length (ml_params m')) c; do _ <- sanity_check m' c;
             Ok (m', mk, o, match c_epoch c with Some (Some e) => (e + 1)%Z | _ => 0%Z end)).
Proof.
  intros L T Q1 lean strict. unfold CkfModel.load_into, load_thinning, load_quant, converted. rewrite L, T, Q1. reflexivity.
Qed.
Lemma set_state_state (w : mdl) sd : model_state (set_state w sd) = load_weights (model_state w) sd.
Proof. unfold model_state, set_state. cbn. symmetry. apply load_weights_app. Qed.

(** Whatever model, file and options: if loading succeeds, every parameter and buffer of the model returned has its value from
    the file, none was kept; with [strict] nothing in the file was left out; names were normalised exactly if the file has a
    scheduler that lacks a mask of the model; the optimizer is that of the file; the next epoch is one more than the file's; the
    architectures agree; and the model given is the one returned, unless converted to PyTorch's quantization. *)
Theorem C98_loaded : forall m (c : ckdata) dep lean strict m1 m' mk o e,
  load (Some m) (Some c) dep lean strict = (m1, Ok (m', mk, o, e)) ->
  dep = false /\
  exists sd nrm, c_state c = Some sd /\
    (nrm = true <-> exists ms n, c_sched c = Some (Some ms) /\ In n (dkeys (ml_params m)) /\ dget ms n = None) /\
    (forall n p, In (n, p) (ml_params m') \/ In (n, p) (ml_bufs m') -> from_file sd nrm n p) /\
    (strict = true -> forall k, In k (dkeys sd) ->
       let n := if nrm then normalize_module_name k else k in In n (dkeys (ml_params m')) \/ In n (dkeys (ml_bufs m'))) /\
    (c_thin c = None -> c_quant c = None -> signature (ml_params m') = signature (ml_params m) /\ signature (ml_bufs m') = signature (ml_bufs m)) /\
    (forall rs, c_thin c = Some rs -> exists m0 mk0 w mk2, thin (if nrm then map norm_recipe rs else rs) m0 mk0 = (w, Ok mk2) /\
       ml_params m0 = ml_params m /\ ml_bufs m0 = ml_bufs m /\ ml_recipes m0 = Some (if nrm then map norm_recipe rs else rs) /\
       (c_quant c = None -> signature (ml_params m') = signature (ml_params w) /\ signature (ml_bufs m') = signature (ml_bufs w))) /\
    (lean = false -> e = match c_epoch c with Some (Some k) => (k + 1)%Z | _ => 0%Z end /\
       (o = c_opt c \/ o = None) /\
       (forall a a', ml_arch m' = Some a -> c_arch c = Some a' -> a' = Some a) /\
       (mk = None <-> c_sched c = None /\ c_thin c = None)) /\
    (lean = true -> mk = None /\ o = None /\ e = 0%Z) /\
    (converted convert c = false -> m1 = Some m').
Proof.
  intros m c dep lean strict m1 m' mk o e H. unfold CkfModel.load in H. destruct dep; [discriminate|]. split; [reflexivity|].
  destruct (c_state c) as [sd|]; [|discriminate]. injection H as H1 H2.
  pose proof (load_into_ok _ _ _ _ _ _ _ _ _ H2) as (mk1 & nrm & t & w & Ls & -> & mk2 & T & Q1 & K). cbv zeta in K. destruct K as (Em & Ld & Kl & Kf & Kg).
  set (sd' := if nrm then rekey normalize_module_name sd else sd) in *.
  exists sd, nrm. split; [reflexivity|]. apply load_state_ok in Ld. destruct Ld as (M1 & M2 & M3).
  assert (St : forall n p, In (n, p) (ml_params m') \/ In (n, p) (ml_bufs m') -> In (n, p) (load_weights (model_state w) sd')).
  { intros n p Hn. rewrite <- set_state_state, <- Em. unfold model_state. apply in_app_iff. exact Hn. }
  assert (Sg : forall ps, (forall x, In x ps -> In x (model_state w)) -> signature (load_weights ps sd') = signature ps).
  { intros ps Hp. unfold signature, load_weights. rewrite map_map. apply map_ext_in. intros (n, p) Hin. cbn [fst snd]. f_equal.
    destruct (dget sd' n) as [x|] eqn:D; auto. rewrite (proj2 (same_shape_true p x)); [|eapply (proj1 (mismatched_nil _ _) M2); eauto].
    symmetry. eapply (proj1 (mismatched_nil _ _) M2); eauto. }
  split; [|split; [|split; [|split; [|split; [|split; [|split]]]]]].
  - unfold load_sched in Ls. destruct (c_sched c) as [st|] eqn:Es.
    + destruct (load_compression_scheduler (create_model_masks_dict (plain (ml_params m))) st) as [[k [ex|]] nr] eqn:Lc; [discriminate|].
      assert (Enr : nr = nrm) by congruence. subst nr. clear Ls. unfold load_compression_scheduler in Lc. destruct st as [ms|]; cbn [load_state_dict] in Lc; [|discriminate].
      cbn [load_state_dict fst snd] in Lc. unfold load_state_dict in Lc. cbn [fst snd] in Lc.
      destruct (snd (load_masks (create_model_masks_dict (plain (ml_params m))) ms)) eqn:Sm.
      * injection Lc as _ <-. split; [discriminate|]. intros (ms' & n & E & Hn & D). injection E as <-. exfalso.
        assert (F : snd (load_masks (create_model_masks_dict (plain (ml_params m))) ms) = false) by (apply load_masks_fail; exists n; rewrite masks_in; auto). congruence.
      * assert (En : nrm = true) by congruence. subst nrm. split; [intros _|reflexivity]. apply load_masks_fail in Sm. destruct Sm as (n & Hn & D). rewrite masks_in in Hn. exists ms, n. auto.
    + injection Ls as _ <-. split; [discriminate|]. intros (ms & n & E & _). discriminate.
  - intros n p Hn. destruct (load_weights_in _ _ _ _ (St n p Hn) M1 M2) as [D _]. unfold sd' in D. unfold from_file. destruct nrm; [apply rekey_from; exact D|apply dget_In; exact D].
  - intros Sx k Hk. specialize (M3 Sx). pose proof (proj1 (unexpected_nil _ _) M3) as U. cbv zeta.
    assert (Hn : In (if nrm then normalize_module_name k else k) (dkeys sd')) by (unfold sd'; destruct nrm; [apply rekey_keys; exact Hk|exact Hk]).
    apply U in Hn. rewrite Em. unfold set_state. cbn [ml_params ml_bufs]. rewrite !load_weights_keys. unfold model_state, dkeys in Hn. rewrite map_app, in_app_iff in Hn. exact Hn.
  - intros T0 Q0. assert (Ew : w = m).
    { unfold load_quant in Q1. rewrite Q0 in Q1. cbn [fst snd] in Q1. unfold load_thinning in Q1. rewrite T0 in Q1. cbn [fst] in Q1. congruence. }
    subst w. rewrite Em. unfold set_state. cbn [ml_params ml_bufs].
    split; apply Sg; intros x Hx; unfold model_state; apply in_app_iff; auto.
  - intros rs T0. unfold load_thinning in T, Q1. rewrite T0 in T, Q1. cbn [fst snd] in T, Q1.
    match type of T with context[thin ?r ?a ?b] => exists a, b; destruct (thin r a b) as [w0 [mk0|]] eqn:Et; [|discriminate] end. exists w0, mk0. split; [reflexivity|]. split; [reflexivity|]. split; [reflexivity|]. split; [reflexivity|].
    intro Q0. unfold load_quant in Q1. rewrite Q0 in Q1. cbn [fst snd] in Q1. assert (Ew : w = w0) by congruence. subst w0. rewrite Em. unfold set_state. cbn [ml_params ml_bufs]. split; apply Sg; intros x Hx; unfold model_state; apply in_app_iff; auto.
  - intro L. destruct (Kf L) as (-> & O & Sc & ->). split; [reflexivity|]. split; [|split].
    + unfold CkfModel.load_optimizer in O. destruct (c_opt c) as [oo|]; [|left; congruence]. destruct (ctor (op_class oo) _) as [[]|ex]; cbn [bind] in O.
      * destruct (op_groups oo) as [|[h k] [|? ?]]; [discriminate| |discriminate]. destruct (Nat.eqb k _); [left; congruence|discriminate].
      * destruct ex; try discriminate. right. congruence.
    + intros a a' Ea Ea'. unfold sanity_check in Sc. rewrite Ea, Ea' in Sc. destruct a' as [a'|]; [|discriminate]. destruct (String.eqb_spec a a'); [congruence|discriminate].
    + unfold load_thinning in T. unfold load_sched in Ls. destruct (c_thin c) as [rs|].
      * cbn [snd] in T. split; [intros ->|intros [_ K]; discriminate]. exfalso. destruct (snd (thin _ _ _)); cbn [bind] in T; discriminate.
      * cbn [snd] in T. injection T as <-. destruct (c_sched c) as [st|].
        -- destruct (load_compression_scheduler _ st) as [[k [ex|]] nr]; [discriminate|]. injection Ls as <- _. split; [discriminate|intros [K _]; discriminate].
        -- injection Ls as <- _. tauto.
  - exact Kl.
  - intro Cv. rewrite Cv in Kg. rewrite <- H1, Kg. reflexivity.
Qed.

(** Loading only the weights gives the same model as loading everything, and does the same to the model given. *)
Theorem C98_lean : forall given (c : ckdata) dep strict,
  (forall m' mk o e, snd (load given (Some c) dep false strict) = Ok (m', mk, o, e) -> snd (load given (Some c) dep true strict) = Ok (m', None, None, 0%Z)) /\
  fst (load given (Some c) dep true strict) = fst (load given (Some c) dep false strict).
Proof.
  intros given c dep strict.
  assert (K : forall m sd, (forall m' mk o e, snd (load_into m c sd false strict) = Ok (m', mk, o, e) -> snd (load_into m c sd true strict) = Ok (m', None, None, 0%Z)) /\
     fst (load_into m c sd true strict) = fst (load_into m c sd false strict)).
  { intros m sd. unfold CkfModel.load_into. destruct (load_sched m c) as [[mk1 nrm]|]; [|split; [discriminate|reflexivity]].
    destruct (load_thinning norm_recipe thin m c mk1 nrm) as [t1 [mk2|]]; cbn [fst snd]; [|split; [discriminate|reflexivity]].
    destruct (load_quant prep convert t1 c) as [q1 [w|]]; cbn [fst snd]; [|split; [discriminate|reflexivity]].
    split; [|reflexivity]. intros m' mk o e H. destruct (load_state _ _ _) as [[]|]; [|discriminate]. cbn [bind] in *.
    destruct (load_optimizer _ c); [|discriminate]. cbn [bind] in H. destruct (sanity_check _ c); [|discriminate]. cbn [bind] in H. congruence. }
  unfold CkfModel.load. destruct dep; [split; [discriminate|reflexivity]|]. destruct (c_state c) as [sd|]; [|split; [discriminate|reflexivity]]. destruct given as [m|].
  - cbn [fst snd]. destruct (K m sd) as [K1 K2]. split; [exact K1|rewrite K2; reflexivity].
  - cbn [fst snd]. split; [|reflexivity]. destruct (create_from create c) as [[m|]|]; cbn [bind]; [|discriminate|discriminate]. apply (K m sd).
Qed.

(** Without a model one is created from the dataset, architecture and parallelism in the file, if all three are there. *)
Theorem C98_created : forall (c : ckdata) lean strict,
  (forall d a p m, c_dataset c = Some d -> c_arch c = Some a -> c_parallel c = Some p -> create d a p = Ok m ->
     snd (load None (Some c) false lean strict) = snd (load (Some m) (Some c) false lean strict)) /\
  (forall d a p e, c_dataset c = Some d -> c_arch c = Some a -> c_parallel c = Some p -> create d a p = Raise e -> c_state c <> None ->
     snd (load None (Some c) false lean strict) = Raise (match e with KeyError => ValueError | _ => e end)) /\
  (c_dataset c = None \/ c_arch c = None \/ c_parallel c = None -> snd (load None (Some c) false lean strict) = Raise ValueError).
Proof.
  intros c lean strict. unfold CkfModel.load, create_from. split; [|split].
  - intros d a p m -> -> -> E. rewrite E. destruct (c_state c); reflexivity.
  - intros d a p e -> -> -> E Hs. rewrite E. destruct (c_state c); [|congruence]. cbn [snd]. destruct e; reflexivity.
  - intro H. destruct (c_state c); [|reflexivity]. cbn [snd]. destruct (c_dataset c), (c_arch c), (c_parallel c); cbn [bind]; try reflexivity. destruct H as [H|[H|H]]; discriminate.
Qed.

(** ** Round trip *)
Lemma load_weights_same ps qs : signature ps = signature qs -> forall sd,
  (forall n p, In (n, p) qs -> dget sd n = Some p) -> load_weights ps sd = qs.
Proof.
  revert qs. induction ps as [|(n, p) ps IH]; intros [|(k, q) qs] H sd D; try discriminate; auto. cbn in H. injection H as -> E H. cbn [load_weights map fst snd].
  rewrite (D k q) by (left; auto). rewrite (proj2 (same_shape_true p q)) by auto. f_equal. apply IH; auto. intros; apply D; right; auto.
Qed.
Lemma signature_keys ps qs : signature ps = signature qs -> dkeys ps = dkeys qs.
Proof. intro H. apply (f_equal (map fst)) in H. unfold signature in H. rewrite !map_map in H. exact H. Qed.
Lemma load_state_alike ps qs sd strict : signature ps = signature qs -> NoDup (dkeys qs) -> (forall n, dget sd n = dget qs n) -> (strict = true -> forall n, In n (dkeys sd) -> In n (dkeys qs)) ->
  load_state ps sd strict = Ok tt.
Proof.
  intros H Nd D Hs. apply load_state_ok. rewrite missing_nil, mismatched_nil, unexpected_nil. pose proof (signature_keys _ _ H) as Kk. split; [|split].
  - intros n Hn. rewrite D. intro K. apply dget_None_notin in K. apply K. rewrite <- Kk. auto.
  - intros n p x Hin Hx. rewrite D in Hx. apply dget_In in Hx.
    assert (In (n, fst p) (signature qs)) as I1 by (rewrite <- H; apply (in_map (fun np => (fst np, fst (snd np))) _ _ Hin)).
    unfold signature in I1. apply in_map_iff in I1. destruct I1 as ((k, q) & E & I2). cbn [fst snd] in E. injection E as -> E.
    pose proof (In_dget _ _ _ Nd Hx) as G1. pose proof (In_dget _ _ _ Nd I2) as G2. assert (q = x) by congruence. subst x. auto.
  - intros Sx n Hn. rewrite Kk. auto.
Qed.

(** Specification: a fresh model like the one saved, and what else a round trip needs *)
Definition alike (m k : mdl) : Prop := signature (ml_params m) = signature (ml_params k) /\ signature (ml_bufs m) = signature (ml_bufs k).
Definition restorable (a : save_args) (c : ckdata) (m : mdl) : Prop :=
  ml_recipes (s_model a) = None /\ ml_quant (s_model a) = None /\ NoDup (dkeys (ml_params (s_model a)) ++ dkeys (ml_bufs (s_model a))) /\
  (forall s n, s_sched a = Some s -> In n (dkeys (ml_params (s_model a))) -> In n (dkeys s)) /\
  (forall o, s_opt a = Some o -> ctor (op_class o) (length (ml_params (s_model a))) = Ok tt /\ exists h, op_groups o = [(h, length (ml_params (s_model a)))]) /\
  (forall n, ml_arch m = Some n -> c_arch c = Some (Some n)).
Lemma dkeys_length {A} (d : dict A) : length d = length (dkeys d).
Proof. unfold dkeys. rewrite map_length. reflexivity. Qed.
Lemma opt_back (a : save_args) (c : ckdata) k n : save_data a = Ok c -> n = length (ml_params (s_model a)) ->
  (forall o, s_opt a = Some o -> ctor (op_class o) (length (ml_params (s_model a))) = Ok tt /\ exists h, op_groups o = [(h, length (ml_params (s_model a)))]) ->
  k = load_optimizer n c -> k = Ok (s_opt a).
Proof.
  intros Ec -> H ->. destruct (C98_saved _ _ Ec) as (_ & _ & Eo & _). unfold CkfModel.load_optimizer. rewrite Eo. destruct (s_opt a) as [o|]; auto.
  destruct (H o eq_refl) as [-> (h & ->)]. cbn [bind]. rewrite Nat.eqb_refl. reflexivity.
Qed.
Lemma sanity_back (m : mdl) (c : ckdata) : (forall n, ml_arch m = Some n -> c_arch c = Some (Some n)) -> sanity_check m c = Ok tt.
Proof. intro H. unfold sanity_check. destruct (ml_arch m) as [n|]; auto. rewrite (H n eq_refl), String.eqb_refl. reflexivity. Qed.

(** A checkpoint loaded into a fresh model like the one saved gives back all its weights and buffers, the masks of all
    parameters, the optimizer, and the epoch after the one saved: the state of the run. *)
Theorem C98_round_trip : forall (a : save_args) (c : ckdata) m strict, save_data a = Ok c -> alike m (s_model a) -> restorable a c m ->
  exists m' mk e, load (Some m) (Some c) false false strict = (Some m', Ok (m', mk, s_opt a, e)) /\
    ml_params m' = ml_params (s_model a) /\ ml_bufs m' = ml_bufs (s_model a) /\
    ml_arch m' = ml_arch m /\
    (s_epoch a = None -> e = 0%Z) /\ (forall k, s_epoch a = Some k -> e = (k + 1)%Z) /\
    (s_sched a = None -> mk = None) /\
    (forall s, s_sched a = Some s -> exists mk', mk = Some mk' /\ dkeys mk' = dkeys (ml_params (s_model a)) /\
       forall n x y, dget mk' n = Some x -> dget s n = Some y -> mk_mask x = mk_mask y).
Proof.
  intros a c m strict Ec (Ap & Ab) (T0 & Q0 & Nd & Cov & Op & Ar).
  pose proof (C98_saved _ _ Ec) as (_ & Ee & Eo & Et & Eq & _).
  assert (Est : c_state c = Some (model_state (s_model a)) /\ c_sched c = option_map (fun s => Some (state_dict s)) (s_sched a)).
  { unfold CkfModel.save_data in Ec. destruct (s_extras a); cbn [bind] in Ec; try discriminate; match type of Ec with Ok ?x = Ok _ => assert (E : c = x) by congruence end; subst c; auto. }
  destruct Est as [Est Esc].
  set (ps := ml_params (s_model a)) in *. set (bs := ml_bufs (s_model a)) in *.
  assert (Nd' : NoDup (dkeys (model_state (s_model a)))) by (unfold model_state, dkeys; rewrite map_app; exact Nd).
  assert (Sig : signature (model_state m) = signature (model_state (s_model a))) by (unfold model_state, signature; rewrite !map_app; f_equal; [exact Ap|exact Ab]).
  assert (W : set_state m (model_state (s_model a)) = mkMdl ps bs (ml_arch m) (ml_dataset m) (ml_parallel m) (ml_recipes m) (ml_quant m)).
  { unfold set_state. f_equal; apply load_weights_same; auto; intros n p Hin; apply In_dget; auto; unfold model_state; apply in_app_iff; auto. }
  assert (Sched : exists mk, load_sched m c = Ok (mk, false) /\ (s_sched a = None -> mk = None) /\
    (forall s, s_sched a = Some s -> exists mk', mk = Some mk' /\ dkeys mk' = dkeys ps /\ forall n x y, dget mk' n = Some x -> dget s n = Some y -> mk_mask x = mk_mask y)).
  { unfold load_sched. rewrite Esc. destruct (s_sched a) as [s|]; cbn [option_map]; [|exists None; split; [auto|split; [auto|discriminate]]].
    set (B := create_model_masks_dict (plain (ml_params m))).
    assert (Dk : dkeys B = dkeys ps) by (rewrite <- (signature_keys _ _ Ap); apply masks_keys; rewrite (signature_keys _ _ Ap); eapply NoDup_app_left; exact Nd).
    destruct (load_round_trip s B) as (L1 & L2 & L3); [intros n Hn; apply Cov with (s := s); auto; rewrite <- Dk; exact Hn|].
    unfold load_compression_scheduler. rewrite L1. exists (Some (fst (load_state_dict B (Some (state_dict s)) false))). split; [reflexivity|]. split; [discriminate|].
    intros s' E. injection E as <-. eexists. split; [reflexivity|]. split; [rewrite L2; exact Dk|]. intros n x y Hx Hy0.
    destruct (dget B n) as [b|] eqn:Eb.
    - rewrite (L3 n y b Hy0 Eb) in Hx. injection Hx as <-. reflexivity.
    - exfalso. apply dget_None_notin in Eb. apply Eb. rewrite <- L2. apply dget_In in Hx. apply (in_map fst) in Hx. exact Hx. }
  destruct Sched as (mk & Ls & Mk1 & Mk2).
  unfold CkfModel.load. rewrite Est. rewrite (load_into_same _ _ _ _ _ Ls) by congruence. cbv zeta. cbn [fst snd]. rewrite W.
  rewrite (load_state_alike _ _ _ strict Sig Nd') by auto. cbn [bind]. cbn [ml_params].
  rewrite (opt_back _ _ _ (length ps) Ec eq_refl Op eq_refl). cbn [bind]. rewrite (sanity_back (mkMdl ps bs (ml_arch m) (ml_dataset m) (ml_parallel m) (ml_recipes m) (ml_quant m)) c Ar). cbn [bind].
  eexists _, mk, _. split; [reflexivity|]. cbn [ml_params ml_bufs ml_arch]. split; [reflexivity|]. split; [reflexivity|]. split; [reflexivity|]. rewrite Ee. split; [intros ->; reflexivity|]. split; [intros k ->; reflexivity|]. auto.
Qed.

(** The same for a model trained with DataParallel and loaded without, if it was saved with its scheduler. *)
Lemma add_prefix_state (m : mdl) : add_prefix (model_state m) = add_prefix (ml_params m) ++ add_prefix (ml_bufs m).
Proof. apply map_app. Qed.
Theorem C98_parallel : forall (a : save_args) (c : ckdata) (k m : mdl) s strict, save_data a = Ok c ->
  ml_params (s_model a) = add_prefix (ml_params k) -> ml_bufs (s_model a) = add_prefix (ml_bufs k) -> s_sched a = Some (add_prefix s) ->
  alike m k -> NoDup (dkeys (ml_params k) ++ dkeys (ml_bufs k)) -> ml_recipes (s_model a) = None -> ml_quant (s_model a) = None ->
  NoDup (dkeys s) -> (forall n, In n (dkeys (ml_params k)) -> In n (dkeys s)) ->
  (exists n, In n (dkeys (ml_params k)) /\ forall x, n <> ("module." ++ x)%string) ->
  (forall o, s_opt a = Some o -> ctor (op_class o) (length (ml_params (s_model a))) = Ok tt /\ exists h, op_groups o = [(h, length (ml_params (s_model a)))]) ->
  (forall n, ml_arch m = Some n -> c_arch c = Some (Some n)) ->
  exists m' mk e, load (Some m) (Some c) false false strict = (Some m', Ok (m', Some mk, s_opt a, e)) /\
    ml_params m' = ml_params k /\ ml_bufs m' = ml_bufs k /\
    dkeys mk = dkeys (ml_params k) /\ forall n x y, dget mk n = Some x -> dget s n = Some y -> mk_mask x = mk_mask y.
Proof.
  intros a c k m s strict Ec Ep Eb Es (Ap & Ab) Nd T0 Q0 Nds Cov Ex Op Ar.
  pose proof (C98_saved _ _ Ec) as (_ & Ee & Eo & Et & Eq & _).
  assert (Est : c_state c = Some (model_state (s_model a)) /\ c_sched c = option_map (fun s => Some (state_dict s)) (s_sched a)).
  { unfold CkfModel.save_data in Ec. destruct (s_extras a); cbn [bind] in Ec; try discriminate; match type of Ec with Ok ?x = Ok _ => assert (E : c = x) by congruence end; subst c; auto. }
  destruct Est as [Est Esc]. rewrite Es in Esc. cbn [option_map] in Esc.
  assert (Ms : model_state (s_model a) = add_prefix (model_state k)) by (rewrite add_prefix_state; unfold model_state; congruence).
  set (ps := ml_params k) in *. set (bs := ml_bufs k) in *.
  assert (Nd' : NoDup (dkeys (model_state k))) by (unfold model_state, dkeys; rewrite map_app; exact Nd).
  assert (Sig : signature (model_state m) = signature (model_state k)) by (unfold model_state, signature; rewrite !map_app; f_equal; [exact Ap|exact Ab]).
  set (sd' := rekey normalize_module_name (model_state (s_model a))).
  assert (D : forall n, dget sd' n = dget (model_state k) n) by (intro n; unfold sd'; rewrite Ms; apply rekey_prefix; exact Nd').
  assert (W : set_state m sd' = mkMdl ps bs (ml_arch m) (ml_dataset m) (ml_parallel m) (ml_recipes m) (ml_quant m)).
  { unfold set_state. f_equal; apply load_weights_same; auto; intros n p Hin; rewrite D; apply In_dget; auto; unfold model_state; apply in_app_iff; auto. }
  set (B := create_model_masks_dict (plain (ml_params m))).
  assert (Dk : dkeys B = dkeys ps) by (rewrite <- (signature_keys _ _ Ap); apply masks_keys; rewrite (signature_keys _ _ Ap); eapply NoDup_app_left; exact Nd).
  assert (CovB : forall n, In n (dkeys B) -> In n (dkeys s)) by (intros n Hn; apply Cov; rewrite <- Dk; exact Hn).
  destruct (load_parallel s B Nds CovB) as (L1 & L2 & L3). cbv zeta in *.
  assert (Ls : load_sched m c = Ok (Some (fst (load_state_dict B (Some (state_dict (add_prefix s))) true)), true)).
  { unfold load_sched. rewrite Esc. fold B. rewrite (retry_parallel s B Nds CovB); [reflexivity|].
    destruct Ex as (n & Hn & Hx). exists n. split; [rewrite Dk; exact Hn|]. unfold add_prefix, dkeys. rewrite map_map. cbn [fst]. intro K. apply in_map_iff in K.
    destruct K as (kv & K & _). apply (Hx (fst kv)). auto. }
  unfold CkfModel.load. rewrite Est. rewrite (load_into_same _ _ _ _ _ Ls) by congruence. cbv zeta. fold sd'. cbn [fst snd]. rewrite W.
  rewrite (load_state_alike _ _ _ strict Sig Nd' D).
  2:{ intros _ n Hn. destruct (dget (model_state k) n) eqn:E; [apply dget_In in E; apply (in_map fst) in E; exact E|]. rewrite <- D in E. apply dget_None_notin in E. contradiction. }
  cbn [bind]. cbn [ml_params].
  assert (Ln : length ps = length (ml_params (s_model a))) by (rewrite Ep; unfold add_prefix; rewrite map_length; reflexivity).
  rewrite (opt_back _ _ _ (length ps) Ec Ln Op eq_refl). cbn [bind]. rewrite (sanity_back (mkMdl ps bs (ml_arch m) (ml_dataset m) (ml_parallel m) (ml_recipes m) (ml_quant m)) c Ar). cbn [bind].
  eexists _, _, _. split; [reflexivity|]. cbn [ml_params ml_bufs]. split; [reflexivity|]. split; [reflexivity|]. split; [rewrite L2; exact Dk|].
  intros n x y Hx Hy0. destruct (dget B n) as [b|] eqn:E.
  - rewrite (L3 n y b Hy0 E) in Hx. injection Hx as <-. reflexivity.
  - exfalso. apply dget_None_notin in E. apply E. rewrite <- L2. apply dget_In in Hx. apply (in_map fst) in Hx. exact Hx.
Qed.

(** ** Failures *)
(** No file; the deprecated optimizer argument; no weights in the file. *)
Theorem C98_unusable : forall given (c : ckdata) lean strict,
  (forall dep, load given (None : option ckdata) dep lean strict = (given, Raise OSError)) /\
  load given (Some c) true lean strict = (given, Raise AssertionError) /\
  (c_state c = None -> load given (Some c) false lean strict = (given, Raise ValueError)).
Proof. intros given c lean strict. split; [reflexivity|]. split; [reflexivity|]. intro H. unfold CkfModel.load. rewrite H. reflexivity. Qed.

(** A file that lacks one of the model's parameters is never loaded, but the others are overwritten all the same. *)
Theorem C98_missing : forall m (c : ckdata) sd lean strict n, c_state c = Some sd -> c_sched c = None -> c_thin c = None -> c_quant c = None ->
  In n (dkeys (model_state m)) -> dget sd n = None ->
  exists m' e, load (Some m) (Some c) false lean strict = (Some m', Raise e) /\ (e = ValueError \/ e = RuntimeError) /\
    (strict = false -> (forall k p x, In (k, p) (model_state m) -> dget sd k = Some x -> fst p = fst x) -> e = ValueError) /\
    forall k p x, In (k, p) (model_state m) -> dget sd k = Some x -> fst p = fst x -> In (k, x) (model_state m').
Proof.
  intros m c sd lean strict n Es Ec Et Eq Hn D.
  assert (Ls : load_sched m c = Ok (None, false)) by (unfold load_sched; rewrite Ec; reflexivity).
  unfold CkfModel.load. rewrite Es. rewrite (load_into_same _ _ _ _ _ Ls) by auto. cbv zeta. cbn [fst snd].
  assert (Ms : missing (model_state m) sd <> []) by (intro K; apply (proj1 (missing_nil _ _) K n); auto).
  assert (L : exists e, load_state (model_state m) sd strict = Raise e /\ (e = ValueError \/ e = RuntimeError) /\ (strict = false -> mismatched (model_state m) sd = [] -> e = ValueError)).
  { unfold load_state. destruct (negb (is_nil (mismatched (model_state m) sd)) || strict && negb (is_nil (missing (model_state m) sd) && is_nil (unexpected (model_state m) sd))) eqn:E.
    - eexists. split; [reflexivity|]. split; [auto|]. intros -> K. rewrite K in E. discriminate.
    - destruct (missing (model_state m) sd); [congruence|]. eexists. split; [reflexivity|]. auto. }
  destruct L as (e & -> & L1 & L2). cbn [bind]. exists (set_state m sd), e. split; [reflexivity|]. split; [exact L1|]. split; [intros Sf Hm; apply L2; [exact Sf|apply mismatched_nil; exact Hm]|].
  intros k p x Hin Hx Hs. rewrite set_state_state. unfold load_weights. apply in_map_iff. exists (k, p). split; [|exact Hin]. cbn [fst snd]. rewrite Hx, (proj2 (same_shape_true p x) Hs). reflexivity.
Qed.

(** A checkpoint of another architecture with the same parameters is refused, but only after they have been overwritten; the
    lean loader does not look at the architecture. *)
Theorem C98_wrong_arch : forall (a : save_args) (c : ckdata) m strict, save_data a = Ok c -> alike m (s_model a) ->
  ml_recipes (s_model a) = None -> ml_quant (s_model a) = None -> NoDup (dkeys (ml_params (s_model a)) ++ dkeys (ml_bufs (s_model a))) -> s_sched a = None -> s_opt a = None ->
  forall n, ml_arch m = Some n -> c_arch c <> Some (Some n) ->
  exists m', ml_params m' = ml_params (s_model a) /\ ml_bufs m' = ml_bufs (s_model a) /\
    load (Some m) (Some c) false false strict = (Some m', Raise ValueError) /\
    load (Some m) (Some c) false true strict = (Some m', Ok (m', None, None, 0%Z)).
Proof.
  intros a c m strict Ec (Ap & Ab) T0 Q0 Nd S0 O0 n An Ar.
  pose proof (C98_saved _ _ Ec) as (_ & Ee & Eo & Et & Eq & _).
  assert (Est : c_state c = Some (model_state (s_model a)) /\ c_sched c = None /\ c_arch c <> None).
  { unfold CkfModel.save_data in Ec. destruct (s_extras a); cbn [bind] in Ec; try discriminate; match type of Ec with Ok ?x = Ok _ => assert (E : c = x) by congruence end; subst c; cbn; rewrite S0; repeat split; auto; discriminate. }
  destruct Est as (Est & Esc & Ean).
  assert (Nd' : NoDup (dkeys (model_state (s_model a)))) by (unfold model_state, dkeys; rewrite map_app; exact Nd).
  assert (Sig : signature (model_state m) = signature (model_state (s_model a))) by (unfold model_state, signature; rewrite !map_app; f_equal; [exact Ap|exact Ab]).
  assert (Ls : load_sched m c = Ok (None, false)) by (unfold load_sched; rewrite Esc; reflexivity).
  exists (set_state m (model_state (s_model a))). unfold set_state at 1 2. cbn [ml_params ml_bufs].
  split; [apply load_weights_same; auto; intros k p Hin; apply In_dget; auto; unfold model_state; apply in_app_iff; auto|].
  split; [apply load_weights_same; auto; intros k p Hin; apply In_dget; auto; unfold model_state; apply in_app_iff; auto|].
  unfold CkfModel.load. rewrite Est, !(load_into_same _ _ _ _ _ Ls) by congruence. cbv zeta. cbn [fst snd].
  rewrite (load_state_alike _ _ _ strict Sig Nd') by auto. cbn [bind]. split; [|reflexivity].
  unfold CkfModel.load_optimizer. rewrite Eo, O0. cbn [bind]. unfold sanity_check, set_state. cbn [ml_arch]. rewrite An.
  destruct (c_arch c) as [[x|]|]; [|reflexivity|congruence]. destruct (String.eqb_spec n x); [congruence|reflexivity].
Qed.

(** *** Findings *)
(** Any model that knows its architecture but not its dataset or parallelism (say the user set only [model.arch]), saved
    without naming the architecture, cannot be loaded from its own checkpoint. *)
Theorem C98_own_arch_refuted : forall (a : save_args) (c : ckdata) n strict, save_data a = Ok c -> s_arch a = None ->
  ml_arch (s_model a) = Some n -> ml_parallel (s_model a) = None \/ ml_dataset (s_model a) = None ->
  ml_recipes (s_model a) = None -> ml_quant (s_model a) = None -> NoDup (dkeys (ml_params (s_model a)) ++ dkeys (ml_bufs (s_model a))) -> s_sched a = None -> s_opt a = None ->
  snd (load (Some (s_model a)) (Some c) false false strict) = Raise ValueError.
Proof.
  intros a c n strict Ec Ea An Mi T0 Q0 Nd S0 O0.
  assert (Ac : c_arch c <> Some (Some n)).
  { unfold CkfModel.save_data in Ec. destruct (s_extras a); cbn [bind] in Ec; try discriminate; match type of Ec with Ok ?x = Ok _ => assert (E : c = x) by congruence end; subst c; cbn;
    rewrite Ea; destruct Mi as [-> | ->]; try destruct (ml_parallel (s_model a)); discriminate. }
  destruct (C98_wrong_arch a c (s_model a) strict Ec (conj eq_refl eq_refl) T0 Q0 Nd S0 O0 n An Ac) as (m' & _ & _ & -> & _). reflexivity.
Qed.
(** A DataParallel checkpoint saved without a scheduler is not loaded without DataParallel: the names are normalised only for
    the sake of the masks. *)
Theorem C98_parallel_refuted : forall (a : save_args) (c : ckdata) (k m : mdl) lean strict, save_data a = Ok c ->
  ml_params (s_model a) = add_prefix (ml_params k) -> ml_bufs (s_model a) = add_prefix (ml_bufs k) -> s_sched a = None ->
  alike m k -> ml_recipes (s_model a) = None -> ml_quant (s_model a) = None ->
  (exists n, In n (dkeys (model_state k)) /\ forall x, n <> ("module." ++ x)%string) ->
  exists m' e, load (Some m) (Some c) false lean strict = (Some m', Raise e).
Proof.
  intros a c k m lean strict Ec Ep Eb S0 (Ap & Ab) T0 Q0 (n & Hn & Hx).
  pose proof (C98_saved _ _ Ec) as (_ & Ee & Eo & Et & Eq & _).
  assert (Est : c_state c = Some (add_prefix (model_state k)) /\ c_sched c = None).
  { unfold CkfModel.save_data in Ec. rewrite add_prefix_state, <- Ep, <- Eb. destruct (s_extras a); cbn [bind] in Ec; try discriminate; match type of Ec with Ok ?x = Ok _ => assert (E : c = x) by congruence end; subst c; cbn; rewrite S0; auto. }
  destruct Est as (Est & Esc).
  destruct (C98_missing m c _ lean strict n Est Esc) as (m' & e & -> & _); try congruence; eauto.
  - unfold model_state, dkeys in *. rewrite map_app in *. pose proof (signature_keys _ _ Ap) as K1. pose proof (signature_keys _ _ Ab) as K2. unfold dkeys in *. congruence.
  - apply dget_None_notin. unfold add_prefix, dkeys. rewrite map_map. cbn [fst]. intro K. apply in_map_iff in K. destruct K as (kv & K & _). apply (Hx (fst kv)). auto.
Qed.
(** An optimizer with several parameter groups is saved but cannot be loaded: the whole load fails. *)
Theorem C98_groups_refuted : forall (a : save_args) (c : ckdata) o strict, save_data a = Ok c -> s_opt a = Some o -> (1 < length (op_groups o))%nat ->
  (forall n, ctor (op_class o) n = Ok tt) -> s_sched a = None ->
  ml_recipes (s_model a) = None -> ml_quant (s_model a) = None -> NoDup (dkeys (ml_params (s_model a)) ++ dkeys (ml_bufs (s_model a))) ->
  snd (load (Some (s_model a)) (Some c) false false strict) = Raise ValueError.
Proof.
  intros a c o strict Ec Eo Lg Ct S0 T0 Q0 Nd.
  pose proof (C98_saved _ _ Ec) as (_ & _ & Eo' & Et & Eq & _).
  assert (Est : c_state c = Some (model_state (s_model a)) /\ c_sched c = None).
  { unfold CkfModel.save_data in Ec. destruct (s_extras a); cbn [bind] in Ec; try discriminate; match type of Ec with Ok ?x = Ok _ => assert (E : c = x) by congruence end; subst c; cbn; rewrite S0; auto. }
  destruct Est as (Est & Esc).
  assert (Ls : load_sched (s_model a) c = Ok (None, false)) by (unfold load_sched; rewrite Esc; reflexivity).
  assert (Nd' : NoDup (dkeys (model_state (s_model a)))) by (unfold model_state, dkeys; rewrite map_app; exact Nd).
  unfold CkfModel.load. rewrite Est, !(load_into_same _ _ _ _ _ Ls) by congruence. cbv zeta. cbn [fst snd].
  rewrite (load_state_alike _ _ _ strict eq_refl Nd') by auto. cbn [bind]. unfold CkfModel.load_optimizer. rewrite Eo', Eo, Ct. cbn [bind].
  destruct (op_groups o) as [|[h k] [|x l]]; cbn in Lg; try lia. reflexivity.
Qed.
End Load.

(** ** A concrete run *)
Definition mx := mkMdl (R := unit) (Qm := unit) [("fc.weight", ([2%nat], [1; 2])); ("fc.bias", ([1%nat], [3]))] [("bn.running_mean", ([1%nat], [7]))] (Some "net") (Some "cifar10") (Some true) None None.
Definition mx0 := mkMdl (R := unit) (Qm := unit) [("fc.weight", ([2%nat], [0; 0])); ("fc.bias", ([1%nat], [0]))] [("bn.running_mean", ([1%nat], [0]))] (Some "net") (Some "cifar10") (Some true) None None.
Definition schedx : dict masker := dset (create_model_masks_dict (plain (ml_params mx))) "fc.weight" (set_mask (new_masker) (Some [1; 0])).
Definition optx := mkOpt (Hy := Q) "SGD" [(1 # 10, 2%nat)] [5; 6].
Definition savex := mkSave (X := unit) (Some 4%Z) None mx (Some optx) (Some schedx) XNone true None.
Definition loadx := load (R := unit) (Qm := unit) (Hy := Q) (Os := list Q) (X := unit) (fun r => r) (fun _ m k => (m, Ok k)) (fun _ m => (m, Ok tt)) (fun _ => None)
  (fun _ _ _ => Ok mx0) (fun (_ : string) _ => Ok tt).
Example C98_run : forall c, save_data tt savex = Ok c ->
  alike unit unit mx0 mx /\ restorable unit unit string Q (list Q) unit (fun _ _ => Ok tt) savex c mx0 /\
  snd (loadx (Some mx0) (Some c) false false true) =
    Ok (mx, Some [("fc.weight", set_mask new_masker (Some [1; 0])); ("fc.bias", new_masker)], Some optx, 5%Z) /\
  snd (loadx None (Some c) false true true) = Ok (mx, None, None, 0%Z).
Proof.
  intros c H. injection H as <-. split; [split; reflexivity|]. split; [|split; reflexivity].
  split; [reflexivity|]. split; [reflexivity|]. split; [repeat constructor; cbn; intuition discriminate|].
  split; [intros s n E; injection E as <-; cbn; tauto|]. split; [intros o E; injection E as <-; split; [reflexivity|exists (1#10); reflexivity]|]. intros n E. injection E as <-. reflexivity.
Qed.
(** a DataParallel model, without and with its scheduler *)
Definition mxp := mkMdl (R := unit) (Qm := unit) (add_prefix (ml_params mx)) (add_prefix (ml_bufs mx)) (Some "net") (Some "cifar10") (Some true) None None.
Example C98_parallel_run :
  (exists c, save_data tt (mkSave (X := unit) (Some 4%Z) None mxp (Some optx) (Some (add_prefix schedx)) XNone true None) = Ok c /\
     exists mk, snd (loadx (Some mx0) (Some c) false false true) = Ok (mx, Some mk, Some optx, 5%Z)) /\
  (exists c, save_data tt (mkSave (X := unit) (Some 4%Z) None mxp (Some optx) None XNone true None) = Ok c /\
     snd (loadx (Some mx0) (Some c) false false false) = Raise ValueError).
Proof. split; eexists; (split; [reflexivity|]); [eexists; vm_compute; reflexivity|reflexivity]. Qed.

Print Assumptions C98_saved.
Print Assumptions C98_loaded.
Print Assumptions C98_lean.
Print Assumptions C98_created.
Print Assumptions C98_round_trip.
Print Assumptions C98_parallel.
Print Assumptions C98_unusable.
Print Assumptions C98_missing.
Print Assumptions C98_wrong_arch.
Print Assumptions C98_own_arch_refuted.
Print Assumptions C98_parallel_refuted.
Print Assumptions C98_groups_refuted.
