(** The loops of the sensitivity analysis. *)
From Coq Require Import String List ZArith QArith Qabs Qround Bool Arith Lia Lqa.
From Verif Require Import Base Names Lists SchedModel PrunerModel PrunerProofs StructModel StructSpec
  StructProofs StructRankProofs SensModel SensSpec SensProofs SensOnceProofs.
Import ListNotations.

(** ** Strings *)
Lemma prefix_iff a b : prefix a b = true <-> exists y, b = (a ++ y)%string.
Proof.
  revert b. induction a as [|c a IH]; intros b; simpl.
  - split; [intros _; exists b; auto|intros _; destruct b; auto].
  - destruct b as [|c' b]; [split; [discriminate|intros (y & E); discriminate]|].
    change (prefix (String c a) (String c' b)) with (if Ascii.ascii_dec c c' then prefix a b else false).
    destruct (Ascii.ascii_dec c c') as [->|Hne].
    + rewrite IH. split; intros (y & E); exists y; [congruence|inversion E; auto].
    + split; [discriminate|intros (y & E); inversion E; congruence].
Qed.

Lemma str_in_iff a b : str_in a b = true <-> occurs_in a b.
Proof.
  unfold occurs_in. revert a. induction b as [|c b IH]; intro a.
  - cbn [str_in]. rewrite orb_false_r, prefix_iff. split.
    + intros (y & E). exists EmptyString, y. exact E.
    + intros (x & y & E). destruct x; [|discriminate]. exists y. exact E.
  - cbn [str_in]. rewrite orb_true_iff, prefix_iff, IH. split.
    + intros [(y & E)|(x & y & E)]; [exists EmptyString, y; auto|exists (String c x), y; simpl; congruence].
    + intros (x & y & E). destruct x as [|c' x]; [left; exists y; auto|right; exists x, y; inversion E; auto].
Qed.

(** ** Dictionaries *)
Lemma dget_values d n : dget (values d) n = option_map nd_data (dget d n).
Proof. induction d as [|(k, t) d IH]; simpl; auto. destruct (String.eqb n k); auto. Qed.

Lemma dget_with_values d v n : dget (with_values d v) n =
  option_map (fun t => mkND (nd_shape t) (match dget v n with Some x => x | None => nd_data t end)) (dget d n).
Proof.
  unfold with_values. induction d as [|(k, t) d IH]; simpl; auto.
  destruct (String.eqb_spec n k) as [->|]; auto.
Qed.

Lemma keys_values d : dkeys (values d) = dkeys d.
Proof. unfold values, dkeys. rewrite map_map. reflexivity. Qed.
Lemma keys_with_values d v : dkeys (with_values d v) = dkeys d.
Proof. unfold with_values, dkeys. rewrite map_map. reflexivity. Qed.

Lemma dset_twice {A} (d : dict A) k a b : dset (dset d k a) k b = dset d k b.
Proof.
  induction d as [|(k', v) d IH]; simpl; [rewrite String.eqb_refl; auto|].
  destruct (String.eqb k k') eqn:E; simpl; rewrite E; [auto|rewrite IH; auto].
Qed.

Lemma dset_keys_add {A} (d : dict A) k v : ~ In k (dkeys d) -> dkeys (dset d k v) = (dkeys d ++ [k])%list.
Proof.
  induction d as [|(k', v') d IH]; simpl; intro H; auto.
  destruct (String.eqb_spec k k'); [subst; tauto|]. simpl. rewrite IH by tauto. auto.
Qed.

(** ** Levels *)
Lemma most_asked_app g t l s : most_asked g t (l ++ [s])%list = Nat.max (most_asked g t l) (asked g t s).
Proof. unfold most_asked. induction l as [|x l IH]; simpl; [lia|]. rewrite IH. lia. Qed.

Lemma structures_same g t t' : nd_shape t' = nd_shape t -> length (nd_data t') = length (nd_data t) ->
  structures g t' = structures g t.
Proof. intros H1 H2. unfold structures. rewrite H1, H2. auto. Qed.

Lemma asked_zero g t s : s == 0 -> asked g t s = 0%nat.
Proof.
  intro E. unfold asked. setoid_replace (s * Zq (Z.of_nat (structures g t))) with 0 by (rewrite E; ring). reflexivity.
Qed.

Lemma nd_eta t : mkND (nd_shape t) (nd_data t) = t.
Proof. destruct t; auto. Qed.

(** What the pruner used for parameter [p] does to a parameter [q] with current value [t]. *)
Lemma element_pruner_call p s q t : p <> "*"%string -> (q = p -> level_ok GElement t s) ->
  exists o, level_pruner [(p, s)] tt me0 q (nd_data t) None = Ok (tt, o) /\
    (q = p -> pruned_to GElement (asked GElement t s) t (mkND (nd_shape t) (masked (nd_data t) o))) /\
    (q <> p -> o = None).
Proof.
  intros Hst Hl. unfold level_pruner. cbn [dget].
  destruct (String.eqb_spec q p) as [->|Hne].
  - destruct (Hl eq_refl) as (H0 & H1 & H2). destruct (Qeq_bool s 0) eqn:Es.
    + exists None. split; auto. split; [|congruence]. intros _. cbn [masked]. rewrite nd_eta.
      rewrite asked_zero by (apply Qeq_bool_iff; auto). apply pruned_to_zero; [congruence|discriminate].
    + apply Qeq_bool_neq in Es. destruct (level_pruned t s H0 H1 (H2 eq_refl Es)) as (m & E & _ & P).
      rewrite E. cbn [bind]. exists (Some m). split; auto. split; [auto|congruence].
  - destruct (String.eqb_spec "*" p) as [E|_]; [congruence|]. cbn. exists None. split; auto. split; [congruence|auto].
Qed.

Lemma ranked_pruner_call g shapes p s q sh t : g = GFilter \/ g = GChannel ->
  dget shapes q = Some sh -> nd_shape t = nd_shape sh ->
  (occurs_in q p -> nd_ok t /\ (forall d, In d (nd_shape t) -> (0 < d)%nat) /\ ndim t = 4%nat /\ level_ok g t s) ->
  exists o, ranked_string_pruner shapes (gt_of g) s p tt me0 q (nd_data t) None = Ok (tt, o) /\
    (occurs_in q p -> pruned_to g (asked g t s) t (mkND (nd_shape t) (masked (nd_data t) o))) /\
    (~ occurs_in q p -> o = None).
Proof.
  intros Hg Hsh Es Hl. unfold ranked_string_pruner. destruct (str_in q p) eqn:E.
  - apply str_in_iff in E. destruct (Hl E) as (A & B & C & H0 & H1 & _). rewrite Hsh, <- Es, nd_eta.
    destruct (ranked_pruned g t s [p] Hg A B C H0 H1) as ((b, o) & Er & Hr). rewrite Er. cbn [bind snd] in *.
    destruct o as [m|].
    + exists (Some (nd_data m)). split; auto. split; [|tauto]. intros _. apply Hr.
    + exists None. split; [reflexivity|]. split; [|auto]. intros _. cbn [masked]. rewrite nd_eta. exact Hr.
  - assert (~ occurs_in q p) by (intro Hc; apply str_in_iff in Hc; congruence). exists None. split; auto. split; tauto.
Qed.

Lemma sens_pruner_some g m p s t : state_entry m p = Ok t -> examined g t = true -> g <> GOther ->
  sens_pruner g m p s = Ok (Some (match g with
    | GElement => level_pruner [(p, s)] | _ => ranked_string_pruner (n_params m) (gt_of g) s p end)).
Proof.
  intros E Hx Hg. unfold sens_pruner. destruct g; cbn [gt_of examined] in *; auto; try congruence; rewrite E; cbn [bind]; rewrite Hx; reflexivity.
Qed.

Lemma sens_pruner_none g m p s t : state_entry m p = Ok t -> examined g t = false -> ndim t = 2%nat \/ ndim t = 4%nat ->
  g <> GOther -> sens_pruner g m p s = Ok None.
Proof.
  intros E Hx Hd Hg. unfold sens_pruner. destruct g; cbn [examined] in *; try congruence.
  - destruct Hd as [Hd|Hd]; rewrite Hd in Hx; simpl in Hx; discriminate.
  - rewrite E. cbn [bind]. rewrite Hx. reflexivity.
  - rewrite E. cbn [bind]. rewrite Hx. reflexivity.
Qed.

Section Run.
Context {R : Type}.
Variable test : dict nd -> R.
Variables (g : group) (m : net).
Hypothesis Hg : g <> GOther.
Hypothesis Hm : net_ok m.

Lemma handled_dec p q : {handled g p q} + {~ handled g p q}.
Proof using.
  clear Hg. unfold handled. destruct g; [apply string_dec| | |]; (destruct (str_in q p) eqn:E;
    [left; apply str_in_iff; auto|right; intro H; apply str_in_iff in H; congruence]).
Qed.

Lemma pruned_model_nil p : (forall q u, dget (n_params m) q = Some u -> handled g p q -> g <> GElement -> ndim u = 4%nat) ->
  pruned_model g p [] (n_params m) (n_params m).
Proof using Hg.
  intro Hd. split; auto. intros q t Hq. exists t. split; auto. split; auto. intro Hh. cbn [most_asked map fold_right].
  apply pruned_to_zero; auto. eauto.
Qed.

Lemma level_step p t s done cpy :
  p <> "*"%string -> state_entry m p = Ok t -> examined g t = true ->
  (forall q u, dget (n_params m) q = Some u -> handled g p q -> (g <> GElement -> ndim u = 4%nat) /\ level_ok g u s) ->
  pruned_model g p done (n_params m) cpy ->
  exists cpy', (forall sens all, sens_level test g m p (cpy, sens, all) s =
      Ok (cpy', fset sens s (test cpy'), dset all p (fset sens s (test cpy')))) /\
    pruned_model g p (done ++ [s])%list (n_params m) cpy'.
Proof using Hg Hm.
  intros Hst Ht Hx Hl [Hk Hp]. unfold sens_level. rewrite (sens_pruner_some g m p s t Ht Hx Hg). cbn [bind].
  set (pr := match g with GElement => _ | _ => _ end).
  destruct Hm as [Hnd Hok].
  assert (Hcall : forall q u u', dget (n_params m) q = Some u -> dget cpy q = Some u' ->
    exists o, pr tt me0 q (nd_data u') None = Ok (tt, o) /\
      (handled g p q -> pruned_to g (asked g u' s) u' (mkND (nd_shape u') (masked (nd_data u') o))) /\
      (~ handled g p q -> o = None)).
  { intros q u u' Hu Hu'. destruct (Hp q u Hu) as (u1 & E1 & Ha & Hb). rewrite Hu' in E1. inversion E1; subst u1.
    assert (Hsame : nd_shape u' = nd_shape u /\ length (nd_data u') = length (nd_data u)).
    { destruct (handled_dec p q) as [Hh|Hh]; [destruct (Ha Hh) as (A & B & _); auto|rewrite (Hb Hh); auto]. }
    destruct Hsame as [Es El].
    assert (Hlev : handled g p q -> level_ok g u' s).
    { intro Hh. destruct (Hl q u Hu Hh) as (_ & A & B & C). split; auto. split; auto.
      unfold asked in *. rewrite (structures_same g u u' Es El). auto. }
    destruct (Hok q u Hu) as [Hnd1 Hpos].
    destruct g eqn:Eg; [| | |congruence].
    - apply element_pruner_call; auto.
    - apply (ranked_pruner_call GFilter (n_params m) p s q u u'); auto. intro Hh. unfold nd_ok, ndim. rewrite Es, El. split; [exact Hnd1|].
      split; auto. destruct (Hl q u Hu Hh) as [Hd _]. split; [apply Hd; discriminate|auto].
    - apply (ranked_pruner_call GChannel (n_params m) p s q u u'); auto. intro Hh. unfold nd_ok, ndim. rewrite Es, El. split; [exact Hnd1|].
      split; auto. destruct (Hl q u Hu Hh) as [Hd _]. split; [apply Hd; discriminate|auto]. }
  assert (Hback : forall q u', dget cpy q = Some u' -> exists u, dget (n_params m) q = Some u).
  { intros q u' Hq. destruct (keys_dget (n_params m) q) as (u & Hu); eauto. rewrite <- Hk. apply dget_In in Hq. apply (in_map fst) in Hq. exact Hq. }
  destruct (prune_once_ok pr (values cpy)) as (v & Ev & Hkv & Hv).
  { rewrite keys_values, Hk. exact Hnd. }
  { intros q d Hq. rewrite dget_values in Hq. destruct (dget cpy q) as [u'|] eqn:E; [|discriminate]. inversion Hq; subst.
    destruct (Hback q u' E) as (u & Hu). destruct (Hcall q u u' Hu E) as (o & A & _). eauto. }
  exists (with_values cpy v). split; [intros; rewrite Ev; reflexivity|]. split; [rewrite keys_with_values; auto|].
  intros q u Hu. destruct (Hp q u Hu) as (u' & E1 & Ha & Hb). destruct (Hcall q u u' Hu E1) as (o & Eo & Hc & Hd).
  rewrite dget_with_values, E1. cbn [option_map].
  rewrite (Hv q (nd_data u') o); auto; [|rewrite dget_values, E1; auto].
  eexists. split; [reflexivity|]. split.
  - intro Hh. rewrite most_asked_app. specialize (Ha Hh). specialize (Hc Hh).
    pose proof Ha as (A & B & _).
    replace (asked g u s) with (asked g u' s) by (unfold asked; rewrite (structures_same g u u'); auto).
    eapply pruned_to_compose; eauto.
  - intro Hh. rewrite (Hd Hh). cbn [masked]. rewrite nd_eta. auto.
Qed.

Definition record_all (d : list (Q * R)) (l : list (Q * dict nd)) : list (Q * R) :=
  fold_left (fun d sw => fset d (fst sw) (test (snd sw))) l d.

Lemma levels_fold p t todo : p <> "*"%string -> state_entry m p = Ok t -> examined g t = true ->
  (forall q u, dget (n_params m) q = Some u -> handled g p q -> (g <> GElement -> ndim u = 4%nat) /\ forall s, In s todo -> level_ok g u s) ->
  forall done cpy, pruned_model g p done (n_params m) cpy ->
  exists Ws cpy', length Ws = length todo /\
    (forall sens all, foldM (sens_level test g m p) todo (cpy, sens, all) =
      Ok (cpy', record_all sens (combine todo Ws),
          match todo with [] => all | _ => dset all p (record_all sens (combine todo Ws)) end)) /\
    (forall i, (i < length todo)%nat -> pruned_model g p (done ++ firstn (S i) todo)%list (n_params m) (nth i Ws [])) /\
    pruned_model g p (done ++ todo)%list (n_params m) cpy'.
Proof using Hg Hm.
  intros Hst Ht Hx. induction todo as [|s todo IH]; intros Hl done cpy Hp.
  - exists [], cpy. split; auto. split; auto. rewrite app_nil_r. split; [simpl; intros; lia|exact Hp].
  - destruct (level_step p t s done cpy Hst Ht Hx) as (cpy1 & E & Hp1); auto.
    { intros q u Hu Hh. destruct (Hl q u Hu Hh) as [A B]. split; auto. apply B. left; auto. }
    destruct (IH ltac:(intros q u Hu Hh; destruct (Hl q u Hu Hh) as [A B]; split; auto; intros; apply B; right; auto)
                (done ++ [s])%list cpy1 Hp1) as (Ws & cpy' & HL & E' & Hw & Hlast).
    exists (cpy1 :: Ws), cpy'. split; [simpl; congruence|]. split; [|split; [|rewrite <- app_assoc in Hlast; exact Hlast]].
    + intros sens all. cbn [foldM]. rewrite E. cbn [bind]. rewrite E'. cbn [combine record_all fold_left fst snd]. fold (record_all (fset sens s (test cpy1)) (combine todo Ws)).
      destruct todo; [destruct Ws; [reflexivity|discriminate]|]. rewrite dset_twice. reflexivity.
    + intros i Hi. destruct i as [|i]; [exact Hp1|]. cbn [nth firstn]. simpl in Hi. specialize (Hw i ltac:(lia)).
      rewrite <- app_assoc in Hw. exact Hw.
Qed.

(** Number-keyed dictionaries. *)
Lemma fget_fset d k v k' : fget (fset d k v) k' = if Qeq_bool k' k then Some v else @fget R d k'.
Proof using.
  induction d as [|(k0, v0) d IH]; simpl; [destruct (Qeq_bool k' k); auto|].
  destruct (Qeq_bool k k0) eqn:E; simpl.
  - apply Qeq_bool_iff in E. destruct (Qeq_bool k' k0) eqn:E1.
    + assert (Qeq_bool k' k = true) as -> by (apply Qeq_bool_iff; apply Qeq_bool_iff in E1; rewrite E1, E; reflexivity). auto.
    + destruct (Qeq_bool k' k) eqn:E2; auto. exfalso. apply Qeq_bool_neq in E1. apply E1. apply Qeq_bool_iff in E2. rewrite E2; auto.
  - rewrite IH. destruct (Qeq_bool k' k0) eqn:E1; auto. destruct (Qeq_bool k' k) eqn:E2; auto. exfalso.
    apply Qeq_bool_neq in E. apply E. apply Qeq_bool_iff in E1. apply Qeq_bool_iff in E2. rewrite <- E2; auto.
Qed.

Lemma record_none d l s : (forall x, In x (map fst l) -> ~ x == s) -> fget (record_all d l) s = fget d s.
Proof using.
  revert d. induction l as [|(k, w) l IH]; intros d H; simpl; auto.
  change (fget (record_all (fset d k (test w)) l) s = fget d s).
  rewrite IH by (intros; apply H; right; auto). rewrite fget_fset.
  destruct (Qeq_bool s k) eqn:E; auto. exfalso. apply (H k); [left; auto|]. apply Qeq_bool_iff in E. symmetry; auto.
Qed.

Lemma record_some levels : forall Ws d i, length Ws = length levels -> (i < length levels)%nat ->
  (forall j, (i < j < length levels)%nat -> ~ nth j levels 0 == nth i levels 0) ->
  fget (record_all d (combine levels Ws)) (nth i levels 0) = Some (test (nth i Ws [])).
Proof using.
  induction levels as [|s levels IH]; intros Ws d i HL Hi Hd; [simpl in Hi; lia|].
  destruct Ws as [|w Ws]; [discriminate|]. simpl in HL.
  change (fget (record_all (fset d s (test w)) (combine levels Ws)) (nth i (s :: levels) 0) = Some (test (nth i (w :: Ws) []))).
  destruct i as [|i].
  - cbn [nth]. rewrite record_none.
    + rewrite fget_fset. rewrite Qeq_bool_refl. auto.
    + intros x Hx. apply in_map_iff in Hx. destruct Hx as ((x', w') & <- & Hx). apply in_combine_l in Hx.
      apply (In_nth _ _ 0) in Hx. destruct Hx as (j & Hj & E). cbn [fst]. rewrite <- E. apply (Hd (S j)). simpl. lia.
  - cbn [nth]. apply IH; [congruence|simpl in Hi; lia|]. intros j Hj. apply (Hd (S j)). simpl. lia.
Qed.

Lemma record_keys levels : forall Ws d, length Ws = length levels ->
  (forall s k, In s levels -> In k (map fst d) -> ~ k == s) ->
  (forall i j, (i < j < length levels)%nat -> ~ nth j levels 0 == nth i levels 0) ->
  map fst (record_all d (combine levels Ws)) = (map fst d ++ levels)%list.
Proof using.
  induction levels as [|s levels IH]; intros Ws d HL Hd Hn; [rewrite app_nil_r; auto|].
  destruct Ws as [|w Ws]; [discriminate|]. simpl in HL.
  change (map fst (record_all (fset d s (test w)) (combine levels Ws)) = (map fst d ++ s :: levels)%list).
  assert (Ek : map fst (fset d s (test w)) = (map fst d ++ [s])%list).
  { assert (Hs : forall k, In k (map fst d) -> ~ k == s) by (intros; apply Hd; simpl; auto). clear -Hs.
    induction d as [|(k, v) d IH]; simpl; auto. destruct (Qeq_bool s k) eqn:E.
    - exfalso. apply (Hs k); [left; auto|]. apply Qeq_bool_iff in E. symmetry; auto.
    - simpl. rewrite IH; auto. intros k' Hk'. apply Hs. right; auto. }
  rewrite IH.
  - rewrite Ek, <- app_assoc. auto.
  - congruence.
  - intros s' k Hs' Hk. rewrite Ek in Hk. apply in_app_or in Hk. destruct Hk as [Hk|[<-|[]]]; [apply Hd; [right|]; auto|].
    apply (In_nth _ _ 0) in Hs'. destruct Hs' as (j & Hj & <-). intro E. apply (Hn 0%nat (S j)); [simpl; lia|]. simpl. symmetry; auto.
  - intros i j Hij. apply (Hn (S i) (S j)). simpl. lia.
Qed.

Variable levels : list Q.

(** What is reported for parameter [p]. *)
Definition described (p : string) (d : list (Q * R)) : Prop :=
  exists Ws, reports test levels Ws d /\
    (forall i, (i < length levels)%nat -> pruned_model g p (firstn (S i) levels) (n_params m) (nth i Ws [])) /\
    ((forall i j, (i < j < length levels)%nat -> ~ nth j levels 0 == nth i levels 0) -> map fst d = levels).

Definition tested (p : string) : bool :=
  match state_entry m p with Ok t => examined g t && negb (match levels with [] => true | _ => false end) | Raise _ => false end.

Lemma examined_dim t : examined g t = true -> Nat.eqb (ndim t) 2 || Nat.eqb (ndim t) 4 = true.
Proof using. clear Hg. unfold examined. destruct g; auto; intros ->; apply orb_true_r. Qed.

Lemma param_step p : analysable g m levels p ->
  exists d, (tested p = true -> described p d) /\
    forall all, sens_param test g levels (m, all) p = Ok (m, if tested p then dset all p d else all).
Proof using Hg Hm.
  intros (Hst & t & Ht & Hl). unfold tested. rewrite Ht.
  destruct (examined g t) eqn:Hx; cbn [andb].
  - specialize (Hl eq_refl). destruct (levels_fold p t levels Hst Ht Hx Hl [] (n_params m)) as (Ws & cpy' & HL & E & Hw & _).
    { apply pruned_model_nil. intros q u Hu Hh. apply (Hl q u Hu Hh). }
    cbn [app] in Hw. exists (record_all [] (combine levels Ws)). split.
    + intros _. exists Ws. split; [|split; auto].
      * split; auto. split; [intros; apply record_some; auto|].
        intros s Hs. rewrite record_none; auto. intros x Hx'. apply in_map_iff in Hx'. destruct Hx' as ((x', w') & <- & Hx').
        apply in_combine_l in Hx'. auto.
      * intro Hn. rewrite record_keys; auto.
    + intro all. unfold sens_param. rewrite Ht. cbn [bind]. rewrite examined_dim by auto. rewrite E. cbn [bind snd].
      destruct levels; reflexivity.
  - exists []. split; [discriminate|]. intro all. unfold sens_param. rewrite Ht. cbn [bind].
    destruct (Nat.eqb (ndim t) 2 || Nat.eqb (ndim t) 4) eqn:Ed; auto.
    assert (Hd : ndim t = 2%nat \/ ndim t = 4%nat).
    { apply orb_true_iff in Ed. destruct Ed as [Ed|Ed]; apply Nat.eqb_eq in Ed; auto. }
    assert (Hs : forall l st, foldM (sens_level test g m p) l st = Ok st).
    { induction l as [|s l IH]; intros st; auto. cbn [foldM]. unfold sens_level at 1. destruct st as ((a, b), c).
      rewrite (sens_pruner_none g m p s t Ht Hx Hd Hg). cbn [bind]. apply IH. }
    rewrite Hs. reflexivity.
Qed.

Lemma params_fold net : (forall p, In p net -> analysable g m levels p) ->
  forall all, (forall p d, dget all p = Some d -> described p d) ->
  exists out, foldM (sens_param test g levels) net (m, all) = Ok (m, out) /\
    (forall p d, dget out p = Some d -> described p d) /\
    (forall p, In p (dkeys out) <-> In p (dkeys all) \/ (In p net /\ tested p = true)) /\
    (NoDup net -> (forall p, In p net -> ~ In p (dkeys all)) -> dkeys out = (dkeys all ++ filter tested net)%list).
Proof using Hg Hm.
  induction net as [|p net IH]; intros Ha all Hd.
  - exists all. split; auto. split; auto. split; [simpl; tauto|]. intros. simpl. rewrite app_nil_r; auto.
  - destruct (param_step p (Ha p (or_introl eq_refl))) as (d & Hdd & E). cbn [foldM]. rewrite E. cbn [bind].
    destruct (IH (fun q Hq => Ha q (or_intror Hq)) (if tested p then dset all p d else all)) as (out & E' & H1 & H2 & H3).
    { intros q x Hq. destruct (tested p) eqn:Et; [|auto]. destruct (string_dec p q) as [->|Hne].
      - rewrite dget_dset_same in Hq. inversion Hq; subst; auto.
      - rewrite dget_dset_other in Hq by auto. auto. }
    exists out. split; auto. split; auto. split.
    + intro q. rewrite H2. destruct (tested p) eqn:Et.
      * assert (Hk : In q (dkeys (dset all p d)) <-> q = p \/ In q (dkeys all)).
        { destruct (in_dec string_dec p (dkeys all)) as [Hi|Hi].
          - rewrite dset_keys_mem by auto. split; [tauto|intros [->|?]; auto].
          - rewrite dset_keys_new by auto. rewrite in_app_iff. simpl. intuition. }
        rewrite Hk. simpl. split; [intros [[->|?]|[? ?]]; auto|intros [?|[[->|?] ?]]; auto].
      * simpl. split; [intros [?|[? ?]]; auto|intros [?|[[->|?] ?]]; auto; congruence].
    + intros Hnd Hf. inversion Hnd as [|? ? Hni Hnd']; subst. cbn [filter]. destruct (tested p) eqn:Et.
      * rewrite H3; auto.
        -- rewrite dset_keys_new by (apply Hf; left; auto). rewrite <- app_assoc. reflexivity.
        -- intros q Hq. rewrite dset_keys_new by (apply Hf; left; auto). rewrite in_app_iff. simpl.
           intros [Hc|[->|[]]]; [apply (Hf q); [right|]; auto|contradiction].
      * apply H3; auto. intros q Hq. apply Hf. right; auto.
Qed.
End Run.
