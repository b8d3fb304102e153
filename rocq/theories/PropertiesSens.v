(** C81: the sensitivity analysis (distiller/sensitivity.py). *)
From Coq Require Import String List ZArith QArith Qabs Qround Bool Arith Lia Lqa.
From Verif Require Import Base Names Lists SchedModel PrunerModel PrunerProofs StructModel StructSpec StructProofs
  StructRankProofs PropertiesPrune SensModel SensSpec SensProofs SensOnceProofs SensMainProofs.
Import ListNotations.

Lemma string_app_nil s : (s ++ "")%string = s.
Proof. induction s as [|c s IH]; simpl; congruence. Qed.

(** For every network, list of names, list of levels and test function: the caller's model is not changed;
    the result has an entry for exactly the examined names, in the order given; each entry has the levels as
    keys, in the order given, and the value at level i is the result of the test on the original model in which
    the parameters handled for that name, and nothing else, are pruned to the largest of the levels so far. *)
Theorem C81_analysis :
  forall R (test : dict nd -> R) g m names levels,
  g <> GOther -> net_ok m -> (forall p, In p names -> analysable g m levels p) ->
  exists out, perform_sensitivity_analysis test m names levels g = Ok (m, out) /\
    (forall p, In p (dkeys out) <->
       In p names /\ levels <> [] /\ exists t, state_entry m p = Ok t /\ examined g t = true) /\
    (NoDup names -> levels <> [] ->
       dkeys out = filter (fun p => match state_entry m p with Ok t => examined g t | Raise _ => false end) names) /\
    (forall p d, dget out p = Some d ->
       exists Ws, reports test levels Ws d /\
         (forall i, (i < length levels)%nat -> pruned_model g p (firstn (S i) levels) (n_params m) (nth i Ws [])) /\
         ((forall i j, (i < j < length levels)%nat -> ~ nth j levels 0 == nth i levels 0) -> map fst d = levels)).
Proof.
  intros R test g m names levels Hg Hm Ha.
  destruct (params_fold test g m Hg Hm levels names Ha [] ltac:(discriminate)) as (out & E & H1 & H2 & H3).
  exists out. split; [destruct g; auto; congruence|]. split; [|split; [|exact H1]].
  - intro p. rewrite H2. unfold tested. simpl. split.
    + intros [[]|[Hp Ht]]. split; auto. destruct (state_entry m p) as [t|]; [|discriminate].
      apply andb_true_iff in Ht. destruct Ht as [Hx Hl]. split; [destruct levels; discriminate|eauto].
    + intros (Hp & Hl & t & Et & Hx). right. split; auto. rewrite Et, Hx. destruct levels; [congruence|auto].
  - intros Hnd Hl. rewrite H3; auto. cbn [dkeys map app]. apply filter_ext. intro p. unfold tested.
    destruct (state_entry m p); auto. destruct levels; [congruence|]. apply andb_true_r.
Qed.

(** With strictly increasing levels and no parameter whose name occurs in the name of another one, every level is
    tested on the original model with that one parameter pruned to that level. *)
Theorem C81_increasing_levels :
  forall R (test : dict nd -> R) g m names levels,
  g <> GOther -> net_ok m -> (forall p, In p names -> analysable g m levels p) ->
  (forall i j, (i < j < length levels)%nat -> nth i levels 0 < nth j levels 0) ->
  (g <> GElement -> forall p q, In p names -> In q (dkeys (n_params m)) -> occurs_in q p -> q = p) ->
  exists out, perform_sensitivity_analysis test m names levels g = Ok (m, out) /\
    forall p d, dget out p = Some d ->
      map fst d = levels /\
      forall i, (i < length levels)%nat ->
        exists W, fget d (nth i levels 0) = Some (test W) /\ dkeys W = dkeys (n_params m) /\
          forall q t, dget (n_params m) q = Some t ->
            exists t', dget W q = Some t' /\
              (q = p -> pruned_to g (asked g t (nth i levels 0)) t t') /\
              (q <> p -> t' = t).
Proof.
  intros R test g m names levels Hg Hm Ha Hinc Hsub.
  destruct (C81_analysis R test g m names levels Hg Hm Ha) as (out & E & Hkeys & _ & Hd).
  exists out. split; auto. intros p d Hp.
  assert (Hin : In p names) by (apply dget_In in Hp; apply (in_map fst) in Hp; apply Hkeys in Hp; tauto).
  destruct (Hd p d Hp) as (Ws & (HL & Hr & _) & Hw & Hm').
  assert (Hdist : forall i j, (i < j < length levels)%nat -> ~ nth j levels 0 == nth i levels 0).
  { intros i j Hij Eq. pose proof (Hinc i j Hij). lra. }
  split; [auto|]. intros i Hi. exists (nth i Ws []). split; [apply Hr; auto; intros j Hj; apply Hdist; auto|].
  destruct (Hw i Hi) as [Hk Hq]. split; auto. intros q t Ht. destruct (Hq q t Ht) as (t' & E1 & A & B).
  exists t'. split; auto.
  assert (Hmax : forall t, most_asked g t (firstn (S i) levels) = asked g t (nth i levels 0)).
  { intro u. clear -Hinc Hi. unfold most_asked.
    assert (Hle : forall s, In s (firstn (S i) levels) -> s <= nth i levels 0).
    { intros s Hs. apply (In_nth _ _ 0) in Hs. destruct Hs as (j & Hj & <-). rewrite firstn_length in Hj. rewrite nth_firstn by lia.
      destruct (Nat.eq_dec j i) as [->|]; [apply Qle_refl|]. apply Qlt_le_weak. apply Hinc. lia. }
    assert (Hmem : In (nth i levels 0) (firstn (S i) levels)).
    { rewrite <- (nth_firstn 0 (S i)) by lia. apply nth_In. rewrite firstn_length. lia. }
    revert Hle Hmem. generalize (firstn (S i) levels) as l. generalize (nth i levels 0) as x. clear.
    intros x l Hle Hmem. apply Nat.le_antisymm.
    - clear Hmem. induction l as [|s l IH]; simpl; [lia|]. apply Nat.max_lub.
      + unfold asked.
        assert (Qfloor (s * Zq (Z.of_nat (structures g u))) <= Qfloor (x * Zq (Z.of_nat (structures g u))))%Z; [|lia].
        apply Qfloor_resp_le. apply Qmult_le_compat_r; [apply Hle; left; auto|apply Zq_nonneg; lia].
      + apply IH. intros; apply Hle; right; auto.
    - clear Hle. induction l as [|s l IH]; simpl; [destruct Hmem|]. destruct Hmem as [->|Hmem]; [lia|]. specialize (IH Hmem). lia. }
  rewrite Hmax in A. split.
  - intros ->. apply A. unfold handled. destruct g; auto; exists EmptyString, EmptyString; simpl; rewrite string_app_nil; auto.
  - intro Hne. apply B. unfold handled. destruct g; auto; try congruence; intro Ho; apply Hne; apply (Hsub ltac:(discriminate) p q); auto;
      apply dget_In in Ht; apply (in_map fst) in Ht; exact Ht.
Qed.

(** An illegal group, and an unknown name after any number of known ones. *)
Theorem C81_illegal_arguments :
  forall R (test : dict nd -> R) m names levels,
  perform_sensitivity_analysis test m names levels GOther = Raise ValueError /\
  (forall g pre p post, g <> GOther -> net_ok m -> names = (pre ++ p :: post)%list ->
     (forall q, In q pre -> analysable g m levels q) ->
     dget (n_params m) p = None -> dget (n_buffers m) p = None ->
     perform_sensitivity_analysis test m names levels g = Raise KeyError).
Proof.
  intros R test m names levels. split; [reflexivity|]. intros g pre p post Hg Hm -> Ha H1 H2.
  destruct (params_fold test g m Hg Hm levels pre Ha [] ltac:(discriminate)) as (out & E & _).
  assert (Hs : state_entry m p = Raise KeyError) by (unfold state_entry; rewrite H1, H2; auto).
  assert (foldM (sens_param test g levels) (pre ++ p :: post) (m, []) = Raise KeyError) as Hf.
  { rewrite foldM_app. unfold dict in *. rewrite E. cbn [bind foldM]. unfold sens_param at 1. rewrite Hs. reflexivity. }
  destruct g; auto; congruence.
Qed.

(** Finding: with group 'element', a level that is not 0 but asks for less than one element of the tensor ends the
    whole analysis with an IndexError; the results collected so far are lost. *)
Theorem C81_small_level_raises :
  forall R (test : dict nd -> R) m pre p post l1 s l2 t,
  net_ok m -> (forall q, In q pre -> analysable GElement m (l1 ++ s :: l2) q) ->
  p <> "*"%string -> dget (n_params m) p = Some t -> examined GElement t = true ->
  (forall x, In x l1 -> level_ok GElement t x) ->
  0 <= s -> ~ s == 0 -> asked GElement t s = 0%nat ->
  perform_sensitivity_analysis test m (pre ++ p :: post) (l1 ++ s :: l2) GElement = Raise IndexError.
Proof.
  intros R test m pre p post l1 s l2 t Hm Ha Hst Ht Hx Hl H0 Hs Hk.
  destruct (params_fold test GElement m ltac:(discriminate) Hm (l1 ++ s :: l2) pre Ha [] ltac:(discriminate)) as (out & E & _).
  unfold perform_sensitivity_analysis. rewrite foldM_app. unfold dict in *. rewrite E. cbn [bind foldM].
  assert (Es : state_entry m p = Ok t) by (unfold state_entry; rewrite Ht; auto).
  unfold sens_param at 1. rewrite Es. cbn [bind]. rewrite (examined_dim GElement t Hx). rewrite foldM_app.
  destruct (levels_fold test GElement m ltac:(discriminate) Hm p t l1 Hst Es Hx) with (done := @nil Q) (cpy := n_params m) as (Ws & cpy & HL & E1 & _ & Hcp).
  { intros q u Hu Hh. cbn [handled] in Hh. subst q. rewrite Ht in Hu. inversion Hu; subst. split; [congruence|auto]. }
  { apply pruned_model_nil; congruence. }
  rewrite E1. cbn [bind foldM]. unfold sens_level at 1. cbn [sens_pruner bind].
  destruct Hcp as [Hkeys Hcp]. cbn [app] in Hcp. destruct (Hcp p t Ht) as (t' & Et' & Hpr & _).
  destruct (Hpr eq_refl) as (_ & Hlen & _). destruct Hm as [Hnd _].
  rewrite (prune_once_raise (level_pruner [(p, s)]) (values cpy) p (nd_data t') IndexError); auto.
  - rewrite keys_values, Hkeys. exact Hnd.
  - rewrite dget_values, Et'. reflexivity.
  - unfold level_pruner. cbn [dget]. rewrite String.eqb_refl. destruct (Qeq_bool s 0) eqn:Eq; [apply Qeq_bool_iff in Eq; contradiction|].
    destruct (C13_level_criterion_raises (nd_data t') s H0) as (A & _ & _). rewrite A; auto.
    unfold requested. rewrite Hlen. exact Hk.
  - intros q u Hq Hu. unfold level_pruner. cbn [dget]. destruct (String.eqb_spec q p); [contradiction|].
    destruct (String.eqb_spec "*" p) as [Hc|_]; [congruence|]. cbn. eauto.
Qed.

(* ------------------------------------------------------------------------- *)
(** Concrete networks. *)
Definition ex_net : net :=
  mkNet [("conv1.weight"%string, mkND [2; 2; 1; 1]%nat [1; 4; 2; 1]);
         ("bn.weight"%string, mkND [2]%nat [1; 1]);
         ("layer1.conv1.weight"%string, mkND [2; 2; 1; 1]%nat [4; 3; 2; 1]);
         ("fc.weight"%string, mkND [1; 4]%nat [3; -(4); 1; 2])]
        [("bn.running_mean"%string, mkND [2]%nat [0; 0])].

Example C81_net_ok : net_ok ex_net.
Proof.
  split.
  - simpl. repeat constructor; simpl; intuition discriminate.
  - intros n t H. apply dget_In in H. simpl in H.
    repeat (destruct H as [H|H]; [inversion H; subst; split; [reflexivity|simpl; intuition lia]|]). destruct H.
Qed.

(** All four kinds of names with group 'element' and increasing levels, as in the theorems above. *)
Example C81_element_example :
  (forall p, In p ["conv1.weight"; "bn.weight"; "bn.running_mean"; "fc.weight"]%string ->
     analysable GElement ex_net [0; 1 # 4; 1 # 2] p) /\
  exists out, perform_sensitivity_analysis (fun W => map (fun x => Qred x) (match dget W "fc.weight" with Some t => nd_data t | None => [] end))
      ex_net ["conv1.weight"; "bn.weight"; "bn.running_mean"; "fc.weight"]%string [0; 1 # 4; 1 # 2] GElement = Ok (ex_net, out) /\
    dkeys out = ["conv1.weight"; "fc.weight"]%string /\
    dget out "fc.weight" = Some [(0, [3; -(4); 1; 2]); (1 # 4, [3; -(4); 0; 2]); (1 # 2, [3; -(4); 0; 0])] /\
    dget out "conv1.weight" = Some [(0, [3; -(4); 1; 2]); (1 # 4, [3; -(4); 1; 2]); (1 # 2, [3; -(4); 1; 2])].
Proof.
  split.
  - intros p Hp. split; [simpl in Hp; intuition (subst; discriminate)|].
    assert (Hlv : forall t s, length (nd_data t) = 4%nat -> In s [0; 1 # 4; 1 # 2] -> level_ok GElement t s).
    { intros t s Hl Hs. unfold level_ok, asked. cbn [structures]. rewrite Hl. simpl in Hs. destruct Hs as [<-|[<-|[<-|[]]]];
        (split; [unfold Qle; simpl; lia|split; [unfold Qle; simpl; lia|]]); intros _ Hn; [exfalso; apply Hn; reflexivity|vm_compute; lia|vm_compute; lia]. }
    simpl in Hp. destruct Hp as [<-|[<-|[<-|[<-|[]]]]]; eexists; (split; [reflexivity|]); intros Hx q u Hu Hh; cbn [handled] in Hh; subst q;
      try discriminate; (split; [congruence|]); intros s Hs; inversion Hu; subst; apply Hlv; auto.
  - eexists. split; [vm_compute; reflexivity|]. split; [reflexivity|]. split; reflexivity.
Qed.

(** Filters of the second convolution, with increasing levels. *)
Example C81_filter_example :
  exists out, perform_sensitivity_analysis (fun W => map (fun x => Qred x) (match dget W "layer1.conv1.weight" with Some t => nd_data t | None => [] end))
      ex_net ["layer1.conv1.weight"; "fc.weight"]%string [0; 1 # 4; 1 # 2] GFilter = Ok (ex_net, out) /\
    out = [("layer1.conv1.weight"%string, [(0, [4; 3; 2; 1]); (1 # 4, [4; 3; 2; 1]); (1 # 2, [4; 3; 0; 0])])].
Proof. eexists. split; vm_compute; reflexivity. Qed.

(** Refuted: "the result at a level is that of the original model pruned to that level".  The copy of the model is
    made once per parameter, so a level listed after a larger one is tested on the weights pruned for the larger. *)
Theorem C81_level_order_refuted :
  exists m p s t out d W t',
    net_ok m /\ (forall q, In q [p] -> analysable GElement m [1 # 2; s] q) /\ dget (n_params m) p = Some t /\
    perform_sensitivity_analysis (fun W => W) m [p] [1 # 2; s] GElement = Ok (m, out) /\
    dget out p = Some d /\ fget d s = Some W /\ dget W p = Some t' /\
    asked GElement t s = 1%nat /\ countb (fun x => Qeq_bool x 0) (nd_data t) = 0%nat /\
    countb (fun x => Qeq_bool x 0) (nd_data t') = 2%nat /\ ~ pruned_to GElement (asked GElement t s) t t'.
Proof.
  exists ex_net, "fc.weight"%string, (1 # 4). do 5 eexists. split; [exact C81_net_ok|]. split.
  { intros q [<-|[]]. split; [discriminate|]. eexists. split; [reflexivity|]. intros _ q u Hu Hh. cbn [handled] in Hh. subst q.
    inversion Hu; subst. split; [congruence|]. intros s Hs. unfold level_ok, asked. cbn [structures nd_data length].
    simpl in Hs. destruct Hs as [<-|[<-|[]]]; (split; [unfold Qle; simpl; lia|split; [unfold Qle; simpl; lia|]]); intros _ _; vm_compute; lia. }
  split; [reflexivity|]. split; [vm_compute; reflexivity|]. split; [reflexivity|]. split; [reflexivity|]. split; [reflexivity|].
  split; [reflexivity|]. split; [reflexivity|]. split; [reflexivity|].
  intros (_ & _ & H). specialize (H 3%nat ltac:(simpl; lia)). vm_compute in H. discriminate.
Qed.

(** Refuted: "analysing the filters of a parameter prunes no other parameter".  The pruner receives the name where
    it expects a list of names, so every parameter whose name occurs in it is pruned too. *)
Theorem C81_substring_refuted :
  exists m p q s t t' out d W,
    net_ok m /\ p <> q /\ dget (n_params m) q = Some t /\
    (forall x, In x [p] -> analysable GFilter m [s] x) /\
    perform_sensitivity_analysis (fun W => W) m [p] [s] GFilter = Ok (m, out) /\
    dget out p = Some d /\ fget d s = Some W /\ dget W q = Some t' /\
    countb (fun x => Qeq_bool x 0) (nd_data t) = 0%nat /\ countb (fun x => Qeq_bool x 0) (nd_data t') = 2%nat.
Proof.
  exists ex_net, "layer1.conv1.weight"%string, "conv1.weight"%string, (1 # 2). do 5 eexists.
  split; [exact C81_net_ok|]. split; [discriminate|]. split; [reflexivity|]. split.
  { intros x [<-|[]]. split; [discriminate|]. eexists. split; [reflexivity|]. intros _ q u Hu Hh.
    assert (Hlv : forall u, level_ok GFilter u (1 # 2)) by (intro; split; [unfold Qle; simpl; lia|split; [unfold Qle; simpl; lia|discriminate]]).
    split; [|intros s [<-|[]]; apply Hlv]. intros _. unfold handled in Hh. apply str_in_iff in Hh.
    apply dget_In in Hu. simpl in Hu.
    repeat (destruct Hu as [Hu|Hu]; [inversion Hu; subst; try reflexivity; discriminate|]). destruct Hu. }
  split; [vm_compute; reflexivity|]. split; [reflexivity|]. split; [reflexivity|]. split; [reflexivity|]. split; reflexivity.
Qed.

(** The CSV file: one row per (parameter, level), in the order of the dictionaries. *)
Theorem C81_csv :
  forall R (d : dict (list (Q * R))) p s v,
  In (p, s, v) (sens_csv d) <-> exists inner, In (p, inner) d /\ In (s, v) inner.
Proof.
  intros R d p s v. unfold sens_csv. rewrite in_flat_map. split.
  - intros ((p', inner) & Hi & Hs). apply in_map_iff in Hs. destruct Hs as ((s', v') & E & Hs). simpl in *. inversion E; subst. eauto.
  - intros (inner & Hi & Hs). exists (p, inner). split; auto. apply in_map_iff. exists (s, v). auto.
Qed.

Print Assumptions C81_analysis.
Print Assumptions C81_increasing_levels.
Print Assumptions C81_illegal_arguments.
Print Assumptions C81_small_level_raises.
Print Assumptions C81_level_order_refuted.
Print Assumptions C81_substring_refuted.
Print Assumptions C81_csv.
