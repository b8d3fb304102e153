(** C24: removing all-zero filters and channels preserves what the network computes. *)
From Coq Require Import String List ZArith QArith Bool Arith Lia.
From Verif Require Import Base Lists StructModel ThinModel ThinSpec ThinNetSpec ThinProofs ThinExecProofs ThinRecipeProofs ThinGraphProofs ThinFiltersProofs ThinDataProofs ThinSimProofs ThinFiltersSim ThinFiltersTotal ThinSearchProofs PropertiesGraph.
Import ListNotations.
Local Open Scope nat_scope.

Lemma fm_good rs m net pl : filters_plan_ok rs m net pl -> forall n a v, mwanted m net pl n a v -> exists x, dget (ms_mods m) n = Some x /\ good_mdir (m_attrs x) (a, v).
Proof.
  intros FP n a v (nd & In_ & -> & H). pose proof (fp_nodes _ _ _ _ FP nd In_) as F. unfold filters_ok in F.
  assert (K : forall k v, is_kind m (n_name nd) k -> exists x, dget (ms_mods m) (n_name nd) = Some x /\ good_mdir (m_attrs x) (a, MSet v)) by (intros k u (x & A & _); exists x; split; auto; exact I).
  destruct (n_op nd) eqn:Op; [| | | |destruct H as [H|[H|H]]; inversion H; subst; rewrite Op in *; simpl in *; try contradiction; discriminate|destruct H as [H|[H|H]]; inversion H; subst; rewrite Op in *; simpl in *; try contradiction; discriminate].
  - destruct (n_in nd) as [|? [|? ?]]; try (destruct F; fail). destruct F as (w & gr' & C & kh & kw & _ & Kd & _).
    destruct H as [H|[H|H]]; inversion H; subst; rewrite Op in *; simpl in *; try contradiction; try discriminate; eapply K; eauto.
  - destruct (n_in nd) as [|? [|? ?]]; try (destruct F; fail). destruct F as (w & F & _ & Kd & _).
    destruct H as [H|[H|H]]; inversion H; subst; rewrite Op in *; simpl in *; try contradiction; try discriminate; eapply K; eauto.
  - destruct (n_in nd) as [|? [|? ?]]; try (destruct F; fail). destruct F as (w & b & mean & var & _ & _ & _ & Kd & Hm & Hv & _).
    destruct H as [H|[H|H]]; inversion H; subst; rewrite Op in *; simpl in *; try contradiction; try discriminate; [eapply K; eauto|].
    assert (T : exists t, has_tensor m (n_name nd) a [chans pl (n_name nd)] t) by (match goal with E : _ \/ _ |- _ => destruct E as [->| ->] end; eauto).
    destruct T as (t & (x & Hx & Ha) & S & W). exists x. split; auto. unfold good_mdir. cbn [fst snd]. exists t. split; auto. split; auto. rewrite S. split; [simpl; lia|]. cbn [nth]. apply FP.
  - destruct H as [H|[H|H]]; inversion H; subst; rewrite Op in *; simpl in *; try contradiction; discriminate.
Qed.

(** C24: when the plan is consistent with the network - the all-zero filters of the ordinary convolutions are removed
    everywhere, their removed channels stay zero on the way (bias and batch-norm shift are zero there), values that
    are summed have the same channels, linear layers see square feature maps - and remove_filters returns, then the
    thinned network computes, from every input the network accepts, for every operation exactly the kept channels
    of what the original network computes; channels that are not kept were zero; and the removed filters are gone. *)
Theorem C24_remove_filters : forall rs junk opt m net pl masks saved m' masks' saved',
  filters_plan_ok rs m net pl ->
  remove_filters junk opt (graph_of net) m masks saved = Ok (m', masks', saved') ->
  (forall nd, In nd net -> is_conv (n_op nd) -> exists p', pget (ms_params m') (n_name nd, "weight"%string) = Some p' /\
     nth 0 (nd_shape (p_data p')) 0 = length (keep pl (n_name nd))) /\
  forall x env, length x = chans pl net_input -> forward rs m net x = Ok env ->
  exists env', forward rs m' net x = Ok env' /\ map fst env' = map fst env /\
  forall n v, dget env n = Some v -> exists v', dget env' n = Some v' /\
    veq (select (keep pl n) v) v' /\ length v = chans pl n /\ (forall c, removed pl n c -> all_zero (nth c v [])) /\
    (all_kept pl n -> veq v v').
Proof.
  intros rs junk opt m net pl masks saved m' masks' saved' FP H. unfold remove_filters in H.
  destruct (recipe_filters m (graph_of net)) as [r|] eqn:Er; [|discriminate]. cbn [bind] in H.
  destruct (recipe_complete rs m net pl FP r Er) as (S & _ & M).
  assert (X : executed m m' r) by (eapply apply_executed; eauto; intros n a v Hm; eapply fm_good; eauto; apply M; auto).
  assert (SN : forall nd, In nd net -> sim_node true rs m m' pl nd) by (intros nd I; eapply filters_sim; eauto).
  split.
  - intros nd I C. specialize (SN nd I). unfold sim_node in SN. destruct (n_op nd); try (destruct C; fail). destruct (n_in nd) as [|i [|? ?]]; try (destruct SN; fail).
    destruct SN as (w & gr & C' & ks & w' & gr' & _ & Sw & _ & _ & Gw' & _ & _ & Cases). unfold get_param in Gw'. destruct (pget (ms_params m') (n_name nd, "weight"%string)) as [p'|]; [|discriminate].
    injection Gw' as <-. exists p'. split; auto. destruct Cases as [(_ & _ & _ & -> & _)|[(_ & _ & _ & _ & -> & _)|(_ & -> & _ & K & _)]]; auto. rewrite Sw, K, seq_length. auto.
  - intros x env Lx Hf. destruct (sim_forward true rs m m' pl net x env) as (env' & Hf' & R); auto.
    + exact (fp_keep _ _ _ _ FP).
    + apply FP.
    + exists env'. split; auto. split.
      * clear -R. induction R as [|a b l l' (E & _) F IH]; simpl; congruence.
      * intros n v Hv. pose proof (env_get true pl env env' n R) as G. rewrite Hv in G. destruct (dget env' n) as [v'|]; [|destruct G]. exists v'. split; auto.
        destruct G as [G1 G2 G3 G4]. repeat (split; auto). intro K. apply (all_kept_sel pl n); auto.
Qed.
Print Assumptions C24_remove_filters.

(** C24: without masks it does return, when every thinned convolution leads to at most one batch-norm layer and the
    gradients and momentum buffers have the shapes of their parameters. *)
Theorem C24_remove_filters_succeeds : forall rs junk opt m net pl saved,
  filters_plan_ok rs m net pl -> one_bn m net pl -> tensors_fit opt m ->
  exists m' saved', remove_filters junk opt (graph_of net) m [] saved = Ok (m', [], saved').
Proof.
  intros rs junk opt m net pl saved FP OB TF. destruct (recipe_total rs m net pl FP OB) as (r & Er). unfold remove_filters. rewrite Er. cbn [bind].
  eapply apply_total; eauto. apply (fm_good rs); auto.
Qed.
Print Assumptions C24_remove_filters_succeeds.

(** * A concrete network: conv1 - bn1 - relu - dw (depth-wise) - conv2 - fc *)
Local Open Scope string_scope.
Definition point : geom := mkGeom 4 (fun s k => Some s).
Definition relu (l : list Q) : list Q := map (fun q => if Qle_bool 0 q then q else 0%Q) l.
Definition ex_net : list node :=
  [mkNode "conv1" (OConv point) [""]; mkNode "bn1" OBn ["conv1"]; mkNode "relu" (OChan relu) ["bn1"];
   mkNode "dw" (OConv point) ["relu"]; mkNode "conv2" (OConv point) ["dw"]; mkNode "fc" OLinear ["conv2"]].
Definition P (sh : list nat) (d : list Q) : param := mkParam (mkND sh d) None false None.
Definition ex_m : mstate :=
  mkMs [("conv1", mkModule KConv [("in_channels", AInt 1); ("out_channels", AInt 3); ("groups", AInt 1)]);
        ("bn1", mkModule KBn [("num_features", AInt 3); ("running_mean", ATen (mkND [3] [1; 0; 2]%Q)); ("running_var", ATen (mkND [3] [1; 1; 1]%Q))]);
        ("relu", mkModule KOther []);
        ("dw", mkModule KConv [("in_channels", AInt 3); ("out_channels", AInt 3); ("groups", AInt 3)]);
        ("conv2", mkModule KConv [("in_channels", AInt 3); ("out_channels", AInt 2); ("groups", AInt 1)]);
        ("fc", mkModule KLinear [("in_features", AInt 8); ("out_features", AInt 1)])]
       [(("conv1", "weight"), P [3; 1; 1; 1] [1; 0; 2]%Q); (("bn1", "weight"), P [3] [1; 5; 1]%Q); (("bn1", "bias"), P [3] [1; 0; 3]%Q);
        (("dw", "weight"), P [3; 1; 1; 1] [1; 5; 3]%Q);
        (("conv2", "weight"), P [2; 3; 1; 1] [0; 0; 0; 1; 2; 3]%Q); (("conv2", "bias"), P [2] [0; 4]%Q);
        (("fc", "weight"), P [1; 8] [1; 2; 3; 4; 5; 6; 7; 8]%Q); (("fc", "bias"), P [1] [7]%Q)].
Definition ex_pl : plan :=
  mkPlan (fun n => if memb n ["conv1"; "bn1"; "relu"; "dw"] then 3 else if String.eqb n "conv2" then 2 else 1)
         (fun n => if memb n ["conv1"; "bn1"; "relu"; "dw"] then [0; 2] else if String.eqb n "conv2" then [1] else [0]).

Lemma relu_ok : respects relu /\ keeps_zero relu /\ uniform relu.
Proof.
  split; [|split].
  - intros a b F. unfold relu. induction F as [|u v l l' E F IH]; simpl; constructor; auto. destruct (Qle_bool 0 u) eqn:A, (Qle_bool 0 v) eqn:B; auto; try reflexivity.
    + apply Qle_bool_iff in A. rewrite E in A. apply Qle_bool_iff in A. congruence.
    + apply Qle_bool_iff in B. rewrite <- E in B. apply Qle_bool_iff in B. congruence.
  - intros a H v I. unfold relu in I. apply in_map_iff in I as (u & <- & I). destruct (Qle_bool 0 u); [apply H; auto|reflexivity].
  - intros a b L. unfold relu. rewrite !map_length. auto.
Qed.
Ltac enum H := simpl in H; repeat (destruct H as [H|H]); try contradiction H; subst.
Lemma ex_net_ok : net_ok ex_net.
Proof.
  split.
  - simpl. repeat split; try (intros [H|H]; [discriminate H|]); repeat (intros [H|H]; [discriminate H|]); try (intros []; fail); intuition (try discriminate); intros x [<-|[]]; simpl; auto 10.
  - intros a b Ia Ib. enum Ia; enum Ib; split; discriminate.
Qed.

Lemma ex_flows stop a b : flows ex_net stop a b -> In b (map n_name ex_net) /\ (a = "conv2" -> b = "fc").
Proof.
  intro F. assert (T : In b (map n_name ex_net)) by (destruct F; apply in_map; auto). split; auto. intros ->. clear T.
  induction F as [nd I J|nd' nd F IH I' S I J].
  - enum I; enum J; try discriminate; auto.
  - rewrite IH in J. enum I; enum J; discriminate.
Qed.
Lemma nth0 (q : Q) : (q == 0)%Q -> forall l, l = [q] -> all_zero l.
Proof. intros H l -> v [<-|[]]. auto. Qed.
Lemma nzl w o q r : filter_of w o = q :: r -> ~ (q == 0)%Q -> nonzero_filter w o.
Proof. intros E N Z. apply N, Z. rewrite E. left. auto. Qed.
Ltac nz := eapply nzl; [reflexivity|let q := fresh in intro q; vm_compute in q; discriminate q].
Ltac shp := split; [reflexivity|reflexivity].

Lemma ex_nodes rs : forall nd, In nd ex_net -> filters_ok rs ex_m ex_pl nd.
Proof.
  destruct relu_ok as (R1 & R2 & R3). intros nd H. enum H; unfold filters_ok; cbn [n_op n_in n_name].
  - exists (mkND [3; 1; 1; 1] [1; 0; 2]%Q), 1, 1, 1, 1. split; [split; [eexists; split; reflexivity|shp]|]. repeat (split; [try (eexists; split; reflexivity); reflexivity|]).
    split; [intros b (p & X & _); discriminate X|]. left. split; auto. intros o Lo. simpl in Lo.
    destruct o as [|[|[|o]]]; [| | |lia]; split; intro X; try (simpl; auto; fail); try nz.
    + simpl in X. destruct X as [X|[X|[]]]; discriminate.
    + exfalso. apply X. intros v [<-|[]]. reflexivity.
  - exists (mkND [3] [1; 5; 1]%Q), (mkND [3] [1; 0; 3]%Q), (mkND [3] [1; 0; 2]%Q), (mkND [3] [1; 1; 1]%Q).
    split; [split; [eexists; split; reflexivity|shp]|]. split; [eexists; split; reflexivity|]. split; [shp|]. split; [eexists; split; reflexivity|].
    split; [split; [eexists; split; reflexivity|shp]|]. split; [split; [eexists; split; reflexivity|shp]|]. split; [split; reflexivity|].
    intros c (Lc & N). simpl in Lc. destruct c as [|[|[|c]]]; [| | |lia]; try (exfalso; apply N; simpl; auto; fail). cbn [nth nd_data]. ring.
  - split; [split; reflexivity|]. split; auto.
  - exists (mkND [3; 1; 1; 1] [1; 5; 3]%Q), 3, 1, 1, 1. split; [split; [eexists; split; reflexivity|shp]|]. repeat (split; [try (eexists; split; reflexivity); reflexivity|]).
    split; [intros b (p & X & _); discriminate X|]. right. left. split; [discriminate|]. split; auto. split; [split; reflexivity|]. left. intros o Lo. simpl in Lo.
    destruct o as [|[|[|o]]]; [| | |lia]; nz.
  - exists (mkND [2; 3; 1; 1] [0; 0; 0; 1; 2; 3]%Q), 1, 3, 1, 1. split; [split; [eexists; split; reflexivity|shp]|]. repeat (split; [try (eexists; split; reflexivity); reflexivity|]).
    split.
    { intros b (p & X & <-). injection X as <-. split; [shp|]. intros c (Lc & N). simpl in Lc. destruct c as [|[|c]]; [reflexivity|exfalso; apply N; simpl; auto|lia]. }
    left. split; auto. intros o Lo. simpl in Lo. destruct o as [|[|o]]; [| |lia]; split; intro X; try (simpl; auto; fail); try nz.
    + simpl in X. destruct X as [X|[]]; discriminate.
    + exfalso. apply X. intros v V. simpl in V. repeat (destruct V as [<-|V]; [reflexivity|]). destruct V.
  - exists (mkND [1; 8] [1; 2; 3; 4; 5; 6; 7; 8]%Q), 8. split; [split; [eexists; split; reflexivity|shp]|]. repeat (split; [try (eexists; split; reflexivity); reflexivity|]).
    split; [intros b (p & X & <-); injection X as <-; shp|]. split; [reflexivity|]. right. exists 2. split; [lia|reflexivity].
Qed.

Ltac conv_bn Ia C Ib B := enum Ia; try (destruct C; fail); enum Ib; try (destruct B; fail).
Lemma bn1_from stop a : In a ["conv1"] -> flows ex_net stop a "bn1".
Proof. intros [<-|[]]. exact (flows_in ex_net stop "conv1" (mkNode "bn1" OBn ["conv1"]) (or_intror (or_introl eq_refl)) (or_introl eq_refl)). Qed.
Lemma ex_to_bn stop a : flows ex_net stop a "bn1" -> a = "conv1" \/ a = "".
Proof.
  assert (G : forall b, flows ex_net stop a b -> (b = "bn1" -> a = "conv1" \/ a = "") /\ (b = "conv1" -> a = "")); [|intro F; exact (proj1 (G _ F) eq_refl)].
  intros b F. induction F as [nd I J|nd' nd F IH I' S I J].
  - enum I; enum J; split; intro X; try discriminate X; auto.
  - destruct IH as (IH1 & IH2). enum I; simpl in J; destruct J as [J|[]]; split; intro X; try discriminate X; auto.
    exfalso. enum I'; discriminate J.
Qed.

(** the hypotheses of C24_remove_filters and C24_remove_filters_succeeds hold of this network *)
Example C24_ex_plan : forall rs, filters_plan_ok rs ex_m ex_net ex_pl /\ one_bn ex_m ex_net ex_pl /\ tensors_fit (Some true) ex_m.
Proof.
  intro rs. split; [|split].
  - constructor.
    + apply ex_net_ok.
    + repeat constructor; simpl; intuition discriminate.
    + intros k p H L. apply pget_in in H. enum H; try (injection H as <- <-; simpl in L; try discriminate L); simpl.
      * exists (mkNode "conv1" (OConv point) [""]). simpl. auto.
      * exists (mkNode "dw" (OConv point) ["relu"]). simpl. auto 10.
      * exists (mkNode "conv2" (OConv point) ["dw"]). simpl. auto 10.
    + intro n. unfold ex_pl. cbn [chans keep]. destruct (memb n _); [|destruct (String.eqb n "conv2")]; (split; [|discriminate]);
        [exists (fun c => negb (Nat.eqb c 1))|exists (fun c => Nat.eqb c 1)|exists (fun _ => true)]; reflexivity.
    + reflexivity.
    + apply ex_nodes.
    + intros a b Ia Ib C B NK F. conv_bn Ia C Ib B; apply ex_to_bn in F; destruct F as [F|F]; try discriminate F; split; reflexivity.
    + intros b Ib B. enum Ib; try (destruct B; fail). right. exists (mkNode "conv1" (OConv point) [""]). simpl. split; auto. split; auto. split; [discriminate|]. apply bn1_from. simpl; auto.
  - intros a b b' Ia Ib Ib' C _ B B' _ _. enum Ib; try (destruct B; fail). enum Ib'; try (destruct B'; fail). reflexivity.
  - intros k p H. apply pget_in in H. enum H; injection H as <- <-; split; intros t X; discriminate X.
Qed.

(** what the network computes for [n], before and after *)
Definition before_after (remove : mstate -> res (mstate * pdict (option nd) * list recipe)) (m : mstate) (net : list node) (x : fmap) (n : string) : res (option fmap * option fmap) :=
  do e <- forward (fun v => v) m net x;
  do s <- remove m;
  do e' <- forward (fun v => v) (fst (fst s)) net x;
  Ok (option_map (map (map Qred)) (dget e n), option_map (map (map Qred)) (dget e' n)).
Definition filters_of_net (net : list node) (m : mstate) := remove_filters (fun _ => 0%Q) (Some true) (graph_of net) m [] [].
Definition channels_of_net (net : list node) (m : mstate) := remove_channels (fun _ => 0%Q) (Some true) (graph_of net) m [] [].
Example C24_ex_run : before_after (filters_of_net ex_net) ex_m ex_net [[1; 2; -3; 4]%Q] "fc" = Ok (Some [[1213]%Q], Some [[1213]%Q]).
Proof. vm_compute. reflexivity. Qed.
