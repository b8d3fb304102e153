(** C24: removing input channels whose weights are all zero preserves what the network computes. *)
From Coq Require Import String List ZArith QArith Bool Arith Lia.
From Verif Require Import Base Lists StructModel ThinModel ThinSpec ThinNetSpec ThinProofs ThinExecProofs ThinRecipeProofs ThinGraphProofs ThinFiltersProofs ThinDataProofs ThinSimProofs ThinFiltersSim ThinFiltersTotal ThinSearchProofs PropertiesGraph PropertiesThinNet ThinChannelsProofs ThinChannelsSim ThinChannelsTotal.
Import ListNotations.
Local Open Scope nat_scope.

(** C24: when the plan is consistent with the network - the input channels for which an ordinary convolution (or a
    linear layer that sees one feature per channel) has only zero weights are removed everywhere, values that are
    summed have the same channels, a batch norm that leads to a thinned layer has its channels - and remove_channels
    returns, then the thinned network computes, from every input the network accepts, for every operation exactly the
    kept channels of what the original network computes; and the removed channels are gone from the weights. *)
Theorem C24_remove_channels : forall rs junk opt m net pl masks saved m' masks' saved',
  channels_plan_ok m net pl ->
  remove_channels junk opt (graph_of net) m masks saved = Ok (m', masks', saved') ->
  (forall nd i, In nd net -> n_in nd = [i] ->
     (is_conv (n_op nd) -> exists p', pget (ms_params m') (n_name nd, "weight"%string) = Some p' /\
        nth 0 (nd_shape (p_data p')) 0 = length (keep pl (n_name nd)) /\
        (has_int m (n_name nd) "groups" 1 -> nth 1 (nd_shape (p_data p')) 0 = length (keep pl i))) /\
     (n_op nd = OLinear -> ~ all_kept pl i -> exists p', pget (ms_params m') (n_name nd, "weight"%string) = Some p' /\
        nth 1 (nd_shape (p_data p')) 0 = length (keep pl i))) /\
  forall x env, length x = chans pl net_input -> forward rs m net x = Ok env ->
  exists env', forward rs m' net x = Ok env' /\ map fst env' = map fst env /\
  forall n v, dget env n = Some v -> exists v', dget env' n = Some v' /\
    veq (select (keep pl n) v) v' /\ length v = chans pl n /\ (all_kept pl n -> veq v v').
Proof.
  intros rs junk opt m net pl masks saved m' masks' saved' CP H. unfold remove_channels in H.
  destruct (recipe_channels m (graph_of net)) as [r|] eqn:Er; [|discriminate]. cbn [bind] in H.
  destruct (crecipe_complete m net pl CP r Er) as (S & _ & M).
  assert (X : executed m m' r) by (eapply apply_executed; eauto; intros n a v Hm; eapply cm_good; eauto; apply M; auto).
  assert (SN : forall nd, In nd net -> sim_node false rs m m' pl nd) by (intros nd I; eapply channels_sim; eauto).
  split.
  - intros nd i I Ei. specialize (SN nd I). unfold sim_node in SN. rewrite Ei in SN. split.
    + intro C. pose proof (cp_nodes _ _ _ CP nd I) as F. unfold channels_ok in F. rewrite Ei in F. destruct (n_op nd); try (destruct C; fail).
      destruct SN as (w & gr & C' & ks & w' & gr' & Gw & Sw & _ & Gg & Gw' & _ & _ & Cases). unfold get_param in Gw'. destruct (pget (ms_params m') (n_name nd, "weight"%string)) as [p'|]; [|discriminate].
      injection Gw' as <-. exists p'. split; auto. destruct Cases as [(_ & _ & _ & -> & _)|[(Eg & _ & -> & Sc & -> & _)|(_ & -> & _ & K & Ki)]]; auto.
      * split; auto. intro Hg. cbn [cut_w nd_shape nth length]. assert (E1 : gr = 1) by (rewrite (has_int_attr _ _ _ _ Hg) in Gg; injection Gg; auto). rewrite <- (proj2 Sc).
        destruct (cp_keep _ _ _ CP (n_name nd)) as [KX KN]. pose proof (index_set_le _ _ KX). destruct (keep pl (n_name nd)); [congruence|]. simpl in *. lia.
      * rewrite K, Ki, !seq_length. destruct F as (w2 & gr2 & C2 & kh & kw & Hw2 & _ & _ & Hg2 & HC & _). rewrite (has_weight_get _ _ _ _ Hw2) in Gw. injection Gw as <-.
        destruct Hw2 as (_ & Sw2 & _). rewrite Sw2. cbn [nth]. split; auto. intro Hg. assert (gr2 = 1) by (eapply has_int_fun; eauto). subst gr2. lia.
    + intros Op Ki. rewrite Op in SN. destruct SN as (w & F & w' & _ & _ & Gw' & _ & _ & Cases). unfold get_param in Gw'. destruct (pget (ms_params m') (n_name nd, "weight"%string)) as [p'|]; [|discriminate].
      injection Gw' as <-. exists p'. split; auto. destruct Cases as [(? & _)|[(? & _)|(_ & _ & _ & -> & _)]]; [contradiction|discriminate|]. cbn [lin_cut nd_shape nth]. lia.
  - intros x env Lx Hf. destruct (sim_forward false rs m m' pl net x env) as (env' & Hf' & R); auto.
    + exact (cp_keep _ _ _ CP).
    + apply CP.
    + exists env'. split; auto. split.
      * clear -R. induction R as [|a b l l' (E & _) F IH]; simpl; congruence.
      * intros n v Hv. pose proof (env_get false pl env env' n R) as G. rewrite Hv in G. destruct (dget env' n) as [v'|]; [|destruct G]. exists v'. split; auto.
        destruct G as [G1 G2 G3 G4]. repeat (split; auto). intro K. apply (all_kept_sel pl n); auto.
Qed.
Print Assumptions C24_remove_channels.

(** C24: without masks it does return, when gradients and momentum buffers have the shapes of their parameters. *)
Theorem C24_remove_channels_succeeds : forall junk opt m net pl saved,
  channels_plan_ok m net pl -> tensors_fit opt m ->
  exists m' saved', remove_channels junk opt (graph_of net) m [] saved = Ok (m', [], saved').
Proof.
  intros junk opt m net pl saved CP TF. destruct (crecipe_total m net pl CP) as (r & Er). unfold remove_channels. rewrite Er. cbn [bind]. eapply capply_total; eauto.
Qed.
Print Assumptions C24_remove_channels_succeeds.

(** * A concrete network: conv1 - bn1 - relu - dw (depth-wise) - conv2 - bn2 - pool - fc *)
Local Open Scope string_scope.
Definition pool_sum (l : list Q) : list Q := [qsum l].
Definition ch_net : list node :=
  [mkNode "conv1" (OConv point) [""]; mkNode "bn1" OBn ["conv1"]; mkNode "relu" (OChan relu) ["bn1"];
   mkNode "dw" (OConv point) ["relu"]; mkNode "conv2" (OConv point) ["dw"]; mkNode "bn2" OBn ["conv2"];
   mkNode "pool" (OChan pool_sum) ["bn2"]; mkNode "fc" OLinear ["pool"]].
Definition ch_m : mstate :=
  mkMs [("conv1", mkModule KConv [("in_channels", AInt 1); ("out_channels", AInt 3); ("groups", AInt 1)]);
        ("bn1", mkModule KBn [("num_features", AInt 3); ("running_mean", ATen (mkND [3] [1; 0; 2]%Q)); ("running_var", ATen (mkND [3] [1; 1; 1]%Q))]);
        ("relu", mkModule KOther []);
        ("dw", mkModule KConv [("in_channels", AInt 3); ("out_channels", AInt 3); ("groups", AInt 3)]);
        ("conv2", mkModule KConv [("in_channels", AInt 3); ("out_channels", AInt 2); ("groups", AInt 1)]);
        ("bn2", mkModule KBn [("num_features", AInt 2); ("running_mean", ATen (mkND [2] [1; 5]%Q)); ("running_var", ATen (mkND [2] [1; 2]%Q))]);
        ("pool", mkModule KOther []);
        ("fc", mkModule KLinear [("in_features", AInt 2); ("out_features", AInt 1)])]
       [(("conv1", "weight"), P [3; 1; 1; 1] [1; 7; 2]%Q); (("bn1", "weight"), P [3] [1; 5; 1]%Q); (("bn1", "bias"), P [3] [1; 9; 3]%Q);
        (("dw", "weight"), P [3; 1; 1; 1] [1; 5; 3]%Q);
        (("conv2", "weight"), P [2; 3; 1; 1] [1; 0; 5; 1; 0; 3]%Q); (("conv2", "bias"), P [2] [6; 4]%Q);
        (("bn2", "weight"), P [2] [1; 2]%Q); (("bn2", "bias"), P [2] [8; 1]%Q);
        (("fc", "weight"), P [1; 2] [0; 3]%Q); (("fc", "bias"), P [1] [7]%Q)].
Definition ch_pl : plan :=
  mkPlan (fun n => if memb n ["conv1"; "bn1"; "relu"; "dw"] then 3 else if memb n ["conv2"; "bn2"; "pool"] then 2 else 1)
         (fun n => if memb n ["conv1"; "bn1"; "relu"; "dw"] then [0; 2] else if memb n ["conv2"; "bn2"; "pool"] then [1] else [0]).

Lemma ch_net_ok : net_ok ch_net.
Proof.
  split.
  - simpl. repeat split; try (intros [H|H]; [discriminate H|]); repeat (intros [H|H]; [discriminate H|]); try (intros []; fail); intuition (try discriminate); intros x [<-|[]]; simpl; auto 10.
  - intros a b Ia Ib. enum Ia; enum Ib; split; discriminate.
Qed.
Lemma pool_ok : respects pool_sum /\ uniform pool_sum.
Proof.
  split.
  - intros a b F. constructor; [|constructor]. induction F as [|u v l l' E F IH]; simpl; [reflexivity|]. rewrite E, IH. reflexivity.
  - intros a b L. reflexivity.
Qed.
Lemma ch_flows a b : flows ch_net is_bn a b -> (a = "bn1" -> In b ["relu"; "dw"; "conv2"; "bn2"]) /\ (a = "bn2" -> In b ["pool"; "fc"]).
Proof.
  intro F. induction F as [nd I J|nd' nd F (IH1 & IH2) I' T I J].
  - enum I; enum J; split; intro X; try discriminate X; simpl; auto.
  - split; intro E; [specialize (IH1 E)|specialize (IH2 E)]; enum I'; try (exfalso; apply T; exact Logic.I); enum I; enum J; try discriminate; simpl; auto;
      exfalso; simpl in *; intuition discriminate.
Qed.
Ltac nzi o := exists o; split; [simpl; lia|let z := fresh in intro z; specialize (z _ (or_introl eq_refl)); vm_compute in z; discriminate z].
Lemma ch_nodes : forall nd, In nd ch_net -> channels_ok ch_m ch_pl nd.
Proof.
  destruct relu_ok as (R1 & R2 & R3). destruct pool_ok as (P1 & P2). intros nd H. enum H; unfold channels_ok; cbn [n_op n_in n_name].
  - exists (mkND [3; 1; 1; 1] [1; 7; 2]%Q), 1, 1, 1, 1. split; [split; [eexists; split; reflexivity|shp]|]. repeat (split; [try (eexists; split; reflexivity); reflexivity|]).
    split; [intros b (p & X & _); discriminate X|]. left. split; auto. intros c Lc. assert (c = 0) by lia. subst c. split; intro X; [nzi 0|simpl; auto].
  - exists (mkND [3] [1; 5; 1]%Q), (mkND [3] [1; 9; 3]%Q), (mkND [3] [1; 0; 2]%Q), (mkND [3] [1; 1; 1]%Q).
    split; [split; [eexists; split; reflexivity|shp]|]. split; [eexists; split; reflexivity|]. split; [shp|]. split; [eexists; split; reflexivity|].
    split; [split; [eexists; split; reflexivity|shp]|]. split; [split; [eexists; split; reflexivity|shp]|]. split; reflexivity.
  - split; [split; reflexivity|]. split; auto.
  - exists (mkND [3; 1; 1; 1] [1; 5; 3]%Q), 3, 1, 1, 1. split; [split; [eexists; split; reflexivity|shp]|]. repeat (split; [try (eexists; split; reflexivity); reflexivity|]).
    split; [intros b (p & X & _); discriminate X|]. right. left. split; [discriminate|]. split; auto. split; [split; reflexivity|]. nzi 0.
  - exists (mkND [2; 3; 1; 1] [1; 0; 5; 1; 0; 3]%Q), 1, 3, 1, 1. split; [split; [eexists; split; reflexivity|shp]|]. repeat (split; [try (eexists; split; reflexivity); reflexivity|]).
    split; [intros b (p & X & <-); injection X as <-; shp|]. left. split; auto. intros c Lc. destruct c as [|[|[|c]]]; [| | |lia]; split; intro X; try (simpl; auto; fail); try nzi 0.
    + simpl in X. destruct X as [X|[X|[]]]; discriminate.
    + exfalso. destruct X as (o & Lo & N). apply N. simpl in Lo. destruct o as [|[|o]]; [| |lia]; intros v [<-|[]]; reflexivity.
  - exists (mkND [2] [1; 2]%Q), (mkND [2] [8; 1]%Q), (mkND [2] [1; 5]%Q), (mkND [2] [1; 2]%Q).
    split; [split; [eexists; split; reflexivity|shp]|]. split; [eexists; split; reflexivity|]. split; [shp|]. split; [eexists; split; reflexivity|].
    split; [split; [eexists; split; reflexivity|shp]|]. split; [split; [eexists; split; reflexivity|shp]|]. split; reflexivity.
  - split; [split; reflexivity|]. split; auto.
  - exists (mkND [1; 2] [0; 3]%Q), 2. split; [split; [eexists; split; reflexivity|shp]|]. split; [eexists; split; reflexivity|]. split; [reflexivity|]. split; [lia|].
    right. split; [reflexivity|]. intros c Lc. destruct c as [|[|c]]; [| |lia]; split; intro X; try (simpl; auto; fail); try nzi 0.
    + simpl in X. destruct X as [X|[]]; discriminate.
    + exfalso. destruct X as (o & Lo & N). apply N. simpl in Lo. destruct o as [|o]; [|lia]. intros v [<-|[]]. reflexivity.
Qed.
(** the hypotheses of C24_remove_channels and C24_remove_channels_succeeds hold of this network *)
Example C24_ex_channels_plan : channels_plan_ok ch_m ch_net ch_pl /\ tensors_fit (Some true) ch_m.
Proof.
  split.
  - constructor.
    + apply ch_net_ok.
    + repeat constructor; simpl; intuition discriminate.
    + intros k p H L. apply pget_in in H. enum H; try (injection H as <- <-; simpl in L; destruct L as [L|L]; try discriminate L).
      * exists (mkNode "conv1" (OConv point) [""]). simpl; auto 10.
      * exists (mkNode "dw" (OConv point) ["relu"]). simpl; auto 10.
      * exists (mkNode "conv2" (OConv point) ["dw"]). simpl; auto 10.
      * exists (mkNode "fc" OLinear ["pool"]). simpl; auto 20.
    + intro n. unfold ch_pl. cbn [chans keep]. destruct (memb n ["conv1"; "bn1"; "relu"; "dw"]); [|destruct (memb n _)]; (split; [|discriminate]);
        [exists (fun c => negb (Nat.eqb c 1))|exists (fun c => Nat.eqb c 1)|exists (fun _ => true)]; reflexivity.
    + reflexivity.
    + apply ch_nodes.
    + intros nd I K. enum I; try (exfalso; apply K; reflexivity).
      * exists (mkNode "bn1" OBn ["conv1"]). simpl; auto 10.
      * exists (mkNode "relu" (OChan relu) ["bn1"]). simpl; auto 10.
      * exists (mkNode "dw" (OConv point) ["relu"]). simpl; auto 10.
      * exists (mkNode "conv2" (OConv point) ["dw"]). simpl; auto 10.
      * exists (mkNode "bn2" OBn ["conv2"]). simpl; auto 10.
      * exists (mkNode "pool" (OChan pool_sum) ["bn2"]). simpl; auto 10.
      * exists (mkNode "fc" OLinear ["pool"]). simpl; auto 20.
    + intros s i b (Is & Ly & Ei & Ki) Ib B F. destruct (ch_flows _ _ F) as (F1 & F2). enum Ib; try (destruct B; fail); cbn [n_name] in *;
        [specialize (F1 eq_refl)|specialize (F2 eq_refl)]; enum Is; try (destruct Ly; fail); simpl in Ei; injection Ei as <-; try (exfalso; apply Ki; reflexivity);
        try (split; reflexivity); exfalso; simpl in *; intuition discriminate.
    + intros b Ib B. enum Ib; try (destruct B; fail); right.
      * exists (mkNode "dw" (OConv point) ["relu"]), "relu". split; [split; [simpl; auto 10|split; [simpl; auto|split; [reflexivity|intro X; discriminate X]]]|].
        apply (flows_through ch_net is_bn "bn1" (mkNode "relu" (OChan relu) ["bn1"]) (mkNode "dw" (OConv point) ["relu"])); simpl; auto 10.
        exact (flows_in ch_net is_bn "bn1" (mkNode "relu" (OChan relu) ["bn1"]) ltac:(simpl; auto) (or_introl eq_refl)).
      * exists (mkNode "fc" OLinear ["pool"]), "pool". split; [split; [simpl; auto 10|split; [simpl; auto|split; [reflexivity|intro X; discriminate X]]]|].
        apply (flows_through ch_net is_bn "bn2" (mkNode "pool" (OChan pool_sum) ["bn2"]) (mkNode "fc" OLinear ["pool"])); simpl; auto 10.
        exact (flows_in ch_net is_bn "bn2" (mkNode "pool" (OChan pool_sum) ["bn2"]) ltac:(simpl; auto 10) (or_introl eq_refl)).
  - intros k p H. apply pget_in in H. enum H; injection H as <- <-; split; intros t X; discriminate X.
Qed.
Example C24_ex_channels_run : before_after (channels_of_net ch_net) ch_m ch_net [[1; 2; -3; 4]%Q] "fc" = Ok (Some [[1891]%Q], Some [[1891]%Q]).
Proof. vm_compute. reflexivity. Qed.
