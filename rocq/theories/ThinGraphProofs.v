(** The searches on the graph of a network. *)
From Coq Require Import String List ZArith QArith Bool Arith Lia Relations.
From Verif Require Import Base Lists StructModel ThinModel ThinSpec ThinSearchProofs PropertiesGraph ThinNetSpec.
Import ListNotations.
Local Open Scope nat_scope.

Lemma data_of_inj a b : data_of a = data_of b -> a = b.
Proof. unfold data_of. simpl. intro H. injection H as H. auto. Qed.

Lemma ordered_names before net : ordered before net -> NoDup (map n_name net) /\ forall n, In n (map n_name net) -> ~ In n before.
Proof.
  revert before. induction net as [|nd net IH]; intros before H; simpl in *; [split; [constructor|tauto]|].
  destruct H as (A & B & C). destruct (IH _ C) as [D E]. split.
  - constructor; auto. intro I. apply (E _ I). left; auto.
  - intros n [<-|I]; auto. intro J. apply (E _ I). right; auto.
Qed.
Lemma ordered_in before net nd i : ordered before net -> In nd net -> In i (n_in nd) -> In i before \/ In i (map n_name net).
Proof.
  revert before. induction net as [|nd' net IH]; intros before H I J; simpl in *; [tauto|]. destruct H as (A & B & C). destruct I as [->|I]; [left; apply B; auto|].
  destruct (IH _ C I J) as [[<-|K]|K]; auto.
Qed.

Lemma same_node net a b : NoDup (map n_name net) -> In a net -> In b net -> n_name a = n_name b -> a = b.
Proof.
  induction net as [|c l IH]; simpl in *; [tauto|]. intros N. inversion N; subst. intros [->|I] [->|J] E; auto.
  - exfalso. apply H1. rewrite E. apply in_map; auto.
  - exfalso. apply H1. rewrite <- E. apply in_map; auto.
Qed.

(** acyclicity *)
Lemma ordered_rank before net : ordered before net -> exists f : string -> nat, (forall b, In b before -> f b = 0) /\ forall nd i, In nd net -> In i (n_in nd) -> f i < f (n_name nd).
Proof.
  revert before. induction net as [|nd net IH]; intros before H; simpl in H.
  - exists (fun _ => 0). split; [auto|intros ? ? []].
  - destruct H as (A & B & C). destruct (IH _ C) as (f & F0 & F1). pose proof (proj2 (ordered_names _ _ C)) as N.
    exists (fun n => if in_dec string_dec n before then 0 else S (f n)). split.
    + intros b I. destruct (in_dec string_dec b before); [auto|contradiction].
    + intros nd' i [<-|I] J.
      * destruct (in_dec string_dec (n_name nd) before); [contradiction|]. destruct (in_dec string_dec i before); [lia|]. exfalso. auto.
      * pose proof (F1 nd' i I J). destruct (in_dec string_dec (n_name nd') before) as [K|K].
        -- exfalso. apply (N (n_name nd')); [apply in_map; auto|right; auto].
        -- destruct (in_dec string_dec i before); lia.
Qed.
Lemma flows_rank net stop (f : string -> nat) a b : (forall nd i, In nd net -> In i (n_in nd) -> f i < f (n_name nd)) -> flows net stop a b -> f a < f b.
Proof. intros H F. induction F as [nd I J|nd' nd F IH I' T I J]; [auto|]. pose proof (H nd (n_name nd') I J). lia. Qed.
Section Graph2.
  Variable net : list node.
  Hypothesis NO : net_ok net.
  Notation g := (graph_of net).
  Notation names := (map n_name net).
  Lemma net_names : NoDup names. Proof. apply (ordered_names [net_input]). apply NO. Qed.
  Lemma name_not_data n nd : In nd net -> In n (net_input :: names) -> n_name nd <> data_of n.
  Proof.
    intros I [<-|J]; [apply (proj2 NO nd nd); auto|]. apply in_map_iff in J as (nd' & <- & J). apply (proj2 NO); auto.
  Qed.
  Lemma input_known nd i : In nd net -> In i (n_in nd) -> In i (net_input :: names).
  Proof. intros I J. destruct (ordered_in _ _ _ _ (proj1 NO) I J) as [[<-|[]]|K]; [left; auto|right; auto]. Qed.

  Lemma edges_in a b : In (a, b) (g_edges g) <-> exists nd, In nd net /\ ((exists i, In i (n_in nd) /\ a = data_of i /\ b = n_name nd) \/ (a = n_name nd /\ b = data_of (n_name nd))).
  Proof.
    unfold graph_of. cbn [g_edges]. rewrite in_flat_map. split; intros (nd & I & H); exists nd; (split; [auto|]).
    - apply in_app_or in H as [H|H]; [left|right].
      + apply in_map_iff in H as (i & E & J). injection E as <- <-. eauto.
      + destruct H as [H|[]]. injection H as <- <-. auto.
    - apply in_or_app. destruct H as [(i & J & -> & ->)|(-> & ->)]; [left|right].
      + apply in_map_iff. eauto.
      + left; auto.
  Qed.
  Lemma op_node n : In n (map fst (g_ops g)) <-> In n names.
  Proof. unfold graph_of. cbn [g_ops]. rewrite map_map. reflexivity. Qed.
  Lemma data_node n : In n (g_data g) <-> exists i, In i (net_input :: names) /\ n = data_of i.
  Proof.
    unfold graph_of. cbn [g_data]. simpl. rewrite in_map_iff. split.
    - intros [<-|(nd & <- & I)]; [exists net_input; auto|exists (n_name nd); split; auto; right; apply in_map; auto].
    - intros (i & [<-|I] & ->); [left; auto|right]. apply in_map_iff in I as (nd & <- & I). eauto.
  Qed.
  Lemma op_type_of nd : In nd net -> dget (g_ops g) (n_name nd) = Some (op_ty (n_op nd)).
  Proof.
    intro I. unfold graph_of. cbn [g_ops]. pose proof net_names as N. clear NO. induction net as [|c l IH]; simpl in *; [tauto|]. inversion N; subst.
    destruct (String.eqb_spec (n_name nd) (n_name c)) as [E|ne].
    - destruct I as [->|I]; auto. exfalso. apply H1. rewrite <- E. apply in_map; auto.
    - destruct I as [->|I]; [congruence|]. auto.
  Qed.
  Lemma op_type_none n : ~ In n names -> dget (g_ops g) n = None.
  Proof.
    unfold graph_of. cbn [g_ops]. clear NO. induction net as [|c l IH]; simpl; auto. intro N. destruct (String.eqb_spec n (n_name c)); [subst; tauto|]. apply IH. tauto.
  Qed.

  (** edges of the graph *)
  Lemma edge_to_op fwd nd a : In nd net -> edge g fwd a (n_name nd) <->
    if fwd then exists i, In i (n_in nd) /\ a = data_of i else a = data_of (n_name nd).
  Proof.
    intro I. unfold edge. rewrite op_node, data_node. destruct fwd; rewrite edges_in.
    - split.
      + intros [(nd' & I' & [(i & J & -> & E)|(-> & E)]) _].
        * apply (same_node net) in E; auto; [subst; eauto|apply net_names].
        * exfalso. apply (name_not_data (n_name nd') nd); auto. right. apply in_map; auto.
      + intros (i & J & ->). split; [exists nd; split; auto; left; eauto|]. left. apply in_map; auto.
    - split.
      + intros [(nd' & I' & [(i & J & E & ->)|(E & ->)]) _].
        * exfalso. apply (name_not_data i nd); auto. eapply input_known; eauto.
        * apply (same_node net) in E; auto; [subst; eauto|apply net_names].
      + intros ->. split; [exists nd; split; auto|]. left. apply in_map; auto.
  Qed.
  Lemma edge_to_data fwd i a : In i (net_input :: names) -> edge g fwd a (data_of i) <->
    exists nd, In nd net /\ a = n_name nd /\ if fwd then i = n_name nd else In i (n_in nd).
  Proof.
    intro K. unfold edge. rewrite op_node, data_node. destruct fwd; rewrite edges_in.
    - split.
      + intros [(nd' & I' & [(j & J & -> & E)|(-> & E)]) _].
        * exfalso. symmetry in E. apply (name_not_data i nd') in E; auto.
        * apply data_of_inj in E. subst. eauto.
      + intros (nd & I & -> & ->). split; [exists nd; split; auto|]. right. exists (n_name nd). auto.
    - split.
      + intros [(nd' & I' & [(j & J & E & ->)|(E & ->)]) _].
        * apply data_of_inj in E. subst. eauto.
        * exfalso. symmetry in E. apply (name_not_data i nd') in E; auto.
      + intros (nd & I & -> & J). split; [exists nd; split; auto; left; eauto|]. right. exists i. auto.
  Qed.
  Lemma edge_node fwd a b : edge g fwd a b -> (exists nd, In nd net /\ b = n_name nd) \/ (exists i, In i (net_input :: names) /\ b = data_of i).
  Proof. intros [_ [H|H]]; [left; apply op_node in H; apply in_map_iff in H as (nd & <- & I); eauto|right; apply data_node; auto]. Qed.

  Definition stops (types : list string) (op : nop) : Prop := In (op_ty op) types.
  Lemma of_type_op types nd : In nd net -> of_type g types (n_name nd) <-> stops types (n_op nd).
  Proof. intro I. unfold of_type, stops. rewrite (op_type_of nd I). split; [intros (t & E & J); injection E as <-; auto|eauto]. Qed.
  Lemma of_type_data types i : In i (net_input :: names) -> ~ of_type g types (data_of i).
  Proof.
    intros I (t & E & _). rewrite op_type_none in E; [discriminate|]. intro J. apply in_map_iff in J as (nd & E' & J). apply (name_not_data i nd); auto.
  Qed.

  (** forwards *)
  Lemma leads_flows types a x : In a net -> leads g true types (n_name a) x ->
    (forall nd, In nd net -> x = n_name nd -> flows net (stops types) (n_name a) (n_name nd)) /\
    (forall i, In i (net_input :: names) -> x = data_of i -> i = n_name a \/ exists nd, In nd net /\ i = n_name nd /\ ~ stops types (n_op nd) /\ flows net (stops types) (n_name a) i).
  Proof.
    intros Ia L. induction L as [x E|y x L [IH1 IH2] T E].
    - split.
      + intros nd I ->. apply edge_to_op in E; auto. destruct E as (i & J & E). exfalso. apply (name_not_data i a); auto. eapply input_known; eauto.
      + intros i I ->. left. apply edge_to_data in E; auto. destruct E as (nd & J & E & ->). auto.
    - split.
      + intros nd I ->. apply edge_to_op in E; auto. destruct E as (i & J & ->). pose proof (input_known nd i I J) as K.
        destruct (IH2 i K eq_refl) as [->|(nd' & I' & -> & Tn & F)].
        * apply flows_in; auto.
        * eapply flows_through; eauto.
      + intros i I ->. apply edge_to_data in E; auto. destruct E as (nd & J & -> & ->). right. exists nd. split; auto. split; auto. split.
        * rewrite <- of_type_op; auto.
        * apply IH1; auto.
  Qed.
  Lemma leads_data types a b : In b net -> n_name b = n_name a \/ (leads g true types (n_name a) (n_name b) /\ ~ of_type g types (n_name b)) -> leads g true types (n_name a) (data_of (n_name b)).
  Proof.
    intros I [E|[L T]].
    - apply leads_edge. apply edge_to_data; [right; apply in_map; auto|]. exists b. auto.
    - eapply leads_step; eauto. apply edge_to_data; [right; apply in_map; auto|]. exists b. auto.
  Qed.
  Lemma flows_leads types a x : In a net -> flows net (stops types) (n_name a) x -> leads g true types (n_name a) x.
  Proof.
    intros Ia F. induction F as [nd I J|nd' nd F IH I' T I J].
    - eapply leads_step; [apply (leads_data types a a); auto|apply of_type_data; right; apply in_map; auto|]. apply edge_to_op; auto. eauto.
    - eapply leads_step; [apply (leads_data types a nd'); auto; right; split; auto; rewrite of_type_op; auto|apply of_type_data; right; apply in_map; auto|]. apply edge_to_op; auto. eauto.
  Qed.

  Theorem net_successors types a x : In a net ->
    In x (successors_f g (n_name a) types) <-> exists b, In b net /\ x = n_name b /\ b <> a /\ stops types (n_op b) /\ flows net (stops types) (n_name a) (n_name b).
  Proof.
    intro Ia. rewrite (proj1 (C57_search g (n_name a) types x)). split.
    - intros (_ & N & T & L). assert (J : In x names). { destruct (in_dec string_dec x names); auto. destruct T as (t & E & _). rewrite op_type_none in E; [discriminate|auto]. }
      apply in_map_iff in J as (b & <- & Ib). exists b. split; auto. split; auto. split; [congruence|]. rewrite <- of_type_op; auto. split; auto. eapply leads_flows; eauto.
    - intros (b & Ib & -> & N & T & F). split; [left; apply op_node, in_map; auto|]. split; [intro E; apply N; eapply same_node; eauto; apply net_names|].
      split; [apply of_type_op; auto|]. apply flows_leads; auto.
  Qed.
  (** backwards *)
  Lemma flows_cons stop a b x : In b net -> In a (n_in b) -> ~ stop (n_op b) -> flows net stop (n_name b) x -> flows net stop a x.
  Proof.
    intros Ib J T F. induction F as [nd I K|nd' nd F IH I' T' I K].
    - apply (flows_through net stop a b nd); auto. apply flows_in; auto.
    - eapply flows_through; eauto.
  Qed.
  Lemma flows_uncons stop a x : flows net stop a x -> exists nd, In nd net /\ In a (n_in nd) /\ (x = n_name nd \/ ~ stop (n_op nd) /\ flows net stop (n_name nd) x).
  Proof.
    induction 1 as [nd I J|nd' nd F (b & Ib & Jb & IH) I' T I J].
    - exists nd. auto.
    - exists b. split; auto. split; auto. right. destruct IH as [E|[Tb Fb]].
      + apply (same_node net) in E; auto; [|apply net_names]. subst b. split; auto. apply flows_in; auto.
      + split; auto. eapply flows_through; eauto.
  Qed.
  Lemma leads_flows_back types a x : In a net -> leads g false types (n_name a) x ->
    (forall nd, In nd net -> x = n_name nd -> flows net (stops types) (n_name nd) (n_name a)) /\
    (forall i, In i (net_input :: names) -> x = data_of i -> In i (n_in a) \/ exists nd, In nd net /\ In i (n_in nd) /\ ~ stops types (n_op nd) /\ flows net (stops types) (n_name nd) (n_name a)).
  Proof.
    intros Ia L. induction L as [x E|y x L [IH1 IH2] T E].
    - split.
      + intros nd I ->. apply edge_to_op in E; auto. exfalso. apply (name_not_data (n_name nd) a); auto. right; apply in_map; auto.
      + intros i I ->. left. apply edge_to_data in E; auto. destruct E as (nd & J & E & K). apply (same_node net) in E; auto; [|apply net_names]. subst nd. auto.
    - split.
      + intros nd I ->. apply edge_to_op in E; auto. subst y. assert (K : In (n_name nd) (net_input :: names)) by (right; apply in_map; auto).
        destruct (IH2 _ K eq_refl) as [J|(nd' & I' & J & Tn & F)].
        * apply flows_in; auto.
        * eapply flows_cons; eauto.
      + intros i I ->. apply edge_to_data in E; auto. destruct E as (nd & J & -> & K). right. exists nd. split; auto. split; auto. split.
        * rewrite <- of_type_op; auto.
        * apply IH1; auto.
  Qed.
  Lemma flows_leads_back types a s : In s net -> flows net (stops types) a (n_name s) -> forall b, In b net -> a = n_name b -> leads g false types (n_name s) (n_name b).
  Proof.
    intros Is F b Ib ->. remember (n_name s) as x eqn:Ex.
    assert (G : forall a x, flows net (stops types) a x -> x = n_name s -> leads g false types (n_name s) (data_of a) /\ True); [|].
    { intros a0 x0 F0. destruct (ordered_rank _ _ (proj1 NO)) as (f & _ & R).
      assert (H : forall k a0, f x0 - f a0 < k -> flows net (stops types) a0 x0 -> x0 = n_name s -> leads g false types (n_name s) (data_of a0)).
      { induction k as [|k IH]; intros a1 L F1 E; [lia|]. pose proof (flows_rank net _ f a1 x0 R F1) as Lt. destruct (flows_uncons _ _ _ F1) as (nd & I & J & [En|[Tn Fn]]).
        - apply leads_edge. rewrite E in En. apply (same_node net) in En; auto; [|apply net_names]. subst nd. apply edge_to_data; [eapply input_known; eauto|]. exists s. auto.
        - assert (D : leads g false types (n_name s) (data_of (n_name nd))). { apply IH; auto. pose proof (flows_rank net _ f _ x0 R Fn). pose proof (R nd a1 I J). lia. }
          assert (D2 : leads g false types (n_name s) (n_name nd)) by (eapply leads_step; [exact D|apply of_type_data; right; apply in_map; auto|apply edge_to_op; auto]).
          apply (leads_step g false types (n_name s) (n_name nd)); auto; [rewrite of_type_op; auto|].
          apply edge_to_data; [eapply input_known; eauto|]. exists nd. auto. }
      intro E. split; auto. eapply H; eauto. }
    subst x. destruct (G _ _ F eq_refl) as [D _]. eapply leads_step; [exact D|apply of_type_data; right; apply in_map; auto|apply edge_to_op; auto].
  Qed.
  Theorem net_predecessors types a x : In a net ->
    In x (predecessors_f g (n_name a) types) <-> exists b, In b net /\ x = n_name b /\ b <> a /\ stops types (n_op b) /\ flows net (stops types) (n_name b) (n_name a).
  Proof.
    intro Ia. rewrite (proj2 (C57_search g (n_name a) types x)). split.
    - intros (_ & N & T & L). assert (J : In x names). { destruct (in_dec string_dec x names); auto. destruct T as (t & E & _). rewrite op_type_none in E; [discriminate|auto]. }
      apply in_map_iff in J as (b & <- & Ib). exists b. split; auto. split; auto. split; [congruence|]. rewrite <- of_type_op; auto. split; auto. eapply leads_flows_back; eauto.
    - intros (b & Ib & -> & N & T & F). split; [left; apply op_node, in_map; auto|]. split; [intro E; apply N; eapply same_node; eauto; apply net_names|].
      split; [apply of_type_op; auto|]. eapply flows_leads_back; eauto.
  Qed.
  (** an operation with one input is found at most once *)
  Lemma entries_op nd : In nd net -> length (entries g true (n_name nd)) = length (n_in nd).
  Proof.
    intro I. unfold entries, graph_of. cbn [g_edges]. pose proof net_names as N.
    assert (D : forall nd' , In nd' net -> n_name nd <> data_of (n_name nd')) by (intros; apply name_not_data; auto; right; apply in_map; auto).
    clear NO. induction net as [|c l IH]; simpl in *; [tauto|]. inversion N; subst. rewrite filter_app, app_length.
    assert (Z : forall l', (forall c', In c' l' -> n_name c' <> n_name nd /\ n_name nd <> data_of (n_name c')) -> filter (fun e : string * string => String.eqb (snd e) (n_name nd)) (flat_map (fun n => map (fun i => (data_of i, n_name n)) (n_in n) ++ [(n_name n, data_of (n_name n))]) l') = []).
    { clear. induction l' as [|c l' IH]; intro H; simpl; auto. rewrite filter_app, IH by (intros; apply H; right; auto). rewrite app_nil_r.
      destruct (H c) as [A B]; [left; auto|]. rewrite filter_app. cbn [filter snd]. destruct (String.eqb_spec (data_of (n_name c)) (n_name nd)); [congruence|]. rewrite app_nil_r.
      induction (n_in c); simpl; auto. destruct (String.eqb_spec (n_name c) (n_name nd)); [congruence|]. auto. }
    rewrite filter_app, app_length. cbn [filter snd]. destruct (String.eqb_spec (data_of (n_name c)) (n_name nd)) as [E|_]; [exfalso; apply (D c); auto|]. simpl length at 2. rewrite Nat.add_0_r.
    destruct I as [->|I].
    - rewrite Z.
      + rewrite Nat.add_0_r. clear. induction (n_in nd); simpl; auto. rewrite String.eqb_refl. simpl. auto.
      + intros c' I. split; [intro E; apply H1; rewrite <- E; apply in_map; auto|apply D; auto].
    - rewrite IH; auto.
      assert (E0 : filter (fun e : string * string => String.eqb (snd e) (n_name nd)) (map (fun i => (data_of i, n_name c)) (n_in c)) = []).
      { assert (n_name c <> n_name nd) by (intro E; apply H1; rewrite E; apply in_map; auto). clear -H. induction (n_in c); simpl; auto. destruct (String.eqb_spec (n_name c) (n_name nd)); [congruence|]. auto. }
      rewrite E0. reflexivity.
  Qed.
End Graph2.

Lemma flows_neq net stop a b : net_ok net -> flows net stop (n_name a) (n_name b) -> a <> b.
Proof. intros [O _] F ->. destruct (ordered_rank _ _ O) as (f & _ & H). pose proof (flows_rank _ _ f _ _ H F). lia. Qed.
Lemma net_induction net (P : node -> Prop) : net_ok net ->
  (forall nd, In nd net -> (forall nd', In nd' net -> In (n_name nd') (n_in nd) -> P nd') -> P nd) -> forall nd, In nd net -> P nd.
Proof.
  intros [O _] H. destruct (ordered_rank _ _ O) as (f & _ & R).
  assert (G : forall k nd, f (n_name nd) < k -> In nd net -> P nd).
  { induction k as [|k IH]; intros nd L I; [lia|]. apply H; auto. intros nd' I' J. apply IH; auto. pose proof (R nd _ I J). lia. }
  intros nd I. eapply G; eauto.
Qed.
