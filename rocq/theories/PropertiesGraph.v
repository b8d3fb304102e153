(** C57: the searches of the summary graph. *)
From Coq Require Import String List ZArith QArith Bool Arith Lia Relations.
From Verif Require Import Base Lists StructModel ThinModel ThinSpec ThinSearchProofs.
Import ListNotations.
Local Open Scope nat_scope.

(** an edge of the graph, followed forwards or backwards, to a node that exists *)
Definition edge (g : sgraph) (fwd : bool) (a b : string) : Prop :=
  (In (if fwd then (a, b) else (b, a)) (g_edges g)) /\ (In b (map fst (g_ops g)) \/ In b (g_data g)).
Definition of_type (g : sgraph) (types : list string) (n : string) : Prop := exists t, dget (g_ops g) n = Some t /\ In t types.
(** [x] can be reached from [n] by at least one edge, passing on the way through nodes that are not of the searched types *)
Inductive leads (g : sgraph) (fwd : bool) (types : list string) (n : string) : string -> Prop :=
| leads_edge x : edge g fwd n x -> leads g fwd types n x
| leads_step y x : leads g fwd types n y -> ~ of_type g types y -> edge g fwd y x -> leads g fwd types n x.

Lemma nexts_In g fwd a b : In b (nexts g fwd a) <-> In (if fwd then (a, b) else (b, a)) (g_edges g).
Proof.
  unfold nexts. rewrite in_map_iff. split.
  - intros ([u v] & E & I). apply filter_In in I as [I Q]. destruct fwd; simpl in *; apply String.eqb_eq in Q; subst; auto.
  - intro I. destruct fwd; [exists (a, b)|exists (b, a)]; simpl; (split; [reflexivity|]); apply filter_In; split; auto; apply String.eqb_refl.
Qed.
Lemma is_node_In g n : is_node g n = true <-> In n (map fst (g_ops g)) \/ In n (g_data g).
Proof.
  unfold is_node. rewrite orb_true_iff. rewrite memb_In.
  assert (H : dmem (g_ops g) n = true <-> In n (map fst (g_ops g))); [|tauto].
  unfold dmem. induction (g_ops g) as [|[k v] l IH]; simpl; [split; [discriminate|tauto]|].
  destruct (String.eqb_spec n k) as [->|ne]; [tauto|]. rewrite IH. split; [auto|]. intros [<-|]; auto. congruence.
Qed.
Lemma target_spec g types n : target g types n = true <-> of_type g types n.
Proof.
  unfold target, of_type, op_type. destruct (dget (g_ops g) n) as [t|]; [|split; [discriminate|intros (t & E & _); discriminate]].
  rewrite memb_In. split; [intro; exists t; auto|intros (t' & E & I); injection E as <-; auto].
Qed.
Lemma edge_spec g fwd a b : edge g fwd a b <-> In b (nexts g fwd a) /\ is_node g b = true.
Proof. unfold edge. rewrite nexts_In, is_node_In. tauto. Qed.

Lemma reach_leads g fwd types n x : reach g fwd types n x <-> leads g fwd types n x.
Proof.
  split.
  - intros (y & Iy & Ny & C). apply clos_rt_rtn1 in C. induction C as [|a b (T & I & N) C IH].
    + apply leads_edge. apply edge_spec; auto.
    + eapply leads_step; [exact IH| |apply edge_spec; auto]. rewrite <- target_spec, T. discriminate.
  - induction 1 as [x E|y x L (z & Iz & Nz & C) T E]; apply edge_spec in E as [I N].
    + exists x. split; auto. split; auto. apply rt_refl.
    + exists z. split; auto. split; auto. eapply rt_trans; [exact C|]. apply rt_step. split; [|auto].
      rewrite <- target_spec in T. destruct (target g types y); auto. congruence.
Qed.

Lemma search_missing g fwd types n : is_node g n = false -> search g fwd types n = [].
Proof. intro N. unfold search. cbn [search_f]. rewrite N. reflexivity. Qed.

(** C57: for every graph (cycles included), node and list of types, successors_f and predecessors_f return exactly the
    other nodes of these types that can be reached by following edges forwards (backwards) through nodes that are not
    of these types. *)
Theorem C57_search : forall g n types x,
  (In x (successors_f g n types) <->
     (In n (map fst (g_ops g)) \/ In n (g_data g)) /\ x <> n /\ of_type g types x /\ leads g true types n x) /\
  (In x (predecessors_f g n types) <->
     (In n (map fst (g_ops g)) \/ In n (g_data g)) /\ x <> n /\ of_type g types x /\ leads g false types n x).
Proof.
  intros g n types x.
  assert (H : forall fwd, In x (search g fwd types n) <->
     (In n (map fst (g_ops g)) \/ In n (g_data g)) /\ x <> n /\ of_type g types x /\ leads g fwd types n x).
  { intro fwd. rewrite <- is_node_In. destruct (is_node g n) eqn:N.
    - rewrite (proj1 (search_correct g fwd types n N) x). rewrite reach_leads, target_spec. tauto.
    - rewrite search_missing by auto. simpl. intuition discriminate. }
  split; apply H.
Qed.
Print Assumptions C57_search.

(** the edges into a node, seen from the direction of the search *)
Definition entries (g : sgraph) (fwd : bool) (x : string) : list (string * string) :=
  filter (fun e => String.eqb (if fwd then snd e else fst e) x) (g_edges g).

(** C57: a node with at most one edge leading to it is returned at most once. *)
Theorem C57_once : forall g n types x,
  (length (entries g true x) <= 1 -> count_occ string_dec (successors_f g n types) x <= 1) /\
  (length (entries g false x) <= 1 -> count_occ string_dec (predecessors_f g n types) x <= 1).
Proof.
  intros g n types x.
  assert (H : forall fwd, length (entries g fwd x) <= 1 -> count_occ string_dec (search g fwd types n) x <= 1).
  { intros fwd L. destruct (is_node g n) eqn:N; [|rewrite search_missing by auto; simpl; lia].
    assert (Cn : forall y l, count_occ string_dec (map (fun e : string * string => if fwd then snd e else fst e) (filter (fun e => String.eqb (if fwd then fst e else snd e) y) l)) x
                 <= length (filter (fun e => String.eqb (if fwd then snd e else fst e) x) l)).
    { intro y. induction l as [|e l IH]; simpl; auto.
      destruct (String.eqb (if fwd then fst e else snd e) y); simpl.
      - destruct (string_dec (if fwd then snd e else fst e) x) as [->|ne]; [rewrite String.eqb_refl; simpl; lia|].
        destruct (String.eqb _ x); simpl; lia.
      - destruct (String.eqb _ x); simpl; lia. }
    destruct (entries g fwd x) as [|e [|e' r]] eqn:E; simpl in L; try lia.
    - apply (proj2 (search_correct g fwd types n N) x ""%string). split.
      + intros w I. apply nexts_In in I. exfalso.
        assert (In (if fwd then (w, x) else (x, w)) (entries g fwd x)) as J; [|rewrite E in J; destruct J].
        apply filter_In. split; auto. destruct fwd; simpl; apply String.eqb_refl.
      + etransitivity; [apply Cn|]. change (length (entries g fwd x) <= 1). rewrite E. simpl; lia.
    - apply (proj2 (search_correct g fwd types n N) x (if fwd then fst e else snd e)). split.
      + intros w I. apply nexts_In in I.
        assert (In (if fwd then (w, x) else (x, w)) (entries g fwd x)) as J.
        { apply filter_In. split; auto. destruct fwd; simpl; apply String.eqb_refl. }
        rewrite E in J. destruct J as [->|[]]. destruct fwd; reflexivity.
      + etransitivity; [apply Cn|]. change (length (entries g fwd x) <= 1). rewrite E. simpl; lia. }
  split; apply H.
Qed.
Print Assumptions C57_once.

Local Open Scope string_scope.
(** a residual block: conv1 -> d1 -> {conv2 -> d2 -> add, add} -> d3 -> conv3 *)
Definition ex_res : sgraph :=
  mkG [("conv1", "Conv"); ("conv2", "Conv"); ("add", "Add"); ("conv3", "Conv")] ["d1"; "d2"; "d3"; "d4"]
      [("conv1", "d1"); ("d1", "conv2"); ("conv2", "d2"); ("d1", "add"); ("d2", "add"); ("add", "d3"); ("d3", "conv3"); ("conv3", "d4")].
Example C57_ex : successors_f ex_res "conv1" ["Conv"] = ["conv2"; "conv3"] /\ predecessors_f ex_res "conv3" ["Conv"] = ["conv1"; "conv2"] /\
  (length (entries ex_res true "conv3") <= 1)%nat.
Proof. split; [reflexivity|]. split; [reflexivity|]. apply le_n. Qed.
(** C57 (finding): a node with two inputs can be returned twice. *)
Theorem C57_twice_refuted : exists g n, count_occ string_dec (successors_f g n ["Add"]) "add" = 2%nat.
Proof.
  exists (mkG [("conv1", "Conv"); ("relu", "Relu"); ("add", "Add")] ["d1"; "d2"]
      [("conv1", "d1"); ("d1", "relu"); ("relu", "d2"); ("d1", "add"); ("d2", "add")]), "conv1". reflexivity.
Qed.
Print Assumptions C57_twice_refuted.
