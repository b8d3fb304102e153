(** Specification vocabulary for AMC (C94, C95, C96). *)
From Coq Require Import String Ascii List ZArith QArith Qround Qabs Bool Arith Sorted.
From Verif Require Import Base Lists Names PrunerModel StructModel QuantModel AmcModel.
Import ListNotations.
Local Open Scope string_scope.
Open Scope list_scope.

(** the layers whose cost changes when layer [i] is pruned: itself and those that depend on it *)
Definition touched (m : meta) (i : nat) : list string :=
  match nth_error (m_layers m) i with Some l => al_name l :: (match al_deps l with Some d => d | None => [] end) | None => [] end.

(** A description of a network that makes sense: distinct names; the layers to prune in order, each with its dependent layers:
    layers of the network, each once, not the layer itself; positive costs; the totals are those of the layers. *)
Record sound (m : meta) : Prop := mkSound {
  sd_names : NoDup (map al_name (m_layers m));
  sd_order : StronglySorted lt (m_pruned m);
  sd_some : m_pruned m <> [];
  sd_pruned : forall i, In i (m_pruned m) -> exists l ds, nth_error (m_layers m) i = Some l /\ al_deps l = Some ds /\
     NoDup (al_name l :: ds) /\ incl ds (map al_name (m_layers m));
  sd_pos : Forall (fun l => 0 < al_macs l)%Q (m_layers m);
  sd_macs : (m_macs m == qsum (map al_macs (m_layers m)))%Q;
  sd_nnz : (m_nnz m == qsum (map al_vol (m_layers m)))%Q }.

(** what is left of the layer [n] after steps that each cut the layers listed by a fraction *)
Fixpoint left_of (cuts : list (list string * Q)) (n : string) : Q :=
  match cuts with
  | [] => 1
  | (names, a) :: r => (if existsb (String.eqb n) names then 1 - a else 1) * left_of r n
  end.

(** The bookkeeping after the actions [acts] of an episode of the network [m0], of which the fractions [e_hist] were really
    removed. *)
Record accounted (orig : Q) (m0 : meta) (acts : list Q) (e : env) : Prop := mkAcc {
  ac_agent : e_agent e = acts;
  ac_steps : e_state e = length acts /\ length (e_hist e) = length acts;
  ac_ids : m_pruned (e_meta e) = m_pruned m0 /\ m_dep (e_meta e) = m_dep m0;
  ac_fracs : Forall (fun a => 0 <= a < 1)%Q (e_hist e);
  ac_layers : Forall2 (fun l0 l => al_name l = al_name l0 /\ al_deps l = al_deps l0 /\
       (al_macs l == al_macs l0 * left_of (combine (map (touched m0) (m_pruned m0)) (e_hist e)) (al_name l0))%Q /\
       (al_vol l == al_vol l0 * left_of (combine (map (touched m0) (m_pruned m0)) (e_hist e)) (al_name l0))%Q) (m_layers m0) (m_layers (e_meta e));
  ac_macs : (m_macs (e_meta e) == qsum (map al_macs (m_layers (e_meta e))))%Q;
  ac_nnz : (m_nnz (e_meta e) == qsum (map al_vol (m_layers (e_meta e))))%Q;
  ac_removed : (e_removed e == orig - m_macs (e_meta e))%Q }.

(** * C95 *)
(** layer [j] is left for later when layer [i] is pruned: it comes after, its cost can be reduced by pruning (it is pruned or
    listed as dependent on a pruned layer), and pruning [i] does not change it *)
Definition ahead (m : meta) (i j : nat) : Prop :=
  (i < j)%nat /\ (In j (m_pruned m) \/ In j (m_dep m)) /\ exists l, nth_error (m_layers m) j = Some l /\ ~ In (al_name l) (touched m i).
(** Every layer is touched when the first layer is pruned or left for later; whatever is left for later at a layer is, at the
    next one, touched or left for later again; nothing is left for later at the last one. *)
Record coverable (m : meta) : Prop := mkCover {
  cv_first : forall p j l, nth_error (m_pruned m) 0 = Some p -> nth_error (m_layers m) j = Some l -> In (al_name l) (touched m p) \/ ahead m p j;
  cv_next : forall k p q j l, nth_error (m_pruned m) k = Some p -> nth_error (m_pruned m) (S k) = Some q -> nth_error (m_layers m) j = Some l ->
     ahead m p j -> In (al_name l) (touched m q) \/ ahead m q j;
  cv_last : forall k p j, S k = length (m_pruned m) -> nth_error (m_pruned m) k = Some p -> ~ ahead m p j }.
(** the MACs the pruning of the current layer can remove *)
Definition reachable_macs (e : env) : Q :=
  qsum (map (fun l => if existsb (String.eqb (al_name l)) (touched (e_meta e) (e_layer e)) then al_macs l else 0) (m_layers (e_meta e))).

(** * C94: the real cost *)
(** The cost of a layer is proportional to the number of channels of each of the channel groups it reads or writes.  [chan]: the
    group that pruning a layer reduces; [cuts]: the layers pruned and the fractions removed. *)
Fixpoint group_size (size : nat -> Q) (chan : nat -> nat) (cuts : list (nat * Q)) (g : nat) : Q :=
  match cuts with
  | [] => size g
  | (p, a) :: r => (if Nat.eqb (chan p) g then 1 - a else 1) * group_size size chan r g
  end.
Definition prod (l : list Q) : Q := fold_right Qmult 1 l.
Definition real_cost (coef : string -> Q) (groups : string -> list nat) (size : nat -> Q) (chan : nat -> nat) (cuts : list (nat * Q)) (n : string) : Q :=
  coef n * prod (map (group_size size chan cuts) (groups n)).

(** * C94: dependencies: the neighbours, and behind a depthwise layer its own dependencies *)
Inductive depends (next : string -> list string) (kind : string -> gkind) : string -> string -> Prop :=
| dep_next n p : In p (next n) -> depends next kind n p
| dep_through n q p : In q (next n) -> kind q = GDepthwise -> depends next kind q p -> depends next kind n p.

(** * C96 *)
(** the reward [x] at position [i] is better than all before *)
Definition new_best (rs : list Q) (i : nat) : Prop := exists x, nth_error rs i = Some x /\ forall j y, (j < i)%nat -> nth_error rs j = Some y -> (y < x)%Q.
