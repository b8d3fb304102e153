(** Specification vocabulary for batch-norm folding: what torch.nn.BatchNorm computes, the
    unfused layer + batch-norm pair as a reference system, and connectivity of a graph. *)
From Coq Require Import String List ZArith QArith Bool.
From Verif Require Import Base RangeModel BnModel.
Import ListNotations.
Open Scope Q_scope.

(** positions of a batch: [k] per channel, for [C] channels *)
Definition per_channel (C k : nat) (g : geom) : Prop :=
  (forall p, In p g -> (fst p < C)%nat) /\
  (forall c, (c < C)%nat -> length (filter (fun p => Nat.eqb (fst p) c) g) = k) /\
  length g = (k * C)%nat.

(** the outputs belonging to channel [c] *)
Fixpoint of_chan (c : nat) (g : geom) (y : list Q) : list Q :=
  match g, y with
  | p :: g', v :: y' => if Nat.eqb (fst p) c then v :: of_chan c g' y' else of_chan c g' y'
  | _, _ => []
  end.
Definition count (l : list Q) : Q := Zq (Z.of_nat (length l)).
Definition average (l : list Q) : Q := qsum l / count l.
(** sum of squared deviations from the average *)
Definition sqdev (l : list Q) : Q := qsum (map (fun v => (v - average l) * (v - average l)) l).

(** torch.nn.BatchNorm in training mode on the outputs [y]: normalizes with the batch mean and the
    biased variance; running statistics move by the momentum towards the batch mean and the
    unbiased variance; raises ValueError with one value per channel. *)
Definition bn_train_ref (rsq : Q -> Q) (g : geom) (y : list Q) (n : bn) : res (bn * list Q) :=
  if existsb (fun c => Nat.leb (length (of_chan c g y)) 1) (seq 0 (length (bn_mean n))) then Raise ValueError else
  let batches := (bn_batches n + 1)%Z in
  let m := match bn_mom n with Some m => m | None => 1 / Zq batches end in
  let new old target := (1 - m) * old + m * target in
  let rm := map (fun c => new (nth c (bn_mean n) 0) (average (of_chan c g y))) (seq 0 (length (bn_mean n))) in
  let rv := map (fun c => new (nth c (bn_var n) 0) (sqdev (of_chan c g y) / (count (of_chan c g y) - 1))) (seq 0 (length (bn_mean n))) in
  let out p v := let ch := of_chan (fst p) g y in
                 (v - average ch) * rsq (sqdev ch / count ch + bn_eps n) * gam n (fst p) + bet n (fst p) in
  Ok (mkBn (bn_affine n) (bn_gamma n) (bn_beta n) rm rv (bn_eps n) (bn_mom n) batches, map2 out g y).

(** the reference system: the layer with its bias, followed by the batch-norm module *)
Record pair := mkPair { r_w : list (list Q); r_b : option (list Q); r_bn : bn }.
Definition rstep (rsq : Q -> Q) (g : geom) (o : sop) (s : pair) : res (pair * list Q) :=
  match o with
  | STrain x => do r <- bn_train_ref rsq g (layer g (r_w s) (r_b s) x) (r_bn s);
                Ok (mkPair (r_w s) (r_b s) (fst r), snd r)
  | SEval x => Ok (s, bn_eval rsq g (r_bn s) (layer g (r_w s) (r_b s) x))
  | SUpdate W b ga be => let n := r_bn s in
      Ok (mkPair W b (mkBn (bn_affine n) ga be (bn_mean n) (bn_var n) (bn_eps n) (bn_mom n) (bn_batches n)), [])
  end.
Fixpoint rrun (rsq : Q -> Q) (g : geom) (ops : list sop) (s : pair) : res (pair * list (list Q)) :=
  match ops with
  | [] => Ok (s, [])
  | o :: r => do a <- rstep rsq g o s; do b <- rrun rsq g r (fst a); Ok (fst b, snd a :: snd b)
  end.
(** the number of training forwards of a history *)
Definition trains (ops : list sop) : Z :=
  Z.of_nat (length (filter (fun o => match o with STrain _ => true | _ => false end) ops)).

(** batch-norm states equal up to equality of rationals *)
Definition bn_eqv (a b : bn) : Prop :=
  bn_affine a = bn_affine b /\ bn_gamma a = bn_gamma b /\ bn_beta a = bn_beta b /\
  teq (bn_mean a) (bn_mean b) /\ teq (bn_var a) (bn_var b) /\
  bn_eps a = bn_eps b /\ bn_mom a = bn_mom b /\ bn_batches a = bn_batches b.

(** a well-formed batch-norm: positive eps, non-negative running variances, as many as means, a
    momentum between 0 and 1 *)
Definition bn_ok (n : bn) : Prop :=
  0 < bn_eps n /\ length (bn_var n) = length (bn_mean n) /\ Forall (fun v => 0 <= v) (bn_var n) /\
  (match bn_mom n with Some m => 0 <= m <= 1 | None => True end) /\ (0 <= bn_batches n)%Z.

(** a consistent pair of square-root functions is not even needed: the reciprocal root must respect
    equality of rationals, the root must not vanish on positive numbers *)
Definition roots_ok (sq rsq : Q -> Q) : Prop :=
  (forall a b, a == b -> rsq a == rsq b) /\ (forall v, 0 < v -> ~ sq v == 0).

(** ** Graphs *)
Definition layer_node (nd : node) : Prop := nd_module nd = true /\ exists t g W b, nd_op nd = NLayer t g W b /\ is_foldable t = true.
Definition bn_node (nd : node) : Prop := nd_module nd = true /\ exists t tr g n, nd_op nd = NBn t tr g n /\ is_batchnorm t = true.
(** node [a] runs immediately before node [b] *)
Definition just_before (gr : graph) (a b : node) : Prop := exists pre post, gr = pre ++ a :: b :: post.
(** every node that is an arbitrary operation respects equality of rationals *)
Definition ops_proper (gr : graph) : Prop :=
  forall nd f, In nd gr -> nd_op nd = NOther f -> forall a b, Forall2 teq a b -> teq (f a) (f b).
(** operations other than layers and batch-norms are of those forms (types match constructors) *)
Definition types_ok (gr : graph) : Prop :=
  forall nd, In nd gr -> match nd_op nd with NLayer t _ _ _ => is_foldable t = true | NBn t _ _ _ => is_batchnorm t = true /\ t <> TFrozenBn2
                                            | NSim _ _ => False | _ => True end.
(** a batch-norm that runs right after a layer reads that layer, with the same positions, and has
    one running statistic per channel *)
Definition well_connected (gr : graph) : Prop :=
  forall a b, just_before gr a b -> layer_node a -> bn_node b ->
    nd_ins b = [nd_name a] /\
    forall ta g W bb tb tr g' n, nd_op a = NLayer ta g W bb -> nd_op b = NBn tb tr g' n ->
      g' = g /\ (forall p, In p g -> (fst p < length (bn_mean n))%nat).
(** a layer feeding a batch-norm and something else is not directly preceded by another layer *)
Definition no_hidden_split (gr : graph) : Prop :=
  forall z a b, just_before gr z a -> just_before gr a b -> layer_node z -> layer_node a -> bn_node b ->
    (length (succs gr (nd_name a)) <= 1)%nat.
