(** What the summaries should say, in terms of tensors, layers and models. *)
From Coq Require Import String List ZArith QArith Qabs Bool Arith.
From Verif Require Import Base Lists StructModel StructSpec QzrModel QzrSpec SumModel.
Import ListNotations.
Open Scope list_scope.

(** [n] is the number of things with the property [P] *)
Definition counts {A} (P : A -> Prop) (n : nat) : Prop := exists l, NoDup l /\ (forall a, In a l <-> P a) /\ length l = n.

(** ** Layers *)
(** the products of a direct convolution: output element (n, o, y, x), channel c of its group, kernel position (i, j) *)
Definition conv_product (N O OH OW C KH KW : nat) (t : nat * nat * nat * nat * (nat * nat * nat)) : Prop :=
  let '(n, o, y, x, (c, i, j)) := t in (n < N /\ o < O /\ y < OH /\ x < OW /\ c < C /\ i < KH /\ j < KW)%nat.
(** the products of a fully connected layer: row r of the input, output o, input i *)
Definition linear_product (R O I : nat) (t : nat * nat * nat) : Prop :=
  let '(r, o, i) := t in (r < R /\ o < O /\ i < I)%nat.

(** ** Sparsity *)
(** a parameter that the summary covers: rank in [dims], 'weight' or 'bias' somewhere in its name *)
Definition occurs (s t : string) : Prop := exists a b, t = (a ++ s ++ b)%string.
Definition covered (dims : list nat) (e : string * nd) : Prop := In (length (nd_shape (snd e))) dims /\ (occurs "weight" (fst e) \/ occurs "bias" (fst e)).
Definition is_zero (x : Q) : bool := Qeq_bool x 0.
Definition zeros (l : list Q) : nat := countb is_zero l.
Definition percent (a b : nat) : Q := 100 * (inject_Z (Z.of_nat a) / inject_Z (Z.of_nat b)).

(** a row of the table: names, sizes, and the percentages of zero elements, filters, channels, kernels, matrix rows and columns
    (of the matrix as stored, with the two last columns of the table exchanged: torch stores it transposed) *)
Definition row_ok (e : string * nd) (r : wrow) : Prop :=
  let t := snd e in
  w_name r = fst e /\ w_shape r = nd_shape t /\ w_dense r = numel (nd_shape t) /\
  w_nnz r = (Z.of_nat (length (nd_data t)) - Z.of_nat (zeros (nd_data t)))%Z /\
  w_fine r == percent (zeros (nd_data t)) (length (nd_data t)) /\
  (forall F C H W, nd_shape t = [F; C; H; W] ->
     w_3d r == percent (count_below F (fun f => all_zero (filter_of t C H W f))) F /\
     w_ch r == percent (count_below C (fun c => all_zero (channel_of t F C H W c))) C /\
     w_2d r == percent (count_below (F * C) (fun i => all_zero (kernel t C H W (i / C) (i mod C)))) (F * C) /\
     w_rows r == 0 /\ w_cols r == 0) /\
  (forall R C, nd_shape t = [R; C] ->
     w_rows r == percent (count_below C (fun j => all_zero (col_of t R C j))) C /\
     w_cols r == percent (count_below R (fun i => all_zero (row_of t C i))) R /\
     w_2d r == percent (count_below R (fun i => all_zero (row_of t C i))) R /\
     w_3d r == 0 /\ w_ch r == 0) /\
  w_mean r * inject_Z (Z.of_nat (length (nd_data t))) == qsum (nd_data t) /\
  w_absmean r * inject_Z (Z.of_nat (length (nd_data t))) == qsum (map Qabs (nd_data t)).
(** the elements of the covered parameters, all together *)
Definition elements (sel : list (string * nd)) : list Q := concat (map (fun e => nd_data (snd e)) sel).

(** ** Models with wrappers for data parallelism *)
Fixpoint no_dp (m : dmod) : Prop :=
  match m with DMod _ b kids => b = false /\ (fix go (l : list (string * dmod)) : Prop := match l with [] => True | (_, c) :: l => no_dp c /\ go l end) kids end.
(** the wrappers removed: every DataParallel stands for its module *)
Fixpoint unwrap (m : dmod) : dmod :=
  match m with
  | DMod _ true [(_, x)] => unwrap x
  | DMod i b kids => DMod i b ((fix go (l : list (string * dmod)) : list (string * dmod) := match l with [] => [] | (n, c) :: l => (n, unwrap c) :: go l end) kids)
  end.
(** every DataParallel has exactly its [module], and that is not a DataParallel; the children of a module are different objects *)
Fixpoint plain_dp (m : dmod) : Prop :=
  match m with
  | DMod _ b kids =>
      (b = true -> exists x, kids = [("module"%string, x)] /\ d_dp x = false) /\
      NoDup (map (fun nc => d_id (snd nc)) kids) /\
      (fix go (l : list (string * dmod)) : Prop := match l with [] => True | (_, c) :: l => plain_dp c /\ go l end) kids
  end.
