(** torch.nn.LSTM, as documented, for one sample of the batch at a time. *)
From Coq Require Import String List QArith Bool Arith.
From Verif Require Import Base RnnModel.
Import ListNotations.
Open Scope Q_scope.

(** row [k] of W x + b *)
Definition affine (w : mat) (b : option vec) (x : vec) (k : nat) : Q :=
  match b with Some b => dotp (nth k w []) x + nth k b 0 | None => dotp (nth k w []) x end.

(** the parameters of one direction of one layer *)
Record lpar := mkLp { w_ih : mat; b_ih : option vec; w_hh : mat; b_hh : option vec }.

Section Torch.
  Variables (sigma tanh : Q -> Q) (H : nat).

  (** row [k] of (W_ih x + b_ih) + (W_hh h + b_hh); the rows are those of i, f, g, o, [H] of each *)
  Definition pre (p : lpar) (x h : vec) (k : nat) : Q := affine (w_ih p) (b_ih p) x k + affine (w_hh p) (b_hh p) h k.
  Definition next_c (p : lpar) (x h c : vec) : vec :=
    map (fun j => sigma (pre p x h (1 * H + j)) * nth j c 0 + sigma (pre p x h j) * tanh (pre p x h (2 * H + j))) (seq 0 H).
  Definition next_h (p : lpar) (x h c : vec) : vec :=
    map (fun j => sigma (pre p x h (3 * H + j)) * tanh (nth j (next_c p x h c) 0)) (seq 0 H).

  (** one direction of one layer over a sequence: the outputs and the last state *)
  Fixpoint t_layer (p : lpar) (xs : list vec) (h c : vec) : list vec * (vec * vec) :=
    match xs with
    | [] => ([], (h, c))
    | x :: xs => let h' := next_h p x h c in
                 let r := t_layer p xs h' (next_c p x h c) in (h' :: fst r, snd r)
    end.
  (** backwards in time *)
  Definition t_layer_rev (p : lpar) (xs : list vec) (h c : vec) : list vec * (vec * vec) :=
    let r := t_layer p (rev xs) h c in (rev (fst r), snd r).

  (** a stack of layers, [drop i] between layer [i] and the next one (on the outputs only) *)
  Fixpoint t_stack (drop : nat -> list vec -> list vec) (i : nat) (ps : list lpar) (hs cs : list vec) (xs : list vec)
    : list vec * (list vec * list vec) :=
    match ps, hs, cs with
    | p :: ps', h :: hs, c :: cs =>
        let r := t_layer p xs h c in
        let ys := match ps' with [] => fst r | _ => drop i (fst r) end in
        let r' := t_stack drop (S i) ps' hs cs ys in
        (fst r', (fst (snd r) :: fst (snd r'), snd (snd r) :: snd (snd r')))
    | _, _, _ => (xs, ([], []))
    end.
  (** bidirectional: the states are ordered layer by layer, forward before backward *)
  Fixpoint t_bistack (drop : nat -> list vec -> list vec) (i : nat) (ps psr : list lpar) (hs cs : list vec) (xs : list vec)
    : list vec * (list vec * list vec) :=
    match ps, psr, hs, cs with
    | p :: ps', q :: psr', h :: hr :: hs, c :: cr :: cs =>
        let r := t_layer p xs h c in
        let s := t_layer_rev q xs hr cr in
        let ys := map2 (fun u v : vec => (u ++ v)%list) (fst r) (fst s) in
        let ys' := match ps' with [] => ys | _ => drop i ys end in
        let r' := t_bistack drop (S i) ps' psr' hs cs ys' in
        (fst r', (fst (snd r) :: fst (snd s) :: fst (snd r'), snd (snd r) :: snd (snd s) :: snd (snd r')))
    | _, _, _, _ => (xs, ([], []))
    end.
End Torch.

(** the parameters of the layers of an nn.LSTM object *)
Definition the_bias (o : option mat) : option vec := match o with Some (b :: _) => Some b | _ => None end.
Definition the_mat (o : option mat) : mat := match o with Some m => m | None => [] end.
Definition torch_layer (t : tlstm) (r : bool) (i : nat) : lpar :=
  mkLp (the_mat (t_params t (true, GI, i, r))) (the_bias (t_params t (false, GI, i, r)))
       (the_mat (t_params t (true, GH, i, r))) (the_bias (t_params t (false, GH, i, r))).
Definition torch_layers (t : tlstm) (r : bool) : list lpar := map (torch_layer t r) (seq 0 (t_layers t)).
(** what nn.LSTM computes for one sample *)
Definition torch_lstm (sigma tanh : Q -> Q) (drop : nat -> list vec -> list vec) (t : tlstm) (hs cs xs : list vec) : list vec * (list vec * list vec) :=
  if t_bidir t then t_bistack sigma tanh (t_hid t) drop 0 (torch_layers t false) (torch_layers t true) hs cs xs
  else t_stack sigma tanh (t_hid t) drop 0 (torch_layers t false) hs cs xs.

(** no dropout: evaluation mode, or dropout = 0 *)
Definition no_drop : nat -> list vec -> list vec := fun _ x => x.

(** a well-formed nn.LSTM: every parameter is there with the right number of rows, and no others *)
Definition valid_torch (t : tlstm) : Prop :=
  (1 <= t_layers t)%nat /\
  (forall g i r, (i < t_layers t)%nat -> (r = true -> t_bidir t = true) ->
     exists w, t_params t (true, g, i, r) = Some w /\ length w = (4 * t_hid t)%nat) /\
  (forall g i r, (i < t_layers t)%nat -> (r = true -> t_bidir t = true) ->
     if t_bias t then exists b, t_params t (false, g, i, r) = Some [b] /\ length b = (4 * t_hid t)%nat
     else t_params t (false, g, i, r) = None) /\
  (forall w g i r, (t_layers t <= i)%nat \/ (r = true /\ t_bidir t = false) -> t_params t (w, g, i, r) = None).

(** dropout acts on each row of each output: [dr t i k] on the row of sample [k] at time [t] after layer [i] *)
Definition mapi {A B} (f : nat -> A -> B) (l : list A) : list B := map (fun p => f (fst p) (snd p)) (combine (seq 0 (length l)) l).
Definition drop_batch (dr : nat -> nat -> nat -> vec -> vec) (t i : nat) (b : batch) : batch := mapi (dr t i) b.
Definition drop_sample (dr : nat -> nat -> nat -> vec -> vec) (k i : nat) (ys : list vec) : list vec := mapi (fun t v => dr t i k v) ys.

(** sample [i] of a sequence of batches *)
Definition sample (i : nat) (x : list batch) : list vec := map (fun b => nth i b []) x.
(** the states have one batch per layer and direction, of [B] rows of [H] values each *)
Definition rect (B H : nat) (b : batch) : Prop := length b = B /\ Forall (fun r => length r = H) b.
Definition states_ok (n B H : nat) (hs : list batch) : Prop := length hs = n /\ Forall (rect B H) hs.
Definition n_states (t : tlstm) : nat := if t_bidir t then (2 * t_layers t)%nat else t_layers t.

(** replacing every torch LSTM and LSTM cell, wherever it is *)
Inductive replaced (fresh : nat -> nat -> bool -> cell) : tmod -> tmod -> Prop :=
| RpCell i c : replaced fresh (TCell i c) (DCell c)
| RpLstm i t d : from_pytorch fresh t = Ok d -> replaced fresh (TLstm i t) (DLstm d)
| RpDLstm d : replaced fresh (DLstm d) (DLstm d)
| RpDCell c : replaced fresh (DCell c) (DCell c)
| RpOther i kids kids' : Forall2 (fun a b => fst a = fst b /\ replaced fresh (snd a) (snd b)) kids kids' -> replaced fresh (Other i kids) (Other i kids').
(** the module is, or contains, a torch LSTM *)
Inductive has_torch : tmod -> Prop :=
| HtL i t : has_torch (TLstm i t)
| HtC i c : has_torch (TCell i c)
| HtO i kids n m : In (n, m) kids -> has_torch m -> has_torch (Other i kids).
(** no module object is registered under two names of one parent *)
Inductive unshared : tmod -> Prop :=
| UnL i t : unshared (TLstm i t)
| UnC i c : unshared (TCell i c)
| UnDL d : unshared (DLstm d)
| UnDC c : unshared (DCell c)
| UnO i kids : NoDup (flat_map (fun k => match tm_id (snd k) with Some i => [i] | None => [] end) kids) ->
    Forall (fun k => unshared (snd k)) kids -> unshared (Other i kids).
(** every torch LSTM in it is well-formed *)
Inductive all_valid : tmod -> Prop :=
| AvL i t : valid_torch t -> all_valid (TLstm i t)
| AvC i c : all_valid (TCell i c)
| AvDL d : all_valid (DLstm d)
| AvDC c : all_valid (DCell c)
| AvO i kids : Forall (fun k => all_valid (snd k)) kids -> all_valid (Other i kids).

(** a well-formed DistillerLSTM *)
Definition lin_valid (n : nat) (bias : bool) (l : linear) : Prop :=
  length (l_w l) = n /\ if bias then exists b, l_b l = Some b /\ length b = n else l_b l = None.
Definition cells_valid (layers inp hid scale : nat) (bias : bool) (cs : list cell) : Prop :=
  length cs = layers /\ forall i c, nth_error cs i = Some c ->
    c_in c = (match i with O => inp | _ => scale * hid end)%nat /\ c_hid c = hid /\ lin_valid (4 * hid) bias (fc_x c) /\ lin_valid (4 * hid) bias (fc_h c).
Definition valid_dlstm (d : dlstm) : Prop :=
  (1 <= d_layers d)%nat /\
  cells_valid (d_layers d) (d_in d) (d_hid d) (if d_bidir d then 2 else 1) (d_bias d) (d_cells d) /\
  if d_bidir d then cells_valid (d_layers d) (d_in d) (d_hid d) 2 (d_bias d) (d_cells_rev d) else d_cells_rev d = [].
(** the random initialisation of a new nn.LSTM only has the parameters of its configuration *)
Definition freshp_ok (freshp : pkey -> option mat) (layers : nat) (bias bidir : bool) : Prop :=
  forall w g i r, (layers <= i)%nat \/ (r = true /\ bidir = false) \/ (w = false /\ bias = false) -> freshp (w, g, i, r) = None.
