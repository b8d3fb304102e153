(** Model of distiller/modules/rnn.py: DistillerLSTMCell, DistillerLSTM, the conversions from and to
    torch.nn.LSTM, convert_model_to_distiller_lstm.

    Simplifications: exact rationals; the sigmoid and tanh are arbitrary functions; a batch is the list of
    its rows; widths that do not fit (torch raises) are cut by [map2], the theorems assume widths that
    fit; numbers of rows that do not fit raise, as in torch. *)
From Coq Require Import String List QArith Bool Arith.
From Verif Require Import Base.
Import ListNotations.
Open Scope Q_scope.

Notation vec := (list Q) (only parsing).
Notation mat := (list vec) (only parsing).
(* a batch: one row per sample *)
Notation batch := (list vec) (only parsing).

Fixpoint dotp (a b : vec) : Q := match a, b with x :: a, y :: b => x * y + dotp a b | _, _ => 0 end.
(** nn.Linear: weight (one row per output), optional bias *)
Record linear := mkLin { l_w : mat; l_b : option vec }.
Definition lin_fwd (l : linear) (x : vec) : vec :=
  let y := map (fun w => dotp w x) (l_w l) in
  match l_b l with Some b => map2 Qplus y b | None => y end.

(** element-wise operation on two batches; one row is broadcast *)
Definition bop (f : Q -> Q -> Q) (a b : batch) : res batch :=
  if Nat.eqb (length a) (length b) then Ok (map2 (map2 f) a b)
  else match a, b with
       | [r], _ => Ok (map (map2 f r) b)
       | _, [r] => Ok (map (fun x => map2 f x r) a)
       | _, _ => Raise RuntimeError
       end.
(** torch.chunk(t, 4, dim=1)[k] *)
Definition chunk4 (k : nat) (r : vec) : vec := let sz := ((length r + 3) / 4)%nat in firstn sz (skipn (k * sz) r).

(** DistillerLSTMCell, rnn.py:34-64 *)
Record cell := mkCell { c_in : nat; c_hid : nat; fc_x : linear; fc_h : linear }.

Definition zeros (n : nat) : vec := repeat 0 n.

Section Run.
  Variables (sigma tanh : Q -> Q).

  (** DistillerLSTMCell.forward, rnn.py:66-83.  Without a state, the number of rows of the new state is x.size(1): the
      number of columns of the (rows x columns) input. *)
  Definition cell_forward (c : cell) (x : batch) (h : option (batch * batch)) : res (batch * batch) :=
    let (h_prev, c_prev) := match h with
      | Some s => s
      | None => let bsz := match x with r :: _ => length r | [] => c_in c end in
                (repeat (zeros (c_hid c)) bsz, repeat (zeros (c_hid c)) bsz) end in
    do gate <- bop Qplus (map (lin_fwd (fc_x c)) x) (map (lin_fwd (fc_h c)) h_prev);
    let i := map (fun r => map sigma (chunk4 0 r)) gate in
    let f := map (fun r => map sigma (chunk4 1 r)) gate in
    let g := map (fun r => map tanh (chunk4 2 r)) gate in
    let o := map (fun r => map sigma (chunk4 3 r)) gate in
    do cf <- bop Qmult f c_prev;
    do ci <- bop Qmult i g;
    do c' <- bop Qplus cf ci;
    do h' <- bop Qmult o (map (map tanh) c');
    Ok (h', c').

  (** the dropout module: an arbitrary function of the time step and the layer *)
  Variable drop : nat -> nat -> batch -> batch.

  (** _layer_chain_unidirectional, rnn.py:332-349, at time [t] from layer [i]; the state of a layer is the
      pair (out, hid) where out has been through the dropout *)
  Fixpoint layer_chain (t i : nat) (cells : list cell) (hs cs : list batch) (out : batch)
    : res (batch * list batch * list batch) :=
    match cells with
    | [] => Ok (out, [], [])
    | c :: cells' =>
        match hs, cs with
        | h :: hs', c0 :: cs' =>
            do r <- cell_forward c out (Some (h, c0));
            let out' := match cells' with [] => fst r | _ => drop t i (fst r) end in
            do r' <- layer_chain t (S i) cells' hs' cs' out';
            Ok (fst (fst r'), out' :: snd (fst r'), snd r :: snd r')
        | _, _ => Raise IndexError
        end
    end.
  (** process_layer_wise, rnn.py:282-287; torch.stack of no tensors raises *)
  Fixpoint steps (t : nat) (cells : list cell) (hs cs : list batch) (x : list batch) : res (list batch * list batch * list batch) :=
    match x with
    | [] => Ok ([], hs, cs)
    | step :: x =>
        do r <- layer_chain t 0 cells hs cs step;
        do r' <- steps (S t) cells (snd (fst r)) (snd r) x;
        Ok (fst (fst r) :: fst (fst r'), snd (fst r'), snd r')
    end.
  Definition process_layer_wise (cells : list cell) (hs cs : list batch) (x : list batch) : res (list batch * (list batch * list batch)) :=
    match x with
    | [] => Raise RuntimeError
    | _ => do r <- steps 0 cells hs cs x; Ok (fst (fst r), (snd (fst r), snd r))
    end.

  (** process_sequence_wise, rnn.py:121-137 *)
  Fixpoint seq_steps (c : cell) (h c0 : batch) (x : list batch) : res (list batch * batch * batch) :=
    match x with
    | [] => Ok ([], h, c0)
    | step :: x =>
        do r <- cell_forward c step (Some (h, c0));
        do r' <- seq_steps c (fst r) (snd r) x;
        Ok (fst r :: fst (fst r'), snd (fst r'), snd r')
    end.
  Definition process_sequence_wise (c : cell) (x : list batch) (h c0 : batch) : res (list batch * batch * batch) :=
    match x with [] => Raise RuntimeError | _ => seq_steps c h c0 x end.

  (** h[::2], h[1::2] *)
  Fixpoint evens {A} (l : list A) : list A := match l with x :: _ :: l => x :: evens l | [x] => [x] | [] => [] end.
  Definition odds {A} (l : list A) : list A := evens (tl l).

  (** dropout of a whole sequence after layer [i] *)
  Definition drop_seq (i : nat) (x : list batch) : list batch := map (fun tb => drop (fst tb) i (snd tb)) (combine (seq 0 (length x)) x).
  (** torch.cat([front, back], dim=-1) *)
  Definition cat_last (a b : list batch) : list batch := map2 (map2 (fun u v : vec => (u ++ v)%list)) a b.

  (** _bidirectional_type2_forward, rnn.py:289-310 *)
  Fixpoint bidi (i : nat) (cells cellsr : list cell) (hf cf hb cb : list batch) (out : list batch)
    : res (list batch * list batch * list batch) :=
    match cells, cellsr with
    | c :: cells', cr :: cellsr' =>
        match hf, cf, hb, cb with
        | h :: hf, c0 :: cf, h' :: hb, c0' :: cb =>
            do fr <- process_sequence_wise c out h c0;
            do bk <- process_sequence_wise cr (rev out) h' c0';
            let y := cat_last (fst (fst fr)) (rev (fst (fst bk))) in
            let out' := match cells' with [] => y | _ => drop_seq i y end in
            do r <- bidi (S i) cells' cellsr' hf cf hb cb out';
            Ok (fst (fst r), snd (fst fr) :: snd (fst bk) :: snd (fst r), snd fr :: snd bk :: snd r)
        | _, _, _, _ => Raise IndexError
        end
    | _, _ => Ok (out, [], [])
    end.
  Definition bidirectional_forward (cells cellsr : list cell) (hs cs : list batch) (x : list batch) : res (list batch * (list batch * list batch)) :=
    do r <- bidi 0 cells cellsr (evens hs) (evens cs) (odds hs) (odds cs) x; Ok (fst (fst r), (snd (fst r), snd r)).

  (** DistillerLSTM, rnn.py:170-232 *)
  Record dlstm := mkD { d_in : nat; d_hid : nat; d_layers : nat; d_bias : bool; d_batch_first : bool; d_dropout : Q;
                        d_bidir : bool; d_cells : list cell; d_cells_rev : list cell }.
  Definition forward_fn (m : dlstm) (x : list batch) (h : list batch * list batch) : res (list batch * (list batch * list batch)) :=
    if d_bidir m then bidirectional_forward (d_cells m) (d_cells_rev m) (fst h) (snd h) x
    else process_layer_wise (d_cells m) (fst h) (snd h) x.
  (** init_hidden, rnn.py:351-355 *)
  Definition init_hidden (m : dlstm) (bsz : nat) : list batch * list batch :=
    let n := if d_bidir m then (2 * d_layers m)%nat else d_layers m in
    (repeat (repeat (zeros (d_hid m)) bsz) n, repeat (repeat (zeros (d_hid m)) bsz) n).
  (** x.transpose(0, 1) of a tensor of [n] columns *)
  Definition transpose (n : nat) (x : list (list vec)) : list (list vec) := map (fun i => map (fun s => nth i s []) x) (seq 0 n).
  Definition width (x : list (list vec)) : nat := match x with s :: _ => length s | [] => 0 end.
  (** forward of a tensor, rnn.py:234-252 *)
  Definition forward (m : dlstm) (x : list (list vec)) (h : option (list batch * list batch)) : res (list (list vec) * (list batch * list batch)) :=
    let x := if d_batch_first m then transpose (width x) x else x in
    let h := match h with Some h => h | None => init_hidden m (width x) end in
    do r <- forward_fn m x h;
    Ok ((if d_batch_first m then transpose (width (fst r)) (fst r) else fst r), snd r).

  (** packed_sequence_forward, rnn.py:254-280.  A packed sequence is the list of its sequences in the order of the batch
      (pad_packed_sequence returns that order); pack_sequence raises unless the lengths are positive and do not
      increase. *)
  Definition pick (i : nat) (h : list batch) : list batch := map (fun b => [nth i b []]) h.
  Fixpoint packable (lens : list nat) : bool :=
    match lens with
    | [] => true
    | n :: r => Nat.ltb 0 n && (match r with m :: _ => Nat.leb m n | [] => true end) && packable r
    end.
  Definition pack_sequence (l : list (list vec)) : res (list (list vec)) :=
    match l with [] => Raise RuntimeError | _ => if packable (map (@length vec) l) then Ok l else Raise RuntimeError end.
  Fixpoint packed_rows (m : dlstm) (h : list batch * list batch) (i : nat) (seqs : list (list vec))
    : res (list (list vec * (list batch * list batch))) :=
    match seqs with
    | [] => Ok []
    | s :: seqs =>
        do r <- forward_fn m (map (fun v => [v]) s) (pick i (fst h), pick i (snd h));
        do r' <- packed_rows m h (S i) seqs;
        Ok ((map (fun b => nth 0 b []) (fst r), snd r) :: r')
    end.
  (** torch.cat([...], dim=1) of the states: for each layer, the rows one after the other *)
  Definition cat_states (n : nat) (l : list (list batch)) : list batch := map (fun k => flat_map (fun hs => nth k hs []) l) (seq 0 n).
  Definition packed_forward (m : dlstm) (seqs : list (list vec)) (h : option (list batch * list batch))
    : res (list (list vec) * (list batch * list batch)) :=
    let h := match h with Some h => h | None => init_hidden m (length seqs) end in
    do rs <- packed_rows m h 0 seqs;
    do y <- pack_sequence (map fst rs);
    let n := match rs with r :: _ => length (fst (snd r)) | [] => 0%nat end in
    Ok (y, (cat_states n (map (fun r => fst (snd r)) rs), cat_states n (map (fun r => snd (snd r)) rs))).
End Run.

(* ------------------------------------------------------------------------- *)
(** * Conversion *)

(** parameters of torch.nn.LSTM: weight_ih_l0, bias_hh_l1_reverse, ... as (is it a weight, gate i or h, layer, reverse);
    a bias is a matrix of one row *)
Inductive pgate := GI | GH.
Definition pkey := (bool * pgate * nat * bool)%type.
Definition pgate_eqb a b := match a, b with GI, GI | GH, GH => true | _, _ => false end.
Definition pkey_eqb (a b : pkey) : bool :=
  match a, b with (w, g, n, r), (w', g', n', r') => Bool.eqb w w' && pgate_eqb g g' && Nat.eqb n n' && Bool.eqb r r' end.
Record tlstm := mkT { t_in : nat; t_hid : nat; t_layers : nat; t_bias : bool; t_batch_first : bool; t_dropout : Q; t_bidir : bool;
                      t_params : pkey -> option mat }.

(** the loops over layers and itertools.product(param_types, param_gates, suffixes), rnn.py:375-394 *)
Definition all_keys (layers : nat) (bias bidir : bool) : list pkey :=
  flat_map (fun i =>
    flat_map (fun w => flat_map (fun g => map (fun r => (w, g, i, r)) (if bidir then [false; true] else [false])) [GI; GH])
             (if bias then [true; false] else [true])) (seq 0 layers).

(** setattr(getattr(cell, gate_name), ptype, tensor) *)
Definition set_lin (l : linear) (w : bool) (t : mat) : linear :=
  if w then mkLin t (l_b l) else mkLin (l_w l) (Some (nth 0 t [])).
Definition set_cell (c : cell) (g : pgate) (w : bool) (t : mat) : cell :=
  match g with
  | GI => mkCell (c_in c) (c_hid c) (set_lin (fc_x c) w t) (fc_h c)
  | GH => mkCell (c_in c) (c_hid c) (fc_x c) (set_lin (fc_h c) w t)
  end.
Fixpoint upd {A} (l : list A) (n : nat) (f : A -> A) : res (list A) :=
  match l, n with
  | [], _ => Raise IndexError
  | x :: l, O => Ok (f x :: l)
  | x :: l, S n => do r <- upd l n f; Ok (x :: r)
  end.
(** getattr(getattr(cell, gate_name), ptype); a missing bias is None, and None.clone() raises AttributeError *)
Definition get_cell (c : cell) (g : pgate) (w : bool) : res mat :=
  let l := match g with GI => fc_x c | GH => fc_h c end in
  if w then Ok (l_w l) else match l_b l with Some b => Ok [b] | None => Raise AttributeError end.

(** _create_cells_list, rnn.py:211-216; [fresh] is the random initialisation of a cell *)
Definition new_cells (fresh : nat -> nat -> bool -> cell) (inp hid layers scale : nat) (bias : bool) : list cell :=
  fresh inp hid bias :: map (fun _ => fresh (scale * hid)%nat hid bias) (seq 1 (layers - 1)).
(** DistillerLSTM.__init__, rnn.py:184-216 (bidirectional_type = 2) *)
Definition new_dlstm (fresh : nat -> nat -> bool -> cell) (inp hid layers : nat) (bias bf : bool) (dropout : Q) (bidir : bool) : res dlstm :=
  if Nat.ltb layers 1 then Raise ValueError
  else Ok (mkD inp hid layers bias bf dropout bidir
             (new_cells fresh inp hid layers (if bidir then 2 else 1) bias)
             (if bidir then new_cells fresh inp hid layers 2 bias else [])).

(** DistillerLSTM.from_pytorch_impl, rnn.py:400-425 *)
Definition from_step (t : tlstm) (m : dlstm) (k : pkey) : res dlstm :=
  match k with
  | (w, g, i, r) =>
      match t_params t k with
      | None => Raise AttributeError
      | Some p =>
          if r then do cs <- upd (d_cells_rev m) i (fun c => set_cell c g w p);
                    Ok (mkD (d_in m) (d_hid m) (d_layers m) (d_bias m) (d_batch_first m) (d_dropout m) (d_bidir m) (d_cells m) cs)
          else do cs <- upd (d_cells m) i (fun c => set_cell c g w p);
               Ok (mkD (d_in m) (d_hid m) (d_layers m) (d_bias m) (d_batch_first m) (d_dropout m) (d_bidir m) cs (d_cells_rev m))
      end
  end.
Definition from_pytorch (fresh : nat -> nat -> bool -> cell) (t : tlstm) : res dlstm :=
  do m <- new_dlstm fresh (t_in t) (t_hid t) (t_layers t) (t_bias t) (t_batch_first t) (t_dropout t) (t_bidir t);
  foldM (from_step t) (all_keys (t_layers t) (t_bias t) (t_bidir t)) m.

(** DistillerLSTM.to_pytorch_impl, rnn.py:364-397; [freshp] are the initial parameters of the new nn.LSTM *)
Definition set_param (f : pkey -> option mat) (k : pkey) (t : mat) : pkey -> option mat := fun j => if pkey_eqb j k then Some t else f j.
Definition to_step (m : dlstm) (f : pkey -> option mat) (k : pkey) : res (pkey -> option mat) :=
  match k with
  | (w, g, i, r) =>
      match nth_error (if r then d_cells_rev m else d_cells m) i with
      | None => Raise IndexError
      | Some c => do p <- get_cell c g w; Ok (set_param f k p)
      end
  end.
Definition to_pytorch (freshp : pkey -> option mat) (m : dlstm) : res tlstm :=
  do f <- foldM (to_step m) (all_keys (d_layers m) (d_bias m) (d_bidir m)) freshp;
  Ok (mkT (d_in m) (d_hid m) (d_layers m) (d_bias m) (d_batch_first m) (d_dropout m) (d_bidir m) f).

(** module objects: an identity, and what they are *)
Inductive tmod :=
| TLstm (id : nat) (t : tlstm) | TCell (id : nat) (c : cell)   (* nn.LSTM, nn.LSTMCell *)
| DLstm (m : dlstm) | DCell (c : cell)                          (* the replacements *)
| Other (id : nat) (kids : list (string * tmod)).
Definition tm_id (m : tmod) : option nat := match m with TLstm i _ | TCell i _ | Other i _ => Some i | _ => None end.
Definition is_torch_lstm (m : tmod) : bool := match m with TLstm _ _ | TCell _ _ => true | _ => false end.
(** a child that named_children already yielded under another name *)
Definition seen_child (memo : list (option nat)) (m : tmod) : bool :=
  match tm_id m with None => false | Some i => existsb (fun o => match o with Some j => Nat.eqb i j | None => false end) memo end.

(** convert_model_to_distiller_lstm, rnn.py:437-451.  named_children() yields each child object once: a second name of
    the same object is not assigned; if the object is a container it was converted in place. *)
Section Convert.
  Variable fresh : nat -> nat -> bool -> cell.
  Fixpoint convert (m : tmod) : res tmod :=
    match m with
    | TCell _ c => Ok (DCell c)
    | TLstm _ t => do d <- from_pytorch fresh t; Ok (DLstm d)
    | DLstm d => Ok (DLstm d)
    | DCell c => Ok (DCell c)
    | Other i kids =>
        do ks <- (fix go (l : list (string * tmod)) (memo : list (option nat)) : res (list (string * tmod)) :=
          match l with
          | [] => Ok []
          | (n, c) :: l =>
              do c' <- (if seen_child memo c && is_torch_lstm c then Ok c else convert c);
              do r <- go l (tm_id c :: memo);
              Ok ((n, c') :: r)
          end) kids [];
        Ok (Other i ks)
    end.
End Convert.
