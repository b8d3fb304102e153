(** Model of the data loggers: distiller/data_loggers/logger.py (TensorBoardLogger, CsvLogger), tbbackend.py:35-97 and
    distiller/utils.py:489-557 (the functions handing data to a list of loggers), and of when the training loop calls them
    (apputils/image_classifier.py:535-539, 629-632; examples/ncf/ncf.py:407-419).

    Values are opaque.  The event file of a TensorBoard writer is the list of its records. *)
From Coq Require Import String Ascii List ZArith Bool Arith.
From Verif Require Import Base.
Import ListNotations.
Local Open Scope string_scope.
Open Scope list_scope.
Open Scope nat_scope.

Section Log.
Variable V : Type.

(** ---------------------------------------------------------------- TensorBoard *)
Record record := mkRec { writer : nat; tag : string; value : V; step : Z }.

(** logger.py:141-150: log_training_progress *)
Definition tb_training (prefix : string) (stats : list (string * V)) (epoch completed total : Z) : list record :=
  map (fun p => mkRec 0 (String.append prefix (fst p)) (snd p) (total * epoch + completed)%Z) stats.
(** str.replace('.', '/') *)
Fixpoint slashes (s : string) : string :=
  match s with EmptyString => EmptyString | String c s' => String (if Ascii.eqb c "." then "/"%char else c) (slashes s') end.
Definition contains (sub s : string) : bool := match index 0 sub s with Some _ => true | None => false end.
(** logger.py:184-193: log_weights_distribution (logged_params = ['weight'], log_gradients = False); summary: the histogram *)
Definition tb_weights (summary : V -> V) (params : list (string * V)) (steps_completed : Z) : list record :=
  map (fun p => mkRec 0 (slashes (fst p)) (summary (snd p)) steps_completed)
      (filter (fun p => contains "weight" (slashes (fst p))) params).

(** utils.py:489-515: what each of several loggers receives; params: an iterator (model.named_parameters()), which is empty
    after the first logger that goes through it (PythonLogger does not); None: no histograms *)
Inductive logger := TensorBoard | Other.
Fixpoint log_training_progress (summary : V -> V) (prefix : string) (stats : list (string * V)) (params : option (list (string * V)))
    (epoch completed total : Z) (loggers : list logger) : list (list record) :=
  match loggers with
  | [] => []
  | TensorBoard :: rest =>
      (tb_training prefix stats epoch completed total ++ match params with Some ps => tb_weights summary ps completed | None => [] end)
      :: log_training_progress summary prefix stats (match params with Some _ => Some [] | None => None end) epoch completed total rest
  | Other :: rest => [] :: log_training_progress summary prefix stats params epoch completed total rest
  end.

(** image_classifier.py:629-632: the steps of an epoch after which progress is logged *)
Definition logged_steps (total freq : nat) : list nat := filter (fun c => Nat.eqb (c mod freq) 0) (seq 1 total).
(** a training of [epochs] epochs from epoch e0 on: the file of its TensorBoard logger; stats e c and params e c: what is logged *)
Definition training_log (summary : V -> V) (prefix : string) (stats : nat -> nat -> list (string * V)) (params : nat -> nat -> option (list (string * V)))
    (e0 epochs total freq : nat) : list record :=
  flat_map (fun e => flat_map (fun c => hd [] (log_training_progress summary prefix (stats e c) (params e c) (Z.of_nat e) (Z.of_nat c) (Z.of_nat total) [TensorBoard; Other]))
                              (logged_steps total freq)) (seq e0 epochs).

(** tbbackend.py:43-60: list_summary (a writer is made when first needed) *)
Definition list_summary (t : string) (values : list V) (s : Z) (multi : bool) : list record :=
  map (fun p => mkRec (if multi then fst p else 0) t (snd p) s) (combine (seq 0 (length values)) values).

(** a module: its name, whether it has children, and its attributes and those of them in its state_dict, with their elements *)
Record modl := mkMod { mname : string; has_children : bool; attrs : dict (list V); state : dict (list V) }.

(** logger.py:195-226: log_model_buffers *)
Definition tb_module (names : list string) (tag_prefix : string) (s : Z) (m : modl) : list record :=
  if has_children m then []
  else
    let values := flat_map (fun n => match dget (state m) n with Some v => v | None => [] end) names in
    match values with
    | [] => []
    | _ => list_summary (String.append tag_prefix (String.append "/" (mname m))) values s (1 <? length values)
    end.
Definition tb_buffers (names : list string) (tag_prefix : string) (epoch completed total : Z) (ms : list modl) : list record :=
  flat_map (tb_module names tag_prefix (total * epoch + completed)%Z) ms.

(** ---------------------------------------------------------------- CSV *)
(** a line: a header, or the layer, epoch, step, total and values *)
Inductive line := Header | Row (layer : string) (epoch completed total : Z) (values : list V).
Definition files := dict (list line).
(** logger.py:235-239: get_fname (the directory is left out) *)
Definition fname (prefix postfix : string) : string :=
  let f := String.append postfix ".csv" in if String.eqb prefix "" then f else String.append prefix (String.append "_" f).

Definition append_line (fs : files) (f : string) (l : line) : files := dset fs f (match dget fs f with Some c => c ++ [l] | None => [l] end).
(** 269-279: open for appending; a header if there was no file *)
Definition csv_open (prefix : string) (fs : files) (name : string) : files :=
  let f := fname prefix name in
  match dget fs f with Some _ => fs | None => dset fs f [Header] end.
(** 281-295; the name: normalize_module_name(n) + '.' + buffer_name *)
Definition csv_row (prefix : string) (epoch completed total : Z) (m : modl) (fs : files) (name : string) : files :=
  match dget (attrs m) name with
  | None => fs
  | Some values => append_line fs (fname prefix name) (Row (String.append (mname m) (String.append "." name)) epoch completed total values)
  end.
Definition csv_buffers (prefix : string) (names : list string) (epoch completed total : Z) (ms : list modl) (fs : files) : files :=
  fold_left (fun fs m => fold_left (csv_row prefix epoch completed total m) names fs) ms (fold_left (csv_open prefix) names fs).
(** 241-259 (and the total, behind them): log_weights_sparsity: the file is written anew; rows: what the table consists of *)
Definition csv_sparsity (prefix : string) (rows : list line) (fs : files) : files := dset fs (fname prefix "weights_sparsity") (Header :: rows).
End Log.
Arguments mkRec {V}. Arguments writer {V}. Arguments tag {V}. Arguments value {V}. Arguments step {V}.
Arguments tb_training {V}. Arguments tb_weights {V}. Arguments log_training_progress {V}. Arguments training_log {V}. Arguments list_summary {V}.
Arguments mkMod {V}. Arguments mname {V}. Arguments has_children {V}. Arguments attrs {V}. Arguments state {V}. Arguments tb_module {V}. Arguments tb_buffers {V}.
Arguments Header {V}. Arguments Row {V}. Arguments append_line {V}. Arguments csv_open {V}. Arguments csv_row {V}. Arguments csv_buffers {V}. Arguments csv_sparsity {V}.
