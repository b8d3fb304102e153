(** Model of checkpoint files (distiller/apputils/checkpoint.py): what [save_checkpoint] writes, file by file and byte by byte,
    and everything [load_checkpoint] does with it.

    The scheduler part is that of CkptModel.  A crash leaves the directory as after some of the single writes (no reordering,
    as seen by the operating system); thinning, quantizers, creation of models and classes of optimizers are arbitrary
    functions (C23, C54, C78, C100). *)
From Coq Require Import String Ascii List ZArith QArith Bool Arith.
From Verif Require Import Base Lists Names SchedModel CkptModel.
Import ListNotations.
Local Open Scope string_scope.
Open Scope list_scope.

(** * The dictionary (checkpoint.py:67-89) *)
(** a parameter or buffer: shape and elements *)
Definition ptensor := (list nat * tensor)%type.
Section Ckpt.
(** a thinning recipe; the metadata of a quantizer; the class of an optimizer, its hyper-parameters (of one parameter group)
    and state; the extras *)
Variables R Qm Oc Hy Os X : Type.

Record opt := mkOpt { op_class : Oc; op_groups : list (Hy * nat); op_state : Os }.     (* per group the number of parameters *)
Record mdl := mkMdl {
  ml_params : dict ptensor; ml_bufs : dict ptensor;                                    (* parameters; buffers *)
  ml_arch : option string; ml_dataset : option string; ml_parallel : option bool;      (* attributes, if set *)
  ml_recipes : option (list R); ml_quant : option Qm }.
Record ckdata := mkCk {
  c_state : option (dict ptensor);
  c_epoch : option (option Z);                 (* key absent / None / number *)
  c_arch : option (option string);
  c_parallel : option bool; c_dataset : option string;
  c_opt : option opt;                          (* the keys optimizer_type and optimizer_state_dict *)
  c_sched : option (option (dict (option tensor)));   (* None: no key; Some None: a state without masks_dict *)
  c_thin : option (list R); c_quant : option Qm; c_extras : X }.

(** model.state_dict() (as a dictionary: the order of its entries is not observable here) *)
Definition model_state (m : mdl) : dict ptensor := ml_params m ++ ml_bufs m.
(** the extras argument: checkpoint.py:51-54 *)
Inductive xarg := XNone | XDict (x : X) | XOther.
Variable no_extras : X.

(** lines 62-86: the dictionary; [arch]: the argument (None or "" are falsy).  The three attributes are read in one try block,
    so the first one missing ends it. *)
Definition falsy (a : option string) : bool := match a with None => true | Some s => String.eqb s "" end.
Definition make_checkpoint (epoch : option Z) (arch : option string) (m : mdl) (o : option opt) (s : option (dict masker)) (x : X) : ckdata :=
  let par := ml_parallel m in
  let ds := match ml_parallel m with Some _ => ml_dataset m | None => None end in
  let ar := match ml_parallel m, ml_dataset m, ml_arch m with
            | Some _, Some _, Some a => if falsy arch then Some a else arch
            | _, _, _ => arch end in
  mkCk (Some (model_state m)) (Some epoch) (Some ar) par ds o (option_map (fun s => Some (state_dict s)) s) (ml_recipes m) (ml_quant m) x.

(** * Writing (lines 48-91) *)
Variable ser : ckdata -> list nat.             (* the bytes torch.save writes *)
Definition dirst := string -> option (list nat).
Definition put (d : dirst) (n : string) (b : list nat) : dirst := fun m => if String.eqb m n then Some b else d m.
Definition filename (name : option string) : string := match name with None => "checkpoint.pth.tar" | Some n => n ++ "_checkpoint.pth.tar" end.
Definition filename_best (name : option string) : string := match name with None => "best.pth.tar" | Some n => n ++ "_best.pth.tar" end.
(** opening a file for writing empties it; then it grows *)
Definition write_states (d : dirst) (n : string) (bs : list nat) : list dirst := map (fun k => put d n (firstn k bs)) (seq 0 (S (length bs))).

Record save_args := mkSave { s_epoch : option Z; s_arch : option string; s_model : mdl; s_opt : option opt; s_sched : option (dict masker);
  s_extras : xarg; s_best : bool; s_name : option string }.
Definition save_data (a : save_args) : res ckdata :=
  do x <- (match s_extras a with XNone => Ok no_extras | XDict x => Ok x | XOther => Raise TypeError end);
  Ok (make_checkpoint (s_epoch a) (s_arch a) (s_model a) (s_opt a) (s_sched a) x).
(** lines 88-91: torch.save and, for the best one, shutil.copyfile; all states of the directory on the way, the last one last.
    [dir]: the directory, None if it does not exist *)
Definition save_states (dir : option dirst) (a : save_args) : res (list dirst) :=
  match dir with
  | None => Raise OSError
  | Some d =>
      do c <- save_data a;
      let bs := ser c in
      let d1 := put d (filename (s_name a)) bs in
      Ok (d :: write_states d (filename (s_name a)) bs ++ (if s_best a then write_states d1 (filename_best (s_name a)) bs else []))
  end.
Definition save (d : dirst) (a : save_args) : res dirst := do l <- save_states (Some d) a; Ok (last l d).
Definition saves (d : dirst) (l : list save_args) : res dirst := foldM save l d.

(** * Reading (lines 94-248) *)
(** torch's load_state_dict: parameters present with the same shape are copied, whatever else is wrong *)
Definition same_shape (p q : ptensor) : bool := if list_eq_dec Nat.eq_dec (fst p) (fst q) then true else false.
Definition load_weights (params sd : dict ptensor) : dict ptensor :=
  map (fun np => (fst np, match dget sd (fst np) with Some x => if same_shape (snd np) x then x else snd np | None => snd np end)) params.
Definition missing (params sd : dict ptensor) : list string := filter (fun n => negb (dmem sd n)) (dkeys params).
Definition unexpected (params sd : dict ptensor) : list string := filter (fun n => negb (dmem params n)) (dkeys sd).
Definition mismatched (params sd : dict ptensor) : list string :=
  map fst (filter (fun np => match dget sd (fst np) with Some x => negb (same_shape (snd np) x) | None => false end) params).
Definition is_nil {A} (l : list A) : bool := match l with [] => true | _ => false end.
(** lines 216-229 *)
Definition load_state (params sd : dict ptensor) (strict : bool) : res unit :=
  if negb (is_nil (mismatched params sd)) || strict && negb (is_nil (missing params sd) && is_nil (unexpected params sd)) then Raise RuntimeError
  else if is_nil (missing params sd) then Ok tt else Raise ValueError.

(** thinning (on exceptions too the model may have changed), quantizers, conversion to PyTorch, constructors *)
Variable norm_recipe : R -> R.
Variable thin : list R -> mdl -> dict masker -> mdl * res (dict masker).
Variable prep : Qm -> mdl -> mdl * res unit.
Variable convert : Qm -> option (mdl -> res mdl).
Variable create : string -> option string -> bool -> res mdl.
Variable ctor : Oc -> nat -> res unit.

Definition plain (p : dict ptensor) : dict tensor := map (fun np => (fst np, snd (snd np))) p.
(** lines 150-172 [_load_optimizer]: [n]: the number of parameters; the class is called with all of them as one group *)
Definition load_optimizer (n : nat) (c : ckdata) : res (option opt) :=
  match c_opt c with
  | None => Ok None
  | Some o =>
      let r := do _ <- ctor (op_class o) n;
               match op_groups o with
               | [(_, k)] => if Nat.eqb k n then Ok (Some o) else Raise ValueError
               | _ => Raise ValueError
               end in
      match r with Raise KeyError => Ok None | _ => r end
  end.
(** lines 174-179: a KeyError, also one inside create_model, gives no model *)
Definition create_from (c : ckdata) : res (option mdl) :=
  match c_dataset c, c_arch c, c_parallel c with
  | Some d, Some a, Some p => match create d a p with Ok m => Ok (Some m) | Raise KeyError => Ok None | Raise e => Raise e end
  | _, _, _ => Ok None
  end.
(** lines 181-187 *)
Definition sanity_check (m : mdl) (c : ckdata) : res unit :=
  match ml_arch m, c_arch c with
  | Some a, Some a' => match a' with Some a' => if String.eqb a a' then Ok tt else Raise ValueError | None => Raise ValueError end
  | _, _ => Ok tt
  end.

Definition set_state (m : mdl) (sd : dict ptensor) : mdl := mkMdl (load_weights (ml_params m) sd) (load_weights (ml_bufs m) sd) (ml_arch m) (ml_dataset m) (ml_parallel m) (ml_recipes m) (ml_quant m).
Definition set_recipes (m : mdl) (r : list R) : mdl := mkMdl (ml_params m) (ml_bufs m) (ml_arch m) (ml_dataset m) (ml_parallel m) (Some r) (ml_quant m).
Definition loaded := (mdl * option (dict masker) * option opt * Z)%type.

(** lines 203-213: the scheduler and whether its keys were normalised *)
Definition load_sched (m : mdl) (c : ckdata) : res (option (dict masker) * bool) :=
  match c_sched c with
  | None => Ok (None, false)
  | Some st => match load_compression_scheduler (create_model_masks_dict (plain (ml_params m))) st with
               | (mk, None, nrm) => Ok (Some mk, nrm)
               | (_, Some e, _) => Raise e
               end
  end.
(** lines 134-148, 209-213 *)
Definition load_thinning (m : mdl) (c : ckdata) (mk : option (dict masker)) (nrm : bool) : mdl * res (option (dict masker)) :=
  match c_thin c with
  | None => (m, Ok mk)
  | Some rs =>
      let mk := match mk with Some mk => mk | None => create_model_masks_dict (plain (ml_params m)) end in
      let rs := if nrm then map norm_recipe rs else rs in
      let r := thin rs (set_recipes m rs) mk in
      (fst r, do k <- snd r; Ok (Some k))
  end.
(** lines 215-223: the model worked on afterwards (another one if converted) *)
Definition load_quant (m : mdl) (c : ckdata) : mdl * res mdl :=
  match c_quant c with
  | None => (m, Ok m)
  | Some q => let r := prep q m in
              (fst r, do _ <- snd r; match convert q with Some f => f (fst r) | None => Ok (fst r) end)
  end.
Definition converted (c : ckdata) : bool := match c_quant c with Some q => match convert q with Some _ => true | None => false end | None => false end.
(** lines 203-248 with a model: the model given afterwards, and the result *)
Definition load_into (m : mdl) (c : ckdata) (sd : dict ptensor) (lean strict : bool) : mdl * res loaded :=
  let start := match c_epoch c with Some (Some e) => (e + 1)%Z | _ => 0%Z end in
  match load_sched m c with
  | Raise e => (m, Raise e)
  | Ok (mk, nrm) =>
      let t := load_thinning m c mk nrm in
      match snd t with
      | Raise e => (fst t, Raise e)
      | Ok mk =>
          let q := load_quant (fst t) c in
          match snd q with
          | Raise e => (fst q, Raise e)
          | Ok w =>
              let sd := if nrm then rekey normalize_module_name sd else sd in
              let w' := set_state w sd in
              let given := if converted c then fst q else w' in
              (given,
               do _ <- load_state (model_state w) sd strict;
               if lean then Ok (w', None, None, 0%Z)
               else do o <- load_optimizer (length (ml_params w')) c;
                    do _ <- sanity_check w' c;
                    Ok (w', mk, o, start))
          end
      end
  end.
(** lines 189-201: [file]: the dictionary in the file, None if there is no such file; [dep]: an optimizer was given *)
Definition load (given : option mdl) (file : option ckdata) (dep lean strict : bool) : option mdl * res loaded :=
  match file with
  | None => (given, Raise OSError)
  | Some c =>
      if dep then (given, Raise AssertionError)
      else match c_state c with
           | None => (given, Raise ValueError)
           | Some sd =>
               match given with
               | Some m => let r := load_into m c sd lean strict in (Some (fst r), snd r)
               | None => (None, do m <- create_from c;
                                match m with None => Raise ValueError | Some m => snd (load_into m c sd lean strict) end)
               end
           end
  end.
End Ckpt.
Arguments mkOpt {Oc Hy Os}. Arguments op_class {Oc Hy Os}. Arguments op_groups {Oc Hy Os}. Arguments op_state {Oc Hy Os}.
Arguments mkMdl {R Qm}. Arguments ml_params {R Qm}. Arguments ml_bufs {R Qm}. Arguments ml_arch {R Qm}. Arguments ml_dataset {R Qm}. Arguments ml_parallel {R Qm}.
Arguments ml_recipes {R Qm}. Arguments ml_quant {R Qm}. Arguments model_state {R Qm}. Arguments set_state {R Qm}. Arguments set_recipes {R Qm}.
Arguments c_state {R Qm Oc Hy Os X}. Arguments c_epoch {R Qm Oc Hy Os X}. Arguments c_arch {R Qm Oc Hy Os X}. Arguments c_parallel {R Qm Oc Hy Os X}. Arguments c_dataset {R Qm Oc Hy Os X}.
Arguments c_opt {R Qm Oc Hy Os X}. Arguments c_sched {R Qm Oc Hy Os X}. Arguments c_thin {R Qm Oc Hy Os X}. Arguments c_quant {R Qm Oc Hy Os X}. Arguments c_extras {R Qm Oc Hy Os X}.
Arguments mkCk {R Qm Oc Hy Os X}. Arguments make_checkpoint {R Qm Oc Hy Os X}. Arguments mkSave {R Qm Oc Hy Os X}.
Arguments XNone {X}. Arguments XDict {X}. Arguments XOther {X}.
Arguments s_epoch {R Qm Oc Hy Os X}. Arguments s_arch {R Qm Oc Hy Os X}. Arguments s_model {R Qm Oc Hy Os X}. Arguments s_opt {R Qm Oc Hy Os X}. Arguments s_sched {R Qm Oc Hy Os X}.
Arguments s_extras {R Qm Oc Hy Os X}. Arguments s_best {R Qm Oc Hy Os X}. Arguments s_name {R Qm Oc Hy Os X}.
Arguments save_data {R Qm Oc Hy Os X}. Arguments save_states {R Qm Oc Hy Os X}. Arguments save {R Qm Oc Hy Os X}. Arguments saves {R Qm Oc Hy Os X}.
Arguments load {R Qm Oc Hy Os X}. Arguments load_into {R Qm Oc Hy Os X}. Arguments load_sched {R Qm Oc Hy Os X}. Arguments load_thinning {R Qm Oc Hy Os X}. Arguments load_quant {R Qm Oc Hy Os X}.
Arguments load_optimizer {R Qm Oc Hy Os X}. Arguments create_from {R Qm Oc Hy Os X}. Arguments sanity_check {R Qm Oc Hy Os X}. Arguments converted {R Qm Oc Hy Os X}.
