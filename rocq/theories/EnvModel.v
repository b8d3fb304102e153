(** Model of the environment of an experiment: configuration copies, log directories and "latest" links
    (distiller/apputils/execution_env.py), seeds, devices, lazy data loading and quantize-and-test of the image
    classifier application (distiller/apputils/image_classifier.py).

    Simplifications: POSIX paths as strings; the text written to the logs, the git / pip / CUDA details and the Python
    logging configuration are not modelled (only which file a run logs to, and that it is truncated); file-system
    errors other than the ones named below do not happen. *)
From Coq Require Import String Ascii List Arith Bool QArith.
From Verif Require Import Base.
Import ListNotations.
Open Scope list_scope.
Open Scope nat_scope.
Local Open Scope string_scope.
Open Scope list_scope.
Open Scope nat_scope.

(* ------------------------------------------------------------------------- *)
(** * Copies of the configuration files, execution_env.py:103-121 *)

Fixpoint has_slash (s : string) : bool :=
  match s with EmptyString => false | String c r => Ascii.eqb c "/" || has_slash r end.
(** os.path.basename: what follows the last slash *)
Fixpoint basename (s : string) : string :=
  match s with
  | EmptyString => EmptyString
  | String c r => if has_slash r then basename r else if Ascii.eqb c "/" then r else String c r
  end.

(** os.path.exists(os.path.join(configs_dest, name)) when configs_dest is an existing directory with the files
    [dest]: the names "", "." and ".." lead to the directory itself or to its parent *)
Definition exists_in (dest : dict string) (name : string) : bool :=
  existsb (String.eqb name) [""; "."; ".."] || dmem dest name.

(** one turn of the loop, lines 111-121; [src] gives the contents of the readable files (shutil.copy raises OSError on
    the others, which is caught) *)
Definition copy_config (src : string -> option string) (dest : dict string) (cpath : string) : dict string :=
  if exists_in dest (basename cpath) then dest
  else match src cpath with Some c => dset dest (basename cpath) c | None => dest end.

(** the argument config_paths: nothing, one path, or an iterable of paths *)
Inductive cpaths := NoPaths | OnePath (p : string) | ManyPaths (l : list string).

(** lines 103-121; [logdir] tells whether there is a log directory; [dest] are the files of its directory "configs"
    before, the result those after *)
Definition log_configs (src : string -> option string) (logdir : option string) (paths : cpaths) (dest : dict string) : dict string :=
  match logdir, paths with
  | None, _ | _, NoPaths => dest
  | Some _, OnePath p => fold_left (copy_config src) [p] dest
  | Some _, ManyPaths l => fold_left (copy_config src) l dest
  end.

(** image_classifier.py:330-332: filter(None, [args.compress, args.qe_stats_file]) *)
Definition config_args (compress qe_stats_file : option string) : cpaths :=
  ManyPaths (flat_map (fun o => match o with Some "" | None => [] | Some p => [p] end) [compress; qe_stats_file]).

(* ------------------------------------------------------------------------- *)
(** * Log directories, execution_env.py:124-146 *)

(** os.path.join of two components *)
Definition ends_slash (s : string) : bool := match get (String.length s - 1) s with Some c => Ascii.eqb c "/" | None => true end.
Definition path_join (a b : string) : string :=
  match b with
  | String "/" _ => b
  | _ => if ends_slash a then a ++ b else a ++ "/" ++ b
  end.
(** lines 133-134: [timestr] is time.strftime("%Y.%m.%d-%H%M%S"): 17 characters *)
Definition exp_full_name (experiment_name : option string) (timestr : string) : string :=
  match experiment_name with None => timestr | Some n => n ++ "___" ++ timestr end.
Definition logdir_of (output_dir : string) (name : option string) (timestr : string) : string :=
  path_join output_dir (exp_full_name name timestr).
Definition log_file_of (output_dir : string) (name : option string) (timestr : string) : string :=
  path_join (logdir_of output_dir name timestr) (exp_full_name name timestr ++ ".log").
(** the file handler of the logger is opened with mode 'w' (lines 182-187, and logging.conf): an existing log is
    emptied; then the run appends its text *)
Definition run_log (files : dict string) (output_dir : string) (name : option string) (timestr text : string) : dict string :=
  dset files (log_file_of output_dir name timestr) text.

(* ------------------------------------------------------------------------- *)
(** * The links to the latest log, execution_env.py:148-165, run by several processes *)

(** where a process is: about to unlink the file link, to unlink the directory link, to make the directory link, to make
    the file link; or past all of it *)
Inductive pc := UnlinkFile | UnlinkDir | LinkDir | LinkFile | Done.
(** the links (to the log of which process; a number that is no process: an earlier run) and the processes *)
Record lstate := mkL { l_dir : option nat; l_file : option nat; l_pcs : list pc }.
Fixpoint set_pc (l : list pc) (i : nat) (v : pc) : list pc :=
  match l, i with [], _ => [] | _ :: r, O => v :: r | a :: r, S i => a :: set_pc r i v end.
(** one action of process [i].  Unlinking a missing link is ignored (FileNotFoundError).  Making a link that exists
    raises OSError (FileExistsError): the rest of the try block is skipped. *)
Definition lstep (s : lstate) (i : nat) : lstate :=
  match nth i (l_pcs s) Done with
  | UnlinkFile => mkL (l_dir s) None (set_pc (l_pcs s) i UnlinkDir)
  | UnlinkDir => mkL None (l_file s) (set_pc (l_pcs s) i LinkDir)
  | LinkDir => match l_dir s with
               | None => mkL (Some i) (l_file s) (set_pc (l_pcs s) i LinkFile)
               | Some _ => mkL (l_dir s) (l_file s) (set_pc (l_pcs s) i Done)
               end
  | LinkFile => match l_file s with
                | None => mkL (l_dir s) (Some i) (set_pc (l_pcs s) i Done)
                | Some _ => mkL (l_dir s) (l_file s) (set_pc (l_pcs s) i Done)
                end
  | Done => s
  end.
(** a schedule: which process moves next *)
Definition lrun (sched : list nat) (s : lstate) : lstate := fold_left lstep sched s.
Definition lstart (dir file : option nat) (n : nat) : lstate := mkL dir file (repeat UnlinkFile n).

(** lines 136-137: if not os.path.exists(logdir): os.makedirs(logdir), run by several processes for one directory:
    makedirs raises FileExistsError when the directory is there *)
Inductive mpc := Check | Make | Ready | Failed.
Definition mstep (s : bool * list mpc) (i : nat) : bool * list mpc :=
  let (ex, l) := s in
  let put v := (fix go (l : list mpc) (i : nat) := match l, i with [], _ => [] | _ :: r, O => v :: r | a :: r, S i => a :: go r i end) l i in
  match nth i l Ready with
  | Check => (ex, put (if ex then Ready else Make))
  | Make => if ex then (ex, put Failed) else (true, put Ready)
  | Ready | Failed => s
  end.

(* ------------------------------------------------------------------------- *)
(** * Seeds and devices, image_classifier.py:338-378 *)

Record seed_args := mkSA { sa_evaluate : bool; sa_deterministic : bool; sa_seed : option nat }.
(** _config_determinism: the final arguments; [rnd] is np.random.randint(1, 100000) *)
Definition config_determinism (rnd : nat) (a : seed_args) : seed_args :=
  let det := sa_evaluate a || sa_deterministic a in
  mkSA (sa_evaluate a) det (Some (match sa_seed a with Some s => s | None => if det then 0 else rnd end)).

(** args.gpus before: the comma-separated items, each an integer or not; after: -1, nothing or the integers *)
Inductive gpus := GpuCpu | GpuAll | GpuIds (l : list Z).
Fixpoint all_ints (l : list (option Z)) : option (list Z) :=
  match l with
  | [] => Some []
  | None :: _ => None
  | Some z :: l => match all_ints l with Some r => Some (z :: r) | None => None end
  end.
(** _config_compute_device *)
Definition config_compute_device (cpu cuda : bool) (available : nat) (items : option (list (option Z))) : res gpus :=
  if cpu || negb cuda then Ok GpuCpu
  else match items with
       | None => Ok GpuAll
       | Some l => match all_ints l with
                   | None => Raise ValueError
                   | Some ids => if existsb (fun d => Z.leb (Z.of_nat available) d) ids then Raise ValueError else Ok (GpuIds ids)
                   end
       end.

(* ------------------------------------------------------------------------- *)
(** * Lazy loading of the data, image_classifier.py:77-81 *)

(** a data loader: nothing, or its number of mini-batches; bool(loader) is len(loader) <> 0 *)
Definition loader := option nat.
Definition truthy (l : loader) : bool := match l with Some (S _) => true | _ => false end.
Definition loaders := (loader * loader * loader)%type.
Definition no_loaders : loaders := (None, None, None).
(** load_datasets: the loaders after, and whether the data was loaded; [fresh] is what load_data returns *)
Definition load_datasets (fresh : loaders) (s : loaders) : loaders * bool :=
  let '(a, b, c) := s in
  if negb (truthy a && truthy b && truthy c) then (fresh, true) else (s, false).
(** how often [n] calls load the data *)
Fixpoint loads (fresh : nat -> loaders) (n : nat) (s : loaders) : nat :=
  match n with
  | O => O
  | S n => let (s', l) := load_datasets (fresh O) s in (if l then 1 else 0) + loads (fun k => fresh (S k)) n s'
  end.

(* ------------------------------------------------------------------------- *)
(** * Quantize and test, image_classifier.py:902-948 *)

Section Quantize.
Context {Model Stats Config : Type}.
(** args.qe_stats_file: not given (or empty), a file, or the dictionary a collection returned *)
Record qargs := mkQA { qa_dynamic : bool; qa_stats : option Stats; qa_config : option Config; qa_calibration : option Q }.
(** acts_quant_stats_collection, image_classifier.py:951-967, on a share of the test data *)
Variable collect : Model -> Q -> Stats.
(** the outcome: the arguments after, and what the clone of the model is quantized with *)
Record qcallr := mkQR { qr_args : qargs; qr_dynamic : bool; qr_stats : option Stats; qr_config : option Config; qr_model : Model }.

(** quantize_and_test_model, lines 902-948: [ptq] tells whether the model carries the metadata of a post-training
    quantizer.  The application object keeps [args] from call to call. *)
Definition quantize_and_test (args : qargs) (m : Model) (ptq : bool) : res qcallr :=
  if ptq then Raise RuntimeError else
  let given := qa_dynamic args || (match qa_stats args with Some _ => true | None => false end)
                               || (match qa_config args with Some _ => true | None => false end) in
  let args' :=
    if given then args
    else mkQA (qa_dynamic args)
              (Some (collect m (match qa_calibration args with Some c => c | None => (5 # 100)%Q end)))
              (qa_config args) (qa_calibration args) in
  Ok (mkQR args' (qa_dynamic args') (qa_stats args') (qa_config args') m).

End Quantize.
Arguments qargs : clear implicits.
Arguments qcallr : clear implicits.
