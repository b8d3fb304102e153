(** Model of distiller/data_loggers/collector.py: forward hooks, collection contexts, the streaming
    statistics of QuantCalibrationStatsCollector, WeightedAverageValueMeter, raw outputs.

    Simplifications: real numbers instead of floats (Coq.Reals, so that the square root is the real
    one); an activation tensor is the list of its samples, each the list of its values
    (act = tensor.view(tensor.size(0), -1)). *)
From Coq Require Import String List Reals Arith Bool.
From Verif Require Import Base.
Import ListNotations.
Open Scope R_scope.

Definition rsum (l : list R) : R := fold_right Rplus 0 l.

(* ------------------------------------------------------------------------- *)
(** * The statistics of one tensor, collector.py:393-405 and 517-598 *)

(** a batch: the samples *)
Definition batch := list (list R).

(** _QuantStatsRecord.create_records_dict; 'shape' is not modelled *)
Record rec := mkRec { r_min : R; r_max : R; r_avg_min : R; r_avg_max : R; r_mean : R; r_std : R; r_b : R; r_numel : nat }.
(** [big] is sys.float_info.max *)
Definition rec0 (big : R) : rec := mkRec big (- big) 0 0 0 0 0 0.

(** update_running_mean, collector.py:521-532 *)
Definition running_mean (values : list R) (prev : R) (n : nat) : R :=
  (INR n * prev + rsum values) / (INR n + INR (length values)).
(** update_std, collector.py:534-541 *)
Definition update_std (values : list R) (prev mean : R) (n : nat) : R :=
  sqrt (running_mean (map (fun x => (x - mean) ^ 2) values) (prev ^ 2) n).
(** update_b, collector.py:543-548 *)
Definition update_b (values : list R) (prev mean : R) (n : nat) : R :=
  running_mean (map (fun x => Rabs (x - mean)) values) prev n.

(** Tensor.min() / max() of a non-empty list; torch raises on an empty one *)
Fixpoint lmin (x : R) (l : list R) : R := match l with [] => x | y :: r => Rmin x (lmin y r) end.
Fixpoint lmax (x : R) (l : list R) : R := match l with [] => x | y :: r => Rmax x (lmax y r) end.
Definition min_of (l : list R) : R := match l with [] => 0 | x :: r => lmin x r end.
Definition max_of (l : list R) : R := match l with [] => 0 | x :: r => lmax x r end.

(** min_per_sample / max_per_sample, collector.py:571-574: one value per sample, or the one global
    value when every sample is a single value *)
Definition per_sample (f : list R -> R) (b : batch) : list R :=
  if Nat.eqb (length (concat b)) (length b) then [f (concat b)] else map f b.

(** update_record, collector.py:550-585; RuntimeError of torch on an empty tensor (min of no
    elements; view(0, -1) is refused too) *)
Definition update_record (second : bool) (r : rec) (b : batch) : res rec :=
  let act := concat b in
  if Nat.eqb (length act) 0 then Raise RuntimeError
  else if second then
    Ok (mkRec (r_min r) (r_max r) (r_avg_min r) (r_avg_max r) (r_mean r)
          (update_std act (r_std r) (r_mean r) (r_numel r)) (update_b act (r_b r) (r_mean r) (r_numel r))
          (r_numel r + length act))
  else
    let mins := per_sample min_of b in
    let maxs := per_sample max_of b in
    Ok (mkRec (Rmin (r_min r) (min_of mins)) (Rmax (r_max r) (max_of maxs))
          (running_mean mins (r_avg_min r) (r_numel r)) (running_mean maxs (r_avg_max r) (r_numel r))
          (running_mean act (r_mean r) (r_numel r)) (r_std r) (r_b r) (r_numel r + length act)).

(** _QuantStatsRecord of a module and one call of its forward: the inputs, the output, and whether an
    input tensor is the output tensor (id(input) == id(output); not a dropout module) *)
Record qrec := mkQrec { q_inputs : list rec; q_output : rec }.
Record qcall := mkCall { c_inputs : list batch; c_output : batch; c_inplace : bool }.
Definition qrec0 (big : R) : qrec := mkQrec [] (rec0 big).

(** zip of the records and the tensors: inputs[idx], IndexError when there are more tensors *)
Fixpoint update_all (second : bool) (rs : list rec) (bs : list batch) : res (list rec) :=
  match bs, rs with
  | [], _ => Ok rs
  | b :: bs, r :: rs => do r' <- update_record second r b; do rs' <- update_all second rs bs; Ok (r' :: rs')
  | _ :: _, [] => Raise IndexError
  end.

(** QuantCalibrationStatsCollector._activation_stats_cb, collector.py:587-606 *)
Definition quant_cb (big : R) (inplace_check second : bool) (q : qrec) (c : qcall) : res qrec :=
  if inplace_check && c_inplace c then Raise RuntimeError
  else
    let rs := match q_inputs q with [] => map (fun _ => rec0 big) (c_inputs c) | l => l end in
    do rs' <- update_all second rs (c_inputs c);
    do o <- update_record second (q_output q) (c_output c);
    Ok (mkQrec rs' o).
Definition zero_numel (r : rec) : rec :=
  mkRec (r_min r) (r_max r) (r_avg_min r) (r_avg_max r) (r_mean r) (r_std r) (r_b r) 0.
(** start_second_pass on one module's records, collector.py:505-512 *)
Definition quant_second (q : qrec) : qrec := mkQrec (map zero_numel (q_inputs q)) (zero_numel (q_output q)).

(* ------------------------------------------------------------------------- *)
(** * WeightedAverageValueMeter, collector.py:183-204 *)
Record meter := mkMeter { w_n : nat; w_sum : R; w_mean : R; w_mean_old : R; w_ms : R; w_std : option R (* None: infinity *) }.
Definition meter0 : meter := mkMeter 0 0 0 0 0 None.
(** add; the value is a number (a tensor of per-channel values is added element-wise) *)
Definition meter_add (m : meter) (v : R) (n : nat) : res meter :=
  if Nat.eqb n 0 then Raise ValueError
  else if Nat.eqb (w_n m) 0 then Ok (mkMeter (w_n m + n) (w_sum m + v * INR n) (0 + v) (0 + v) 0 None)
  else
    let mean := w_mean_old m + INR n * (v - w_mean_old m) / INR (w_n m + n) in
    let ms := w_ms m + INR n * (v - w_mean_old m) * (v - mean) in
    Ok (mkMeter (w_n m + n) (w_sum m + v * INR n) mean mean ms (Some (sqrt (ms / (INR (w_n m + n) - 1))))).

(** distiller.utils.sparsity, utils.py:166-197, in percent (the summary function of "sparsity_ofm",
    image_classifier.py:446) *)
Definition zeros (l : list R) : nat := length (filter (fun x => if Req_EM_T x 0 then true else false) l).
Definition sparsity_pct (l : list R) : R := 100 * (1 - INR (length l - zeros l) / INR (length l)).

(* ------------------------------------------------------------------------- *)
(** * Modules and hooks *)

(** a module object: identity, whether it is a post-training-quantization wrapper, whether its class is
    collected and it is not nn.Identity, and its children *)
Inductive cmod := CMod (id : nat) (wrapper eligible : bool) (kids : list (string * cmod)).
Definition cm_id (m : cmod) := match m with CMod i _ _ _ => i end.
Definition cm_kids (m : cmod) := match m with CMod _ _ _ k => k end.

Definition mem (x : nat) (l : list nat) : bool := existsb (Nat.eqb x) l.
(** Module.children(): each child object once *)
Fixpoint apply_order (m : cmod) : list cmod :=
  match m with
  | CMod i w e kids =>
      (fix go (l : list (string * cmod)) (memo : list nat) : list cmod :=
         match l with
         | [] => []
         | (_, c) :: l => if mem (cm_id c) memo then go l memo else (apply_order c ++ go l (cm_id c :: memo))%list
         end) kids [] ++ [m]
  end.
(** ids of the wrapped modules of the wrappers (_dont_collect_list, collector.py:96-97) *)
Fixpoint wrapped_ids (m : cmod) : list nat :=
  match m with
  | CMod i w e kids =>
      ((if w then map (fun nc => cm_id (snd nc)) (filter (fun nc => String.eqb (fst nc) "wrapped_module") kids) else [])
       ++ concat (map (fun nc => wrapped_ids (snd nc)) kids))%list
  end.
(** _should_collect, collector.py:161-180 *)
Definition should_collect (dont : list nat) (m : cmod) : bool :=
  match m with
  | CMod i w e kids => negb (mem i dont) && (match kids with [] => true | _ => w end) && e
  end.
(** dict(model.named_modules())[name] *)
Fixpoint find_module (m : cmod) (path : list string) {struct path} : option cmod :=
  match path with
  | [] => Some m
  | n :: path =>
      (fix go (l : list (string * cmod)) : option cmod :=
         match l with [] => None | (k, c) :: l => if String.eqb n k then find_module c path else go l end) (cm_kids m)
  end.

Section Collector.
  Context {Rc Call : Type}.
  (** the collector's callback, its fresh record, whether _start_counter leaves an existing record alone
      (Summary and Records collectors: collector.py:250-251, 381-382) or replaces it (607-610, 730-731,
      821-822), and what start_second_pass does to a record *)
  Variable init : Rc.
  Variable cb : bool -> Rc -> Call -> res Rc.
  Variable keeps : bool.
  Variable second : Rc -> Rc.
  Variable model : cmod.

  (** hooks registered by this collector (module ids, one entry per registration), the records attached to
      the modules, and collecting_second_pass *)
  Record cstate := mkC { k_hooks : list nat; k_recs : nat -> option Rc; k_second : bool }.
  Definition set_rec (f : nat -> option Rc) (i : nat) (v : option Rc) : nat -> option Rc :=
    fun j => if Nat.eqb i j then v else f j.
  Definition dont := wrapped_ids model.

  (** start_module with _start_counter, collector.py:119-126 *)
  Definition start_module (s : cstate) (m : cmod) : cstate :=
    if should_collect dont m then
      mkC (k_hooks s ++ [cm_id m])%list
        (match k_recs s (cm_id m) with
         | Some _ => if keeps then k_recs s else set_rec (k_recs s) (cm_id m) (Some init)
         | None => set_rec (k_recs s) (cm_id m) (Some init) end) (k_second s)
    else s.
  (** model.apply(self.start_module) *)
  Definition start_apply (m : cmod) (s : cstate) : cstate := fold_left start_module (apply_order m) s.
  (** reset: _reset_counter replaces existing records, collector.py:137-140 *)
  Definition reset (s : cstate) : cstate :=
    mkC (k_hooks s) (fold_left (fun f m => match f (cm_id m) with Some _ => set_rec f (cm_id m) (Some init) | None => f end)
                               (apply_order model) (k_recs s)) (k_second s).

  (** what can happen to a collector and its model.  [Fwd i c] is a call of the forward of module [i]. *)
  Inductive cop :=
  | Start (modules : list (list string)) | Stop | Reset | Fwd (i : nat) (c : Call) | StartSecond | StopSecond
  | Fail (e : exn).   (* an exception raised by the model or by the user's code *)

  (** the hooks of module [i] run once per registration *)
  Fixpoint run_hooks (n : nat) (i : nat) (c : Call) (s : cstate) : cstate * option exn :=
    match n with
    | O => (s, None)
    | S n =>
        match k_recs s i with
        | None => (s, Some AttributeError)
        | Some r => match cb (k_second s) r c with
                    | Ok r' => run_hooks n i c (mkC (k_hooks s) (set_rec (k_recs s) i (Some r')) (k_second s))
                    | Raise e => (s, Some e)
                    end
        end
    end.

  Definition collected : list cmod := filter (should_collect dont) (apply_order model).

  (** one operation: the state reached, and the exception if one was raised.
      start: collector.py:104-117; start_second_pass: 479-512 (it looks at every module of the model that
      could be collected, whether or not it was asked to collect it); stop: 128-135. *)
  Definition cstep (s : cstate) (o : cop) : cstate * option exn :=
    match o with
    | Start [] => match k_hooks s with [] => (start_apply model s, None) | _ => (s, Some AssertionError) end
    | Start names =>
        match k_hooks s with
        | [] => fold_left (fun se n => match se with
                                       | (s, Some e) => (s, Some e)
                                       | (s, None) => match find_module model n with
                                                      | None => (s, Some KeyError)
                                                      | Some m => (start_apply m s, None) end end) names (s, None)
        | _ => (s, Some AssertionError)
        end
    | Stop => (mkC [] (k_recs s) (k_second s), None)
    | Reset => (reset s, None)
    | Fwd i c => run_hooks (count_occ Nat.eq_dec (k_hooks s) i) i c s
    | StartSecond =>
        if forallb (fun m => match k_recs s (cm_id m) with Some _ => true | None => false end) collected
        then (mkC (k_hooks s) (fold_left (fun f m => set_rec f (cm_id m) (option_map second (f (cm_id m)))) collected (k_recs s)) true, None)
        else (s, Some RuntimeError)
    | StopSecond => (mkC (k_hooks s) (k_recs s) false, None)
    | Fail e => (s, Some e)
    end.
  Fixpoint crun (l : list cop) (s : cstate) : cstate * option exn :=
    match l with
    | [] => (s, None)
    | o :: l => match cstep s o with (s', None) => crun l s' | (s', Some e) => (s', Some e) end
    end.
  (** collector_context, collector.py:955-962: no try/finally around the yield *)
  Definition context (names : list (list string)) (body : list cop) (s : cstate) : cstate * option exn :=
    crun (Reset :: Start names :: body ++ [Stop]) s.

  (** value(): the modules that have a record, collector.py:99-102 *)
  Definition value (s : cstate) : list (nat * Rc) :=
    flat_map (fun i => match k_recs s i with Some r => [(i, r)] | None => [] end) (nodup Nat.eq_dec (map cm_id (apply_order model))).
End Collector.
Arguments cop : clear implicits.
Arguments cstate : clear implicits.

(** collect_quant_stats, collector.py:852-897: two passes of the user's test function *)
Definition quant_body (pass1 pass2 : list (cop qcall)) : list (cop qcall) :=
  (pass1 ++ [StartSecond] ++ pass2 ++ [StopSecond])%list.
Definition collect_quant_stats (big : R) (check : bool) (model : cmod) (names : list (list string)) (pass1 pass2 : list (cop qcall))
    (s : cstate qrec) : cstate qrec * option exn :=
  context (qrec0 big) (quant_cb big check) false quant_second model names (quant_body pass1 pass2) s.

(** RawActivationsCollector, collector.py:808-831: a list of outputs, which value() replaces by one stacked
    tensor (RuntimeError when their shapes differ); the callback appends to the list *)
Inductive raw := RawList (l : list (list nat * list R)) | RawTensor (sh : list nat) (l : list (list R)).
Definition raw_cb (_ : bool) (r : raw) (c : list nat * list R) : res raw :=
  match r with RawList l => Ok (RawList (l ++ [c])) | RawTensor _ _ => Raise AttributeError end.
Definition raw_value (r : raw) : res raw :=
  match r with
  | RawList ((sh, d) :: l) =>
      if forallb (fun x => if list_eq_dec Nat.eq_dec (fst x) sh then true else false) l
      then Ok (RawTensor sh (d :: map snd l)) else Raise RuntimeError
  | _ => Ok r
  end.
