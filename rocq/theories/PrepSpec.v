(** Specification for the preparation of post-training quantization (C87, C88). *)
From Coq Require Import String List ZArith QArith Qabs Bool Arith.
From Verif Require Import Base Names StructModel QuantModel RangeModel QzrModel PrepModel.
Import ListNotations.
Local Open Scope string_scope.
Open Scope list_scope.

(** * C87: statistics *)
(** batch normalization [b] was folded into layer [n] *)
Definition folded (mods : dict pmod) (n b : string) : Prop := exists m r, In (n, m) mods /\ pm_fused m = Some (b :: r).
(** names under which statistics are kept: layers and their batch normalizations are all different *)
Definition folds (mods : dict pmod) : list (string * string) :=
  flat_map (fun e : string * pmod => match pm_fused (snd e) with Some (b :: _) => [(normalize_module_name (fst e), normalize_module_name b)] | _ => [] end) mods.
Definition folds_distinct (mods : dict pmod) : Prop :=
  NoDup (map fst (folds mods) ++ map snd (folds mods)) /\ forall n m, In (n, m) mods -> pm_fused m <> Some [].
Inductive act := ARelu | ARelu6 | ATanh | ASigmoid.
(** the part of a layer's output that matters to the activation after it *)
Definition act_range (a : act) (mx : Q) : Q * Q :=
  match a with ARelu => (0, mx) | ARelu6 => (0, qmin mx 6) | ATanh => (- (4), 4) | ASigmoid => (- (6), 6) end.
(** the operation is that activation *)
Definition is_act (mods : dict pmod) (o : gop) (a : act) : Prop :=
  match a with
  | ARelu => go_type o = "Relu"
  | ATanh => go_type o = "Tanh"
  | ASigmoid => go_type o = "Sigmoid"
  | ARelu6 => ~ In (go_type o) ["Relu"; "Tanh"; "Sigmoid"; "Split"] /\ exists m, dget mods (go_name o) = Some m /\ pm_type m = PtRelu6
  end.
(** a module with quantized outputs that is no container *)
Definition quantized_leaf (mods : dict pmod) (qm : dict qbits) (n : string) : Prop :=
  exists m q b, dget mods n = Some m /\ dget qm n = Some q /\ q_acts q = Some b /\ (pm_kids m = false \/ pm_type m = PtSim).
Definition only_successor (am : dict adjent) (n : string) (s : gop) : Prop := exists a, dget am n = Some a /\ a_succs a = [s].
(** what the chunks of a split layer go into, seen as one activation *)
Definition split_act (ops : list gop) (a : act) : Prop :=
  let all l := forall o, In o ops -> In (go_type o) l in
  match a with
  | ARelu => all ["Relu"]
  | ATanh => ~ all ["Relu"] /\ all ["Tanh"]
  | ASigmoid => ~ all ["Relu"] /\ ~ all ["Tanh"] /\ all ["Sigmoid"; "Tanh"]
  | ARelu6 => False
  end.
(** the layer is followed by nothing but the activation, directly or after a split *)
Inductive followed (mods : dict pmod) (am : dict adjent) (qm : dict qbits) (n : string) (s : gop) : act -> Prop :=
| fol_direct a : quantized_leaf mods qm n -> only_successor am n s -> is_act mods s a -> followed mods am qm n s a
| fol_split a e : quantized_leaf mods qm n -> only_successor am n s -> go_type s = "Split" -> dget am (go_name s) = Some e ->
    split_act (a_succs e) a \/ ((forall b, ~ split_act (a_succs e) b) /\ a = ARelu6 /\ exists m, dget mods (go_name s) = Some m /\ pm_type m = PtRelu6) ->
    followed mods am qm n s a.

(** the recorded range of an input *)
Fixpoint input_stats (d : list (nat * stats)) (i : nat) : option stats :=
  match d with [] => None | (j, s) :: r => if Nat.eqb j i then Some s else input_stats r i end.
Definition clip_to (s : stats) (r : Q * Q) : stats := clip_stats s (fst r) (snd r).

(** * C88: programs *)
(** The forward of a model as the sequence of its operations. An argument is an input of the model or the result of an earlier
    operation, or a selection of its elements (a chunk). *)
Inductive src := SIn (k : nat) | SOp (i : nat).
Record arg := mkArg { ar_src : src; ar_pick : option (list nat) }.
Record node := mkNode {
  n_name : string;                          (* name in the graph *)
  n_mod : option string;                    (* the module, if it is a module call *)
  n_type : string;                          (* type in the graph *)
  n_args : list arg;
  n_fun : list tensor -> tensor }.          (* what it computes *)
Definition program := list node.
Definition pick (l : list nat) (t : tensor) : tensor := flat_map (fun i => match nth_error t i with Some x => [x] | None => [] end) l.
Definition arg_val (ins env : list tensor) (a : arg) : tensor :=
  let t := match ar_src a with SIn k => nth k ins [] | SOp i => nth i env [] end in
  match ar_pick a with None => t | Some l => pick l t end.
(** the results of all operations *)
Fixpoint exec (f : node -> list tensor -> tensor) (p : program) (ins env : list tensor) : list tensor :=
  match p with
  | [] => env
  | nd :: p => exec f p ins (env ++ [f nd (map (arg_val ins env) (n_args nd))])
  end.
Definition outputs (f : node -> list tensor -> tensor) (p : program) (outs : list arg) (ins : list tensor) : list tensor :=
  map (arg_val ins (exec f p ins [])) outs.
Definition float_fun (nd : node) : list tensor -> tensor := n_fun nd.
Definition prepared_fun (g : pcfg) (st : dict lstats) (ws : dict wrap) (nd : node) : list tensor -> tensor :=
  match n_mod nd with
  | Some m => match dget ws m with Some w => wrapped g st m w (n_fun nd) | None => n_fun nd end
  | None => n_fun nd
  end.

(** the adjacency map of a program *)
Definition op_of (nd : node) : gop := mkOp (n_name nd) (n_type nd).
Definition uses (i : nat) (nd : node) : bool := existsb (fun a => match ar_src a with SOp j => Nat.eqb j i | SIn _ => false end) (n_args nd).
Definition succs (p : program) (i : nat) : list gop := map op_of (filter (uses i) p).
Definition preds (p : program) (nd : node) : list gop :=
  flat_map (fun a => match ar_src a with SOp j => match nth_error p j with Some d => [op_of d] | None => [] end | SIn _ => [] end) (n_args nd).
Definition graph (p : program) : dict adjent :=
  map (fun i => match nth_error p i with Some nd => (n_name nd, mkAdj (preds p nd) (succs p i)) | None => ("", mkAdj [] []) end) (seq 0 (length p)).

(** Programs considered: operations have distinct names; each module is called at most once, under its own name; arguments
    come from earlier operations; activations are element-wise functions of one argument, and splits pass on their argument,
    whose elements are then selected. *)
Definition elementwise (nd : node) (f : Q -> Q) : Prop := length (n_args nd) = 1%nat /\ forall xs, n_fun nd xs = map f (hd [] xs).
Record wf_program (mods : dict pmod) (p : program) : Prop := {
  wf_names : NoDup (map n_name p);
  wf_mods : NoDup (map fst mods);
  wf_plain : forall n, In n (map fst mods) -> normalize_module_name n = n;
  wf_no_bn : forall n m, In (n, m) mods -> pm_fused m = None;
  wf_call : forall nd m, In nd p -> n_mod nd = Some m -> n_name nd = m /\ exists pm, dget mods m = Some pm /\ pm_kids pm = false;
  wf_other : forall nd, In nd p -> n_mod nd = None -> dget mods (n_name nd) = None;
  wf_back : forall i nd a j, nth_error p i = Some nd -> In a (n_args nd) -> ar_src a = SOp j -> (j < i)%nat;
  wf_fun : forall nd xs ys, In nd p -> Forall2 teq xs ys -> teq (n_fun nd xs) (n_fun nd ys);
  wf_relu : forall nd, In nd p -> n_type nd = "Relu" -> elementwise nd relu;
  wf_relu_mod : forall nd pm, In nd p -> dget mods (n_name nd) = Some pm -> pm_type pm = PtRelu -> n_type nd = "Relu";
  wf_relu6 : forall nd pm, In nd p -> dget mods (n_name nd) = Some pm -> pm_type pm = PtRelu6 -> n_type nd = "Clip" /\ elementwise nd relu6;
  wf_sat : forall nd, In nd p -> n_type nd = "Tanh" \/ n_type nd = "Sigmoid" -> exists f, elementwise nd f;
  wf_split : forall nd, In nd p -> n_type nd = "Split" -> n_mod nd = None /\ elementwise nd (fun x => x) }.

(** The run on the inputs stays within what was recorded for each layer, and the inputs of saturating activations within
    the range in which they do not saturate. *)
Definition within (lo hi : Q) (t : tensor) : Prop := Forall (fun x => lo <= x /\ x <= hi) t.
Record in_range (p : program) (st : dict lstats) (ins : list tensor) : Prop := {
  ir_stats : forall i nd m ls, nth_error p i = Some nd -> n_mod nd = Some m -> dget st m = Some ls ->
    within (st_min (ls_output ls)) (st_max (ls_output ls)) (nth i (exec float_fun p ins []) []);
  ir_tanh : forall nd a, In nd p -> n_type nd = "Tanh" -> In a (n_args nd) -> within (- (4)) 4 (arg_val ins (exec float_fun p ins []) a);
  ir_sigmoid : forall nd a, In nd p -> n_type nd = "Sigmoid" -> In a (n_args nd) -> within (- (6)) 6 (arg_val ins (exec float_fun p ins []) a) }.

(** No output of the model is the output of a layer that is used once (by an activation), or of a split *)
Definition outputs_free (p : program) (outs : list arg) : Prop :=
  forall a i nd, In a outs -> ar_src a = SOp i -> nth_error p i = Some nd ->
  n_type nd <> "Split" /\ (n_mod nd = None \/ length (succs p i) <> 1%nat \/ exists s, succs p i = [s] /\ ~ In (go_type s) ["Relu"; "Clip"; "Tanh"; "Sigmoid"; "Split"]).
