(** Model of distiller/quantization/quantizer.py: per-layer bit widths and overrides, replacement of
    modules, choice of the parameters to quantize, and their (repeated) quantization; and of the class
    patching of range_linear.py that quantizes a model's inputs in training. *)
From Coq Require Import String Ascii List ZArith Bool Arith.
From Verif Require Import Base Names.
Import ListNotations.
Local Open Scope string_scope.

(* ------------------------------------------------------------------------- *)
(** * Regular expressions (the part of Python's [re] used for override patterns)

    Characters, [.], character sets, concatenation, alternation, greedy repetition, groups, [^] and [$]
    (no flags).  Look-around, back-references and lazy operators are not modelled. *)
Inductive regex :=
| RChr (c : ascii) | RAny | RSet (l : list ascii) | REps
| RCat (a b : regex) | RAlt (a b : regex) (* printed (?:a|b) *) | RStar (a : regex) | RGrp (a : regex) (* capturing *)
| RBol | REol.

(** a position in the text: is it the start, and what is left *)
Definition pos := (bool * string)%type.
Definition newline : ascii := "010"%char.

Definition step_chr (f : ascii -> bool) (p : pos) : list pos :=
  match snd p with String c s => if f c then [(false, s)] else [] | EmptyString => [] end.

(** positions reachable by repeating [f], each repetition consuming at least one character *)
Fixpoint star_ends (f : pos -> list pos) (n : nat) (p : pos) : list pos :=
  p :: match n with
       | O => []
       | S n => flat_map (fun q => if Nat.ltb (String.length (snd q)) (String.length (snd p)) then star_ends f n q else []) (f p)
       end.

Definition at_eol (s : string) : bool := match s with "" => true | String c "" => Ascii.eqb c newline | _ => false end.

(** the positions at which a match starting at [p] can end *)
Fixpoint ends (r : regex) (p : pos) : list pos :=
  match r with
  | RChr c => step_chr (Ascii.eqb c) p
  | RAny => step_chr (fun c => negb (Ascii.eqb c newline)) p
  | RSet l => step_chr (fun c => existsb (Ascii.eqb c) l) p
  | REps => [p]
  | RCat a b => flat_map (ends b) (ends a p)
  | RAlt a b => (ends a p ++ ends b p)%list
  | RStar a => star_ends (ends a) (String.length (snd p)) p
  | RGrp a => ends a p
  | RBol => if fst p then [p] else []
  | REol => if at_eol (snd p) then [p] else []
  end.

(** number of capturing groups *)
Fixpoint ngroups (r : regex) : nat :=
  match r with
  | RCat a b | RAlt a b => ngroups a + ngroups b
  | RStar a => ngroups a
  | RGrp a => S (ngroups a)
  | _ => O
  end.

(** the text of a pattern *)
Definition special (c : ascii) : bool :=
  existsb (Ascii.eqb c) ["."; "^"; "$"; "*"; "+"; "?"; "{"; "}"; "["; "]"; "\"; "|"; "("; ")"]%char.
Definition esc (c : ascii) : string := if special c then String "\" (String c "") else String c "".
Fixpoint rtext (r : regex) : string :=
  match r with
  | RChr c => esc c
  | RAny => "."
  | RSet l => "[" ++ fold_right (fun c s => esc c ++ s) "]" l
  | REps => ""
  | RCat a b => rtext a ++ rtext b
  | RAlt a b => "(?:" ++ rtext a ++ "|" ++ rtext b ++ ")"
  | RStar a => "(?:" ++ rtext a ++ ")*"
  | RGrp a => "(" ++ rtext a ++ ")"
  | RBol => "^"
  | REol => "$"
  end.

(** An override pattern: the branches of its top-level alternation. *)
Definition pat := (regex * list regex)%type.
Definition pat_text (p : pat) : string := fold_left (fun s r => s ++ "|" ++ rtext r) (snd p) (rtext (fst p)).
Definition pat_groups (p : pat) : nat := fold_left (fun n r => n + ngroups r) (snd p) (ngroups (fst p)).
(** quantizer.py:148 ['(^{0}$)'.format(pattern)]: textual, so with a top-level alternation [^] belongs to
    the first branch only and [$] to the last only *)
Fixpoint eol_last (p : regex) (l : list regex) : regex :=
  match l with
  | [] => RCat p REol
  | r :: l => RAlt p (eol_last r l)
  end.
Definition wrap_pat (p : pat) : regex := RGrp (eol_last (RCat RBol (fst p)) (snd p)).

(** [regex.match(name)]: is there a match at the start of the text (not necessarily up to its end) *)
Definition re_match (r : regex) (s : string) : bool := match ends r (true, s) with [] => false | _ => true end.

(** quantizer.py:148-149, 160-166: match of the alternation of the wrapped patterns, and the number of
    the first group that took part: the groups of the alternatives before the matching one did not,
    and the group around the matching one did. *)
Fixpoint first_group (l : list pat) (s : string) : option nat :=
  match l with
  | [] => None
  | p :: l => if re_match (wrap_pat p) s then Some O
              else option_map (fun n => ngroups (wrap_pat p) + n) (first_group l s)
  end.

(* ------------------------------------------------------------------------- *)
(** * Bit widths and overrides, quantizer.py:110-197 *)
Record qbits := mkQb { q_acts : option Z; q_wts : option Z; q_bias : option Z }.
Definition kwargs := list (string * Z).   (* other override arguments; their values are opaque *)

(** an override dictionary as given by the user *)
Record ovr := mkOvr {
  o_acts : option (option Z); o_wts : option (option Z); o_bias : option (option Z); (* the bits_... keys, if present *)
  o_deprecated : bool;        (* has a key among 'acts', 'wts', 'bias' *)
  o_rest : kwargs }.
(** after quantizer.py:134-143: 'bits' and the remaining keys *)
Record ovr' := mkOvr' { e_bits : qbits; e_rest : kwargs }.
Definition dflt {A} (o : option A) (d : A) : A := match o with Some x => x | None => d end.
Definition resolve (d : qbits) (o : ovr) : res ovr' :=
  if o_deprecated o then Raise ValueError
  else Ok (mkOvr' (mkQb (dflt (o_acts o) (q_acts d)) (dflt (o_wts o) (q_wts d)) (dflt (o_bias o) (q_bias d))) (o_rest o)).

Definition overrides := list (pat * ovr).
Definition overrides' := list (pat * ovr').

(** [s.replace('module.', '', 1)], anywhere in the name *)
Fixpoint replace_first (p s : string) : string :=
  if String.prefix p s then sdrop (String.length p) s
  else match s with EmptyString => EmptyString | String c s => String c (replace_first p s) end.
Definition name_to_match (n : string) : string := replace_first "module." n.

(** self.overrides.get(name): literal key *)
Fixpoint get_literal (l : overrides') (n : string) : option ovr' :=
  match l with
  | [] => None
  | (p, e) :: l => if String.eqb (pat_text p) n then Some e else get_literal l n
  end.

(** quantizer.py:156-170: the bits and the override arguments of one module *)
Definition module_entry (d : qbits) (l : overrides') (full : string) : res (qbits * kwargs) :=
  let n := name_to_match full in
  match first_group (map fst l) n with
  | None =>
      (* no pattern matches; a literal key that does not match itself keeps its 'bits' entry *)
      Ok (d, match get_literal l n with Some e => ("bits", 0%Z) :: e_rest e | None => [] end)
  | Some g =>
      do e <- match get_literal l n with
              | Some e => Ok e
              | None => match nth_error l g with Some (_, e) => Ok e | None => Raise IndexError end
              end;
      Ok (e_bits e, e_rest e)
  end.

(** module types: those with quantizable parameters, and the others *)
Inductive mtype := TConv2d | TConv3d | TLinear | TEmbedding | TOther (n : nat).
Definition has_qparams (t : mtype) : bool := match t with TOther _ => false | _ => true end.
(** quantizer.py:195-200 [_add_qbits_entry] *)
Definition restrict_bits (t : mtype) (q : qbits) : qbits := if has_qparams t then q else mkQb (q_acts q) None None.

(* ------------------------------------------------------------------------- *)
(** * Modules *)
(** A module: identity, type, names of its own parameters, children in registration order.  A module
    that is referenced twice appears twice, with the same identity. *)
Inductive nmod := Mod (id : nat) (ty : mtype) (params : list string) (kids : list (string * nmod)).
Definition mid (m : nmod) : nat := match m with Mod i _ _ _ => i end.
Definition mty (m : nmod) : mtype := match m with Mod _ t _ _ => t end.
Definition mparams (m : nmod) : list string := match m with Mod _ _ p _ => p end.
Definition mkids (m : nmod) : list (string * nmod) := match m with Mod _ _ _ k => k end.
(** distiller/utils.py [has_children] *)
Definition has_children (m : nmod) : bool := match mkids m with [] => false | _ => true end.

Definition mem_nat (x : nat) (l : list nat) : bool := existsb (Nat.eqb x) l.
(** prefix + ('.' if prefix else '') + name *)
Definition sub_name (prefix name : string) : string := match prefix with "" => name | _ => prefix ++ "." ++ name end.

(** torch.nn.Module.named_modules: pre-order, each module object once *)
Fixpoint named_modules_from (m : nmod) (prefix : string) (memo : list nat) : list (string * nmod) * list nat :=
  if mem_nat (mid m) memo then ([], memo)
  else match m with
       | Mod i _ _ kids =>
           let '(l, memo) := (fix go (l : list (string * nmod)) (memo : list nat) : list (string * nmod) * list nat :=
              match l with
              | [] => ([], memo)
              | (n, c) :: l =>
                  let '(r1, memo) := named_modules_from c (sub_name prefix n) memo in
                  let '(r2, memo) := go l memo in
                  ((r1 ++ r2)%list, memo)
              end) kids (i :: memo) in
           ((prefix, m) :: l, memo)
       end.
Definition named_modules (m : nmod) : list (string * nmod) := fst (named_modules_from m "" []).

(** torch.nn.Module.named_parameters: own parameters, then those of the children (parameters shared
    between modules are not modelled) *)
Fixpoint named_parameters (m : nmod) : list string :=
  match m with
  | Mod _ _ p kids => (p ++ concat (map (fun nc => map (fun q => (fst nc ++ "." ++ q)%string) (named_parameters (snd nc))) kids))%list
  end.

(** quantizer.py:152-171: the two maps of the constructor *)
Definition qmap := list (string * qbits).
Definition kmap := list (string * kwargs).
Fixpoint mapsM {A B} (f : A -> res B) (l : list A) : res (list B) :=
  match l with
  | [] => Ok []
  | a :: l => do b <- f a; do r <- mapsM f l; Ok (b :: r)
  end.
Definition build_maps (d : qbits) (l : overrides') (m : nmod) : res (qmap * kmap) :=
  do es <- mapsM (fun nm => do e <- module_entry d l (fst nm); Ok (fst nm, (restrict_bits (mty (snd nm)) (fst e), snd e))) (named_modules m);
  Ok (map (fun e => (fst e, fst (snd e))) es, map (fun e => (fst e, snd (snd e))) es).

(** quantizer.py:110-171 [Quantizer.__init__]; the order of the checks is that of the code *)
Definition qzr_init (d : qbits) (l : option overrides) (is_ordered has_opt fp_copy : bool) (m : nmod) : res (overrides' * (qmap * kmap)) :=
  let l := dflt l [] in
  if negb is_ordered then Raise TypeError
  else if fp_copy && negb has_opt then Raise ValueError
  else do l' <- mapsM (fun po => do e <- resolve d (snd po); Ok (fst po, e)) l;
       do mm <- build_maps d l' m;
       Ok (l', mm).

(* ------------------------------------------------------------------------- *)
(** * prepare_model, quantizer.py:207-351 *)

(** What a replacement function returns: the module itself, or a new module whose children are new
    leaf modules or (the hole) the replaced module.  All replacement functions of the library have
    this form, and read from the bit-width map only the entry of the module itself. *)
Inductive sub := Hole | Leaf (id : nat) (ty : mtype) (params : list string).
Inductive repl := Same | New (id : nat) (ty : mtype) (params : list string) (subs : list (string * sub)).
Record rfun := mkRfun { rf_args : list string; rf_run : nmod -> string -> qbits -> kwargs -> repl }.
Record quantizer := mkQz {
  z_factory : mtype -> option rfun;       (* replacement_factory.get(type, default) *)
  z_black : mtype -> bool;                (* replacement_blacklist *)
  z_fp_copy : bool }.                     (* train_with_fp_copy *)

(** utils.py:726-743 [filter_kwargs]: the arguments the function does not accept *)
Definition invalid_kwargs (k : kwargs) (f : rfun) : kwargs :=
  filter (fun kv => negb (existsb (String.eqb (fst kv)) (rf_args f))) k.

Record pstate := mkPs {
  ps_done : list (nat * (string * option repl));   (* modules_processed *)
  ps_sets : list ((nat * string) * repl);          (* setattr(container, name, new module) *)
  ps_map : qmap }.                                  (* module_qbits_map *)
Fixpoint find_done (l : list (nat * (string * option repl))) (i : nat) : option (string * option repl) :=
  match l with [] => None | (j, e) :: l => if Nat.eqb i j then Some e else find_done l i end.
Fixpoint find_set (l : list ((nat * string) * repl)) (i : nat) (n : string) : option repl :=
  match l with [] => None | ((j, k), r) :: l => if Nat.eqb i j && String.eqb n k then Some r else find_set l i n end.

Definition sub_type (m : nmod) (s : sub) : mtype := match s with Hole => mty m | Leaf _ t _ => t end.
Definition sub_is_hole (s : sub) : bool := match s with Hole => true | _ => false end.

(** quantizer.py:336-341: bit widths of a leaf replaced by a container: its sub-modules (including the
    container itself, under the name [full + '.']) get the module's bits; the container itself only
    those of its activations. *)
Definition split_bits (full : string) (m : nmod) (ty : mtype) (subs : list (string * sub)) (q : qbits) (mp : qmap) : qmap :=
  let mp := dset mp (full ++ ".") (restrict_bits ty q) in
  let mp := fold_left (fun mp ns => dset mp (full ++ "." ++ fst ns) (restrict_bits (sub_type m (snd ns)) q)) subs mp in
  dset mp full (mkQb (q_acts q) None None).

(** quantizer.py:290-346: one child *)
Definition process_child (z : quantizer) (km : kmap) (cid : nat) (full name : string) (c : nmod) (st : pstate)
    : res (pstate * bool (* recurse *)) :=
  if z_black z (mty c) then Ok (st, false)
  else match find_done (ps_done st) (mid c) with
  | Some (_, Some w) => Ok (mkPs (ps_done st) (((cid, name), w) :: ps_sets st) (ps_map st), false)
  | Some (_, None) => Ok (st, false)
  | None =>
      match dget (ps_map st) full, dget km full with
      | None, _ | _, None => Raise KeyError
      | Some q, Some k =>
          match q_acts q, q_wts q, k with
          | None, None, [] => Ok (mkPs ((mid c, (full, None)) :: ps_done st) (ps_sets st) (ps_map st), true)
          | _, _, _ =>
              match z_factory z (mty c) with
              | None => Ok (st, true)
              | Some f =>
                  match invalid_kwargs k f with
                  | _ :: _ => Raise TypeError
                  | [] =>
                      match rf_run f c full q k with
                      | Same => Ok (mkPs ((mid c, (full, None)) :: ps_done st) (ps_sets st) (ps_map st), true)
                      | New i t p subs =>
                          Ok (mkPs ((mid c, (full, Some (New i t p subs))) :: ps_done st)
                                   (((cid, name), New i t p subs) :: ps_sets st)
                                   (if negb (has_children c) && match subs with [] => false | _ => true end
                                    then split_bits full c t subs q (ps_map st) else ps_map st), true)
                      end
                  end
              end
          end
      end
  end.

(** quantizer.py:276-346 [_pre_process_container]; named_children yields each child object once *)
Fixpoint process (z : quantizer) (km : kmap) (m : nmod) (prefix : string) (st : pstate) {struct m} : res pstate :=
  match m with
  | Mod i _ _ kids =>
      (fix go (l : list (string * nmod)) (memo : list nat) (st : pstate) {struct l} : res pstate :=
         match l with
         | [] => Ok st
         | (n, c) :: l =>
             if mem_nat (mid c) memo then go l memo st
             else let full := prefix ++ n in
                  do r <- process_child z km i full n c st;
                  do st' <- (if snd r && has_children c then process z km c (full ++ ".") (fst r) else Ok (fst r));
                  go l (mid c :: memo) st'
         end) kids [] st
  end.

(** the model after the replacements *)
Definition fill (r : repl) (m : nmod) : nmod :=
  match r with
  | Same => m
  | New i t p subs => Mod i t p (map (fun ns => (fst ns, match snd ns with Hole => m | Leaf j u q => Mod j u q [] end)) subs)
  end.
Fixpoint rebuild (sets : list ((nat * string) * repl)) (m : nmod) : nmod :=
  match m with
  | Mod i t p kids =>
      Mod i t p (map (fun nc => (fst nc, match find_set sets i (fst nc) with
                                         | Some r => fill r (rebuild sets (snd nc))
                                         | None => rebuild sets (snd nc) end)) kids)
  end.

(** quantizer.py:43-47, 242-257: an entry of params_to_quantize *)
Record ptq := mkPtq { t_module : nat; t_mname : string; t_fp : string; t_q : string; t_bits : Z }.
Definition ends_with_bias (n : string) : bool :=
  let k := String.length n in Nat.leb 4 k && String.eqb (substring (k - 4) 4 n) "bias".
Definition module_ptqs (fp_copy : bool) (name : string) (m : nmod) (q : qbits) : list ptq :=
  flat_map (fun p => match (if ends_with_bias p then q_bias q else q_wts q) with
                     | None => []
                     | Some b => [mkPtq (mid m) name (if fp_copy then "float_" ++ p else p) p b]
                     end) (named_parameters m).
Definition collect_params (z : quantizer) (mp : qmap) (m : nmod) : res (list ptq) :=
  do ls <- mapsM (fun nm => match dget mp (fst nm) with
                            | None => Raise KeyError
                            | Some q => Ok (module_ptqs (z_fp_copy z) (fst nm) (snd nm) q)
                            end) (named_modules m);
  Ok (concat ls).

(** quantizer.py:229-274 [prepare_model] (graph analysis, the optimizer's parameter groups and the
    sub-classes' hooks are not modelled here) *)
Definition prepare_model (z : quantizer) (mp : qmap) (km : kmap) (prepared : bool) (m : nmod) : res (nmod * qmap * list ptq) :=
  if prepared then Raise RuntimeError
  else do st <- process z km m "" (mkPs [] [] mp);
       let m' := rebuild (ps_sets st) m in
       do ps <- collect_params z (ps_map st) m';
       Ok (m', ps_map st, ps).

(* ------------------------------------------------------------------------- *)
(** * quantize_params, quantizer.py:361-371, and the policy that repeats it, policy.py:317-327 *)
Section Params.
  Context {T : Type}.
  (** tensors by module and attribute name *)
  Definition store := nat -> string -> T.
  Definition put (s : store) (i : nat) (n : string) (v : T) : store :=
    fun j k => if Nat.eqb i j && String.eqb n k then v else s j k.
  (** quantizer.py:41-60 [hack_float_backup_parameter], then [quantize_params]: the attribute [t_q] is a
      buffer and the parameter is [t_fp]; without a float copy they are the same attribute *)
  Definition quantize_params (qf : Z -> T -> T) (l : list ptq) (s : store) : store :=
    fold_left (fun s p => put s (t_module p) (t_q p) (qf (t_bits p) (s (t_module p) (t_fp p)))) l s.
  (** a training run under QuantizationPolicy: quantization, then per minibatch an optimizer step (a
      change of the parameters) and quantization *)
  Definition train_run (qf : Z -> T -> T) (l : list ptq) (steps : list (store -> store)) (s : store) : store :=
    fold_left (fun s step => quantize_params qf l (step s)) steps (quantize_params qf l s).
End Params.
Arguments store : clear implicits.

(* ------------------------------------------------------------------------- *)
(** * Input quantization by class patching, range_linear.py:2183-2185 and 2325-2334

    [m.__class__.original_forward = m.__class__.forward; m.__class__.forward = wrapped], where wrapped
    quantizes the input and calls [self.original_forward].  The classes of a program: which function
    [forward] and [original_forward] are. *)
Inductive fwd := FOrig | FWrapped.
Record cls := mkCls { k_forward : fwd; k_original : option fwd }.
Definition patch (c : cls) : cls := mkCls FWrapped (Some (k_forward c)).
Section Fwd.
  Context {V : Type} (quant base : V -> V).
  (** calling a method; the depth bounds Python's call stack *)
  Fixpoint call (depth : nat) (c : cls) (f : fwd) (x : V) : option V :=
    match depth with
    | O => None      (* RecursionError *)
    | S d => match f with
             | FOrig => Some (base x)
             | FWrapped => match k_original c with None => None | Some g => call d c g (quant x) end
             end
    end.
End Fwd.
