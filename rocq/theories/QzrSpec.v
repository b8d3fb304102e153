(** Specifications for C35 and C54: what it means for a pattern to match a name, which override a layer
    gets, and how a model is rebuilt by a quantizer. *)
From Coq Require Import String Ascii List ZArith Bool Arith.
From Verif Require Import Base Names QzrModel.
Import ListNotations.
Local Open Scope string_scope.

(** * Matching, declaratively: [rm r p q] if [r] can match the text between positions [p] and [q] *)
Inductive rm : regex -> pos -> pos -> Prop :=
| rm_chr c b s : rm (RChr c) (b, String c s) (false, s)
| rm_any c b s : c <> newline -> rm RAny (b, String c s) (false, s)
| rm_set c l b s : In c l -> rm (RSet l) (b, String c s) (false, s)
| rm_eps p : rm REps p p
| rm_cat r1 r2 p q o : rm r1 p q -> rm r2 q o -> rm (RCat r1 r2) p o
| rm_alt_l r1 r2 p q : rm r1 p q -> rm (RAlt r1 r2) p q
| rm_alt_r r1 r2 p q : rm r2 p q -> rm (RAlt r1 r2) p q
| rm_star_0 r p : rm (RStar r) p p
| rm_star_s r p q o : rm r p q -> rm (RStar r) q o -> rm (RStar r) p o
| rm_grp r p q : rm r p q -> rm (RGrp r) p q
| rm_bol s : rm RBol (true, s) (true, s)
| rm_eol b : rm REol (b, "") (b, "")
| rm_eol_nl b : rm REol (b, String newline "") (b, String newline "").

(** the pattern matches the whole text *)
Definition matches_all (r : regex) (s : string) : Prop := exists b, rm r (true, s) (b, "").

(** a simple pattern: no alternation at the top level, no capturing group *)
Definition simple_pat (p : pat) : Prop := snd p = [] /\ ngroups (fst p) = O.

(** names of modules: no character that is special in regular expressions except the dot, no newline *)
Fixpoint plain (s : string) : bool :=
  match s with
  | "" => true
  | String c s => (negb (special c) || Ascii.eqb c ".") && negb (Ascii.eqb c newline) && plain s
  end.

(** which override applies to a name: the one whose key is the name itself; else the first, in order, whose
    pattern matches the whole name; else none *)
Definition first_match (l : overrides') (n : string) (e : ovr') : Prop :=
  exists i p, nth_error l i = Some (p, e) /\ matches_all (fst p) n /\
  forall j p' e', (j < i)%nat -> nth_error l j = Some (p', e') -> ~ matches_all (fst p') n.
Definition no_match (l : overrides') (n : string) : Prop := forall p e, In (p, e) l -> ~ matches_all (fst p) n.
Definition literal_key (l : overrides') (n : string) (e : ovr') : Prop := exists p, In (p, e) l /\ pat_text p = n.

(** * Models *)
(** all modules of a model in pre-order with their paths *)
Fixpoint all_modules (m : nmod) (path : list string) : list (list string * nmod) :=
  match m with
  | Mod _ _ _ kids => (path, m) :: concat (map (fun nc => all_modules (snd nc) (path ++ [fst nc])%list) kids)
  end.
Definition ids (m : nmod) : list nat := map (fun pm => mid (snd pm)) (all_modules m []).

(** names of children as torch requires them: not empty, without dots, different from each other *)
Definition good_name (n : string) : Prop := n <> "" /\ no_dot n = true.
Definition good_kids (m : nmod) : Prop := Forall good_name (map fst (mkids m)) /\ NoDup (map fst (mkids m)).
Definition good_model (m : nmod) : Prop := forall p c, In (p, c) (all_modules m []) -> good_kids c.
(** no module is referenced twice *)
Definition unshared (m : nmod) : Prop := NoDup (ids m).

(** * What a quantizer does to each module, given each module's bits and arguments *)
Section Spec.
  Context (z : quantizer) (bits : list string -> qbits) (kw : list string -> kwargs).
  (** the replacement of the module [c] called [path], if it has one *)
  Definition decision (path : list string) (c : nmod) : option repl :=
    match q_acts (bits path), q_wts (bits path), kw path with
    | None, None, [] => None
    | _, _, _ => match z_factory z (mty c) with
                 | None => None
                 | Some f => match rf_run f c (join_dot path) (bits path) (kw path) with Same => None | r => Some r end
                 end
    end.
  (** the arguments are not accepted *)
  Definition bad_args (path : list string) (c : nmod) : Prop :=
    exists f, z_factory z (mty c) = Some f /\ exists k v, In (k, v) (kw path) /\ ~ In k (rf_args f).
  (** the rebuilt model: blacklisted modules (with all they contain) are untouched; every other module
      is rebuilt from its rebuilt children and then replaced *)
  Fixpoint spec_tree (m : nmod) (path : list string) : nmod :=
    match m with
    | Mod i t p kids =>
        Mod i t p (map (fun nc =>
          (fst nc,
           if z_black z (mty (snd nc)) then snd nc
           else let c' := spec_tree (snd nc) (path ++ [fst nc])%list in
                match decision (path ++ [fst nc])%list (snd nc) with Some r => fill r c' | None => c' end)) kids)
    end.
  (** the modules that are considered for replacement *)
  Fixpoint visited (m : nmod) (path : list string) : list (list string * nmod) :=
    match m with
    | Mod _ _ _ kids => concat (map (fun nc =>
        if z_black z (mty (snd nc)) then []
        else ((path ++ [fst nc])%list, snd nc) :: visited (snd nc) (path ++ [fst nc])%list) kids)
    end.
  (** the parameters to quantize: those of convolution, linear and embedding layers, in order, each with
      the bias or weight bits of its layer: (module, float tensor, quantized tensor, bits) *)
  Definition spec_params_of (pm : list string * nmod) : list (nat * string * string * Z) :=
    if has_qparams (mty (snd pm)) then
      flat_map (fun p => match (if ends_with_bias p then q_bias (bits (fst pm)) else q_wts (bits (fst pm))) with
                         | None => []
                         | Some b => [(mid (snd pm), if z_fp_copy z then "float_" ++ p else p, p, b)]
                         end) (mparams (snd pm))
    else [].
  Definition spec_params (m : nmod) : list (nat * string * string * Z) := flat_map spec_params_of (all_modules m []).
  (** how the replacements look: only modules without children are replaced; sub-modules have proper names; a
      layer with parameters is wrapped, once; new modules are not layers with parameters to quantize *)
  Definition good_repl (path : list string) (c : nmod) : Prop :=
    forall i t p subs, decision path c = Some (New i t p subs) ->
    mkids c = [] /\ Forall good_name (map fst subs) /\ NoDup (map fst subs) /\
    (has_qparams (mty c) = true -> exists s1 n s2, subs = (s1 ++ (n, Hole) :: s2)%list /\
       forall n' s, In (n', s) (s1 ++ s2)%list -> s <> Hole) /\
    has_qparams t = false /\ (forall n j u q, In (n, Leaf j u q) subs -> has_qparams u = false).
End Spec.
