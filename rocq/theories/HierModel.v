(** Model of the functions of distiller/utils.py that find and replace modules by name: assign_layer_fq_names
    (98-105), find_module_by_fq_name (108-123), model_setattr (757-786), with torch's Module.named_modules.

    A model is the tree of its sub-modules; the identity of a module object is a number, and a shared module appears
    several times with the same number.  Simplified: children registered as None are left out (torch skips them). *)
From Coq Require Import String Ascii List Arith Bool.
From Verif Require Import Base Names.
Import ListNotations.
Local Open Scope string_scope.
Open Scope list_scope.

Inductive mtree := Mod (ident : nat) (kids : list (string * mtree)).
Definition ident_of (t : mtree) : nat := match t with Mod i _ => i end.
Definition kids_of (t : mtree) : list (string * mtree) := match t with Mod _ k => k end.

(** torch/nn/modules/module.py named_modules: a module already seen is not listed again *)
Fixpoint named (t : mtree) (prefix : string) (memo : list nat) {struct t} : list (string * nat) * list nat :=
  match t with
  | Mod i kids =>
      if existsb (Nat.eqb i) memo then ([], memo)
      else
        let r := (fix go (ks : list (string * mtree)) (memo : list nat) : list (string * nat) * list nat :=
                    match ks with
                    | [] => ([], memo)
                    | (k, c) :: ks' =>
                        let a := named c (prefix ++ (if String.eqb prefix "" then "" else ".") ++ k)%string memo in
                        let b := go ks' (snd a) in
                        (fst a ++ fst b, snd b)
                    end) kids (i :: memo) in
        ((prefix, i) :: fst r, snd r)
  end.
Definition named_modules (t : mtree) : list (string * nat) := fst (named t "" []).
(** Module.modules() *)
Definition modules (t : mtree) : list nat := map snd (named_modules t).

(** the attribute distiller_name of the module objects *)
Definition fq_names := nat -> option string.
Definition set_fq (s : fq_names) (i : nat) (n : string) : fq_names := fun j => if Nat.eqb j i then Some n else s j.
(** utils.py:98-105 *)
Definition assign_layer_fq_names (t : mtree) (s : fq_names) : fq_names :=
  fold_left (fun s0 (p : string * nat) => set_fq s0 (snd p) (fst p)) (named_modules t) s.
(** utils.py:108-123 *)
Definition find_module_by_fq_name (t : mtree) (s : fq_names) (n : string) : option nat :=
  find (fun i => match s i with Some m => String.eqb n m | None => false end) (modules t).

(** utils.py:757-786 [model_setattr]: the module written to and the name of the attribute.
    [split_name] and the loop work on the dot-separated parts: [c] are those of the container's name, reversed. *)
Fixpoint climb (dict : list (string * nat)) (c : list string) (attr : string) : string * string :=
  let container := join_dot (rev c) in
  match c with
  | [] => ("", attr)
  | a :: c' =>
      if String.eqb container "" || existsb (fun p : string * nat => String.eqb (fst p) container) dict then (container, attr)
      else climb dict c' (a ++ attr)%string
  end.
Definition lookup (dict : list (string * nat)) (n : string) : option nat :=
  match find (fun p : string * nat => String.eqb (fst p) n) (rev dict) with Some p => Some (snd p) | None => None end.
Definition model_setattr (t : mtree) (attr_name : string) : res (nat * string) :=
  let dict := named_modules t in
  let parts := rev (split_dot attr_name) in
  let r := climb dict (tl parts) (hd "" parts) in
  match lookup dict (fst r) with Some i => Ok (i, snd r) | None => Raise KeyError end.
