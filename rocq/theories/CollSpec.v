(** Vocabulary for the properties of the statistics collectors. *)
From Coq Require Import String List Reals Arith Bool.
From Verif Require Import Base CollModel.
Import ListNotations.
Open Scope R_scope.

Definition is_min (l : list R) (m : R) : Prop := In m l /\ forall x, In x l -> m <= x.
Definition is_max (l : list R) (m : R) : Prop := In m l /\ forall x, In x l -> x <= m.
Definition mean (l : list R) : R := rsum l / INR (length l).
(** root mean square distance from [c], and mean absolute distance from [c] *)
Definition rms_from (c : R) (l : list R) : R := sqrt (mean (map (fun x => (x - c) ^ 2) l)).
Definition mad_from (c : R) (l : list R) : R := mean (map (fun x => Rabs (x - c)) l).

(** the record describes the values [l]: minimum, maximum, mean, standard deviation and the mean absolute
    deviation (the Laplace parameter b) *)
Definition describes (l : list R) (r : rec) : Prop :=
  is_min l (r_min r) /\ is_max l (r_max r) /\ r_mean r = mean l /\
  r_std r = rms_from (mean l) l /\ r_b r = mad_from (mean l) l.

(** all the values of a list of batches *)
Definition values (bs : list batch) : list R := concat (map (@concat R) bs).

(** the calls of module [i] in a history of forwards, in order *)
Fixpoint calls {Call} (i : nat) (l : list (cop Call)) : list Call :=
  match l with
  | [] => []
  | Fwd j c :: l => if Nat.eqb i j then c :: calls i l else calls i l
  | _ :: l => calls i l
  end.
Definition is_fwd {Call} (o : cop Call) : Prop := match o with Fwd _ _ => True | _ => False end.

(** the k-th input of each call *)
Definition input_values (k : nat) (cs : list qcall) : list R := values (map (fun c => nth k (c_inputs c) []) cs).
Definition output_values (cs : list qcall) : list R := values (map c_output cs).

(** module objects: two children of a module with the same identity are the same module *)
Definition coherent (model : cmod) : Prop :=
  forall path m, find_module model path = Some m ->
  forall n1 c1 n2 c2, In (n1, c1) (cm_kids m) -> In (n2, c2) (cm_kids m) -> cm_id c1 = cm_id c2 -> c1 = c2.

(** the modules at or under [m] that are collected, one entry per visit of Module.apply *)
Definition ids (model m : cmod) : list nat := map cm_id (filter (should_collect (dont model)) (apply_order m)).
(** the registrations made by start(modules_list): no list means the whole model *)
Definition regs (model : cmod) (names : list (list string)) : list nat :=
  match names with
  | [] => ids model model
  | _ => flat_map (fun n => match find_module model n with Some m => ids model m | None => [] end) names
  end.
(** the calls of module [i], each as often as the module has a hook *)
Definition seen {Call} (hooks : list nat) (i : nat) (body : list (cop Call)) : list Call :=
  flat_map (fun c => repeat c (count_occ Nat.eq_dec hooks i)) (calls i body).

(** how many zeros a list has *)
Inductive n_zeros : list R -> nat -> Prop :=
| NzNil : n_zeros [] 0
| NzZero l n : n_zeros l n -> n_zeros (0 :: l) (S n)
| NzOther x l n : x <> 0 -> n_zeros l n -> n_zeros (x :: l) n.

(** [x] is [m] or a descendant of it *)
Inductive at_or_under (m : cmod) : cmod -> Prop :=
| AuRefl : at_or_under m m
| AuKid x n c : at_or_under m x -> In (n, c) (cm_kids x) -> at_or_under m c.
(** [i] is the module that a quantization wrapper of the model wraps *)
Definition is_wrapped (model : cmod) (i : nat) : Prop :=
  exists j e kids c, at_or_under model (CMod j true e kids) /\ In ("wrapped_module"%string, c) kids /\ cm_id c = i.
(** children with the same identity are the same module *)
Definition coherent_under (m : cmod) : Prop :=
  forall x, at_or_under m x -> forall n1 c1 n2 c2, In (n1, c1) (cm_kids x) -> In (n2, c2) (cm_kids x) -> cm_id c1 = cm_id c2 -> c1 = c2.
