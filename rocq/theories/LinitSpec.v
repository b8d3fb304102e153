(** Specification vocabulary for the initialisation of the numerical search (C93). *)
From Coq Require Import String Ascii List ZArith QArith Qabs Bool Arith.
From Verif Require Import Base Lists Names StructModel QuantModel RangeModel QzrModel PrepModel EmbModel ReplModel LapqModel LinitModel.
Import ListNotations.
Local Open Scope string_scope.
Open Scope list_scope.

(** two strings that differ in the case of letters only *)
Definition letters : list (ascii * ascii) :=
  [("a","A");("b","B");("c","C");("d","D");("e","E");("f","F");("g","G");("h","H");("i","I");("j","J");("k","K");("l","L");("m","M");
   ("n","N");("o","O");("p","P");("q","Q");("r","R");("s","S");("t","T");("u","U");("v","V");("w","W");("x","X");("y","Y");("z","Z")]%char.
Fixpoint same_letters (s u : string) : Prop :=
  match s, u with
  | "", "" => True
  | String a s, String b u => (a = b \/ In (a, b) letters) /\ same_letters s u
  | _, _ => False
  end.

(** the settings [s'] are those of [s] with the clipping mode [c] and input overrides without content *)
Definition emptied_overrides (acts : option Z) (l l' : list (nat * override)) : Prop :=
  map fst l' = map fst l /\ (acts <> None -> forall i o, In (i, o) l' -> o = Custom None None None None) /\ (acts = None -> l' = l).
Definition same_but (c : clipmode) (s s' : wset) : Prop :=
  a_acts s' = a_acts s /\ a_mode s' = a_mode s /\ a_clip s' = c /\ a_nstds s' = a_nstds s /\ a_half s' = a_half s /\ a_approx s' = a_approx s /\
  a_auto s' = a_auto s /\ emptied_overrides (a_acts s) (a_inputs s) (a_inputs s').
(** the wrapper [r'] is [r] but for the clipping mode *)
Definition reclipped (also : bool) (c : clipmode) (r r' : rwrap) : Prop :=
  match r, r' with
  | RParam s b ac pc sv al, RParam s' b' ac' pc' sv' al' => same_but c s s' /\ (b', ac', pc', sv', al') = (b, ac, pc, sv, al)
  | RNonParam s, RNonParam s' => same_but c s s'
  | RFake s d q, RFake s' d' q' => same_but c s s' /\ d' = d /\ q' = q
  | REmb b m cl n h sv st, REmb b' m' cl' n' h' sv' st' => (b', m', n', h', sv', st') = (b, m, n, h, sv, st) /\ cl' = (if also then ENum c else cl)
  | _, _ => False
  end.
(** ... and with the same clipping mode *)
Definition rebuilt (r r' : rwrap) : Prop :=
  match r, r' with
  | RParam s b ac pc sv al, RParam s' b' ac' pc' sv' al' => same_but (a_clip s) s s' /\ (b', ac', pc', sv', al') = (b, ac, pc, sv, al)
  | RNonParam s, RNonParam s' => same_but (a_clip s) s s'
  | RFake s d q, RFake s' d' q' => same_but (a_clip s) s s' /\ d' = d /\ q' = q
  | REmb _ _ _ _ _ _ _, _ => r' = r
  | _, _ => False
  end.
(** a module that was replaced when the model was prepared: the wrapper made for it from the override arguments [w0], and the
    arguments recorded *)
Definition prepared (wts_params : option Z -> lqmode -> clipmode -> option Q -> bool -> res unit) (emb_params : Z -> lqmode -> clipmode -> option Q -> bool -> res unit)
  (z : pq) (l : slot) : Prop :=
  exists w0 pw, replacement wts_params emb_params z (sl_type l) (sl_kids l) (sl_stats l) pw (sl_q l) w0 = Ok (sl_wrap l) /\ sl_args l = emptied (sl_q l) (sl_wrap l) w0.
