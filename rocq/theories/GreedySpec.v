(** Specification vocabulary for the greedy search of quantization settings. *)
From Coq Require Import String List ZArith QArith Bool Arith.
From Verif Require Import Base GreedyModel.
Import ListNotations.
Open Scope list_scope.

(** [o] is the first of [candidates] with the highest score (all of them have one). *)
Definition first_best {A} (score : A -> res Q) (candidates : list A) (o : A) : Prop :=
  exists pre q post,
    candidates = pre ++ o :: post /\ score o = Ok q /\
    (forall c, In c pre -> exists p, score c = Ok p /\ p < q) /\
    (forall c, In c post -> exists p, score c = Ok p /\ p <= q).

(** All the candidates set the same keys, in the same order, each once. *)
Definition uniform (candidates : list ov) : Prop :=
  (forall c, In c candidates -> NoDup (dkeys c)) /\
  (forall c c', In c candidates -> In c' candidates -> dkeys c = dkeys c').

(** The entry that a layer starts from: nothing, but for the layer called 'fc' an 8-bit unclipped input. *)
Definition start_of (n : string) : ov :=
  if String.eqb n "fc"
  then [("input_overrides"%string, VInputs [(0%nat, VDict [("bits_activations"%string, VInt 8); ("clip_acts"%string, VStr "NONE")])])]
  else [].

(** [final] is the outcome of a greedy search: with the layers before [n] at their chosen settings and no settings for those
    after it, the settings of [n] are those of the first candidate of highest score. *)
Definition greedy_outcome (score : dict ov -> res Q) (gen : string -> dict ov -> res (list ov)) (final : dict ov) : Prop :=
  forall pre n e post, final = pre ++ (n, e) :: post ->
    exists cands o,
      gen n (pre ++ [(n, start_of n)]) = Ok cands /\
      e = dupdate (start_of n) o /\
      ((cands = [] /\ o = []) \/ first_best (fun c => score (pre ++ [(n, dupdate (start_of n) c)])) cands o).

(** Classes of layers that get no settings of their own: identities, batch normalizations and ReLUs. *)
Definition transparent (c : mclass) : bool :=
  match c with
  | MIdentity | MBN1d | MBN2d | MBN3d | MReLU | MReLU6 => true
  | MLinear | MConv2d | MConv3d | MConcat | MEltAdd | MEltMult | MMatmul | MBatchMatmul | MTanh | MSigmoid | MSoftmax | MOther => false
  end.

(** Classes of layers whose outputs are quantized to integers. *)
Definition integer_class (c : mclass) : Prop :=
  c = MLinear \/ c = MConv2d \/ c = MConv3d \/ c = MConcat \/ c = MEltAdd \/ c = MEltMult \/ c = MMatmul \/ c = MBatchMatmul.

(** The layers that the search gives settings to. *)
Definition searched (modules : dict mclass) (order no_quant : list string) : list string :=
  filter (fun n => negb (existsb (String.eqb n) no_quant) &&
                   negb (match dget modules n with Some c => transparent c | None => false end)) order.

(** The non-empty prefixes of a list. *)
Fixpoint prefixes {A} (l : list A) : list (list A) :=
  match l with [] => [] | x :: r => [x] :: map (cons x) (prefixes r) end.

(** The entry of a layer before its own settings are searched, when some settings are already there. *)
Definition entry_of (b : dict ov) (n : string) : ov := match dget b n with Some d => d | None => [] end.
Definition base_of (b : dict ov) (n : string) : ov := dupdate (entry_of b n) (start_of n).

(** A greedy search of the layers [names] that starts from the settings [b], saves [saved] and ends with [final]. *)
Inductive greedy_chain (score : dict ov -> res Q) (gen : string -> dict ov -> res (list ov))
  : list string -> dict ov -> list (dict ov) -> dict ov -> Prop :=
| chain_end b : greedy_chain score gen [] b [] b
| chain_layer n names b cands o saved final :
    gen n (dset b n (base_of b n)) = Ok cands ->
    ((cands = [] /\ o = []) \/ first_best (fun c => score (dset b n (dupdate (base_of b n) c))) cands o) ->
    greedy_chain score gen names (dset b n (dupdate (base_of b n) o)) saved final ->
    greedy_chain score gen (n :: names) b (dset b n (dupdate (base_of b n) o) :: saved) final.

(** The indices that [quantize_inputs] gives for a layer, in order. *)
Definition indices_for (n : string) (args : list (string * nat)) : list nat :=
  map snd (filter (fun a => String.eqb n (fst a)) args).
