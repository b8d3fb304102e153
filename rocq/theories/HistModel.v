(** Model of ActivationHistogramsCollector, distiller/data_loggers/collector.py:641-760, over exact rationals.
    A tensor is the list of its values. *)
From Coq Require Import List ZArith QArith Qround Bool Arith.
From Verif Require Import Base.
Import ListNotations.
Open Scope Q_scope.

(** Tensor.clamp(lo, hi) *)
Definition clampq (lo hi x : Q) : Q :=
  let y := if Qle_bool lo x then x else lo in if Qle_bool y hi then y else hi.

(** torch.histc(t, bins, min, max) (torch 1.3 on the CPU): RuntimeError when max < min; when they are equal the range
    is that of the data, and if that has no width, one less and one more; values outside the range are not counted,
    the largest one is counted in the last bin.  [histc] is only called on clamped data, whose range is one point when
    lo = hi. *)
Definition bin_index (nb : nat) (lo hi x : Q) : nat :=
  let pos := Z.to_nat (Qfloor ((x - lo) / (hi - lo) * inject_Z (Z.of_nat nb))) in
  if Nat.eqb pos nb then (nb - 1)%nat else pos.
Definition histc (nb : nat) (lo hi : Q) (l : list Q) : res (list nat) :=
  if Qle_bool lo hi then
    let (lo', hi') := if Qeq_bool lo hi then (lo - 1, hi + 1) else (lo, hi) in
    let inside := filter (fun x => Qle_bool lo' x && Qle_bool x hi') l in
    Ok (map (fun k => length (filter (fun x => Nat.eqb (bin_index nb lo' hi' x) k) inside)) (seq 0 nb))
  else Raise RuntimeError.

(** the 'min' and 'max' of the tensors of a module in the statistics passed to the collector; [None] for the inputs:
    the module's entry has no 'inputs' key (QuantCalibrationStatsCollector leaves it out for a module that was never
    called, collector.py:621-624) *)
Record mstats := mkStats { st_inputs : option (list (Q * Q)); st_output : Q * Q }.
Record hists := mkHists { h_inputs : list (list nat); h_output : list nat }.

(** _reset, collector.py:713-716 *)
Definition hist_reset (nb : nat) (st : mstats) : res hists :=
  match st_inputs st with
  | None => Raise KeyError
  | Some l => Ok (mkHists (map (fun _ => repeat 0%nat nb) l) (repeat 0%nat nb))
  end.
Definition get_hist (nb : nat) (mm : Q * Q) (t : list Q) : res (list nat) :=
  histc nb (fst mm) (snd mm) (map (clampq (fst mm) (snd mm)) t).
(** hist += curr *)
Definition hadd (a b : list nat) : list nat := map2 Nat.add a b.

(** the inputs one by one, collector.py:702-706: KeyError for an index that has no statistics *)
Fixpoint hist_inputs (nb : nat) (mms : list (Q * Q)) (hs : list (list nat)) (ts : list (list Q)) : res (list (list nat)) :=
  match ts, mms, hs with
  | [], _, _ => Ok hs
  | t :: ts, mm :: mms, h :: hs =>
      do c <- get_hist nb mm t; do r <- hist_inputs nb mms hs ts; Ok (hadd h c :: r)
  | _ :: _, [], _ => Raise KeyError
  | _ :: _, _, [] => Raise IndexError
  end.
(** _activation_stats_cb, collector.py:691-711; a call is the tensors of its inputs and its output *)
Definition hist_cb (nb : nat) (st : mstats) (h : hists) (c : list (list Q) * list Q) : res hists :=
  do hi <- match fst c, st_inputs st with
           | [], _ => Ok (h_inputs h)
           | _, None => Raise KeyError
           | ts, Some mms => hist_inputs nb mms (h_inputs h) ts
           end;
  do o <- get_hist nb (st_output st) (snd c);
  Ok (mkHists hi (hadd (h_output h) o)).

(** torch.linspace(a, b, n) *)
Definition linspace (a b : Q) (n : nat) : list Q :=
  map (fun k => a + inject_Z (Z.of_nat k) * ((b - a) / inject_Z (Z.of_nat (n - 1)))) (seq 0 n).
(** get_hist_entry, collector.py:729-734 *)
Definition bin_centroids (nb : nat) (mm : Q * Q) : list Q :=
  let w := (snd mm - fst mm) / inject_Z (Z.of_nat nb) in
  linspace (fst mm + w / 2) (snd mm - w / 2) nb.

(** a whole run on one module: _start_counter, then the calls *)
Definition hist_run (nb : nat) (st : mstats) (cs : list (list (list Q) * list Q)) : res hists :=
  do h <- hist_reset nb st; foldM (hist_cb nb st) cs h.
