(** Model of AMC, the automatic search of pruning levels (examples/auto_compression/amc): the description of the network
    (utils/net_wrapper.py), the environment the agent acts in (environment.py), and rewards (rewards.py).

    Exact rationals for Python's floats.  Training, validation and the weights are not modelled: what fraction of the
    structures of a layer the pruner removes when asked for a fraction is a parameter ([achieve], an arbitrary function of the
    state; [l1_action] below for the L1-norm pruner). *)
From Coq Require Import String Ascii List ZArith QArith Qround Qabs Bool Arith.
From Verif Require Import Base Lists Names PrunerModel StructModel QuantModel.
Import ListNotations.
Local Open Scope string_scope.
Open Scope list_scope.

(** * The network *)
(** a convolution or linear layer of [all_layers] (utils/net_wrapper.py:265-308); its index is its id.  [al_deps] is the attribute
    [dependencies], set for the layers to prune only. *)
Record alayer := mkAl { al_name : string; al_macs : Q; al_vol : Q; al_deps : option (list string) }.
(** utils/net_wrapper.py:190-193 *)
Record meta := mkMeta { m_layers : list alayer; m_pruned : list nat; m_dep : list nat; m_macs : Q; m_nnz : Q }.

Definition memn (i : nat) (l : list nat) : bool := existsb (Nat.eqb i) l.

(** utils/data_dependencies.py:25-73 [find_dependencies]; [next]: the convolutions before a layer (channels), or the
    convolutions and linear layers after it (filters); [shape]: group-wise with as many groups as input channels, one group, or
    other.  The recursion is bounded by [fuel]: as deep as the graph. *)
Inductive gkind := GDepthwise | GOne | GOther.
(** the test of lines 47-50, 66-71: an ordinary convolution of one input channel counts as depthwise as well *)
Definition gkind_of (group n_ifm : nat) : gkind := if Nat.eqb group n_ifm then GDepthwise else if Nat.eqb group 1 then GOne else GOther.
(** [channels]: making the message of the error looks up a name among the ids of the layers (line 54) *)
Inductive dep_type := DChannels | DFilters.
Definition grouping_error (d : dep_type) : exn := match d with DChannels => KeyError | DFilters => ValueError end.
Section Deps.
Variable dtype : dep_type.
Variable next : string -> list string.
Variable kind : string -> gkind.
Fixpoint find_dependencies (fuel : nat) (name : string) : res (list string) :=
  match fuel with
  | O => Raise RuntimeError
  | S fuel =>
      foldM (fun acc p =>
        match kind p with
        | GDepthwise => do l <- find_dependencies fuel p; Ok (acc ++ p :: l)
        | GOne => Ok (acc ++ [p])
        | GOther => Raise (grouping_error dtype)
        end) (next name) []
  end.
End Deps.

(** utils/net_wrapper.py:264-362 [get_network_details]: [ls]: the convolutions and linear layers in topological order with MACs and weights
    volume; [deps]: the result of [find_dependencies] for a layer *)
Definition to_prune (l : option (list string)) (n : string) : bool := match l with None => true | Some l => existsb (String.eqb n) l end.
Fixpoint ids_from {A} (f : A -> bool) (l : list A) (i : nat) : list nat :=
  match l with [] => [] | x :: l => if f x then i :: ids_from f l (S i) else ids_from f l (S i) end.
(** lines 351-359 [convert_layer_names_to_indices]: of each tuple of dependencies the first name only; an empty tuple has none *)
Definition first_dep (l : alayer) : res (list string) :=
  match al_deps l with None => Ok [] | Some [] => Raise IndexError | Some (d :: _) => Ok [d] end.
Definition get_network_details (ls : list (string * (Q * Q))) (prune : option (list string)) (deps : string -> res (list string)) : res meta :=
  do layers <- foldM (fun acc e =>
      if to_prune prune (fst e) then do d <- deps (fst e); Ok (acc ++ [mkAl (fst e) (fst (snd e)) (snd (snd e)) (Some d)])
      else Ok (acc ++ [mkAl (fst e) (fst (snd e)) (snd (snd e)) None])) ls [];
  do firsts <- foldM (fun acc l => do d <- first_dep l; Ok (acc ++ d)) layers [];
  Ok (mkMeta layers
        (ids_from (fun l => to_prune prune (al_name l)) layers 0)
        (flat_map (fun n => ids_from (fun l => String.eqb (al_name l) n) layers 0) firsts)
        (qsum (map al_macs layers)) (qsum (map al_vol layers))).

(** lines 229-233 [name2layer] *)
Definition name2layer (ls : list alayer) (n : string) : res alayer :=
  match filter (fun l => String.eqb (al_name l) n) ls with [l] => Ok l | _ => Raise ValueError end.
Definition name2id (ls : list alayer) (n : string) : res nat :=
  match ids_from (fun l => String.eqb (al_name l) n) ls 0 with [i] => Ok i | _ => Raise ValueError end.
Definition get_layer (m : meta) (i : nat) : res alayer := match nth_error (m_layers m) i with Some l => Ok l | None => Raise KeyError end.
(** lines 241-243 *)
Definition get_pruned_layer (m : meta) (i : nat) : res alayer := if memn i (m_pruned m) then get_layer m i else Raise AssertionError.
Definition deps_of (l : alayer) : res (list string) := match al_deps l with Some d => Ok d | None => Raise AttributeError end.
(** lines 207-212 [layer_macs] *)
Definition layer_macs (m : meta) (l : alayer) : res Q :=
  do ds <- deps_of l;
  foldM (fun acc d => do l <- name2layer (m_layers m) d; Ok (acc + al_macs l)%Q) ds (al_macs l).
(** lines 214-227 [reduce_layer_macs] *)
Definition cut (r : Q) (l : alayer) : alayer := mkAl (al_name l) (al_macs l - al_macs l * r) (al_vol l - al_vol l * r) (al_deps l).
Definition cut_name (r : Q) (n : string) (ls : list alayer) : list alayer := map (fun l => if String.eqb (al_name l) n then cut r l else l) ls.
Fixpoint cut_at (r : Q) (i : nat) (ls : list alayer) : list alayer :=
  match ls, i with [], _ => [] | l :: ls, O => cut r l :: ls | l :: ls, S i => l :: cut_at r i ls end.
Definition reduce_layer_macs (m : meta) (i : nat) (r : Q) : res meta :=
  do l <- get_layer m i;
  do ds <- deps_of l;
  do s <- foldM (fun (s : list alayer * (Q * Q)) d =>
        do x <- name2layer (fst s) d;
        Ok (cut_name r d (fst s), (fst (snd s) + al_macs x * r, snd (snd s) + al_vol x * r)%Q))
      ds (cut_at r i (m_layers m), (al_macs l * r, al_vol l * r)%Q);
  Ok (mkMeta (fst s) (m_pruned m) (m_dep m) (m_macs m - fst (snd s)) (m_nnz m - snd (snd s))).
(** lines 245-249 *)
Definition is_compressible (m : meta) (i : nat) : bool := memn i (m_pruned m ++ m_dep m).

(** * The environment *)
Inductive algo := AClip | APpo | ADiscrete.     (* DDPG, TD3, Random-policy | ClippedPPO-continuous | ClippedPPO-discrete *)
Record acfg := mkAcfg { c_algo : algo; c_low : Q; c_high : Q; c_constrained : bool; c_density : Q }.
Record env := mkEnv { e_meta : meta; e_state : nat; e_layer : nat; e_prev : Q; e_removed : Q; e_hist : list Q; e_agent : list Q }.

(** environment.py:160-179 [reset] (init_only; else followed by [get_obs], see [episode]); net_wrapper.py:41-44 *)
Definition reset (m0 : meta) : res env :=
  match m_pruned m0 with
  | [] => Raise IndexError
  | i :: _ => Ok (mkEnv m0 0 i 0 0 [] [])
  end.
(** lines 184-185 *)
Definition episode_is_done (e : env) : bool := Nat.eqb (e_state e) (length (m_pruned (e_meta e))).

(** lines 61-74 [adjust_ppo_output] *)
Definition adjust_ppo_output (a high low : Q) : Q := a * ((high - low) / (3 - -(3))) + ((high - low) / 2 + low).
(** lines 219-227 *)
Definition map_action (c : acfg) (a : Q) : Q :=
  match c_algo c with
  | APpo => adjust_ppo_output a (c_high c) (c_low c)
  | AClip => qmin (qmax a (c_low c)) (c_high c)
  | ADiscrete => a / 10
  end.

(** lines 375-401 [rest_macs_raw] *)
Definition rest_ids (m : meta) (cur : nat) (ignore : list nat) : list nat :=
  filter (fun i => is_compressible m i && negb (memn i ignore)) (seq (S cur) (length (m_layers m) - S cur)).
Definition other_ids (m : meta) : list nat := filter (fun i => negb (is_compressible m i)) (seq 0 (length (m_layers m))).
Definition macs_at (m : meta) (i : nat) : Q := match nth_error (m_layers m) i with Some l => al_macs l | None => 0 end.
Definition rest_macs_raw (e : env) : res (Q * Q) :=
  do l <- get_pruned_layer (e_meta e) (e_layer e);
  do ds <- deps_of l;
  do ign <- mapM (name2id (m_layers (e_meta e))) ds;
  Ok (qsum (map (macs_at (e_meta e)) (rest_ids (e_meta e) (e_layer e) ign)), qsum (map (macs_at (e_meta e)) (other_ids (e_meta e)))).
(** rewards.py:59-81 [mac_constrained_clamp_action] *)
Definition clamp_action (c : acfg) (orig : Q) (e : env) (a : Q) : res Q :=
  do l <- get_pruned_layer (e_meta e) (e_layer e);
  do lm <- layer_macs (e_meta e) l;
  if negb (Qltb 0 lm) then Raise AssertionError
  else
    do r <- rest_macs_raw e;
    let rest := fst r * qmin (9 # 10) (c_high c) in
    let target := (1 - c_density c) * orig in
    if negb (Qeq_bool (e_removed e) (orig - m_macs (e_meta e))) then Raise AssertionError
    else let duty := target - (e_removed e + rest) in
         Ok (qmin 1 (qmax a (duty / lm))).

(** environment.py:303-315 [get_obs]: the fields reduced, rest and prev_a of the observation *)
Definition get_obs (orig : Q) (e : env) : res (Q * Q * Q) :=
  do l <- get_pruned_layer (e_meta e) (e_layer e);
  do r <- rest_macs_raw e;
  let rest := (fst r + snd r) / orig in
  if Qle_bool (e_removed e / orig + al_macs l / orig + rest) 1 then Ok (e_removed e / orig, rest, e_prev e) else Raise AssertionError.

Section Env.
Variable cfg : acfg.
(** the MACs of the original network (environment.py:98) *)
Variable orig : Q.
(** the fraction of the structures of the current layer the pruner masks when asked for a fraction: [calculate_sparsity] of
    the mask it sets, 0 if it sets none *)
Variable achieve : env -> Q -> Q.

(** utils/net_wrapper.py:96-164 [remove_structures]: the metadata afterwards and the result *)
Definition remove_structures (e : env) (f : Q) : res (meta * Q) :=
  let m := e_meta e in
  if negb (memn (e_layer e) (m_pruned m)) then Raise ValueError
  else if Qltb f 0 then Raise ValueError
  else if Qeq_bool f 0 then Ok (m, 0)
  else
    let f := if Qeq_bool f 1 then 9999 # 10000 else f in
    do l <- get_pruned_layer m (e_layer e);
    let final := achieve e f in
    if Qeq_bool final 0 then Ok (m, 0)
    else
      do m' <- reduce_layer_macs m (e_layer e) final;
      do l' <- get_layer m' (e_layer e);
      if Qeq_bool (al_macs l) 0 then Raise ZeroDivisionError
      else if Qeq_bool (1 - al_macs l' / al_macs l) final then Ok (m', final)
      else Raise AssertionError.

(** environment.py:203-301 [step]: the environment afterwards and, unless the episode is done, the observation (of the done
    episode it is the last row, untouched).  math.isclose is taken as equality.  Rewards: below. *)
Definition step (e : env) (a : Q) : res (env * option (Q * Q * Q)) :=
  do cur <- get_pruned_layer (e_meta e) (e_layer e);
  let act := map_action cfg a in
  do act <- (if c_constrained cfg then clamp_action cfg orig e act else Ok act);
  do lm <- layer_macs (e_meta e) cur;
  do _ <- rest_macs_raw e;                     (* logged, line 243 *)
  do r <- (if Qltb 0 act then remove_structures e act else Ok (e_meta e, 0));
  let m' := fst r in let act := snd r in
  do cur' <- get_pruned_layer m' (e_layer e);
  do lm' <- layer_macs m' cur';
  let removed := e_removed e + (m_macs (e_meta e) - m_macs m') in
  if Qeq_bool lm 0 then Raise ZeroDivisionError
  else if negb (Qeq_bool (lm' / lm) (1 - act)) then Raise AssertionError
  else
    let st := S (e_state e) in
    let e' := mkEnv m' st (e_layer e) act removed (e_hist e ++ [act]) (e_agent e ++ [a]) in
    if episode_is_done e' then Ok (e', None)
    else match nth_error (m_pruned m') st with
         | None => Raise IndexError
         | Some i =>
             (* get_obs runs before prev_action is updated *)
             let e' := mkEnv m' st i (e_prev e) removed (e_hist e ++ [act]) (e_agent e ++ [a]) in
             do o <- get_obs orig e';
             Ok (mkEnv m' st i act removed (e_hist e ++ [act]) (e_agent e ++ [a]), Some o)
         end.
Definition run_steps (acts : list Q) (e : env) : res env := foldM (fun e a => do r <- step e a; Ok (fst r)) acts e.
Definition episode (m0 : meta) (acts : list Q) : res env := do e <- reset m0; do _ <- get_obs orig e; run_steps acts e.
End Env.

(** * The L1-norm pruner (ranked_structures_pruner.py:127-186, norms.py:272-328): the fraction masked, given the magnitudes of
    the structures (with the noise applied).  Its rounding function is always floor (prune_group does not pass it on). *)
Definition l1_action (mags : list Q) (group : nat) (f : Q) : res Q :=
  let n := length mags in
  let k := num_structs_to_prune n group f Qfloor in
  if Z.eqb k 0 then Ok 0
  else do b <- topk_smallest mags k;
       do keep <- keep_above mags b;
       Ok (1 - qsum keep / Zq (Z.of_nat n)).

(** * Rewards (rewards.py:38-56, 84-107); [top1] in percent *)
Definition reward_mac_constrained (top1 : Q) : Q := top1 / 100.
Definition reward_experimental (orig density top1 macs : Q) : Q :=
  let n := macs / orig in
  if Qltb (density + (2 # 1000)) n then -(3) - n else top1 / 100 + 1.
Definition reward_harmonic (orig top1 macs : Q) : res Q :=
  let n := macs / orig in
  let d := 1 * n + top1 / 100 in
  if Qeq_bool d 0 then Raise ZeroDivisionError else Ok ((1 + 1) * top1 / 100 * n / d).
Definition reward_punish (orig density top1 macs : Q) : Q :=
  let n := macs / orig in
  if Qle_bool n density then top1 / 100 else density - n.

(** * Ends of episodes (environment.py:425-475 [finalize_episode], [save_checkpoint]) *)
(** best reward so far (None: minus infinity), the number of the next episode, and the files written: number, best *)
Record sess := mkSess { s_best : option Q; s_episode : nat; s_files : list (nat * bool); s_rows : list (nat * Q * bool) }.
Definition finalize (save_all : bool) (s : sess) (r : Q) : sess :=
  let best := match s_best s with None => true | Some b => Qltb b r end in
  mkSess (if best then Some r else s_best s) (S (s_episode s))
    (if best || save_all then s_files s ++ [(s_episode s, best)] else s_files s)
    (s_rows s ++ [(s_episode s, r, best)]).
Definition session (save_all : bool) (rs : list Q) : sess := fold_left (finalize save_all) rs (mkSess None 0 [] []).

(** * Observations (environment.py:326-373 [get_model_representation]): normalisation of one feature of all layers *)
Definition normalize_feature (v : list Q) : list Q :=
  match v with
  | [] => []
  | x :: r => let mn := fold_left (fun a b => if Qltb b a then b else a) r x in
              let mx := fold_left (fun a b => if Qltb a b then b else a) r x in
              if Qltb 0 (mx - mn) then map (fun f => (f - mn) / (mx - mn)) v else v
  end.
(** the fields of an observation and the list with which they are filled, lines 338-351, for a convolution *)
Definition obs_fields : list string := ["t"; "type"; "n"; "c"; "h"; "w"; "stride"; "k"; "MACs"; "Weights"; "reduced"; "rest"; "prev_a"].
Definition obs_values : list string := ["t"; "type"; "n"; "c"; "h"; "w"; "stride"; "k"; "Weights"; "MACs"; "reduced"; "rest"; "prev_a"].
