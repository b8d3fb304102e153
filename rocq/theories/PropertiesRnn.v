(** C63: the modular LSTM computes what torch.nn.LSTM computes; C64: conversions between them. *)
From Coq Require Import String List QArith Bool Arith Lia.
From Verif Require Import Base RnnModel RnnSpec RnnProofs.
Import ListNotations.
Open Scope Q_scope.

(* ------------------------------------------------------------------------- *)
(** * C63 *)

(** an input tensor of [B] samples and [T] steps, and its k-th sample *)
Definition input_ok (bf : bool) (B T : nat) (x : list (list vec)) : Prop :=
  if bf then length x = B /\ Forall (fun s => length s = T) x else length x = T /\ Forall (fun s => length s = B) x.
Definition sample_of (bf : bool) (k : nat) (x : list (list vec)) : list vec := if bf then nth k x [] else sample k x.
(** the initial state: given, or zeros *)
Definition state_ok (t : tlstm) (B : nat) (h : option (list batch * list batch)) : Prop :=
  match h with Some (hs, cs) => states_ok (n_states t) B (t_hid t) hs /\ states_ok (n_states t) B (t_hid t) cs | None => True end.
Definition state_h (t : tlstm) (k : nat) (h : option (list batch * list batch)) : list vec :=
  match h with Some (hs, _) => sample k hs | None => repeat (repeat 0 (t_hid t)) (n_states t) end.
Definition state_c (t : tlstm) (k : nat) (h : option (list batch * list batch)) : list vec :=
  match h with Some (_, cs) => sample k cs | None => repeat (repeat 0 (t_hid t)) (n_states t) end.

Lemma fn_rows sigma tanh dr t d x hs cs B : valid_torch t -> d_bidir d = t_bidir t -> length (d_cells d) = t_layers t ->
  length (d_cells_rev d) = (if t_bidir t then t_layers t else 0%nat) -> (forall k, slot d k = t_params t k) ->
  x <> [] -> Forall (fun s => length s = B) x -> states_ok (n_states t) B (t_hid t) hs -> states_ok (n_states t) B (t_hid t) cs ->
  exists y hn cn, forward_fn sigma tanh (if t_bidir t then drop_batch dr else fun _ _ b => b) d x (hs, cs) = Ok (y, (hn, cn)) /\
    length y = length x /\ Forall (fun s => length s = B) y /\ states_ok (n_states t) B (t_hid t) hn /\ states_ok (n_states t) B (t_hid t) cn /\
    forall k, (k < B)%nat -> (sample k y, (sample k hn, sample k cn)) =
      torch_lstm sigma tanh (if t_bidir t then drop_sample dr k else no_drop) t (sample k hs) (sample k cs) (sample k x).
Proof.
  intros V Db L1 L2 Sl Hx Fx Sh Sc. unfold forward_fn, torch_lstm. rewrite Db. cbn [fst snd]. unfold n_states in *. destruct (t_bidir t) eqn:Eb.
  - unfold bidirectional_forward.
    assert (Hc := cells_ok t d false V ltac:(discriminate) L1 Sl). assert (Hcr := cells_ok t d true V (fun _ => Eb) L2 Sl). cbn in Hc, Hcr.
    rewrite <- L1 in Sh, Sc.
    destruct (bidi_rows sigma tanh (t_hid t) dr (d_cells d) (d_cells_rev d) 0 hs cs x B ltac:(lia) Hc Hcr Sh Sc Hx Fx) as (y & hn & cn & E & A1 & A2 & A3 & A4 & A5).
    rewrite E. cbn [bind fst snd]. exists y, hn, cn. rewrite L1 in A3, A4. repeat (split; [assumption || reflexivity|]).
    intros k Hk. rewrite (A5 k Hk). rewrite <- (torch_layers_cells d false t L1 Sl), <- (torch_layers_cells d true t L2 Sl). reflexivity.
  - unfold process_layer_wise. destruct x as [|s x]; [congruence|].
    assert (Hc := cells_ok t d false V ltac:(discriminate) L1 Sl). cbn in Hc. rewrite <- L1 in Sh, Sc.
    destruct (steps_rows sigma tanh (t_hid t) (d_cells d) (s :: x) 0 hs cs B Hc Sh Sc Fx) as (y & hn & cn & E & A1 & A2 & A3 & A4 & A5).
    unfold nodrop in E. rewrite E. cbn [bind fst snd]. exists y, hn, cn. rewrite L1 in A3, A4. repeat (split; [assumption || reflexivity|]).
    intros k Hk. rewrite (A5 k Hk). rewrite <- (torch_layers_cells d false t L1 Sl). reflexivity.
Qed.

Lemma init_ok t d B : d_hid d = t_hid t -> d_layers d = t_layers t -> d_bidir d = t_bidir t ->
  init_hidden d B = (repeat (repeat (zeros (t_hid t)) B) (n_states t), repeat (repeat (zeros (t_hid t)) B) (n_states t)) /\
  states_ok (n_states t) B (t_hid t) (repeat (repeat (zeros (t_hid t)) B) (n_states t)) /\
  forall k, (k < B)%nat -> sample k (repeat (repeat (zeros (t_hid t)) B) (n_states t)) = repeat (repeat 0 (t_hid t)) (n_states t).
Proof.
  intros E1 E2 E3. unfold init_hidden, n_states. rewrite E1, E2, E3. split; [auto|]. split.
  - split; [apply repeat_length|]. apply Forall_forall. intros b Hb. apply repeat_spec in Hb. subst b. split; [apply repeat_length|].
    apply Forall_forall. intros r Hr. apply repeat_spec in Hr. subst r. apply repeat_length.
  - intros k Hk. unfold sample. generalize (if t_bidir t then (2 * t_layers t)%nat else t_layers t). intro n. induction n as [|n IH]; [auto|]. cbn [repeat map]. rewrite IH. f_equal.
    assert (N : nth k (repeat (zeros (t_hid t)) B) [] = zeros (t_hid t)); [|exact N].
    clear IH n. revert k Hk. induction B as [|B IHB]; intros k Hk; [lia|]. destruct k; cbn; auto. apply IHB. lia.
Qed.

Lemma nth_self {A} (l : list A) d : map (fun i => nth i l d) (seq 0 (length l)) = l.
Proof.
  apply (nth_ext _ _ d d); [rewrite map_length, seq_length; auto|]. intros i Hi. rewrite map_length, seq_length in Hi.
  rewrite (nth_map' _ _ _ 0%nat) by (rewrite seq_length; auto). rewrite seq_nth by auto. auto.
Qed.
Lemma transpose_sample n x k : (k < length x)%nat -> length (nth k x []) = n -> sample k (transpose n x) = nth k x [].
Proof.
  intros Hk Hn. unfold sample, transpose. rewrite map_map.
  transitivity (map (fun i => nth i (nth k x []) []) (seq 0 n)); [|subst n; apply nth_self].
  apply map_ext. intro i. rewrite (nth_map' (fun s => nth i s []) x k [] []) by auto. auto.
Qed.
Lemma transpose_nth n y k : (k < n)%nat -> nth k (transpose n y) [] = sample k y.
Proof.
  intro Hk. unfold transpose. rewrite (nth_map' _ (seq 0 n) _ 0%nat) by (rewrite seq_length; auto). rewrite seq_nth by auto. auto.
Qed.
Lemma transpose_shape n x : length (transpose n x) = n /\ Forall (fun s => length s = length x) (transpose n x).
Proof.
  unfold transpose. split; [rewrite map_length, seq_length; auto|]. apply Forall_forall. intros s Hs. apply in_map_iff in Hs. destruct Hs as (i & <- & _). apply map_length.
Qed.

(** C63: for every LSTM of torch.nn (any sizes, layers, directions, batch_first, with or without bias), the converted module
    computes, on every input of at least one sample and one step and from any state, for each sample the outputs and the
    final states that nn.LSTM computes for that sample; unidirectional without dropout, bidirectional under any dropout. *)
Theorem C63_forward : forall sigma tanh fresh dr t d x h B T, fresh_ok fresh -> valid_torch t -> from_pytorch fresh t = Ok d ->
  (1 <= B)%nat -> (1 <= T)%nat -> input_ok (t_batch_first t) B T x -> state_ok t B h ->
  exists y hn cn, forward sigma tanh (if t_bidir t then drop_batch dr else fun _ _ b => b) d x h = Ok (y, (hn, cn)) /\
    input_ok (t_batch_first t) B T y /\ states_ok (n_states t) B (t_hid t) hn /\ states_ok (n_states t) B (t_hid t) cn /\
    forall k, (k < B)%nat ->
      (sample_of (t_batch_first t) k y, (sample k hn, sample k cn)) =
      torch_lstm sigma tanh (if t_bidir t then drop_sample dr k else no_drop) t (state_h t k h) (state_c t k h) (sample_of (t_batch_first t) k x).
Proof.
  intros sigma tanh fresh dr t d x h B T Fr V E HB HT Hx Hh.
  destruct (from_pytorch_spec fresh t Fr V) as (d' & E' & D1 & D2 & D3 & D4 & D5 & D6 & D7 & L1 & L2 & Sl & _). rewrite E in E'. injection E' as <-.
  unfold forward. rewrite D5. set (bf := t_batch_first t) in *.
  set (x' := if bf then transpose (width x) x else x).
  assert (X : length x' = T /\ Forall (fun s => length s = B) x' /\ width x' = B /\ forall k, (k < B)%nat -> sample k x' = sample_of bf k x).
  { assert (W : forall z, length z = T -> Forall (fun s : list vec => length s = B) z -> width z = B) by (intros [|s z] K1 K2; [cbn in K1; lia|inversion K2; auto]).
    unfold x', input_ok, sample_of in *. destruct bf; destruct Hx as (Hx1 & Hx2).
    - assert (Wx : width x = T) by (destruct x; [cbn in Hx1; lia|inversion Hx2; auto]). rewrite Wx.
      destruct (transpose_shape T x) as (A1 & A2). rewrite Hx1 in A2. repeat split; auto.
      intros k Hk. apply transpose_sample; [lia|]. rewrite Forall_forall in Hx2. apply Hx2, nth_In. lia.
    - repeat split; auto. }
  destruct X as (X1 & X2 & X3 & X4). rewrite X3.
  destruct (init_ok t d B D2 D3 D7) as (I1 & I2 & I3).
  assert (St : exists hs cs, match h with Some h => h | None => init_hidden d B end = (hs, cs) /\ states_ok (n_states t) B (t_hid t) hs /\ states_ok (n_states t) B (t_hid t) cs /\
            forall k, (k < B)%nat -> sample k hs = state_h t k h /\ sample k cs = state_c t k h).
  { destruct h as [(hs, cs)|]; [exists hs, cs; destruct Hh; auto|]. rewrite I1. eexists _, _. split; [reflexivity|]. split; auto. }
  destruct St as (hs & cs & -> & S1 & S2 & S3).
  assert (Hne : x' <> []) by (intro K; rewrite K in X1; cbn in X1; lia).
  destruct (fn_rows sigma tanh dr t d x' hs cs B V D7 L1 L2 Sl Hne X2 S1 S2) as (y & hn & cn & EE & Y1 & Y2 & Y3 & Y4 & Y5).
  rewrite EE. cbn [bind fst snd]. eexists _, hn, cn. split; [reflexivity|].
  assert (Yw : width y = B) by (destruct y; [cbn in Y1; lia|inversion Y2; auto]). rewrite Yw.
  split; [|split; [auto|split; [auto|]]].
  - unfold input_ok. destruct bf; [|split; [lia|auto]]. destruct (transpose_shape B y) as (A1 & A2). split; auto. eapply Forall_impl; [|exact A2]. cbn. intros; lia.
  - intros k Hk. destruct (S3 k Hk) as (<- & <-). rewrite <- (X4 k Hk), <- (Y5 k Hk). f_equal. unfold sample_of. destruct bf; auto. apply transpose_nth; auto.
Qed.

(** non-increasing positive lengths *)
Definition sorted_lengths (seqs : list (list vec)) : Prop :=
  Forall (fun s => s <> []) seqs /\ forall i j, (i <= j < length seqs)%nat -> (length (nth j seqs []) <= length (nth i seqs []))%nat.

Lemma packable_sorted seqs : sorted_lengths seqs -> packable (map (@length vec) seqs) = true.
Proof.
  intros (F & S). induction seqs as [|s seqs IH]; [auto|]. inversion F; subst. cbn [map packable]. rewrite IH; auto.
  - destruct s; [congruence|]. cbn [length]. rewrite andb_true_r. cbn [Nat.ltb Nat.leb andb]. destruct seqs as [|s2 seqs]; [auto|]. cbn [map]. apply Nat.leb_le. apply (S 0%nat 1%nat). cbn. lia.
  - intros i j Hij. apply (S (Datatypes.S i) (Datatypes.S j)). cbn. lia.
Qed.

Lemma packed_rows_spec sigma tanh dr t d hs cs B : valid_torch t -> d_bidir d = t_bidir t -> length (d_cells d) = t_layers t ->
  length (d_cells_rev d) = (if t_bidir t then t_layers t else 0%nat) -> (forall k, slot d k = t_params t k) ->
  states_ok (n_states t) B (t_hid t) hs -> states_ok (n_states t) B (t_hid t) cs ->
  forall seqs i, (i + length seqs <= B)%nat -> Forall (fun s => s <> []) seqs ->
  exists rs, packed_rows sigma tanh (if t_bidir t then drop_batch dr else fun _ _ b => b) d (hs, cs) i seqs = Ok rs /\ length rs = length seqs /\
    forall k, (k < length seqs)%nat -> exists y hn cn, nth k rs ([], ([], [])) = (y, (hn, cn)) /\ length y = length (nth k seqs []) /\
      states_ok (n_states t) 1 (t_hid t) hn /\ states_ok (n_states t) 1 (t_hid t) cn /\
      (y, (sample 0 hn, sample 0 cn)) = torch_lstm sigma tanh (if t_bidir t then drop_sample dr 0 else no_drop) t (sample (i + k) hs) (sample (i + k) cs) (nth k seqs []).
Proof.
  intros V Db L1 L2 Sl Sh Sc. induction seqs as [|s seqs IH]; intros i Hi Hf.
  - exists []. split; [reflexivity|]. split; auto. cbn. intros; lia.
  - inversion Hf as [|? ? Hs Hf']; subst. cbn [packed_rows fst snd].
    assert (P : forall h, states_ok (n_states t) B (t_hid t) h -> states_ok (n_states t) 1 (t_hid t) (pick i h) /\ sample 0 (pick i h) = sample i h).
    { intros h (A1 & A2). split.
      - split; [unfold pick; rewrite map_length; auto|]. unfold pick. apply Forall_forall. intros b Hb. apply in_map_iff in Hb. destruct Hb as (b0 & <- & Hb0).
        rewrite Forall_forall in A2. specialize (A2 b0 Hb0). split; [auto|]. repeat constructor. apply (rect_row B); auto. cbn in Hi. lia.
      - unfold sample, pick. rewrite map_map. auto. }
    destruct (P hs Sh) as (P1 & P2). destruct (P cs Sc) as (P3 & P4).
    assert (Hne : map (fun v : vec => [v]) s <> []) by (destruct s; [congruence|discriminate]).
    assert (F1 : Forall (fun b : batch => length b = 1%nat) (map (fun v => [v]) s)) by (apply Forall_forall; intros b Hb; apply in_map_iff in Hb; destruct Hb as (v & <- & _); auto).
    destruct (fn_rows sigma tanh dr t d _ _ _ 1 V Db L1 L2 Sl Hne F1 P1 P3) as (y & hn & cn & E & Y1 & Y2 & Y3 & Y4 & Y5).
    rewrite E. cbn [bind fst snd]. destruct (IH (S i) ltac:(cbn in Hi; lia) Hf') as (rs & E' & Lr & Rw). rewrite E'. cbn [bind fst snd].
    eexists. split; [reflexivity|]. split; [cbn; lia|]. intros [|k] Hk.
    + exists (map (fun b => nth 0 b []) y), hn, cn. cbn [nth]. rewrite Nat.add_0_r. split; [auto|]. split; [rewrite map_length, Y1, map_length; auto|]. split; [auto|]. split; [auto|].
      specialize (Y5 0%nat ltac:(lia)). rewrite P2, P4 in Y5. change (map (fun b => nth 0 b []) y) with (sample 0 y). rewrite Y5. f_equal.
      unfold sample. rewrite map_map. cbn. rewrite map_id. auto.
    + cbn [nth]. replace (i + S k)%nat with (S i + k)%nat by lia. apply Rw. cbn in Hk. lia.
Qed.

Lemma cat_states_nth l : forall n k, Forall (fun hs : list batch => length hs = n /\ Forall (fun b => length b = 1%nat) hs) l -> (k < length l)%nat ->
  sample k (cat_states n l) = sample 0 (nth k l []).
Proof.
  intros n k F Hk. unfold sample, cat_states. rewrite map_map.
  assert (Ek : length (nth k l []) = n) by (rewrite Forall_forall in F; apply F, nth_In; auto).
  transitivity (map (fun j => nth 0 (nth j (nth k l []) []) []) (seq 0 n)).
  2:{ rewrite <- Ek at 1. rewrite <- (map_map (fun j => nth j (nth k l []) []) (fun b => nth 0 b [])). rewrite nth_self. auto. }
  apply map_ext_in. intros j Hj. apply in_seq in Hj. clear Ek. revert k Hk. induction l as [|hs l IH]; intros k Hk; [cbn in Hk; lia|].
  inversion F as [|? ? (A1 & A2) F']; subst. cbn [flat_map].
  assert (L1 : length (nth j hs []) = 1%nat) by (rewrite Forall_forall in A2; apply A2, nth_In; lia).
  destruct (nth j hs []) as [|v [|]] eqn:En; try discriminate. destruct k; cbn [app nth]; [rewrite En; auto|]. apply IH; auto. cbn in Hk. lia.
Qed.

(** C63: on packed sequences of non-increasing lengths (enforce_sorted), each sequence is processed exactly as nn.LSTM does. *)
Theorem C63_packed : forall sigma tanh fresh dr t d seqs h, fresh_ok fresh -> valid_torch t -> from_pytorch fresh t = Ok d ->
  seqs <> [] -> sorted_lengths seqs -> state_ok t (length seqs) h ->
  exists ys hn cn, packed_forward sigma tanh (if t_bidir t then drop_batch dr else fun _ _ b => b) d seqs h = Ok (ys, (hn, cn)) /\ length ys = length seqs /\
    forall k, (k < length seqs)%nat ->
      (nth k ys [], (sample k hn, sample k cn)) =
      torch_lstm sigma tanh (if t_bidir t then drop_sample dr 0 else no_drop) t (state_h t k h) (state_c t k h) (nth k seqs []).
Proof.
  intros sigma tanh fresh dr t d seqs h Fr V E Hne So Hh.
  destruct (from_pytorch_spec fresh t Fr V) as (d' & E' & D1 & D2 & D3 & D4 & D5 & D6 & D7 & L1 & L2 & Sl & _). rewrite E in E'. injection E' as <-.
  unfold packed_forward. destruct (init_ok t d (length seqs) D2 D3 D7) as (I1 & I2 & I3).
  assert (St : exists hs cs, match h with Some h => h | None => init_hidden d (length seqs) end = (hs, cs) /\ states_ok (n_states t) (length seqs) (t_hid t) hs /\ states_ok (n_states t) (length seqs) (t_hid t) cs /\
            forall k, (k < length seqs)%nat -> sample k hs = state_h t k h /\ sample k cs = state_c t k h).
  { destruct h as [(hs, cs)|]; [exists hs, cs; destruct Hh; auto|]. rewrite I1. eexists _, _. split; [reflexivity|]. split; auto. }
  destruct St as (hs & cs & -> & S1 & S2 & S3).
  destruct (packed_rows_spec sigma tanh dr t d hs cs (length seqs) V D7 L1 L2 Sl S1 S2 seqs 0 ltac:(lia) (proj1 So)) as (rs & Er & Lr & Rw).
  rewrite Er. cbn [bind].
  assert (Lens : map (@length vec) (map fst rs) = map (@length vec) seqs).
  { apply (nth_ext _ _ 0%nat 0%nat); [rewrite !map_length; auto|]. intros k Hk. rewrite !map_length in Hk. rewrite map_map.
    rewrite (nth_map' _ rs _ ([], ([], []))) by auto. rewrite (nth_map' _ seqs _ []) by lia. destruct (Rw k ltac:(lia)) as (y & hn & cn & -> & Ly & _). auto. }
  unfold pack_sequence. rewrite Lens, packable_sorted by auto.
  destruct rs as [|r0 rs0] eqn:Ers; [destruct seqs; [congruence|discriminate]|]. rewrite <- Ers in *. replace (match map fst rs with [] => Raise RuntimeError | _ :: _ => Ok (map fst rs) end) with (Ok (map fst rs)) by (rewrite Ers; auto).
  cbn [bind]. 
  assert (N : length (fst (snd r0)) = n_states t).
  { destruct (Rw 0%nat ltac:(destruct seqs; [congruence|cbn; lia])) as (y & hn & cn & En & _ & (A & _) & _). rewrite Ers in En. cbn [nth] in En. subst r0. auto. }
  rewrite N.
  eexists _, _, _. split; [reflexivity|]. split; [rewrite map_length; auto|]. intros k Hk.
  destruct (S3 k Hk) as (<- & <-). destruct (Rw k Hk) as (y & hn & cn & En & _ & A & B & Eq). cbn [Nat.add] in Eq. rewrite <- Eq.
  assert (FA : forall (f : list vec * (list batch * list batch) -> list batch), (forall j, (j < length seqs)%nat -> states_ok (n_states t) 1 (t_hid t) (f (nth j rs ([], ([], []))))) ->
            Forall (fun hs : list batch => length hs = n_states t /\ Forall (fun b => length b = 1%nat) hs) (map f rs)).
  { intros f Hf. apply Forall_forall. intros z Hz. apply in_map_iff in Hz. destruct Hz as (r & <- & Hr). destruct (In_nth _ _ ([], ([], [])) Hr) as (j & Hj & <-).
    destruct (Hf j ltac:(lia)) as (K1 & K2). split; auto. eapply Forall_impl; [|exact K2]. intros b Kb. apply Kb. }
  rewrite (nth_map' fst rs k ([], ([], []))) by lia. rewrite En. cbn [fst]. f_equal. f_equal.
  - rewrite cat_states_nth; [|apply (FA (fun r => fst (snd r))); intros j Hj; destruct (Rw j Hj) as (y' & hn' & cn' & Ej & _ & K & _); rewrite Ej; exact K|rewrite map_length; lia].
    rewrite (nth_map' (fun r => fst (snd r)) rs k ([], ([], []))) by lia. rewrite En. auto.
  - rewrite cat_states_nth; [|apply (FA (fun r => snd (snd r))); intros j Hj; destruct (Rw j Hj) as (y' & hn' & cn' & Ej & _ & _ & K & _); rewrite Ej; exact K|rewrite map_length; lia].
    rewrite (nth_map' (fun r => snd (snd r)) rs k ([], ([], []))) by lia. rewrite En. auto.
Qed.

(** C63, the limits.  With dropout between the layers of a unidirectional LSTM (training), the output that went through
    the dropout is also what the layer receives back at the next step: with the very same dropout masks, nn.LSTM gives
    another output. *)
Definition ones_lstm : tlstm :=
  mkT 1 1 2 false false (1 # 2) false
    (fun k => match k with (true, _, 0%nat, false) | (true, _, 1%nat, false) => Some [[1]; [1]; [1]; [1]] | _ => None end).
Definition fresh0 : nat -> nat -> bool -> cell := fun i h b =>
  mkCell i h (mkLin (repeat (zeros i) (4 * h)) (if b then Some (zeros (4 * h)) else None)) (mkLin (repeat (zeros h) (4 * h)) (if b then Some (zeros (4 * h)) else None)).
Lemma fresh0_ok : fresh_ok fresh0.
Proof. intros i h b. repeat split; destruct b; auto; discriminate. Qed.
Lemma ones_valid : valid_torch ones_lstm.
Proof.
  unfold valid_torch, ones_lstm. cbn [t_layers t_hid t_bias t_bidir t_params]. split; [lia|]. split; [|split].
  - intros g i r Hi Hr. destruct r; [specialize (Hr eq_refl); discriminate|]. destruct i as [|[|]]; [| |lia]; eexists; split; try reflexivity; auto.
  - intros g i r Hi Hr. destruct r; [specialize (Hr eq_refl); discriminate|]. auto.
  - intros w g i r [H|(-> & _)]; destruct w; auto; destruct i as [|[|]]; auto; cbn in H; lia.
Qed.

Theorem C63_dropout_recurrent_refuted : exists sigma tanh fresh dr t d x y s, fresh_ok fresh /\ valid_torch t /\ t_bidir t = false /\ from_pytorch fresh t = Ok d /\
  input_ok (t_batch_first t) 1 2 x /\
  forward sigma tanh (drop_batch dr) d x None = Ok (y, s) /\
  ~ Forall2 (Forall2 Qeq) (sample_of (t_batch_first t) 0 y) (fst (torch_lstm sigma tanh (drop_sample dr 0) t (state_h t 0 None) (state_c t 0 None) (sample_of (t_batch_first t) 0 x))).
Proof.
  exists (fun _ => 1), (fun x => x), fresh0, (fun t i k v => if Nat.eqb t 0 then map (fun _ => 0) v else v), ones_lstm. destruct (from_pytorch fresh0 ones_lstm) as [d|] eqn:E; [|vm_compute in E; discriminate].
  exists d, [[[1]]; [[1]]]. vm_compute in E. injection E as <-. eexists _, _. split; [apply fresh0_ok|]. split; [apply ones_valid|].
  split; [auto|]. split; [auto|]. split; [cbn; split; auto|]. split; [vm_compute; reflexivity|]. vm_compute. intro F.
  inversion F as [|? ? ? ? _ F2]; subst. inversion F2 as [|? ? ? ? F3 _]; subst. inversion F3 as [|? ? ? ? F4 _]; subst. discriminate F4.
Qed.

(** Without a state, the LSTM cell makes a zero state with as many rows as the input has columns: an input of [B] samples
    of [n] values each is rejected, and a single sample gives [n] rows instead of one. *)
Theorem C63_cell_no_state_refuted : forall sigma tanh c x B n, length x = B -> Forall (fun r => length r = n) x -> (2 <= B)%nat -> n <> B -> n <> 1%nat ->
  cell_forward sigma tanh c x None = Raise RuntimeError.
Proof.
  intros sigma tanh c x B n L F HB Hn1 Hn2. unfold cell_forward. destruct x as [|r x]; [cbn in L; lia|]. assert (Hr : length r = n) by (inversion F; auto). rewrite Hr.
  unfold bop. rewrite !map_length, repeat_length, L. destruct (Nat.eqb_spec B n) as [K|_]; [congruence|].
  destruct x as [|r2 x]; [cbn in L; lia|]. destruct n as [|[|n]]; cbn; auto. congruence.
Qed.

Theorem C63_cell_no_state_rows_refuted : forall sigma tanh c r n, length r = n -> (2 <= n)%nat -> cell_ok (c_hid c) c ->
  exists h' c', cell_forward sigma tanh c [r] None = Ok (h', c') /\ length h' = n.
Proof.
  intros sigma tanh c r n L Hn Hc. unfold cell_forward. rewrite L. cbn [map]. unfold bop at 1. rewrite map_length, repeat_length. cbn [length].
  destruct n as [|[|n]]; try lia. cbn [Nat.eqb bind]. set (l := repeat _ (S (S n))).
  assert (Ll : length l = S (S n)) by apply repeat_length.

  set (G := map (map2 Qplus (lin_fwd (fc_x c) r)) (map (lin_fwd (fc_h c)) l)).
  assert (LG : length G = S (S n)) by (unfold G; rewrite !map_length; auto).
  assert (M2 : forall (f : Q -> Q -> Q) a b, length a = S (S n) -> length b = S (S n) -> length (map2 (map2 f) a b) = S (S n)) by (intros; rewrite map2_length; lia).
  assert (Mm : forall (f : list Q -> list Q), length (map f G) = S (S n)) by (intros; rewrite map_length; auto).
  rewrite bop_ok by (rewrite Mm; auto). cbn [bind]. rewrite bop_ok by (rewrite !Mm; auto). cbn [bind].
  rewrite bop_ok by (rewrite !M2; auto; rewrite Mm; auto). cbn [bind].
  rewrite bop_ok by (rewrite Mm, map_length, !M2; auto; rewrite !M2; auto). cbn [bind].
  eexists _, _. split; [reflexivity|]. rewrite M2; auto. rewrite map_length, !M2; auto; rewrite !M2; auto.
Qed.

Lemma packable_adj l : packable l = true -> forall i, (S i < length l)%nat -> (nth (S i) l 0 <= nth i l 0)%nat.
Proof.
  induction l as [|n l IH]; intros H i Hi; [cbn in Hi; lia|]. cbn [packable] in H. apply andb_prop in H. destruct H as (H & H3). apply andb_prop in H. destruct H as (_ & H2).
  destruct i.
  - destruct l as [|m l]; [cbn in Hi; lia|]. apply Nat.leb_le in H2. exact H2.
  - apply (IH H3 i). cbn in Hi. lia.
Qed.

(** Packed sequences whose lengths increase somewhere (packed with enforce_sorted=False, which nn.LSTM accepts) are
    rejected after all the computation. *)
Theorem C63_packed_unsorted_refuted : forall sigma tanh fresh dr t d seqs h i, fresh_ok fresh -> valid_torch t -> from_pytorch fresh t = Ok d ->
  Forall (fun s => s <> []) seqs -> (S i < length seqs)%nat -> (length (nth i seqs []) < length (nth (S i) seqs []))%nat -> state_ok t (length seqs) h ->
  packed_forward sigma tanh (if t_bidir t then drop_batch dr else fun _ _ b => b) d seqs h = Raise RuntimeError.
Proof.
  intros sigma tanh fresh dr t d seqs h i Fr V E Hne Hi Hlt Hh.
  destruct (from_pytorch_spec fresh t Fr V) as (d' & E' & D1 & D2 & D3 & D4 & D5 & D6 & D7 & L1 & L2 & Sl & _). rewrite E in E'. injection E' as <-.
  unfold packed_forward. destruct (init_ok t d (length seqs) D2 D3 D7) as (I1 & I2 & I3).
  assert (St : exists hs cs, match h with Some h => h | None => init_hidden d (length seqs) end = (hs, cs) /\ states_ok (n_states t) (length seqs) (t_hid t) hs /\ states_ok (n_states t) (length seqs) (t_hid t) cs).
  { destruct h as [(hs, cs)|]; [exists hs, cs; destruct Hh; auto|]. rewrite I1. eexists _, _. split; [reflexivity|]. split; auto. }
  destruct St as (hs & cs & -> & S1 & S2).
  destruct (packed_rows_spec sigma tanh dr t d hs cs (length seqs) V D7 L1 L2 Sl S1 S2 seqs 0 ltac:(lia) Hne) as (rs & Er & Lr & Rw).
  rewrite Er. cbn [bind].
  assert (Lens : map (@length vec) (map fst rs) = map (@length vec) seqs).
  { apply (nth_ext _ _ 0%nat 0%nat); [rewrite !map_length; auto|]. intros k Hk. rewrite !map_length in Hk. rewrite map_map.
    rewrite (nth_map' _ rs _ ([], ([], []))) by auto. rewrite (nth_map' _ seqs _ []) by lia. destruct (Rw k ltac:(lia)) as (y & hn & cn & -> & Ly & _). auto. }
  unfold pack_sequence. rewrite Lens. destruct (packable (map (@length vec) seqs)) eqn:Ep.
  - exfalso. assert (A := packable_adj _ Ep i ltac:(rewrite map_length; auto)). rewrite !(nth_map' _ seqs _ []) in A by lia. lia.
  - destruct rs as [|r0 rs]; auto.
Qed.

(** Witnesses *)
Definition ones_dlstm : dlstm := mkD 1 1 2 false false (1 # 2) false
  [mkCell 1 1 (mkLin [[1]; [1]; [1]; [1]] None) (mkLin [[1]; [1]; [1]; [1]] None); mkCell 1 1 (mkLin [[1]; [1]; [1]; [1]] None) (mkLin [[1]; [1]; [1]; [1]] None)] [].
Example ones_from : from_pytorch fresh0 ones_lstm = Ok ones_dlstm.
Proof. reflexivity. Qed.
Example C63_forward_case : exists s, forward (fun _ => 1) (fun x => x) (fun _ _ b => b) ones_dlstm [[[1]; [2]]; [[1]; [0]]; [[-1]; [3]]] None = Ok ([[[1]; [2]]; [[5]; [8]]; [[15]; [27]]], s).
Proof. eexists. vm_compute. reflexivity. Qed.
Example C63_packed_case : exists s, packed_forward (fun _ => 1) (fun x => x) (fun _ _ b => b) ones_dlstm [[[1]; [1]]; [[2]]] None = Ok ([[[1]; [5]]; [[2]]], s).
Proof. eexists. vm_compute. reflexivity. Qed.
Example C63_unsorted_case : packed_forward (fun _ => 1) (fun x => x) (fun _ _ b => b) ones_dlstm [[[2]]; [[1]; [1]]] None = Raise RuntimeError.
Proof. reflexivity. Qed.
Example C63_cell_case : cell_forward (fun _ => 1) (fun x => x) (fresh0 2 1 true) [[1; 2]; [3; 4]; [5; 6]] None = Raise RuntimeError /\
  exists c', cell_forward (fun _ => 1) (fun x => x) (fresh0 2 1 true) [[1; 2]] None = Ok ([[0]; [0]], c').
Proof. split; [reflexivity|]. eexists. vm_compute. reflexivity. Qed.

(* ------------------------------------------------------------------------- *)
(** * C64 *)

Lemma to_fold m keys : forall f f', foldM (to_step m) keys f = Ok f' -> forall k, f' k = if existsb (pkey_eqb k) keys then slot m k else f k.
Proof.
  induction keys as [|k0 keys IH]; intros f f' E k.
  - injection E as <-. auto.
  - cbn [foldM] in E. inv_bind E. rewrite (IH _ _ E). cbn [existsb]. destruct (existsb (pkey_eqb k) keys); [rewrite orb_true_r; auto|]. rewrite orb_false_r.
    destruct k0 as (((w, g), i), r). unfold to_step in H. destruct (nth_error _ i) as [c|] eqn:En; [|discriminate]. inv_bind H. injection H as <-.
    unfold set_param. destruct (pkey_eqb k (w, g, i, r)) eqn:Ek; auto. apply pkey_eqb_spec in Ek. subst k. unfold slot. rewrite En. unfold get_cell in H0. unfold slot_cell.
    destruct w; [injection H0 as <-; auto|]. destruct (l_b _); [|discriminate]. injection H0 as <-. auto.
Qed.
Lemma to_fold_ok m keys : forall f, (forall k, In k keys -> slot m k <> None) -> exists f', foldM (to_step m) keys f = Ok f'.
Proof.
  induction keys as [|k0 keys IH]; intros f H; [eexists; reflexivity|]. cbn [foldM]. destruct k0 as (((w, g), i), r).
  assert (S0 := H _ (or_introl eq_refl)). unfold slot in S0. unfold to_step at 1. destruct (nth_error _ i) as [c|]; [|congruence].
  unfold get_cell. unfold slot_cell in S0. destruct w; [cbn [bind]; apply IH; intros; apply H; right; auto|].
  destruct (l_b _); [|congruence]. cbn [bind]. apply IH. intros; apply H; right; auto.
Qed.
Lemma in_existsb k keys : existsb (pkey_eqb k) keys = true <-> In k keys.
Proof.
  rewrite existsb_exists. split; [intros (x & Hx & E); apply pkey_eqb_spec in E; subst; auto|]. intro H. exists k. split; auto. apply pkey_eqb_spec. auto.
Qed.

(** C64: converting an nn.LSTM and converting back gives the same configuration and the same parameters. *)
Theorem C64_to_from : forall fresh freshp t d, fresh_ok fresh -> freshp_ok freshp (t_layers t) (t_bias t) (t_bidir t) -> valid_torch t -> from_pytorch fresh t = Ok d ->
  exists t', to_pytorch freshp d = Ok t' /\
    t_in t' = t_in t /\ t_hid t' = t_hid t /\ t_layers t' = t_layers t /\ t_bias t' = t_bias t /\ t_batch_first t' = t_batch_first t /\
    t_dropout t' = t_dropout t /\ t_bidir t' = t_bidir t /\ forall k, t_params t' k = t_params t k.
Proof.
  intros fresh freshp t d Fr Fp V E.
  destruct (from_pytorch_spec fresh t Fr V) as (d' & E' & D1 & D2 & D3 & D4 & D5 & D6 & D7 & L1 & L2 & Sl & _). rewrite E in E'. injection E' as <-.
  assert (V' := V). destruct V' as (V1 & V2 & V3 & V4). unfold to_pytorch. rewrite D3, D4, D7.
  destruct (to_fold_ok d (all_keys (t_layers t) (t_bias t) (t_bidir t)) freshp) as (f' & Ef).
  { intros (((w, g), i), r) Hk. rewrite Sl. apply in_all_keys in Hk. destruct Hk as (Hi & Hw & Hr). destruct w.
    - destruct (V2 g i r Hi Hr) as (x & -> & _). discriminate.
    - specialize (V3 g i r Hi Hr). rewrite Hw in V3 by auto. destruct V3 as (x & -> & _). discriminate. }
  rewrite Ef. cbn [bind]. eexists. split; [reflexivity|]. cbn. repeat (split; [assumption || reflexivity|]).
  intros (((w, g), i), r). rewrite (to_fold _ _ _ _ Ef). destruct (existsb _ _) eqn:Ex; [apply Sl|].
  destruct (le_lt_dec (t_layers t) i) as [Hi|Hi]; [rewrite Fp, V4 by auto; auto|].
  destruct (Bool.bool_dec r true) as [->|Hr].
  - destruct (t_bidir t) eqn:Eb; [|rewrite Fp, V4 by auto; auto]. destruct w, (t_bias t) eqn:Ebi.
    + exfalso. assert (Hin : In (true, g, i, true) (all_keys (t_layers t) true true)) by (apply in_all_keys; auto). apply in_existsb in Hin. congruence.
    + exfalso. assert (Hin : In (true, g, i, true) (all_keys (t_layers t) false true)) by (apply in_all_keys; repeat split; auto; discriminate). apply in_existsb in Hin. congruence.
    + exfalso. assert (Hin : In (false, g, i, true) (all_keys (t_layers t) true true)) by (apply in_all_keys; auto). apply in_existsb in Hin. congruence.
    + rewrite Fp by auto. symmetry. apply (V3 g i true Hi). auto.
  - destruct r; [congruence|]. destruct w, (t_bias t) eqn:Ebi.
    + exfalso. assert (Hin : In (true, g, i, false) (all_keys (t_layers t) true (t_bidir t))) by (apply in_all_keys; repeat split; auto; discriminate). apply in_existsb in Hin. congruence.
    + exfalso. assert (Hin : In (true, g, i, false) (all_keys (t_layers t) false (t_bidir t))) by (apply in_all_keys; repeat split; auto; discriminate). apply in_existsb in Hin. congruence.
    + exfalso. assert (Hin : In (false, g, i, false) (all_keys (t_layers t) true (t_bidir t))) by (apply in_all_keys; repeat split; auto; discriminate). apply in_existsb in Hin. congruence.
    + rewrite Fp by auto. symmetry. apply (V3 g i false Hi). discriminate.
Qed.

Lemma cell_slots c c' : c_in c = c_in c' -> c_hid c = c_hid c' -> (forall g w, slot_cell c g w = slot_cell c' g w) -> c = c'.
Proof.
  intros Ei Eh Es. destruct c as [i h (wx, bx) (wh, bh)], c' as [i' h' (wx', bx') (wh', bh')]. cbn in Ei, Eh. subst.
  assert (A := Es GI true). assert (B := Es GH true). assert (C := Es GI false). assert (D := Es GH false). cbn in A, B, C, D. injection A as ->. injection B as ->.
  assert (bx = bx') as -> by (destruct bx, bx'; congruence). assert (bh = bh') as -> by (destruct bh, bh'; congruence). auto.
Qed.
Lemma cells_slots (a b : list cell) : map c_in a = map c_in b -> map c_hid a = map c_hid b ->
  (forall i c c', nth_error a i = Some c -> nth_error b i = Some c' -> forall g w, slot_cell c g w = slot_cell c' g w) -> a = b.
Proof.
  revert b. induction a as [|x a IH]; intros [|y b] E1 E2 Hs; try discriminate; auto. cbn in E1, E2. injection E1 as E1 E1'. injection E2 as E2 E2'. f_equal.
  - apply cell_slots; auto. intros. apply (Hs 0%nat); auto.
  - apply IH; auto. intros i c c' H1 H2. apply (Hs (S i)); auto.
Qed.
Lemma new_cells_in fresh inp hid n s b cs : fresh_ok fresh -> (1 <= n)%nat -> cells_valid n inp hid s b cs ->
  map c_in (new_cells fresh inp hid n s b) = map c_in cs /\ map c_hid (new_cells fresh inp hid n s b) = map c_hid cs.
Proof.
  intros Fr Hn (L & C). assert (N : forall i, (i < n)%nat -> exists x, nth_error (new_cells fresh inp hid n s b) i = Some x /\ c_in x = (match i with O => inp | _ => s * hid end)%nat /\ c_hid x = hid).
  { intros [|i] Hi; [eexists; split; [reflexivity|]; split; apply Fr|]. exists (fresh (s * hid)%nat hid b). split; [|split; apply Fr].
    cbn [new_cells nth_error]. rewrite nth_error_map. rewrite (nth_error_nth' _ 0%nat) by (rewrite seq_length; lia). auto. }
  assert (Lc : length (new_cells fresh inp hid n s b) = n) by (apply new_cells_length; auto).
  assert (G : forall (p : cell -> nat), (forall i x c, nth_error (new_cells fresh inp hid n s b) i = Some x -> nth_error cs i = Some c -> p x = p c) -> map p (new_cells fresh inp hid n s b) = map p cs).
  { intros p Hp. revert Hp. generalize (new_cells fresh inp hid n s b) Lc. clear -L. intro l. revert cs n L. induction l as [|x l IH]; intros [|c cs] n L Lc Hp; cbn in *; try lia; auto. f_equal; [apply (Hp 0%nat); auto|].
    destruct n; [lia|]. apply (IH cs n); try lia. intros i y z H1 H2. apply (Hp (S i)); auto. }
  split; apply G; intros i x c Hx Hc; assert (Hi : (i < n)%nat) by (rewrite <- L; apply nth_error_Some; congruence); destruct (N i Hi) as (x' & Hx' & A & B); rewrite Hx in Hx'; injection Hx' as <-;
    destruct (C i c Hc) as (C1 & C2 & _); congruence.
Qed.

(** C64: converting a modular LSTM to nn.LSTM and back gives the same module. *)
Theorem C64_from_to : forall fresh freshp d, fresh_ok fresh -> freshp_ok freshp (d_layers d) (d_bias d) (d_bidir d) -> valid_dlstm d ->
  exists t, to_pytorch freshp d = Ok t /\ valid_torch t /\ from_pytorch fresh t = Ok d.
Proof.
  intros fresh freshp d Fr Fp (V1 & V2 & V3).
  assert (LR : length (d_cells_rev d) = if d_bidir d then d_layers d else 0%nat) by (destruct (d_bidir d); [apply V3|rewrite V3; auto]).
  assert (SW : forall g i r, (i < d_layers d)%nat -> (r = true -> d_bidir d = true) -> exists w, slot d (true, g, i, r) = Some w /\ length w = (4 * d_hid d)%nat).
  { intros g i r Hi Hr. unfold slot, slot_cell. destruct r.
    - rewrite Hr in V3, LR by auto. destruct (nth_error (d_cells_rev d) i) as [c|] eqn:En; [|apply nth_error_None in En; lia].
      destruct (proj2 V3 i c En) as (_ & _ & (A & _) & (B & _)). destruct g; eexists; split; eauto.
    - destruct V2 as (L & C). destruct (nth_error (d_cells d) i) as [c|] eqn:En; [|apply nth_error_None in En; lia].
      destruct (C i c En) as (_ & _ & (A & _) & (B & _)). destruct g; eexists; split; eauto. }
  assert (SB : forall g i r, (i < d_layers d)%nat -> (r = true -> d_bidir d = true) -> if d_bias d then exists b, slot d (false, g, i, r) = Some [b] /\ length b = (4 * d_hid d)%nat else slot d (false, g, i, r) = None).
  { intros g i r Hi Hr. unfold slot, slot_cell.
    assert (K : exists c, nth_error (if r then d_cells_rev d else d_cells d) i = Some c /\ lin_valid (4 * d_hid d) (d_bias d) (fc_x c) /\ lin_valid (4 * d_hid d) (d_bias d) (fc_h c)).
    { destruct r.
      - rewrite Hr in V3, LR by auto. destruct (nth_error (d_cells_rev d) i) as [c|] eqn:En; [|apply nth_error_None in En; lia]. exists c. split; auto. apply (proj2 V3 i c En).
      - destruct V2 as (L & C). destruct (nth_error (d_cells d) i) as [c|] eqn:En; [|apply nth_error_None in En; lia]. exists c. split; auto. apply (C i c En). }
    destruct K as (c & -> & (_ & A) & (_ & B)). destruct (d_bias d).
    - destruct A as (ba & LA0 & LA), B as (bb & LB0 & LB). destruct g; [rewrite LA0|rewrite LB0]; eexists; split; eauto.
    - destruct g; [rewrite A|rewrite B]; auto. }
  unfold to_pytorch. destruct (to_fold_ok d (all_keys (d_layers d) (d_bias d) (d_bidir d)) freshp) as (f & Ef).
  { intros (((w, g), i), r) Hk. apply in_all_keys in Hk. destruct Hk as (Hi & Hw & Hr). destruct w.
    - destruct (SW g i r Hi Hr) as (x & -> & _). discriminate.
    - specialize (SB g i r Hi Hr). rewrite Hw in SB by auto. destruct SB as (x & -> & _). discriminate. }
  rewrite Ef. cbn [bind]. eexists. split; [reflexivity|].
  assert (Sf : forall w g i r, (i < d_layers d)%nat -> (r = true -> d_bidir d = true) -> f (w, g, i, r) = slot d (w, g, i, r)).
  { intros w g i r Hi Hr. rewrite (to_fold _ _ _ _ Ef). destruct (existsb _ _) eqn:Ex; auto.
    destruct w; [exfalso|].
    - assert (Hin : In (true, g, i, r) (all_keys (d_layers d) (d_bias d) (d_bidir d))) by (apply in_all_keys; repeat split; auto; discriminate). apply in_existsb in Hin. congruence.
    - specialize (SB g i r Hi Hr). destruct (d_bias d) eqn:Eb; [exfalso|rewrite Fp, SB; auto].
      assert (Hin : In (false, g, i, r) (all_keys (d_layers d) true (d_bidir d))) by (apply in_all_keys; repeat split; auto). apply in_existsb in Hin. congruence. }
  assert (Vt : valid_torch (mkT (d_in d) (d_hid d) (d_layers d) (d_bias d) (d_batch_first d) (d_dropout d) (d_bidir d) f)).
  { split; [auto|]. cbn [t_layers t_hid t_bias t_bidir t_params]. split; [|split].
    - intros g i r Hi Hr. rewrite Sf by auto. auto.
    - intros g i r Hi Hr. rewrite Sf by auto. apply SB; auto.
    - intros w g i r H. rewrite (to_fold _ _ _ _ Ef). destruct (existsb _ _) eqn:Ex; [|apply Fp; tauto].
      apply in_existsb, in_all_keys in Ex. destruct Ex as (A & _ & B). destruct H as [H|(-> & H)]; [lia|]. specialize (B eq_refl). congruence. }
  split; [exact Vt|]. destruct (from_pytorch_spec fresh _ Fr Vt) as (d' & E' & D1 & D2 & D3 & D4 & D5 & D6 & D7 & L1 & L2 & Sl & M1 & M2 & M3 & M4).
  rewrite E'. cbn [t_layers t_hid t_bias t_bidir t_params t_in t_dropout t_batch_first] in *. f_equal.
  assert (C1 : d_cells d' = d_cells d).
  { destruct (new_cells_in fresh _ _ _ _ _ _ Fr V1 V2) as (N1 & N2). apply cells_slots; [congruence|congruence|].
    intros i c c' Hc Hc' g w. assert (Hi : (i < d_layers d)%nat) by (rewrite <- L1; apply nth_error_Some; congruence).
    assert (K := Sl (w, g, i, false)). rewrite Sf in K by (auto; discriminate). unfold slot in K. rewrite Hc, Hc' in K. auto. }
  assert (C2 : d_cells_rev d' = d_cells_rev d).
  { destruct (d_bidir d) eqn:Eb; [|rewrite V3; destruct (d_cells_rev d'); [auto|discriminate]].
    destruct (new_cells_in fresh _ _ _ _ _ _ Fr V1 V3) as (N1 & N2). apply cells_slots; [congruence|congruence|].
    intros i c c' Hc Hc' g w. assert (Hi : (i < d_layers d)%nat) by (rewrite <- L2; apply nth_error_Some; congruence).
    assert (K := Sl (w, g, i, true)). rewrite Sf in K by auto. unfold slot in K. rewrite Hc, Hc' in K. auto. }
  destruct d, d'. cbn in *. congruence.
Qed.

(** C64: in a model whose module objects each have one name in their parent, every nn.LSTM and nn.LSTMCell, at any depth,
    is replaced by its conversion, and nothing else changes. *)
Fixpoint tmod_ind' (P : tmod -> Prop) (h1 : forall i t, P (TLstm i t)) (h2 : forall i c, P (TCell i c)) (h3 : forall d, P (DLstm d)) (h4 : forall c, P (DCell c))
  (h5 : forall i kids, Forall (fun k => P (snd k)) kids -> P (Other i kids)) (m : tmod) : P m :=
  match m with
  | TLstm i t => h1 i t | TCell i c => h2 i c | DLstm d => h3 d | DCell c => h4 c
  | Other i kids => h5 i kids ((fix go (l : list (string * tmod)) : Forall (fun k => P (snd k)) l :=
      match l with [] => Forall_nil _ | k :: l => Forall_cons _ (tmod_ind' P h1 h2 h3 h4 h5 (snd k)) (go l) end) kids)
  end.

Theorem C64_convert : forall fresh m, fresh_ok fresh -> unshared m -> all_valid m ->
  exists m', convert fresh m = Ok m' /\ replaced fresh m m' /\ ~ has_torch m'.
Proof.
  intros fresh m Fr. induction m as [i t|i c|d|c|i kids IH] using tmod_ind'; intros U V.
  - inversion V; subst. destruct (from_pytorch_spec fresh t Fr H0) as (d & E & _). cbn [convert]. rewrite E. cbn [bind]. eexists. split; [reflexivity|]. split; [constructor; auto|]. intro K; inversion K.
  - eexists. split; [reflexivity|]. split; [constructor|]. intro K; inversion K.
  - eexists. split; [reflexivity|]. split; [constructor|]. intro K; inversion K.
  - eexists. split; [reflexivity|]. split; [constructor|]. intro K; inversion K.
  - inversion U as [| | | |? ? Nd Fu]; subst. inversion V as [| | | |? ? Fv]; subst. cbn [convert].
    set (go := fix go (l : list (string * tmod)) (memo : list (option nat)) : res (list (string * tmod)) := _).
    assert (G : forall memo, (forall k j, In k kids -> tm_id (snd k) = Some j -> ~ In (Some j) memo) ->
              exists ks, go kids memo = Ok ks /\ Forall2 (fun a b => fst a = fst b /\ replaced fresh (snd a) (snd b)) kids ks /\ Forall (fun k => ~ has_torch (snd k)) ks).
    { clear U V. induction kids as [|(n, c) kids IHk]; intros memo Hm.
      - exists []. split; [reflexivity|]. split; constructor.
      - inversion IH as [|? ? Hc IH']; subst. inversion Fu as [|? ? Uc Fu']; subst. inversion Fv as [|? ? Vc Fv']; subst. cbn [snd] in *.
        destruct (Hc Uc Vc) as (c' & E & R & N).
        assert (Sf : seen_child memo c = false).
        { unfold seen_child. destruct (tm_id c) as [j|] eqn:Ej; auto. apply Bool.not_true_iff_false. intro K. apply existsb_exists in K. destruct K as ([j'|] & Hin & K); [|discriminate].
          apply Nat.eqb_eq in K. subst j'. apply (Hm (n, c) j); auto. left; auto. }
        cbn [go]. fold go. rewrite Sf. cbn [andb]. rewrite E. cbn [bind].
        assert (Nd' : NoDup (flat_map (fun k : string * tmod => match tm_id (snd k) with Some i => [i] | None => [] end) kids)).
        { cbn [flat_map snd] in Nd. destruct (tm_id c); [inversion Nd; auto|auto]. }
        destruct (IHk IH' Nd' Fu' Fv' (tm_id c :: memo)) as (ks & Ek & F2 & Fn).
        { intros k j Hk Hj [K|K]; [|apply (Hm k j); auto; right; auto]. cbn [flat_map snd] in Nd. rewrite K in Nd. inversion Nd as [|? ? Nin _]; subst. apply Nin. apply in_flat_map. exists k. rewrite Hj. split; auto. left; auto. }
        rewrite Ek. cbn [bind]. eexists. split; [reflexivity|]. split; constructor; auto. }
    destruct (G [] ltac:(intros ? ? ? ? [])) as (ks & Ek & F2 & Fn). rewrite Ek. cbn [bind]. eexists. split; [reflexivity|]. split; [constructor; auto|].
    intro K. inversion K as [| |? ? n m Hin Hm]; subst. rewrite Forall_forall in Fn. apply (Fn _ Hin). auto.
Qed.

(** C64, the limit: an nn.LSTM registered under two names of one parent is replaced only under the first. *)
Theorem C64_shared_refuted : forall fresh t d a b p i, from_pytorch fresh t = Ok d ->
  convert fresh (Other p [(a, TLstm i t); (b, TLstm i t)]) = Ok (Other p [(a, DLstm d); (b, TLstm i t)]).
Proof.
  intros fresh t d a b p i E. cbn [convert seen_child existsb tm_id andb]. rewrite E. cbn [bind tm_id existsb]. rewrite Nat.eqb_refl. reflexivity.
Qed.

Example C64_case : exists m', convert fresh0 (Other 0 [("encoder"%string, Other 1 [("rnn"%string, TLstm 2 ones_lstm)]); ("cell"%string, TCell 3 (fresh0 1 1 true))]) = Ok m' /\ ~ has_torch m'.
Proof.
  destruct (C64_convert fresh0 (Other 0 [("encoder"%string, Other 1 [("rnn"%string, TLstm 2 ones_lstm)]); ("cell"%string, TCell 3 (fresh0 1 1 true))])) as (m' & E & _ & N); [apply fresh0_ok| | |exists m'; split; assumption].
  - constructor; cbn; [repeat constructor; cbn; intuition discriminate|]. repeat constructor; cbn; auto.
  - assert (A := ones_valid). constructor. constructor; [constructor; constructor; [constructor; exact A|constructor]|]. constructor; [constructor|constructor].
Qed.
Example C64_valid_dlstm_case : valid_dlstm ones_dlstm.
Proof.
  split; [cbn; lia|]. split; [|reflexivity]. split; [auto|]. intros [|[|[|]]] c H; cbn in H; try discriminate; injection H as <-; cbn; repeat split; auto.
Qed.

Print Assumptions C63_forward.
Print Assumptions C63_packed.
Print Assumptions C63_dropout_recurrent_refuted.
Print Assumptions C63_cell_no_state_refuted.
Print Assumptions C63_cell_no_state_rows_refuted.
Print Assumptions C63_packed_unsorted_refuted.
Print Assumptions C64_to_from.
Print Assumptions C64_from_to.
Print Assumptions C64_convert.
Print Assumptions C64_shared_refuted.
