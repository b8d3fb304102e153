(** C112: the language-model example: batches, evaluation, reports and the files left by a training. *)
From Coq Require Import String List ZArith QArith Bool Arith Lia Lqa.
From Verif Require Import Base LmModel LmSpec LmProofs.
Import ListNotations.
Local Open Scope string_scope.
Open Scope list_scope.
Open Scope nat_scope.

(** ---------------------------------------------------------------- the corpus *)
(** reading any three texts succeeds; the numbers of each, looked up in the dictionary, are its words, each line closed by <eos>;
    the dictionary has each word of the three texts once, and no other *)
Theorem C112_corpus : forall train valid test, exists d t v s,
  corpus train valid test = Ok (d, (t, v, s)) /\ in_order d /\
  map (nth_error (idx2word d)) t = map Some (text train) /\
  map (nth_error (idx2word d)) v = map Some (text valid) /\
  map (nth_error (idx2word d)) s = map Some (text test) /\
  (forall w, In w (idx2word d) <-> In w (text train ++ text valid ++ text test)).
Proof.
  intros train valid test.
  assert (H0 : dict_ok empty_dictionary).
  { split; cbn; [constructor|]. intros w i. split; [discriminate|destruct i; discriminate]. }
  destruct (tokenize_ok empty_dictionary train H0) as (d1 & t & E1 & H1 & M1 & [l1 G1] & O1).
  destruct (tokenize_ok d1 valid H1) as (d2 & v & E2 & H2 & M2 & [l2 G2] & O2).
  destruct (tokenize_ok d2 test H2) as (d3 & s & E3 & H3 & M3 & [l3 G3] & O3).
  exists d3, t, v, s. unfold corpus. rewrite E1. cbn [bind]. rewrite E2. cbn [bind]. rewrite E3. cbn [bind].
  assert (N1 : map (nth_error (idx2word d3)) t = map Some (text train)).
  { rewrite G3, G2. apply map_nth_error_app, map_nth_error_app, M1. }
  assert (N2 : map (nth_error (idx2word d3)) v = map Some (text valid)).
  { rewrite G3. apply map_nth_error_app, M2. }
  split; [reflexivity|]. split; [exact H3|]. split; [exact N1|]. split; [exact N2|]. split; [exact M3|].
  intro w. split.
  - intro I. rewrite !in_app_iff. apply O3 in I. destruct I as [I|I]; [|tauto]. apply O2 in I. destruct I as [I|I]; [|tauto].
    apply O1 in I. destruct I as [I|I]; [destruct I|tauto].
  - assert (F : forall ids ws, map (nth_error (idx2word d3)) ids = map Some ws -> In w ws -> In w (idx2word d3)).
    { intros ids ws H I. apply (in_map Some) in I. rewrite <- H in I. apply in_map_iff in I. destruct I as (i & E & _). eapply nth_error_In; exact E. }
    rewrite !in_app_iff. intros [I|[I|I]]; [exact (F _ _ N1 I)|exact (F _ _ N2 I)|exact (F _ _ M3 I)].
Qed.
(** the numbers do not depend on whether a word is the mark of a line's end or was written in the text *)
Theorem C112_eos_in_text_refuted : exists f1 f2, f1 <> f2 /\ tokenize empty_dictionary f1 = tokenize empty_dictionary f2.
Proof. exists [["a"; "<eos>"; "b"]], [["a"]; ["b"]]. split; [discriminate|reflexivity]. Qed.
Example C112_corpus_nonvacuous :
  corpus [["a"; "b"]; ["a"]] [["c"]] [["b"; "d"]] =
  Ok (mkDict [("a", 0); ("b", 1); ("<eos>", 2); ("c", 3); ("d", 4)] ["a"; "b"; "<eos>"; "c"; "d"],
      ([0; 1; 2; 0; 2], [3; 2], [1; 4; 2])).
Proof. reflexivity. Qed.

(** ---------------------------------------------------------------- batches *)
(** column c of the batches holds consecutive tokens: row r has token c * nbatch + r, nbatch = length / bsz rows; the last length mod bsz
    tokens are left out *)
Theorem C112_batchify : forall data bsz rows, batchify data bsz = Ok rows ->
  length rows = length data / bsz /\ Forall (fun row => length row = bsz) rows /\
  forall r c, r < length data / bsz -> c < bsz ->
    exists row t, nth_error rows r = Some row /\ nth_error row c = Some t /\ nth_error data (c * (length data / bsz) + r) = Some t.
Proof.
  intros data bsz rows H. destruct (batchify_shape _ _ _ H) as [H1 H2]. split; [exact H1|]. split; [exact H2|].
  intros r c Hr Hc. eapply batchify_elem; eassumption.
Qed.
Theorem C112_batchify_succeeds : forall data bsz, 0 < bsz -> exists rows, batchify data bsz = Ok rows.
Proof. intros data bsz H. unfold batchify. destruct (Nat.eqb_spec bsz 0); [lia|]. eexists. reflexivity. Qed.

(** an epoch goes through all rows but the last, in order, and for each the targets are the row behind it; as many mini-batches as the
    scheduler was told, numbered from 0 *)
Theorem C112_epoch_covers_all_rows : forall bptt source, 0 < bptt ->
  let '(steps, batches) := minibatches bptt source in
  map fst batches = seq 0 steps /\
  concat (map (fun b => fst (snd b)) batches) = firstn (length source - 1) source /\
  concat (map (fun b => snd (snd b)) batches) = concat (skipn 1 source).
Proof.
  intros bptt source Hb. unfold minibatches.
  assert (C : forall (A B : Type) (l1 : list A) (l2 : list B), length l1 = length l2 -> map fst (combine l1 l2) = l1 /\ map snd (combine l1 l2) = l2).
  { intros A B l1. induction l1 as [|a l1 IH]; intros [|b l2] E; cbn in *; try discriminate; [auto|]. destruct (IH l2 ltac:(lia)) as [-> ->]. auto. }
  destruct (C _ _ (seq 0 (length (starts (length source) bptt))) (map (get_batch bptt source) (starts (length source) bptt))) as [C1 C2].
  { rewrite seq_length, map_length. reflexivity. }
  split; [|split].
  - rewrite C1. unfold starts. rewrite map_length, seq_length. reflexivity.
  - rewrite <- (map_map snd fst), C2. apply datas_concat. exact Hb.
  - rewrite <- (map_map snd snd), C2. apply tgts_concat. exact Hb.
Qed.
(** the network is handed an empty batch, and the epoch ends with RuntimeError, exactly if bptt divides the number of rows less one *)
Theorem C112_training_fails_iff : forall bptt source, 0 < bptt -> source <> [] ->
  (train_ok bptt source = Raise RuntimeError <-> Nat.divide bptt (length source - 1)) /\
  (train_ok bptt source = Ok tt <-> ~ Nat.divide bptt (length source - 1)).
Proof.
  intros bptt source Hb Hs. unfold train_ok, minibatches. cbn [snd].
  assert (Hn : 0 < length source) by (destruct source; [congruence|cbn; lia]).
  pose proof (empty_batch_iff bptt Hb source Hn) as EB.
  set (bs := map (get_batch bptt source) (starts (length source) bptt)) in *.
  assert (L : length (seq 0 (length (starts (length source) bptt))) = length bs) by (unfold bs; rewrite seq_length, map_length; reflexivity).
  revert L. generalize (seq 0 (length (starts (length source) bptt))) as ns. intros ns L.
  assert (F : forall (bs : list (list (list nat) * list nat)) (ns : list nat), length ns = length bs ->
     (foldM (fun (_ : unit) (b : nat * (list (list nat) * list nat)) => match fst (snd b) with [] => Raise RuntimeError | _ => Ok tt end) (combine ns bs) tt = Raise RuntimeError /\ exists b, In b bs /\ fst b = []) \/
     (foldM (fun (_ : unit) (b : nat * (list (list nat) * list nat)) => match fst (snd b) with [] => Raise RuntimeError | _ => Ok tt end) (combine ns bs) tt = Ok tt /\ ~ exists b, In b bs /\ fst b = [])).
  { clear. induction bs as [|[d t] bs IH]; intros [|k ns] L; cbn in L; try discriminate.
    - right. split; [reflexivity|]. intros (b & [] & _).
    - cbn [combine foldM fst snd]. destruct d as [|r d].
      + left. split; [reflexivity|]. exists ([], t). cbn. auto.
      + cbn [bind]. destruct (IH ns ltac:(lia)) as [[E (b & I & X)]|[E N]].
        * left. split; [exact E|]. exists b. cbn. auto.
        * right. split; [exact E|]. intros (b & [<-|I] & X); [discriminate|]. apply N. exists b. auto. }
  destruct (F bs ns L) as [[E X]|[E X]]; rewrite E; rewrite EB in X; intuition discriminate.
Qed.
Example C112_batches_nonvacuous :
  batchify (seq 0 26) 4 = Ok [[0; 6; 12; 18]; [1; 7; 13; 19]; [2; 8; 14; 20]; [3; 9; 15; 21]; [4; 10; 16; 22]; [5; 11; 17; 23]] /\
  minibatches 2 [[0; 4]; [1; 5]; [2; 6]; [3; 7]] = (2, [(0, ([[0; 4]; [1; 5]], [1; 5; 2; 6])); (1, ([[2; 6]], [3; 7]))]) /\
  train_ok 2 [[0; 4]; [1; 5]; [2; 6]; [3; 7]] = Ok tt /\ train_ok 2 [[0]; [1]; [2]] = Raise RuntimeError.
Proof. repeat split; reflexivity. Qed.

(** ---------------------------------------------------------------- evaluation *)
(** the value returned is the sum of the losses of all predictions of an uninterrupted run of the network over the rows, divided by the
    number of tokens *)
Theorem C112_evaluate_value : forall (St Out : Type) (net : St -> list nat -> list Out * St) loss bsz init bptt source,
  0 < bsz -> (forall h r, length r = bsz -> length (fst (net h r)) = bsz) ->
  0 < bptt -> source <> [] -> Forall (fun r => length r = bsz) source -> ~ Nat.divide bptt (length source - 1) ->
  exists v, evaluate net loss init bptt source = Ok v /\
    (v == total_loss net loss init source / (inject_Z (Z.of_nat bsz) * inject_Z (Z.of_nat (length source))))%Q.
Proof. intros. apply evaluate_value; assumption. Qed.
(** so that it does not depend on how the text is cut *)
Theorem C112_evaluate_independent_of_bptt : forall (St Out : Type) (net : St -> list nat -> list Out * St) loss bsz init bptt1 bptt2 source v1 v2,
  0 < bsz -> (forall h r, length r = bsz -> length (fst (net h r)) = bsz) ->
  0 < bptt1 -> 0 < bptt2 -> source <> [] -> Forall (fun r => length r = bsz) source ->
  evaluate net loss init bptt1 source = Ok v1 -> evaluate net loss init bptt2 source = Ok v2 -> (v1 == v2)%Q.
Proof.
  intros St Out net loss bsz init b1 b2 source v1 v2 Hbsz Hnet H1 H2 Hs Hw E1 E2.
  assert (D : forall b v, 0 < b -> evaluate net loss init b source = Ok v -> ~ Nat.divide b (length source - 1)).
  { intros b v Hb E C. rewrite (evaluate_empty _ _ net loss init b source Hb Hs C) in E. discriminate. }
  destruct (evaluate_value _ _ net loss bsz Hbsz Hnet init b1 source H1 Hs Hw (D _ _ H1 E1)) as (w1 & F1 & G1).
  destruct (evaluate_value _ _ net loss bsz Hbsz Hnet init b2 source H2 Hs Hw (D _ _ H2 E2)) as (w2 & F2 & G2).
  assert (w1 = v1) by congruence. assert (w2 = v2) by congruence. subst. rewrite G1, G2. reflexivity.
Qed.
(** there are (rows - 1) * bsz predictions: the mean loss is reported too small by the factor (rows - 1) / rows *)
Theorem C112_evaluate_is_the_mean_refuted : forall (St Out : Type) (net : St -> list nat -> list Out * St) loss bsz init bptt source v,
  0 < bsz -> (forall h r, length r = bsz -> length (fst (net h r)) = bsz) ->
  0 < bptt -> 1 < length source -> Forall (fun r => length r = bsz) source -> evaluate net loss init bptt source = Ok v ->
  let n := inject_Z (Z.of_nat (length source)) in
  (v == (total_loss net loss init source / (inject_Z (Z.of_nat bsz) * (n - 1))) * ((n - 1) / n))%Q.
Proof.
  intros St Out net loss bsz init bptt source v Hbsz Hnet Hb Hs Hw E n.
  assert (Hs' : source <> []) by (intro C; rewrite C in Hs; cbn in Hs; lia).
  assert (D : ~ Nat.divide bptt (length source - 1)).
  { intro C. rewrite (evaluate_empty _ _ net loss init bptt source Hb Hs' C) in E. discriminate. }
  destruct (evaluate_value _ _ net loss bsz Hbsz Hnet init bptt source Hb Hs' Hw D) as (w & F & G).
  assert (w = v) by congruence. subst w. rewrite G. fold n.
  assert (Nn : ~ (n == 0)%Q) by (apply inject_pos; lia).
  assert (N1 : ~ (n - 1 == 0)%Q).
  { intro C. assert (X : (n == inject_Z 1)%Q) by (setoid_replace n with (n - 1 + 1)%Q by ring; rewrite C; reflexivity).
    unfold n in X. unfold Qeq, inject_Z in X. cbn in X. lia. }
  field. repeat split; try assumption. apply inject_pos. exact Hbsz.
Qed.
(** evaluation fails exactly if bptt divides the number of rows less one, and on no rows at all *)
Theorem C112_evaluate_fails : forall (St Out : Type) (net : St -> list nat -> list Out * St) loss init bptt source, 0 < bptt ->
  (source <> [] -> Nat.divide bptt (length source - 1) -> evaluate net loss init bptt source = Raise RuntimeError) /\
  evaluate net loss init bptt [] = Raise ZeroDivisionError.
Proof.
  intros St Out net loss init bptt source Hb. split.
  - intros Hs Hd. apply evaluate_empty; assumption.
  - unfold evaluate. destruct (Nat.eqb_spec bptt 0); [lia|]. unfold starts. cbn [length plus].
    rewrite Nat.div_small by lia. reflexivity.
Qed.
Theorem C112_some_bptt_fails_refuted : exists (source : list (list nat)) bptt, 0 < bptt /\ Forall (fun r => length r = 1) source /\
  evaluate (fun (h : nat) r => (r, h)) (fun o t => inject_Z (Z.of_nat t - Z.of_nat o)) 0 bptt source = Raise RuntimeError /\
  train_ok bptt source = Raise RuntimeError.
Proof. exists (repeat [0] 71), 35. repeat split; [lia|apply Forall_forall; intros r Hr; apply repeat_spec in Hr; subst; reflexivity|..]; vm_compute; reflexivity. Qed.
Example C112_evaluate_nonvacuous :
  let net := fun (h : nat) (r : list nat) => (map (fun t => t + h) r, S h) in
  let loss := fun o t => inject_Z (Z.of_nat o - Z.of_nat t) in
  let source := [[5; 6]; [4; 4]; [1; 2]; [0; 0]] in
  (match evaluate net loss 0 2 source with Ok v => Qeq_bool v (17 # 8) | _ => false end) = true /\
  Qeq_bool (total_loss net loss 0 source) 17 = true.
Proof. split; reflexivity. Qed.

(** ---------------------------------------------------------------- reports *)
(** after batches m, 2m, ..: from the second on, the mean of the losses of the last m batches *)
Theorem C112_reports : forall m losses entries, 0 < m -> train_report m losses = Ok entries ->
  length entries = (length losses - 1) / m /\
  forall j b v, nth_error entries j = Some (b, v) -> b = (j + 1) * m /\ (0 < j -> (v == mean_of losses (j * m + 1) m)%Q).
Proof.
  intros m losses entries Hm H. destruct (train_report_spec m losses entries Hm H) as [H1 H2]. split; [exact H1|].
  intros j b v Hj. apply H2 in Hj. destruct Hj as [Hb Hv]. split; [exact Hb|]. intro J. rewrite Hv.
  destruct (Nat.eqb_spec j 0); [lia|reflexivity].
Qed.
(** the first report divides the losses of m + 1 batches by m: it is the mean times (m + 1) / m *)
Theorem C112_first_report_refuted : forall m losses entries b v, 0 < m -> train_report m losses = Ok entries -> nth_error entries 0 = Some (b, v) ->
  (v == mean_of losses 0 (m + 1) * (inject_Z (Z.of_nat (m + 1)) / inject_Z (Z.of_nat m)))%Q.
Proof.
  intros m losses entries b v Hm H Hj. destruct (train_report_spec m losses entries Hm H) as [_ H2]. apply H2 in Hj. destruct Hj as [_ Hv]. rewrite Hv.
  cbn [Nat.eqb]. unfold mean_of. cbn [skipn]. field. split; apply inject_pos; lia.
Qed.
(** an interval of 0 is a ZeroDivisionError at the first batch *)
Theorem C112_interval_zero : forall l losses, train_report 0 (l :: losses) = Raise ZeroDivisionError.
Proof. reflexivity. Qed.
Example C112_reports_nonvacuous :
  match train_report 2 [1; 2; 3; 4; 6; 7]%Q with Ok [(2, a); (4, b)] => (Qeq_bool a 3 && Qeq_bool b 5)%bool | _ => false end = true.
Proof. reflexivity. Qed.

(** ---------------------------------------------------------------- the files of a training *)
(** a training that is not interrupted tests, at the end, the model of its last epoch *)
Theorem C112_last_model_is_tested : forall (M : Type) (epochs : list (M * option Q)) s m v,
  nth_error epochs (length epochs - 1) = Some (m, v) -> tested (training s (actions epochs None)) = Ok m.
Proof. intros M epochs s m v H. unfold tested. rewrite (last_of_all M epochs None s m v H). reflexivity. Qed.
(** the file .best has the first of the models with the smallest validation loss, if any loss was a number, and is left alone otherwise *)
Theorem C112_best_model : forall (M : Type) (epochs : list (M * option Q)) s,
  let after := best (training s (actions epochs None)) in
  (after = best s /\ forall i m v, nth_error epochs i = Some (m, v) -> v = None) \/
  (exists k m x, nth_error epochs k = Some (m, Some x) /\ after = Some (Saved m) /\
     (forall i m' y, i < k -> nth_error epochs i = Some (m', Some y) -> (x < y)%Q) /\
     (forall i m' y, nth_error epochs i = Some (m', Some y) -> (x <= y)%Q)).
Proof.
  intros M epochs s after. destruct (best_of_all M epochs None s) as [[E N]|(k & m & x & E1 & E2 & _ & E4 & E5)].
  - left. split; [exact E|]. intros i m v H. specialize (N i m v H). destruct v; [discriminate|reflexivity].
  - right. exists k, m, x. auto.
Qed.
(** but that one is not what is tested *)
Theorem C112_best_model_is_tested_refuted :
  ~ (forall (epochs : list (nat * option Q)) s m, best (training s (actions epochs None)) = Some (Saved m) -> tested (training s (actions epochs None)) = Ok m).
Proof.
  intro H. specialize (H [(1, Some 1%Q); (2, Some 2%Q)] (mkFs None None) 1 eq_refl). discriminate H.
Qed.
(** Ctrl-C at any moment: what was there is tested if no epoch was over; if it came between the emptying of the file and the end of the
    writing, the program fails; otherwise the model of the last epoch saved is tested *)
Theorem C112_interrupted : forall (M : Type) (epochs : list (M * option Q)) s done rest, actions epochs None = done ++ rest ->
  (done = [] /\ tested (training s done) = tested s) \/
  ((exists before, done = before ++ [OpenLast]) /\ tested (training s done) = Raise RuntimeError) \/
  (exists k m v, nth_error epochs k = Some (m, v) /\ tested (training s done) = Ok m /\
     length (filter (fun a => match a with SaveLast _ => true | _ => false end) done) = S k).
Proof.
  intros M epochs s done rest H. destruct (prefix_cases M epochs None s done rest H) as [->|[[q ->]|(k & m & v & E1 & E2 & E3)]].
  - left. auto.
  - right. left. split; [exists q; reflexivity|]. rewrite training_app. reflexivity.
  - right. right. exists k, m, v. unfold tested. rewrite E2. auto.
Qed.
(** Ctrl-C in the first epoch: FileNotFoundError, or, if an earlier training left its model there, the result of that model *)
Theorem C112_interrupted_in_first_epoch_refuted :
  tested (training (mkFs (M := nat) None None) []) = Raise OSError /\ tested (training (mkFs (Some (Saved 7)) None) []) = Ok 7.
Proof. split; reflexivity. Qed.
(** Ctrl-C while the best model is written: the best one so far is lost *)
Theorem C112_best_model_lost_refuted : exists (epochs : list (nat * option Q)) done rest, actions epochs None = done ++ rest /\
  best (training (mkFs None None) (removelast done)) = Some (Saved 1) /\ best (training (mkFs None None) done) = Some Broken.
Proof.
  exists [(1, Some 2%Q); (2, Some 1%Q)], [OpenLast; SaveLast 1; OpenBest; SaveBest 1; OpenLast; SaveLast 2; OpenBest], [SaveBest 2]. repeat split; reflexivity.
Qed.
Example C112_files_nonvacuous :
  let epochs := [(1, Some 3%Q); (2, None); (3, Some 1%Q); (4, Some 1%Q); (5, Some 2%Q)] in
  training (mkFs None (Some (Saved 9))) (actions epochs None) = mkFs (Some (Saved 5)) (Some (Saved 3)) /\
  training (mkFs None (Some (Saved 9))) (firstn 5 (actions epochs None)) = mkFs (Some Broken) (Some (Saved 1)).
Proof. split; reflexivity. Qed.

Print Assumptions C112_corpus.
Print Assumptions C112_eos_in_text_refuted.
Print Assumptions C112_batchify.
Print Assumptions C112_batchify_succeeds.
Print Assumptions C112_epoch_covers_all_rows.
Print Assumptions C112_training_fails_iff.
Print Assumptions C112_evaluate_value.
Print Assumptions C112_evaluate_independent_of_bptt.
Print Assumptions C112_evaluate_is_the_mean_refuted.
Print Assumptions C112_evaluate_fails.
Print Assumptions C112_some_bptt_fails_refuted.
Print Assumptions C112_reports.
Print Assumptions C112_first_report_refuted.
Print Assumptions C112_interval_zero.
Print Assumptions C112_last_model_is_tested.
Print Assumptions C112_best_model.
Print Assumptions C112_best_model_is_tested_refuted.
Print Assumptions C112_interrupted.
Print Assumptions C112_interrupted_in_first_epoch_refuted.
Print Assumptions C112_best_model_lost_refuted.
