(** C111: what the log files of a run contain. *)
From Coq Require Import String Ascii List ZArith Bool Arith Lia.
From Verif Require Import Base LogModel LogSpec LogProofs.
Import ListNotations.
Local Open Scope string_scope.
Open Scope list_scope.
Open Scope nat_scope.

(** ---------------------------------------------------------------- scalars *)
(** a training's file holds exactly what was logged, each value of epoch e after c of its steps filed at step total * e + c *)
Theorem C111_scalars_filed_exactly : forall (V : Type) (summary : V -> V) prefix (stats : nat -> nat -> list (string * V)) e0 epochs total freq r,
  0 < freq ->
  (In r (training_log summary prefix stats (fun _ _ => None) e0 epochs total freq) <->
   exists e c t v, logged stats e0 epochs total freq e c t v /\
     r = mkRec 0 (String.append prefix t) v (Z.of_nat total * Z.of_nat e + Z.of_nat c)%Z).
Proof. intros. apply training_In. assumption. Qed.

(** no two values of a scalar share a step, over all epochs *)
Theorem C111_scalars_one_value_per_step : forall (V : Type) (summary : V -> V) prefix (stats : nat -> nat -> list (string * V)) e0 epochs total freq,
  0 < freq -> (forall e c, NoDup (map fst (stats e c))) ->
  one_value_per_step (training_log summary prefix stats (fun _ _ => None) e0 epochs total freq).
Proof. intros. apply training_one_value; assumption. Qed.

(** and the steps never go back *)
Theorem C111_scalars_in_order : forall (V : Type) (summary : V -> V) prefix (stats : nat -> nat -> list (string * V)) e0 epochs total freq,
  0 < freq -> in_order (training_log summary prefix stats (fun _ _ => None) e0 epochs total freq).
Proof. intros. apply training_sorted. assumption. Qed.

(** a training that was interrupted after an epoch and resumed, with the same number of steps per epoch, logs what one that was not logs *)
Theorem C111_resumed_training_logs_the_same : forall (V : Type) (summary : V -> V) prefix stats params e0 n1 n2 total freq,
  training_log summary prefix stats params e0 n1 total freq ++ training_log summary prefix stats params (e0 + n1) n2 total freq
  = training_log summary prefix stats params e0 (n1 + n2) total freq.
Proof. intros. apply training_resume. Qed.

(** with another number of steps per epoch (another batch size), a step has two values *)
Theorem C111_resumed_with_another_batch_size_refuted :
  exists (stats : nat -> nat -> list (string * nat)),
    (forall e c, NoDup (map fst (stats e c))) /\
    ~ one_value_per_step (training_log (fun v => v) "Performance/Training/" stats (fun _ _ => None) 0 1 10 5
                          ++ training_log (fun v => v) "Performance/Training/" stats (fun _ _ => None) 1 1 5 5).
Proof.
  exists (fun e c => [("Loss", 100 * e + c)]). split.
  - intros e c. cbn. constructor; [easy|constructor].
  - intro H.
    assert (E : mkRec 0 "Performance/Training/Loss" 10 10%Z = mkRec 0 "Performance/Training/Loss" 105 10%Z).
    { apply H; try reflexivity; vm_compute; tauto. }
    discriminate E.
Qed.

Example C111_scalars_nonvacuous :
  let stats := fun e c => [("Loss", 100 * e + c); ("Top1", 7)] in
  training_log (fun v => v) "P/" stats (fun _ _ => None) 1 2 5 2
  = [mkRec 0 "P/Loss" 102 7%Z; mkRec 0 "P/Top1" 7 7%Z; mkRec 0 "P/Loss" 104 9%Z; mkRec 0 "P/Top1" 7 9%Z;
     mkRec 0 "P/Loss" 202 12%Z; mkRec 0 "P/Top1" 7 12%Z; mkRec 0 "P/Loss" 204 14%Z; mkRec 0 "P/Top1" 7 14%Z].
Proof. reflexivity. Qed.

(** ---------------------------------------------------------------- histograms *)
(** the histogram of a weight after c steps of an epoch is filed at step c, whichever the epoch: *)
Theorem C111_histograms_filed_by_step_of_epoch : forall (V : Type) (summary : V -> V) prefix stats (params : nat -> nat -> option (list (string * V))) e0 epochs total freq e c ps t w,
  0 < freq -> e0 <= e < e0 + epochs -> 1 <= c <= total -> Nat.divide freq c ->
  params e c = Some ps -> In (t, w) ps -> contains "weight" (slashes t) = true ->
  In (mkRec 0 (slashes t) (summary w) (Z.of_nat c)) (training_log summary prefix stats params e0 epochs total freq).
Proof. intros. eapply histogram_of_epoch; eassumption. Qed.
(** so that a weight has, at one step, as many different histograms as it was different in epochs *)
Theorem C111_histograms_of_epochs_collide_refuted : forall (V : Type) (summary : V -> V) prefix stats (params : nat -> nat -> option (list (string * V))) e0 epochs total freq e1 e2 c ps1 ps2 t w1 w2,
  0 < freq -> e0 <= e1 < e0 + epochs -> e0 <= e2 < e0 + epochs -> 1 <= c <= total -> Nat.divide freq c ->
  params e1 c = Some ps1 -> In (t, w1) ps1 -> params e2 c = Some ps2 -> In (t, w2) ps2 -> contains "weight" (slashes t) = true ->
  summary w1 <> summary w2 ->
  ~ one_value_per_step (training_log summary prefix stats params e0 epochs total freq).
Proof.
  intros V summary prefix stats params e0 epochs total freq e1 e2 c ps1 ps2 t w1 w2 Hf H1 H2 Hc Hd P1 I1 P2 I2 Hw Hne H.
  apply Hne.
  assert (E : mkRec 0 (slashes t) (summary w1) (Z.of_nat c) = mkRec 0 (slashes t) (summary w2) (Z.of_nat c)).
  { apply H; try reflexivity.
    - apply histogram_of_epoch with (e := e1) (ps := ps1); assumption.
    - apply histogram_of_epoch with (e := e2) (ps := ps2); assumption. }
  congruence.
Qed.
Example C111_histograms_nonvacuous :
  let params := fun e c => Some [("conv.weight", 100 * e + c); ("conv.bias", 1)] in
  training_log (fun v => v) "P/" (fun _ _ => []) params 0 2 4 4 = [mkRec 0 "conv/weight" 4 4%Z; mkRec 0 "conv/weight" 104 4%Z].
Proof. reflexivity. Qed.

(** of the TensorBoard loggers in a list, all get the scalars, the first only the histograms *)
Theorem C111_only_first_logger_gets_histograms : forall (V : Type) (summary : V -> V) prefix (st : list (string * V)) params e c t loggers k,
  nth_error loggers k = Some TensorBoard ->
  exists l, nth_error (log_training_progress summary prefix st params e c t loggers) k = Some l /\
    ((~ In TensorBoard (firstn k loggers) ->
      l = tb_training prefix st e c t ++ match params with Some ps => tb_weights summary ps c | None => [] end) /\
     (In TensorBoard (firstn k loggers) -> l = tb_training prefix st e c t)).
Proof.
  intros V summary prefix st params e c t loggers k H. eexists. split; [apply several_nth; exact H|].
  destruct (existsb _ (firstn k loggers)) eqn:X; split; intro D.
  - exfalso. apply D. apply existsb_exists in X. destruct X as ([] & Hx & E); [exact Hx|discriminate].
  - destruct params; apply app_nil_r.
  - reflexivity.
  - exfalso. assert (F : existsb (fun lg => match lg with TensorBoard => true | _ => false end) (firstn k loggers) = true).
    { apply existsb_exists. exists TensorBoard. auto. }
    rewrite F in X. discriminate.
Qed.
Theorem C111_histograms_missing_from_second_logger_refuted :
  ~ (forall (summary : nat -> nat) prefix st ps e c t, log_training_progress summary prefix st (Some ps) e c t [TensorBoard; TensorBoard]
      = [hd [] (log_training_progress summary prefix st (Some ps) e c t [TensorBoard]); hd [] (log_training_progress summary prefix st (Some ps) e c t [TensorBoard])]).
Proof. intro H. specialize (H (fun v => v) "" [] [("weight", 1)] 0%Z 1%Z 1%Z). discriminate H. Qed.

(** ---------------------------------------------------------------- buffers in TensorBoard *)
(** what is logged of a model: value i of each module without children, in the file of writer i, under its name, at the step *)
Theorem C111_buffers_filed_exactly : forall (V : Type) names prefix e c t (ms : list (modl V)) r,
  In r (tb_buffers names prefix e c t ms) <->
  exists m i v, In m ms /\ has_children m = false /\
    nth_error (flat_map (fun n => match dget (state m) n with Some l => l | None => [] end) names) i = Some v /\
    r = mkRec i (prefix ++ "/" ++ mname m)%string v (t * e + c)%Z.
Proof. intros. apply tb_buffers_In. Qed.
Theorem C111_buffers_one_value_per_writer_and_step : forall (V : Type) names prefix e c t (ms : list (modl V)),
  NoDup (map mname ms) -> one_value_per_step (tb_buffers names prefix e c t ms).
Proof. intros. apply tb_buffers_one. assumption. Qed.
(** the buffers of a module with children (the wrappers of post-training quantization have them) are not logged *)
Theorem C111_buffers_of_modules_with_children_refuted : forall (V : Type) names prefix e c t (m : modl V),
  has_children m = true -> tb_buffers names prefix e c t [m] = [].
Proof. intros V names prefix e c t m H. unfold tb_buffers. cbn. unfold tb_module. rewrite H. reflexivity. Qed.
(** a list of values logged as the L1-norms of filters are by default (multi_graphs=False) is all filed in one place *)
Theorem C111_list_in_one_graph_refuted : forall (V : Type) t (v1 v2 : V) s, v1 <> v2 -> ~ one_value_per_step (list_summary t [v1; v2] s false).
Proof.
  intros V t v1 v2 s N H. apply N.
  assert (E : mkRec 0 t v1 s = mkRec 0 t v2 s) by (apply H; cbn; auto). congruence.
Qed.
(** with multi_graphs=True it is not *)
Theorem C111_list_in_several_graphs : forall (V : Type) t (values : list V) s,
  one_value_per_step (list_summary t values s true) /\
  forall i v, nth_error values i = Some v -> In (mkRec i t v s) (list_summary t values s true).
Proof.
  intros V t values s. split.
  - intros r1 r2 H1 H2 Hw _ _. apply list_summary_In in H1. apply list_summary_In in H2.
    destruct H1 as (i & v & E & ->), H2 as (j & w & F & ->). cbn in Hw. subst j. congruence.
  - intros i v H. apply list_summary_multi_nth. exact H.
Qed.
Example C111_buffers_nonvacuous :
  tb_buffers ["tracked_min"; "tracked_max"] "Quant" 2%Z 3%Z 10%Z
    [mkMod "relu1" false [] [("tracked_max", [6]); ("tracked_min", [1]); ("scale", [4])]; mkMod "conv" true [] [("tracked_min", [1])];
     mkMod "conv.wrapped" false [] [("weight", [7])]; mkMod "relu2" false [] [("tracked_max", [8])]]
  = [mkRec 0 "Quant/relu1" 1 23%Z; mkRec 1 "Quant/relu1" 6 23%Z; mkRec 0 "Quant/relu2" 8 23%Z].
Proof. reflexivity. Qed.

(** ---------------------------------------------------------------- CSV *)
(** after any calls, by one or by many loggers of the same directory and prefix, the file of a buffer is what it was before, or a header,
    and one row for each module with the buffer, in order of the calls *)
Theorem C111_csv_buffer_file : forall (V : Type) p (calls : list (call V)) (fs : files V) name,
  Forall (fun c => NoDup (c_names c)) calls ->
  dget (fold_left (fun fs c => csv_buffers p (c_names c) (c_epoch c) (c_completed c) (c_total c) (c_mods c) fs) calls fs) (fname p name)
  = csv_file name (dget fs (fname p name)) calls.
Proof. intros. apply (calls_get V p calls fs name). assumption. Qed.
(** no other file is touched *)
Theorem C111_csv_other_files : forall (V : Type) p (calls : list (call V)) (fs : files V) f,
  (forall c name, In c calls -> In name (c_names c) -> fname p name <> f) ->
  dget (fold_left (fun fs c => csv_buffers p (c_names c) (c_epoch c) (c_completed c) (c_total c) (c_mods c) fs) calls fs) f = dget fs f.
Proof. intros. apply (calls_other V p calls fs f). assumption. Qed.
(** two buffers do not share a file *)
Theorem C111_csv_files_distinct : forall p a b, fname p a = fname p b -> a = b.
Proof. exact fname_inj. Qed.
(** nothing a file held is lost; exactly one header, at its top, in a file that did not exist *)
Theorem C111_csv_appends : forall (V : Type) p (calls : list (call V)) (fs : files V) name old,
  Forall (fun c => NoDup (c_names c)) calls -> dget fs (fname p name) = Some old ->
  exists new, dget (fold_left (fun fs c => csv_buffers p (c_names c) (c_epoch c) (c_completed c) (c_total c) (c_mods c) fs) calls fs) (fname p name) = Some (old ++ new)
    /\ ~ In Header new.
Proof.
  intros V p calls fs name old H E. pose proof (calls_get V p calls fs name H) as G. unfold do_call in G. rewrite G, E. unfold csv_file.
  assert (R : forall cs : list (call V), ~ In Header (flat_map (rows name) cs)).
  { intros cs I. apply in_flat_map in I. destruct I as (c & _ & I). unfold rows in I. apply in_flat_map in I. destruct I as (m & _ & I).
    destruct (dget (attrs m) name); [|easy]. destruct I as [I|I]; [discriminate|easy]. }
  destruct (filter _ calls) as [|c cs].
  - exists []. rewrite app_nil_r. split; [reflexivity|easy].
  - exists (flat_map (rows name) (c :: cs)). split; [reflexivity|apply R].
Qed.
(** the sparsity of the weights, on the contrary, is only kept of the last call *)
Theorem C111_csv_sparsity_of_last_call_only : forall (V : Type) p (before : list (list (line V))) last (fs : files V),
  dget (csv_sparsity p last (fold_left (fun fs r => csv_sparsity p r fs) before fs)) (fname p "weights_sparsity") = Some (Header :: last).
Proof. intros. unfold csv_sparsity at 1. apply dget_dset_same. Qed.
Example C111_csv_nonvacuous :
  let m := [mkMod "a" true [("scale", [4]); ("zero", [0])] []; mkMod "a.b" false [("scale", [5; 6])] []; mkMod "c" false [] []] in
  let run p fs c := csv_buffers p (c_names c) (c_epoch c) (c_completed c) (c_total c) (c_mods c) fs in
  fold_left (run "run") [mkCall ["scale"; "shift"] 0%Z 10%Z 20%Z m; mkCall ["scale"] 0%Z 20%Z 20%Z (skipn 1 m)] [("run_zero.csv", [Header]); ("other", [])]
  = [("run_zero.csv", [Header]); ("other", []);
     ("run_scale.csv", [Header; Row "a.scale" 0%Z 10%Z 20%Z [4]; Row "a.b.scale" 0%Z 10%Z 20%Z [5; 6]; Row "a.b.scale" 0%Z 20%Z 20%Z [5; 6]]);
     ("run_shift.csv", [Header])].
Proof. reflexivity. Qed.

Print Assumptions C111_scalars_filed_exactly.
Print Assumptions C111_scalars_one_value_per_step.
Print Assumptions C111_scalars_in_order.
Print Assumptions C111_resumed_training_logs_the_same.
Print Assumptions C111_resumed_with_another_batch_size_refuted.
Print Assumptions C111_histograms_filed_by_step_of_epoch.
Print Assumptions C111_histograms_of_epochs_collide_refuted.
Print Assumptions C111_only_first_logger_gets_histograms.
Print Assumptions C111_histograms_missing_from_second_logger_refuted.
Print Assumptions C111_buffers_filed_exactly.
Print Assumptions C111_buffers_one_value_per_writer_and_step.
Print Assumptions C111_buffers_of_modules_with_children_refuted.
Print Assumptions C111_list_in_one_graph_refuted.
Print Assumptions C111_list_in_several_graphs.
Print Assumptions C111_csv_buffer_file.
Print Assumptions C111_csv_other_files.
Print Assumptions C111_csv_files_distinct.
Print Assumptions C111_csv_appends.
Print Assumptions C111_csv_sparsity_of_last_call_only.
