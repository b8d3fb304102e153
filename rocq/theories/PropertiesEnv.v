(** Theorems: the environment of an experiment.  Configuration copies, log directories and "latest" links, seeds,
    devices, lazy data loading, quantize-and-test. *)
From Coq Require Import String Ascii List Arith Bool Lia QArith ZArith.
From Verif Require Import Base EnvModel EnvSpec EnvProofs.
Import ListNotations.
Open Scope list_scope.
Open Scope nat_scope.
Local Open Scope string_scope.
Open Scope list_scope.
Open Scope nat_scope.

(** * Copies of the configuration files *)

(** what a name in "configs" holds: the copy that was there before, or else the first readable file of that name *)
Lemma copies_spec src name : proper name -> forall l dest c,
  dget (fold_left (copy_config src) l dest) name = Some c <->
  dget dest name = Some c \/
  (dget dest name = None /\ exists l1 p l2, l = l1 ++ p :: l2 /\ names_file p name /\ src p = Some c /\
    forall q, In q l1 -> names_file q name -> src q = None).
Proof.
  intros Hp l. induction l as [|p l IH]; intros dest c; cbn [fold_left].
  - split; [auto|]. intros [H|(_ & l1 & q & l2 & H & _)]; auto. destruct l1; discriminate.
  - rewrite IH. clear IH.
    destruct (string_dec (basename p) name) as [E|E].
    + assert (Hn : names_file p name) by (apply basename_spec; auto).
      assert (Hex : exists_in dest (basename p) = match dget dest name with Some _ => true | None => false end).
      { unfold exists_in. rewrite E. destruct Hp as (P1 & P2 & P3). cbn [existsb].
        apply String.eqb_neq in P1, P2, P3. rewrite P1, P2, P3. reflexivity. }
      unfold copy_config. rewrite Hex. destruct (dget dest name) as [c'|] eqn:D.
      * rewrite D. split; intros [H|(H & _)]; auto; discriminate.
      * destruct (src p) as [c'|] eqn:S.
        -- rewrite E, dget_dset_same. split.
           ++ intros [H|(H & _)]; [|discriminate]. right. split; auto. exists [], p, l. repeat split; auto; try apply Hn; try congruence.
              intros q [].
           ++ intros [H|(_ & l1 & q & l2 & H & Hq & Sq & Hf)]; [discriminate|]. left. destruct l1 as [|x l1]; cbn in H; injection H as <- H; [congruence|].
              rewrite (Hf p) in S; [discriminate|left; auto|auto].
        -- rewrite D. split.
           ++ intros [H|(_ & l1 & q & l2 & -> & Hq & Sq & Hf)]; [discriminate|]. right. split; auto.
              exists (p :: l1), q, l2. repeat split; auto; try apply Hq. intros q' [<-|Hi] Hn'; auto.
           ++ intros [H|(_ & l1 & q & l2 & H & Hq & Sq & Hf)]; [discriminate|]. right. split; auto.
              destruct l1 as [|x l1]; cbn in H; injection H as <- H; [congruence|]. exists l1, q, l2. repeat split; auto; try apply Hq.
              intros q' Hi. apply Hf. right; auto.
    + assert (Hd : dget (copy_config src dest p) name = dget dest name).
      { unfold copy_config. destruct (exists_in dest (basename p)); auto. destruct (src p); auto. apply dget_dset_other. auto. }
      rewrite Hd.
      assert (Hn : ~ names_file p name) by (intro H; apply basename_spec in H; auto).
      split; (intros [H|(D & l1 & q & l2 & H & Hq & Sq & Hf)]; [left; auto|right; split; auto]).
      * subst. exists (p :: l1), q, l2. repeat split; auto; try apply Hq. intros q' [<-|Hi] Hn'; [contradiction|auto].
      * destruct l1 as [|x l1]; cbn in H; injection H as <- H; [contradiction|]. exists l1, q, l2. repeat split; auto; try apply Hq.
        intros q' Hi. apply Hf. right; auto.
Qed.
Theorem C115_configs_kept : forall src logdir paths dest name c, proper name ->
  dget (log_configs src (Some logdir) (ManyPaths paths) dest) name = Some c <->
  dget dest name = Some c \/
  (dget dest name = None /\ exists l1 p l2, paths = l1 ++ p :: l2 /\ names_file p name /\ src p = Some c /\
    forall q, In q l1 -> names_file q name -> src q = None).
Proof. intros. apply copies_spec. auto. Qed.
(** one path alone is treated as a list of one; without a log directory, or without paths, nothing is written *)
Theorem C115_one_config : forall src logdir p dest,
  log_configs src (Some logdir) (OnePath p) dest = log_configs src (Some logdir) (ManyPaths [p]) dest /\
  log_configs src None (OnePath p) dest = dest /\ (forall l, log_configs src None (ManyPaths l) dest = dest) /\
  log_configs src (Some logdir) NoPaths dest = dest.
Proof. repeat split. Qed.
(** the classifier's two configuration files: with different names both are stored as they are in a new directory *)
Theorem C115_both_configs : forall src logdir sched stats a b cs ct,
  proper a -> proper b -> a <> b -> sched <> "" -> stats <> "" ->
  names_file sched a -> names_file stats b -> src sched = Some cs -> src stats = Some ct ->
  dget (log_configs src (Some logdir) (config_args (Some sched) (Some stats)) []) a = Some cs /\
  dget (log_configs src (Some logdir) (config_args (Some sched) (Some stats)) []) b = Some ct.
Proof.
  intros src logdir s t a b cs ct Pa Pb Hab Hs Ht Na Nb Ss St.
  assert (config_args (Some s) (Some t) = ManyPaths [s; t]) as -> by (destruct s; [congruence|]; destruct t; [congruence|reflexivity]).
  split; apply C115_configs_kept; auto; right; (split; [reflexivity|]).
  - exists [], s, [t]. split; [reflexivity|]. split; [auto|]. split; [auto|]. intros q [].
  - exists [s], t, []. split; [reflexivity|]. split; [auto|]. split; [auto|]. intros q [<-|[]] Hq.
    apply basename_spec in Hq, Na. congruence.
Qed.
(** the configuration files of the classifier: those given, without the empty ones *)
Theorem C115_config_arguments : forall sched stats, exists l, config_args sched stats = ManyPaths l /\
  forall p, In p l <-> p <> "" /\ (sched = Some p \/ stats = Some p).
Proof.
  intros s t. eexists. split; [reflexivity|]. intro p. cbn [flat_map]. rewrite app_nil_r, in_app_iff.
  assert (H : forall o, In p (match o with Some "" | None => [] | Some p => [p] end) <-> p <> "" /\ o = Some p).
  { intros [[|c r]|]; cbn; split; try tauto; try (intros [N E]; congruence).
    - intros [<-|[]]. split; congruence.
    - intros [N E]. left. congruence. }
  rewrite !H. tauto.
Qed.
(** a run that logs into the same directory does not replace the copy an earlier run stored, even if the file changed *)
Theorem C115_stale_config_refuted : forall src src' logdir p name old new, proper name -> names_file p name ->
  src p = Some old -> src' p = Some new ->
  dget (log_configs src' (Some logdir) (OnePath p) (log_configs src (Some logdir) (OnePath p) [])) name = Some old.
Proof.
  intros src src' logdir p name old new Hp Hn S S'. apply (copies_spec src' name Hp [p]). left.
  apply (copies_spec src name Hp [p]). right. split; [reflexivity|]. exists [], p, []. repeat split; auto; try apply Hn. intros q [].
Qed.
(** two configuration files of one name (from different directories): only the first is stored *)
Theorem C115_same_name_configs_refuted : exists src sched stats,
  src sched = Some "schedule" /\ src stats = Some "stats" /\
  log_configs src (Some "logs/run") (config_args (Some sched) (Some stats)) [] = [("config.yaml", "schedule")].
Proof.
  exists (fun p => if String.eqb p "prune/config.yaml" then Some "schedule" else if String.eqb p "quant/config.yaml" then Some "stats" else None),
         "prune/config.yaml", "quant/config.yaml".
  repeat split.
Qed.
Example C115_configs_case : names_file "a/b/alexnet.yaml" "alexnet.yaml" /\ proper "alexnet.yaml" /\
  log_configs (fun _ => Some "text") (Some "logs/run") (config_args (Some "a/b/alexnet.yaml") None) [] = [("alexnet.yaml", "text")].
Proof. split; [apply basename_spec; reflexivity|]. split; [repeat split; discriminate|reflexivity]. Qed.

(** * Log directories *)

(** a name that is not absolute *)
Definition relative (n : option string) : Prop := match n with Some (String "/" _) => False | _ => True end.
Definition time_stamp (t : string) : Prop := String.length t = 17 /\ has_slash t = false.
Lemma join_relative a n t s : relative n -> time_stamp t ->
  path_join a (exp_full_name n t ++ s) =
  (if ends_slash a then a ++ exp_full_name n t ++ s else a ++ "/" ++ exp_full_name n t ++ s)%string.
Proof.
  intros Hn [Ht Hs]. unfold path_join, exp_full_name. destruct n as [n|].
  - destruct n as [|c n]; [reflexivity|]. cbn [append]. cbn in Hn.
    destruct c as [[] [] [] [] [] [] [] []]; try reflexivity; contradiction.
  - destruct t as [|c t]; [discriminate|]. cbn in Hs. apply orb_false_iff in Hs. destruct Hs as [Hs _].
    destruct c as [[] [] [] [] [] [] [] []]; try reflexivity; discriminate.
Qed.
Lemma logdir_relative a n t : relative n -> time_stamp t ->
  logdir_of a n t = ((if ends_slash a then a else a ++ "/") ++ exp_full_name n t)%string.
Proof.
  intros Hn Ht. unfold logdir_of. rewrite <- (append_nil_r (exp_full_name n t)) at 1. rewrite join_relative by auto.
  rewrite append_nil_r. destruct (ends_slash a); [reflexivity|]. rewrite append_assoc. reflexivity.
Qed.
Lemma ends_slash_app a b : b <> ""%string -> ends_slash (a ++ b) = ends_slash b.
Proof.
  intro H. unfold ends_slash. rewrite length_app. assert (0 < String.length b) by (destruct b; [congruence|cbn; lia]).
  replace (String.length a + String.length b - 1) with ((String.length b - 1) + String.length a) by lia.
  rewrite <- append_correct2. reflexivity.
Qed.
Lemma has_slash_get s c : forall n, get n s = Some c -> has_slash s = false -> Ascii.eqb c "/" = false.
Proof.
  induction s as [|x s IH]; intros n H Hs; [discriminate|]. cbn in Hs. apply orb_false_iff in Hs. destruct Hs as [Hx Hs].
  destruct n as [|n]; cbn in H; [congruence|eauto].
Qed.
Lemma stamp_ends t : time_stamp t -> ends_slash t = false.
Proof.
  intros [L H]. unfold ends_slash. destruct (get (String.length t - 1) t) as [c|] eqn:E.
  - eapply has_slash_get; eauto.
  - exfalso. destruct t as [|x t]; [discriminate|]. clear H L. cbn [String.length] in E. rewrite Nat.sub_succ, Nat.sub_0_r in E.
    revert x E. clear. induction t as [|y t IH]; intros x E; cbn in E; [discriminate|]. cbn [String.length] in E. cbn in E. apply (IH y). exact E.
Qed.
Lemma stamp_ne t : time_stamp t -> t <> ""%string.
Proof. intros [L _] ->. discriminate. Qed.
Lemma log_file_relative a n t : relative n -> time_stamp t ->
  log_file_of a n t = (logdir_of a n t ++ "/" ++ exp_full_name n t ++ ".log")%string.
Proof.
  intros Hn Ht. unfold log_file_of. rewrite join_relative by auto.
  assert (ends_slash (logdir_of a n t) = false) as ->; [|reflexivity].
  rewrite logdir_relative by auto. pose proof (stamp_ne t Ht) as Hne.
  assert (F : exp_full_name n t <> ""%string /\ ends_slash (exp_full_name n t) = false).
  { unfold exp_full_name. destruct n as [n|].
    - split; [destruct n; discriminate|]. rewrite ends_slash_app by discriminate. rewrite ends_slash_app by auto. apply stamp_ends; auto.
    - split; [auto|apply stamp_ends; auto]. }
  rewrite ends_slash_app by apply F. apply F.
Qed.
Lemma full_name_inj n t n' t' : time_stamp t -> time_stamp t' -> exp_full_name n t = exp_full_name n' t' -> n = n' /\ t = t'.
Proof.
  intros [L _] [L' _]. unfold exp_full_name. destruct n as [n|], n' as [n'|]; intro H.
  - assert (Hl : String.length n = String.length n').
    { pose proof (f_equal String.length H) as F. rewrite !length_app in F. cbn [String.length] in F. lia. }
    destruct (app_inj_len _ _ _ _ Hl H) as [-> H2]. apply app_inj_l in H2. auto.
  - pose proof (f_equal String.length H) as F. rewrite !length_app in F. cbn [String.length append] in F. lia.
  - pose proof (f_equal String.length H) as F. rewrite !length_app in F. cbn [String.length append] in F. lia.
  - auto.
Qed.
(** two runs with one output directory share a log directory exactly when they have the same name and started within
    the same second *)
Theorem C115_log_directories_distinct : forall out n t n' t', relative n -> relative n' -> time_stamp t -> time_stamp t' ->
  (logdir_of out n t = logdir_of out n' t' <-> n = n' /\ t = t').
Proof.
  intros out n t n' t' Hn Hn' Ht Ht'. split; [|intros [-> ->]; reflexivity].
  rewrite !logdir_relative by auto. intro H. apply full_name_inj; auto. apply app_inj_l in H. auto.
Qed.
(** then the second empties the log of the first: the log of the first run is gone *)
Theorem C115_same_second_refuted : forall files out n t text1 text2,
  dget (run_log (run_log files out n t text1) out n t text2) (log_file_of out n t) = Some text2.
Proof. intros. apply dget_dset_same. Qed.
(** with different names or times neither touches the other's log *)
Theorem C115_logs_kept : forall files out n t n' t' text1 text2, relative n -> relative n' -> time_stamp t -> time_stamp t' ->
  (n, t) <> (n', t') ->
  dget (run_log (run_log files out n t text1) out n' t' text2) (log_file_of out n t) = Some text1.
Proof.
  intros files out n t n' t' x y Hn Hn' Ht Ht' Hd. unfold run_log. rewrite dget_dset_other; [apply dget_dset_same|].
  intro H. apply Hd. rewrite !log_file_relative, !logdir_relative in H by auto. rewrite !append_assoc in H.
  apply app_inj_l in H. pose proof (f_equal String.length H) as L.
  rewrite !length_app in L. cbn [String.length] in L.
  assert (L' : String.length (exp_full_name n' t') = String.length (exp_full_name n t)) by lia.
  destruct (app_inj_len _ _ _ _ L' H) as [E _]. apply full_name_inj in E; auto. destruct E as [-> ->]. reflexivity.
Qed.
(** the log file lies in the run's directory, unless the experiment's name holds a slash: then its directory is another
    one, which is not created *)
Theorem C115_log_file_in_directory : forall out n t, relative n -> time_stamp t ->
  log_file_of out n t = (logdir_of out n t ++ "/" ++ exp_full_name n t ++ ".log")%string /\
  ((exists f, names_file (log_file_of out n t) f /\ log_file_of out n t = (logdir_of out n t ++ "/" ++ f)%string) <->
   (forall a b, n <> Some (a ++ "/" ++ b)%string)).
Proof.
  intros out n t Hn Ht. split; [apply log_file_relative; auto|]. rewrite log_file_relative by auto. split.
  - intros (f & [Hf Hs] & E) a b ->. apply app_inj_l in E. cbn [append] in E. injection E as <-.
    eapply (Hs a (b ++ "___" ++ t ++ ".log")%string). cbn [exp_full_name]. rewrite !append_assoc. reflexivity.
  - intro Hs. exists (exp_full_name n t ++ ".log")%string. split; [|reflexivity]. split; [right; exists (logdir_of out n t); reflexivity|].
    intros a b E. assert (H : has_slash (exp_full_name n t ++ ".log") = true) by (apply has_slash_iff; eauto).
    rewrite has_slash_app in H. cbn in H. rewrite orb_false_r in H. destruct Ht as [_ Ht]. unfold exp_full_name in H. destruct n as [n|]; [|congruence].
    rewrite !has_slash_app, Ht in H. cbn in H. rewrite orb_false_r in H. apply has_slash_iff in H. destruct H as (x & y & ->). eapply Hs; reflexivity.
Qed.
(** an absolute experiment name escapes the output directory *)
Theorem C115_absolute_name_refuted : forall out n t, logdir_of out (Some ("/" ++ n)%string) t = ("/" ++ n ++ "___" ++ t)%string.
Proof. intros. reflexivity. Qed.
Example C115_log_case : time_stamp "2019.12.31-235959" /\ relative (Some "resnet") /\
  logdir_of "logs" (Some "resnet") "2019.12.31-235959" = "logs/resnet___2019.12.31-235959" /\
  log_file_of "logs" None "2019.12.31-235959" = "logs/2019.12.31-235959/2019.12.31-235959.log".
Proof. repeat split. Qed.

(** * The links to the latest log *)

(** whatever links were there, however many processes start and however their actions interleave: when all have finished,
    both links exist *)
Theorem C115_links_exist : forall dir file n sched, 0 < n -> finished (lrun sched (lstart dir file n)) ->
  l_dir (lrun sched (lstart dir file n)) <> None /\ l_file (lrun sched (lstart dir file n)) <> None.
Proof.
  intros dir file n sched Hn Hf.
  assert (E0 : nth 0 (l_pcs (lstart dir file n)) Done = UnlinkFile) by (destruct n; [lia|reflexivity]).
  assert (Hd : inv_dir (lrun sched (lstart dir file n))) by (apply run_inv; [intros; apply step_inv_dir; auto|right; eauto]).
  assert (Hl : inv_file (lrun sched (lstart dir file n))) by (apply run_inv; [intros; apply step_inv_file; auto|right; right; right; eauto]).
  split.
  - destruct Hd as [H|(i & H)]; auto. rewrite (Hf i) in H. intuition discriminate.
  - destruct Hl as [H|[(i & H)|[(_ & i & H)|(i & H)]]]; auto; rewrite (Hf i) in H; intuition discriminate.
Qed.
(** a process that starts when all others have finished leaves both links to its own log *)
Theorem C115_last_process_wins : forall dir file pcs i, i < length pcs ->
  nth i pcs Done = UnlinkFile -> (forall j, j <> i -> nth j pcs Done = Done) ->
  let s := lrun [i; i; i; i] (mkL dir file pcs) in
  finished s /\ l_dir s = Some i /\ l_file s = Some i.
Proof.
  intros dir file pcs i Hi E Ho. cbn zeta.
  set (p := pcs) in *. unfold lrun. cbn [fold_left].
  assert (S1 : lstep (mkL dir file p) i = mkL dir None (set_pc p i UnlinkDir)) by (unfold lstep; cbn [l_pcs l_dir l_file]; rewrite E; reflexivity).
  rewrite S1.
  assert (S2 : lstep (mkL dir None (set_pc p i UnlinkDir)) i = mkL None None (set_pc (set_pc p i UnlinkDir) i LinkDir))
    by (unfold lstep; cbn [l_pcs l_dir l_file]; rewrite set_pc_same by auto; reflexivity).
  rewrite S2.
  assert (S3 : lstep (mkL None None (set_pc (set_pc p i UnlinkDir) i LinkDir)) i = mkL (Some i) None (set_pc (set_pc (set_pc p i UnlinkDir) i LinkDir) i LinkFile))
    by (unfold lstep; cbn [l_pcs l_dir l_file]; rewrite set_pc_same by (rewrite set_pc_length; auto); reflexivity).
  rewrite S3. unfold lstep. cbn [l_pcs l_dir l_file]. rewrite set_pc_same by (rewrite !set_pc_length; auto). cbn [l_pcs l_dir l_file].
  split; [|auto]. intro j. cbn [l_pcs]. destruct (Nat.eq_dec j i) as [->|N].
  - apply set_pc_same. rewrite !set_pc_length. auto.
  - rewrite !set_pc_other by auto. apply Ho. auto.
Qed.
(** the links can end at the logs of two different runs *)
Theorem C115_mixed_links_refuted : exists sched, let s := lrun sched (lstart None None 2) in
  finished s /\ l_dir s <> l_file s.
Proof. exists [1; 0; 0; 0; 1; 1; 0; 1]. split; [intros [|[|i]]; try reflexivity; destruct i; reflexivity|discriminate]. Qed.
(** a process that finishes after all others can own neither link *)
Theorem C115_last_finisher_refuted : let s := lrun [0; 1; 0; 1; 1; 1] (lstart None None 2) in
  ~ finished s /\ finished (lrun [0] s) /\ l_dir (lrun [0] s) = Some 1 /\ l_file (lrun [0] s) = Some 1.
Proof.
  split; [intro H; specialize (H 0); discriminate|]. split; [intros [|[|i]]; try reflexivity; destruct i; reflexivity|]. split; reflexivity.
Qed.
(** a process that stops half-way leaves no links, although there were links before *)
Theorem C115_crash_loses_links_refuted : forall d f, let s := lrun [0; 0] (lstart (Some d) (Some f) 1) in
  l_dir s = None /\ l_file s = None.
Proof. intros. split; reflexivity. Qed.
(** two processes that start within one second: the second can fail in makedirs; one after the other, they do not *)
Theorem C115_makedirs_race_refuted : fold_left mstep [0; 1; 0; 1] (false, [Check; Check]) = (true, [Ready; Failed]) /\
  (forall ex, fold_left mstep [0; 0; 1; 1] (ex, [Check; Check]) = (true, [Ready; Ready])).
Proof. split; [reflexivity|intros []; reflexivity]. Qed.
Example C115_links_case : finished (lrun [0; 1; 0; 1; 0; 1; 0; 1] (lstart (Some 7) None 2)) /\ among 2 [0; 1; 0; 1; 0; 1; 0; 1].
Proof. split; [intros [|[|i]]; try reflexivity; destruct i; reflexivity|]. repeat constructor. Qed.

(** * Seeds and devices *)

Theorem C115_evaluation_deterministic : forall rnd a, sa_evaluate a = true -> sa_deterministic (config_determinism rnd a) = true.
Proof. intros rnd [e d s] H. cbn in *. subst. reflexivity. Qed.
(** the seed given by the user is used; without one, a deterministic run takes 0, and another run a random one *)
Theorem C115_seed : forall rnd a,
  sa_seed (config_determinism rnd a) =
    Some (match sa_seed a with Some s => s | None => if sa_deterministic (config_determinism rnd a) then 0 else rnd end) /\
  sa_evaluate (config_determinism rnd a) = sa_evaluate a /\
  (sa_evaluate a = false -> sa_deterministic (config_determinism rnd a) = sa_deterministic a).
Proof. intros rnd [e d s]. cbn. repeat split. intros ->. reflexivity. Qed.
(** deterministic runs do not depend on the random choice *)
Theorem C115_deterministic_seed : forall a r r', sa_deterministic a = true -> config_determinism r a = config_determinism r' a.
Proof. intros [e d s] r r' H. cbn in H. subst. unfold config_determinism. cbn. rewrite orb_true_r. reflexivity. Qed.

Lemma all_ints_spec items ids : all_ints items = Some ids <-> items = map Some ids.
Proof.
  revert ids. induction items as [|[z|] l IH]; intro ids; cbn.
  - split; [intro H; injection H as <-; reflexivity|destruct ids; [reflexivity|discriminate]].
  - destruct (all_ints l) as [r|] eqn:E.
    + split; [intro H; injection H as <-; cbn; f_equal; apply IH; reflexivity|].
      destruct ids as [|i ids]; [discriminate|]. cbn. intro H. injection H as -> H. apply IH in H. congruence.
    + split; [discriminate|]. destruct ids as [|i ids]; [discriminate|]. cbn. intro H. injection H as _ H. apply IH in H. congruence.
  - split; [discriminate|]. destruct ids; discriminate.
Qed.
(** with a GPU: a list of devices is accepted exactly when every item is an integer below the number of devices *)
Theorem C115_gpu_list : forall available items out,
  config_compute_device false true available (Some items) = Ok out <->
  exists ids, items = map Some ids /\ (forall d, In d ids -> (d < Z.of_nat available)%Z) /\ out = GpuIds ids.
Proof.
  intros av items out. cbn. destruct (all_ints items) as [ids|] eqn:E.
  - apply all_ints_spec in E. destruct (existsb _ ids) eqn:X.
    + split; [discriminate|]. intros (ids' & H & Hlt & _). subst. apply existsb_exists in X. destruct X as (d & Hd & Hx).
      assert (ids = ids') by (apply (f_equal all_ints) in H; rewrite (proj2 (all_ints_spec _ ids) eq_refl), (proj2 (all_ints_spec _ ids') eq_refl) in H; congruence).
      subst. apply Hlt in Hd. apply Z.leb_le in Hx. lia.
    + split.
      * intro H. injection H as <-. exists ids. repeat split; auto. intros d Hd. apply Z.nle_gt. intro L. apply Z.leb_le in L.
        assert (existsb (fun d => Z.leb (Z.of_nat av) d) ids = true) by (apply existsb_exists; eauto). congruence.
      * intros (ids' & H & _ & ->). subst. apply (f_equal all_ints) in H.
        rewrite (proj2 (all_ints_spec _ ids) eq_refl), (proj2 (all_ints_spec _ ids') eq_refl) in H. congruence.
  - split; [discriminate|]. intros (ids & H & _). apply all_ints_spec in H. congruence.
Qed.
(** on the CPU, asked for or because there is no GPU, the list is not even looked at *)
Theorem C115_cpu : forall cpu cuda available items, cpu = true \/ cuda = false ->
  config_compute_device cpu cuda available items = Ok GpuCpu.
Proof. intros cpu cuda av items [-> | ->]; unfold config_compute_device; [reflexivity|]. rewrite orb_true_r. reflexivity. Qed.
(** a negative number is accepted as a device *)
Theorem C115_negative_device_refuted : config_compute_device false true 1 (Some [Some (-1)%Z]) = Ok (GpuIds [(-1)%Z]).
Proof. reflexivity. Qed.
Example C115_gpu_case : config_compute_device false true 2 (Some [Some 1%Z; Some 0%Z]) = Ok (GpuIds [1%Z; 0%Z]) /\
  config_compute_device false true 2 (Some [Some 2%Z]) = Raise ValueError /\ config_compute_device false true 2 (Some [None]) = Raise ValueError /\
  config_compute_device false true 2 None = Ok GpuAll.
Proof. repeat split. Qed.

(** * Lazy loading *)

Definition nonempty (s : loaders) : Prop := let '(a, b, c) := s in
  (exists n, a = Some (S n)) /\ (exists n, b = Some (S n)) /\ (exists n, c = Some (S n)).
Lemma nonempty_kept fresh s : nonempty s -> load_datasets fresh s = (s, false).
Proof. destruct s as [[a b] c]. intros ((x & ->) & (y & ->) & (z & ->)). reflexivity. Qed.
Lemma nonempty_loads fresh n s : nonempty s -> loads fresh n s = 0.
Proof. revert fresh s. induction n as [|n IH]; intros fresh s H; [reflexivity|]. cbn [loads]. rewrite nonempty_kept by auto. cbn. apply IH. auto. Qed.
(** three non-empty loaders are loaded once, however often they are asked for *)
Theorem C115_loaded_once : forall fresh n, nonempty (fresh 0) -> loads fresh (S n) no_loaders = 1.
Proof. intros fresh n H. cbn [loads no_loaders load_datasets truthy andb negb]. rewrite nonempty_loads by auto. reflexivity. Qed.
(** every request is answered with the loaders of the first *)
Theorem C115_same_loaders : forall fresh fresh' s, nonempty (fst (load_datasets fresh s)) ->
  load_datasets fresh' (fst (load_datasets fresh s)) = (fst (load_datasets fresh s), false).
Proof. intros. apply nonempty_kept. auto. Qed.
(** when one of them is empty (no validation split and none on disk, say), every request loads all the data again *)
Theorem C115_reload_refuted : forall fresh n, (forall k, exists a c, fresh k = (a, Some 0, c)) -> loads fresh n no_loaders = n.
Proof.
  assert (G : forall n fresh s, (forall k, exists a c, fresh k = (a, Some 0, c)) -> (s = no_loaders \/ exists a c, s = (a, Some 0, c)) -> loads fresh n s = n).
  { induction n as [|n IH]; intros fresh s Hf Hs; [reflexivity|]. cbn [loads].
    assert (load_datasets (fresh 0) s = (fresh 0, true)) as ->.
    { destruct Hs as [->|(a & c & ->)]; [reflexivity|]. unfold load_datasets. cbn [truthy]. rewrite andb_false_r. reflexivity. }
    cbn [Nat.add]. f_equal. apply IH; [intro k; apply (Hf (S k))|right; apply Hf]. }
  intros. apply G; auto.
Qed.

(** * Quantize and test *)
Section Quantize.
Context {Model Stats Config : Type} (collect : Model -> Q -> Stats).
Notation args := (qargs Stats Config).
Notation qat := (quantize_and_test (Model := Model) (Config := Config) collect).
Definition unspecified (a : args) : Prop := qa_dynamic a = false /\ qa_stats a = None /\ qa_config a = None.

(** without dynamic quantization, statistics or a configuration, the model is quantized with statistics collected from
    it; otherwise with what the user gave, and nothing is collected *)
Theorem C115_quantized_with : forall (a : args) m r, qat a m false = Ok r ->
  qr_model r = m /\ qr_dynamic r = qa_dynamic a /\ qr_config r = qa_config a /\
  (unspecified a -> qr_stats r = Some (collect m (match qa_calibration a with Some c => c | None => (5 # 100)%Q end))) /\
  (~ unspecified a -> qr_stats r = qa_stats a /\ qr_args r = a).
Proof.
  intros [d s c k] m r H. unfold quantize_and_test in H. cbn in H.
  destruct d; [|destruct s as [s|]; [|destruct c as [c|]]]; cbn in H; injection H as <-; cbn; unfold unspecified; cbn;
    repeat split; auto; try tauto; try (intros (? & ? & ?); discriminate); try (intro N; exfalso; apply N; auto).
Qed.
(** it always succeeds on a model that is not quantized yet and is refused on one that is *)
Theorem C115_quantizes_once : forall (a : args) m, (exists r, qat a m false = Ok r) /\ qat a m true = Raise RuntimeError.
Proof. intros. unfold quantize_and_test. split; [eexists; reflexivity|reflexivity]. Qed.
(** the collected statistics stay in the arguments: a second model is quantized with the statistics of the first *)
Theorem C115_reused_statistics_refuted : forall (a : args) m m' r, unspecified a -> qat a m false = Ok r ->
  exists r', qat (qr_args r) m' false = Ok r' /\ qr_model r' = m' /\
    qr_stats r' = Some (collect m (match qa_calibration a with Some c => c | None => (5 # 100)%Q end)).
Proof.
  intros [d s c k] m m' r (U1 & U2 & U3) H. cbn in *. subst. unfold quantize_and_test in H. cbn in H. injection H as <-. cbn.
  eexists. split; [reflexivity|]. split; reflexivity.
Qed.
End Quantize.
Example C115_quantize_case : 
  quantize_and_test (Model := nat) (Config := unit) (fun m _ => m) (mkQA false None None None) 3 false =
    Ok (mkQR (mkQA false (Some 3) None None) false (Some 3) None 3).
Proof. reflexivity. Qed.

Print Assumptions C115_configs_kept.
Print Assumptions C115_one_config.
Print Assumptions C115_both_configs.
Print Assumptions C115_stale_config_refuted.
Print Assumptions C115_same_name_configs_refuted.
Print Assumptions C115_log_directories_distinct.
Print Assumptions C115_same_second_refuted.
Print Assumptions C115_logs_kept.
Print Assumptions C115_log_file_in_directory.
Print Assumptions C115_absolute_name_refuted.
Print Assumptions C115_links_exist.
Print Assumptions C115_last_process_wins.
Print Assumptions C115_mixed_links_refuted.
Print Assumptions C115_crash_loses_links_refuted.
Print Assumptions C115_makedirs_race_refuted.
Print Assumptions C115_evaluation_deterministic.
Print Assumptions C115_seed.
Print Assumptions C115_deterministic_seed.
Print Assumptions C115_gpu_list.
Print Assumptions C115_cpu.
Print Assumptions C115_negative_device_refuted.
Print Assumptions C115_loaded_once.
Print Assumptions C115_same_loaders.
Print Assumptions C115_reload_refuted.
Print Assumptions C115_quantized_with.
Print Assumptions C115_quantizes_once.
Print Assumptions C115_reused_statistics_refuted.
Print Assumptions C115_config_arguments.
Print Assumptions C115_last_finisher_refuted.
