(** C103: starting and resuming a session. *)
From Coq Require Import String List ZArith Bool Arith Lia.
From Verif Require Import Base RsmModel RsmSpec.
Import ListNotations.

Section Props.
Variables (V P Metric : Type).
Notation kind := (kind V P Metric).
Notation obj := (obj V P Metric).

Section Closed.
Variable fs : list (list V -> Z -> list V).
Variable pols : list (nat * (Z -> bool)).
Variable lr0 : V.
Variable metric : Z -> Metric.
Hypothesis fs_len : Forall (fun f => forall b e, length (f b e) = length b) fs.

Notation ref := (rates V fs pols [lr0]).
Definition ini : option V := match fs with [] => None | _ => Some lr0 end.
Definition objs_of (l : list (list V -> Z -> list V)) : list obj := map (fun f => OClosed f [lr0]) l.

(** the state at the beginning of epoch e *)
Definition good (e : nat) (st : list obj * list (group V)) : Prop :=
  fst st = objs_of fs /\ exists v, snd st = [mkGr v ini] /\ ref e = [v].

Lemma one (l : list V) : length l = 1 -> exists v, l = [v].
Proof. destruct l as [|a [|b l]]; simpl; try discriminate. eauto. Qed.

Lemma replace_same {A} (l : list A) i x : nth_error l i = Some x -> replace_at i x l = l.
Proof. revert i; induction l; destruct i; simpl; intros; try discriminate; [congruence|]. f_equal. auto. Qed.

Lemma nth_objs l i : nth_error (objs_of l) i = match nth_error l i with Some f => Some (OClosed f [lr0]) | None => None end.
Proof. unfold objs_of. revert i; induction l; destruct i; simpl; auto. Qed.

Lemma epoch_end_fold m e : forall l st acc v0,
  fst st = objs_of fs -> (exists v, snd st = [mkGr v ini] /\
    match acc with None => v = v0 | Some i => match nth_error fs i with None => v = v0 | Some f => [v] = f [lr0] (e + 1)%Z end end) ->
  (forall i, acc = Some i -> nth_error fs i = None -> False) ->
  Forall (fun p => fst p < length fs) l ->
  let st' := epoch_end l e m st in
  let acc' := fold_left (fun (acc : option nat) (p : nat * (Z -> bool)) => if snd p e then Some (fst p) else acc) l acc in
  fst st' = objs_of fs /\ exists v, snd st' = [mkGr v ini] /\
    match acc' with None => v = v0 | Some i => match nth_error fs i with None => v = v0 | Some f => [v] = f [lr0] (e + 1)%Z end end.
Proof.
  induction l as [|p l IH]; intros st acc v0 H1 H2 H3 Hl; [split; auto|].
  inversion Hl as [|? ? Hp Hl']; subst. cbv zeta. unfold epoch_end. cbn [fold_left].
  destruct (snd p e) eqn:E.
  - rewrite H1, nth_objs. destruct (nth_error fs (fst p)) as [f|] eqn:En.
    2: { apply nth_error_None in En. lia. }
    cbn [step_obj]. destruct H2 as [v [Hv _]]. rewrite Hv.
    assert (Lf : length (f [lr0] (e + 1)%Z) = 1).
    { rewrite Forall_forall in fs_len. rewrite (fs_len f (nth_error_In _ _ En)). reflexivity. }
    destruct (one _ Lf) as [w Hw]. rewrite Hw. cbn [set_lrs initial].
    rewrite replace_same by (rewrite nth_objs, En; reflexivity).
    apply (IH (objs_of fs, [mkGr w ini]) (Some (fst p)) v0); auto.
    + exists w. cbn [snd]. rewrite En. split; auto.
    + intros i [= <-] Hn. congruence.
  - apply IH; auto.
Qed.

Lemma epoch_end_good e m st : Forall (fun p => fst p < length fs) pols ->
  good e st -> good (S e) (epoch_end pols (Z.of_nat e) m st).
Proof.
  intros Hp [H1 [v [H2 H3]]].
  pose proof (epoch_end_fold m (Z.of_nat e) pols st None v H1 (ex_intro _ v (conj H2 eq_refl))
                (fun i (H : None = Some i) _ => ltac:(discriminate)) Hp) as [A [w [B C]]].
  split; auto. exists w. split; auto. cbn [rates]. unfold last_scheduled.
  destruct (fold_left _ pols None) as [i|]; [|subst; auto].
  destruct (nth_error fs i); [|subst; auto]. rewrite Nat2Z.inj_succ. unfold Z.succ. auto.
Qed.

Lemma epochs_good : Forall (fun p => fst p < length fs) pols -> forall n e st, good e st ->
  fst (epochs pols metric (Z.of_nat e) n st) = map (fun k => (Z.of_nat k, ref k)) (seq e n) /\
  good (e + n) (snd (epochs pols metric (Z.of_nat e) n st)).
Proof.
  intros Hp. induction n; intros e st G; cbn [epochs seq map fst snd].
  - rewrite Nat.add_0_r. auto.
  - replace (Z.of_nat e + 1)%Z with (Z.of_nat (S e)) by lia.
    destruct (IHn (S e) _ (epoch_end_good e (metric (Z.of_nat e)) st Hp G)) as [A B].
    rewrite A. replace (e + S n) with (S e + n) by lia. split; auto.
    f_equal. f_equal. destruct G as [_ [v [G1 G2]]]. rewrite G1, G2. reflexivity.
Qed.

(** making all the LR schedulers *)
Lemma make_all_good last : forall l v i,
  (last = (-1)%Z -> i = Some lr0 \/ (i = None /\ v = lr0)) -> (last <> (-1)%Z -> l <> [] -> i = Some lr0) ->
  Forall (fun f => forall b e, length (f b e) = length b) l ->
  exists w, make_all (P := P) (Metric := Metric) (map Closed l) last (Some [mkGr v i]) =
    Ok (objs_of l, Some [mkGr w (match l with [] => i | _ => Some lr0 end)]) /\
    [w] = match rev l with [] => [v] | f :: _ => f [lr0] (last + 1)%Z end.
Proof.
  induction l as [|f l IH]; intros v i H1 H2 Hl.
  - exists v. split; reflexivity.
  - inversion Hl as [|? ? Hf Hl']; subst. cbn [map make_all construct]. cbv zeta.
    assert (G : (if Z.eqb last (-1) then [setdefault_initial (mkGr v i)] else [mkGr v i]) = [mkGr v (Some lr0)]).
    { destruct (Z.eqb_spec last (-1)) as [->|N].
      - destruct (H1 eq_refl) as [->|[-> ->]]; reflexivity.
      - rewrite (H2 N) by discriminate. reflexivity. }
    rewrite G. cbn [initials initial bind].
    destruct (one (f [lr0] (last + 1)%Z)) as [w Hw]; [rewrite Hf; reflexivity|].
    rewrite Hw. cbn [set_lrs initial fst snd bind].
    destruct (IH w (Some lr0)) as [u [A B]]; auto.
    rewrite A. cbn [bind fst snd]. exists u. split.
    + f_equal. f_equal. destruct l; reflexivity.
    + rewrite B. cbn [rev]. destruct (rev l) eqn:R; [|reflexivity].
      cbn. rewrite Hw. reflexivity.
Qed.

Definition cfg : config V P Metric := mkCfg (map Closed fs) pols.
Variables (weights : bool) (n_epochs : Z).
Definition args_of (last : option (ckpt V)) := mkArgs lr0 last None weights false false (Some cfg) n_epochs.

Lemma rates_one e : Forall (fun p => fst p < length fs) pols -> exists v, ref e = [v].
Proof.
  intros Hp. induction e.
  - cbn. destruct (rev fs) as [|f r] eqn:R; [eauto|]. apply one.
    rewrite Forall_forall in fs_len. rewrite fs_len; auto. apply in_rev. rewrite R. left; auto.
  - cbn [rates]. destruct (last_scheduled pols (Z.of_nat e)) as [i|]; auto.
    destruct (nth_error fs i) as [f|] eqn:En; auto. apply one.
    rewrite Forall_forall in fs_len. rewrite fs_len; auto. eapply nth_error_In; eauto.
Qed.

(** a session that starts at epoch s *)
Lemma session_good last s n : Forall (fun p => fst p < length fs) pols ->
  (match last with
   | None => s = 0
   | Some c => ck_epoch c = (Z.of_nat s - 1)%Z /\ 0 < s /\
               (exists v, ck_opt c = Some [mkGr v ini] /\ ref s = [v]) /\ last_one_in_charge V fs pols (s - 1)
   end) ->
  exists c, session (args_of last) metric n = Ok (map (fun k => (Z.of_nat k, ref k)) (seq s (S n)), c) /\
    match c with
    | None => n = 0
    | Some c => ck_epoch c = (Z.of_nat (s + n) - 1)%Z /\ 0 < s + n /\
        exists v, ck_opt c = Some [mkGr v ini] /\ ref (s + n) = [v]
    end.
Proof.
  intros Hp Hs. unfold session.
  assert (I : exists l gs, init_learner (args_of last) = Ok l /\ l_start l = Z.of_nat s /\ l_opt l = Some gs /\
                good s (l_objs l, gs)).
  { unfold init_learner, args_of. cbn [a_resume a_reset a_resume_from a_compress a_evaluate a_lr a_weights a_epochs].
    destruct last as [c|].
    - destruct Hs as [Hc [Hpos [[v [Ho Hr]] Hl]]]. unfold load_optimizer. rewrite Ho. cbn [length Nat.eqb bind].
      rewrite Hc. replace (Z.of_nat s - 1 + 1)%Z with (Z.of_nat s) by lia. cbn [c_lrs cfg].
      destruct (make_all_good (Z.of_nat s - 1) fs v ini) as [w [A B]]; auto.
      { lia. }
      { intros _ N. unfold ini. destruct fs; [contradiction|auto]. }
      rewrite A. cbn [bind fst snd]. do 2 eexists. split; [reflexivity|].
      split; [reflexivity|]. split; [reflexivity|]. split; [reflexivity|]. exists w.
      split; [unfold ini; destruct fs; reflexivity|]. rewrite B.
      replace (Z.of_nat s - 1 + 1)%Z with (Z.of_nat s) by lia.
      destruct (rev fs) as [|f r] eqn:R; auto.
      destruct s as [|s']; [lia|]. cbn [rates]. replace (S s' - 1) with s' in Hl by lia.
      assert (Ef : fs = rev r ++ [f]) by (rewrite <- (rev_involutive fs), R; reflexivity).
      destruct Hl as [Hl|Hl]; [rewrite Hl in R; discriminate|]. rewrite Hl.
      replace (nth_error fs (length fs - 1)) with (Some f); auto. symmetry.
      rewrite Ef at 1. rewrite Ef, app_length. cbn [length].
      replace (length (rev r) + 1 - 1) with (length (rev r)) by lia.
      rewrite nth_error_app2, Nat.sub_diag by lia. reflexivity.
    - subst s. cbn [bind]. destruct (make_all_good (-1) fs lr0 None) as [w [A B]]; auto.
      { intros H _; exfalso; apply H; auto. }
      cbn [c_lrs cfg]. rewrite A. cbn [bind fst snd]. do 2 eexists. split; [reflexivity|].
      split; [reflexivity|]. split; [reflexivity|]. split; [reflexivity|]. exists w. split; [unfold ini; destruct fs; reflexivity|].
      cbn [rates]. rewrite B. destruct (rev fs); reflexivity. }
  destruct I as [l [gs [I1 [I2 [I3 I4]]]]]. rewrite I1. cbn [bind]. rewrite I3, I2.
  cbn [a_compress args_of c_pols cfg].
  destruct (epochs_good Hp n s (l_objs l, gs) I4) as [A B]. rewrite A.
  eexists. split.
  - f_equal. f_equal. rewrite seq_S, map_app. f_equal. cbn [map].
    destruct B as [_ [v [B1 B2]]]. rewrite B1, B2. f_equal. f_equal. lia.
  - destruct n; auto. cbn [ck_epoch ck_opt]. destruct B as [_ [v [B1 B2]]].
    split; [lia|]. split; [lia|]. exists v. rewrite B1. auto.
Qed.

Lemma history_good : Forall (fun p => fst p < length fs) pols -> forall ns last s,
  (match last with
   | None => s = 0
   | Some c => ck_epoch c = (Z.of_nat s - 1)%Z /\ 0 < s /\ (exists v, ck_opt c = Some [mkGr v ini] /\ ref s = [v])
   end) ->
  (forall k, In k (starts s ns) -> 0 < k -> last_one_in_charge V fs pols (k - 1)) ->
  history (args_of None) metric last ns = Ok (map (fun k => (Z.of_nat k, ref k)) (epochs_run s ns)).
Proof.
  intros Hp. induction ns as [|n ns IH]; intros last s Hs Hl; [reflexivity|].
  cbn [history epochs_run]. cbn [a_lr a_weights a_reset a_evaluate a_compress a_epochs args_of].
  fold (args_of last).
  destruct (session_good last s n Hp) as [c [A B]].
  { destruct last as [c|]; auto. destruct Hs as [S1 [S2 S3]]. repeat split; auto. apply Hl; auto. left; auto. }
  rewrite A. cbn [bind fst snd].
  rewrite (IH _ (s + n)).
  - cbn [bind]. rewrite map_app. reflexivity.
  - destruct c as [c|].
    + exact B.
    + subst n. rewrite Nat.add_0_r. destruct last; auto.
  - intros k Hk. apply Hl. right. auto.
Qed.
End Closed.

(* ------------------------------------------------------------------------- *)

(** A new session of n epochs uses in each epoch the rates the file asks for. *)
Theorem C103_fresh_session : forall fs pols lr0 (metric : Z -> Metric) w n total,
  Forall (fun f => forall b e, length (f b e) = length b) fs -> Forall (fun p => fst p < length fs) pols ->
  exists c, session (mkArgs lr0 None None w false false (Some (mkCfg (map Closed fs) pols : config V P Metric)) total) metric n
    = Ok (map (fun k => (Z.of_nat k, rates V fs pols [lr0] k)) (seq 0 (S n)), c).
Proof.
  intros fs pols lr0 metric w n total Hf Hp.
  destruct (session_good fs pols lr0 metric Hf w total None 0 n Hp eq_refl) as [c [A _]]. exists c. exact A.
Qed.

(** However often the training is interrupted and resumed - the last checkpoint's epochs are complete,
    the epoch in progress is repeated - every epoch that is run is run with the rates of the training
    that is never interrupted, if at each resumption the last LR scheduler of the file was the one in
    charge.  (With one LR scheduler: if its policy was scheduled for the epoch before.) *)
Theorem C103_interrupted_training : forall fs pols lr0 (metric : Z -> Metric) w ns total,
  Forall (fun f => forall b e, length (f b e) = length b) fs -> Forall (fun p => fst p < length fs) pols ->
  (forall k, In k (starts 0 ns) -> 0 < k -> last_one_in_charge V fs pols (k - 1)) ->
  history (mkArgs lr0 None None w false false (Some (mkCfg (map Closed fs) pols : config V P Metric)) total) metric None ns
    = Ok (map (fun k => (Z.of_nat k, rates V fs pols [lr0] k)) (epochs_run 0 ns)).
Proof.
  intros. apply (history_good fs pols lr0 metric H w total H0 ns None 0); auto.
Qed.

(** Without a schedule the rate of the checkpoint is kept, whatever --lr says. *)
Theorem C103_no_schedule : forall lr0 v i (metric : Z -> Metric) w n e total,
  session (mkArgs lr0 (Some (mkCk e (Some [mkGr v i]))) None w false false (None : option (config V P Metric)) total) metric n
    = Ok (map (fun k => (e + 1 + Z.of_nat k, [v])%Z) (seq 0 (S n)),
          match n with O => None | S _ => Some (mkCk (e + Z.of_nat n) (Some [mkGr v i])) end).
Proof.
  intros. unfold session. cbn [init_learner a_resume a_reset a_resume_from a_compress load_optimizer ck_opt length Nat.eqb bind
     ck_epoch l_opt l_start l_objs a_epochs fst snd].
  assert (G : forall n e (st : list obj * list (group V)), epochs [] metric e n st =
     (map (fun k => (e + Z.of_nat k, lrs (snd st))%Z) (seq 0 n), st)).
  { clear. induction n; intros e st; [reflexivity|]. cbn [epochs epoch_end fold_left]. rewrite IHn. cbn [fst snd].
    cbn [seq map]. f_equal. f_equal; [f_equal; lia|]. rewrite <- seq_shift, map_map. apply map_ext. intros. f_equal. lia. }
  rewrite G. cbn [fst snd]. rewrite seq_S, map_app. cbn [map]. f_equal. f_equal.
  destruct n; auto. f_equal. f_equal. lia.
Qed.

(** --reset-optimizer: whatever the checkpoint's epoch and (loadable) optimizer, epochs and rates are those
    of a new session; only the weights and the scheduler come from the checkpoint. *)
Theorem C103_reset : forall lr0 c (metric : Z -> Metric) w cfg total n,
  load_optimizer c <> Raise ValueError ->
  session (mkArgs lr0 (Some c) None w true false cfg total) metric n =
  session (mkArgs (P := P) lr0 None None w false false cfg total) metric n /\
  (forall l, init_learner (mkArgs (P := P) lr0 (Some c) None w true false cfg total : largs V P Metric) = Ok l ->
     l_source l = Resumed /\ l_sched_loaded l = true /\ l_start l = 0%Z).
Proof.
  intros lr0 c metric w cfg total n Hc.
  assert (Hl : exists o, load_optimizer c = Ok o).
  { unfold load_optimizer in *. destruct (ck_opt c); eauto. destruct (Nat.eqb _ 1); eauto. congruence. }
  destruct Hl as [o Ho]. split.
  - unfold session, init_learner. cbn [a_resume a_reset a_resume_from a_compress a_evaluate a_lr a_weights a_epochs].
    rewrite Ho. cbn [bind]. destruct cfg as [cfg|]; [|destruct w; reflexivity].
    change (0 - 1)%Z with (-1)%Z. destruct (make_all _ _ _); destruct w; reflexivity.
  - intros l. unfold init_learner. cbn [a_resume a_reset a_resume_from a_compress a_evaluate a_lr a_weights a_epochs].
    rewrite Ho. cbn [bind]. destruct cfg as [cfg|].
    + change (0 - 1)%Z with (-1)%Z. destruct (make_all _ _ _) as [r|]; cbn [bind]; [|discriminate].
      intros [= <-]. auto.
    + intros [= <-]. auto.
Qed.

(** The deprecated --resume always resets the optimizer and the epoch count. *)
Theorem C103_deprecated_resume : forall lr0 c w reset ev cfg total,
  init_learner (mkArgs (P := P) lr0 None (Some c) w reset ev cfg total : largs V P Metric) =
  init_learner (mkArgs lr0 (Some c) None w true ev cfg total).
Proof. reflexivity. Qed.

(** A resumed session starts after the checkpoint's epoch, with the checkpoint's optimizer: --lr is
    ignored. *)
Theorem C103_lr_ignored : forall lr0 lr1 c gs w ev cfg total, ck_opt c = Some gs ->
  init_learner (mkArgs (P := P) lr0 (Some c) None w false ev cfg total : largs V P Metric) =
  init_learner (mkArgs lr1 (Some c) None w false ev cfg total) /\
  (forall l, init_learner (mkArgs (P := P) lr0 (Some c) None w false ev cfg total : largs V P Metric) = Ok l ->
     l_start l = (ck_epoch c + 1)%Z /\ l_source l = Resumed /\ l_end l = total).
Proof.
  intros lr0 lr1 c gs w ev cfg total Ho. unfold init_learner, load_optimizer.
  cbn [a_resume a_reset a_resume_from a_compress a_evaluate a_lr a_weights a_epochs]. rewrite Ho.
  destruct (Nat.eqb (length gs) 1); cbn [bind]; [|split; [reflexivity|discriminate]].
  split; [reflexivity|]. intros l. destruct cfg as [cfg|].
  - destruct (make_all _ _ _) as [r|]; cbn [bind]; [|discriminate]. intros [= <-]. auto.
  - intros [= <-]. auto.
Qed.

(** (Findings)  A checkpoint of a training without LR scheduler cannot be resumed with a file that has
    one. *)
Theorem C103_new_lr_scheduler_refuted : forall lr0 e v f r pols w ev total, (0 <= e)%Z ->
  init_learner (mkArgs lr0 (Some (mkCk e (Some [mkGr v None]))) None w false ev
    (Some (mkCfg (Closed f :: r) pols : config V P Metric)) total) = Raise KeyError.
Proof.
  intros. unfold init_learner. cbn. destruct (Z.eqb_spec (e + 1 - 1) (-1)); [lia|]. reflexivity.
Qed.

(** A checkpoint whose optimizer has not exactly one parameter group (PACT adds one) cannot be resumed, not
    even to reset the optimizer. *)
Theorem C103_parameter_groups_refuted : forall lr0 e gs w reset ev cfg total, length gs <> 1 ->
  init_learner (mkArgs (P := P) lr0 (Some (mkCk e (Some gs))) None w reset ev cfg total : largs V P Metric) = Raise ValueError.
Proof.
  intros. unfold init_learner. cbn. destruct (Nat.eqb_spec (length gs) 1); [contradiction|]. reflexivity.
Qed.

(** Evaluating a model that is not resumed: no optimizer, so a file with an LR scheduler is refused. *)
Theorem C103_evaluate : forall lr0 w reset cfg total,
  (c_lrs cfg <> [] -> init_learner (mkArgs lr0 None None w reset true (Some cfg : option (config V P Metric)) total) = Raise TypeError) /\
  (c_lrs cfg = [] -> exists l, init_learner (mkArgs lr0 None None w reset true (Some cfg : option (config V P Metric)) total) = Ok l /\
     l_opt l = None /\ l_source l = (if w then Weights else Created) /\ l_start l = 0%Z).
Proof.
  intros lr0 w reset [ks pols] total. unfold init_learner. cbn. split; intros H.
  - destruct ks; [contradiction|]. destruct reset; reflexivity.
  - subst. cbn. destruct reset; eexists; (split; [reflexivity|]); auto.
Qed.
End Props.

(* ------------------------------------------------------------------------- *)
(** ** Instances and counterexamples: rates are numbers, a StepLR-like scheduler that divides by 10
    every 2 epochs (rates in thousandths) *)
Definition step_lr : list Z -> Z -> list Z := fun b e => map (fun x => (x / 10 ^ (e / 2))%Z) b.
Definition always : Z -> bool := fun _ => true.
Definition args1 (c : config Z Z Z) := mkArgs 1000%Z None None false false false (Some c) 10%Z.

(** three sessions (two epochs and a crash, a crash at once, two epochs): the hypotheses hold *)
Example rsm_ex1 : history (args1 (mkCfg [Closed step_lr] [(0, always)])) (fun _ => 0%Z) None [2; 0; 2] =
  Ok [(0, [1000]); (1, [1000]); (2, [100]); (2, [100]); (2, [100]); (3, [100]); (4, [10])]%Z.
Proof. reflexivity. Qed.
Example rsm_ex2 : Forall (fun f : list Z -> Z -> list Z => forall b e, length (f b e) = length b) [step_lr] /\
  (forall k, In k (starts 0 [2; 0; 2]) -> 0 < k -> last_one_in_charge Z [step_lr] [(0, always)] (k - 1)).
Proof.
  split; [constructor; auto; intros; apply map_length|]. intros k _ _. right. reflexivity.
Qed.

(** (Findings)  The rates differ from those of the uninterrupted training if the policy was not
    scheduled for the epoch before: *)
Theorem C103_policy_over_refuted :
  let c := mkCfg [Closed step_lr] [(0, fun e => (e <? 1)%Z)] in
  history (args1 c) (fun _ => 0%Z) None [3] = Ok [(0, [1000]); (1, [1000]); (2, [1000]); (3, [1000])]%Z /\
  history (args1 c) (fun _ => 0%Z) None [2; 1] = Ok [(0, [1000]); (1, [1000]); (2, [1000]); (2, [100]); (3, [100])]%Z.
Proof. split; reflexivity. Qed.
(** with two schedulers one after the other (a warm-up, then a decay): the epoch after resuming is run with
    the second one's rate - and so is the very first epoch of every training: *)
Theorem C103_two_schedulers_refuted :
  let warm := fun (b : list Z) e => map (fun x => (x * (e + 1) / 5)%Z) b in
  let c := mkCfg [Closed warm; Closed step_lr] [(0, fun e => (e <? 4)%Z); (1, fun e => (4 <=? e)%Z)] in
  history (args1 c) (fun _ => 0%Z) None [3] = Ok [(0, [1000]); (1, [400]); (2, [600]); (3, [800])]%Z /\
  history (args1 c) (fun _ => 0%Z) None [2; 1] = Ok [(0, [1000]); (1, [400]); (2, [600]); (2, [100]); (3, [800])]%Z.
Proof. split; reflexivity. Qed.
(** ReduceLROnPlateau forgets how many epochs were bad (here: 2 bad epochs are needed): *)
Theorem C103_plateau_refuted :
  let st := fun (p m : Z) (l : list Z) => if (p + 1 =? 2)%Z then (0%Z, map (fun x => (x / 10)%Z) l) else ((p + 1)%Z, l) in
  let c := mkCfg [Plateau 0%Z st] [(0, always)] in
  history (args1 c) (fun _ => 0%Z) None [3] = Ok [(0, [1000]); (1, [1000]); (2, [100]); (3, [100])]%Z /\
  history (args1 c) (fun _ => 0%Z) None [1; 2] = Ok [(0, [1000]); (1, [1000]); (1, [1000]); (2, [1000]); (3, [100])]%Z.
Proof. split; reflexivity. Qed.

Print Assumptions C103_fresh_session.
Print Assumptions C103_interrupted_training.
Print Assumptions C103_no_schedule.
Print Assumptions C103_reset.
Print Assumptions C103_deprecated_resume.
Print Assumptions C103_lr_ignored.
Print Assumptions C103_new_lr_scheduler_refuted.
Print Assumptions C103_parameter_groups_refuted.
Print Assumptions C103_evaluate.
Print Assumptions C103_policy_over_refuted.
Print Assumptions C103_two_schedulers_refuted.
Print Assumptions C103_plateau_refuted.
