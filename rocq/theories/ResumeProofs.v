(** Crash and resume: checkpoint round trip and the simulation between the continued and the
    resumed run. *)
From Coq Require Import String List ZArith QArith Bool Arith Lia.
From Verif Require Import Base Names SchedModel SchedSpec CkptModel SchedProofs SchedMaskProofs
  SchedPolicyProofs SchedPolicyProofs2 CkptProofs.
Import ListNotations.

(* ------------------------------------------------------------------------- *)
(** ** Checkpoint files *)
Lemma create_masks_dict_acc params (acc : dict masker) :
  NoDup (dkeys acc ++ dkeys params) ->
  fold_left (fun d np => dset d (fst np) new_masker) (params : dict tensor) acc =
  (acc ++ map (fun np => (fst np, new_masker)) params)%list.
Proof.
  revert acc; induction params as [|(n, p) params IH]; intros acc H; cbn [fold_left fst].
  - simpl. rewrite app_nil_r; auto.
  - assert (~ In n (dkeys acc)) as Hn.
    { apply NoDup_remove_2 in H. intro Hc. apply H. apply in_or_app; auto. }
    assert (dset acc n new_masker = acc ++ [(n, new_masker)])%list as E.
    { clear - Hn. induction acc as [|(a, b) acc IH]; simpl in *; auto.
      destruct (String.eqb_spec n a); [exfalso; apply Hn; auto|]. rewrite IH; auto. }
    rewrite E, IH.
    + rewrite <- app_assoc. reflexivity.
    + unfold dkeys in *. rewrite map_app. simpl. rewrite <- app_assoc. exact H.
Qed.

Lemma create_masks_dict params :
  NoDup (dkeys params) ->
  create_model_masks_dict params = map (fun np => (fst np, new_masker)) params.
Proof. intro H. unfold create_model_masks_dict. rewrite create_masks_dict_acc; auto. Qed.

Lemma create_masks_keys params :
  NoDup (dkeys params) -> dkeys (create_model_masks_dict params) = dkeys params.
Proof. intro H. rewrite create_masks_dict; auto. unfold dkeys. rewrite map_map. reflexivity. Qed.

Lemma create_masks_get params n :
  NoDup (dkeys params) -> In n (dkeys params) ->
  dget (create_model_masks_dict params) n = Some new_masker.
Proof.
  intros H. rewrite create_masks_dict; auto. clear H.
  induction params as [|(k, p) params IH]; simpl; [tauto|].
  intros [->|Hn]; [rewrite String.eqb_refl; auto|]. destruct (String.eqb n k); auto.
Qed.

Lemma load_params_same (p0 : dict tensor) loaded params :
  dkeys p0 = dkeys params -> NoDup (dkeys params) ->
  (forall n, In n (dkeys params) -> dget loaded n = dget params n) ->
  missing_keys p0 loaded = [] /\ load_params p0 loaded = params.
Proof.
  intros HK Hnd H. split.
  - unfold missing_keys. rewrite HK.
    assert (forall n, In n (dkeys params) -> negb (dmem loaded n) = false) as Hf.
    { intros n Hn. unfold dmem. rewrite (H n Hn). destruct (dget params n) eqn:E; auto.
      apply dget_None_notin in E. contradiction. }
    revert Hf. generalize (dkeys params). induction l as [|k l IH]; intro Hf; simpl; auto.
    rewrite (Hf k) by (simpl; auto). apply IH. intros; apply Hf; simpl; auto.
  - assert (forall p0 : dict tensor, dkeys (load_params p0 loaded) = dkeys p0) as K.
    { clear. induction p0 as [|(k, p) p0 IH]; simpl; congruence. }
    apply dict_ext; [rewrite K; auto|rewrite K, HK; auto|].
    intros n Hn. rewrite K, HK in Hn. rewrite <- (H n Hn).
    assert (In n (dkeys p0)) as Hn0 by (rewrite HK; auto).
    destruct (dget loaded n) as [v|] eqn:E.
    + clear - Hn0 E. induction p0 as [|(k, p) p0 IH]; simpl in *; [tauto|].
      destruct (String.eqb_spec n k); [subst; rewrite E; auto|]. apply IH. destruct Hn0; [congruence|auto].
    + rewrite H in E by auto. apply dget_None_notin in E. contradiction.
Qed.

(** Loaded maskers: fresh flags, saved masks. *)
Definition loaded_maskers (mk : dict masker) : dict masker :=
  map (fun nm => (fst nm, set_mask new_masker (mk_mask (snd nm)))) mk.

Lemma loaded_maskers_keys mk : dkeys (loaded_maskers mk) = dkeys mk.
Proof. unfold dkeys, loaded_maskers. rewrite map_map. reflexivity. Qed.

Lemma loaded_maskers_get mk n :
  dget (loaded_maskers mk) n =
  match dget mk n with Some m => Some (set_mask new_masker (mk_mask m)) | None => None end.
Proof. induction mk as [|(k, m) mk IH]; simpl; auto. destruct (String.eqb n k); auto. Qed.

Lemma loaded_maskers_state mk : state_dict (loaded_maskers mk) = state_dict mk.
Proof. unfold loaded_maskers, state_dict. rewrite map_map. reflexivity. Qed.

Lemma save_load_plain epoch (params p0 : dict tensor) (mk : dict masker) :
  NoDup (dkeys params) -> dkeys mk = dkeys params -> dkeys p0 = dkeys params ->
  load_checkpoint p0 (save_checkpoint epoch params (Some mk)) =
  Ok (params, Some (loaded_maskers mk), (epoch + 1)%Z).
Proof.
  intros Hnd Hk H0. unfold load_checkpoint, save_checkpoint. cbn [ck_epoch ck_sched ck_params].
  assert (NoDup (dkeys p0)) as Hnd0 by congruence.
  unfold load_compression_scheduler.
  destruct (load_round_trip mk (create_model_masks_dict p0)) as (A & B & C).
  { intros n. rewrite create_masks_keys, H0, Hk; auto. }
  rewrite A. cbn [bind].
  destruct (load_params_same p0 params params) as (M & L); auto.
  rewrite M, L. do 3 f_equal. f_equal.
  apply dict_ext.
  - rewrite B, create_masks_keys, loaded_maskers_keys; congruence.
  - rewrite B, create_masks_keys; auto.
  - intros n Hn. rewrite B, create_masks_keys, H0, <- Hk in Hn by auto.
    destruct (dget mk n) as [a|] eqn:E; [|apply dget_None_notin in E; contradiction].
    rewrite (C n a new_masker E).
    + rewrite loaded_maskers_get, E. reflexivity.
    + apply create_masks_get; auto. rewrite H0, <- Hk. auto.
Qed.

Lemma save_load_parallel epoch (params p0 : dict tensor) (mk : dict masker) :
  NoDup (dkeys params) -> dkeys mk = dkeys params -> dkeys p0 = dkeys params ->
  (exists n, In n (dkeys params) /\ ~ In n (map (fun n => "module." ++ n)%string (dkeys params))) ->
  load_checkpoint p0 (save_checkpoint epoch (add_prefix params) (Some (add_prefix mk))) =
  Ok (params, Some (loaded_maskers mk), (epoch + 1)%Z).
Proof.
  intros Hnd Hk H0 Hex. unfold load_checkpoint, save_checkpoint. cbn [ck_epoch ck_sched ck_params].
  assert (NoDup (dkeys p0)) as Hnd0 by congruence.
  assert (forall (A : Type) (d : dict A), dkeys (add_prefix d) = map (fun n => "module." ++ n)%string (dkeys d)) as Kp.
  { intros. unfold dkeys, add_prefix. rewrite !map_map. reflexivity. }
  assert (forall n, In n (dkeys (create_model_masks_dict p0)) -> In n (dkeys mk)) as Hsub.
  { intros n. rewrite create_masks_keys, H0, Hk; auto. }
  assert (NoDup (dkeys mk)) as Hndk by congruence.
  rewrite retry_parallel; auto.
  2:{ destruct Hex as (n & H1 & H2). exists n. rewrite create_masks_keys, H0, Kp, Hk; auto. }
  cbn [bind].
  destruct (load_parallel mk (create_model_masks_dict p0) Hndk Hsub) as (A & B & C).
  destruct (load_params_same p0 (rekey normalize_module_name (add_prefix params)) params) as (M & L); auto.
  { intros n _. apply rekey_prefix; auto. }
  rewrite M, L. do 3 f_equal. f_equal.
  apply dict_ext.
  - rewrite B, create_masks_keys, loaded_maskers_keys; congruence.
  - rewrite B, create_masks_keys; auto.
  - intros n Hn. rewrite B, create_masks_keys, H0, <- Hk in Hn by auto.
    destruct (dget mk n) as [a|] eqn:E; [|apply dget_None_notin in E; contradiction].
    rewrite (C n a new_masker E).
    + rewrite loaded_maskers_get, E. reflexivity.
    + apply create_masks_get; auto. rewrite H0, <- Hk. auto.
Qed.

(** A DataParallel checkpoint without a scheduler cannot be loaded into the plain model. *)
Lemma load_parallel_no_sched epoch (params p0 : dict tensor) :
  (exists n, In n (dkeys p0) /\ ~ In n (map (fun n => "module." ++ n)%string (dkeys params))) ->
  load_checkpoint p0 (save_checkpoint epoch (add_prefix params) None) = Raise ValueError.
Proof.
  intros (n & H1 & H2). unfold load_checkpoint, save_checkpoint. cbn [ck_epoch ck_sched ck_params bind].
  assert (In n (missing_keys p0 (add_prefix params))) as Hin.
  { unfold missing_keys. apply filter_In. split; auto. unfold dmem.
    destruct (dget (add_prefix params) n) eqn:E; auto. exfalso. apply H2. apply dget_Some_In in E.
    unfold dkeys, add_prefix in *. rewrite map_map in *. exact E. }
  destruct (missing_keys p0 (add_prefix params)); [destruct Hin|reflexivity].
Qed.

(* ------------------------------------------------------------------------- *)
(** ** Simulation *)
Section Sim.
Context {PS : Type}.
Variable tbl : nat -> policy PS.

(** Same outcome of a pruner whatever its internal state. *)
Definition stateless (pr : pruner PS) : Prop :=
  forall ps ps' me n p m,
    match pr ps me n p m, pr ps' me n p m with
    | Ok (_, x), Ok (_, y) => x = y
    | Raise e, Raise e' => e = e'
    | _, _ => False
    end.

(** Policies for which resuming is exact. *)
Definition resumable (q : nat) : Prop :=
  match tbl q with
  | PPrune c pr => pc_fwd_only c = false /\ pc_double c = false /\ pc_skip_first c = false /\
                   pc_mask_grad c = false /\ stateless pr
  | PReg r _ => rg_criteria r = false
  | PLR | PLoss _ => True
  end.

Definition plain (m : masker) : Prop :=
  mk_is_reg m = false /\ mk_double m = false /\ mk_fwd_only m = false /\ mk_handle m = false.

Definition mrel (a b : string * masker) : Prop :=
  fst a = fst b /\ mk_mask (snd a) = mk_mask (snd b) /\ plain (snd a) /\ plain (snd b).

Definition meta_rel (a b : nat * meta) : Prop :=
  fst a = fst b /\ me_start (snd a) = me_start (snd b) /\ me_end (snd a) = me_end (snd b) /\
  me_freq (snd a) = me_freq (snd b).

(** [E]: the policies whose is_last_epoch flags are known to agree. *)
Definition sim (E : nat -> Prop) (w w' : world PS) : Prop :=
  w_params w = w_params w' /\
  Forall2 mrel (w_maskers w) (w_maskers w') /\
  sc_policies (w_sched w) = sc_policies (w_sched w') /\
  Forall2 meta_rel (sc_meta (w_sched w)) (sc_meta (w_sched w')) /\
  forall q, E q -> po_last (w_pol w q) = po_last (w_pol w' q).

Definition rsim {A B} (R : A -> B -> Prop) (a : res A) (b : res B) : Prop :=
  match a, b with
  | Ok x, Ok y => R x y
  | Raise e, Raise e' => e = e'
  | _, _ => False
  end.

Lemma rsim_bind {A B C D} (R : A -> B -> Prop) (S : C -> D -> Prop) m m' f g :
  rsim R m m' -> (forall x y, R x y -> rsim S (f x) (g y)) -> rsim S (bind m f) (bind m' g).
Proof. destruct m, m'; simpl; intros H Hf; auto; try tauto. Qed.

Lemma rsim_foldM {A S} (R : S -> S -> Prop) (f g : S -> A -> res S) l :
  (forall s s' a, In a l -> R s s' -> rsim R (f s a) (g s' a)) ->
  forall s s', R s s' -> rsim R (foldM f l s) (foldM g l s').
Proof.
  induction l as [|a l IH]; intros H s s' HR; simpl; auto.
  eapply rsim_bind; [apply H; simpl; auto|].
  intros x y Hxy. apply IH; auto. intros; apply H; simpl; auto.
Qed.

Lemma mrel_get l l' n :
  Forall2 mrel l l' ->
  match dget l n, dget l' n with
  | Some m, Some m' => mk_mask m = mk_mask m' /\ plain m /\ plain m'
  | None, None => True
  | _, _ => False
  end.
Proof.
  induction 1 as [|(a, b) (c, d) l l' (H1 & H2 & H3 & H4) H IH]; simpl in *; auto.
  subst. destruct (String.eqb n c); auto.
Qed.

Lemma mrel_set l l' n m m' :
  Forall2 mrel l l' -> mk_mask m = mk_mask m' -> plain m -> plain m' ->
  Forall2 mrel (dset l n m) (dset l' n m').
Proof.
  intros H Hm Hp Hp'. induction H as [|(a, b) (c, d) l l' (H1 & H2 & H3 & H4) H IH]; simpl in *.
  - constructor; auto. repeat split; simpl; auto; try apply Hp; try apply Hp'.
  - subst. destruct (String.eqb n c); constructor; auto; repeat split; simpl; auto;
      first [apply Hp|apply Hp'|apply H3|apply H4].
Qed.

Lemma sim_get_param (E : nat -> Prop) (w w' : world PS) n : sim E w w' -> get_param w n = get_param w' n.
Proof. intros (H & _). unfold get_param. rewrite H. reflexivity. Qed.

Lemma sim_get_masker (E : nat -> Prop) (w w' : world PS) n :
  sim E w w' ->
  rsim (fun m m' => mk_mask m = mk_mask m' /\ plain m /\ plain m') (get_masker w n) (get_masker w' n).
Proof.
  intros (_ & H & _). unfold get_masker. pose proof (mrel_get _ _ n H).
  destruct (dget (w_maskers w) n), (dget (w_maskers w') n); simpl; auto.
Qed.

Lemma sim_put_masker (E : nat -> Prop) (w w' : world PS) n m m' :
  sim E w w' -> mk_mask m = mk_mask m' -> plain m -> plain m' ->
  sim E (put_masker w n m) (put_masker w' n m').
Proof.
  intros (A & B & C & D & F) H1 H2 H3. unfold sim; simpl. repeat split; auto.
  apply mrel_set; auto.
Qed.

Lemma sim_put_param (E : nat -> Prop) (w w' : world PS) n p :
  sim E w w' -> sim E (put_param w n p) (put_param w' n p).
Proof. intros (A & B & C & D & F). unfold sim; simpl. rewrite A. repeat split; auto. Qed.

Lemma sim_pol (E : nat -> Prop) (w w' : world PS) q s s' :
  sim E w w' -> po_last s = po_last s' -> sim E (with_pol w q s) (with_pol w' q s').
Proof.
  intros (A & B & C & D & F) H. unfold sim; simpl. repeat split; auto.
  intros r Hr. destruct (Nat.eqb r q); auto.
Qed.

Lemma sim_pol_keep (E : nat -> Prop) (w w' : world PS) q s s' :
  sim E w w' -> po_last s = po_last (w_pol w q) -> po_last s' = po_last (w_pol w' q) ->
  sim E (with_pol w q s) (with_pol w' q s').
Proof.
  intros (A & B & C & D & F) H H'. unfold sim; simpl. repeat split; auto.
  intros r Hr. destruct (Nat.eqb_spec r q); auto. subst. rewrite H, H'. auto.
Qed.

Lemma sim_log (E : nat -> Prop) (w w' : world PS) x : sim E w w' -> sim E (with_log w x) (with_log w' x).
Proof. intro H. exact H. Qed.
Lemma sim_lr (E : nat -> Prop) (w w' : world PS) x : sim E w w' -> sim E (with_lr w x) (with_lr w' x).
Proof. intro H. exact H. Qed.

Lemma sim_for_params (E : nat -> Prop) body body' (w w' : world PS) :
  (forall w w' n, sim E w w' -> rsim (sim E) (body w n) (body' w' n)) ->
  sim E w w' -> rsim (sim E) (for_params body w) (for_params body' w').
Proof.
  intros Hb H. unfold for_params.
  assert (w_params w = w_params w') as <- by apply H.
  apply rsim_foldM; auto.
Qed.

Lemma mask_tensor_eq m m' p : mk_mask m = mk_mask m' -> mask_tensor m p = mask_tensor m' p.
Proof. unfold mask_tensor. intros ->. reflexivity. Qed.

Lemma apply_mask_plain m m' p :
  mk_mask m = mk_mask m' -> plain m -> plain m' ->
  snd (apply_mask m p) = snd (apply_mask m' p) /\
  mk_mask (fst (apply_mask m p)) = mk_mask (fst (apply_mask m' p)) /\
  plain (fst (apply_mask m p)) /\ plain (fst (apply_mask m' p)).
Proof.
  intros H (A & B & C & D) (A' & B' & C' & D'). rewrite !apply_mask_param, !apply_mask_mask by auto.
  split; [apply mask_tensor_eq; auto|]. split; auto.
  assert (forall m, mk_is_reg m = false -> mk_double m = false -> fst (apply_mask m p) = m) as Hid.
  { clear. intros m H1 H2. unfold apply_mask. destruct (mk_mask m); auto. rewrite H2. simpl. rewrite H1. reflexivity. }
  rewrite !Hid by auto. repeat split; auto.
Qed.

Lemma sim_call_pruner (E : nat -> Prop) pid c pr me (w w' : world PS) n :
  stateless pr -> sim E w w' ->
  rsim (sim E) (call_pruner pid c pr me w n) (call_pruner pid c pr me w' n).
Proof.
  intros Hst H. unfold call_pruner. rewrite <- (sim_get_param _ _ _ n H).
  destruct (get_param w n) as [p|]; [|reflexivity]. cbn [bind].
  eapply rsim_bind; [apply (sim_get_masker _ _ _ n H)|].
  intros m m' (Hm & P & P'). rewrite <- Hm.
  pose proof (Hst (po_ps (w_pol w pid)) (po_ps (w_pol w' pid)) me n
     (match folded c n p with Some f => f | None => p end) (mk_mask m)) as Hs.
  destruct (pr (po_ps (w_pol w pid)) me n _ (mk_mask m)) as [[ps x]|e],
           (pr (po_ps (w_pol w' pid)) me n _ (mk_mask m)) as [[ps' x']|e']; simpl in *; auto; try tauto.
  subst x'. apply sim_put_masker; auto.
  apply sim_pol_keep; auto.
Qed.

Lemma sim_touch (E : nat -> Prop) e (w w' : world PS) pid :
  sim E w w' ->
  rsim (fun a b => sim E (fst a) (fst b) /\ snd a = snd b) (touch_meta e w pid) (touch_meta e w' pid).
Proof.
  intros (A & B & C & D & F). unfold touch_meta.
  assert (match meta_get (sc_meta (w_sched w)) pid, meta_get (sc_meta (w_sched w')) pid with
          | Some m, Some m' => me_start m = me_start m' /\ me_end m = me_end m' /\ me_freq m = me_freq m'
          | None, None => True | _, _ => False end) as Hg.
  { clear - D. induction D as [|(a, b) (c, d) l l' (H1 & H2) H IH]; simpl in *; auto.
    subst. destruct (Nat.eqb pid c); auto. }
  destruct (meta_get (sc_meta (w_sched w)) pid) as [m|],
           (meta_get (sc_meta (w_sched w')) pid) as [m'|]; simpl; auto.
  destruct Hg as (G1 & G2 & G3). rewrite G1, G2, G3. split; auto.
  unfold sim; simpl. repeat split; auto.
  clear - D. induction D as [|(a, b) (c, d) l l' (H1 & H2) H IH]; simpl in *.
  - repeat constructor.
  - subst. destruct (Nat.eqb pid c); constructor; auto; repeat split; simpl; auto; apply H2.
Qed.

Lemma sim_epoch_begin_body (E : nat -> Prop) pid c pr me b b' (w w' : world PS) n :
  pc_fwd_only c = false -> pc_double c = false -> pc_skip_first c = false -> pc_mask_grad c = false ->
  stateless pr -> sim E w w' ->
  rsim (sim E) (prune_epoch_begin_body pid c pr me b w n) (prune_epoch_begin_body pid c pr me b' w' n).
Proof.
  intros F1 F2 F3 F4 Hst H.
  (* the non-initialised branch is the initialised one up to sim *)
  assert (forall (w : world PS), rsim (fun a b => sim E a b)
     (call_pruner pid c pr me w n) (call_pruner pid c pr me w' n) -> True) as _ by auto.
  assert (forall b (w w' : world PS), sim E w w' ->
    rsim (sim E) (prune_epoch_begin_body pid c pr me b w n) (call_pruner pid c pr me w' n)) as Hl.
  { clear w w' H b b'. intros b w w' H. unfold prune_epoch_begin_body.
    destruct b; [apply sim_call_pruner; auto|]. rewrite F1, F2, F3, F4.
    assert (get_param w n = get_param w' n) as Hp by (eapply sim_get_param; eauto).
    pose proof (sim_get_masker _ _ _ n H) as Hm.
    destruct (get_param w n) as [p|] eqn:Ep; [|unfold call_pruner; rewrite <- Hp; reflexivity].
    destruct (get_masker w n) as [m|] eqn:Em.
    - cbn [bind]. apply sim_call_pruner; auto. apply get_masker_ok in Em.
      destruct (get_masker w' n) as [m'|] eqn:Em'; [|destruct Hm]. apply get_masker_ok in Em'.
      destruct Hm as (M1 & M2 & M3). destruct H as (A & B & C & D & F).
      unfold sim; simpl. repeat split; auto.
      + clear - B Em Em' M1 M2 M3. revert Em Em'.
        induction B as [|(a, x) (c', d) l l' (H1 & H2 & H3 & H4) H IH]; simpl in *; [discriminate|].
        subst. destruct (String.eqb n c').
        * intros. injection Em as <-. injection Em' as <-. constructor; auto.
          repeat split; simpl; auto; first [apply H3|apply H4].
        * intros. constructor; auto. repeat split; simpl; auto; first [apply H3|apply H4].
      + intros q Hq. destruct (Nat.eqb_spec q pid); [subst; simpl|]; auto.
    - cbn [bind]. unfold call_pruner. rewrite <- Hp.
      destruct (get_masker w' n); [destruct Hm|]. simpl in Hm. subst. reflexivity. }
  destruct b'; [apply Hl; auto|].
  (* compose through the uninterrupted side *)
  assert (forall (a b c0 : res (world PS)), rsim (sim E) a b -> rsim (sim E) c0 b -> rsim (sim E) a c0) as Htr.
  { intros x y z; destruct x as [x|], y as [y|], z as [z|]; simpl; try tauto; try congruence.
    intros (A & B & C & D & F) (A' & B' & C' & D' & F'). unfold sim.
    split; [congruence|]. split.
    - clear - B B'. revert B'. generalize (w_maskers z). induction B as [|a b l l' (H1 & H2 & H3 & H4) H IH];
        intros k Hk; inversion Hk as [|u ? t ? Hu Ht]; subst; constructor; auto.
      destruct Hu as (G1 & G2 & G3 & G4).
      split; [congruence|]. split; [congruence|]. auto.
    - split; [congruence|]. split.
      + clear - D D'. revert D'. generalize (sc_meta (w_sched z)). induction D as [|a b l l' (H1 & H2 & H3 & H4) H IH];
        intros k Hk; inversion Hk as [|u ? t ? Hu Ht]; subst; constructor; auto.
        destruct Hu as (G1 & G2 & G3 & G4). repeat split; congruence.
      + intros q Hq. rewrite (F q Hq), (F' q Hq). reflexivity. }
  assert (sim E w' w') as Hrefl.
  { destruct H as (A & B & C & D & F). unfold sim. repeat split; auto.
    - clear - B. induction B as [|a b l l' (H1 & H2 & H3 & H4) H IH]; constructor; auto.
      repeat split; auto; apply H4.
    - clear - D. induction D; constructor; auto. repeat split; auto. }
  eapply Htr; [apply Hl; eauto|apply Hl; auto].
Qed.

(** Pruning policies: the only ones whose is_last_epoch flag matters here. *)
Definition prunes (q : nat) : Prop := match tbl q with PPrune _ _ => True | _ => False end.

Lemma sim_weaken (E E' : nat -> Prop) (w w' : world PS) :
  (forall q, E' q -> E q) -> sim E w w' -> sim E' w w'.
Proof. intros HE (A & B & C & D & F). unfold sim. repeat split; auto. Qed.

Lemma rsim_weaken (E E' : nat -> Prop) (a b : res (world PS)) :
  (forall q, E' q -> E q) -> rsim (sim E) a b -> rsim (sim E') a b.
Proof. intro HE. destruct a, b; simpl; auto. apply sim_weaken; auto. Qed.

Lemma sim_epoch_begin_policy (E : nat -> Prop) e pid (w w' : world PS) :
  resumable pid -> sim E w w' ->
  rsim (sim (fun q => E q \/ (q = pid /\ prunes q)))
    (do wm <- touch_meta e w pid;
      let (w, me) := wm in
      let w := with_log w (CbEpochBegin, pid, e) in
      match tbl pid with
      | PPrune c pr => prune_epoch_begin pid c pr me w
      | PReg r keep => reg_epoch_begin pid me w
      | _ => Ok w
      end)
    (do wm <- touch_meta e w' pid;
      let (w, me) := wm in
      let w := with_log w (CbEpochBegin, pid, e) in
      match tbl pid with
      | PPrune c pr => prune_epoch_begin pid c pr me w
      | PReg r keep => reg_epoch_begin pid me w
      | _ => Ok w
      end).
Proof.
  intros Hr H. eapply rsim_bind; [apply (sim_touch _ e _ _ pid H)|].
  intros [w1 me] [w1' me'] [H1 Hme]. simpl in H1, Hme. subst me'.
  unfold resumable in Hr.
  destruct (tbl pid) as [c pr|r k| |g] eqn:Et.
  - destruct Hr as (F1 & F2 & F3 & F4 & Hst). unfold prune_epoch_begin.
    apply sim_for_params.
    + intros ? ? n Hs. apply sim_epoch_begin_body; auto.
    + destruct H1 as (A & B & C & D & F). unfold sim; simpl. repeat split; auto.
      intros q Hq. destruct (Nat.eqb_spec q pid); auto. destruct Hq as [Hq|[Hq _]]; auto. contradiction.
  - unfold reg_epoch_begin. simpl.
    destruct H1 as (A & B & C & D & F). unfold sim; simpl. repeat split; auto.
    intros q Hq. destruct (Nat.eqb_spec q pid); auto. destruct Hq as [Hq|[Hq _]]; auto. contradiction.
  - simpl. eapply sim_weaken; [|exact H1]. intros q [Hq|[-> Hp]]; auto. unfold prunes in Hp. rewrite Et in Hp. destruct Hp.
  - simpl. eapply sim_weaken; [|exact H1]. intros q [Hq|[-> Hp]]; auto. unfold prunes in Hp. rewrite Et in Hp. destruct Hp.
Qed.

Lemma sim_epoch_begin (E : nat -> Prop) e (w w' : world PS) :
  (forall q, In q (policies_at (sc_policies (w_sched w)) e) -> resumable q) ->
  sim E w w' ->
  rsim (sim (fun q => E q \/ (In q (policies_at (sc_policies (w_sched w)) e) /\ prunes q)))
    (on_epoch_begin tbl e w) (on_epoch_begin tbl e w').
Proof.
  intros Hr H. unfold on_epoch_begin.
  assert (sc_policies (w_sched w) = sc_policies (w_sched w')) as <- by apply H.
  set (l := policies_at (sc_policies (w_sched w)) e) in *. clearbody l.
  revert E w w' H. induction l as [|q l IH]; intros E w w' H.
  - simpl. eapply sim_weaken; [|exact H]. intros q [Hq|[[] _]]; auto.
  - cbn [foldM]. eapply rsim_bind; [apply sim_epoch_begin_policy; [apply Hr; simpl; auto|exact H]|].
    intros x y Hxy. eapply rsim_weaken; [|apply IH; [intros; apply Hr; simpl; auto|exact Hxy]].
    intros r [Hr'|[[->|Hin] Hp]]; auto.
Qed.

Lemma sim_dispatch (E : nat -> Prop) (body body' : world PS -> nat -> res (world PS)) l (w w' : world PS) :
  (forall q w w', In q l -> sim E w w' -> rsim (sim E) (body w q) (body' w' q)) ->
  sim E w w' -> rsim (sim E) (foldM body l w) (foldM body' l w').
Proof. intros Hb H. apply rsim_foldM; auto. Qed.

Lemma sim_mb_begin (E : nat -> Prop) e i k (w w' : world PS) :
  (forall q, In q (policies_at (sc_policies (w_sched w)) e) -> resumable q) ->
  sim E w w' -> rsim (sim E) (on_minibatch_begin tbl e i k w) (on_minibatch_begin tbl e i k w').
Proof.
  intros Hr H. unfold on_minibatch_begin.
  assert (sc_policies (w_sched w) = sc_policies (w_sched w')) as <- by apply H.
  apply sim_dispatch; auto. clear H. intros q w1 w1' Hq H1.
  eapply rsim_bind; [apply (sim_touch _ e _ _ q H1)|].
  intros [w2 me] [w2' me'] [H2 Hme]. simpl in H2, Hme. subst me'.
  specialize (Hr q Hq). unfold resumable in Hr.
  destruct (tbl q) as [c pr|r kk| |g]; [|exact H2..].
  destruct Hr as (F1 & F2 & F3 & F4 & Hst). unfold prune_mb_begin.
  apply sim_for_params; auto. clear - Hst. generalize (set_masks_now c e i k). intros sm w w' n H.
  unfold prune_mb_begin_body. rewrite <- (sim_get_param _ _ _ n H).
  destruct (get_param w n) as [p|]; [|reflexivity]. cbn [bind].
  eapply (rsim_bind (sim E)); [destruct sm; [apply sim_call_pruner; auto|exact H]|].
  intros x y Hxy. eapply rsim_bind; [apply (sim_get_masker _ _ _ n Hxy)|].
  intros m m' (M1 & M2 & M3).
  destruct (if sm then folded c n p else None) as [f|].
  - destruct (apply_mask_plain m m' f M1 M2 M3) as (A & B & C & D). simpl. apply sim_put_masker; auto.
  - destruct (apply_mask_plain m m' p M1 M2 M3) as (A & B & C & D). simpl. rewrite A.
    apply sim_put_param. apply sim_put_masker; auto.
Qed.

Lemma sim_backward (E : nat -> Prop) e loss (w w' : world PS) :
  sim E w w' ->
  rsim (fun a b => sim E (fst a) (fst b) /\ snd a = snd b)
    (before_backward_pass tbl e loss w) (before_backward_pass tbl e loss w').
Proof.
  intros H. unfold before_backward_pass.
  assert (sc_policies (w_sched w) = sc_policies (w_sched w')) as <- by apply H.
  apply rsim_foldM; [|split; auto].
  intros [w1 [ov cs]] [w1' [ov' cs']] q Hq [H1 H2]. simpl in H1, H2. injection H2 as <- <-.
  assert (policy_backward tbl q ov (with_log w1 (CbBackward, q, e)) =
          policy_backward tbl q ov (with_log w1' (CbBackward, q, e))) as ->.
  { unfold policy_backward, reg_backward, reg_loss. destruct (tbl q); auto. simpl.
    assert (w_params w1 = w_params w1') as -> by apply H1. reflexivity. }
  destruct (policy_backward tbl q ov (with_log w1' (CbBackward, q, e))); simpl; auto.
Qed.

Lemma sim_before_opt (E : nat -> Prop) e i k (w w' : world PS) :
  sim E w w' -> rsim (sim E) (before_parameter_optimization tbl e i k w) (before_parameter_optimization tbl e i k w').
Proof.
  intros H. unfold before_parameter_optimization.
  assert (sc_policies (w_sched w) = sc_policies (w_sched w')) as <- by apply H.
  apply sim_dispatch; auto. clear H. intros q w1 w1' Hq H1.
  eapply rsim_bind; [apply (sim_touch _ e _ _ q H1)|].
  intros [w2 me] [w2' me'] [H2 Hme]. simpl in H2, Hme. subst me'.
  destruct (tbl q) as [c pr|r kk| |g]; [|exact H2..].
  unfold prune_before_opt. apply sim_for_params; auto. clear. intros w w' n H.
  rewrite <- (sim_get_param _ _ _ n H).
  destruct (get_param w n) as [p|]; [|reflexivity]. cbn [bind].
  eapply rsim_bind; [apply (sim_get_masker _ _ _ n H)|].
  intros m m' (M1 & M2 & M3).
  assert (forall m, plain m -> revert_weights m p = (m, p)) as Hrv.
  { intros x (A & B & _). unfold revert_weights. rewrite B. reflexivity. }
  rewrite !Hrv by auto. simpl. apply sim_put_param. apply sim_put_masker; auto.
Qed.

Lemma sim_mask_all (E : nat -> Prop) fwd (w w' : world PS) :
  sim E w w' -> rsim (sim E) (mask_all_weights fwd w) (mask_all_weights fwd w').
Proof.
  intro H. unfold mask_all_weights. apply sim_for_params; auto. clear. intros w w' n H.
  unfold mask_all_body. rewrite <- (sim_get_param _ _ _ n H).
  destruct (get_param w n) as [p|]; [|reflexivity]. cbn [bind].
  assert (Forall2 mrel (w_maskers w) (w_maskers w')) as Hm by apply H.
  pose proof (mrel_get _ _ n Hm) as Hg.
  destruct (dget (w_maskers w) n) as [m|], (dget (w_maskers w') n) as [m'|]; try tauto.
  - destruct Hg as (M1 & (_ & _ & P & _) & (_ & _ & P' & _)). rewrite P, P'.
    destruct (fwd || negb false); simpl; auto. rewrite (mask_tensor_eq _ _ _ M1). apply sim_put_param; auto.
  - destruct (fallback_name n) as [[n'|]|]; simpl; auto.
    eapply rsim_bind; [apply (sim_get_masker _ _ _ n' H)|].
    intros m m' (M1 & M2 & M3).
    destruct (apply_mask_plain m m' p M1 M2 M3) as (A & B & C & D). simpl. rewrite A.
    apply sim_put_param. apply sim_put_masker; auto.
Qed.

Lemma sim_mb_end (E : nat -> Prop) e i k (w w' : world PS) :
  (forall q, In q (policies_at (sc_policies (w_sched w)) e) -> resumable q) ->
  sim E w w' -> rsim (sim E) (on_minibatch_end tbl e i k w) (on_minibatch_end tbl e i k w').
Proof.
  intros Hr H. unfold on_minibatch_end.
  pose proof (sim_mask_all _ false _ _ H) as Hm.
  destruct (mask_all_weights false w) as [x|] eqn:Ex, (mask_all_weights false w') as [y|]; simpl in Hm;
    try (exfalso; exact Hm); [|subst; reflexivity]. cbn [bind].
  apply mask_all_quiet in Ex. destruct Ex as (_ & Qs & _). rewrite Qs.
  assert (sc_policies (w_sched y) = sc_policies (w_sched w)) as ->.
  { rewrite <- Qs. symmetry. apply Hm. }
  clear H Qs. apply sim_dispatch; auto. clear Hm. intros q w1 w1' Hq H1.
  specialize (Hr q Hq). unfold resumable in Hr.
  destruct (tbl q) as [c pr|r kk| |g]; simpl; [| |exact H1..].
  - unfold prune_mb_end. destruct (pc_discard c); simpl; auto.
    apply sim_for_params; auto. clear. intros w w' n H.
    eapply rsim_bind; [apply (sim_get_masker _ _ _ n H)|].
    intros m m' (M1 & M2 & M3). simpl. apply sim_put_masker; auto.
  - unfold reg_mb_end. rewrite Hr. simpl. auto.
Qed.

Lemma sim_epoch_end (E : nat -> Prop) e (w w' : world PS) :
  (forall q, In q (policies_at (sc_policies (w_sched w)) e) -> prunes q -> E q) ->
  sim E w w' -> rsim (sim E) (on_epoch_end tbl e w) (on_epoch_end tbl e w').
Proof.
  intros HE H. unfold on_epoch_end.
  assert (sc_policies (w_sched w) = sc_policies (w_sched w')) as <- by apply H.
  apply sim_dispatch; auto. clear H. intros q w1 w1' Hq H1.
  eapply rsim_bind; [apply (sim_touch _ e _ _ q H1)|].
  intros [w2 me] [w2' me'] [H2 Hme]. simpl in H2, Hme. subst me'.
  specialize (HE q Hq). unfold prunes in HE.
  destruct (tbl q) as [c pr|r kk| |g]; simpl; [|exact H2..].
  unfold prune_epoch_end.
  assert (po_last (w_pol (with_log w2 (CbEpochEnd, q, e)) q) = po_last (w_pol (with_log w2' (CbEpochEnd, q, e)) q)) as ->.
  { apply H2. auto. }
  destruct (po_last (w_pol (with_log w2' (CbEpochEnd, q, e)) q)); simpl; auto.
  apply sim_for_params; auto. clear. intros w w' n H. unfold prune_epoch_end_body.
  rewrite <- (sim_get_param _ _ _ n H).
  destruct (get_param w n) as [p|]; [|reflexivity]. cbn [bind].
  eapply rsim_bind; [apply (sim_get_masker _ _ _ n H)|].
  intros m m' (M1 & (A & B & C & D) & (A' & B' & C' & D')).
  destruct (pc_keep c); simpl; rewrite ?D, ?D'.
  - rewrite (mask_tensor_eq _ (set_fwd_only (set_double m' false) false)) by (simpl; auto).
    apply sim_put_param. apply sim_put_masker; simpl; auto; repeat split; auto.
  - apply sim_put_param. apply sim_put_masker; simpl; auto; repeat split; auto.
Qed.

(** In a history [h], the end of an epoch comes after its beginning. *)
Fixpoint begins_before_ends (started : list Z) (h : list event) : Prop :=
  match h with
  | [] => True
  | EvEpochBegin e :: h' => begins_before_ends (e :: started) h'
  | EvEpochEnd e :: h' => In e started /\ begins_before_ends started h'
  | _ :: h' => begins_before_ends started h'
  end.

Lemma sim_run h (E : nat -> Prop) started (w w' : world PS) :
  (forall q, resumable q) ->
  (forall e q, In e started -> In q (policies_at (sc_policies (w_sched w)) e) -> prunes q -> E q) ->
  begins_before_ends started h -> sim E w w' ->
  rsim (sim (fun _ => False)) (run tbl h w) (run tbl h w').
Proof.
  intro Hr. revert E started w w'. induction h as [|ev h IH]; intros E started w w' HE Hb H.
  - simpl. eapply sim_weaken; [|exact H]. tauto.
  - unfold run. cbn [foldM].
    assert (forall E' started', rsim (sim E') (step tbl w ev) (step tbl w' ev) ->
      (forall e q, In e started' -> In q (policies_at (sc_policies (w_sched w)) e) -> prunes q -> E' q) ->
      begins_before_ends started' h ->
      rsim (sim (fun _ => False)) (do s <- step tbl w ev; foldM (step tbl) h s)
                                   (do s <- step tbl w' ev; foldM (step tbl) h s)) as Hgo.
    { intros E' started' Hs HE' Hb'. destruct (step tbl w ev) as [x|] eqn:Ex, (step tbl w' ev) as [y|];
        simpl in Hs; try (exfalso; exact Hs); [|subst; reflexivity]. cbn [bind].
      apply (IH E' started'); auto. apply step_log in Ex. destruct Ex as [-> _]. auto. }
    destruct ev; cbn [begins_before_ends] in Hb.
    + apply (Hgo (fun q => E q \/ (In q (policies_at (sc_policies (w_sched w)) e) /\ prunes q)) (e :: started)); auto.
      * apply sim_epoch_begin; auto.
      * intros e' q [<-|Hin] Hq Hp; eauto.
    + apply (Hgo E started); auto. simpl. apply sim_mb_begin; auto.
    + apply (Hgo E started); auto. simpl.
      eapply rsim_bind; [apply sim_backward; exact H|]. intros [x1 x2] [y1 y2] [Hx _]. exact Hx.
    + apply (Hgo E started); auto. simpl. apply sim_before_opt; auto.
    + apply (Hgo E started); auto. simpl.
      destruct H as (A & B & C & D & F). unfold sim; simpl. rewrite A. repeat split; auto.
    + apply (Hgo E started); auto. simpl. apply sim_mb_end; auto.
    + destruct Hb as [Hin Hb]. apply (Hgo E started); auto. simpl. apply sim_epoch_end; eauto.
    + apply (Hgo E started); auto. simpl. apply sim_mask_all; auto.
Qed.

(** Worlds before the first epoch. *)
Definition start (params : dict tensor) (mk : dict masker) (pol : nat -> pol_state PS) (s : sched) : world PS :=
  mkWorld params mk pol s [] [].

(** Along any run from fresh maskers, the maskers stay plain; metadata only changes in
    'current_epoch'. Both follow from simulating the run by itself. *)
Lemma sim_self_start params pol s :
  NoDup (dkeys params) ->
  sim (fun _ => False) (start params (create_model_masks_dict params) pol s)
      (start params (create_model_masks_dict params) pol s).
Proof.
  intro Hnd. unfold sim, start; simpl. repeat split; auto; try tauto.
  - rewrite create_masks_dict by auto. induction params as [|(n, p) params IH]; simpl; constructor.
    + repeat split.
    + apply IH. inversion Hnd; auto.
  - induction (sc_meta s); constructor; auto. repeat split.
Qed.

Lemma mrel_loaded mk mk' : Forall2 mrel mk mk' -> Forall2 mrel mk (loaded_maskers mk).
Proof.
  induction 1 as [|(a, b) (c, d) l l' (H1 & H2 & H3 & H4) H IH]; simpl; constructor; auto.
  repeat split; simpl; auto; apply H3.
Qed.

(** metadata of a running scheduler, up to 'current_epoch' *)
Lemma run_meta h (w w' : world PS) :
  run tbl h w = Ok w' -> Forall2 meta_rel (sc_meta (w_sched w')) (sc_meta (w_sched w)).
Proof.
  assert (forall l : list (nat * meta), Forall2 meta_rel l l) as Hrefl
    by (induction l; constructor; auto; repeat split).
  assert (forall a b c, Forall2 meta_rel a b -> Forall2 meta_rel b c -> Forall2 meta_rel a c) as Htr.
  { intros a b c H. revert c. induction H as [|x y l l' (H1 & H2 & H3 & H4) H IH]; intros c Hc;
      inversion Hc as [|u ? t ? Hu Ht]; subst; constructor; auto.
    destruct Hu as (G1 & G2 & G3 & G4). repeat split; congruence. }
  assert (forall e (w : world PS) q x, touch_meta e w q = Ok x ->
     Forall2 meta_rel (sc_meta (w_sched (fst x))) (sc_meta (w_sched w))) as Ht.
  { intros e w1 q x H. apply touch_meta_spec in H.
    destruct H as (_ & _ & _ & _ & _ & _ & m & H1 & H2 & ->). rewrite H2.
    revert H1. generalize (sc_meta (w_sched w1)). induction l as [|(a, b) l IH]; simpl; [discriminate|].
    destruct (Nat.eqb q a).
    - intros [= ->]. constructor; auto. repeat split.
    - intros; constructor; auto. repeat split. }
  assert (forall (w w' : world PS), quiet w w' -> sc_meta (w_sched w') = sc_meta (w_sched w)) as Hq.
  { intros x y (_ & _ & E & _). exact E. }
  assert (forall ev (w w' : world PS), step tbl w ev = Ok w' ->
     Forall2 meta_rel (sc_meta (w_sched w')) (sc_meta (w_sched w))) as Hs.
  { intros ev x y H. destruct ev; simpl in H.
    - unfold on_epoch_begin in H. eapply (dispatch_inv (fun z => Forall2 meta_rel (sc_meta (w_sched z)) (sc_meta (w_sched x)))); [| |exact H]; auto.
      intros w1 q w2 HI Hb. inv_bind Hb. destruct x0 as [w3 me]. apply Ht in H0. simpl in H0.
      eapply Htr; [|exact HI]. eapply Htr; [|exact H0].
      destruct (tbl q).
      + apply prune_epoch_begin_quiet in Hb. apply Hq in Hb. rewrite Hb. apply Hrefl.
      + unfold reg_epoch_begin in Hb. injection Hb as <-. apply Hrefl.
      + injection Hb as <-. apply Hrefl.
      + injection Hb as <-. apply Hrefl.
    - unfold on_minibatch_begin in H. eapply (dispatch_inv (fun z => Forall2 meta_rel (sc_meta (w_sched z)) (sc_meta (w_sched x)))); [| |exact H]; auto.
      intros w1 q w2 HI Hb. inv_bind Hb. destruct x0 as [w3 me]. apply Ht in H0. simpl in H0.
      eapply Htr; [|exact HI]. eapply Htr; [|exact H0].
      destruct (tbl q); try (injection Hb as <-; apply Hrefl).
      apply prune_mb_begin_quiet in Hb. apply Hq in Hb. rewrite Hb. apply Hrefl.
    - inv_bind H. injection H as <-. destruct x0 as [w1 r]. apply backward_same in H0.
      simpl. destruct H0 as (_ & _ & -> & _). apply Hrefl.
    - unfold before_parameter_optimization in H. eapply (dispatch_inv (fun z => Forall2 meta_rel (sc_meta (w_sched z)) (sc_meta (w_sched x)))); [| |exact H]; auto.
      intros w1 q w2 HI Hb. inv_bind Hb. destruct x0 as [w3 me]. apply Ht in H0. simpl in H0.
      eapply Htr; [|exact HI]. eapply Htr; [|exact H0].
      destruct (tbl q); try (injection Hb as <-; apply Hrefl).
      apply prune_before_opt_quiet in Hb. apply Hq in Hb. rewrite Hb. apply Hrefl.
    - injection H as <-. apply Hrefl.
    - unfold on_minibatch_end in H. inv_bind H. apply mask_all_quiet in H0. apply Hq in H0. rewrite <- H0.
      clear H0. eapply (dispatch_inv (fun z => Forall2 meta_rel (sc_meta (w_sched z)) (sc_meta (w_sched x0)))); [| |exact H]; auto.
      intros w1 q w2 HI Hb. cbn beta in Hb. eapply Htr; [|exact HI].
      destruct (tbl q); try (injection Hb as <-; apply Hrefl).
      + apply prune_mb_end_quiet in Hb. apply Hq in Hb. rewrite Hb. apply Hrefl.
      + apply reg_mb_end_quiet in Hb. apply Hq in Hb. rewrite Hb. apply Hrefl.
    - unfold on_epoch_end in H. eapply (dispatch_inv (fun z => Forall2 meta_rel (sc_meta (w_sched z)) (sc_meta (w_sched x)))); [| |exact H]; auto.
      intros w1 q w2 HI Hb. inv_bind Hb. destruct x0 as [w3 me]. apply Ht in H0. simpl in H0.
      eapply Htr; [|exact HI]. eapply Htr; [|exact H0].
      destruct (tbl q); try (injection Hb as <-; apply Hrefl).
      apply prune_epoch_end_quiet in Hb. apply Hq in Hb. rewrite Hb. apply Hrefl.
    - apply mask_all_quiet in H. apply Hq in H. rewrite H. apply Hrefl. }
  unfold run. intro H. eapply (foldM_inv _ (fun z => Forall2 meta_rel (sc_meta (w_sched z)) (sc_meta (w_sched w)))) in H; auto.
  intros x ev y _ HI Hst. eapply Htr; [|exact HI]. eapply Hs; eauto.
Qed.

Lemma sim_state_dict (E : nat -> Prop) (w w' : world PS) : sim E w w' -> state_dict (w_maskers w) = state_dict (w_maskers w').
Proof.
  intros (_ & H & _). induction H as [|(a, b) (c, d) l l' (H1 & H2 & H3 & H4) H IH]; simpl in *; auto.
  f_equal; auto. congruence.
Qed.

Lemma resume_exact adds s params p0 pol pol' h1 h2 w1 epoch pr mk se :
  (forall q, resumable q) ->
  foldM add_policy adds new_sched = Ok s ->
  NoDup (dkeys params) ->
  run tbl h1 (start params (create_model_masks_dict params) pol s) = Ok w1 ->
  begins_before_ends [] h1 ->
  begins_before_ends [] h2 ->
  dkeys p0 = dkeys params ->
  load_checkpoint p0 (save_checkpoint epoch (w_params w1) (Some (w_maskers w1))) = Ok (pr, Some mk, se) ->
  rsim (fun a b => w_params a = w_params b /\ state_dict (w_maskers a) = state_dict (w_maskers b))
    (run tbl h2 w1) (run tbl h2 (start pr mk pol' s)).
Proof.
  intros Hr Ha Hnd H1 Hb1 Hb2 Hp0 Hl.
  assert (same_keys (start params (create_model_masks_dict params) pol s) w1) as [K1 K2] by (eapply run_keys; eauto).
  simpl in K1, K2.
  rewrite save_load_plain in Hl; [|rewrite K1; auto|rewrite K1, K2; apply create_masks_keys; auto|congruence].
  injection Hl as <- <- <-.
  pose proof (sim_run h1 (fun _ => False) [] _ _ Hr ltac:(simpl; tauto) Hb1 (sim_self_start params pol s Hnd)) as Hself.
  rewrite H1 in Hself. simpl in Hself.
  assert (sim (fun _ => False) w1 (start (w_params w1) (loaded_maskers (w_maskers w1)) pol' s)) as Hsim.
  { unfold sim; simpl. repeat split; auto; try tauto.
    - eapply mrel_loaded. apply Hself.
    - apply run_policies in H1. exact H1.
    - apply run_meta in H1. exact H1. }
  pose proof (sim_run h2 (fun _ => False) [] _ _ Hr ltac:(simpl; tauto) Hb2 Hsim) as Hfin.
  destruct (run tbl h2 w1), (run tbl h2 _); simpl in *; auto.
  split; [apply Hfin|eapply sim_state_dict; eauto].
Qed.

End Sim.
