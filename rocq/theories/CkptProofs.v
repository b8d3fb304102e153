(** Proofs about state dictionaries, checkpoints and names. *)
From Coq Require Import String Ascii List ZArith QArith Bool Arith Lia.
From Verif Require Import Base Names SchedModel CkptModel SchedMaskProofs SchedPolicyProofs2.
Import ListNotations.

(* ------------------------------------------------------------------------- *)
(** ** Names *)
Lemma normalize_plain n : ~ In "module"%string (split_dot n) -> normalize_module_name n = n.
Proof. intro H. unfold normalize_module_name. apply del_first_None in H. rewrite H. reflexivity. Qed.

Lemma normalize_first n a b :
  split_dot n = (a ++ "module"%string :: b)%list -> ~ In "module"%string a ->
  normalize_module_name n = join_dot (a ++ b).
Proof.
  intros H Ha. unfold normalize_module_name.
  assert (del_first "module" (split_dot n) = Some (a ++ b)%list) as ->; auto.
  apply del_first_Some. exists a, b. auto.
Qed.

Lemma normalize_prefix n : normalize_module_name ("module." ++ n) = n.
Proof.
  rewrite (normalize_first _ [] (split_dot n)).
  - simpl. apply join_split.
  - change ("module." ++ n)%string with ("module" ++ "." ++ n)%string.
    rewrite split_dot_app_dot; reflexivity.
  - simpl; auto.
Qed.

Lemma prefix_inj a b : ("module." ++ a)%string = ("module." ++ b)%string -> a = b.
Proof. intro H. rewrite <- (normalize_prefix a), H. apply normalize_prefix. Qed.

(** The names that [named_modules] yields for a DataParallel wrapper around a model with
    sub-modules [l]. *)
Lemma denormalize_parallel (l : list string) x :
  NoDup l -> In x l -> x <> ""%string ->
  denormalize_module_name (""%string :: "module"%string :: map (fun n => "module." ++ n)%string l) x
  = ("module." ++ x)%string.
Proof.
  intros Hnd Hin Hx. unfold denormalize_module_name.
  assert (forall l, NoDup l ->
    filter (fun n => String.eqb (normalize_module_name n) x) (map (fun n => "module." ++ n)%string l)
    = if in_dec string_dec x l then [("module." ++ x)%string] else []) as Hf.
  { clear l Hnd Hin. induction l as [|y l IH]; intro Hnd; [reflexivity|].
    inversion Hnd; subst. cbn [map filter]. rewrite normalize_prefix, (IH H2).
    destruct (String.eqb_spec y x).
    - subst y. destruct (in_dec string_dec x l); [contradiction|].
      destruct (in_dec string_dec x (x :: l)); auto. exfalso; apply n0; simpl; auto.
    - destruct (in_dec string_dec x l), (in_dec string_dec x (y :: l)); auto.
      + exfalso; apply n0; simpl; auto.
      + destruct i; [congruence|contradiction]. }
  cbn [filter].
  assert (String.eqb (normalize_module_name "") x = false) as ->.
  { apply String.eqb_neq. change (normalize_module_name "") with ""%string. congruence. }
  assert (String.eqb (normalize_module_name "module") x = false) as ->.
  { apply String.eqb_neq. change (normalize_module_name "module") with ""%string. congruence. }
  rewrite (Hf l Hnd). destruct (in_dec string_dec x l); [reflexivity|contradiction].
Qed.

(* ------------------------------------------------------------------------- *)
(** ** Masker names of quantized modules *)
Lemma last_app_one (a : list string) x d : last (a ++ [x]) d = x.
Proof. induction a as [|y a IH]; auto. simpl. destruct (a ++ [x])%list eqn:E; auto. destruct a; discriminate. Qed.

Lemma second_last_app a x y : second_last (a ++ [x; y]) = Ok x.
Proof. unfold second_last. rewrite rev_app_distr. reflexivity. Qed.

Lemma pop_second_last_app a x y : pop_second_last (a ++ [x; y]) = (a ++ [y])%list.
Proof. unfold pop_second_last. rewrite rev_app_distr. simpl. rewrite rev_involutive. reflexivity. Qed.

Lemma set_last_app a x y : set_last (a ++ [x]) y = (a ++ [y])%list.
Proof. unfold set_last. rewrite removelast_last. reflexivity. Qed.

Lemma startswith_float x : startswith "float_" ("float_" ++ x) = true.
Proof. unfold startswith. simpl. destruct x; reflexivity. Qed.

Lemma sdrop_float x : sdrop 6 ("float_" ++ x) = x.
Proof. reflexivity. Qed.

Definition comps (l : list string) : Prop := Forall (fun p => no_dot p = true) l.

Lemma comps_split l x : comps (l ++ [x]) -> split_dot (join_dot (l ++ [x])) = (l ++ [x])%list.
Proof. intro H. apply split_join; auto. destruct l; discriminate. Qed.

Lemma app_two (a : list string) (b x : string) : (a ++ [b; x])%list = ((a ++ [b]) ++ [x])%list.
Proof. rewrite <- app_assoc. reflexivity. Qed.

(** backup parameters: a.b.float_x -> a.b.x *)
Lemma fallback_float a b x :
  comps (a ++ [b; ("float_" ++ x)%string]) -> b <> "wrapped_module"%string ->
  fallback_name (join_dot (a ++ [b; ("float_" ++ x)%string])) = Ok (Some (join_dot (a ++ [b; x]))).
Proof.
  intros Hc Hb. unfold fallback_name. rewrite app_two in *. rewrite (comps_split _ _ Hc).
  rewrite last_app_one, <- app_two, second_last_app. cbn [bind].
  rewrite startswith_float. destruct (String.eqb_spec b "wrapped_module"); [contradiction|].
  cbn [orb]. rewrite (app_two a b), set_last_app, sdrop_float, <- app_two. reflexivity.
Qed.

(** wrapped layers: a.wrapped_module.x -> a.x *)
Lemma fallback_wrapped a x :
  comps (a ++ ["wrapped_module"%string; x]) -> startswith "float_" x = false ->
  fallback_name (join_dot (a ++ ["wrapped_module"%string; x])) = Ok (Some (join_dot (a ++ [x]))).
Proof.
  intros Hc Hb. unfold fallback_name. rewrite app_two in *. rewrite (comps_split _ _ Hc).
  rewrite last_app_one, <- app_two, second_last_app. cbn [bind]. rewrite Hb.
  rewrite String.eqb_refl. cbn [orb]. rewrite pop_second_last_app. reflexivity.
Qed.

Lemma fallback_both a x :
  comps (a ++ ["wrapped_module"%string; ("float_" ++ x)%string]) ->
  fallback_name (join_dot (a ++ ["wrapped_module"%string; ("float_" ++ x)%string]))
  = Ok (Some (join_dot (a ++ [x]))).
Proof.
  intros Hc. unfold fallback_name. rewrite app_two in *. rewrite (comps_split _ _ Hc).
  rewrite last_app_one, <- app_two, second_last_app. cbn [bind]. rewrite startswith_float, String.eqb_refl.
  cbn [orb]. rewrite (app_two a "wrapped_module"%string), set_last_app, sdrop_float, <- app_two, pop_second_last_app.
  reflexivity.
Qed.

Lemma fallback_other a b x :
  comps (a ++ [b; x]) -> startswith "float_" x = false -> b <> "wrapped_module"%string ->
  fallback_name (join_dot (a ++ [b; x])) = Ok None.
Proof.
  intros Hc Hx Hb. unfold fallback_name. rewrite app_two in *. rewrite (comps_split _ _ Hc).
  rewrite last_app_one, <- app_two, second_last_app. cbn [bind]. rewrite Hx.
  destruct (String.eqb_spec b "wrapped_module"); [contradiction|]. reflexivity.
Qed.

Lemma fallback_undotted x : no_dot x = true -> fallback_name x = Raise IndexError.
Proof. intro H. unfold fallback_name. rewrite (split_dot_single x H). reflexivity. Qed.

(* ------------------------------------------------------------------------- *)
(** ** Loading masks *)
Lemma dget_state_dict mk n :
  dget (state_dict mk) n = match dget mk n with Some m => Some (mk_mask m) | None => None end.
Proof.
  induction mk as [|(k, m) mk IH]; simpl; auto. destruct (String.eqb n k); auto.
Qed.

Lemma state_dict_keys mk : dkeys (state_dict mk) = dkeys mk.
Proof. unfold dkeys, state_dict. rewrite map_map. reflexivity. Qed.

Lemma load_masks_ok mk loaded :
  (forall n, In n (dkeys mk) -> dget loaded n <> None) ->
  snd (load_masks mk loaded) = true /\
  dkeys (fst (load_masks mk loaded)) = dkeys mk /\
  forall n m x, dget mk n = Some m -> dget loaded n = Some x ->
    dget (fst (load_masks mk loaded)) n = Some (set_mask m x).
Proof.
  induction mk as [|(k, m) mk IH]; intro H; simpl.
  - repeat split; intros; discriminate.
  - destruct (dget loaded k) as [x|] eqn:E; [|exfalso; apply (H k); simpl; auto].
    destruct IH as (A & B & C); [intros; apply H; simpl; auto|]. simpl.
    split; auto. split; [congruence|]. intros n m' x' Hm Hx.
    destruct (String.eqb_spec n k); [subst; congruence|]. apply C; auto.
Qed.

Lemma load_masks_fail mk loaded :
  snd (load_masks mk loaded) = false <-> exists n, In n (dkeys mk) /\ dget loaded n = None.
Proof.
  induction mk as [|(k, m) mk IH]; simpl.
  - split; [discriminate|intros (n & [] & _)].
  - destruct (dget loaded k) as [x|] eqn:E; simpl.
    + rewrite IH. split; intros (n & H1 & H2); exists n; auto.
      destruct H1; [subst; congruence|auto].
    + split; auto. intros _. exists k. auto.
Qed.

(** What a failed load leaves behind: the masks of the parameters before the first missing
    one have been replaced, the others have not. *)
Lemma load_masks_partial a k m b loaded :
  (forall n, In n (dkeys a) -> dget loaded n <> None) -> dget loaded k = None ->
  load_masks (a ++ (k, m) :: b) loaded = (fst (load_masks a loaded) ++ (k, m) :: b, false)%list.
Proof.
  induction a as [|(n, x) a IH]; intros H Hk; simpl.
  - rewrite Hk. reflexivity.
  - destruct (dget loaded n) eqn:E; [|exfalso; apply (H n); simpl; auto].
    rewrite IH; auto. intros; apply H; simpl; auto.
Qed.

Lemma dget_rekey_acc {A} f (d acc : dict A) n :
  dget (fold_left (fun acc kv => dset acc (f (fst kv)) (snd kv)) d acc) n =
  match dget (rev (map (fun kv => (f (fst kv), snd kv)) d)) n with
  | Some x => Some x
  | None => dget acc n
  end.
Proof.
  revert acc; induction d as [|(k, v) d IH]; intro acc; simpl; auto.
  rewrite IH. clear IH.
  assert (forall (l : dict A) k v n, dget (l ++ [(k, v)]) n =
     match dget l n with Some x => Some x | None => if String.eqb n k then Some v else None end) as Happ.
  { clear. induction l as [|(a, b) l IH]; intros k v n; simpl; auto.
    destruct (String.eqb n a); auto. }
  rewrite Happ. destruct (dget (rev _) n); auto.
  destruct (String.eqb_spec n (f k)).
  - subst. rewrite dget_dset_same. reflexivity.
  - rewrite dget_dset_other; auto.
Qed.

Lemma dget_rekey {A} f (d : dict A) n :
  dget (rekey f d) n = dget (rev (map (fun kv => (f (fst kv), snd kv)) d)) n.
Proof. unfold rekey. rewrite dget_rekey_acc. destruct (dget (rev _) n); auto. Qed.

Lemma dget_rev {A} (d : dict A) n : NoDup (dkeys d) -> dget (rev d) n = dget d n.
Proof.
  intro Hnd. destruct (dget d n) as [v|] eqn:E.
  - apply In_dget.
    + unfold dkeys. rewrite map_rev. apply NoDup_rev; auto.
    + rewrite <- in_rev. apply dget_In; auto.
  - apply dget_None_notin. apply dget_None_notin in E. unfold dkeys in *. rewrite map_rev, <- in_rev. auto.
Qed.

Definition add_prefix {A} (d : dict A) : dict A :=
  map (fun kv => ("module." ++ fst kv, snd kv)%string) d.

Lemma rekey_prefix {A} (d : dict A) n :
  NoDup (dkeys d) -> dget (rekey normalize_module_name (add_prefix d)) n = dget d n.
Proof.
  intro Hnd. rewrite dget_rekey. unfold add_prefix. rewrite map_map. cbn [fst snd].
  rewrite (map_ext _ (fun kv => kv)).
  - rewrite map_id. apply dget_rev; auto.
  - intros [k v]. cbn [fst snd]. rewrite normalize_prefix. reflexivity.
Qed.

Lemma load_round_trip mkA mkB :
  (forall n, In n (dkeys mkB) -> In n (dkeys mkA)) ->
  snd (load_state_dict mkB (Some (state_dict mkA)) false) = None /\
  dkeys (fst (load_state_dict mkB (Some (state_dict mkA)) false)) = dkeys mkB /\
  forall n a b, dget mkA n = Some a -> dget mkB n = Some b ->
    dget (fst (load_state_dict mkB (Some (state_dict mkA)) false)) n = Some (set_mask b (mk_mask a)).
Proof.
  intro H. unfold load_state_dict. cbn [fst snd].
  assert (forall n, In n (dkeys mkB) -> dget (state_dict mkA) n <> None) as Hl.
  { intros n Hn Hc. apply dget_None_notin in Hc. apply Hc. rewrite state_dict_keys. auto. }
  destruct (load_masks_ok mkB _ Hl) as (A & B & C). rewrite A.
  split; [reflexivity|]. split; [exact B|]. intros n a b Ha Hb.
  apply C; auto. rewrite dget_state_dict, Ha. reflexivity.
Qed.

Lemma load_missing mkA mkB :
  snd (load_state_dict mkB (Some (state_dict mkA)) false) = Some KeyError <->
  exists n, In n (dkeys mkB) /\ ~ In n (dkeys mkA).
Proof.
  unfold load_state_dict. cbn [snd].
  destruct (snd (load_masks mkB (state_dict mkA))) eqn:E.
  - split; [discriminate|]. intros (n & H1 & H2). exfalso.
    assert (snd (load_masks mkB (state_dict mkA)) = false); [|congruence].
    apply load_masks_fail. exists n. split; auto. apply dget_None_notin. rewrite state_dict_keys. auto.
  - split; auto. intros _. apply load_masks_fail in E. destruct E as (n & H1 & H2). exists n. split; auto.
    apply dget_None_notin in H2. rewrite state_dict_keys in H2. auto.
Qed.

Lemma load_parallel mkA mkB :
  NoDup (dkeys mkA) ->
  (forall n, In n (dkeys mkB) -> In n (dkeys mkA)) ->
  let r := load_state_dict mkB (Some (state_dict (add_prefix mkA))) true in
  snd r = None /\ dkeys (fst r) = dkeys mkB /\
  forall n a b, dget mkA n = Some a -> dget mkB n = Some b ->
    dget (fst r) n = Some (set_mask b (mk_mask a)).
Proof.
  intros Hnd H r. unfold r, load_state_dict. cbn [fst snd].
  assert (state_dict (add_prefix mkA) = add_prefix (state_dict mkA)) as ->.
  { unfold state_dict, add_prefix. rewrite !map_map. reflexivity. }
  assert (forall n, dget (rekey normalize_module_name (add_prefix (state_dict mkA))) n = dget (state_dict mkA) n) as Hr.
  { intro n. apply rekey_prefix. rewrite state_dict_keys; auto. }
  assert (forall n, In n (dkeys mkB) -> dget (rekey normalize_module_name (add_prefix (state_dict mkA))) n <> None) as Hl.
  { intros n Hn Hc. rewrite Hr in Hc. apply dget_None_notin in Hc. apply Hc. rewrite state_dict_keys. auto. }
  destruct (load_masks_ok mkB _ Hl) as (A & B & C). rewrite A.
  split; [reflexivity|]. split; [exact B|]. intros n a b Ha Hb.
  apply C; auto. rewrite Hr, dget_state_dict, Ha. reflexivity.
Qed.

(** Assigning masks twice is the same as assigning the second ones. *)
Lemma load_masks_keys mk loaded : dkeys (fst (load_masks mk loaded)) = dkeys mk.
Proof.
  induction mk as [|(k, m) mk IH]; simpl; auto. destruct (dget loaded k); simpl; auto. congruence.
Qed.

Lemma load_masks_twice mk l1 l2 :
  (forall n, In n (dkeys mk) -> dget l2 n <> None) ->
  load_masks (fst (load_masks mk l1)) l2 = load_masks mk l2.
Proof.
  induction mk as [|(k, m) mk IH]; intro H; simpl; auto.
  assert (dget l2 k <> None) as Hk by (apply H; simpl; auto).
  destruct (dget l1 k); simpl.
  - destruct (dget l2 k); [|congruence]. rewrite IH; auto. intros; apply H; simpl; auto.
  - reflexivity.
Qed.

(** The retry of load_checkpoint: a scheduler state saved from a DataParallel model loads
    into the plain model, and the retry leaves no trace of the failed first attempt. *)
Lemma retry_parallel mkA mkB :
  NoDup (dkeys mkA) ->
  (forall n, In n (dkeys mkB) -> In n (dkeys mkA)) ->
  (exists n, In n (dkeys mkB) /\ ~ In n (dkeys (add_prefix mkA))) ->
  load_compression_scheduler mkB (Some (state_dict (add_prefix mkA))) =
  (fst (load_state_dict mkB (Some (state_dict (add_prefix mkA))) true), None, true).
Proof.
  intros Hnd H Hex. unfold load_compression_scheduler.
  apply load_missing in Hex. rewrite Hex.
  destruct (load_parallel mkA mkB Hnd H) as (A & _).
  f_equal.
  assert (load_state_dict (fst (load_state_dict mkB (Some (state_dict (add_prefix mkA))) false))
            (Some (state_dict (add_prefix mkA))) true
          = load_state_dict mkB (Some (state_dict (add_prefix mkA))) true) as E.
  { unfold load_state_dict. cbn [fst]. rewrite load_masks_twice; auto.
    intros n Hn Hc. assert (state_dict (add_prefix mkA) = add_prefix (state_dict mkA)) as E2.
    { unfold state_dict, add_prefix. rewrite !map_map. reflexivity. }
    rewrite E2, rekey_prefix in Hc by (rewrite state_dict_keys; auto).
    apply dget_None_notin in Hc. apply Hc. rewrite state_dict_keys. auto. }
  rewrite E. rewrite (surjective_pairing (load_state_dict mkB (Some (state_dict (add_prefix mkA))) true)).
  cbn [fst]. rewrite A. reflexivity.
Qed.

(* ------------------------------------------------------------------------- *)
(** ** init_from_masks_dict *)
Lemma init_extend mk masks n :
  dget (fold_left (fun d nm => if dmem d (fst nm) then d else dset d (fst nm) None)
          (mk : dict masker) (masks : dict (option tensor))) n =
  match dget masks n with
  | Some x => Some x
  | None => if in_dec string_dec n (dkeys mk) then Some None else None
  end.
Proof.
  revert masks; induction mk as [|(k, m) mk IH]; intro masks; cbn [fold_left fst].
  - simpl. destruct (dget masks n); auto.
  - rewrite IH. unfold dmem. destruct (dget masks k) eqn:E.
    + destruct (dget masks n) eqn:En; auto.
      destruct (in_dec string_dec n (dkeys mk)), (in_dec string_dec n (dkeys ((k, m) :: mk))); auto.
      * exfalso; apply n0; simpl; auto.
      * destruct i as [Hk|]; [simpl in Hk; congruence|contradiction].
    + destruct (string_dec n k) as [->|Hne].
      * rewrite dget_dset_same, E. destruct (in_dec string_dec k (dkeys ((k, m) :: mk))); auto.
        exfalso; apply n; simpl; auto.
      * rewrite dget_dset_other by auto. destruct (dget masks n); auto.
        destruct (in_dec string_dec n (dkeys mk)), (in_dec string_dec n (dkeys ((k, m) :: mk))); auto.
        -- exfalso; apply n0; simpl; auto.
        -- destruct i as [Hk|]; [simpl in Hk; congruence|contradiction].
Qed.

(** Without normalisation every parameter gets the mask given for it, or no mask. *)
Lemma init_plain mk masks n m :
  dget mk n = Some m ->
  let r := init_from_masks_dict mk masks false in
  snd (fst r) = None /\
  dget (fst (fst r)) n = Some (set_mask m (match dget masks n with Some x => x | None => None end)).
Proof.
  intros Hm r. unfold r, init_from_masks_dict, load_state_dict. cbn [fst snd].
  match goal with |- context [load_masks mk ?l] => set (ld := l) end.
  assert (forall q, In q (dkeys mk) -> dget ld q <> None) as Hl.
  { intros q Hq. unfold ld. rewrite init_extend. destruct (dget masks q); [discriminate|].
    destruct (in_dec string_dec q (dkeys mk)); [discriminate|contradiction]. }
  destruct (load_masks_ok mk ld Hl) as (A & B & C). rewrite A. split; auto.
  apply C; auto. unfold ld. rewrite init_extend. destruct (dget masks n); auto.
  destruct (in_dec string_dec n (dkeys mk)); auto. exfalso; apply n0. eapply dget_Some_In; eauto.
Qed.

(** With normalisation and DataParallel keys, every mask is lost: the None entries that the
    function adds for the plain names overwrite the normalised ones. *)
Lemma init_extend_append mk (masks : dict (option tensor)) :
  NoDup (dkeys mk) -> (forall n, In n (dkeys mk) -> dget masks n = None) ->
  fold_left (fun d nm => if dmem d (fst nm) then d else dset d (fst nm) None) (mk : dict masker) masks
  = (masks ++ map (fun n => (n, None)) (dkeys mk))%list.
Proof.
  revert masks; induction mk as [|(k, m) mk IH]; intros masks Hnd H; cbn [fold_left fst].
  - simpl. rewrite app_nil_r. reflexivity.
  - inversion Hnd; subst. unfold dmem. rewrite (H k) by (simpl; auto).
    assert (dset masks k None = masks ++ [(k, None)])%list as ->.
    { specialize (H k (or_introl eq_refl)). clear - H. induction masks as [|(a, b) masks IH]; simpl in *; auto.
      destruct (String.eqb k a); [discriminate|]. rewrite IH; auto. }
    rewrite IH; auto.
    + simpl. rewrite <- app_assoc. reflexivity.
    + intros n Hn. assert (forall (l : dict (option tensor)) k v n, dget (l ++ [(k, v)]) n =
        match dget l n with Some x => Some x | None => if String.eqb n k then Some v else None end) as Happ.
      { clear. induction l as [|(a, b) l IH]; intros k v n; simpl; auto. destruct (String.eqb n a); auto. }
      rewrite Happ, (H n) by (simpl; auto). destruct (String.eqb_spec n k); auto. subst; contradiction.
Qed.

Lemma dget_app_l {A} (a b : dict A) n v : dget a n = Some v -> dget (a ++ b) n = Some v.
Proof. induction a as [|(k, x) a IH]; simpl; [discriminate|]. destruct (String.eqb n k); auto. Qed.

Lemma init_parallel_loses mk (masks : dict (option tensor)) n m :
  NoDup (dkeys mk) ->
  (forall n, In n (dkeys mk) -> dget masks n = None /\ ~ In "module"%string (split_dot n)) ->
  dget mk n = Some m ->
  let r := init_from_masks_dict mk masks true in
  snd (fst r) = None /\ dget (fst (fst r)) n = Some (set_mask m None).
Proof.
  intros Hnd H Hm r. unfold r, init_from_masks_dict, load_state_dict. cbn [fst snd].
  rewrite init_extend_append; [|auto|intros; apply H; auto].
  match goal with |- context [load_masks mk ?l] => set (ld := l) end.
  assert (forall q, In q (dkeys mk) -> dget ld q = Some None) as Hl.
  { intros q Hq. unfold ld. rewrite dget_rekey, map_app, rev_app_distr. apply dget_app_l.
    rewrite map_map. cbn [fst snd].
    rewrite (map_ext_in _ (fun n => (n, None))).
    - rewrite <- map_rev. apply in_rev in Hq. revert Hq. generalize (rev (dkeys mk)). clear.
      induction l as [|k l IH]; simpl; [tauto|]. intros [->|Hq].
      + rewrite String.eqb_refl. reflexivity.
      + destruct (String.eqb q k); auto.
    - intros a Ha. rewrite normalize_plain; auto. apply H; auto. }
  destruct (load_masks_ok mk ld) as (A & B & C).
  { intros q Hq. rewrite Hl; auto. discriminate. }
  rewrite A. split; auto. apply C; auto. apply Hl. eapply dget_Some_In; eauto.
Qed.
