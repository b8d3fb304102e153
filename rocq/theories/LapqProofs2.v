From Coq Require Import String Ascii List ZArith QArith Qabs Bool Arith Lia Lqa.
From Verif Require Import Base Lists Names StructModel QuantModel RangeModel LapqModel LapqSpec LapqProofs.
Import ListNotations.
Local Open Scope string_scope.
Open Scope list_scope.

(** * Names *)
Lemma split_dot_app a b : split_dot (full_name a b) = split_dot a ++ split_dot b.
Proof.
  unfold full_name. induction a as [|c a IH]; [reflexivity|].
  change (String c a ++ "." ++ b)%string with (String c (a ++ "." ++ b)%string). cbn [split_dot].
  destruct (Ascii.eqb c Names.dot); [rewrite IH; reflexivity|]. rewrite IH.
  pose proof (split_dot_nonempty a). destruct (split_dot a); [congruence|reflexivity].
Qed.
Lemma full_name_module n p : no_dot p = true -> param_name_2_module_name (full_name n p) = n.
Proof. intro H. unfold param_name_2_module_name. rewrite split_dot_app, (split_dot_single p H), removelast_last. apply join_split. Qed.
Lemma full_name_param n p : no_dot p = true -> last (split_dot (full_name n p)) "" = p.
Proof. intro H. rewrite split_dot_app, (split_dot_single p H). apply last_last. Qed.
Lemma full_name_inj n p n' p' : no_dot p = true -> no_dot p' = true -> full_name n p = full_name n' p' -> n = n' /\ p = p'.
Proof.
  intros H H' E. split.
  - rewrite <- (full_name_module n p H), E. apply full_name_module; auto.
  - rewrite <- (full_name_param n p H), E. apply full_name_param; auto.
Qed.

(** * Dictionaries at a position *)
Lemma dget_mid {A} (pre : dict A) n v post : ~ In n (dkeys pre) -> dget (pre ++ (n, v) :: post) n = Some v.
Proof.
  induction pre as [|[k w] pre IH]; intro H; cbn [dget app].
  - rewrite String.eqb_refl. reflexivity.
  - destruct (String.eqb_spec n k); [subst; exfalso; apply H; simpl; auto|]. apply IH. intro; apply H; simpl; auto.
Qed.
Lemma dset_mid {A} (pre : dict A) n v v' post : ~ In n (dkeys pre) -> dset (pre ++ (n, v) :: post) n v' = pre ++ (n, v') :: post.
Proof.
  induction pre as [|[k w] pre IH]; intro H; cbn [dset app].
  - rewrite String.eqb_refl. reflexivity.
  - destruct (String.eqb_spec n k); [subst; exfalso; apply H; simpl; auto|]. rewrite IH; auto. intro; apply H; simpl; auto.
Qed.
Lemma dmem_In {A} (d : dict A) k : dmem d k = true <-> In k (dkeys d).
Proof.
  unfold dmem. destruct (dget d k) eqn:E.
  - split; auto. intros _. apply dget_In in E. apply in_map_iff. eexists; split; [|exact E]. reflexivity.
  - split; [discriminate|]. intro H. apply dget_None_notin in E. contradiction.
Qed.

(** * One wrapper *)
Definition w_set (c : wcfg) (s : wst) (kv : string * qpv) : res wst :=
  do cl <- named_clipping false c s;
  if dmem cl (fst kv) then (if String.eqb (fst kv) "output_clipping" then set_out_clip c (snd kv) s else set_wts_clip c (snd kv) s)
  else if dmem (named_params false c s) (fst kv) then fill (fst kv) (snd kv) s else Raise KeyError.

Lemma named_params_no_dot f c s k : In k (dkeys (named_params f c s)) -> no_dot k = true.
Proof.
  unfold named_params, wts_params, out_params, dkeys.
  destruct (c_kind c), (c_save c), (match c_acts c with Some _ => true | None => false end && c_preset c), (negb f || asym (c_mw c)), (negb f || asym (c_ma c) && negb (c_half c));
  simpl; intuition (subst; reflexivity).
Qed.
Lemma q_params_keys f ms k : In k (dkeys (q_params f ms)) <->
  exists n c s p, In (n, (c, s)) ms /\ In p (dkeys (named_params f c s)) /\ k = full_name n p.
Proof.
  unfold q_params, dkeys. rewrite in_map_iff. split.
  - intros ([k' v] & <- & H). apply in_flat_map in H. destruct H as ([n [c s]] & Hi & H). apply in_map_iff in H.
    destruct H as ([p v'] & E & Hp). injection E as <- <-. exists n, c, s, p. repeat split; auto. apply in_map_iff. exists (p, v'); auto.
  - intros (n & c & s & p & Hi & Hp & ->). apply in_map_iff in Hp. destruct Hp as ([p' v] & <- & Hp). exists (full_name n p', v). split; auto.
    apply in_flat_map. exists (n, (c, s)). split; auto. apply in_map_iff. exists (p', v). auto.
Qed.
Lemma dmem_q_params f pre n c s post p : NoDup (map fst (pre ++ (n, (c, s)) :: post)) -> no_dot p = true ->
  dmem (q_params f (pre ++ (n, (c, s)) :: post)) (full_name n p) = dmem (named_params f c s) p.
Proof.
  intros N D. apply Bool.eq_iff_eq_true. rewrite !dmem_In, q_params_keys. split.
  - intros (n' & c' & s' & p' & Hi & Hp & E). apply full_name_inj in E; [|auto|eapply named_params_no_dot; eauto]. destruct E as [<- <-].
    rewrite map_app in N. simpl in N. apply NoDup_remove_2 in N.
    assert (Hx : In (n, (c', s')) (pre ++ post) \/ (c', s') = (c, s)).
    { apply in_app_or in Hi. destruct Hi as [Hi|[Hi|Hi]]; [left; apply in_or_app; auto|right; injection Hi as <- <-; auto|left; apply in_or_app; auto]. }
    destruct Hx as [Hx|E]; [|injection E as -> ->; auto].
    exfalso. apply N. rewrite <- map_app. apply in_map_iff. eexists; split; [|exact Hx]. reflexivity.
  - intro H. exists n, c, s, p. repeat split; auto. apply in_or_app. right; left; auto.
Qed.

Lemma q_set_at pre n c s post p v : NoDup (map fst (pre ++ (n, (c, s)) :: post)) -> no_dot p = true ->
  q_set (pre ++ (n, (c, s)) :: post) (full_name n p, v) = do s' <- w_set c s (p, v); Ok (pre ++ (n, (c, s')) :: post).
Proof.
  intros N D. assert (Np : ~ In n (dkeys pre)).
  { rewrite map_app in N. simpl in N. apply NoDup_remove_2 in N. intro; apply N, in_or_app; auto. }
  unfold q_set. cbn [fst snd]. rewrite full_name_module, full_name_param, (dget_mid _ _ _ _ Np) by auto. unfold w_set. cbn [fst snd].
  destruct (named_clipping false c s) as [cl|e]; cbn [bind]; auto.
  rewrite (dmem_q_params false pre n c s post p N D).
  destruct (dmem cl p).
  - destruct (if String.eqb p "output_clipping" then set_out_clip c v s else set_wts_clip c v s); cbn [bind]; auto. rewrite dset_mid; auto.
  - destruct (dmem (named_params false c s) p); auto. destruct (fill p v s); cbn [bind]; auto. rewrite dset_mid; auto.
Qed.

Definition qualify {A} (n : string) (d : dict A) : dict A := map (fun p => (full_name n (fst p), snd p)) d.
Lemma q_update_at pre n c post l : forall s, NoDup (map fst (pre ++ (n, (c, s)) :: post)) -> Forall (fun p => no_dot (fst p) = true) l ->
  foldM q_set (qualify n l) (pre ++ (n, (c, s)) :: post) = do s' <- foldM (w_set c) l s; Ok (pre ++ (n, (c, s')) :: post).
Proof.
  induction l as [|[p v] l IH]; intros s N F; [reflexivity|]. inversion F; subst. cbn [qualify map foldM fst snd]. rewrite q_set_at by auto.
  destruct (w_set c s (p, v)) as [s'|e]; cbn [bind]; auto. apply IH; auto.
  rewrite map_app in *. exact N.
Qed.

(** * A whole model, wrapper by wrapper *)
Definition U (c : wcfg) (d : dict qpv) (s : wst) : wst := match foldM (w_set c) d s with Ok s' => s' | Raise _ => s end.
Definition flat (names : list string) (ds : list (dict qpv)) : dict qpv := concat (map2 qualify names ds).
Definition MU (ms : model) (ds : list (dict qpv)) : model :=
  map2 (fun (e : string * (wcfg * wst)) d => (fst e, (fst (snd e), U (fst (snd e)) d (snd (snd e))))) ms ds.

(** every assignment of [ds] can be made, whatever the state of the wrapper *)
Definition settable (c : wcfg) (d : dict qpv) : Prop :=
  Forall (fun p => no_dot (fst p) = true) d /\ forall s, foldM (w_set c) d s = Ok (U c d s).

Lemma q_update_flat ms : forall ds pre, NoDup (map fst (pre ++ ms)) -> Forall2 (fun e d => settable (fst (snd e)) d) ms ds ->
  foldM q_set (flat (map fst ms) ds) (pre ++ ms) = Ok (pre ++ MU ms ds).
Proof.
  induction ms as [|[n [c s]] ms IH]; intros ds pre N F; inversion F; subst; [reflexivity|].
  unfold flat. cbn [map map2 concat MU fst snd]. rewrite foldM_app. destruct H1 as [H1 H1']. cbn [fst snd] in *.
  rewrite q_update_at by auto. rewrite H1'. cbn [bind].
  replace (pre ++ (n, (c, U c y s)) :: ms) with ((pre ++ [(n, (c, U c y s))]) ++ ms) by (rewrite <- app_assoc; reflexivity).
  change (concat (map2 qualify (map fst ms) l')) with (flat (map fst ms) l'). rewrite (IH l').
  - rewrite <- app_assoc. reflexivity.
  - rewrite <- app_assoc. rewrite map_app in *. exact N.
  - auto.
Qed.
Lemma q_update_MU ms ds : NoDup (map fst ms) -> Forall2 (fun e d => settable (fst (snd e)) d) ms ds ->
  q_update (flat (map fst ms) ds) ms = Ok (MU ms ds).
Proof. intros. apply (q_update_flat ms ds []); auto. Qed.

Lemma MU_names ms ds : length ds = length ms -> map fst (MU ms ds) = map fst ms.
Proof. revert ds; induction ms as [|e ms IH]; intros [|d ds] H; try discriminate; auto. cbn. f_equal. apply IH. auto. Qed.
Lemma MU_cfgs ms ds : length ds = length ms -> map (fun e => fst (snd e)) (MU ms ds) = map (fun e => fst (snd e)) ms.
Proof. revert ds; induction ms as [|e ms IH]; intros [|d ds] H; try discriminate; auto. cbn. f_equal. apply IH. auto. Qed.
Lemma MU_length ms ds : length ds = length ms -> length (MU ms ds) = length ms.
Proof. intro H. rewrite <- (map_length fst), MU_names, map_length; auto. Qed.

(** splitting an assignment by wrapper *)
Lemma shapes_app a b : shapes (a ++ b) = shapes a ++ shapes b. Proof. apply map_app. Qed.
Lemma shapes_qualify n d : shapes (qualify n d) = map (fun p : string * bool => (full_name n (fst p), snd p)) (shapes d).
Proof. unfold shapes, qualify. rewrite !map_map. reflexivity. Qed.
Lemma shapes_qualify_inv n d p : Forall (fun q : string * bool => no_dot (fst q) = true) p ->
  shapes d = map (fun q : string * bool => (full_name n (fst q), snd q)) p -> exists d0, d = qualify n d0 /\ shapes d0 = p.
Proof.
  revert p; induction d as [|[k v] d IH]; intros [|[k' b] p] F H; try discriminate; [exists []; auto|].
  cbn in H. injection H as -> Hb H. inversion F as [|? ? _ Fp]; subst. destruct (IH _ Fp H) as (d0 & -> & E). exists ((k', v) :: d0). split; auto. cbn. f_equal; auto.
Qed.
Lemma shapes_split d a b : shapes d = a ++ b -> exists d1 d2, d = d1 ++ d2 /\ shapes d1 = a /\ shapes d2 = b.
Proof.
  revert d; induction a as [|x a IH]; intros d H; [exists [], d; auto|]. destruct d as [|y d]; [discriminate|]. cbn in H. injection H as <- H.
  destruct (IH _ H) as (d1 & d2 & -> & <- & <-). exists (y :: d1), d2. auto.
Qed.
Lemma flat_split names ps d : length ps = length names -> Forall (Forall (fun q : string * qpv => no_dot (fst q) = true)) ps ->
  shapes d = shapes (flat names ps) -> exists ds, d = flat names ds /\ Forall2 (fun d0 p => shapes d0 = shapes p) ds ps.
Proof.
  revert names d; induction ps as [|p ps IH]; intros [|n names] d L F H; try discriminate.
  - exists []. split; auto. destruct d; [reflexivity|discriminate].
  - inversion F as [|? ? Fa Fb]; subst. unfold flat in H. cbn [map2 concat] in H. rewrite shapes_app, shapes_qualify in H.
    apply shapes_split in H. destruct H as (d1 & d2 & -> & H1' & H2'). apply shapes_qualify_inv in H1'.
    2:{ unfold shapes. apply Forall_forall. intros x Hx. apply in_map_iff in Hx. destruct Hx as (y & <- & Hy). simpl. rewrite Forall_forall in Fa; auto. }
    destruct H1' as (d0 & -> & E). destruct (IH names d2) as (ds & -> & K); auto. exists (d0 :: ds). split; [reflexivity|constructor; auto].
Qed.
