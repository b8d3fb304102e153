From Coq Require Import String List ZArith QArith Qabs Qround Bool Arith Lia Lqa.
From Verif Require Import Base Lists SchedModel SchedSpec PrunerModel PrunerSpec PrunerProofs.
Import ListNotations.

Lemma weights_of_app n h h' : weights_of n (h ++ h') = weights_of n h ++ weights_of n h'.
Proof. unfold weights_of. rewrite filter_app, map_app. auto. Qed.

Lemma calls_app {PS} (pr : pruner PS) ps0 h c st :
  calls pr ps0 (h ++ [c]) = Ok st <-> exists st0, calls pr ps0 h = Ok st0 /\ call_one pr st0 c = Ok st.
Proof.
  unfold calls. rewrite foldM_app. split.
  - intro H. inv_bind H. simpl in H. inv_bind H. injection H as <-. eauto.
  - intros (st0 & -> & H). simpl. rewrite H. auto.
Qed.

Section S.
Variable std mean : tensor -> Q.

Lemma sens_cache sens h cache masks :
  calls (sensitivity_pruner std sens) [] h = Ok (cache, masks) ->
  forall n s, lookup_default sens n = Some s ->
  dget cache n = match weights_of n h with t0 :: _ => Some (std t0) | [] => None end.
Proof.
  revert cache masks. induction h as [|c h IH] using rev_ind; intros cache masks H n s Hs.
  - unfold calls in H. simpl in H. injection H as <- <-. reflexivity.
  - apply calls_app in H. destruct H as ([cache0 masks0] & H & H1).
    specialize (IH _ _ H n s Hs). destruct c as [[me n'] t]. unfold call_one in H1. inv_bind H1.
    injection H1 as E _. simpl in H0. unfold sensitivity_pruner in H0.
    rewrite weights_of_app. unfold weights_of at 2. simpl. unfold call_name; simpl.
    destruct (lookup_default sens n') as [s'|] eqn:El.
    + injection H0 as <-. simpl in E. unfold create_mask_sensitivity_criterion in E. simpl in E. subst cache.
      destruct (String.eqb_spec n n').
      * subst n'. simpl. unfold dmem. rewrite IH. destruct (weights_of n h); simpl.
        -- apply dget_dset_same.
        -- rewrite IH. auto.
      * simpl. rewrite app_nil_r. destruct (dmem cache0 n'); auto. rewrite dget_dset_other; auto.
    + injection H0 as <-. simpl in E. subst cache0. destruct (String.eqb_spec n n'); [congruence|].
      simpl. rewrite app_nil_r. auto.
Qed.

Lemma sens_history sens h cache masks me n t s cache' masks' :
  calls (sensitivity_pruner std sens) [] h = Ok (cache, masks) ->
  lookup_default sens n = Some s ->
  call_one (sensitivity_pruner std sens) (cache, masks) (me, n, t) = Ok (cache', masks') ->
  masks' n = Some (create_mask_threshold_criterion t
     (std (match weights_of n h with t0 :: _ => t0 | [] => t end) * s)).
Proof.
  intros H Hs H1. pose proof (sens_cache _ _ _ _ H n s Hs) as Hc.
  unfold call_one in H1. inv_bind H1. injection H1 as E1 E2. simpl in H0.
  unfold sensitivity_pruner in H0. rewrite Hs in H0. injection H0 as <-. subst masks'. simpl.
  rewrite String.eqb_refl. unfold create_mask_sensitivity_criterion, dmem. rewrite Hc. simpl.
  destruct (weights_of n h) as [|t0 ts] eqn:E.
  - rewrite dget_dset_same. auto.
  - rewrite Hc. auto.
Qed.

(** One splicing step on one entry. *)
Definition splice1 (low hi x c : Q) : Q :=
  if Qle_bool hi (Qabs x) then 1 else if Qltb (Qabs x) low then 0 else c.

Definition thr_low (c : splicing_cfg) (s : Q) (t0 : tensor) : Q :=
  (mean (map Qabs t0) + std (map Qabs t0) * s) * sp_low c.
Definition thr_hi (c : splicing_cfg) (s : Q) (t0 : tensor) : Q :=
  (mean (map Qabs t0) + std (map Qabs t0) * s) * sp_hi c.

Lemma map2_nth_error {A B C} (f : A -> B -> C) a b i x y :
  nth_error a i = Some x -> nth_error b i = Some y -> nth_error (map2 f a b) i = Some (f x y).
Proof.
  revert b i; induction a; destruct b, i; simpl; intros; try discriminate; try congruence. auto.
Qed.

(** State after any history, for a parameter with a sensitivity, no growing sensitivity:
    cache from the first tensor; mask entry = fold of splice1. *)
Lemma splice_state c h cache masks n s :
  Qle_bool (sp_mult c) 0 = true ->
  calls (splicing_pruner std mean c) [] h = Ok (cache, masks) ->
  lookup_default (sp_sens c) n = Some s ->
  (dget cache n = match weights_of n h with
                 | t0 :: _ => Some (std (map Qabs t0), mean (map Qabs t0)) | [] => None end) /\
  match weights_of n h with
  | [] => masks n = None
  | t0 :: _ =>
      forall len, (forall t, In t (weights_of n h) -> length t = len) ->
      exists m, masks n = Some m /\ length m = len /\
      forall i, (i < len)%nat ->
        nth i m 0 = fold_left (fun cur t => splice1 (thr_low c s t0) (thr_hi c s t0) (nth i t 0) cur)
                              (weights_of n h) 1
  end.
Proof.
  intro Hm0. assert (Qltb 0 (sp_mult c) = false) as Hm by (unfold Qltb; rewrite Hm0; auto).
  revert cache masks. induction h as [|k h IH] using rev_ind; intros cache masks H Hs.
  - unfold calls in H. simpl in H. injection H as <- <-. simpl. auto.
  - apply calls_app in H. destruct H as ([cache0 masks0] & H & H1).
    destruct (IH _ _ H Hs) as [IHc IHm]. clear IH. destruct k as [[me n'] t]. unfold call_one in H1. inv_bind H1.
    injection H1 as E1 E2. simpl in H0. unfold splicing_pruner in H0. rewrite Hm in H0.
    rewrite weights_of_app. change (weights_of n [(me, n', t)]) with
      (map snd (if String.eqb n n' then [(me, n', t)] else [])).
    destruct (String.eqb_spec n n') as [->|Hne].
    + rewrite Hs in H0. simpl in H0. injection H0 as <-. subst cache masks. simpl fst. simpl snd.
      rewrite String.eqb_refl. unfold splicing_create_mask, dmem. rewrite IHc.
      set (t0 := match weights_of n' h with t0 :: _ => t0 | [] => t end).
      assert (match weights_of n' h with t1 :: _ => Some (std (map Qabs t1), mean (map Qabs t1)) | [] => None end =
              match weights_of n' h with [] => None | _ => Some (std (map Qabs t0), mean (map Qabs t0)) end) as Ec.
      { unfold t0. destruct (weights_of n' h); auto. }
      rewrite Ec in *. simpl map.
      assert (match (weights_of n' h ++ [t])%list with t1 :: _ => t1 | [] => t end = t0) as Et0.
      { unfold t0. destruct (weights_of n' h); auto. }
      set (cache1 := if match match weights_of n' h with [] => None | _ :: _ => Some (std (map Qabs t0), mean (map Qabs t0)) end with Some _ => true | None => false end then cache0 else dset cache0 n' (std (map Qabs t), mean (map Qabs t))).
      assert (dget cache1 n' = Some (std (map Qabs t0), mean (map Qabs t0))) as Hc1.
      { unfold cache1. destruct (weights_of n' h) eqn:Ew; simpl.
        - rewrite dget_dset_same. reflexivity.
        - exact IHc. }
      rewrite Hc1. cbn [fst snd]. split.
      * destruct (weights_of n' h ++ [t])%list eqn:Ew; [destruct (weights_of n' h); discriminate|].
        simpl in Et0. rewrite <- Et0. reflexivity.
      * destruct (weights_of n' h ++ [t])%list as [|t1 ts] eqn:Ew; [destruct (weights_of n' h); discriminate|].
        simpl in Et0. subst t1. rewrite <- Ew. intros len Hlen.
        fold (thr_low c s t0) (thr_hi c s t0).
        eexists. split; [reflexivity|].
        assert (length t = len) as Ht by (apply Hlen; apply in_or_app; simpl; auto).
        set (cur := match masks0 n' with Some m => m | None => map (fun _ => 1) t end).
        assert (length cur = len /\ forall i, (i < len)%nat -> nth i cur 0 =
           fold_left (fun cur t => splice1 (thr_low c s t0) (thr_hi c s t0) (nth i t 0) cur) (weights_of n' h) 1) as [Lc Hc].
        { unfold cur. destruct (weights_of n' h) as [|t1 ts'] eqn:Ew'.
          - rewrite IHm. simpl. rewrite map_length. split; auto. intros i Hi.
            rewrite nth_indep with (d' := 1) by (rewrite map_length; lia).
            exact (map_nth (fun _ : Q => 1) t 0 i).
          - destruct (IHm len) as (m & Hmm & Lm & Hi); [intros; apply Hlen; apply in_or_app; auto|].
            rewrite Hmm. split; auto. }
        split; [rewrite !map2_length; lia|]. intros i Hi.
        assert (i < length t)%nat by lia.
        rewrite map2_nth with (da := 0) (db := 0) by (try rewrite map2_length; lia).
        rewrite map2_nth with (da := 0) (db := 0) by lia.
        rewrite fold_left_app. simpl. rewrite Hc by auto. unfold splice1. auto.
    + rewrite app_nil_r. simpl in E1, E2. subst cache masks. simpl.
      destruct (String.eqb_spec n n'); [congruence|].
      split; [|exact IHm]. rewrite <- IHc.
      destruct (lookup_default (sp_sens c) n') eqn:El.
      * simpl in H0. injection H0 as <-. simpl. destruct (dmem cache0 n'); auto. apply dget_dset_other; auto.
      * injection H0 as <-. auto.
Qed.

(** The fold in closed form. *)
Lemma splice_last low hi l x post c0 :
  (Qabs x < low \/ hi <= Qabs x) -> (forall y, In y post -> low <= Qabs y /\ Qabs y < hi) ->
  fold_left (fun cur y => splice1 low hi y cur) (l ++ x :: post) c0 =
  if Qle_bool hi (Qabs x) then 1 else 0.
Proof.
  intros Hx Hp. rewrite fold_left_app. simpl.
  assert (forall z, splice1 low hi x z = if Qle_bool hi (Qabs x) then 1 else 0) as ->.
  { intro z. unfold splice1. destruct (Qle_bool hi (Qabs x)) eqn:E; auto. apply Qle_bool_ngt in E.
    destruct Hx as [Hx|Hx]; [|lra]. apply Qltb_lt in Hx. rewrite Hx. auto. }
  generalize (if Qle_bool hi (Qabs x) then 1 else 0). induction post as [|y post IH]; intro z; simpl; auto.
  assert (splice1 low hi y z = z) as ->; [|apply IH; intros; apply Hp; simpl; auto].
  destruct (Hp y) as [A B]; [simpl; auto|]. unfold splice1.
  apply Qle_bool_ngt in B. rewrite B. apply Qltb_ge in A. rewrite A. auto.
Qed.

Lemma splice_never low hi l c0 :
  (forall y, In y l -> low <= Qabs y /\ Qabs y < hi) ->
  fold_left (fun cur y => splice1 low hi y cur) l c0 = c0.
Proof.
  intro Hp. induction l as [|y l IH]; simpl; auto.
  assert (splice1 low hi y c0 = c0) as ->; [|apply IH; intros; apply Hp; simpl; auto].
  destruct (Hp y) as [A B]; [simpl; auto|]. unfold splice1.
  apply Qle_bool_ngt in B. rewrite B. apply Qltb_ge in A. rewrite A. auto.
Qed.
End S.

(** Baidu: the slopes after any history are those of the first call on a listed parameter. *)
Lemma baidu_state c h ps masks :
  calls (baidu_pruner c) None h = Ok (ps, masks) ->
  match filter (fun k => existsb (String.eqb (call_name k)) (ba_weights c)) h with
  | [] => ps = None
  | (me, _, _) :: _ => exists sl freq, me_freq me = Some freq /\
       baidu_slopes c (me_start me) (me_end me) freq = Ok sl /\ ps = Some sl
  end.
Proof.
  revert ps masks. induction h as [|k h IH] using rev_ind; intros ps masks H.
  - unfold calls in H. simpl in H. injection H as <- <-. reflexivity.
  - apply calls_app in H. destruct H as ([ps0 masks0] & H & H1). specialize (IH _ _ H).
    destruct k as [[me n] t]. unfold call_one in H1. inv_bind H1. injection H1 as E1 E2. simpl in H0.
    rewrite filter_app. simpl filter. change (call_name (me, n, t)) with n. unfold baidu_pruner in H0.
    destruct (existsb (String.eqb n) (ba_weights c)).
    + destruct (me_cur me); [|discriminate]. destruct (me_freq me) as [freq|] eqn:Ef; [|discriminate].
      inv_bind H0. destruct (Z.eqb freq 0); [discriminate|]. injection H0 as <-. simpl in E1. subst ps.
      destruct (filter _ h) as [|[[me1 n1] t1] r]; simpl.
      * subst ps0. exists x0, freq. auto.
      * destruct IH as (sl & fr & A & B & ->). injection H1 as <-. eauto.
    + injection H0 as <-. simpl in E1. subst ps0. rewrite app_nil_r. exact IH.
Qed.
