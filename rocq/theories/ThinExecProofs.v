(** Execution of thinning recipes. *)
From Coq Require Import String List ZArith QArith Bool Arith Lia.
From Verif Require Import Base Lists StructModel ThinModel ThinSpec ThinProofs.
Import ListNotations.
Local Open Scope nat_scope.

Lemma filter_full {A} (f : A -> bool) l : length (filter f l) = length l -> filter f l = l.
Proof.
  induction l as [|a l IH]; simpl; auto. destruct (f a); simpl; intro H; [f_equal; apply IH; lia|].
  exfalso. assert (length (filter f l) <= length l) by (clear; induction l; simpl; auto; destruct (f a); simpl; lia). lia.
Qed.
Lemma filter_length_le' {A} (f : A -> bool) l : length (filter f l) <= length l.
Proof. induction l; simpl; auto. destruct (f a); simpl; lia. Qed.
Lemma index_set_le n idx : index_set n idx -> length idx <= n.
Proof. intros (k & ->). rewrite <- (seq_length n 0) at 2. apply filter_length_le'. Qed.
Lemma index_set_full n idx : index_set n idx -> length idx = n -> idx = seq 0 n.
Proof. intros (k & ->) H. apply filter_full. rewrite seq_length. auto. Qed.
Lemma index_set_lt n idx j : index_set n idx -> In j idx -> j < n.
Proof. intros (k & ->) H. apply filter_In in H as [H _]. apply in_seq in H. lia. Qed.
Lemma index_set_seq n : index_set n (seq 0 n).
Proof. exists (fun _ => true). induction (seq 0 n); simpl; auto. f_equal; auto. Qed.

(** * Tensors in the state reached after some directives *)
Definition Ks (sh : list nat) (ds : list pdir) : list (list nat) :=
  map (fun d => match selection ds d with Some l => l | None => seq 0 (nth d sh 0) end) (seq 0 (length sh)).
Definition cut (sh : list nat) (ds : list pdir) (d : list Q) : nd := mkND (map (@length nat) (Ks sh ds)) (sel_all sh (Ks sh ds) d).

Lemma Ks_length sh ds : length (Ks sh ds) = length sh.
Proof. unfold Ks. rewrite map_length, seq_length. auto. Qed.
Lemma Ks_nth sh ds k : k < length sh -> nth k (Ks sh ds) [] = match selection ds k with Some l => l | None => seq 0 (nth k sh 0) end.
Proof. intro H. unfold Ks. change (map ?f (seq 0 (length sh))) with (tab (length sh) f). rewrite tab_nth by auto. reflexivity. Qed.
Lemma Ks_nil sh : Ks sh [] = full sh.
Proof. unfold Ks, full. simpl. rewrite <- (tab_of_list 0 sh) at 2. unfold tab. rewrite map_map. reflexivity. Qed.
Lemma cut_nil sh d : length d = numel sh -> cut sh [] d = mkND sh d.
Proof. intro H. unfold cut. rewrite Ks_nil, full_lengths, sel_all_full; auto. Qed.

Lemma selection_none ds k : ~ In k (map dir_dim ds) -> selection ds k = None.
Proof.
  induction ds as [|[k' i|k' i v w] ds IH]; simpl; intro H; auto. destruct (Nat.eqb_spec k' k); [exfalso; auto|]. auto.
Qed.
Lemma selection_app ds ds' k : selection (ds ++ ds') k = match selection ds k with Some l => Some l | None => selection ds' k end.
Proof. induction ds as [|[k' i|k' i v w] ds IH]; simpl; auto. destruct (Nat.eqb k' k); auto. Qed.
Lemma selection_some ds k l : selection ds k = Some l -> exists d, In d ds /\ dir_dim d = k /\ dir_idx d = l.
Proof.
  induction ds as [|[k' i|k' i v w] ds IH]; simpl; intro H; [discriminate| |].
  - destruct (Nat.eqb_spec k' k); [injection H as <-; exists (D2 k' i); auto|]. destruct (IH H) as (d & A & B); eauto.
  - destruct (IH H) as (d & A & B); eauto.
Qed.
Lemma Ks_in_range sh ds : (forall d, In d ds -> dir_dim d < length sh -> index_set (nth (dir_dim d) sh 0) (dir_idx d)) -> in_range sh (Ks sh ds).
Proof.
  intro H. assert (G : forall k, k < length sh -> forall j, In j (nth k (Ks sh ds) []) -> j < nth k sh 0).
  { intros k L j J. rewrite Ks_nth in J by auto. destruct (selection ds k) as [l|] eqn:E.
    - apply selection_some in E as (d & A & B & C). subst. eapply index_set_lt; eauto.
    - apply in_seq in J. lia. }
  revert G. generalize (Ks_length sh ds). generalize (Ks sh ds). unfold in_range. clear. induction sh as [|n sh IH]; intros [|K l] L G; try discriminate; constructor.
  - apply (G 0). simpl. lia.
  - apply IH; [simpl in L; lia|]. intros k Hk. apply (G (S k)). simpl. lia.
Qed.
Lemma Ks_snoc sh ds k idx : ~ In k (map dir_dim ds) -> k < length sh -> Ks sh (ds ++ [D2 k idx]) = set_nth (Ks sh ds) k idx.
Proof.
  intros N L. apply (list_eq_nth []); [rewrite set_nth_length, !Ks_length; auto|].
  intros i Hi. rewrite Ks_length in Hi. rewrite Ks_nth by auto. rewrite selection_app. simpl.
  destruct (Nat.eqb_spec k i).
  - subst i. rewrite set_nth_same by (rewrite Ks_length; auto). rewrite selection_none; auto.
  - rewrite set_nth_other by auto. rewrite Ks_nth by auto. destruct (selection ds i); auto.
Qed.
Lemma map_set_nth {A B} (f : A -> B) l k v : map f (set_nth l k v) = set_nth (map f l) k (f v).
Proof. revert k. induction l; destruct k; simpl; auto. f_equal. auto. Qed.

Section Step.
  Variables (sh : list nat) (ds : list pdir) (k : nat) (idx : list nat).
  Hypothesis N : ~ In k (map dir_dim ds).
  Hypothesis L : k < length sh.
  Hypothesis G : forall d, In d ds -> dir_dim d < length sh -> index_set (nth (dir_dim d) sh 0) (dir_idx d).
  Hypothesis I : index_set (nth k sh 0) idx.

  Lemma cut_size d : size (cut sh ds d) k = Ok (nth k sh 0).
  Proof.
    unfold size, cut. simpl. rewrite (nth_error_nth' _ 0) by (rewrite map_length, Ks_length; auto).
    change 0 with (length (@nil nat)) at 1. rewrite map_nth, Ks_nth by auto. rewrite selection_none by auto. rewrite seq_length. reflexivity.
  Qed.
  Lemma cut_select d : length d = numel sh -> index_select (cut sh ds d) k idx = Ok (cut sh (ds ++ [D2 k idx]) d).
  Proof.
    intro E. unfold index_select. rewrite cut_size. cbn [bind].
    replace (forallb (fun j => j <? nth k sh 0) idx) with true.
    - unfold cut. simpl. f_equal. rewrite Ks_snoc by auto. rewrite map_set_nth. f_equal.
      apply sel_all_more; auto.
      + apply Ks_in_range; auto.
      + rewrite Ks_nth by auto. rewrite selection_none by auto. reflexivity.
      + intros j J. eapply index_set_lt; eauto.
    - symmetry. apply forallb_forall. intros j J. apply Nat.ltb_lt. eapply index_set_lt; eauto.
  Qed.
  Lemma cut_same d : nth k sh 0 = length idx -> cut sh ds d = cut sh (ds ++ [D2 k idx]) d.
  Proof.
    intro E. unfold cut. rewrite Ks_snoc by auto. f_equal.
    - f_equal. assert (X : idx = seq 0 (nth k sh 0)) by (apply index_set_full; auto).
      rewrite X. rewrite <- (set_nth_id (Ks sh ds) k []) at 1 by (rewrite Ks_length; auto). f_equal.
      rewrite Ks_nth by auto. rewrite selection_none; auto.
    - f_equal. assert (X : idx = seq 0 (nth k sh 0)) by (apply index_set_full; auto).
      rewrite X. rewrite <- (set_nth_id (Ks sh ds) k []) at 1 by (rewrite Ks_length; auto). f_equal.
      rewrite Ks_nth by auto. rewrite selection_none; auto.
  Qed.
End Step.

Lemma list_eqb_refl l : list_eqb l l = true.
Proof. unfold list_eqb. destruct (list_eq_dec Nat.eq_dec l l); congruence. Qed.
Lemma list_eqb_eq a b : list_eqb a b = true <-> a = b.
Proof. unfold list_eqb. destruct (list_eq_dec Nat.eq_dec a b); intuition congruence. Qed.
Lemma cut_shape_eq sh ds d d' : shape_eqb (cut sh ds d) (cut sh ds d') = true.
Proof. unfold shape_eqb, cut. simpl. apply list_eqb_refl. Qed.

(** the parameter after some directives *)
Definition cut_opt sh ds (o : option nd) : option nd := option_map (fun t => cut sh ds (nd_data t)) o.
Definition cut_param (opt : optimizer) sh ds (p : param) : param :=
  mkParam (cut sh ds (nd_data (p_data p))) (cut_opt sh ds (p_grad p)) (p_tracked p)
          (if thins_mom opt p then cut_opt sh ds (p_mom p) else p_mom p).

Lemma good_dirs_app sh ds d : good_dirs sh (ds ++ [d]) -> good_dirs sh ds /\ is_d2 d /\ dir_dim d < length sh /\ index_set (nth (dir_dim d) sh 0) (dir_idx d) /\ ~ In (dir_dim d) (map dir_dim ds).
Proof.
  intros [N H]. rewrite map_app in N. simpl in N. apply NoDup_remove in N as [N1 N2]. rewrite app_nil_r in N1, N2.
  destruct (H d) as (A & B & C); [apply in_or_app; right; left; auto|]. repeat split; auto.
  - apply H. apply in_or_app; auto.
  - apply H; [apply in_or_app; auto].
  - apply H; [apply in_or_app; auto].
Qed.

Lemma thin_param_cut junk opt p ds d :
  let sh := nd_shape (p_data p) in
  good_param opt p -> good_dirs sh (ds ++ [d]) -> thin_param junk opt (cut_param opt sh ds p) d = Ok (cut_param opt sh (ds ++ [d]) p).
Proof.
  intros sh (W & Gg & Gm) GD. apply good_dirs_app in GD as (GD & D2' & L & I & N). destruct d as [k idx|]; [|destruct D2'].
  cbn [dir_dim dir_idx] in *. unfold wf_nd in W.
  assert (G : forall d, In d ds -> dir_dim d < length sh -> index_set (nth (dir_dim d) sh 0) (dir_idx d)) by (intros; apply GD; auto).
  unfold thin_param, cut_param. cbn [p_data p_grad p_tracked p_mom]. rewrite cut_size by auto. cbn [bind].
  assert (S1 : (if nth k sh 0 =? length idx then Ok (cut sh ds (nd_data (p_data p)))
     else if length idx <? nth k sh 0 then index_select (cut sh ds (nd_data (p_data p))) k idx else Raise AssertionError)
     = Ok (cut sh (ds ++ [D2 k idx]) (nd_data (p_data p)))).
  { destruct (Nat.eqb_spec (nth k sh 0) (length idx)).
    - f_equal. apply cut_same; auto.
    - destruct (Nat.ltb_spec (length idx) (nth k sh 0)); [apply cut_select; auto|]. assert (length idx <= nth k sh 0) by (apply index_set_le; auto). lia. }
  rewrite S1. cbn [bind].
  destruct (p_grad p) as [gr|] eqn:Eg; cbn [cut_opt option_map].
  - destruct (Gg gr eq_refl) as ((Gs & Gw) & Go). unfold wf_nd in Gw. rewrite Gs in Gw.
    rewrite cut_size by auto. cbn [bind]. destruct (Nat.eqb_spec (nth k sh 0) (length idx)) as [E|E].
    + rewrite <- !cut_same by auto. f_equal. f_equal.
      destruct (thins_mom opt p); auto. destruct (p_mom p) as [b|]; auto. simpl. f_equal. apply cut_same; auto.
    + rewrite cut_select by auto. cbn [bind]. unfold set_grad. rewrite cut_shape_eq. cbn [bind].
      unfold thin_momentum. cbn [p_tracked p_mom]. unfold thins_mom in *. rewrite Eg in *. destruct opt as [[|]|]; [|congruence|reflexivity].
      destruct (p_tracked p); [|reflexivity]. destruct (p_mom p) as [b|] eqn:Em; [|reflexivity]. cbn [cut_opt option_map].
      destruct (Gm b eq_refl eq_refl) as (Bs & Bw). unfold wf_nd in Bw. rewrite Bs in Bw. rewrite cut_select by auto. reflexivity.
  - unfold thins_mom. rewrite Eg. destruct opt as [[|]|]; reflexivity.
Qed.

(** * Dictionaries keyed by parameter names *)
Lemma pname_eqb_eq a b : pname_eqb a b = true <-> a = b.
Proof.
  unfold pname_eqb. destruct a as [a1 a2], b as [b1 b2]. simpl. rewrite andb_true_iff, !String.eqb_eq. split; [intros [-> ->]; auto|intros [= -> ->]; auto].
Qed.
Lemma pname_eqb_refl a : pname_eqb a a = true. Proof. apply pname_eqb_eq. auto. Qed.
Lemma pname_eqb_neq a b : a <> b -> pname_eqb a b = false.
Proof. intro H. destruct (pname_eqb a b) eqn:E; auto. apply pname_eqb_eq in E. congruence. Qed.
Lemma pget_pset_same {A} (d : pdict A) k v : pget (pset d k v) k = Some v.
Proof. induction d as [|[k' v'] d IH]; simpl; [rewrite pname_eqb_refl; auto|]. destruct (pname_eqb k k') eqn:E; simpl; rewrite E; auto. Qed.
Lemma pget_pset_other {A} (d : pdict A) k k' v : k <> k' -> pget (pset d k v) k' = pget d k'.
Proof.
  intro H. induction d as [|[k2 v2] d IH]; simpl.
  - rewrite pname_eqb_neq; auto.
  - destruct (pname_eqb k k2) eqn:E; simpl.
    + apply pname_eqb_eq in E. subst. rewrite pname_eqb_neq; auto.
    + destruct (pname_eqb k' k2); auto.
Qed.
Lemma pset_same {A} (d : pdict A) k v : pget d k = Some v -> pset d k v = d.
Proof.
  induction d as [|[k' v'] d IH]; simpl; intro H; [discriminate|]. destruct (pname_eqb k k') eqn:E.
  - congruence.
  - f_equal. auto.
Qed.
Lemma pset_keys {A} (d : pdict A) k v : pget d k <> None -> map fst (pset d k v) = map fst d.
Proof.
  induction d as [|[k' v'] d IH]; simpl; intro H; [congruence|]. destruct (pname_eqb k k') eqn:E; simpl; auto. f_equal. auto.
Qed.
Lemma pset_pset {A} (d : pdict A) k v w : pset (pset d k v) k w = pset d k w.
Proof. induction d as [|[k' v'] d IH]; simpl; [rewrite pname_eqb_refl; auto|]. destruct (pname_eqb k k') eqn:E; simpl; rewrite E; auto. f_equal; auto. Qed.
Lemma pset_nonempty {A} (d : pdict A) k v : pset d k v <> [].
Proof. destruct d as [|[k' v'] d]; simpl; [discriminate|]. destruct (pname_eqb k k'); discriminate. Qed.
Lemma pget_in {A} (d : pdict A) k v : pget d k = Some v -> In (k, v) d.
Proof. induction d as [|[k' v'] d IH]; simpl; intro H; [discriminate|]. destruct (pname_eqb k k') eqn:E; auto. apply pname_eqb_eq in E. left. congruence. Qed.
Lemma pget_nodup {A} (d : pdict A) k v : NoDup (map fst d) -> In (k, v) d -> pget d k = Some v.
Proof.
  induction d as [|[k' v'] d IH]; simpl; intros N H; [destruct H|]. inversion N; subst. destruct H as [[= -> ->]|H].
  - rewrite pname_eqb_refl. auto.
  - rewrite pname_eqb_neq; auto. intros ->. apply H2. apply in_map_iff. exists (k', v). auto.
Qed.
Lemma pget_none {A} (d : pdict A) k : pget d k = None <-> ~ In k (map fst d).
Proof.
  induction d as [|[k' v'] d IH]; simpl; [tauto|]. destruct (pname_eqb k k') eqn:E.
  - apply pname_eqb_eq in E. subst. split; [discriminate|intros []; auto].
  - rewrite IH. split; [|tauto]. intros H [->|K]; [rewrite pname_eqb_refl in E; discriminate|auto].
Qed.

(** * Masks *)
Lemma touches_pset loaded masks k v : touches_masks loaded masks = true -> touches_masks loaded (pset masks k v) = true.
Proof. unfold touches_masks. destruct loaded; simpl; [discriminate|]. intros _. destruct (pset masks k v) eqn:E; auto. apply pset_nonempty in E. destruct E. Qed.

Definition put_mask (loaded : bool) (masks : pdict (option nd)) (k : pname) sh ds (o : option nd) :=
  if touches_masks loaded masks then pset masks k (cut_opt sh ds o) else masks.
Lemma thin_mask_cut loaded masks k sh ds d o :
  (touches_masks loaded masks = true -> pget masks k = Some o) -> (forall t, o = Some t -> of_shape sh t) -> good_dirs sh (ds ++ [d]) ->
  thin_mask loaded (put_mask loaded masks k sh ds o) k d = Ok (put_mask loaded masks k sh (ds ++ [d]) o).
Proof.
  intros Hk Hs GD. apply good_dirs_app in GD as (GD & D2' & L & I & N). destruct d as [dim idx|]; [|destruct D2']. cbn [dir_dim dir_idx] in *.
  assert (G : forall d, In d ds -> dir_dim d < length sh -> index_set (nth (dir_dim d) sh 0) (dir_idx d)) by (intros; apply GD; auto).
  unfold put_mask. destruct (touches_masks loaded masks) eqn:T.
  - unfold thin_mask. unfold touches_masks in T. destruct loaded; [discriminate|].
    destruct (pset masks k (cut_opt sh ds o)) eqn:E; [apply pset_nonempty in E; destruct E|]. rewrite <- E. clear E.
    rewrite pget_pset_same. destruct o as [t|]; cbn [cut_opt option_map dir_dim dir_idx]; auto.
    rewrite cut_size by auto. cbn [bind]. destruct (Hs t eq_refl) as [S W]. unfold wf_nd in W. rewrite S in W.
    destruct (Nat.eqb_spec (nth dim sh 0) (length idx)).
    + rewrite <- cut_same by auto. auto.
    + rewrite cut_select by auto. cbn [bind]. rewrite pset_pset. reflexivity.
  - unfold thin_mask. unfold touches_masks in T. destruct loaded; auto. simpl in T. destruct masks; [auto|discriminate].
Qed.

(** * One parameter *)
Lemma cut_self t : wf_nd t -> cut (nd_shape t) [] (nd_data t) = t.
Proof. intro W. rewrite cut_nil by exact W. destruct t; reflexivity. Qed.
Lemma cut_opt_self sh o : (forall t, o = Some t -> of_shape sh t) -> cut_opt sh [] o = o.
Proof. intro H. destruct o as [t|]; auto. simpl. destruct (H t eq_refl) as [<- W]. f_equal. apply cut_self; auto. Qed.
Lemma cut_param_self opt p : good_param opt p -> cut_param opt (nd_shape (p_data p)) [] p = p.
Proof.
  intros (W & G & M). unfold cut_param. rewrite cut_self by auto. rewrite cut_opt_self by (intros; apply G; auto).
  destruct (thins_mom opt p) eqn:T; [rewrite cut_opt_self by (intros; apply M; auto)|]; destruct p; reflexivity.
Qed.

Lemma foldM_app {A S} (f : S -> A -> res S) l l' s : foldM f (l ++ l') s = do s' <- foldM f l s; foldM f l' s'.
Proof. revert s. induction l; intro s; simpl; auto. destruct (f s a); simpl; auto. Qed.

Definition mask_of (masks : pdict (option nd)) (k : pname) : option nd := match pget masks k with Some o => o | None => None end.

Lemma exec_param_cut junk opt loaded params masks k p ds :
  pget params k = Some p -> good_param opt p -> good_dirs (nd_shape (p_data p)) ds -> good_mask loaded masks k (nd_shape (p_data p)) ->
  exec_param junk opt loaded (params, masks) (k, ds) =
  Ok (pset params k (cut_param opt (nd_shape (p_data p)) ds p), put_mask loaded masks k (nd_shape (p_data p)) ds (mask_of masks k)).
Proof.
  intros Hp Gp GD GM. set (sh := nd_shape (p_data p)) in *. unfold exec_param. cbn [fst snd]. rewrite Hp.
  assert (Mo : touches_masks loaded masks = true -> pget masks k = Some (mask_of masks k) /\ forall t, mask_of masks k = Some t -> of_shape sh t).
  { intro T. destruct (GM T) as (o & A & B). unfold mask_of. rewrite A. auto. }
  induction ds as [|d ds IH] using rev_ind.
  - simpl. f_equal. f_equal; [unfold sh; rewrite cut_param_self by auto; symmetry; apply pset_same; auto|].
    unfold put_mask. destruct (touches_masks loaded masks); auto. destruct (Mo eq_refl) as [A B]. rewrite cut_opt_self by auto. symmetry. apply pset_same; auto.
  - rewrite foldM_app, IH by (apply good_dirs_app in GD; tauto). cbn [bind]. cbn [foldM fst snd]. rewrite pget_pset_same.
    unfold sh at 1; rewrite thin_param_cut by auto; fold sh. cbn [bind].
    assert (T : thin_mask loaded (put_mask loaded masks k sh ds (mask_of masks k)) k d = Ok (put_mask loaded masks k sh (ds ++ [d]) (mask_of masks k))).
    { destruct (touches_masks loaded masks) eqn:T.
      - destruct (Mo eq_refl) as [A B]. apply thin_mask_cut; auto.
      - unfold put_mask. rewrite T. unfold thin_mask, touches_masks in *. destruct loaded; auto. simpl in T. destruct masks; [auto|discriminate]. }
    rewrite T. cbn [bind]. rewrite pset_pset. reflexivity.
Qed.

(** * All parameters *)
Definition good_entry opt loaded params masks (e : pname * list pdir) : Prop :=
  exists p, pget params (fst e) = Some p /\ good_param opt p /\ good_dirs (nd_shape (p_data p)) (snd e) /\ good_mask loaded masks (fst e) (nd_shape (p_data p)).

Lemma put_mask_touches loaded masks k sh ds o : touches_masks loaded (put_mask loaded masks k sh ds o) = touches_masks loaded masks.
Proof. unfold put_mask. destruct (touches_masks loaded masks) eqn:E; auto. apply touches_pset; auto. Qed.
Lemma put_mask_other loaded masks k k' sh ds o : k <> k' -> pget (put_mask loaded masks k sh ds o) k' = pget masks k'.
Proof. intro H. unfold put_mask. destruct (touches_masks loaded masks); auto. apply pget_pset_other; auto. Qed.

Lemma exec_params_cut junk opt loaded l : forall params masks,
  NoDup (map fst l) -> (forall e, In e l -> good_entry opt loaded params masks e) ->
  exists params' masks', foldM (exec_param junk opt loaded) l (params, masks) = Ok (params', masks') /\
    map fst params' = map fst params /\
    touches_masks loaded masks' = touches_masks loaded masks /\
    (forall k, ~ In k (map fst l) -> pget params' k = pget params k /\ pget masks' k = pget masks k) /\
    (forall k ds p, In (k, ds) l -> pget params k = Some p ->
       pget params' k = Some (cut_param opt (nd_shape (p_data p)) ds p) /\
       (touches_masks loaded masks = true -> pget masks' k = Some (cut_opt (nd_shape (p_data p)) ds (mask_of masks k))) /\
       (touches_masks loaded masks = false -> masks' = masks)).
Proof.
  induction l as [|[k ds] l IH]; intros params masks N H.
  - exists params, masks. simpl. repeat split; auto; intros; contradiction.
  - inversion N; subst. destruct (H (k, ds)) as (p & Hp & Gp & Gd & Gm); [left; auto|]. cbn [fst snd] in *.
    cbn [foldM]. rewrite (exec_param_cut junk opt loaded params masks k p ds) by auto. cbn [bind].
    set (masks1 := put_mask loaded masks k (nd_shape (p_data p)) ds (mask_of masks k)).
    set (params1 := pset params k (cut_param opt (nd_shape (p_data p)) ds p)).
    assert (T1 : touches_masks loaded masks1 = touches_masks loaded masks) by apply put_mask_touches.
    destruct (IH params1 masks1) as (params' & masks' & E & K & T & O & R); auto.
    { intros [k' ds'] I. destruct (H (k', ds')) as (p' & Hp' & Gp' & Gd' & Gm'); [right; auto|]. cbn [fst snd] in *.
      assert (k <> k') by (intros ->; apply H2; apply in_map_iff; exists (k', ds'); auto).
      exists p'. cbn [fst snd]. split; [unfold params1; rewrite pget_pset_other; auto|]. split; auto. split; auto.
      intro X. rewrite T1 in X. destruct (Gm' X) as (o & A & B). exists o. split; auto. unfold masks1. rewrite put_mask_other; auto. }
    exists params', masks'. split; auto. split.
    { rewrite K. unfold params1. apply pset_keys. congruence. }
    split; [congruence|]. split.
    + intros k' I'. assert (k <> k') by (intros ->; apply I'; left; auto). assert (~ In k' (map fst l)) by (intro X; apply I'; right; auto).
      destruct (O k' H1) as [A B]. split; [rewrite A; unfold params1; apply pget_pset_other; auto|rewrite B; unfold masks1; apply put_mask_other; auto].
    + intros k' ds' p' [I|I] Hp'.
      * injection I as <- <-. assert (p' = p) as -> by congruence. destruct (O k H2) as [A B].
        split; [rewrite A; unfold params1; apply pget_pset_same|]. split.
        -- intro X. rewrite B. unfold masks1, put_mask. rewrite X. apply pget_pset_same.
        -- intro X. assert (masks1 = masks) as E1 by (unfold masks1, put_mask; rewrite X; auto).
           destruct l as [|[k2 ds2] l2].
           ++ simpl in E. injection E as <- <-. auto.
           ++ destruct (H (k2, ds2)) as (p2 & Hp2 & _); [right; left; auto|]. cbn [fst] in Hp2.
              destruct (R k2 ds2 p2) as (_ & _ & Z); [left; auto| |rewrite <- E1; apply Z; congruence].
              unfold params1. rewrite pget_pset_other; auto. intros ->. apply H2. left. auto.
      * assert (k <> k') by (intros ->; apply H2; apply in_map_iff; exists (k', ds'); auto).
        destruct (R k' ds' p' I) as (A & B & C); [unfold params1; rewrite pget_pset_other; auto|]. split; auto. split.
        -- intro X. rewrite B by congruence. f_equal. f_equal. unfold mask_of, masks1. rewrite put_mask_other; auto.
        -- intro X. rewrite C by congruence. unfold masks1, put_mask. rewrite X. auto.
Qed.

(** * Modules *)
Definition new_attr (attrs : dict attr) (e : string * mdir) : option attr :=
  match snd e with
  | MSet n => Some (AInt n)
  | MSel dim idx => match dget attrs (fst e) with Some (ATen t) => Some (ATen (cut (nd_shape t) [D2 dim idx] (nd_data t))) | o => o end
  end.

Lemma dget_dset_eq {A} (d : dict A) k v : dget (dset d k v) k = Some v.
Proof. induction d as [|[k' v'] d IH]; simpl; [rewrite String.eqb_refl; auto|]. destruct (String.eqb k k') eqn:E; simpl; rewrite E; auto. Qed.
Lemma dget_dset_neq {A} (d : dict A) k k' v : k <> k' -> dget (dset d k v) k' = dget d k'.
Proof.
  intro H. induction d as [|[k2 v2] d IH]; simpl.
  - destruct (String.eqb_spec k' k); congruence.
  - destruct (String.eqb_spec k k2); simpl.
    + subst. destruct (String.eqb_spec k' k2); congruence.
    + destruct (String.eqb k' k2); auto.
Qed.
Lemma dset_same' {A} (d : dict A) k v : dget d k = Some v -> dset d k v = d.
Proof. induction d as [|[k' v'] d IH]; simpl; intro H; [discriminate|]. destruct (String.eqb k k'); [congruence|f_equal; auto]. Qed.
Lemma dset_dset' {A} (d : dict A) k v w : dset (dset d k v) k w = dset d k w.
Proof. induction d as [|[k' v'] d IH]; simpl; [rewrite String.eqb_refl; auto|]. destruct (String.eqb k k') eqn:E; simpl; rewrite E; auto. f_equal; auto. Qed.

Lemma exec_module_dir_good x k v : good_mdir (m_attrs x) (k, v) ->
  exists x', exec_module_dir x k v = Ok x' /\ m_kind x' = m_kind x /\ dget (m_attrs x') k = new_attr (m_attrs x) (k, v) /\
  (forall k', k' <> k -> dget (m_attrs x') k' = dget (m_attrs x) k').
Proof.
  unfold good_mdir, new_attr, exec_module_dir. cbn [fst snd]. destruct v as [n|dim idx].
  - intros _. eexists. split; [reflexivity|]. cbn [m_kind m_attrs]. split; auto. split; [apply dget_dset_eq|]. intros. apply dget_dset_neq. auto.
  - intros (t & E & W & L & I). rewrite E. unfold wf_nd in W.
    pose proof (cut_size (nd_shape t) [] dim (fun X => X) L) as S. pose proof (cut_select (nd_shape t) [] dim idx (fun X => X) L) as C.
    pose proof (cut_same (nd_shape t) [] dim idx (fun X => X) L) as Z.
    assert (Self : cut (nd_shape t) [] (nd_data t) = t) by (apply cut_self; auto).
    specialize (S (nd_data t)). rewrite Self in S. rewrite S. cbn [bind]. destruct (Nat.eqb_spec (nth dim (nd_shape t) 0) (length idx)) as [e|ne].
    + exists x. split; auto. split; auto. split; auto. rewrite E. specialize (Z I (nd_data t) e). rewrite Self in Z. rewrite Z at 1. reflexivity.
    + specialize (C (fun d (X : In d []) => match X with end) I (nd_data t) W). rewrite Self in C. rewrite C. cbn [bind]. eexists. split; [reflexivity|]. cbn [m_kind m_attrs]. split; auto. split; [apply dget_dset_eq|].
      intros. apply dget_dset_neq. auto.
Qed.

(** executing the directives of one module *)
Lemma exec_module_dirs n md : forall mods x, dget mods n = Some x -> NoDup (map fst md) -> (forall e, In e md -> good_mdir (m_attrs x) e) ->
  exists mods' x', foldM (fun mods (kv : string * mdir) => do x <- lookup mods n; do x' <- exec_module_dir x (fst kv) (snd kv); Ok (dset mods n x')) md mods = Ok mods' /\
    dget mods' n = Some x' /\ m_kind x' = m_kind x /\ (forall n', n' <> n -> dget mods' n' = dget mods n') /\
    (forall e, In e md -> dget (m_attrs x') (fst e) = new_attr (m_attrs x) e) /\
    (forall k, ~ In k (map fst md) -> dget (m_attrs x') k = dget (m_attrs x) k).
Proof.
  induction md as [|[k v] md IH]; intros mods x Hx N G.
  - exists mods, x. simpl. repeat split; auto. intros ? [].
  - inversion N; subst. cbn [foldM fst snd]. unfold lookup at 1. rewrite Hx. cbn [bind].
    destruct (exec_module_dir_good x k v) as (x1 & E1 & K1 & A1 & O1); [apply G; left; auto|]. rewrite E1. cbn [bind].
    destruct (IH (dset mods n x1) x1) as (mods' & x' & E & X & K & O & A & U); auto.
    + apply dget_dset_eq.
    + intros [k' v'] I. assert (k' <> k) by (intros ->; apply H1; apply in_map_iff; exists (k, v'); auto).
      specialize (G (k', v') (or_intror I)). unfold good_mdir in *. cbn [fst snd] in *. destruct v'; auto. rewrite O1; auto.
    + exists mods', x'. split; auto. split; auto. split; [congruence|]. split; [|split].
      * intros n' Hn. rewrite O by auto. apply dget_dset_neq. auto.
      * intros [k' v'] [I|I].
        -- injection I as <- <-. cbn [fst]. rewrite U by auto. auto.
        -- rewrite A by auto. assert (k' <> k) by (intros ->; apply H1; apply in_map_iff; exists (k, v'); auto).
           unfold new_attr. cbn [fst snd]. destruct v'; auto. rewrite O1; auto.
      * intros k' I. rewrite U by (intro; apply I; right; auto). apply O1. intros ->. apply I. left; auto.
Qed.

Definition good_mod_entry (mods : dict module) (e : string * dict mdir) : Prop :=
  exists x, dget mods (fst e) = Some x /\ NoDup (map fst (snd e)) /\ forall kv, In kv (snd e) -> good_mdir (m_attrs x) kv.

Lemma exec_modules_good : forall l mods, NoDup (map fst l) -> (forall e, In e l -> good_mod_entry mods e) ->
  exists mods', exec_modules mods (mkRecipe l []) = Ok mods' /\
    (forall n, ~ In n (map fst l) -> dget mods' n = dget mods n) /\
    (forall n md x, In (n, md) l -> dget mods n = Some x -> exists x', dget mods' n = Some x' /\ m_kind x' = m_kind x /\
       (forall e, In e md -> dget (m_attrs x') (fst e) = new_attr (m_attrs x) e) /\
       (forall k, ~ In k (map fst md) -> dget (m_attrs x') k = dget (m_attrs x) k)).
Proof.
  unfold exec_modules. cbn [r_mods]. induction l as [|[n md] l IH]; intros mods N G.
  - exists mods. simpl. repeat split; auto. intros ? ? ? [].
  - inversion N; subst. destruct (G (n, md)) as (x & Hx & Nk & Gk); [left; auto|]. cbn [fst snd] in *.
    destruct (exec_module_dirs n md mods x Hx Nk Gk) as (mods1 & x1 & E1 & X1 & K1 & O1 & A1 & U1). cbn [foldM fst snd]. rewrite E1. cbn [bind].
    destruct (IH mods1) as (mods' & E & O & R); auto.
    + intros [n' md'] I. destruct (G (n', md')) as (x' & Hx' & Nk' & Gk'); [right; auto|]. cbn [fst snd] in *.
      exists x'. split; auto. cbn [fst]. rewrite O1; auto. intros ->. apply H1. apply in_map_iff. exists (n, md'). auto.
    + exists mods'. split; auto. split.
      * intros n' I. rewrite O by (intro; apply I; right; auto). apply O1. intros ->. apply I. left; auto.
      * intros n' md' x' [I|I] Hx'.
        -- injection I as <- <-. assert (x' = x) as -> by congruence. exists x1. rewrite O by auto. auto.
        -- destruct (R n' md' x' I) as (x2 & A); [|eauto]. rewrite O1; auto. intros ->. apply H1. apply in_map_iff. exists (n, md'). auto.
Qed.

Lemma cut_subtensor sh ds t : nd_shape t = sh -> wf_nd t -> good_dirs sh ds -> subtensor t (cut sh ds (nd_data t)) (selection ds).
Proof.
  intros <- W GD. unfold wf_nd in W.
  assert (R : in_range (nd_shape t) (Ks (nd_shape t) ds)) by (apply Ks_in_range; intros; apply GD; auto).
  assert (KK : forall d, d < length (nd_shape t) -> nth d (Ks (nd_shape t) ds) [] = kept t (selection ds) d) by (intros; apply Ks_nth; auto).
  split; [unfold wf_nd, cut; simpl; apply sel_all_length; auto|].
  split; [unfold cut; simpl; rewrite map_length; apply Ks_length|]. split.
  - intros d L. unfold cut. simpl. change 0 with (length (@nil nat)) at 1. rewrite map_nth. rewrite KK by auto. auto.
  - intros ix L B. unfold cut. rewrite elem_sel_all; auto.
    + destruct t as [sh d]. simpl in *. f_equal. apply map_ext_in. intros k K. apply in_seq in K. rewrite KK by lia. reflexivity.
    + intros k K. rewrite KK by lia. apply B; auto.
Qed.
