(** C23: executing thinning recipes. *)
From Coq Require Import String List ZArith QArith Bool Arith Lia.
From Verif Require Import Base Lists StructModel ThinModel ThinSpec ThinProofs ThinExecProofs.
Import ListNotations.
Local Open Scope nat_scope.

Lemma exec_modules_r mods r : exec_modules mods r = exec_modules mods (mkRecipe (r_mods r) []).
Proof. reflexivity. Qed.

(** C23: executing a recipe whose directives select along different dimensions keeps, in every named tensor
    - the parameter, its gradient, its mask and (with SGD, for tracked parameters that have a gradient) its
    momentum buffer - exactly the selected indices along each dimension; sets the named attributes and
    trims the named running statistics; and changes nothing else. *)
Theorem C23_execute :
  forall junk opt loaded m masks r, recipe_fits opt loaded m masks r ->
  exists m' masks', exec_recipe junk opt loaded m masks r = Ok (m', masks') /\
  (forall k ds p, In (k, ds) (r_params r) -> pget (ms_params m) k = Some p ->
     exists p', pget (ms_params m') k = Some p' /\
     subtensor (p_data p) (p_data p') (selection ds) /\
     sub_opt (p_grad p) (p_grad p') (selection ds) /\
     p_tracked p' = p_tracked p /\
     (thins_mom opt p = true -> sub_opt (p_mom p) (p_mom p') (selection ds)) /\
     (thins_mom opt p = false -> p_mom p' = p_mom p) /\
     (touches_masks loaded masks = true -> forall o, pget masks k = Some o -> exists o', pget masks' k = Some o' /\ sub_opt o o' (selection ds))) /\
  (touches_masks loaded masks = false -> masks' = masks) /\
  map fst (ms_params m') = map fst (ms_params m) /\
  (forall k, ~ In k (map fst (r_params r)) -> pget (ms_params m') k = pget (ms_params m) k /\ pget masks' k = pget masks k) /\
  (forall n md x, In (n, md) (r_mods r) -> dget (ms_mods m) n = Some x ->
     exists x', dget (ms_mods m') n = Some x' /\ m_kind x' = m_kind x /\
     (forall a v, In (a, MSet v) md -> dget (m_attrs x') a = Some (AInt v)) /\
     (forall a dim idx t, In (a, MSel dim idx) md -> dget (m_attrs x) a = Some (ATen t) ->
        exists t', dget (m_attrs x') a = Some (ATen t') /\ subtensor t t' (selection [D2 dim idx])) /\
     (forall a, ~ In a (map fst md) -> dget (m_attrs x') a = dget (m_attrs x) a)) /\
  (forall n, ~ In n (map fst (r_mods r)) -> dget (ms_mods m') n = dget (ms_mods m) n).
Proof.
  intros junk opt loaded m masks r (NE & N & P & Nm & Pm).
  unfold exec_recipe. rewrite exec_modules_r.
  destruct (exec_modules_good (r_mods r) (ms_mods m) Nm) as (mods' & E1 & O1 & R1).
  { intros [n md] I. destruct (Pm n md I) as (x & A). exists x. exact A. }
  rewrite E1. cbn [bind].
  destruct (exec_params_cut junk opt loaded (r_params r) (ms_params m) masks N) as (ps & ms & E2 & K2 & T2 & O2 & R2).
  { intros [k ds] I. destruct (P k ds I) as (p & A). exists p. exact A. }
  destruct (r_params r) as [|e0 l0] eqn:El; [congruence|]. rewrite <- El in *. rewrite E2. cbn [bind].
  exists (mkMs mods' ps), ms. cbn [ms_params ms_mods fst snd]. split; auto. split; [|split; [|split; [auto|split; [|split]]]].
  - intros k ds p I Hp. destruct (R2 k ds p I Hp) as (A & B & _). destruct (P k ds I) as (p0 & Hp0 & Gp & Gd & Gm).
    assert (p0 = p) as -> by congruence. clear Hp0. destruct Gp as (W & Gg & Gmo).
    exists (cut_param opt (nd_shape (p_data p)) ds p). split; auto. cbn [cut_param p_data p_grad p_mom p_tracked].
    split; [apply cut_subtensor; auto|]. split.
    { destruct (p_grad p) as [t|]; simpl; auto. destruct (Gg t eq_refl) as ((S & V) & _). apply cut_subtensor; auto. }
    split; auto. split; [|split].
    + intro T. rewrite T. destruct (p_mom p) as [t|]; simpl; auto. destruct (Gmo t eq_refl T) as (S & V). apply cut_subtensor; auto.
    + intro T. rewrite T. auto.
    + intros T o Ho. destruct (Gm T) as (o' & Ho' & S). assert (o' = o) as -> by congruence. rewrite (B T). eexists. split; [reflexivity|].
      unfold mask_of. rewrite Ho. destruct o as [t|]; simpl; auto. destruct (S t eq_refl) as (S1 & S2). apply cut_subtensor; auto.
  - intro T. destruct (P (fst e0) (snd e0)) as (p0 & Hp0 & _); [rewrite El; left; destruct e0; auto|].
    apply (R2 (fst e0) (snd e0) p0); auto. rewrite El. left. destruct e0; auto.
  - auto.
  - intros n md x I Hx. destruct (R1 n md x I Hx) as (x' & A & B & C & D). destruct (Pm n md I) as (x0 & Hx0 & Nk & G).
    assert (x0 = x) as -> by congruence. exists x'. split; auto. split; auto. split; [|split; auto].
    + intros a v J. apply (C (a, MSet v) J).
    + intros a dim idx t J Ht. specialize (C _ J). cbn [fst] in C. unfold new_attr in C. cbn [fst snd] in C. rewrite Ht in C.
      eexists. split; [exact C|]. specialize (G _ J). unfold good_mdir in G. cbn [fst snd] in G. destruct G as (t' & Ht' & W & L & X).
      assert (t' = t) as -> by congruence. apply cut_subtensor; auto. split; [repeat constructor; intros []|].
      intros d [<-|[]]. repeat split; auto.
  - auto.
Qed.

(** * Executing again *)
Lemma thin_param_noop junk opt p k idx : size (p_data p) k = Ok (length idx) -> (forall t, p_grad p = Some t -> size t k = Ok (length idx)) ->
  thin_param junk opt p (D2 k idx) = Ok p.
Proof.
  intros H G. unfold thin_param. rewrite H. cbn [bind]. rewrite Nat.eqb_refl. cbn [bind]. destruct p as [d g t mo]. cbn [p_data p_grad p_tracked p_mom] in *.
  destruct g as [gr|]; auto. rewrite (G gr eq_refl). cbn [bind]. rewrite Nat.eqb_refl. auto.
Qed.
Lemma subtensor_size t t' ds k idx : subtensor t t' (selection ds) -> good_dirs (nd_shape t) ds -> In (D2 k idx) ds -> size t' k = Ok (length idx).
Proof.
  intros (_ & L & S & _) (N & G) I. destruct (G _ I) as (_ & Hk & _). cbn [dir_dim] in Hk.
  unfold size. rewrite (nth_error_nth' _ 0) by lia. rewrite S by auto. unfold kept.
  assert (X : selection ds k = Some idx); [|rewrite X; auto].
  revert N I. clear. induction ds as [|[k' i|k' i v w] ds IH]; simpl; intros N I; [destruct I| |]; destruct I as [E|I]; inversion N; subst; try discriminate.
  - injection E as <- <-. rewrite Nat.eqb_refl. auto.
  - destruct (Nat.eqb_spec k' k); auto. exfalso. apply H1. subst. apply in_map_iff. exists (D2 k idx). auto.
  - auto.
Qed.

Lemma subtensor_shape_dirs t t' ds : subtensor t t' (selection ds) -> good_dirs (nd_shape t) ds ->
  good_dirs (nd_shape t') (map (fun d => D2 (dir_dim d) (seq 0 (length (dir_idx d)))) ds).
Proof.
  intros Hs HG. pose proof Hs as (_ & L & S & _). destruct HG as (N & G). split.
  - rewrite map_map. exact N.
  - intros d I. apply in_map_iff in I as (d0 & <- & I). destruct (G _ I) as (A & B & C). cbn [dir_dim dir_idx is_d2]. split; auto. split; [lia|].
    destruct d0 as [k idx|]; [|destruct A]. cbn [dir_dim dir_idx] in *.
    pose proof (subtensor_size t t' ds k idx Hs (conj N G) I) as Z. unfold size in Z. rewrite (nth_error_nth' _ 0) in Z by lia.
    injection Z as ->. apply index_set_seq.
Qed.

(** C23: executing the same recipe again changes nothing. *)
Theorem C23_execute_again :
  forall junk opt loaded m masks r, recipe_fits opt loaded m masks r ->
  forall m' masks', exec_recipe junk opt loaded m masks r = Ok (m', masks') ->
  forall junk' opt', exec_recipe junk' opt' loaded m' masks' r = Ok (m', masks').
Proof.
  intros junk opt loaded m masks r F m' masks' E junk' opt'.
  destruct (C23_execute junk opt loaded m masks r F) as (m1 & ms1 & E' & P & T & K & O & M & OM). rewrite E in E'. injection E' as <- <-.
  destruct F as (NE & N & Pf & Nm & Pm).
  assert (EM : exec_modules (ms_mods m') r = Ok (ms_mods m')).
  { unfold exec_modules.
    assert (G : forall l, (forall e, In e l -> In e (r_mods r)) -> foldM (fun mods (e : string * dict mdir) =>
      foldM (fun mods (kv : string * mdir) => do x <- lookup mods (fst e); do x' <- exec_module_dir x (fst kv) (snd kv); Ok (dset mods (fst e) x')) (snd e) mods) l (ms_mods m') = Ok (ms_mods m')).
    { induction l as [|[n md] l IH]; intro I; auto. cbn [foldM fst snd].
      assert (In (n, md) (r_mods r)) as J by (apply I; left; auto). destruct (Pm n md J) as (x & Hx & Nk & Gk).
      destruct (M n md x J Hx) as (x' & Hx' & _ & A & B & _).
      assert (G2 : forall l2, (forall e, In e l2 -> In e md) -> foldM (fun mods (kv : string * mdir) => do x <- lookup mods n; do x' <- exec_module_dir x (fst kv) (snd kv); Ok (dset mods n x')) l2 (ms_mods m') = Ok (ms_mods m')).
      { induction l2 as [|[a v] l2 IH2]; intro I2; auto. cbn [foldM fst snd]. unfold lookup at 1. rewrite Hx'. cbn [bind].
        assert (X : exec_module_dir x' a v = Ok x').
        { destruct v as [v|dim idx]; unfold exec_module_dir.
          - f_equal. rewrite dset_same' by (apply A; apply I2; left; auto). destruct x'; auto.
          - specialize (Gk (a, MSel dim idx) (I2 _ (or_introl eq_refl))). unfold good_mdir in Gk. cbn [fst snd] in Gk. destruct Gk as (t & Ht & W & L & X).
            destruct (B a dim idx t (I2 _ (or_introl eq_refl)) Ht) as (t' & Ht' & S). rewrite Ht'.
            rewrite (subtensor_size t t' [D2 dim idx] dim idx); auto; [|split; [repeat constructor; intros []|intros d [<-|[]]; repeat split; auto]|left; auto].
            cbn [bind]. rewrite Nat.eqb_refl. auto. }
        rewrite X. cbn [bind]. rewrite dset_same' by auto. apply IH2. intros; apply I2; right; auto. }
      rewrite G2 by auto. cbn [bind]. apply IH. intros; apply I; right; auto. }
    apply G. auto. }
  unfold exec_recipe. rewrite EM. cbn [bind]. destruct (r_params r) as [|e0 l0] eqn:El; [congruence|]. rewrite <- El in *.
  assert (EP : forall l, (forall e, In e l -> In e (r_params r)) -> foldM (exec_param junk' opt' loaded) l (ms_params m', masks') = Ok (ms_params m', masks')).
  { induction l as [|[k ds] l IH]; intro I; auto. cbn [foldM]. assert (In (k, ds) (r_params r)) as J by (apply I; left; auto).
    destruct (Pf k ds J) as (p & Hp & Gp & Gd & Gm). destruct (P k ds p J Hp) as (p' & Hp' & S1 & S2 & _ & _ & _ & S4).
    assert (X : exec_param junk' opt' loaded (ms_params m', masks') (k, ds) = Ok (ms_params m', masks')).
    { unfold exec_param. cbn [fst snd]. rewrite Hp'.
      assert (G2 : forall l2, (forall e, In e l2 -> In e ds) -> foldM (fun s d => match pget (fst s) k with None => Raise AssertionError | Some p =>
          do p' <- thin_param junk' opt' p d; do masks <- thin_mask loaded (snd s) k d; Ok (pset (fst s) k p', masks) end) l2 (ms_params m', masks') = Ok (ms_params m', masks')).
      { induction l2 as [|d l2 IH2]; intro I2; auto. cbn [foldM fst snd]. rewrite Hp'. assert (Id : In d ds) by (apply I2; left; auto).
        destruct d as [dim idx|]; [|exfalso; destruct (proj2 Gd _ Id) as (Z & _); exact Z].
        rewrite thin_param_noop.
        - cbn [bind].
          assert (X : thin_mask loaded masks' k (D2 dim idx) = Ok masks').
          { unfold thin_mask. destruct (touches_masks loaded masks) eqn:Tm.
            - destruct (Gm Tm) as (o & Ho & So). destruct (S4 eq_refl o Ho) as (o' & Ho' & Ss).
              destruct loaded; auto. destruct masks' as [|e1 r1]; auto. rewrite Ho'. destruct o as [t|], o' as [t'|]; simpl in Ss; try contradiction; auto.
              destruct (So t eq_refl) as (Sh & W). cbn [dir_dim dir_idx]. rewrite (subtensor_size t t' ds dim idx); auto; [|rewrite Sh; auto]. cbn [bind]. rewrite Nat.eqb_refl. auto.
            - rewrite (T eq_refl). unfold touches_masks in Tm. destruct loaded; auto. simpl in Tm. destruct masks; auto. discriminate. }
          rewrite X. cbn [bind]. rewrite pset_same by auto. apply IH2. intros; apply I2; right; auto.
        - eapply subtensor_size; eauto.
        - intros t' Ht'. rewrite Ht' in S2. destruct (p_grad p) as [t|] eqn:Eg; [|destruct S2]. destruct Gp as (_ & Gg & _). destruct (Gg t Eg) as ((Sh & W) & _).
          eapply subtensor_size; eauto. rewrite Sh. auto. }
      apply G2. auto. }
    rewrite X. cbn [bind]. apply IH. intros; apply I; right; auto. }
  rewrite EP by auto. cbn [bind fst snd]. destruct m'; reflexivity.
Qed.

(** C23: with a non-SGD optimizer a parameter that has a gradient and really shrinks makes execution raise
    NotImplementedError. *)
Theorem C23_only_sgd :
  forall junk p k idx gr, wf_nd (p_data p) -> p_grad p = Some gr -> of_shape (nd_shape (p_data p)) gr ->
  k < length (nd_shape (p_data p)) -> index_set (nth k (nd_shape (p_data p)) 0) idx -> length idx < nth k (nd_shape (p_data p)) 0 ->
  thin_param junk (Some false) p (D2 k idx) = Raise NotImplementedError.
Proof.
  intros junk p k idx gr W Hg (Sg & Wg) L I Lt. unfold thin_param. unfold wf_nd in *. set (sh := nd_shape (p_data p)) in *.
  assert (A : p_data p = cut sh [] (nd_data (p_data p))) by (symmetry; apply cut_self; exact W).
  assert (B : gr = cut sh [] (nd_data gr)) by (rewrite <- Sg; symmetry; apply cut_self; exact Wg). rewrite Sg in Wg.
  rewrite A at 1. rewrite cut_size; auto. cbn [bind].
  destruct (Nat.eqb_spec (nth k sh 0) (length idx)); [lia|]. destruct (Nat.ltb_spec (length idx) (nth k sh 0)); [|lia].
  rewrite A at 1. rewrite cut_select; auto; [|intros ? []]. cbn [bind]. rewrite Hg. rewrite B. rewrite cut_size; auto. cbn [bind].
  destruct (Nat.eqb_spec (nth k sh 0) (length idx)); [lia|]. rewrite cut_select; auto; [|intros ? []]. cbn [bind].
  unfold set_grad. rewrite cut_shape_eq. cbn [bind]. reflexivity.
Qed.

(** * Linear layers behind a convolution (4-value directives) *)
Lemma sel_lin of_ oc h idx d : sel_data [of_; oc; h; h] 1 idx d = flat_map (fun o => flat_map (fun c => slice (h * h) c (slice (oc * (h * h)) o d)) idx) (seq 0 of_).
Proof. simpl. replace (h * (h * 1)) with (h * h) by lia. reflexivity. Qed.

Lemma lin_elem of_ oc h idx d o j q :
  length d = of_ * (oc * (h * h)) -> (forall c, In c idx -> c < oc) -> o < of_ -> j < length idx -> q < h * h ->
  nth_error (sel_data [of_; oc; h; h] 1 idx d) (o * (length idx * (h * h)) + (j * (h * h) + q)) = nth_error d (o * (oc * (h * h)) + (nth j idx 0 * (h * h) + q)).
Proof.
  intros E I Ho Hj Hq. rewrite sel_lin.
  assert (A : forall o, o < of_ -> length (slice (oc * (h * h)) o d) = oc * (h * h)) by (intros; eapply slice_len_le; eauto).
  assert (B : forall o c, o < of_ -> In c idx -> length (slice (h * h) c (slice (oc * (h * h)) o d)) = h * h) by (intros; eapply slice_len_le; [apply A; auto|auto]).
  rewrite <- nth_error_slice by nia.
  rewrite (slice_flat_map _ _ _ _ 0); [|intros x X; apply in_seq in X; apply flat_map_length'; intros; apply B; auto; lia|rewrite seq_length; auto].
  rewrite seq_nth by auto. simpl (0 + o). rewrite <- nth_error_slice by auto. rewrite (slice_flat_map _ _ _ _ 0); auto.
  rewrite nth_error_slice by auto. rewrite nth_error_slice; auto. assert (nth j idx 0 < oc) by (apply I, nth_In; auto). nia.
Qed.

(** the columns of a linear layer that belong to the kept channels: [fm] columns per channel *)
Definition block_columns (fm : nat) (idx : list nat) (t t' : nd) : Prop :=
  exists of_ I, nd_shape t = [of_; I] /\ nd_shape t' = [of_; fm * length idx] /\ wf_nd t' /\
  forall o j q, o < of_ -> j < length idx -> q < fm -> elem t' [o; j * fm + q] = elem t [o; nth j idx 0 * fm + q].

(** C23: a linear layer fed by [oc] channels of [h * h] positions keeps exactly the columns of the kept channels,
    in its weight and in its gradient. *)
Theorem C23_linear_execute :
  forall junk opt p of_ oc h idx, 0 < h -> of_shape [of_; oc * (h * h)] (p_data p) -> index_set oc idx ->
  (forall t, p_grad p = Some t -> of_shape [of_; oc * (h * h)] t /\ opt <> Some false) ->
  (forall b, p_mom p = Some b -> of_shape [of_; oc * (h * h)] b) ->
  exists p', thin_param junk opt p (D4 1 idx [of_; oc; h; h] [of_; h * h * length idx]) = Ok p' /\
  block_columns (h * h) idx (p_data p) (p_data p') /\
  match p_grad p, p_grad p' with Some t, Some t' => block_columns (h * h) idx t t' | None, None => True | _, _ => False end.
Proof.
  intros junk opt p of_ oc h idx Hh (Sd & Wd) HI Hg Hm. unfold wf_nd in Wd. rewrite Sd in Wd.
  assert (Len : forall sh : list nat, sh = [of_; oc * (h * h)] -> numel sh = of_ * (oc * (h * h))) by (intros sh ->; simpl; lia).
  assert (Len4 : numel [of_; oc; h; h] = of_ * (oc * (h * h))) by (simpl; lia).
  assert (LenV : numel [of_; h * h * length idx] = of_ * (length idx * (h * h))) by (simpl; lia).
  assert (IL : forall c, In c idx -> c < oc) by (intros; eapply index_set_lt; eauto).
  assert (IS : forall t, of_shape [of_; oc * (h * h)] t -> view t [of_; oc; h; h] = Ok (mkND [of_; oc; h; h] (nd_data t)) /\
     index_select (mkND [of_; oc; h; h] (nd_data t)) 1 idx = Ok (mkND [of_; length idx; h; h] (sel_data [of_; oc; h; h] 1 idx (nd_data t))) /\
     length (sel_data [of_; oc; h; h] 1 idx (nd_data t)) = of_ * (length idx * (h * h))).
  { intros t (St & Wt). unfold wf_nd in Wt. rewrite St in Wt. split; [|split].
    - unfold view. rewrite Wt, Len4, (Len _ eq_refl), Nat.eqb_refl. auto.
    - unfold index_select, size. cbn [nd_shape nth_error bind]. replace (forallb (fun j => j <? oc) idx) with true; auto.
      symmetry. apply forallb_forall. intros c C. apply Nat.ltb_lt. auto.
    - rewrite sel_lin. rewrite (flat_map_length' _ (length idx * (h * h))), seq_length; auto. intros o Ho. apply in_seq in Ho.
      apply flat_map_length'. intros c Hc. apply (slice_len_le oc); [|auto]. apply (slice_len_le of_); [rewrite Wt; apply Len; auto|lia]. }
  assert (BC : forall t, of_shape [of_; oc * (h * h)] t -> block_columns (h * h) idx t (mkND [of_; h * h * length idx] (sel_data [of_; oc; h; h] 1 idx (nd_data t)))).
  { intros t (St & Wt). pose proof (IS t (conj St Wt)) as (_ & _ & Ls). unfold wf_nd in Wt. rewrite St in Wt. exists of_, (oc * (h * h)). split; auto. split; auto. split.
    { unfold wf_nd. cbn [nd_data nd_shape]. rewrite Ls, LenV. auto. }
    intros o j q Ho Hj Hq. unfold elem. rewrite St. cbn [nd_shape nd_data offset].
    assert (nth j idx 0 < oc) by (apply IL, nth_In; auto).
    destruct (Nat.ltb_spec o of_); [|lia]. destruct (Nat.ltb_spec (j * (h * h) + q) (h * h * length idx)); [|nia].
    destruct (Nat.ltb_spec (nth j idx 0 * (h * h) + q) (oc * (h * h))); [|nia].
    cbn [option_map numel fold_right].
    transitivity (nth_error (nd_data t) (o * (oc * (h * h)) + (nth j idx 0 * (h * h) + q))); [|f_equal; nia].
    rewrite <- (lin_elem of_ oc h idx (nd_data t)); auto; [|rewrite Wt; apply Len; auto]. f_equal. nia. }
  (* the degenerate case in which nothing is selected away *)
  assert (Deg : oc * (h * h) = length idx -> idx = seq 0 oc /\ (h * h = 1 \/ oc = 0)).
  { intro X. pose proof (index_set_le _ _ HI). destruct (Nat.eq_dec oc 0) as [->|].
    - split; [apply index_set_full; [auto|lia]|auto].
    - assert (h * h = 1) by nia. split; [apply index_set_full; [auto|nia]|auto]. }
  assert (SelId : oc * (h * h) = length idx -> forall t, of_shape [of_; oc * (h * h)] t -> sel_data [of_; oc; h; h] 1 idx (nd_data t) = nd_data t).
  { intros X t (St & Wt). unfold wf_nd in Wt. rewrite St, (Len _ eq_refl) in Wt. destruct (Deg X) as [E _]. rewrite E, sel_lin.
    rewrite (flat_map_ext_in _ (fun o => slice (oc * (h * h)) o (nd_data t))); [apply slices_id; auto|]. intros o Ho. apply in_seq in Ho.
    apply slices_id. eapply slice_len_le; eauto. lia. }
  assert (Pd : of_shape [of_; oc * (h * h)] (p_data p)) by (split; auto; unfold wf_nd; rewrite Sd; auto).
  destruct (IS (p_data p) Pd) as (V1 & V2 & V3).
  unfold thin_param. rewrite V1. cbn [bind]. replace (size (p_data p) 1) with (Ok (oc * (h * h))) by (unfold size; rewrite Sd; auto). cbn [bind].
  destruct (Nat.eqb_spec (oc * (h * h)) (length idx)) as [X|X].
  - cbn [bind]. assert (V : view (p_data p) [of_; h * h * length idx] = Ok (mkND [of_; h * h * length idx] (nd_data (p_data p)))).
    { unfold view. rewrite LenV, Wd, (Len _ eq_refl). replace (length idx * (h * h)) with (oc * (h * h)); [rewrite Nat.eqb_refl; auto|]. destruct (Deg X) as [E _]. rewrite E, seq_length. auto. }
    rewrite V. cbn [bind]. destruct (p_grad p) as [gr|] eqn:Eg.
    + destruct (Hg gr eq_refl) as (Pg & _). unfold set_grad, shape_eqb, resize_. cbn [nd_shape]. rewrite list_eqb_refl. cbn [bind].
      eexists. split; [reflexivity|]. cbn [p_data p_grad].
      assert (R : tab (numel [of_; h * h * length idx]) (fun i => nth i (nd_data gr) (junk i)) = nd_data gr).
      { destruct Pg as (St & Wt). unfold wf_nd in Wt. rewrite St, (Len _ eq_refl) in Wt.
        assert (LL : numel [of_; h * h * length idx] = length (nd_data gr)).
        { rewrite LenV, Wt. destruct (Deg X) as [E _]. rewrite E, seq_length. auto. }
        rewrite LL. transitivity (tab (length (nd_data gr)) (fun i => nth i (nd_data gr) 0%Q)); [|apply tab_of_list].
        apply tab_ext. intros i Hi. apply nth_indep. auto. }
      rewrite R. split; [pose proof (BC _ Pd) as Z; rewrite (SelId X _ Pd) in Z; exact Z|pose proof (BC _ Pg) as Z; rewrite (SelId X _ Pg) in Z; exact Z].
    + eexists. split; [reflexivity|]. cbn [p_data p_grad]. split; auto. pose proof (BC _ Pd) as Z; rewrite (SelId X _ Pd) in Z; exact Z.
  - rewrite V2. cbn [bind]. destruct (p_grad p) as [gr|] eqn:Eg.
    + destruct (Hg gr eq_refl) as (Pg & No). destruct (IS gr Pg) as (U1 & U2 & U3). rewrite U1. cbn [bind]. replace (size _ 1) with (Ok oc) by reflexivity. cbn [bind].
      assert (V : forall d', length d' = of_ * (length idx * (h * h)) -> view (mkND [of_; length idx; h; h] d') [of_; h * h * length idx] = Ok (mkND [of_; h * h * length idx] d')).
      { intros d' L'. unfold view. cbn [nd_data]. rewrite L', LenV, Nat.eqb_refl. auto. }
      assert (R : forall g' : nd, length (nd_data g') = of_ * (length idx * (h * h)) -> resize_ junk g' [of_; h * h * length idx] = mkND [of_; h * h * length idx] (nd_data g')).
      { intros g' L'. unfold resize_. f_equal. rewrite LenV, <- L'. transitivity (tab (length (nd_data g')) (fun i => nth i (nd_data g') 0%Q)); [|apply tab_of_list].
        apply tab_ext. intros i Hi. apply nth_indep. auto. }
      destruct (Nat.eqb_spec oc (length idx)) as [Y|Y].
      * (* all channels kept *)
        cbn [bind p_data p_grad p_tracked p_mom]. rewrite V by auto. cbn [bind].
        assert (Ix : idx = seq 0 oc) by (apply index_set_full; auto).
        assert (SI : forall t, of_shape [of_; oc * (h * h)] t -> sel_data [of_; oc; h; h] 1 idx (nd_data t) = nd_data t).
        { intros t (St & Wt). unfold wf_nd in Wt. rewrite St, (Len _ eq_refl) in Wt. rewrite Ix, sel_lin.
          rewrite (flat_map_ext_in _ (fun o => slice (oc * (h * h)) o (nd_data t))); [apply slices_id; auto|]. intros o Ho. apply in_seq in Ho.
          apply slices_id. eapply slice_len_le; eauto. lia. }
        unfold set_grad, shape_eqb. rewrite R by (rewrite <- U3, (SI _ Pg); auto). cbn [nd_shape]. rewrite list_eqb_refl. cbn [bind].
        eexists. split; [reflexivity|]. cbn [p_data p_grad]. split; [apply BC; auto|]. pose proof (BC _ Pg) as Z. rewrite (SI _ Pg) in Z. exact Z.
      * rewrite U2. cbn [bind]. unfold set_grad at 1, shape_eqb. cbn [nd_shape]. rewrite list_eqb_refl. cbn [bind].
        assert (TM : exists mo, thin_momentum junk opt p 1 idx (Some [of_; h * h * length idx]) = Ok mo).
        { unfold thin_momentum. destruct opt as [[|]|]; [|congruence|eauto]. destruct (p_tracked p); [|eauto]. destruct (p_mom p) as [b|] eqn:Em; [|eauto].
          destruct (Hm b eq_refl) as (Sb & _). unfold index_select, size. rewrite Sb. cbn [nth_error bind].
          replace (forallb (fun j => j <? oc * (h * h)) idx) with true; [cbn [bind]; eauto|].
          symmetry. apply forallb_forall. intros c C. apply Nat.ltb_lt. specialize (IL c C).
          assert (1 <= h * h) by nia. nia. }
        destruct TM as (mo & ->). cbn [bind p_data p_grad p_tracked p_mom]. rewrite V by auto. cbn [bind].
        unfold set_grad, shape_eqb. rewrite R by auto. cbn [nd_shape]. rewrite list_eqb_refl. cbn [bind].
        eexists. split; [reflexivity|]. cbn [p_data p_grad nd_data]. split; apply BC; auto.
    + cbn [bind p_data p_grad p_tracked p_mom]. unfold view at 1. cbn [nd_data]. rewrite V3, LenV, Nat.eqb_refl. cbn [bind].
      eexists. split; [reflexivity|]. cbn [p_data p_grad]. split; auto.
Qed.
