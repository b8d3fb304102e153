(** What executing a recipe does to the data of the parameters and to the modules, whatever happens to gradients,
    momentum buffers and masks. *)
From Coq Require Import String List ZArith QArith Bool Arith Lia.
From Verif Require Import Base Lists StructModel ThinModel ThinSpec ThinProofs ThinExecProofs PropertiesThin ThinRecipeProofs ThinNetSpec ThinSimProofs.
Import ListNotations.
Local Open Scope nat_scope.
Ltac inv_ok H := match type of H with bind ?m _ = Ok _ => let x := fresh "x" in let E := fresh "E" in destruct m as [x|] eqn:E; cbn [bind] in H; [|discriminate] end.

Definition thin_data (t : nd) (d : pdir) : res nd :=
  match d with
  | D2 dim idx =>
    do n <- size t dim;
    if Nat.eqb n (length idx) then Ok t else if Nat.ltb (length idx) n then index_select t dim idx else Raise AssertionError
  | D4 dim idx v4 v2 =>
    do sv <- view t v4; do n <- size t dim;
    do q <- (if Nat.eqb n (length idx) then Ok t else index_select sv dim idx);
    view q v2
  end.
Lemma thin_param_data junk opt p d p' : thin_param junk opt p d = Ok p' -> thin_data (p_data p) d = Ok (p_data p').
Proof.
  intro H. destruct d as [dim idx|dim idx v4 v2]; unfold thin_param in H; unfold thin_data.
  - inv_ok H. cbn [bind]. inv_ok H. destruct (p_grad p) as [gr|].
    + inv_ok H. destruct (Nat.eqb x1 (length idx)); [injection H as <-; auto|]. inv_ok H. inv_ok H. inv_ok H. injection H as <-. auto.
    + injection H as <-. auto.
  - inv_ok H. cbn [bind]. inv_ok H. cbn [bind]. inv_ok H. rename x1 into q.
    assert (Q : (if Nat.eqb x0 (length idx) then Ok (p_data p) else index_select x dim idx) = Ok (p_data q)).
    { destruct (Nat.eqb x0 (length idx)); [injection E1 as <-; auto|]. inv_ok E1. destruct (p_grad p) as [gr|]; [|injection E1 as <-; auto].
      inv_ok E1. inv_ok E1. destruct (Nat.eqb x3 (length idx)); [injection E1 as <-; auto|]. inv_ok E1. inv_ok E1. inv_ok E1. injection E1 as <-. auto. }
    rewrite Q. cbn [bind]. inv_ok H. destruct (p_grad q) as [gr|]; [inv_ok H|]; injection H as <-; auto.
Qed.
(** without a gradient the data decides *)
Lemma thin_param_plain junk opt p d t : p_grad p = None -> thin_data (p_data p) d = Ok t -> thin_param junk opt p d = Ok (mkParam t None (p_tracked p) (p_mom p)).
Proof.
  intros G H. destruct d as [dim idx|dim idx v4 v2]; unfold thin_data in H; unfold thin_param; rewrite G.
  - inv_ok H. cbn [bind]. rewrite H. reflexivity.
  - inv_ok H. cbn [bind]. inv_ok H. cbn [bind]. destruct (Nat.eqb x0 (length idx)) eqn:E2; cbn [bind] in *.
    + rewrite H. cbn [bind]. rewrite G. reflexivity.
    + inv_ok H. cbn [bind p_data p_grad p_tracked p_mom]. rewrite H. reflexivity.
Qed.

Definition dirs_of (r : recipe) (k : pname) : list pdir := match pget (r_params r) k with Some ds => ds | None => [] end.
Lemma exec_param_data junk opt loaded params masks k ds params' masks' :
  exec_param junk opt loaded (params, masks) (k, ds) = Ok (params', masks') ->
  (forall k', k' <> k -> pget params' k' = pget params k') /\ exists p p', pget params k = Some p /\ pget params' k = Some p' /\ foldM thin_data ds (p_data p) = Ok (p_data p').
Proof.
  unfold exec_param. cbn [fst snd]. destruct (pget params k) as [p0|] eqn:Ek; [|discriminate].
  revert params masks p0 Ek. induction ds as [|d ds IH]; intros params masks p0 Ek H.
  - simpl in H. injection H as <- <-. split; auto. exists p0, p0. auto.
  - cbn [foldM fst snd] in H. rewrite Ek in H. inv_ok H. inv_ok E. inv_ok E. injection E as <-. rename x0 into p1. cbn [fst snd] in *.
    destruct (IH _ _ p1 (pget_pset_same _ _ _) H) as (O & p & p' & Hp & Hp' & F). injection Hp as <-.
    split; [intros k' N; rewrite O by auto; apply pget_pset_other; auto|]. exists p0, p'. split; auto. split; auto. cbn [foldM]. rewrite (thin_param_data _ _ _ _ _ E0). cbn [bind]. auto.
Qed.
Lemma exec_params_data junk opt loaded l : forall params masks params' masks', NoDup (map fst l) ->
  foldM (exec_param junk opt loaded) l (params, masks) = Ok (params', masks') ->
  (forall k, ~ In k (map fst l) -> pget params' k = pget params k) /\ (forall k ds, In (k, ds) l -> exists p p', pget params k = Some p /\ pget params' k = Some p' /\ foldM thin_data ds (p_data p) = Ok (p_data p')).
Proof.
  induction l as [|[k ds] l IH]; intros params masks params' masks' N H.
  - simpl in H. injection H as <- <-. split; auto. intros ? ? [].
  - inversion N; subst. cbn [foldM] in H. inv_ok H. destruct x as [ps1 ms1]. destruct (exec_param_data _ _ _ _ _ _ _ _ _ E) as (O1 & p & p' & Hp & Hp' & F). cbn [fst] in *.
    destruct (IH _ _ _ _ H3 H) as (O & R). split.
    + intros k' I. rewrite O by (intro; apply I; right; auto). apply O1. intros ->. apply I. left; auto.
    + intros k' ds' [I|I].
      * injection I as <- <-. exists p, p'. split; auto. split; auto. rewrite O; auto.
      * destruct (R k' ds' I) as (q & q' & Hq & Hq' & Fq). exists q, q'. split; auto. rewrite <- O1; auto. intros ->. apply H2. apply in_map_iff. exists (k, ds'). auto.
Qed.
Lemma exec_recipe_data junk opt loaded m masks r m' masks' : NoDup (map fst (r_params r)) -> exec_recipe junk opt loaded m masks r = Ok (m', masks') ->
  exec_modules (ms_mods m) r = Ok (ms_mods m') /\ forall k, match pget (ms_params m) k with
            | Some p => exists p', pget (ms_params m') k = Some p' /\ foldM thin_data (dirs_of r k) (p_data p) = Ok (p_data p')
            | None => pget (ms_params m') k = None
            end.
Proof.
  intros N H. unfold exec_recipe in H. inv_ok H. rename x into mods'. destruct (r_params r) as [|e0 l0] eqn:El; [discriminate|]. rewrite <- El in *. clear e0 l0 El.
  inv_ok H. injection H as <- <-. destruct x as [ps ms]. cbn [ms_mods ms_params fst]. split; auto.
  destruct (exec_params_data _ _ _ _ _ _ _ _ N E0) as (O & R). intro k. unfold dirs_of. destruct (pget (r_params r) k) as [ds|] eqn:Ed.
  - destruct (R k ds (pget_in _ _ _ Ed)) as (p & p' & Hp & Hp' & F). rewrite Hp. exists p'. auto.
  - apply pget_none in Ed. rewrite <- (O k Ed). destruct (pget ps k) as [p|] eqn:Hp; auto. exists p. auto.
Qed.

(** * Selections along dimensions *)
Lemma data_cut t ds : wf_nd t -> good_dirs (nd_shape t) ds -> foldM thin_data ds t = Ok (cut (nd_shape t) ds (nd_data t)).
Proof.
  intros W. pose (p := mkParam t None false None). assert (GP : good_param None p) by (split; [exact W|split; intros; discriminate]).
  induction ds as [|d ds IH] using rev_ind; intro G.
  - simpl. rewrite cut_self; auto.
  - rewrite foldM_app, IH by (apply good_dirs_app in G; tauto). cbn [bind foldM].
    pose proof (thin_param_cut (fun _ => 0%Q) None p ds d GP G) as T. apply thin_param_data in T. cbn [cut_param p_data p] in T. rewrite T. reflexivity.
Qed.
(** the directives [ds] keep [nth k sels] along every dimension [k] *)
Definition dirs_match (sh : list nat) (ds : list pdir) (sels : list (list nat)) : Prop :=
  NoDup ds /\ length sels = length sh /\ (forall k, k < length sh -> index_set (nth k sh 0) (nth k sels [])) /\ (forall d, In d ds -> exists k, k < length sh /\ d = D2 k (nth k sels [])) /\ (forall k, k < length sh -> nth k sels [] = seq 0 (nth k sh 0) \/ In (D2 k (nth k sels [])) ds).
Lemma dirs_match_good sh ds sels : dirs_match sh ds sels -> good_dirs sh ds /\ Ks sh ds = sels.
Proof.
  intros (N & L & IX & A & B).
  assert (ND : NoDup (map dir_dim ds)).
  { clear B. revert A. induction N as [|d ds I N IH]; intro A; simpl; constructor; [|apply IH; intros; apply A; right; auto].
    intro J. apply in_map_iff in J as (d' & E & J). destruct (A d) as (k & _ & ->); [left; auto|]. destruct (A d') as (k' & _ & ->); [right; auto|]. simpl in E. subst. auto. }
  assert (G : good_dirs sh ds). { split; auto. intros d I. destruct (A d I) as (k & Lk & ->). cbn [is_d2 dir_dim dir_idx]. auto. }
  split; auto. apply (list_eq_nth []); [rewrite Ks_length; auto|]. intros k Lk. rewrite Ks_length in Lk. rewrite Ks_nth by auto.
  destruct (selection ds k) as [l|] eqn:E.
  - apply selection_some in E as (d & I & E1 & E2). destruct (A d I) as (k' & _ & ->). cbn [dir_dim dir_idx] in *. subst. auto.
  - destruct (B k Lk) as [E'|I]; auto. exfalso. clear -E I. induction ds as [|[k' i|k' i v w] ds IH]; simpl in *; auto.
    + destruct (Nat.eqb_spec k' k); [discriminate|]. destruct I as [[= -> _]|I]; auto.
    + destruct I as [I|I]; [discriminate|auto].
Qed.
Lemma data_match t ds sels : wf_nd t -> dirs_match (nd_shape t) ds sels -> foldM thin_data ds t = Ok (mkND (map (@length nat) sels) (sel_all (nd_shape t) sels (nd_data t))).
Proof. intros W M. apply dirs_match_good in M as [G E]. rewrite data_cut by auto. unfold cut. rewrite E. reflexivity. Qed.

(** vectors *)
Lemma sel_vec n K (d : list Q) : length d = n -> (forall j, In j K -> j < n) -> sel_all [n] [K] d = map (fun o => nth o d 0%Q) K.
Proof.
  intros L H. cbn [sel_all]. induction K as [|o K IH]; auto. cbn [flat_map map]. rewrite IH by (intros; apply H; right; auto). rewrite <- app_comm_cons || idtac.
  assert (Lo : o < length d) by (rewrite L; apply H; left; auto).
  assert (E : slice (numel []) o d = [nth o d 0%Q]).
  { unfold slice. change (numel []) with 1. rewrite Nat.mul_1_r. clear -Lo. revert o Lo. induction d as [|a d IH]; intros [|o] L; simpl in *; try lia; auto. apply IH. lia. }
  rewrite E. reflexivity.
Qed.
Lemma vec_match n t ds K : of_shape [n] t -> dirs_match [n] ds [K] -> exists t', foldM thin_data ds t = Ok t' /\ cut_vec K t t'.
Proof.
  intros (S & W) M. pose proof M as (_ & _ & IX & _). pose proof (IX 0 ltac:(simpl; lia)) as I0. cbn [nth] in I0. rewrite <- S in M. eexists. split; [apply data_match; eauto|].
  unfold cut_vec. cbn [nd_data]. unfold wf_nd in W. rewrite S in *. apply (sel_vec n); [rewrite W; simpl; lia|]. intros. eapply index_set_lt; eauto.
Qed.
(** linear layers *)
Lemma lin_match O_ C h K t : of_shape [O_; C * (h * h)] t -> 0 < h -> 0 < C -> index_set C K -> K <> seq 0 C ->
  foldM thin_data [D4 1 K [O_; C; h; h] [O_; h * h * length K]] t = Ok (lin_cut O_ C (h * h) K t).
Proof.
  intros (S & W) Hh HC IX NK. unfold wf_nd in W. rewrite S in W. cbn [foldM thin_data].
  assert (Len : numel [O_; C * (h * h)] = O_ * (C * (h * h))) by (simpl; lia). rewrite Len in W.
  assert (Len4 : numel [O_; C; h; h] = O_ * (C * (h * h))) by (simpl; lia).
  unfold view at 1. rewrite W, Len4, Nat.eqb_refl. cbn [bind]. unfold size. rewrite S. cbn [nth_error bind].
  assert (LK : length K < C). { pose proof (index_set_le _ _ IX). destruct (Nat.eq_dec (length K) C); [|lia]. exfalso. apply NK. apply index_set_full; auto. }
  assert (0 < h * h) by nia. destruct (Nat.eqb_spec (C * (h * h)) (length K)) as [E|_]; [nia|].
  unfold index_select, size. cbn [nd_shape nth_error bind]. replace (forallb (fun j => j <? C) K) with true by (symmetry; apply forallb_forall; intros; apply Nat.ltb_lt; eapply index_set_lt; eauto).
  cbn [bind set_nth nd_shape nd_data]. rewrite sel_lin. unfold view. cbn [nd_data].
  rewrite (flat_map_length' _ (length K * (h * h))), seq_length.
  - replace (numel [O_; h * h * length K]) with (O_ * (length K * (h * h))) by (simpl; lia). rewrite Nat.eqb_refl. reflexivity.
  - intros o Ho. apply in_seq in Ho. apply flat_map_length'. intros c Hc. apply (slice_len_le C); [|eapply index_set_lt; eauto]. apply (slice_len_le O_); [auto|lia].
Qed.

(** * Modules *)
Definition attr_after (r : recipe) (x : module) (n a : string) (o : option attr) : Prop :=
  (forall v, mhas r n a v -> o = new_attr (m_attrs x) (a, v)) /\ ((forall v, ~ mhas r n a v) -> o = dget (m_attrs x) a).
Lemma exec_modules_after m r wanted mwanted mods' : sound wanted mwanted r ->
  (forall n a v, mhas r n a v -> exists x, dget (ms_mods m) n = Some x /\ good_mdir (m_attrs x) (a, v)) ->
  exec_modules (ms_mods m) r = Ok mods' ->
  forall n x, dget (ms_mods m) n = Some x -> exists x', dget mods' n = Some x' /\ forall a, attr_after r x n a (dget (m_attrs x') a).
Proof.
  intros S G H n x Hx. rewrite exec_modules_r in H.
  destruct (exec_modules_good (r_mods r) (ms_mods m)) as (mods1 & E & O & R); [apply S| |].
  { intros [n' md] I. apply dget_nodup in I; [|apply S]. pose proof (so_mne _ _ _ S _ _ I) as NE. destruct md as [|[a v] md1]; [congruence|]. set (md0 := (a, v) :: md1) in *.
    assert (M : mhas r n' a v). { exists md0. split; auto. simpl. rewrite String.eqb_refl. auto. }
    destruct (G n' a v M) as (y & Hy & _). exists y. cbn [fst snd]. split; auto. split; [apply (so_mods _ _ _ S _ _ I)|].
    intros [a' v'] J. destruct (G n' a' v') as (y' & Hy' & Gy'); [exists md0; split; auto; apply dget_nodup; auto; apply (so_mods _ _ _ S _ _ I)|]. congruence. }
  rewrite E in H. injection H as <-. destruct (dget (r_mods r) n) as [md|] eqn:Em.
  - destruct (R n md x (dget_In _ _ _ Em) Hx) as (x' & Hx' & _ & A & B). exists x'. split; auto. intro a. split.
    + intros v (md' & Hm & Hv). rewrite Em in Hm. injection Hm as <-. apply (A (a, v)). apply dget_In; auto.
    + intros N. apply B. intro I. apply in_map_iff in I as ([a' v] & E' & I). cbn [fst] in E'. subst a'. apply (N v). exists md. split; auto. apply dget_nodup; auto. apply (so_mods _ _ _ S _ _ Em).
  - exists x. split.
    + rewrite O; auto. intro I. apply in_map_iff in I as ([n' md] & E' & I). cbn [fst] in E'. subst n'. apply dget_nodup in I; [|apply S]. congruence.
    + intro a. split; auto. intros v (md & Hm & _). congruence.
Qed.
