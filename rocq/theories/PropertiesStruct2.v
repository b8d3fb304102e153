(** Properties C21, C22, C39, C44: leader groups, activation ranking, sparsity, blocks. *)
From Coq Require Import String List ZArith QArith Qabs Qround Bool Arith Lia Lqa Permutation.
From Verif Require Import Base Lists SchedModel PrunerModel PrunerProofs StructModel StructSpec StructProofs StructRankProofs PropertiesStruct.
Import ListNotations.

(* ------------------------------------------------------------------------- *)
(** * C21: leader-dependent groups *)
Definition supported (c : lp_cfg) (k : lcall) : Prop := In (lc_name k) (lp_weights c).

Lemma supported_b c k : supported c k -> existsb (String.eqb (lc_name k)) (lp_weights c) = true.
Proof. intro H. apply existsb_exists. exists (lc_name k). split; auto. apply String.eqb_refl. Qed.

Lemma lstep_out c s k s' : lstep c s k = Ok s' -> exists o, snd s' = (snd s ++ [o])%list.
Proof. unfold lstep. intro H. inv_bind H. injection H as <-. eexists. reflexivity. Qed.

Lemma lrun_outs c h : forall s s', foldM (lstep c) h s = Ok s' -> exists os, snd s' = (snd s ++ os)%list /\ length os = length h.
Proof.
  induction h as [|k h IH]; intros s s' H; simpl in H.
  - injection H as <-. exists []. rewrite app_nil_r. auto.
  - inv_bind H. destruct (lstep_out _ _ _ _ H0) as [o Ho]. destruct (IH _ _ H) as (os & E1 & E2).
    exists (o :: os). split; [rewrite E1, Ho, <- app_assoc; auto|simpl; auto].
Qed.

(** the leader's map is (re)computed: what the step does *)
Lemma lstep_new c s k s' : lp_leader c = true -> supported c k -> oq_eqb (lc_target k) (ls_last (fst s)) = false ->
  lstep c s k = Ok s' ->
  exists ld tl lw b o r2, lp_weights c = ld :: tl /\ dget (lc_weights k) ld = Some lw /\
    prune_group c (lc_noise k) (lc_target k) lw false None = Ok (Some b, o) /\
    prune_group c (lc_noise k) (lc_target k) (lc_param k) true (Some b) = Ok r2 /\
    s' = (mkLpSt (Some b) (Some (lc_target k)), (snd s ++ [snd r2])%list).
Proof.
  intros Hl Hs Ho H. unfold lstep, set_by_target in H. rewrite (supported_b _ _ Hs), Hl, Ho in H. cbn [andb negb] in H.
  inv_bind H. injection H as <-. inv_bind H0.
  destruct (lp_weights c) as [|ld tl] eqn:Ew; [discriminate|].
  destruct (dget (lc_weights k) ld) as [lw|] eqn:El; [|discriminate].
  inv_bind H. injection H as <-. cbn [ls_map] in H0. destruct x1 as [[b|] o].
  - cbn [fst] in *. inv_bind H0. injection H0 as <-. exists ld, tl, lw, b, o, x0. repeat split; auto.
  - discriminate.
Qed.

Lemma lstep_same c s k s' b : lp_leader c = true -> supported c k ->
  oq_eqb (lc_target k) (ls_last (fst s)) = true -> ls_map (fst s) = Some b ->
  lstep c s k = Ok s' ->
  exists r2, prune_group c (lc_noise k) (lc_target k) (lc_param k) true (Some b) = Ok r2 /\
    s' = (fst s, (snd s ++ [snd r2])%list).
Proof.
  intros Hl Hs Ho Hm H. unfold lstep, set_by_target in H. rewrite (supported_b _ _ Hs), Hl, Ho in H. cbn [andb negb bind] in H.
  rewrite Hm in H. inv_bind H. injection H as <-. inv_bind H0. injection H0 as <-. exists x0. auto.
Qed.

Lemma lrun_last c h : lp_leader c = true -> (forall k, In k h -> supported c k) ->
  forall s s', foldM (lstep c) h s = Ok s' ->
  (forall t, ls_last (fst s) = Some t -> exists b, ls_map (fst s) = Some b) ->
  (forall t, ls_last (fst s') = Some t -> exists b, ls_map (fst s') = Some b) /\
  match rev h with [] => s' = s | k :: _ => exists t, ls_last (fst s') = Some t /\ lc_target k == t end.
Proof.
  intros Hl. induction h as [|k h IH] using rev_ind; intros Hs s s' H Hi.
  - simpl in *. injection H as <-. auto.
  - rewrite foldM_app in H. inv_bind H. simpl in H. inv_bind H. injection H as <-.
    destruct (IH (fun k Hk => Hs k (in_or_app _ _ _ (or_introl Hk))) _ _ H0 Hi) as [IH1 _].
    assert (supported c k) as Hk by (apply Hs; apply in_or_app; right; left; auto).
    rewrite rev_app_distr. simpl.
    destruct (oq_eqb (lc_target k) (ls_last (fst x))) eqn:E.
    + destruct (ls_last (fst x)) as [t|] eqn:El; [|discriminate]. destruct (IH1 t eq_refl) as [b Hb].
      rewrite <- El in E. destruct (lstep_same c x k x0 b Hl Hk E Hb H1) as (r2 & _ & ->). cbn [fst].
      split; [intros t' _; eauto|]. exists t. split; auto. rewrite El in E. simpl in E. apply Qeq_bool_iff in E. auto.
    + destruct (lstep_new c x k x0 Hl Hk E H1) as (ld & tl & lw & b & o & r2 & _ & _ & _ & _ & ->). cbn [fst ls_last ls_map].
      split; [intros; eauto|]. exists (lc_target k). split; auto. reflexivity.
Qed.

(** For a whole run of calls with the same target (h2), in any order over the group's
    parameters, one map is used: the one computed from the leader's weights as they were at the
    first of these calls. *)
Theorem C21_leader_map_shared :
  forall c h1 k0 h2 st outs,
  lp_leader c = true -> (forall k, In k (h1 ++ k0 :: h2) -> supported c k) ->
  (forall k, In k h2 -> lc_target k == lc_target k0) ->
  (forall h k, h1 = (h ++ [k])%list -> ~ lc_target k == lc_target k0) ->
  lcalls c (h1 ++ k0 :: h2) = Ok (st, outs) ->
  exists ld tl lw b o, lp_weights c = ld :: tl /\ dget (lc_weights k0) ld = Some lw /\
    prune_group c (lc_noise k0) (lc_target k0) lw false None = Ok (Some b, o) /\
    forall i k, nth_error (k0 :: h2) i = Some k ->
      exists r, prune_group c (lc_noise k) (lc_target k) (lc_param k) true (Some b) = Ok r /\
                nth_error outs (length h1 + i) = Some (snd r).
Proof.
  intros c h1 k0 h2 st outs Hl Hs Ht Hlast H. unfold lcalls in H. rewrite foldM_app in H. inv_bind H.
  destruct (lrun_last c h1 Hl (fun k Hk => Hs k (in_or_app _ _ _ (or_introl Hk))) _ _ H0 ltac:(discriminate)) as [_ Hr].
  assert (Ho : oq_eqb (lc_target k0) (ls_last (fst x)) = false).
  { destruct (rev h1) as [|k r] eqn:Er.
    - subst x. reflexivity.
    - destruct Hr as (t & E1 & E2). rewrite E1. simpl.
      destruct (Qeq_bool (lc_target k0) t) eqn:E; auto. exfalso. apply Qeq_bool_iff in E.
      apply (Hlast (rev r) k); [|rewrite E2, E; reflexivity].
      rewrite <- (rev_involutive h1), Er. reflexivity. }
  destruct (lrun_outs c h1 _ _ H0) as (os & E1 & E2). simpl in E1.
  simpl in H. inv_bind H.
  destruct (lstep_new c x k0 x0 Hl (Hs k0 ltac:(apply in_or_app; right; left; auto)) Ho H1)
    as (ld & tl & lw & b & o & r2 & Ew & El & Ep & Ep2 & ->).
  exists ld, tl, lw, b, o. split; auto. split; auto. split; auto.
  assert (Hs2 : forall k, In k h2 -> supported c k) by (intros k Hk; apply Hs; apply in_or_app; right; right; auto).
  assert (K : forall h s s', (forall k, In k h -> supported c k /\ lc_target k == lc_target k0) ->
      fst s = mkLpSt (Some b) (Some (lc_target k0)) -> foldM (lstep c) h s = Ok s' ->
      exists os, snd s' = (snd s ++ os)%list /\ forall i k, nth_error h i = Some k ->
        exists r, prune_group c (lc_noise k) (lc_target k) (lc_param k) true (Some b) = Ok r /\ nth_error os i = Some (snd r)).
  { clear -Hl. induction h as [|k h IH]; intros s s' Hk E H; simpl in H.
    - injection H as <-. exists []. rewrite app_nil_r. split; auto. intros [|i]; discriminate.
    - inv_bind H. destruct (Hk k (or_introl eq_refl)) as [Hsk Htk].
      destruct (lstep_same c s k x b Hl Hsk) as (r2 & Ep & ->); auto.
      { rewrite E. simpl. apply Qeq_bool_iff. auto. }
      { rewrite E. auto. }
      destruct (IH (fst s, (snd s ++ [snd r2])%list) s' (fun k Hk' => Hk k (or_intror Hk')) E H) as (os & E1 & E2). cbn [snd] in E1.
      exists (snd r2 :: os). split; [rewrite E1, <- app_assoc; auto|].
      intros [|i] k' Hk'; simpl in *.
      + injection Hk' as <-. eauto.
      + apply E2; auto. }
  destruct (K h2 (mkLpSt (Some b) (Some (lc_target k0)), (snd x ++ [snd r2])%list) (st, outs) (fun k Hk => conj (Hs2 k Hk) (Ht k Hk)) eq_refl H) as (os2 & F1 & F2).
  simpl in F1. intros i k Hi.
  assert (Ht2 : outs = (os ++ (snd r2 :: os2))%list) by (rewrite F1, E1, <- app_assoc; auto).
  rewrite Ht2, nth_error_app2 by lia. replace (length h1 + i - length os)%nat with i by lia.
  destruct i as [|i]; simpl in Hi.
  - injection Hi as <-. exists r2. auto.
  - destruct (F2 i k Hi) as (r & G1 & G2). exists r. auto.
Qed.

(** Applying the shared map: every dependent convolution loses the same filters (or channels). *)
Theorem C21_same_structures :
  forall c noise f b p F C H W m o,
  conv_shape p F C H W -> ~ f == 0 -> prune_group c noise f p true (Some b) = Ok (o, Some m) ->
  (lp_group c = TFilters \/ lp_group c = T3D -> length b = F -> conv_shape m F C H W /\
     forall fi ch h w, (fi < F)%nat -> (ch < C)%nat -> (h < H)%nat -> (w < W)%nat -> at4 m C H W fi ch h w = nth fi b 0) /\
  (lp_group c = TChannels \/ lp_group c = TRows -> length b = C -> conv_shape m F C H W /\
     forall fi ch h w, (fi < F)%nat -> (ch < C)%nat -> (h < H)%nat -> (w < W)%nat -> at4 m C H W fi ch h w = nth ch b 0).
Proof.
  intros c noise f b p F C H W m o Hc Hf Hp. unfold prune_group in Hp.
  destruct (Qeq_bool f 0) eqn:E; [apply Qeq_bool_iff in E; contradiction|].
  destruct (C18_expand_conv p F C H W Hc) as (E1 & E2 & _). split; intros Hg Hb.
  - destruct (E1 TFilters b (or_introl eq_refl) Hb) as (m' & A & B & D).
    assert (rank_and_prune_filters f p true (Some b) (lp_mag c) noise (lp_size c) Qfloor = Ok (Some b, Some m')) as K.
    { unfold rank_and_prune_filters, ndim. destruct Hc as (Hsh & _). rewrite Hsh. cbn [length Nat.eqb orb bind]. rewrite A. reflexivity. }
    destruct Hg as [Hg|Hg]; rewrite Hg, K in Hp; injection Hp as <- <-; auto.
  - destruct (E2 b Hb) as (m' & A & B & D).
    assert (rank_and_prune_channels f p true (Some b) (lp_mag c) noise (lp_size c) Qfloor = Ok (Some b, Some m')) as K.
    { unfold rank_and_prune_channels. cbn [bind]. rewrite A. reflexivity. }
    destruct Hg as [Hg|Hg]; rewrite Hg, K in Hp; injection Hp as <- <-; auto.
Qed.

(** Findings: with a leader a target of 0, or one so small that nothing would be pruned, is an
    AssertionError; and the map is not recomputed when the leader's weights change while the
    target stays the same. *)
Theorem C21_leader_no_map_refuted :
  forall c st k, lp_leader c = true -> supported c k -> oq_eqb (lc_target k) (ls_last st) = false ->
  (exists ld tl lw, lp_weights c = ld :: tl /\ dget (lc_weights k) ld = Some lw /\
     prune_group c (lc_noise k) (lc_target k) lw false None = Ok (None, None)) ->
  set_by_target c (lc_noise k) st (lc_weights k) (lc_name k) (lc_param k) (lc_target k) = Raise AssertionError.
Proof.
  intros c st k Hl Hs Ho (ld & tl & lw & E1 & E2 & E3). unfold set_by_target.
  rewrite (supported_b _ _ Hs), Hl, Ho, E1, E2, E3. reflexivity.
Qed.

Module Ex21.
Definition c := mkLp TFilters ["a"; "b"]%string true 1 [] l1_norm.
Definition wa := mkND [2; 1; 1; 1]%nat [1; 5].
Definition wa' := mkND [2; 1; 1; 1]%nat [7; 5].
Definition wb := mkND [2; 1; 1; 2]%nat [9; 9; 1; 1].
Definition k1 := mkCall [("a"%string, wa); ("b"%string, wb)] "b" wb (1 # 2) None.
Definition k2 := mkCall [("a"%string, wa'); ("b"%string, wb)] "a" wa' (1 # 2) None.
Definition k0 := mkCall [("a"%string, wa); ("b"%string, wb)] "a" wa 0 None.
End Ex21.

Theorem C21_stale_map_refuted :
  exists st m1 m2, lcalls Ex21.c [Ex21.k1; Ex21.k2] = Ok (st, [Some m1; Some m2]) /\
    nd_data m1 = [0; 0; 1; 1] /\ nd_data m2 = [0; 1] /\
    (* whereas the leader's weights at the second call rank the other filter lowest *)
    prune_group Ex21.c None (1 # 2) Ex21.wa' false None = Ok (Some [1; 0], None) /\
    lcalls Ex21.c [Ex21.k0] = Raise AssertionError.
Proof. eexists. eexists. eexists. vm_compute. auto. Qed.

(* ------------------------------------------------------------------------- *)
(** * C22: rankings of filters by a given order *)
Lemma existsb_In i l : existsb (Nat.eqb i) l = true <-> In i l.
Proof.
  rewrite existsb_exists. split.
  - intros (x & Hx & E). apply Nat.eqb_eq in E. subst; auto.
  - intro H. exists i. split; auto. apply Nat.eqb_refl.
Qed.

Lemma count_in n l : NoDup l -> (forall i, In i l -> (i < n)%nat) ->
  count_below n (fun i => existsb (Nat.eqb i) l) = length l.
Proof.
  intros Hnd Hin. unfold count_below, countb. apply Permutation_length. apply NoDup_Permutation; auto.
  - apply NoDup_filter. apply seq_NoDup.
  - intro x. rewrite filter_In, existsb_In, in_seq. split; [tauto|]. intro Hx. split; auto. specialize (Hin x Hx). lia.
Qed.

Lemma is_order_length n order : is_order n order -> length order = n.
Proof.
  intros [Hnd Hin]. rewrite <- (seq_length n 0). apply Permutation_length. apply NoDup_Permutation; auto.
  - apply seq_NoDup.
  - intro x. rewrite Hin, in_seq. lia.
Qed.

Lemma NoDup_firstn {A} k (l : list A) : NoDup l -> NoDup (firstn k l).
Proof.
  revert k; induction l as [|a l IH]; intros [|k] H; simpl; try constructor; inversion H; subst; auto.
  intro K. apply H2. rewrite <- (firstn_skipn k l). apply in_or_app. auto.
Qed.

(** The filters kept are the first n - k of the order. *)
Theorem C22_prune_by_order :
  forall order f p n C H W, conv_shape p n C H W -> is_order n order -> 0 <= f -> f <= 1 ->
  let k := Z.to_nat (Qfloor (f * Zq (Z.of_nat n))) in
  (k = 0%nat -> prune_by_order order f p None = Ok (None, None)) /\
  ((1 <= k)%nat -> exists b m, prune_by_order order f p None = Ok (Some b, Some m) /\ conv_shape m n C H W /\
     length b = n /\ zero_one b /\
     (forall fi ch h w, (fi < n)%nat -> (ch < C)%nat -> (h < H)%nat -> (w < W)%nat -> at4 m C H W fi ch h w = nth fi b 0) /\
     count_below n (off b) = k /\
     (forall i, (i < n)%nat -> (off b i = false <-> In i (firstn (n - k) order)))).
Proof.
  intros order f p n C H W Hc Ho H0 H1 k. pose proof Hc as (Hsh & Hok & Hpos).
  assert (Hnn : 0 <= f * Zq (Z.of_nat n)) by (apply Qmult_le_0_compat; auto; apply Zq_nonneg; lia).
  assert (Hfl : (0 <= Qfloor (f * Zq (Z.of_nat n)))%Z) by (change 0%Z with (Qfloor 0); apply Qfloor_resp_le; auto).
  assert (Hkn : (k <= n)%nat).
  { unfold k. destruct (num_structs_bounds n 1 f Qfloor n ltac:(lia) ltac:(lia) ltac:(lia) rounding_floor H0 H1) as [B _].
    rewrite num_structs_one in B by (auto; lia). lia. }
  unfold prune_by_order. rewrite Hsh. rewrite py_int_nonneg by auto. split; intro Hk.
  - assert (Qfloor (f * Zq (Z.of_nat n)) = 0)%Z as -> by lia. destruct (Qeq_bool f 0); auto.
  - destruct (Qeq_bool f 0) eqn:Ef.
    { exfalso. apply Qeq_bool_iff in Ef. assert (Qfloor (f * Zq (Z.of_nat n)) <= 0)%Z; [|lia].
      change 0%Z with (Qfloor 0). apply Qfloor_resp_le. rewrite Ef. lra. }
    destruct (Z.eqb_spec (Qfloor (f * Zq (Z.of_nat n))) 0); [lia|].
    unfold mask_from_filter_order. fold k. unfold drop_last. rewrite (is_order_length n order Ho).
    set (L := firstn (n - k) order). set (b := tab n (fun i => if existsb (Nat.eqb i) L then 1 else 0)).
    assert (Hb : length b = n) by apply tab_length.
    destruct (C18_expand_conv p n C H W Hc) as (E1 & _ & _). destruct (E1 TFilters b (or_introl eq_refl) Hb) as (m & A & B & D).
    rewrite A. cbn [bind fst snd]. exists b, m. split; auto. split; auto. split; auto.
    assert (Hoff : forall i, (i < n)%nat -> off b i = negb (existsb (Nat.eqb i) L)).
    { intros i Hi. unfold off, b. rewrite tab_nth by auto. destruct (existsb (Nat.eqb i) L); reflexivity. }
    split; [|split; [auto|split]].
    + intros x Hx. unfold b, tab in Hx. apply in_map_iff in Hx. destruct Hx as (i & <- & _). destruct (existsb (Nat.eqb i) L); auto.
    + assert (Hl : length L = (n - k)%nat) by (unfold L; rewrite firstn_length, (is_order_length n order Ho); lia).
      destruct Ho as [Hnd Hin].
      assert (Hcnt : count_below n (fun i => existsb (Nat.eqb i) L) = (n - k)%nat).
      { rewrite count_in; auto.
        - apply NoDup_firstn; auto.
        - intros i Hi. apply Hin. unfold L in Hi. rewrite <- (firstn_skipn (n - k) order). apply in_or_app; auto. }
      rewrite (count_below_ext n (off b) (fun i => negb (existsb (Nat.eqb i) L)) Hoff).
      pose proof (countb_negb (fun i => existsb (Nat.eqb i) L) (seq 0 n)) as Hng. rewrite seq_length in Hng.
      unfold count_below in *. lia.
    + intros i Hi. rewrite Hoff by auto. rewrite negb_false_iff. apply existsb_In.
Qed.

(** When the order is increasing in a criterion, the filters with the LARGEST criterion are the
    ones removed: right for APoZ (share of zero activations); for the mean activation this is the
    opposite of the documentation (finding).  The gradient pruner orders by minus the weighted
    gradient, so it removes the smallest ones. *)
Theorem C22_removes_largest :
  forall order crit f p n C H W b m, conv_shape p n C H W -> is_order n order -> increasing crit order ->
  0 <= f -> f <= 1 -> prune_by_order order f p None = Ok (Some b, Some m) ->
  forall i j, (i < n)%nat -> (j < n)%nat -> off b i = true -> off b j = false -> crit j <= crit i.
Proof.
  intros order crit f p n C H W b m Hc Ho Hinc H0 H1 Hp i j Hi Hj Hri Hrj.
  destruct (C22_prune_by_order order f p n C H W Hc Ho H0 H1) as [P0 P1].
  set (k := Z.to_nat (Qfloor (f * Zq (Z.of_nat n)))) in *.
  destruct (Nat.eq_dec k 0) as [E|E]; [rewrite (P0 E) in Hp; discriminate|].
  destruct (P1 ltac:(lia)) as (b' & m' & E1 & _ & _ & _ & _ & _ & E2). rewrite E1 in Hp. injection Hp as -> ->.
  apply (E2 j Hj) in Hrj.
  assert (~ In i (firstn (n - k) order)) as Hni by (intro K; apply (E2 i Hi) in K; congruence).
  assert (Hl := is_order_length n order Ho). destruct Ho as [_ Hin].
  assert (In i order) as Hio by (apply Hin; auto).
  rewrite <- (firstn_skipn (n - k) order) in Hio. apply in_app_or in Hio. destruct Hio as [|Hio]; [contradiction|].
  apply In_nth with (d := 0%nat) in Hrj. destruct Hrj as (pj & Hpj & Ej).
  apply In_nth with (d := 0%nat) in Hio. destruct Hio as (pi & Hpi & Ei).
  rewrite firstn_length in Hpj. rewrite skipn_length in Hpi.
  rewrite nth_firstn in Ej by lia. rewrite nth_skipn in Ei.
  rewrite <- Ei, <- Ej. apply Hinc; lia.
Qed.

(** Finding: mean-activation ranking keeps the dead filter and removes the active one. *)
Theorem C22_mean_activation_refuted :
  let mean := fun i : nat => nth i [0; 10] 0 in
  let p := mkND [2; 1; 1; 1]%nat [1; 1] in
  is_order 2 [0; 1]%nat /\ increasing mean [0; 1]%nat /\
  exists b m, prune_by_order [0; 1]%nat (1 # 2) p None = Ok (Some b, Some m) /\ off b 1 = true /\ off b 0 = false.
Proof.
  cbv zeta. split; [|split].
  - split; [repeat constructor; simpl; intuition lia|]. intro i. simpl. intuition lia.
  - intros i j Hij Hj. simpl in Hj. destruct i as [|[|i]], j as [|[|j]]; simpl; try lia; lra.
  - eexists. eexists. split; [vm_compute; reflexivity|]. split; reflexivity.
Qed.

(** Bernoulli: a kept filter's weights are scaled by n / (number kept). *)
Theorem C22_bernoulli_scaling :
  forall draw f p n C H W r, conv_shape p n C H W -> length draw = n -> zero_one draw -> ~ f == 0 ->
  prune_bernoulli draw f p None = Ok r ->
  exists m, snd r = Some m /\ conv_shape m n C H W /\
  forall fi ch h w, (fi < n)%nat -> (ch < C)%nat -> (h < H)%nat -> (w < W)%nat ->
    (off draw fi = true -> at4 m C H W fi ch h w == 0) /\
    (off draw fi = false -> at4 m C H W fi ch h w * qsum draw == Zq (Z.of_nat n)).
Proof.
  intros draw f p n C H W r Hc Hd H01 Hf Hp. pose proof Hc as (Hsh & Hok & Hpos). unfold prune_bernoulli in Hp.
  destruct (Qeq_bool f 0) eqn:E; [apply Qeq_bool_iff in E; contradiction|].
  destruct (C18_expand_conv p n C H W Hc) as (E1 & _ & _). destruct (E1 TFilters draw (or_introl eq_refl) Hd) as (m & A & (B1 & B2 & B3) & D).
  rewrite Hsh in Hp. unfold mask_from_filter_order in Hp. rewrite A in Hp. cbn [bind fst snd] in Hp. injection Hp as <-.
  cbn [snd]. eexists. split; [reflexivity|]. split.
  - split; auto. split; auto. unfold nd_ok in *. cbn [nd_data nd_shape]. rewrite map_length. auto.
  - intros fi ch h w Hfi Hch Hh Hw. unfold at4. cbn [nd_data].
    set (idx := (((fi * C + ch) * H + h) * W + w)%nat).
    assert (Hidx : (idx < length (nd_data m))%nat).
    { unfold nd_ok in B2. rewrite B2, B1. simpl. unfold idx.
      replace (n * (C * (H * (W * 1))))%nat with (n * C * H * W)%nat by ring.
      apply idx_lt; auto. apply idx_lt; auto. apply idx_lt; auto. }
    rewrite nth_indep with (d' := 0 / (qsum draw / Zq (Z.of_nat n))) by (rewrite map_length; auto).
    rewrite (map_nth (fun x => x / (qsum draw / Zq (Z.of_nat n)))).
    pose proof (D fi ch h w Hfi Hch Hh Hw) as Ed. unfold at4 in Ed. fold idx in Ed. rewrite Ed.
    assert (Hin : In (nth fi draw 0) draw) by (apply nth_In; lia).
    assert (Hnz : 0 < Zq (Z.of_nat n)) by (apply Zq_pos; lia).
    unfold off. destruct (H01 _ Hin) as [Ez|Ez]; rewrite Ez in *; split; intro K; try discriminate.
    + unfold Qdiv. ring.
    + assert (0 < qsum draw).
      { clear -Hin H01. induction draw as [|x l IH]; [contradiction|].
        change (qsum (x :: l)) with (x + qsum l).
        assert (0 <= qsum l).
        { clear -H01. assert (forall y, In y l -> y = 0 \/ y = 1) as Hl by (intros; apply H01; right; auto). clear H01.
          induction l as [|y l IH]; [apply Qle_refl|]. change (qsum (y :: l)) with (y + qsum l).
          assert (0 <= qsum l) by (apply IH; intros; apply Hl; right; auto).
          destruct (Hl y (or_introl eq_refl)); subst; lra. }
        destruct Hin as [->|Hin]; [lra|].
        assert (0 < qsum l) by (apply IH; auto; intros y Hy; apply H01; right; auto).
        destruct (H01 x (or_introl eq_refl)); subst; lra. }
      field. split; lra.
Qed.

(* ------------------------------------------------------------------------- *)
(** * C39: density and sparsity *)
Definition frac (a b : nat) : Q := Zq (Z.of_nat a) / Zq (Z.of_nat b).

Lemma one_minus_frac n f : (0 < n)%nat ->
  1 - frac (count_below n (fun i => negb (f i))) n == frac (count_below n f) n.
Proof.
  intro Hn. unfold frac. pose proof (countb_negb f (seq 0 n)) as E. rewrite seq_length in E.
  unfold count_below. rewrite <- E at 2.
  assert (0 < Zq (Z.of_nat n)) by (apply Zq_pos; lia).
  rewrite <- E. rewrite !Nat2Z.inj_add, !Zq_plus. rewrite E in *. field.
  rewrite <- Zq_plus, <- Nat2Z.inj_add, E. lra.
Qed.

Theorem C39_density_sparsity :
  forall l, l <> [] ->
  exists d s, density l = Ok d /\ sparsity l = Ok s /\ d + s == 1 /\ 0 <= d /\ d <= 1 /\ 0 <= s /\ s <= 1 /\
    s == frac (countb (fun x => Qeq_bool x 0) l) (length l).
Proof.
  intros l Hl. assert (Hn : (0 < length l)%nat) by (destruct l; [congruence|simpl; lia]).
  unfold sparsity, density, ratio. destruct (Nat.eqb_spec (length l) 0); [lia|]. cbn [bind].
  eexists. eexists. split; [reflexivity|]. split; [reflexivity|].
  set (a := Zq (Z.of_nat (nonzero l))). set (b := Zq (Z.of_nat (length l))).
  assert (0 < b) by (apply Zq_pos; lia).
  assert (Hz : (countb (fun x => Qeq_bool x 0) l + nonzero l = length l)%nat) by apply countb_negb.
  assert (0 <= a <= b) as [Ha Hb].
  { split; [apply Zq_nonneg; lia|]. apply (proj1 (Zq_le _ _)). lia. }
  assert (0 <= a / b) by (apply Qle_shift_div_l; auto; lra).
  assert (a / b <= 1) by (apply Qle_shift_div_r; auto; lra).
  repeat split; try lra.
  unfold frac. fold b. replace (countb (fun x => Qeq_bool x 0) l) with (length l - nonzero l)%nat by lia.
  rewrite Nat2Z.inj_sub by lia. rewrite Zq_minus. fold a b. field. lra.
Qed.

Theorem C39_empty_tensor : density [] = Raise ZeroDivisionError /\ sparsity [] = Raise ZeroDivisionError.
Proof. split; reflexivity. Qed.

Theorem C39_structure_sparsity :
  forall t F C H W, conv_shape t F C H W ->
  (exists s, sparsity_3D t = Ok s /\ s == frac (count_below F (fun i => all_zero (filter_of t C H W i))) F) /\
  (exists s, sparsity_ch t = Ok s /\ s == frac (count_below C (fun i => all_zero (channel_of t F C H W i))) C) /\
  (exists s, sparsity_2D t = Ok s /\
     s == frac (count_below (F * C) (fun i => all_zero (kernel t C H W (i / C) (i mod C)))) (F * C)).
Proof.
  intros t F C H W (Hsh & Hok & Hpos). split; [|split].
  - unfold sparsity_3D. rewrite Hsh. rewrite (filters_norm_ok t F C H W Hsh Hok Hpos l1_norm 1 F false) by lia. cbn [bind].
    unfold ratio. destruct (Nat.eqb_spec F 0); [lia|]. cbn [bind]. eexists. split; [reflexivity|].
    rewrite (nonzero_tab F (fun i => each 1 (fun j => filter_of t C H W (i * 1 + j)))).
    rewrite <- one_minus_frac by lia. unfold frac. rewrite (count_below_ext F _ (fun i => negb (all_zero (filter_of t C H W i)))); [reflexivity|].
    intros i Hi. rewrite each_1. do 3 f_equal. lia.
  - unfold sparsity_ch. rewrite Hsh. rewrite (channels_norm_ok t F C H W Hsh Hok Hpos l1_norm 1 C false) by lia. cbn [bind].
    unfold ratio. destruct (Nat.eqb_spec C 0); [lia|]. cbn [bind]. eexists. split; [reflexivity|].
    rewrite (nonzero_tab C (fun i => each 1 (fun j => channel_of t F C H W (i * 1 + j)))).
    rewrite <- one_minus_frac by lia. unfold frac. rewrite (count_below_ext C _ (fun i => negb (all_zero (channel_of t F C H W i)))); [reflexivity|].
    intros i Hi. rewrite each_1. do 3 f_equal. lia.
  - unfold sparsity_2D. rewrite Hsh.
    rewrite (view_rows_ok (H * W) (F * C)); [|nia|rewrite (data_len t F C H W Hsh Hok); ring]. cbn [bind].
    unfold ratio. rewrite tab_length. destruct (Nat.eqb_spec (F * C) 0); [nia|]. cbn [bind]. eexists. split; [reflexivity|].
    unfold tab at 1. rewrite map_map.
    change (map (fun x => l1_norm (tab (H * W) (fun j => nth (x * (H * W) + j) (nd_data t) 0))) (seq 0 (F * C)))
      with (tab (F * C) (fun x => l1_norm (tab (H * W) (fun j => nth (x * (H * W) + j) (nd_data t) 0)))).
    rewrite (nonzero_tab (F * C) (fun x => tab (H * W) (fun j => nth (x * (H * W) + j) (nd_data t) 0))).
    rewrite <- one_minus_frac by nia. unfold frac.
    rewrite (count_below_ext (F * C) _ (fun i => negb (all_zero (kernel t C H W (i / C) (i mod C))))); [reflexivity|].
    intros i Hi. do 2 f_equal. rewrite kernel_tab. apply tab_ext. intros k _. f_equal.
    pose proof (Nat.div_mod i C ltac:(lia)). replace (i / C * C + i mod C)%nat with i by lia. reflexivity.
Qed.

(** Matrices: sparsity_2D counts rows; sparsity_rows / sparsity_cols count columns / rows by
    default (transposed storage), and rows / columns with transposed=False. *)
Theorem C39_matrix_sparsity :
  forall t R C, mat_shape t R C ->
  let zr := frac (count_below R (fun i => all_zero (row_of t C i))) R in
  let zc := frac (count_below C (fun j => all_zero (col_of t R C j))) C in
  (exists s, sparsity_2D t = Ok s /\ s == zr) /\
  (exists s, sparsity_rows t true = Ok s /\ s == zc) /\ (exists s, sparsity_rows t false = Ok s /\ s == zr) /\
  (exists s, sparsity_cols t true = Ok s /\ s == zr) /\ (exists s, sparsity_cols t false = Ok s /\ s == zc).
Proof.
  intros t R C (Hsh & Hok & Hpos) zr zc.
  assert (Kr : forall s, s == 1 - frac (nonzero (tab R (fun i => l1_norm (row_of t C i)))) R -> s == zr).
  { intros s ->. rewrite (nonzero_tab R (fun i => row_of t C i)). apply one_minus_frac. lia. }
  assert (Kc : forall s, s == 1 - frac (nonzero (tab C (fun j => l1_norm (col_of t R C j)))) C -> s == zc).
  { intros s ->. rewrite (nonzero_tab C (fun j => col_of t R C j)). apply one_minus_frac. lia. }
  assert (Mr : exists s, sparsity_matrix t 0 = Ok s /\ s == zr).
  { unfold sparsity_matrix. rewrite Hsh. cbn [Nat.eqb]. unfold ratio. destruct (Nat.eqb_spec R 0); [lia|]. cbn [bind].
    eexists. split; [reflexivity|]. apply Kr. reflexivity. }
  assert (Mc : exists s, sparsity_matrix t 1 = Ok s /\ s == zc).
  { unfold sparsity_matrix. rewrite Hsh. cbn [Nat.eqb]. unfold ratio. destruct (Nat.eqb_spec C 0); [lia|]. cbn [bind].
    eexists. split; [reflexivity|]. apply Kc. reflexivity. }
  split; [|auto].
  unfold sparsity_2D. rewrite Hsh. change (sub_matrix_norm t l1_norm 1 false 1) with (rows_norm t l1_norm 1 false).
  rewrite (rows_norm_ok t R C Hsh). cbn [bind]. unfold ratio. destruct (Nat.eqb_spec R 0); [lia|]. cbn [bind].
  eexists. split; [reflexivity|]. apply Kr. reflexivity.
Qed.

(** Tensors of any other rank have structure sparsity 0. *)
Theorem C39_other_ranks :
  forall t, (length (nd_shape t) <> 4%nat -> sparsity_3D t = Ok 0 /\ sparsity_ch t = Ok 0) /\
            (length (nd_shape t) <> 2%nat -> forall b, sparsity_rows t b = Ok 0 /\ sparsity_cols t b = Ok 0) /\
            (length (nd_shape t) <> 4%nat -> length (nd_shape t) <> 2%nat -> sparsity_2D t = Ok 0).
Proof.
  intro t. unfold sparsity_3D, sparsity_ch, sparsity_rows, sparsity_cols, sparsity_matrix, sparsity_2D.
  destruct (nd_shape t) as [|a [|b [|c [|d [|e l]]]]]; simpl; repeat split; intros; auto; lia.
Qed.

(** The pruned network reaches the sparsity asked for: the filter sparsity of the mask is the
    share of removed filters, at least floor(f*F)/F. *)
Theorem C39_ranked_filters_reach_sparsity :
  forall t F C H W mag f b m, conv_shape t F C H W -> 0 <= f -> f <= 1 ->
  rank_and_prune_filters f t true None mag None 1 Qfloor = Ok (Some b, Some m) ->
  exists s, sparsity_3D m = Ok s /\ s == frac (count_below F (off b)) F /\
    frac (Z.to_nat (Qfloor (f * Zq (Z.of_nat F)))) F <= s.
Proof.
  intros t F C H W mag f b m Hc H0 H1 Hr. destruct (C19_filters t F C H W mag f Hc H0 H1) as [P0 P1].
  set (k := Z.to_nat (Qfloor (f * Zq (Z.of_nat F)))) in *. cbv zeta in P0, P1.
  destruct (Nat.eq_dec k 0) as [E|E]; [rewrite (P0 E) in Hr; discriminate|].
  destruct (P1 ltac:(lia)) as (b' & m' & E1 & Hb & H01 & Hm & D & Hw). rewrite E1 in Hr. injection Hr as -> ->.
  destruct (C39_structure_sparsity m F C H W Hm) as ((s & Es & Hs) & _).
  exists s. split; auto.
  assert (Hs' : s == frac (count_below F (off b)) F).
  { rewrite Hs. unfold frac. rewrite (count_below_ext F _ (off b)); [reflexivity|].
    intros i Hi. destruct Hc as (_ & _ & _ & HC & HH & HW).
    unfold all_zero, off. apply eq_true_iff_eq. rewrite forallb_forall. split.
    - intro Ha. apply Qeq_bool_iff. rewrite <- (D i 0 0 0)%nat by auto. apply Qeq_bool_iff. apply Ha.
      unfold filter_of, kernel, each. apply in_concat. eexists. split.
      + unfold tab at 1. apply in_map_iff. exists 0%nat. split; [reflexivity|]. apply in_seq. lia.
      + apply in_concat. eexists. split.
        * unfold tab at 1. apply in_map_iff. exists 0%nat. split; [reflexivity|]. apply in_seq. lia.
        * unfold tab. apply in_map_iff. exists 0%nat. split; [reflexivity|]. apply in_seq. lia.
    - intros Hz x Hx. unfold filter_of, kernel, each in Hx. apply in_concat in Hx. destruct Hx as (l & Hl & Hx).
      unfold tab at 1 in Hl. apply in_map_iff in Hl. destruct Hl as (c & <- & Hc'). apply in_concat in Hx. destruct Hx as (l & Hl & Hx).
      unfold tab at 1 in Hl. apply in_map_iff in Hl. destruct Hl as (h & <- & Hh).
      unfold tab in Hx. apply in_map_iff in Hx. destruct Hx as (w & <- & Hw').
      apply in_seq in Hc'. apply in_seq in Hh. apply in_seq in Hw'. rewrite D by lia. auto. }
  split; auto. rewrite Hs'. destruct Hw as (Hge & _). unfold frac.
  apply Qmult_le_compat_r; [|apply Qlt_le_weak, Qinv_lt_0_compat, Zq_pos; destruct Hc as (_ & _ & HF & _); lia].
  apply (proj1 (Zq_le _ _)). lia.
Qed.

(** model_params_stats: the sparsity is the percentage (0..100) of zero weights over the selected
    parameters. Finding: model_sparsity's docstring promises a fraction in [0..1]. *)
Theorem C39_model_sparsity :
  forall d s n nnz, (forall e, In e d -> fst e = true -> snd e <> []) -> model_params_stats d = Ok (s, n, nnz) ->
  let sel := map snd (filter fst d) in
  n = length (concat sel) /\ (0 < n)%nat /\
  nnz == Zq (Z.of_nat (countb (fun x => negb (Qeq_bool x 0)) (concat sel))) /\
  s == 100 * frac (countb (fun x => Qeq_bool x 0) (concat sel)) n.
Proof.
  intros d s n nnz Hne H sel. unfold model_params_stats in H. inv_bind H.
  assert (K : forall d a a', (forall e, In e d -> fst e = true -> snd e <> []) ->
     foldM (fun (acc : nat * Q) (e : bool * list Q) =>
              if fst e then do x <- density (snd e);
                            Ok ((fst acc + length (snd e))%nat, snd acc + Zq (Z.of_nat (length (snd e))) * x)
              else Ok acc) d a = Ok a' ->
     fst a' = (fst a + length (concat (map snd (filter fst d))))%nat /\
     snd a' == snd a + Zq (Z.of_nat (nonzero (concat (map snd (filter fst d)))))).
  { clear. induction d as [|[g l] d IH]; intros a a' Hne H.
    - simpl in *. injection H as <-. split; [lia|]. change (Zq 0) with 0. ring.
    - cbn [foldM fst snd] in H. destruct g.
      + inv_bind H. inv_bind H0. injection H0 as <-.
        destruct (IH _ _ (fun e He => Hne e (or_intror He)) H) as [A B]. cbn [fst snd] in A, B.
        unfold density, ratio in H1. destruct (Nat.eqb_spec (length l) 0) as [|Hl]; [discriminate|]. injection H1 as <-.
        cbn [filter fst map snd concat]. rewrite app_length. split; [lia|].
        rewrite B. unfold nonzero. rewrite countb_app, Nat2Z.inj_add, Zq_plus.
        assert (0 < Zq (Z.of_nat (length l))) by (apply Zq_pos; lia). field. lra.
      + cbn [bind] in H. apply (IH _ _ (fun e He => Hne e (or_intror He)) H). }
  destruct (K d _ _ Hne H0) as [A B]. cbn [fst snd] in A, B. fold sel in A, B.
  destruct (Nat.eqb_spec (fst x) 0); [discriminate|]. injection H as <- <- <-.
  split; [lia|]. split; [lia|]. split; [rewrite B; unfold nonzero; ring|].
  assert (Hp : 0 < Zq (Z.of_nat (fst x))) by (apply Zq_pos; lia).
  pose proof (countb_negb (fun y => Qeq_bool y 0) (concat sel)) as Hc.
  unfold frac. rewrite B. unfold nonzero.
  assert (E : Zq (Z.of_nat (fst x)) == Zq (Z.of_nat (countb (fun y => Qeq_bool y 0) (concat sel))) +
                                     Zq (Z.of_nat (countb (fun y => negb (Qeq_bool y 0)) (concat sel)))).
  { rewrite <- Zq_plus, <- Nat2Z.inj_add, Hc, A. reflexivity. }
  set (z := Zq (Z.of_nat (countb (fun y => Qeq_bool y 0) (concat sel)))) in *.
  set (nz := Zq (Z.of_nat (countb (fun y => negb (Qeq_bool y 0)) (concat sel)))) in *.
  assert (nz == Zq (Z.of_nat (fst x)) - z) as -> by lra. field. lra.
Qed.

Example C39_example :
  model_params_stats [(true, [1; 0; 2; 0]); (false, [0; 0]); (true, [0; 3])] = Ok (50, 6%nat, 3) \/
  exists s, model_params_stats [(true, [1; 0; 2; 0]); (false, [0; 0]); (true, [0; 3])] = Ok s /\ fst (fst s) == 50.
Proof. right. eexists. split; [vm_compute; reflexivity|]. reflexivity. Qed.

Example C21_example :
  lp_leader Ex21.c = true /\ (forall k, In k [Ex21.k1; Ex21.k2] -> supported Ex21.c k) /\
  (forall k, In k [Ex21.k2] -> lc_target k == lc_target Ex21.k1) /\
  exists st outs, lcalls Ex21.c ([] ++ Ex21.k1 :: [Ex21.k2]) = Ok (st, outs).
Proof.
  split; [reflexivity|]. split.
  - intros k [<-|[<-|[]]]; unfold supported; simpl; auto.
  - split; [intros k [<-|[]]; reflexivity|]. eexists. eexists. vm_compute. reflexivity.
Qed.

Example C22_example :
  let p := mkND [3; 1; 1; 1]%nat [1; 2; 3] in
  conv_shape p 3 1 1 1 /\ is_order 3 [2; 0; 1]%nat /\
  exists b m, prune_by_order [2; 0; 1]%nat (1 # 2) p None = Ok (Some b, Some m) /\ nd_data m = [1; 0; 1].
Proof.
  cbv zeta. split; [repeat split; simpl; lia|]. split.
  - split; [repeat constructor; simpl; intuition lia|]. intro i. simpl. intuition lia.
  - eexists. eexists. split; vm_compute; reflexivity.
Qed.

Print Assumptions C21_leader_map_shared.
Print Assumptions C21_same_structures.
Print Assumptions C21_leader_no_map_refuted.
Print Assumptions C21_stale_map_refuted.
Print Assumptions C22_prune_by_order.
Print Assumptions C22_removes_largest.
Print Assumptions C22_mean_activation_refuted.
Print Assumptions C22_bernoulli_scaling.
Print Assumptions C39_density_sparsity.
Print Assumptions C39_empty_tensor.
Print Assumptions C39_structure_sparsity.
Print Assumptions C39_matrix_sparsity.
Print Assumptions C39_other_ranks.
Print Assumptions C39_ranked_filters_reach_sparsity.
Print Assumptions C39_model_sparsity.
