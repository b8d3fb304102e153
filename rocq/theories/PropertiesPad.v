(** C79: the final summary graph (paddings merged with average poolings); C80: names of operations before a dropout. *)
From Coq Require Import String Ascii List Bool Arith Lia.
From Verif Require Import Base SgModel SgSpec SgProofs SgTopo SgNames PadModel PadSpec PadProofs.
Import ListNotations.
Open Scope list_scope.

Lemma add_ids l : forall acc, NoDup acc -> NoDup (fold_left add_id l acc) /\ forall t, In t (fold_left add_id l acc) <-> In t acc \/ In t l.
Proof.
  induction l as [|x l IH]; intros acc N; cbn [fold_left]; [split; auto; intro t; cbn; tauto|].
  assert (K : NoDup (add_id acc x) /\ forall t, In t (add_id acc x) <-> In t acc \/ t = x).
  { unfold add_id. destruct (smem x acc) eqn:E.
    - split; auto. intro t. split; auto. intros [H| ->]; auto. unfold smem in E. apply existsb_exists in E. destruct E as (y & H & E). apply String.eqb_eq in E. subst. auto.
    - split; [|intro t; rewrite in_app_iff; cbn; intuition]. apply NoDup_snoc; auto. intro H. assert (F : smem x acc = true) by (apply existsb_exists; exists x; split; auto; apply String.eqb_refl). congruence. }
  destruct K as (K1 & K2). destruct (IH _ K1) as (I1 & I2). split; auto. intro t. rewrite I2, K2. cbn. intuition.
Qed.

Lemma removed_pair a n : forall k (L : nl), length L <= k -> ~ In a (map fst (collapse L)) -> In (a, n) L -> NoDup (map fst L) -> exists b p q, pairL L b a p q.
Proof.
  induction k as [|k IH]; intros L Hk Y Hin N; [destruct L; [destruct Hin|cbn in Hk; lia]|]. destruct L as [|(c, p) [|(d, q) L]]; [destruct Hin|destruct Hin as [Hin|[]]; injection Hin as -> ->; cbn in Y; tauto|].
            cbn [length] in Hk. destruct (pad_pool p q) eqn:P.
            - rewrite collapse_pair in Y by auto. cbn [map fst In] in Y. destruct Hin as [Hin|[Hin|Hin]]; [injection Hin as -> ->; tauto|injection Hin as -> ->; exists c, p, n; apply pairL_cons; left; eauto|].
              destruct (IH L) as (b & p' & q' & H); try lia; auto; [cbn in N; inversion N as [|? ? ? N2]; subst; inversion N2; auto|]. exists b, p', q'. apply pairL_cons; right; apply pairL_cons; right; auto.
            - rewrite collapse_nopair in Y by auto. cbn [map fst In] in Y. destruct Hin as [Hin|Hin]; [injection Hin as -> ->; tauto|].
              destruct (IH ((d, q) :: L)) as (b & p' & q' & H); try (cbn; lia); auto; [cbn in N; inversion N; auto|]. exists b, p', q'. apply pairL_cons; right; auto.
Qed.

(** The graph after construction is that of the trace with each padding and the average pooling that directly follows it (in the same
    module) taken as one average pooling: operations in order, with their types, modules, inputs and outputs; edges; and the operations
    of each module. *)
Theorem C79_graph :
  forall nodes mods, good_trace nodes mods -> tidy nodes -> exists g, pad_summary_graph nodes = Ok g /\
    dkeys (g_ops g) = map fst (collapse (named nodes)) /\ NoDup (dkeys (g_ops g)) /\
    (forall a n, In (a, n) (collapse (named nodes)) -> exists o, dget (g_ops g) a = Some o /\ p_type o = n_type n /\ p_mod o = n_module n /\
       NoDup (p_ins o) /\ (forall t, In t (p_ins o) <-> In t (n_ins n)) /\ NoDup (p_outs o) /\ (forall t, In t (p_outs o) <-> In t (n_outs n))) /\
    g_edges g = flat_map (fun an => map (fun t => (t, fst an)) (n_ins (snd an)) ++ map (fun t => (fst an, t)) (n_outs (snd an))) (collapse (named nodes)) /\
    forall m, In m (map n_module nodes) -> dget (g_mops g) m = Some (map fst (filter (fun an => String.eqb (n_module (snd an)) m) (collapse (named nodes)))).
Proof.
  intros nodes mods G Ti. destruct (summary_rep nodes mods G Ti) as (g & E & R). exists g. split; auto. destruct (trace_named _ _ G) as (N & T). destruct R as (R1 & R2 & R3 & R4).
  assert (N' := collapse_NoDup _ _ (le_n _) N). split; [rewrite R1; apply ops_l_keys|]. split; [rewrite R1, ops_l_keys; auto|]. split.
  - intros a n H. exists (pop_of n). split.
    + rewrite R1. apply In_dget; [rewrite ops_l_keys; auto|]. unfold ops_l. apply in_map_iff. exists (a, n). auto.
    + cbn. destruct (add_ids (n_ins n) [] (NoDup_nil _)) as (A1 & A2), (add_ids (n_outs n) [] (NoDup_nil _)) as (B1 & B2). split; [reflexivity|]. split; [reflexivity|]. split; [exact A1|]. split; [intro t; rewrite A2; cbn; tauto|]. split; [exact B1|]. intro t; rewrite B2; cbn; tauto.
  - split; [exact R2|]. intros m Hm.
    assert (Hc : exists p, In p (collapse (named nodes)) /\ n_module (snd p) = m).
    { apply in_map_iff in Hm. destruct Hm as (n & <- & Hn). apply In_nth_error in Hn. destruct Hn as (i & Hn). assert (Ln := names_len [] nodes). fold (op_names nodes) in Ln.
      assert (Hi : i < length (op_names nodes)) by (rewrite Ln; apply nth_error_Some; congruence). destruct (nth_error (op_names nodes) i) as [a|] eqn:Ea; [|apply nth_error_None in Ea; lia].
      assert (Hin : In (a, n) (named nodes)) by (apply named_in; eauto).
      assert (D : (exists b p q, pairL (named nodes) b a p q) \/ forall b p q, ~ pairL (named nodes) b a p q).
      { destruct (in_dec string_dec a (map fst (collapse (named nodes)))) as [Y|Y].
        - apply collapse_names_in in Y; auto. right. apply Y.
        - left. clear - Y Hin N. revert Y Hin N. generalize (named nodes). intro L. intros Y Hin N. eapply removed_pair; eauto. }
      destruct D as [(b & p & q & D)|D].
      - exists (b, merged_node p q). split; [apply (collapse_in _ _ (le_n _) N); left; eauto|]. cbn. destruct (pairL_in _ _ _ _ _ D) as (_ & I). rewrite (in_fst_fun _ _ _ _ N I Hin). reflexivity.
      - assert (Ha : In a (map fst (collapse (named nodes)))) by (apply collapse_names_in; auto; split; auto; eapply in_names; eauto).
        apply in_map_iff in Ha. destruct Ha as ((a', n') & Ea' & Ha). cbn in Ea'. subst a'. exists (a, n'). split; auto. cbn. apply (collapse_in _ _ (le_n _) N) in Ha. destruct Ha as [(b & p & q & Hp & ->)|(Ha & _)].
        + destruct (pairL_in _ _ _ _ _ Hp) as (I & _). assert (p = n) by (eapply (in_fst_fun (named nodes)); eauto). subst. destruct Hp as (_ & _ & _ & P). apply pad_pool_eq in P. cbn. symmetry. tauto.
        + f_equal. eapply (in_fst_fun (named nodes)); eauto. }
    destruct Hc as (p & Hp & <-). specialize (R4 p Hp). specialize (R3 (n_module (snd p))). unfold mget in R3. destruct (dget (g_mops g) (n_module (snd p))); [|congruence]. rewrite R3. reflexivity.
Qed.

(** The final graph is well-formed and acyclic, so that the results about adjacency and topological order (C65, C66) apply to it. *)
Theorem C79_well_formed :
  forall nodes mods, good_trace nodes mods -> tidy nodes -> exists g, pad_summary_graph nodes = Ok g /\ wf_graph (strip g mods) /\ acyclic (strip g mods).
Proof.
  intros nodes mods G Ti. destruct (summary_rep nodes mods G Ti) as (g & E & R). exists g. split; auto. destruct (trace_named _ _ G) as (N & T).
  assert (N' := collapse_NoDup _ _ (le_n _) N). assert (T' := collapse_apart _ N T). split.
  - apply (rep_wf g (collapse (named nodes)) mods R N' T'); [apply G|]. intros (a, n) H. cbn. destruct G as (_ & _ & Gm & _).
    assert (K : forall x y, In (x, y) (named nodes) -> In (n_module y) (dkeys mods)) by (intros x y I; apply Gm; apply (in_map snd) in I; rewrite named_nodes in I; exact I).
    apply (collapse_in _ _ (le_n _) N) in H. destruct H as [(b & p & q & H & ->)|(H & _)]; [|eapply K; eauto]. cbn. apply pairL_in in H. eapply K. apply H.
  - exists (fun x => index x (op_names nodes)). intros a b Ha F. apply (rep_feeds g (collapse (named nodes)) mods R T') in F; auto. destruct F as (n & m & t & H1 & H2 & I1 & I2).
    assert (Nn := op_names_NoDup nodes (proj1 G)).
    assert (P1 : exists i n', index a (op_names nodes) <= i /\ nth_error nodes i = Some n' /\ In t (n_outs n')).
    { apply (collapse_in _ _ (le_n _) N) in H1. destruct H1 as [(b' & p & q & H1 & ->)|(H1 & _)].
      - apply pairL_named in H1. destruct H1 as (i & _ & E2 & _ & E3 & _). exists (S i), q. rewrite (index_at _ i a Nn E3). cbn in I1. auto.
      - apply named_in in H1. destruct H1 as (i & E1 & E2). exists i, n. rewrite (index_at _ i a Nn E2). auto. }
    assert (P2 : exists j m', index b (op_names nodes) = j /\ nth_error nodes j = Some m' /\ In t (n_ins m')).
    { apply (collapse_in _ _ (le_n _) N) in H2. destruct H2 as [(b' & p & q & H2 & ->)|(H2 & _)].
      - apply pairL_named in H2. destruct H2 as (i & E1 & _ & _ & E3 & _). exists i, p. rewrite (index_at _ i b Nn E3). cbn in I2. auto.
      - apply named_in in H2. destruct H2 as (i & E1 & E2). exists i, m. rewrite (index_at _ i b Nn E2). auto. }
    destruct P1 as (i & n' & L1 & E1 & J1), P2 as (j & m' & <- & E2 & J2). destruct G as (_ & _ & _ & _ & O). specialize (O _ _ _ _ _ E1 E2 J1 J2). lia.
Qed.

Lemma raw_feeds nodes mods a b : good_trace nodes mods -> In a (op_names nodes) ->
  (feeds (build_graph nodes mods) a b <-> exists n m t, In (a, n) (named nodes) /\ In (b, m) (named nodes) /\ In t (n_outs n) /\ In t (n_ins m)).
Proof.
  intros G Ha. rewrite (trace_feeds nodes mods G a b) by (apply (is_op_names nodes mods G); auto). unfold op_at. split.
  - intros (i & j & ni & nj & t & (H1 & H2) & (H3 & H4) & I1 & I2). exists ni, nj, t. split; [apply named_in; eauto|]. split; [apply named_in; eauto|auto].
  - intros (n & m & t & H1 & H2 & I1 & I2). apply named_in in H1, H2. destruct H1 as (i & H1), H2 as (j & H2). exists i, j, n, m, t. tauto.
Qed.
(** What remains and how it is connected: the poolings that were merged disappear; a merged padding stands for both, so it feeds what its
    pooling fed; any other operation feeds what it fed before, except the poolings that disappeared. *)
Theorem C79_connections :
  forall nodes mods g, good_trace nodes mods -> tidy nodes -> pad_summary_graph nodes = Ok g ->
  let before := build_graph nodes mods in let after := strip g mods in
  (forall a, is_op after a <-> is_op before a /\ forall p, ~ merged nodes p a) /\
  forall a b, is_op after a -> is_op after b ->
    (forall q, merged nodes a q -> (feeds after a b <-> feeds before q b)) /\
    ((forall q, ~ merged nodes a q) -> (feeds after a b <-> feeds before a b)).
Proof.
  intros nodes mods g G Ti E before after. destruct (summary_rep nodes mods G Ti) as (g0 & E0 & R). rewrite E in E0. injection E0 as <-. destruct (trace_named _ _ G) as (N & T).
  assert (N' := collapse_NoDup _ _ (le_n _) N). assert (T' := collapse_apart _ N T).
  assert (O : forall a, is_op after a <-> is_op before a /\ forall p, ~ merged nodes p a).
  { intro a. unfold after. rewrite (rep_is_op g (collapse (named nodes)) mods R), collapse_names_in by auto. unfold before. rewrite (is_op_names nodes mods G), named_names. split; intros (H & K); split; auto.
    - intros p M. apply merged_pair in M. destruct M as (x & y & M). eapply K; eauto.
    - intros b p q M. apply (K b). apply merged_pair. eauto. }
  split; auto. intros a b Ha Hb. apply O in Hb. destruct Hb as (Hb & Mb). assert (Ha' := Ha). apply O in Ha'. destruct Ha' as (Ha' & Ma). apply (is_op_names nodes mods G) in Ha', Hb.
  assert (F := rep_feeds g (collapse (named nodes)) mods R T' a b Ha). fold after in F.
  assert (Ib : forall t, (exists m, In (b, m) (collapse (named nodes)) /\ In t (n_ins m)) <-> exists m, In (b, m) (named nodes) /\ In t (n_ins m)).
  { intro t. split.
    - intros (m & H & I). apply (collapse_in _ _ (le_n _) N) in H. destruct H as [(c & p & q & H & ->)|(H & _)]; [|eauto]. apply pairL_in in H. exists p. split; [tauto|exact I].
    - intros (m & H & I). assert (K : In b (map fst (collapse (named nodes)))). { apply (collapse_names_in _ _ N). split; [eapply in_names; eauto|]. intros c p q M. apply (Mb c). apply merged_pair; eauto. }
      apply in_map_iff in K. destruct K as ((b', m') & Eb & K). cbn in Eb. subst b'. exists m'. split; auto. apply (collapse_in _ _ (le_n _) N) in K. destruct K as [(c & p & q & K & ->)|(K & _)].
      + apply pairL_in in K. cbn. assert (p = m) by (eapply (in_fst_fun (named nodes)); eauto; tauto). subst. auto.
      + assert (m' = m) by (eapply (in_fst_fun (named nodes)); eauto). subst. auto. }
  assert (F2 : feeds after a b <-> exists t, (exists n, In (a, n) (collapse (named nodes)) /\ In t (n_outs n)) /\ exists m, In (b, m) (named nodes) /\ In t (n_ins m)).
  { rewrite F. split.
    - intros (n & m & t & H1 & H2 & I1 & I2). exists t. split; [eauto|]. apply Ib. eauto.
    - intros (t & (n & H1 & I1) & K). apply Ib in K. destruct K as (m & H2 & I2). exists n, m, t. auto. }
  assert (B2 : forall x, In x (op_names nodes) -> feeds before x b <-> exists t, (exists n, In (x, n) (named nodes) /\ In t (n_outs n)) /\ exists m, In (b, m) (named nodes) /\ In t (n_ins m)).
  { intros x Hx. unfold before. rewrite (raw_feeds nodes mods x b G Hx). split; [intros (n & m & t & H); exists t; split; [exists n|exists m]; tauto|]. intros (t & (n & H1) & (m & H2)). exists n, m, t. tauto. }
  split.
  - intros q M. apply merged_pair in M. destruct M as (p & nq & M). assert (Iq := proj2 (pairL_in _ _ _ _ _ M)). rewrite F2, B2 by (rewrite <- named_names; eapply in_names; eauto).
    split; intros (t & (n & H & I) & K); exists t; (split; [|exact K]).
    + exists nq. split; auto. apply (collapse_in _ _ (le_n _) N) in H. destruct H as [(c & p' & q' & H & ->)|(_ & H & _)]; [|exfalso; eapply H; eauto].
      cbn in I. assert (q' = nq); [|subst; auto]. destruct M as (l1 & l2 & E1 & _), H as (l3 & l4 & E3 & _).
      assert (S1 : nth_error (named nodes) (length l1) = Some (a, p)) by (rewrite E1, nth_error_app2, Nat.sub_diag by lia; reflexivity).
      assert (S2 : nth_error (named nodes) (S (length l1)) = Some (q, nq)) by (rewrite E1, nth_error_app2 by lia; replace (S (length l1) - length l1) with 1 by lia; reflexivity).
      assert (S3 : nth_error (named nodes) (length l3) = Some (a, p')) by (rewrite E3, nth_error_app2, Nat.sub_diag by lia; reflexivity).
      assert (S4 : nth_error (named nodes) (S (length l3)) = Some (c, q')) by (rewrite E3, nth_error_app2 by lia; replace (S (length l3) - length l3) with 1 by lia; reflexivity).
      assert (Q : length l1 = length l3); [|congruence].
      apply (map_nth_error fst) in S1, S3. cbn in S1, S3. rewrite NoDup_nth_error in N. apply N; [apply nth_error_Some; congruence|congruence].
    + assert (n = nq) by (eapply (in_fst_fun (named nodes)); eauto). subst. exists (merged_node p nq). split; [apply (collapse_in _ _ (le_n _) N); left; eauto|exact I].
  - intro M. rewrite F2, B2 by auto. split; intros (t & (n & H & I) & K); exists t; (split; [|exact K]); exists n; (split; [|exact I]).
    + apply (collapse_in _ _ (le_n _) N) in H. destruct H as [(c & p & q & H & ->)|(H & _)]; [exfalso; apply (M c); apply merged_pair; eauto|auto].
    + apply (collapse_in _ _ (le_n _) N). right. split; auto. split; intros c p q D; [apply (M c)|apply (Ma c)]; apply merged_pair; eauto.
Qed.

(** No connection is lost or invented: if the result of each merged padding is consumed by its pooling only, then an operation that remains
    is reached from another in the final graph exactly if it was before. *)
Theorem C79_reachable :
  forall nodes mods g, good_trace nodes mods -> tidy nodes -> private nodes -> pad_summary_graph nodes = Ok g ->
  forall a b, is_op (strip g mods) a -> is_op (strip g mods) b ->
    (upstream (strip g mods) a b <-> upstream (build_graph nodes mods) a b).
Proof.
  intros nodes mods g G Ti Pv E. destruct (C79_connections nodes mods g G Ti E) as (O & F). set (after := strip g mods) in *. set (before := build_graph nodes mods) in *.
  destruct (trace_named _ _ G) as (N & _). assert (Nn := op_names_NoDup nodes (proj1 G)).
  assert (At : forall i j x, nth_error (op_names nodes) i = Some x -> nth_error (op_names nodes) j = Some x -> i = j).
  { intros i j x H1 H2. rewrite NoDup_nth_error in Nn. apply Nn; [apply nth_error_Some; congruence|congruence]. }
  assert (OpF : forall x y, feeds before x y -> is_op before x -> is_op before y).
  { intros x y H Hx. apply (is_op_names nodes mods G) in Hx. apply (raw_feeds nodes mods x y G Hx) in H. destruct H as (n & m & t & _ & H & _). apply (is_op_names nodes mods G). rewrite <- named_names. eapply in_names; eauto. }
  assert (Only : forall x y q, feeds before x y -> merged nodes x q -> y = q).
  { intros x y q H (i & p & nq & H1 & H2 & P & H3 & H4). apply (raw_feeds nodes mods x y G) in H; [|eapply nth_error_In; eauto]. destruct H as (n & m & t & K1 & K2 & I1 & I2).
    apply named_in in K1, K2. destruct K1 as (i' & K1 & K1'), K2 as (j & K2 & K2'). assert (i' = i) by eauto. subst i'. assert (n = p) by congruence. subst n.
    destruct (Pv i p nq H1 H2 P) as (_ & Q & _). specialize (Q t j m I1 K2 I2). subst j. congruence. }
  assert (From : forall x y p, feeds before x y -> is_op before x -> merged nodes p y -> x = p).
  { intros x y p0 H Hx (i & p & nq & H1 & H2 & P & H3 & H4). apply (is_op_names nodes mods G) in Hx. apply (raw_feeds nodes mods x y G) in H; auto. destruct H as (n & m & t & K1 & K2 & I1 & I2).
    apply named_in in K1, K2. destruct K1 as (i' & K1 & K1'), K2 as (j & K2 & K2'). assert (j = S i) by eauto. subst j. assert (m = nq) by congruence. subst m.
    destruct (Pv i p nq H1 H2 P) as (Q0 & _ & Q). rewrite Q0 in I2. specialize (Q t i' n I2 K1 I1). subst i'. congruence. }
  assert (Feed : forall p q, merged nodes p q -> feeds before p q).
  { intros p0 q (i & p & nq & H1 & H2 & P & H3 & H4). apply (raw_feeds nodes mods p0 q G); [eapply nth_error_In; eauto|]. destruct (proj1 Ti i p nq H1 H2 P) as (x & t & u & y & E1 & E2 & E3 & E4). destruct (Pv i p nq H1 H2 P) as (Q & _).
    exists p, nq, t. rewrite Q, E2. split; [apply named_in; eauto|]. split; [apply named_in; eauto|]. cbn; auto. }
  assert (PadNot : forall x p q, merged nodes x q -> ~ merged nodes p x).
  { intros x p0 q (i & p & nq & H1 & H2 & P & H3 & H4) (j & p' & nq' & K1 & K2 & P' & K3 & K4). assert (S j = i) by eauto. subst i. assert (nq' = p) by congruence. subst nq'. apply pad_pool_eq in P, P'. destruct P as (P & _), P' as (_ & P' & _). rewrite P in P'. discriminate. }
  assert (PadIn : forall x q, merged nodes x q -> is_op after x).
  { intros x q M. apply O. split; [|intros p M'; exact (PadNot _ _ _ M M')]. apply (is_op_names nodes mods G). destruct M as (i & p & nq & _ & _ & _ & H & _). eapply nth_error_In; eauto. }
  assert (Dm : forall x, is_op before x -> (exists q, merged nodes x q) \/ forall q, ~ merged nodes x q).
  { intros x Hx. apply (is_op_names nodes mods G) in Hx. apply In_nth_error in Hx. destruct Hx as (i & Hx). assert (Ln := names_len [] nodes). fold (op_names nodes) in Ln.
    assert (Li : i < length nodes) by (rewrite <- Ln; apply nth_error_Some; congruence). destruct (nth_error nodes i) as [p|] eqn:Ep; [|apply nth_error_None in Ep; lia].
    destruct (nth_error nodes (S i)) as [q|] eqn:Eq.
    - destruct (pad_pool p q) eqn:P.
      + left. destruct (nth_error (op_names nodes) (S i)) as [y|] eqn:Ey; [|apply nth_error_None in Ey; assert (S i < length nodes) by (apply nth_error_Some; congruence); lia]. exists y, i, p, q. auto.
      + right. intros y (j & p' & q' & H1 & H2 & P' & H3 & H4). assert (j = i) by eauto. subst. congruence.
    - right. intros y (j & p' & q' & H1 & H2 & P' & H3 & H4). assert (j = i) by eauto. subst. congruence. }
  assert (Da : forall x, is_op before x -> is_op after x \/ exists p, merged nodes p x).
  { intros x Hx. destruct (in_dec string_dec x (dkeys (s_ops after))) as [Y|Y]; [left; exact Y|right]. apply (is_op_names nodes mods G) in Hx.
    destruct (summary_rep nodes mods G Ti) as (g0 & E0 & R). rewrite E in E0. injection E0 as <-. assert (Y' : ~ In x (map fst (collapse (named nodes)))) by (rewrite <- (rep_is_op g (collapse (named nodes)) mods R x); exact Y).
    rewrite <- named_names in Hx. apply in_map_iff in Hx. destruct Hx as ((x', n) & Ex & Hx). cbn in Ex. subst x'. destruct (removed_pair x n _ _ (le_n _) Y' Hx N) as (b & p & q & M). exists b. apply merged_pair. eauto. }
  assert (Up : forall x y, feeds after x y -> is_op after x -> is_op after y).
  { intros x y H Hx. destruct (C79_well_formed nodes mods G Ti) as (g0 & E0 & W & _). rewrite E in E0. injection E0 as <-. fold after in W. destruct W as (_ & _ & We & _). destruct H as (t & H1 & H2). destruct (We _ _ H2) as [(K & _)|(_ & K)]; auto.
    exfalso. destruct (We _ _ H1) as [(_ & K')|(K' & _)]; [exact (K' K)|exact (K' Hx)]. }
  intros a b Ha Hb. split.
  - intro H. revert Ha Hb. induction H as [a b H|a c b H H' IH]; intros Ha Hb.
    + destruct (proj1 (O a) Ha) as (Ha' & _). destruct (F a b Ha Hb) as (F1 & F2). destruct (Dm a Ha') as [(q & M)|M].
      * apply UpMore with q; [auto|]. constructor. apply (F1 q M). auto.
      * constructor. apply F2; auto.
    + assert (Hc := Up _ _ H Ha). destruct (proj1 (O a) Ha) as (Ha' & _). destruct (F a c Ha Hc) as (F1 & F2). destruct (Dm a Ha') as [(q & M)|M].
      * apply UpMore with q; [auto|]. apply UpMore with c; [apply (F1 q M); auto|auto].
      * apply UpMore with c; [apply F2; auto|auto].
  - intro H. assert (K : is_op before a -> (is_op after a -> upstream after a b) /\ (forall p, merged nodes p a -> upstream after p b)); [|exact (proj1 (K (proj1 (proj1 (O a) Ha))) Ha)].
    clear Ha. revert Hb. induction H as [a b H|a c b H H' IH]; intros Hb Ha.
    + split.
      * intro Ha'. constructor. destruct (F a b Ha' Hb) as (F1 & F2). apply F2; auto. intros q M. apply O in Hb. destruct Hb as (_ & Hb). apply (Hb a). rewrite (Only a b q H M). exact M.
      * intros p M. constructor. destruct (F p b (PadIn _ _ M) Hb) as (F1 & _). apply (F1 a M). auto.
    + specialize (IH Hb (OpF _ _ H Ha)). destruct IH as (IH1 & IH2). split.
      * intro Ha'. destruct (Dm a Ha) as [(q & M)|M].
        -- assert (c = q) by eauto. subst c. auto.
        -- destruct (Da c (OpF _ _ H Ha)) as [Hc|(p & Mc)].
           ++ apply UpMore with c; auto. destruct (F a c Ha' Hc) as (_ & F2). apply F2; auto.
           ++ exfalso. assert (a = p) by eauto. subst p. eapply M; eauto.
      * intros p M. destruct (Da c (OpF _ _ H Ha)) as [Hc|(p' & Mc)].
        -- apply UpMore with c; auto. destruct (F p c (PadIn _ _ M) Hc) as (F1 & _). apply (F1 a M). auto.
        -- exfalso. assert (a = p') by eauto. subst p'. exact (PadNot _ _ _ Mc M).
Qed.

(** hypotheses met: a branch with a pooling module (padding and pooling) between two convolutions, beside a second one *)
Definition pool_nodes : list tnode :=
  [ mkNode "conv1" "Conv" ["x"; "w1"] ["1"]; mkNode "pool" "Pad" ["1"] ["2"]; mkNode "pool" "AveragePool" ["2"] ["3"];
    mkNode "pool2" "AveragePool" ["1"] ["4"]; mkNode "" "Concat" ["3"; "4"] ["5"]; mkNode "" "Pad" ["5"] ["6"]; mkNode "conv2" "Conv" ["6"; "w2"] ["7"] ]%string.
Definition pool_mods : dict bool := [("", true); ("conv1", false); ("pool", false); ("pool2", false); ("conv2", false)]%string.
Example C79_example :
  tidy pool_nodes /\ private pool_nodes /\ merged pool_nodes "pool" "pool_AveragePool_1" /\
  exists g, pad_summary_graph pool_nodes = Ok g /\ dkeys (g_ops g) = ["conv1"; "pool"; "pool2"; "top_level_op"; "top_level_op_Pad_1"; "conv2"]%string /\
    dget (g_ops g) "pool" = Some (mkPop "AveragePool" "pool" ["1"] ["3"])%string /\ feeds (strip g pool_mods) "conv1" "pool" /\ feeds (strip g pool_mods) "pool" "top_level_op".
Proof.
  split; [|split; [|split]].
  - split; intros i p q.
    + do 8 (destruct i as [|i]; [cbn; intros E1 E2; try discriminate; injection E1 as <-; injection E2 as <-; cbn; intro P; try discriminate; do 4 eexists; repeat split|]). cbn. destruct i; discriminate.
    + intros r. do 8 (destruct i as [|i]; [cbn; intros E1 E2 E3; try discriminate; injection E1 as <-; injection E2 as <-; injection E3 as <-; cbn; intros; discriminate|]). cbn. destruct i; discriminate.
  - intros i p q. destruct i as [|[|[|[|[|[|[|[|i]]]]]]]]; cbn; intros E1 E2; try discriminate; injection E1 as <-; injection E2 as <-; cbn; intro P; try discriminate.
    split; [reflexivity|]. split; intros t j n [<-|[]] H K; do 8 (destruct j as [|j]; [cbn in H; try discriminate; injection H as <-; cbn in K; intuition discriminate|]); cbn in H; destruct j; discriminate.
  - exists 1, (mkNode "pool" "Pad" ["1"] ["2"])%string, (mkNode "pool" "AveragePool" ["2"] ["3"])%string. vm_compute. auto.
  - eexists. split; [vm_compute; reflexivity|]. split; [reflexivity|]. split; [reflexivity|]. split; [exists "1"%string|exists "3"%string]; vm_compute; auto 10.
Qed.
Example C79_good_example : good_trace pool_nodes pool_mods.
Proof.
  split; [split|split; [|split; [|split]]].
  - intros n H. cbn in H. intuition subst; unfold no_underscore; cbn; intuition discriminate.
  - intros n n' H H' K. cbn in H, H'. repeat destruct H as [<-|H]; try destruct H; repeat destruct H' as [<-|H']; try destruct H'; try (exfalso; apply K; reflexivity); (split; [discriminate|intros t k E; cbn in E; discriminate]).
  - repeat constructor; cbn; intuition discriminate.
  - intros n H. cbn in H. intuition subst; cbn; tauto.
  - intros t (n & H & K) F. vm_compute in F. cbn in H. repeat destruct H as [<-|H]; try destruct H; cbn in K; repeat match goal with X : _ \/ _ |- _ => destruct X | X : False |- _ => destruct X end; subst; discriminate.
  - intros i j ni nj t Hi Hj I J.
    do 8 (destruct i as [|i]; [cbn in Hi; try discriminate; injection Hi as <-; cbn in I; destruct I as [<-|[]]; do 8 (destruct j as [|j]; [cbn in Hj; try discriminate; injection Hj as <-; cbn in J; first [lia|intuition discriminate]|]); cbn in Hj; destruct j; discriminate|]).
    cbn in Hi; destruct i; discriminate.
Qed.

(** A padding whose result is also used elsewhere: that connection is lost (here the convolution loses its only predecessor). *)
Definition shared_pad : list tnode := [ mkNode "" "Pad" ["x"] ["1"]; mkNode "" "AveragePool" ["1"] ["2"]; mkNode "conv" "Conv" ["1"; "w"] ["3"] ]%string.
Definition shared_mods : dict bool := [("", true); ("conv", false)]%string.
Theorem C79_shared_pad_refuted :
  tidy shared_pad /\ exists g, pad_summary_graph shared_pad = Ok g /\ upstream (build_graph shared_pad shared_mods) "top_level_op" "conv" /\
    is_op (strip g shared_mods) "top_level_op" /\ is_op (strip g shared_mods) "conv" /\ forall a, ~ upstream (strip g shared_mods) a "conv".
Proof.
  split.
  - split; intros i p q; [|intro r]; do 4 (destruct i as [|i]; [cbn; intros; repeat match goal with X : Some _ = Some _ |- _ => injection X as <- | X : None = _ |- _ => discriminate end; cbn in *; try discriminate; do 4 eexists; repeat split|]); cbn; destruct i; discriminate.
  - eexists. split; [vm_compute; reflexivity|]. split; [constructor; exists "1"%string; vm_compute; auto 12|]. split; [vm_compute; auto 12|]. split; [vm_compute; auto 12|].
    intros a H. assert (K : forall a b, upstream (strip {| g_ops := [("top_level_op", {| p_type := "AveragePool"; p_mod := ""; p_ins := ["x"]; p_outs := ["2"] |}); ("conv", {| p_type := "Conv"; p_mod := "conv"; p_ins := ["1"; "w"]; p_outs := ["3"] |})]%string;
       g_edges := [("x", "top_level_op"); ("top_level_op", "2"); ("1", "conv"); ("w", "conv"); ("conv", "3")]%string; g_mops := [("", ["top_level_op"]); ("conv", ["conv"])]%string |} shared_mods) a b -> b <> "conv"%string).
    { clear. intros a b H. induction H as [a b (t & H1 & H2)|]; auto. cbn in *. intro; subst.
      repeat match goal with X : _ \/ _ |- _ => destruct X | X : False |- _ => destruct X end; repeat match goal with X : (_, _) = (_, _) |- _ => injection X as ? ?; subst end; discriminate. }
    eapply K; eauto.
Qed.
(** A padding, an average pooling of another module and one of the padding's module: the first and the last are merged, the edges of the one
    in between are deleted, and adjacency_map raises KeyError for the operation that no longer exists. *)
Definition stale_pad : list tnode :=
  [ mkNode "" "Pad" ["x"] ["1"]; mkNode "pool" "AveragePool" ["1"] ["2"]; mkNode "" "AveragePool" ["2"] ["3"]; mkNode "fc" "Gemm" ["3"; "w"] ["4"] ]%string.
Definition stale_mods : dict bool := [("", true); ("pool", false); ("fc", false)]%string.
Theorem C79_stale_pad_refuted :
  exists g, pad_summary_graph stale_pad = Ok g /\ dget (g_ops g) "top_level_op" = Some (mkPop "AveragePool" "" ["x"] ["3"])%string /\
    is_op (strip g stale_mods) "pool" /\ ~ In "pool"%string (map fst (g_edges g)) /\ ~ In "pool"%string (map snd (g_edges g)) /\
    fst (adjacency_map (strip g stale_mods) false fresh_sg) = Raise KeyError.
Proof. eexists. split; [vm_compute; reflexivity|]. split; [reflexivity|]. split; [vm_compute; auto|]. split; [vm_compute; intuition discriminate|]. split; [vm_compute; intuition discriminate|vm_compute; reflexivity]. Qed.

(* ------------------------------------------------------------------------- *)
(** * C80: operations before a dropout *)
Lemma drop_state nodes : exists d, fold_left dropout_step nodes ([], None) = (d, match rev (filter (fun n => occurs "aten" (r_kind n) && negb (String.eqb (r_kind n) "aten::dropout")) nodes) with n :: _ => Some (r_scope n) | [] => None end).
Proof.
  induction nodes as [|n nodes (d & IH)] using rev_ind; [exists []; reflexivity|]. rewrite fold_left_app, IH. cbn [fold_left dropout_step]. rewrite filter_app, rev_app_distr. cbn [filter].
  destruct (occurs "aten" (r_kind n)); cbn [negb andb]; [|cbn; eauto]. destruct (String.eqb (r_kind n) "aten::dropout"); cbn [negb]; [|cbn; eauto].
  cbn. destruct (rev _); eauto.
Qed.
Lemma drop_keys nodes s v : dget (pre_dropout_names nodes) s = Some v -> exists i n, nth_error nodes i = Some n /\ is_aten n /\ is_dropout n /\ r_scope n = s.
Proof.
  unfold pre_dropout_names. revert v. induction nodes as [|n nodes IH] using rev_ind; intros v H; [discriminate|]. rewrite fold_left_app in H. destruct (fold_left dropout_step nodes ([], None)) as (d, prev) eqn:E. cbn [fold_left dropout_step] in H.
  assert (Old : forall w, dget d s = Some w -> exists i m, nth_error (nodes ++ [n]) i = Some m /\ is_aten m /\ is_dropout m /\ r_scope m = s).
  { intros w Hw. destruct (IH w Hw) as (i & m & K1 & K2). exists i, m. split; auto. rewrite nth_error_app1; auto. apply nth_error_Some; congruence. }
  destruct (occurs "aten" (r_kind n)) eqn:Ea; cbn [negb] in H; [|eauto]. destruct (String.eqb_spec (r_kind n) "aten::dropout") as [Ed|Ed]; [|eauto]. destruct prev as [p|]; [|eauto].
  cbn [fst] in H. destruct (string_dec (r_scope n) s) as [<-|Hs]; [|rewrite dget_dset_other in H by auto; eauto].
  exists (length nodes), n. split; [rewrite nth_error_app2, Nat.sub_diag by lia; reflexivity|]. unfold is_aten, is_dropout. auto.
Qed.
Lemma drop_value nodes i n j d : own_dropouts nodes -> nth_error nodes i = Some n -> is_aten n -> ~ is_dropout n -> i < j -> nth_error nodes j = Some d -> is_dropout d ->
  (forall k m, i < k < j -> nth_error nodes k = Some m -> is_aten m -> is_dropout m) -> dget (pre_dropout_names nodes) (r_scope d) = Some (r_scope n).
Proof.
  intros Own Hi An Dn L Hj Dd Bt. destruct (nth_error_split _ _ Hj) as (l1 & l2 & El & Ll). subst j.
  assert (Pre : exists d0, fold_left dropout_step l1 ([], None) = (d0, Some (r_scope n))).
  { destruct (drop_state l1) as (d0 & E). exists d0. rewrite E. f_equal. rewrite El in Hi. rewrite nth_error_app1 in Hi by auto. destruct (nth_error_split _ _ Hi) as (m1 & m2 & Em & Lm). rewrite Em. rewrite filter_app, rev_app_distr. cbn [filter].
    replace (occurs "aten" (r_kind n)) with true by (symmetry; exact An). destruct (String.eqb_spec (r_kind n) "aten::dropout") as [|_]; [contradiction|]. cbn [andb negb rev].
    assert (Z : filter (fun n0 => occurs "aten" (r_kind n0) && negb (String.eqb (r_kind n0) "aten::dropout")) m2 = []).
    { assert (A : forall x, In x m2 -> is_aten x -> is_dropout x). { intros x Hx Ax. apply In_nth_error in Hx. destruct Hx as (k & Hx). apply (Bt (S i + k) x); auto.
        - subst l1. rewrite app_length in *. cbn in *. assert (k < length m2) by (apply nth_error_Some; congruence). lia.
        - rewrite El, Em. rewrite <- app_assoc. rewrite nth_error_app2 by lia. replace (S i + k - length m1) with (S k) by lia. cbn. rewrite nth_error_app1; auto. apply nth_error_Some; congruence. }
      clear - A. induction m2 as [|x m2 IH]; auto. cbn. destruct (occurs "aten" (r_kind x)) eqn:Ex; cbn; [|apply IH; intros; apply A; cbn; auto].
      rewrite (A x (or_introl eq_refl) Ex), String.eqb_refl. cbn. apply IH; intros; apply A; cbn; auto. }
    rewrite Z. reflexivity. }
  assert (Post : forall l s, (forall x, In x l -> is_aten x -> is_dropout x -> r_scope x <> r_scope d) -> dget (fst s) (r_scope d) = Some (r_scope n) -> dget (fst (fold_left dropout_step l s)) (r_scope d) = Some (r_scope n)).
  { clear. induction l as [|x l IH]; intros s H E; auto. cbn [fold_left]. apply IH; [intros; apply H; cbn; auto|]. destruct s as (d0, prev). cbn [fst dropout_step] in *. destruct (occurs "aten" (r_kind x)) eqn:Ex; cbn [negb]; auto.
    destruct (String.eqb_spec (r_kind x) "aten::dropout") as [Ed|]; auto. destruct prev; cbn [fst]; auto. rewrite dget_dset_other; auto. apply H; cbn; auto. }
  unfold pre_dropout_names. rewrite El, fold_left_app. destruct Pre as (d0 & ->). cbn [fold_left]. apply Post.
  - intros x Hx Ax Dx E. apply In_nth_error in Hx. destruct Hx as (k & Hx). assert (Q : length l1 + S k = length l1); [|lia].
    apply (Own _ _ x d); auto; [rewrite El, nth_error_app2 by lia; replace (length l1 + S k - length l1) with (S k) by lia; exact Hx|]. unfold is_aten. rewrite Dd. reflexivity.
  - cbn [dropout_step]. rewrite Dd. cbn. apply dget_dset_same.
Qed.
(** With the work-around, every operation is named after the module that executed it: the scope that ONNX leaves (possibly that of a dropout
    that followed) is mapped back to the operation's own, if no dropout shares its scope with another operation. *)
Theorem C80_dropout_scopes :
  forall nodes, own_dropouts nodes -> forall i n s, nth_error nodes i = Some n -> onnx_scope nodes i s ->
  fixed_scope true (pre_dropout_names nodes) s = r_scope n.
Proof.
  intros nodes Own i n s Hi (n' & Hi' & An & Dn & H). rewrite Hi in Hi'. injection Hi' as <-. unfold fixed_scope. destruct H as [->|(j & d & L & Hj & Dd & -> & Bt)].
  - destruct (dget (pre_dropout_names nodes) (r_scope n)) as [v|] eqn:E; auto. exfalso. apply drop_keys in E. destruct E as (j & m & Hj & Am & Dm & E). assert (j = i) by (apply (Own j i m n); auto). subst. congruence.
  - rewrite (drop_value nodes i n j d); auto.
Qed.
Definition drop_nodes : list rnode :=
  [ mkR "Net/Conv2d[conv]" "aten::_convolution"; mkR "Net/Dropout[drop1]" "prim::Constant"; mkR "Net/Dropout[drop1]" "aten::dropout"; mkR "Net/Linear[fc]" "aten::addmm"; mkR "Net/Dropout[drop2]" "aten::dropout" ]%string.
Example C80_example : own_dropouts drop_nodes /\ onnx_scope drop_nodes 0 "Net/Dropout[drop1]" /\ fixed_scope true (pre_dropout_names drop_nodes) "Net/Dropout[drop1]" = "Net/Conv2d[conv]"%string /\
  fixed_scope false (pre_dropout_names drop_nodes) "Net/Dropout[drop1]" = "Net/Dropout[drop1]"%string.
Proof.
  split; [|split; [|split; reflexivity]].
  - intros i j a b Hi Hj Da Ab E. do 5 (destruct i as [|i]; [cbn in Hi; injection Hi as <-; try discriminate Da; do 5 (destruct j as [|j]; [cbn in Hj; injection Hj as <-; first [reflexivity|discriminate E|discriminate Ab]|]); destruct j; discriminate|]). destruct i; discriminate.
  - exists (mkR "Net/Conv2d[conv]" "aten::_convolution"). split; [reflexivity|]. split; [reflexivity|]. split; [discriminate|]. right. exists 2, (mkR "Net/Dropout[drop1]" "aten::dropout").
    split; [lia|]. split; [reflexivity|]. split; [reflexivity|]. split; [reflexivity|]. intros k m Hk. assert (k = 1) by lia. subst. cbn. intros E A. injection E as <-. discriminate A.
Qed.
(** A dropout module used after two layers: the first of them gets the name of the second. *)
Theorem C80_shared_dropout_refuted :
  let nodes := [ mkR "Net/Linear[fc1]" "aten::addmm"; mkR "Net/Dropout[drop]" "aten::dropout"; mkR "Net/Linear[fc2]" "aten::addmm"; mkR "Net/Dropout[drop]" "aten::dropout" ]%string in
  onnx_scope nodes 0 "Net/Dropout[drop]" /\ fixed_scope true (pre_dropout_names nodes) "Net/Dropout[drop]" = "Net/Linear[fc2]"%string.
Proof.
  split; [|reflexivity]. eexists. split; [reflexivity|]. split; [reflexivity|]. split; [discriminate|]. right. exists 1. eexists. split; [lia|]. split; [reflexivity|]. split; [reflexivity|]. split; [reflexivity|]. intros k m Hk. lia.
Qed.
(** F.dropout in the model's own forward: every later operation of that scope gets the name of the layer before the dropout. *)
Theorem C80_functional_dropout_refuted :
  let nodes := [ mkR "Net/Linear[fc1]" "aten::addmm"; mkR "Net" "aten::dropout"; mkR "Net" "aten::relu" ]%string in
  onnx_scope nodes 2 "Net" /\ fixed_scope true (pre_dropout_names nodes) "Net" = "Net/Linear[fc1]"%string.
Proof. split; [|reflexivity]. eexists. split; [reflexivity|]. split; [reflexivity|]. split; [discriminate|]. left. reflexivity. Qed.

Print Assumptions C79_graph.
Print Assumptions C79_well_formed.
Print Assumptions C79_connections.
Print Assumptions C79_reachable.
Print Assumptions C79_shared_pad_refuted.
Print Assumptions C79_stale_pad_refuted.
Print Assumptions C80_dropout_scopes.
Print Assumptions C80_shared_dropout_refuted.
Print Assumptions C80_functional_dropout_refuted.
