(** Proofs about the merging of paddings and average poolings. *)
From Coq Require Import String Ascii List Bool Arith Lia.
From Verif Require Import Base SgModel SgSpec SgProofs SgNames PadModel PadSpec.
Import ListNotations.
Open Scope list_scope.

Definition nl := list (string * tnode).
Definition pop_of (n : tnode) : pop := mkPop (n_type n) (n_module n) (fold_left add_id (n_ins n) []) (fold_left add_id (n_outs n) []).
Definition ops_l (L : nl) : dict pop := map (fun p => (fst p, pop_of (snd p))) L.
Definition edges_n (p : string * tnode) : list (string * string) := map (fun t => (t, fst p)) (n_ins (snd p)) ++ map (fun t => (fst p, t)) (n_outs (snd p)).
Definition edges_l (L : nl) : list (string * string) := flat_map edges_n L.
Definition names_l (L : nl) (m : string) : list string := map fst (filter (fun p => String.eqb (n_module (snd p)) m) L).
Definition mget (g : pgraph) (m : string) : list string := match dget (g_mops g) m with Some l => l | None => [] end.
Definition rep (g : pgraph) (L : nl) : Prop :=
  g_ops g = ops_l L /\ g_edges g = edges_l L /\ (forall m, mget g m = names_l L m) /\ (forall p, In p L -> dget (g_mops g) (n_module (snd p)) <> None).
Definition apart (L : nl) : Prop := forall p t, In p L -> In t (n_ins (snd p)) \/ In t (n_outs (snd p)) -> ~ In t (map fst L).

Lemma named_snoc nodes n : named (nodes ++ [n]) = named nodes ++ [(op_name (count_mod (n_module n) nodes) (n_module n) (n_type n), n)].
Proof. unfold named, op_names. rewrite names_app. rewrite combine_app by (rewrite names_len; auto). reflexivity. Qed.
Lemma named_names nodes : map fst (named nodes) = op_names nodes.
Proof.
  unfold named. assert (L := names_len [] nodes). fold (op_names nodes) in L. revert L. generalize (op_names nodes).
  induction nodes as [|n nodes IH]; intros [|x l] L; try discriminate; auto. cbn. f_equal. auto.
Qed.
Lemma named_nodes nodes : map snd (named nodes) = nodes.
Proof. unfold named. apply combine_snd. symmetry. apply names_len. Qed.
Lemma ops_l_keys L : dkeys (ops_l L) = map fst L.
Proof. unfold dkeys, ops_l. rewrite map_map. reflexivity. Qed.
Lemma names_l_len nodes m : length (names_l (named nodes) m) = count_mod m nodes.
Proof.
  unfold names_l, count_mod, named. rewrite map_length. assert (L := names_len [] nodes). fold (op_names nodes) in L. revert L. generalize (op_names nodes).
  induction nodes as [|n nodes IH]; intros [|x l] L; try discriminate; auto. cbn. destruct (String.eqb (n_module n) m); cbn; auto.
Qed.
Lemma build_rep nodes : no_clash nodes -> rep (build_pgraph nodes) (named nodes).
Proof.
  induction nodes as [|n nodes IH] using rev_ind; intro C.
  - repeat split; auto.
  - destruct (IH (no_clash_pre _ _ C)) as (A1 & A2 & A4 & A5). unfold build_pgraph in *. rewrite fold_left_app. cbn [fold_left].
    set (g := fold_left add_pnode nodes (mkPg [] [] [])) in *.
    unfold add_pnode. fold (mget g (n_module n)). rewrite A4. fold (base_name (n_module n)).
    assert (Nm : match names_l (named nodes) (n_module n) with [] => base_name (n_module n) | _ :: _ => (base_name (n_module n) ++ "_" ++ n_type n ++ "_" ++ dec (length (names_l (named nodes) (n_module n))))%string end
      = op_name (count_mod (n_module n) nodes) (n_module n) (n_type n)).
    { rewrite <- names_l_len. destruct (names_l (named nodes) (n_module n)); reflexivity. }
    rewrite Nm. rewrite named_snoc. set (nm := op_name _ _ _) in *. unfold rep. cbn [g_ops g_edges g_mops]. split; [|split; [|split]].
    + rewrite A1, dset_new; [|rewrite ops_l_keys, named_names; apply (no_clash_names nodes n []); auto]. unfold ops_l. rewrite map_app. reflexivity.
    + rewrite A2. unfold edges_l. rewrite flat_map_app. cbn [flat_map]. unfold edges_n at 3. cbn [fst snd]. rewrite app_nil_r. reflexivity.
    + intro m. unfold mget. cbn [g_mops]. unfold names_l. rewrite filter_app, map_app. cbn [filter fst snd]. destruct (String.eqb_spec (n_module n) m) as [<-|Hn].
      * rewrite dget_dset_same. reflexivity.
      * rewrite dget_dset_other by auto. specialize (A4 m). unfold mget in A4. rewrite A4. cbn. rewrite app_nil_r. reflexivity.
    + intros p H. apply in_app_or in H. destruct (string_dec (n_module n) (n_module (snd p))) as [<-|Hn]; [rewrite dget_dset_same; discriminate|]. rewrite dget_dset_other by auto.
      destruct H as [H|[<-|[]]]; [apply A5; auto|cbn in Hn; congruence].
Qed.

Lemma dset_mid {A} (d : dict A) k v v' r : ~ In k (dkeys d) -> dset (d ++ (k, v) :: r) k v' = d ++ (k, v') :: r.
Proof. induction d as [|(k', w) d IH]; intro H; cbn in *; [rewrite String.eqb_refl; auto|]. destruct (String.eqb_spec k k') as [->|Hn]; [tauto|]. f_equal. apply IH. tauto. Qed.
Lemma dpop_mid {A} (d : dict A) k v r : ~ In k (dkeys d) -> dpop (d ++ (k, v) :: r) k = d ++ r.
Proof. induction d as [|(k', w) d IH]; intro H; cbn in *; [rewrite String.eqb_refl; auto|]. destruct (String.eqb_spec k k') as [->|Hn]; [tauto|]. f_equal. apply IH. tauto. Qed.
Lemma dget_mid {A} (d : dict A) k v r : ~ In k (dkeys d) -> dget (d ++ (k, v) :: r) k = Some v.
Proof. induction d as [|(k', w) d IH]; intro H; cbn in *; [rewrite String.eqb_refl; auto|]. destruct (String.eqb_spec k k') as [->|Hn]; [tauto|]. apply IH. tauto. Qed.
Lemma sremove_mid l k r : ~ In k l -> sremove k (l ++ k :: r) = Ok (l ++ r).
Proof. induction l as [|x l IH]; intro H; cbn in *; [rewrite String.eqb_refl; auto|]. destruct (String.eqb_spec k x) as [->|Hn]; [tauto|]. rewrite IH by tauto. reflexivity. Qed.
Lemma edge_index_mid l e r : ~ In e l -> edge_index e (l ++ e :: r) = Ok (length l).
Proof.
  induction l as [|x l IH]; intro H; cbn in *.
  - unfold edge_eqb. rewrite !String.eqb_refl. reflexivity.
  - unfold edge_eqb at 1. destruct (String.eqb_spec (fst e) (fst x)) as [E1|]; destruct (String.eqb_spec (snd e) (snd x)) as [E2|]; cbn; try (rewrite IH by tauto; reflexivity).
    exfalso. apply H. left. destruct e, x; cbn in *; congruence.
Qed.
Lemma cut_edges (l : list (string * string)) a b c d r x y :
  let es := firstn (length l) (l ++ a :: b :: c :: d :: r) ++ skipn (length l + 4) (l ++ a :: b :: c :: d :: r) in
  let es := firstn (length l) es ++ [x] ++ skipn (length l) es in
  firstn (length l + 1) es ++ [y] ++ skipn (length l + 1) es = l ++ x :: y :: r.
Proof.
  cbn zeta.
  assert (F : forall (m : list (string * string)), firstn (length l) (l ++ m) = l) by (intro m; rewrite firstn_app, Nat.sub_diag, firstn_all; cbn; apply app_nil_r).
  assert (S0 : forall (m : list (string * string)), skipn (length l) (l ++ m) = m) by (intro m; rewrite skipn_app, Nat.sub_diag, skipn_all; reflexivity).
  assert (S1 : forall k (m : list (string * string)), skipn (length l + k) (l ++ m) = skipn k m).
  { intros k m. rewrite skipn_app. replace (length l + k - length l) with k by lia. rewrite skipn_all2 by lia. reflexivity. }
  assert (F1 : forall k (m : list (string * string)), firstn (length l + k) (l ++ m) = l ++ firstn k m).
  { intros k m. rewrite firstn_app. replace (length l + k - length l) with k by lia. rewrite firstn_all2 by lia. reflexivity. }
  rewrite F, S1. cbn [skipn]. rewrite F, S0. rewrite F1, S1. cbn [app firstn skipn]. rewrite <- app_assoc. reflexivity.
Qed.

Lemma mid_assoc {A} (l : list A) x r : l ++ x :: r = (l ++ [x]) ++ r.
Proof. rewrite <- app_assoc. reflexivity. Qed.
Definition merged_node (p q : tnode) : tnode := mkNode (n_module q) (n_type q) (n_ins p) (n_outs q).
Lemma pad_pool_eq p q : pad_pool p q = true <-> n_type p = "Pad"%string /\ n_type q = "AveragePool"%string /\ n_module p = n_module q.
Proof. unfold pad_pool. rewrite !andb_true_iff, !String.eqb_eq. tauto. Qed.

Lemma merge_pair_ok g D a p b q r x t u y :
  rep g (D ++ (a, p) :: (b, q) :: r) -> NoDup (map fst (D ++ (a, p) :: (b, q) :: r)) -> apart (D ++ (a, p) :: (b, q) :: r) -> pad_pool p q = true ->
  n_ins p = [x] -> n_outs p = [t] -> n_ins q = [u] -> n_outs q = [y] ->
  exists g', merge_pair g a (pop_of p) b (pop_of q) = Ok g' /\ rep g' (D ++ (a, merged_node p q) :: r).
Proof.
  intros (A1 & A2 & A3 & A4) N T P Ip Op Iq Oq. apply pad_pool_eq in P. destruct P as (P1 & P2 & P3).
  rewrite map_app in N. cbn [map fst] in N.
  assert (Na : ~ In a (map fst D) /\ ~ In b (map fst D) /\ a <> b).
  { assert (K := NoDup_remove_2 _ _ _ N). rewrite in_app_iff in K. cbn in K. split; [tauto|]. split; [|intro E; subst; tauto].
    change (map fst D ++ a :: b :: map fst r) with (map fst D ++ [a] ++ b :: map fst r) in N. rewrite app_assoc in N. assert (K2 := NoDup_remove_2 _ _ _ N). rewrite !in_app_iff in K2. tauto. }
  destruct Na as (Na & Nb & Nab). unfold merge_pair. cbn [p_type p_mod p_ins p_outs pop_of].
  fold (mget g (n_module q)). rewrite A3.
  assert (Nm : names_l (D ++ (a, p) :: (b, q) :: r) (n_module q) = (names_l D (n_module q) ++ [a]) ++ b :: names_l r (n_module q)).
  { unfold names_l. rewrite filter_app, map_app. cbn [filter snd]. rewrite P3, String.eqb_refl. cbn [map fst]. rewrite <- app_assoc. reflexivity. }
  rewrite Nm, sremove_mid. 2:{ rewrite in_app_iff. intros [K|[K|[]]]; [|congruence]. apply Nb. unfold names_l in K. apply in_map_iff in K. destruct K as (z & <- & K). apply filter_In in K. apply in_map; tauto. }
  rewrite Ip, Oq. cbn [bind fold_left add_id smem existsb app head_of]. rewrite A2.
  assert (Ee : edges_l (D ++ (a, p) :: (b, q) :: r) = edges_l D ++ (x, a) :: (a, t) :: (u, b) :: (b, y) :: edges_l r).
  { unfold edges_l. rewrite flat_map_app. cbn [flat_map]. unfold edges_n at 2 3. cbn [fst snd]. rewrite Ip, Op, Iq, Oq. reflexivity. }
  rewrite Ee, edge_index_mid.
  2:{ intro K. unfold edges_l in K. apply in_flat_map in K. destruct K as (z & Hz & K). unfold edges_n in K. apply in_app_or in K. destruct K as [K|K]; apply in_map_iff in K; destruct K as (w & E & K); injection E as E1 E2.
      - subst. apply Na. apply in_map; auto.
      - subst w. apply (T z a); [apply in_or_app; auto|auto|]. rewrite map_app, in_app_iff. cbn. auto. }
  cbn [bind]. eexists. split; [reflexivity|]. unfold rep. cbn [g_ops g_edges g_mops]. split; [|split; [|split]].
  - rewrite A1. unfold ops_l. rewrite !map_app. cbn [map fst snd]. rewrite dset_mid by (fold (ops_l D); rewrite ops_l_keys; auto).
    assert (Em : pop_of (merged_node p q) = mkPop (n_type q) (n_module q) [x] [y]) by (unfold pop_of, merged_node; cbn; rewrite Ip, Oq; reflexivity). rewrite Em.
    rewrite (mid_assoc _ (a, mkPop (n_type q) (n_module q) [x] [y])).
    rewrite dpop_mid; [rewrite <- app_assoc; reflexivity|]. unfold dkeys. rewrite map_app, map_map. cbn. rewrite in_app_iff. cbn. intuition congruence.
  - etransitivity; [exact (cut_edges (edges_l D) (x, a) (a, t) (u, b) (b, y) (edges_l r) (x, a) (a, y))|]. unfold edges_l. rewrite flat_map_app. cbn [flat_map]. unfold edges_n at 4. cbn [fst snd merged_node n_ins n_outs]. rewrite Ip, Oq. reflexivity.
  - intro m. unfold mget. cbn [g_mops]. unfold names_l. rewrite filter_app, map_app. cbn [filter snd merged_node n_module]. destruct (String.eqb_spec (n_module q) m) as [<-|Hn].
    + rewrite dget_dset_same. cbn. rewrite <- app_assoc. reflexivity.
    + rewrite dget_dset_other by auto. specialize (A3 m). unfold mget in A3. rewrite A3. unfold names_l. rewrite filter_app, map_app. cbn [filter snd]. rewrite P3. destruct (String.eqb_spec (n_module q) m); [congruence|]. reflexivity.
  - intros z Hz. destruct (string_dec (n_module q) (n_module (snd z))) as [<-|Hn]; [rewrite dget_dset_same; discriminate|]. rewrite dget_dset_other by auto.
    apply in_app_or in Hz. destruct Hz as [Hz|[<-|Hz]]; [| cbn in Hn; congruence|]; apply A4; rewrite in_app_iff; cbn; auto.
Qed.

Lemma merge_NoDup (D : nl) a p b q r n : NoDup (map fst (D ++ (a, p) :: (b, q) :: r)) -> NoDup (map fst (D ++ (a, n) :: r)).
Proof.
  rewrite !map_app. cbn [map fst]. intro N. change (map fst D ++ a :: b :: map fst r) with (map fst D ++ [a] ++ b :: map fst r) in N. rewrite app_assoc in N. apply NoDup_remove_1 in N. rewrite <- app_assoc in N. exact N.
Qed.
Lemma merge_apart (D : nl) a p b q r : apart (D ++ (a, p) :: (b, q) :: r) -> apart (D ++ (a, merged_node p q) :: r).
Proof.
  intros T z t Hz Ht K.
  assert (K' : In t (map fst (D ++ (a, p) :: (b, q) :: r))) by (revert K; rewrite !map_app, !in_app_iff; cbn; tauto).
  apply in_app_or in Hz. destruct Hz as [Hz|[<-|Hz]].
  - apply (T z t); auto. apply in_or_app; auto.
  - cbn in Ht. destruct Ht as [Ht|Ht]; [apply (T (a, p) t)|apply (T (b, q) t)]; auto; rewrite in_app_iff; cbn; auto.
  - apply (T z t); auto. rewrite in_app_iff. cbn; auto.
Qed.
Lemma tidy_tail n l : tidy (n :: l) -> tidy l.
Proof. intros (A & B). split; [intros i p q H1 H2; apply (A (S i)); auto|intros i p q r H1 H2 H3; apply (B (S i)); auto]. Qed.
Lemma tidy_pair p q l : tidy (p :: q :: l) -> pad_pool p q = true -> exists x t u y, n_ins p = [x] /\ n_outs p = [t] /\ n_ins q = [u] /\ n_outs q = [y].
Proof. intros (A & _). apply (A 0); auto. Qed.
Lemma tidy_third p q r l : tidy (p :: q :: r :: l) -> n_type p = "Pad"%string -> n_type q = "AveragePool"%string -> pad_pool p q = false -> n_type r <> "AveragePool"%string.
Proof. intros (_ & B). apply (B 0 p q r); auto. Qed.

Lemma collapse_cons a n r : n_type n <> "Pad"%string -> collapse ((a, n) :: r) = (a, n) :: collapse r.
Proof. intro H. destruct r as [|(b, q) r]; auto. cbn [collapse]. destruct (pad_pool n q) eqn:E; [|reflexivity]. apply pad_pool_eq in E. tauto. Qed.
Lemma collapse_pair a p b q r : pad_pool p q = true -> collapse ((a, p) :: (b, q) :: r) = (a, merged_node p q) :: collapse r.
Proof. intro H. cbn. rewrite H. reflexivity. Qed.
Lemma collapse_nopair a p b q r : pad_pool p q = false -> collapse ((a, p) :: (b, q) :: r) = (a, p) :: collapse ((b, q) :: r).
Proof. intro H. cbn [collapse]. rewrite H. reflexivity. Qed.

Ltac assoc := rewrite <- !app_assoc; cbn [app].
Lemma loop_ok k : forall rest, length rest <= k ->
  (forall g D, rep g (D ++ rest) -> NoDup (map fst (D ++ rest)) -> apart (D ++ rest) -> tidy (map snd rest) ->
     exists g' s, foldM merge_step (ops_l rest) (g, None) = Ok (g', s) /\ rep g' (D ++ collapse rest)) /\
  (forall g D a p, n_type p = "Pad"%string -> rep g (D ++ (a, p) :: rest) -> NoDup (map fst (D ++ (a, p) :: rest)) -> apart (D ++ (a, p) :: rest) -> tidy (map snd ((a, p) :: rest)) ->
     exists g' s, foldM merge_step (ops_l rest) (g, Some a) = Ok (g', s) /\ rep g' (D ++ collapse ((a, p) :: rest))).
Proof.
  induction k as [|k IH]; intros rest Hk.
  { destruct rest; [|cbn in Hk; lia]. split; intros; cbn; eauto. }
  split.
  - intros g D R N T Ti. destruct rest as [|(a, n) r]; [cbn; eauto|]. cbn [length] in Hk. cbn [ops_l map fst snd foldM merge_step pop_of p_type].
    destruct (String.eqb_spec (n_type n) "Pad") as [E|E]; cbn [bind].
    + apply (IH r ltac:(lia)); auto.
    + rewrite collapse_cons by auto. destruct (IH r ltac:(lia)) as (IHa & _). destruct (IHa g (D ++ [(a, n)])) as (g' & s & E1 & E2); try (assoc; auto; fail).
      { eapply tidy_tail; eauto. }
      exists g', s. split; [exact E1|]. revert E2. assoc. auto.
  - intros g D a p Hp R N T Ti. destruct rest as [|(b, q) r]; [cbn; eauto|]. cbn [length] in Hk. cbn [ops_l map fst snd foldM merge_step p_type pop_of].
    change (map (fun p0 : string * tnode => (fst p0, pop_of (snd p0))) r) with (ops_l r).
    assert (Ti2 : tidy (map snd ((b, q) :: r))) by (eapply tidy_tail; exact Ti).
    destruct (String.eqb_spec (n_type q) "Pad") as [E|E]; cbn [bind].
    + rewrite collapse_nopair. 2:{ destruct (pad_pool p q) eqn:F; auto. apply pad_pool_eq in F. destruct F as (_ & F & _). rewrite E in F. discriminate. }
      destruct (IH r ltac:(lia)) as (_ & IHb). destruct (IHb g (D ++ [(a, p)]) b q) as (g' & s & E1 & E2); try (assoc; auto; fail); auto.
      exists g', s. split; [exact E1|]. revert E2. assoc. auto.
    + destruct (String.eqb_spec (n_type q) "AveragePool") as [E'|E'].
      2:{ cbn [bind]. rewrite collapse_nopair. 2:{ destruct (pad_pool p q) eqn:F; auto. apply pad_pool_eq in F. tauto. } rewrite collapse_cons by auto.
          destruct (IH r ltac:(lia)) as (IHa & _). destruct (IHa g (D ++ [(a, p); (b, q)])) as (g' & s & E1 & E2); try (assoc; auto; fail); auto. { eapply tidy_tail; eauto. }
          exists g', s. split; [exact E1|]. revert E2. assoc. auto. }
      assert (Na : ~ In a (dkeys (ops_l D))).
      { rewrite ops_l_keys. rewrite map_app in N. cbn [map fst] in N. apply NoDup_remove_2 in N. rewrite in_app_iff in N. tauto. }
      assert (Go : dget (g_ops g) a = Some (pop_of p)).
      { destruct R as (R & _). rewrite R. unfold ops_l. rewrite map_app. cbn [map fst snd]. apply dget_mid. exact Na. }
      rewrite Go. cbn [p_mod pop_of]. destruct (String.eqb_spec (n_module p) (n_module q)) as [Em|Em]; cbn [negb bind].
      * assert (P : pad_pool p q = true) by (apply pad_pool_eq; auto). destruct (tidy_pair p q (map snd r) Ti P) as (x & t & u & y & I1 & I2 & I3 & I4).
        destruct (merge_pair_ok g D a p b q r x t u y R N T P I1 I2 I3 I4) as (g1 & M & R1). match goal with |- context[merge_pair g a ?u b ?v] => change (merge_pair g a u b v) with (merge_pair g a (pop_of p) b (pop_of q)) end. rewrite M. cbn [bind].
        rewrite collapse_pair by auto. destruct (IH r ltac:(lia)) as (IHa & _). destruct (IHa g1 (D ++ [(a, merged_node p q)])) as (g' & s & E1 & E2).
        { assoc; auto. } { assoc. eapply merge_NoDup; eauto. } { assoc. eapply merge_apart; eauto. } { eapply tidy_tail; eauto. }
        exists g', s. split; [exact E1|]. revert E2. assoc. auto.
      * assert (P : pad_pool p q = false) by (destruct (pad_pool p q) eqn:F; auto; apply pad_pool_eq in F; tauto). rewrite collapse_nopair by auto. rewrite collapse_cons by auto.
        destruct r as [|(c, s) r]; [cbn [ops_l map foldM]; eexists _, _; split; [reflexivity|]; exact R|]. cbn [ops_l map fst snd foldM merge_step p_type pop_of].
        change (map (fun p0 : string * tnode => (fst p0, pop_of (snd p0))) r) with (ops_l r). cbn [length] in Hk.
        assert (S3 : n_type s <> "AveragePool"%string) by (eapply tidy_third; [exact Ti|auto|auto|auto]).
        destruct (IH r ltac:(lia)) as (IHa & IHb). destruct (String.eqb_spec (n_type s) "Pad") as [Es|Es]; cbn [bind].
        -- destruct (IHb g (D ++ [(a, p); (b, q)]) c s) as (g' & s' & E1 & E2); try (assoc; auto; fail); auto. { exact (tidy_tail _ _ Ti2). }
           exists g', s'. split; [exact E1|]. revert E2. assoc. auto.
        -- destruct (String.eqb_spec (n_type s) "AveragePool"); [tauto|]. cbn [bind]. rewrite collapse_cons by auto.
           destruct (IHa g (D ++ [(a, p); (b, q); (c, s)])) as (g' & s' & E1 & E2); try (assoc; auto; fail). { exact (tidy_tail _ _ (tidy_tail _ _ Ti2)). }
           exists g', s'. split; [exact E1|]. revert E2. assoc. auto.
Qed.

(** * The graph represented by a list of named nodes *)
Section Rep.
  Variable g : pgraph.
  Variable L : nl.
  Variable mods : dict bool.
  Hypothesis R : rep g L.
  Hypothesis N : NoDup (map fst L).
  Hypothesis T : apart L.
  Let sg := strip g mods.
  Lemma strip_ops : s_ops sg = map (fun p => (fst p, mkOp (n_type (snd p)) (n_module (snd p)))) L.
  Proof. unfold sg, strip. cbn [s_ops]. destruct R as (-> & _). unfold ops_l. rewrite map_map. reflexivity. Qed.
  Lemma rep_is_op x : is_op sg x <-> In x (map fst L).
  Proof. unfold is_op. rewrite strip_ops. unfold dkeys. rewrite map_map. reflexivity. Qed.
  Lemma rep_edges x y : In (x, y) (s_edges sg) <-> exists n nm, In (nm, n) L /\ ((y = nm /\ In x (n_ins n)) \/ (x = nm /\ In y (n_outs n))).
  Proof.
    unfold sg, strip. cbn [s_edges]. destruct R as (_ & -> & _). unfold edges_l. rewrite in_flat_map. split.
    - intros ((nm, n) & H & K). unfold edges_n in K. cbn [fst snd] in K. exists n, nm. split; auto. apply in_app_or in K.
      destruct K as [K|K]; apply in_map_iff in K; destruct K as (t & E & I); injection E as <- <-; auto.
    - intros (n & nm & H & K). exists (nm, n). split; auto. unfold edges_n. cbn [fst snd]. apply in_or_app. destruct K as [(-> & I)|(-> & I)]; [left|right]; apply in_map_iff; eauto.
  Qed.
  Lemma rep_tensor nm n t : In (nm, n) L -> In t (n_ins n) \/ In t (n_outs n) -> ~ is_op sg t.
  Proof. intros H K. rewrite rep_is_op. eapply T; eauto. Qed.
  Lemma rep_feeds a b : is_op sg a -> (feeds sg a b <-> exists n m t, In (a, n) L /\ In (b, m) L /\ In t (n_outs n) /\ In t (n_ins m)).
  Proof.
    intro Ha. split.
    - intros (t & H1 & H2). apply rep_edges in H1. destruct H1 as (n & nm & A1 & [(-> & I)|(-> & I)]); [exfalso; eapply rep_tensor; eauto|].
      apply rep_edges in H2. destruct H2 as (m & nm' & A2 & [(-> & I')|(-> & I')]); [exists n, m, t; auto|]. exfalso. eapply (rep_tensor nm n nm'); eauto. apply rep_is_op. apply (in_map fst) in A2. exact A2.
    - intros (n & m & t & A1 & A2 & I1 & I2). exists t. split; apply rep_edges; [exists n, a; auto|exists m, b; auto].
  Qed.
  Lemma in_strip nm o : In (nm, o) (s_ops sg) <-> exists n, In (nm, n) L /\ o = mkOp (n_type n) (n_module n).
  Proof.
    rewrite strip_ops, in_map_iff. split; [intros ((x, n) & E & H); cbn in E; injection E as <- <-; eauto|]. intros (n & H & ->). exists (nm, n). auto.
  Qed.
  Lemma rep_wf : NoDup (dkeys mods) -> (forall p, In p L -> In (n_module (snd p)) (dkeys mods)) -> wf_graph sg.
  Proof.
    intros Nm Hm. split; [rewrite strip_ops; unfold dkeys; rewrite map_map; exact N|]. split; [exact Nm|]. split; [|split].
    - intros x y H. apply rep_edges in H. destruct H as (n & nm & H & [(-> & I)|(-> & I)]).
      + right. split; [eapply rep_tensor; eauto|apply rep_is_op; apply (in_map fst) in H; exact H].
      + left. split; [apply rep_is_op; apply (in_map fst) in H; exact H|eapply rep_tensor; eauto].
    - intros nm o H. apply in_strip in H. destruct H as (n & H & ->). cbn [o_module]. apply (Hm _ H).
    - intros nm o H. apply in_strip in H. destruct H as (n & H & ->). cbn [o_module]. destruct R as (_ & _ & M & S). specialize (M (n_module n)). specialize (S _ H). cbn [snd] in S. unfold mget in M.
      cbn [s_mops sg strip]. destruct (dget (g_mops g) (n_module n)) as [l|]; [|congruence]. exists l. split; [reflexivity|]. subst l. unfold names_l. split.
      + revert N. generalize L. clear. intro l. induction l as [|x l IH]; cbn; intro N; [constructor|]. inversion N as [|? ? Nx Nl]; subst.
        destruct (String.eqb (n_module (snd x)) (n_module n)); auto. cbn. constructor; auto. intro K. apply Nx. apply in_map_iff in K. destruct K as (y & <- & K). apply filter_In in K. apply in_map. tauto.
      + intro nm'. rewrite in_map_iff. split.
        * intros ((x, n') & E & K). cbn in E. subst x. apply filter_In in K. destruct K as (K & Em). cbn in Em. apply String.eqb_eq in Em.
          exists (mkOp (n_type n') (n_module n')). split; [apply in_strip; eauto|auto].
        * intros (o' & K & Em). apply in_strip in K. destruct K as (n' & K & ->). exists (nm', n'). split; [reflexivity|]. apply filter_In. split; auto. cbn in *. rewrite Em. apply String.eqb_refl.
  Qed.
End Rep.

(** * Members of the collapsed list *)
Definition pairL (L : nl) (a b : string) (p q : tnode) : Prop := exists l1 l2, L = l1 ++ (a, p) :: (b, q) :: l2 /\ pad_pool p q = true.
Lemma pairL_cons x L a b p q : pairL (x :: L) a b p q <-> (x = (a, p) /\ pad_pool p q = true /\ exists l2, L = (b, q) :: l2) \/ pairL L a b p q.
Proof.
  split.
  - intros ([|y l1] & l2 & E & P); cbn in E; injection E as -> E; [left; split; auto; split; eauto|right; exists l1, l2; auto].
  - intros [(-> & P & l2 & ->)|(l1 & l2 & -> & P)]; [exists [], l2; auto|exists (x :: l1), l2; auto].
Qed.
Lemma pairL_in L a b p q : pairL L a b p q -> In (a, p) L /\ In (b, q) L.
Proof. intros (l1 & l2 & -> & _). rewrite !in_app_iff. cbn. auto. Qed.
Lemma pairL_nil a b p q : ~ pairL [] a b p q.
Proof. intros ([|] & l2 & E & _); discriminate. Qed.
Lemma in_names (L : nl) a n : In (a, n) L -> In a (map fst L).
Proof. intro H. apply (in_map fst) in H. exact H. Qed.
Lemma collapse_in k : forall L, length L <= k -> NoDup (map fst L) -> forall a n,
  In (a, n) (collapse L) <-> (exists b p q, pairL L a b p q /\ n = merged_node p q) \/ (In (a, n) L /\ (forall b p q, ~ pairL L a b p q) /\ (forall b p q, ~ pairL L b a p q)).
Proof.
  induction k as [|k IH]; intros L Hk Nd a n.
  { destruct L; [|cbn in Hk; lia]. cbn. split; [tauto|]. intros [(b & p & q & H & _)|(H & _)]; [apply pairL_nil in H|]; auto. }
  destruct L as [|(c, p0) L]; [cbn; split; [tauto|]; intros [(b & p & q & H & _)|(H & _)]; [apply pairL_nil in H|]; auto|].
  cbn [length] in Hk. cbn [map fst] in Nd. inversion Nd as [|? ? Nc Nd']; subst.
  destruct L as [|(d, q0) L].
  { cbn. split.
    - intros [H|[]]. right. injection H as -> ->. split; auto. split; intros b p q H; apply pairL_cons in H; destruct H as [(_ & _ & l & E)|H]; try discriminate; apply pairL_nil in H; auto.
    - intros [(b & p & q & H & _)|([H|[]] & _)]; auto. apply pairL_cons in H; destruct H as [(_ & _ & l & E)|H]; try discriminate; apply pairL_nil in H; tauto. }
  cbn [length] in Hk. cbn [map fst] in Nc, Nd'. inversion Nd' as [|? ? Ndd Nd'']; subst. destruct (pad_pool p0 q0) eqn:P.
  - rewrite collapse_pair by auto. cbn [In]. rewrite (IH L ltac:(lia) Nd'').
    assert (Q : forall (b : string) p q, ~ (q0 = p /\ pad_pool p q = true) ). { intros _ p q (-> & K). apply pad_pool_eq in P, K. destruct P as (_ & P & _), K as (K & _). rewrite P in K. discriminate. }
    assert (PL : forall a b p q, pairL ((c, p0) :: (d, q0) :: L) a b p q <-> (a = c /\ p = p0 /\ b = d /\ q = q0) \/ pairL L a b p q).
    { intros x y p q. rewrite !pairL_cons. split.
      - intros [(E & K & l & E2)|[(E & K & l & E2)|H]]; [injection E as -> ->; injection E2 as -> -> ->; auto|exfalso; injection E as -> ->; apply (Q ""%string p q); auto|auto].
      - intros [(-> & -> & -> & ->)|H]; [left; split; auto; split; eauto|auto]. }
    split.
    + intros [E|[(b & p & q & H & E)|(H & H1 & H2)]].
      * injection E as -> <-. left. exists d, p0, q0. split; auto. apply PL. auto.
      * left. exists b, p, q. split; auto. apply PL; auto.
      * right. split; [auto|]. assert (Ha := in_names _ _ _ H). split; intros b p q K; apply PL in K; (destruct K as [(E1 & E2 & E3 & E4)|K]; [subst|]).
        -- apply Nc. right; auto.
        -- eapply H1; eauto.
        -- apply Ndd; auto.
        -- eapply H2; eauto.
    + intros [(b & p & q & H & E)|(H & H1 & H2)].
      * apply PL in H. destruct H as [(-> & -> & -> & ->)|H]; [left; subst; auto|right; left; eauto].
      * destruct H as [E|[E|H]]; [injection E as -> ->; exfalso; eapply H1; apply PL; left; repeat split|injection E as -> ->; exfalso; eapply H2; apply PL; left; repeat split|].
        right; right. split; auto. split; intros b p q K; [eapply H1|eapply H2]; apply PL; right; eauto.
  - rewrite collapse_nopair by auto. cbn [In]. rewrite (IH ((d, q0) :: L)) by (cbn; auto; lia).
    assert (PL : forall a b p q, pairL ((c, p0) :: (d, q0) :: L) a b p q <-> pairL ((d, q0) :: L) a b p q).
    { intros x y p q. rewrite pairL_cons. split; auto. intros [(E & K & l & E2)|H]; auto. injection E as -> ->. injection E2 as -> -> ->. congruence. }
    split.
    + intros [E|[(b & p & q & H & E)|(H & H1 & H2)]].
      * injection E as -> ->. right. split; auto. split; intros b p q K; apply PL in K; apply pairL_in in K; apply Nc; destruct K as (K1 & K2); [apply in_names in K1|apply in_names in K2]; auto.
      * left. exists b, p, q. split; auto. apply PL; auto.
      * right. split; auto. split; intros b p q K; apply PL in K; [eapply H1|eapply H2]; eauto.
    + intros [(b & p & q & H & E)|(H & H1 & H2)].
      * right; left. exists b, p, q. split; auto. apply PL; auto.
      * destruct H as [E|H]; [auto|]. right; right. split; auto. split; intros b p q K; [eapply H1|eapply H2]; apply PL; eauto.
Qed.
Lemma in_fst_fun (L : nl) a p q : NoDup (map fst L) -> In (a, p) L -> In (a, q) L -> p = q.
Proof.
  induction L as [|(x, n) L IH]; intros Nd I1 I2; [destruct I1|]. cbn in Nd. inversion Nd as [|? ? N1 N2]; subst. destruct I1 as [E1|I1]; destruct I2 as [E2|I2].
  - congruence.
  - injection E1 as -> ->. apply in_names in I2. tauto.
  - injection E2 as -> ->. apply in_names in I1. tauto.
  - auto.
Qed.
Lemma collapse_names_in L a : NoDup (map fst L) -> In a (map fst (collapse L)) <-> In a (map fst L) /\ (forall b p q, ~ pairL L b a p q).
Proof.
  intro Nd. rewrite in_map_iff. split.
  - intros ((x, n) & E & H). cbn in E. subst x. apply (collapse_in (length L)) in H; auto. destruct H as [(b & p & q & H & _)|(H & _ & K)].
    + split; [apply pairL_in in H; apply (in_names _ _ p); tauto|]. intros b' p' q' H'. destruct (pairL_in _ _ _ _ _ H) as (I1 & _), (pairL_in _ _ _ _ _ H') as (_ & I2).
      assert (p = q') by (eapply in_fst_fun; eauto).
      subst. destruct H as (_ & _ & _ & P), H' as (_ & _ & _ & P'). apply pad_pool_eq in P, P'. destruct P as (P & _), P' as (_ & P' & _). rewrite P in P'. discriminate.
    + split; [eapply in_names; eauto|auto].
  - intros (H & K). apply in_map_iff in H. destruct H as ((x, n) & E & H). cbn in E. subst x.
    assert (D : (exists b p q, pairL L a b p q) \/ (forall b p q, ~ pairL L a b p q)).
    { clear. induction L as [|x L IH]; [right; intros b p q; apply pairL_nil|]. destruct IH as [(b & p & q & H)|H]; [left; exists b, p, q; apply pairL_cons; auto|].
      destruct L as [|(d, q0) L]. { right. intros b p q K. apply pairL_cons in K. destruct K as [(_ & _ & l & E)|K]; [discriminate|apply pairL_nil in K; auto]. }
      destruct x as (c, p0). destruct (string_dec c a) as [->|Hc]. 2:{ right. intros b p q K. apply pairL_cons in K. destruct K as [(E & _)|K]; [congruence|eapply H; eauto]. }
      destruct (pad_pool p0 q0) eqn:P; [left; exists d, p0, q0; apply pairL_cons; left; eauto|]. right. intros b p q K. apply pairL_cons in K. destruct K as [(E & K & l & E2)|K]; [congruence|eapply H; eauto]. }
    destruct D as [(b & p & q & D)|D]; [exists (a, merged_node p q)|exists (a, n)]; (split; [reflexivity|]); apply (collapse_in (length L)); auto; left; exists b, p, q; auto.
Qed.
Lemma collapse_NoDup k : forall L, length L <= k -> NoDup (map fst L) -> NoDup (map fst (collapse L)).
Proof.
  induction k as [|k IH]; intros L Hk Nd; [destruct L; [constructor|cbn in Hk; lia]|].
  destruct L as [|(c, p) [|(d, q) L]]; auto. cbn [length] in Hk. destruct (pad_pool p q) eqn:P.
  - rewrite collapse_pair by auto. cbn [map fst] in *. inversion Nd as [|? ? N1 Nd1]; subst. inversion Nd1 as [|? ? N2 Nd2]; subst. constructor; [|apply IH; auto; lia].
    rewrite collapse_names_in by auto. cbn in N1. tauto.
  - rewrite collapse_nopair by auto. cbn [map fst] in *. inversion Nd as [|? ? N1 Nd1]; subst. constructor; [|apply IH; cbn; auto; lia].
    rewrite collapse_names_in by auto. tauto.
Qed.
Lemma collapse_apart L : NoDup (map fst L) -> apart L -> apart (collapse L).
Proof.
  intros Nd T (a, n) t H Ht K. apply collapse_names_in in K; auto. destruct K as (K & _). cbn [snd] in Ht. apply (collapse_in (length L)) in H; auto.
  destruct H as [(b & p & q & H & ->)|(H & _)]; [|apply (T (a, n) t); auto]. apply pairL_in in H. destruct H as (H1 & H2). cbn in Ht. destruct Ht as [Ht|Ht]; [apply (T (a, p) t)|apply (T (b, q) t)]; auto.
Qed.

(** positions and pairs *)
Lemma combine_nth_error {A B} (a : list A) (b : list B) i x y : nth_error (combine a b) i = Some (x, y) <-> nth_error a i = Some x /\ nth_error b i = Some y.
Proof.
  revert b i. induction a as [|u a IH]; intros [|v b] [|i]; cbn; try (split; [discriminate|intros (? & ?); discriminate]).
  - split; [intro H; injection H as -> ->; auto|intros (E1 & E2); congruence].
  - apply IH.
Qed.
Lemma pairL_named nodes a b p q : pairL (named nodes) a b p q <->
  exists i, nth_error nodes i = Some p /\ nth_error nodes (S i) = Some q /\ pad_pool p q = true /\ nth_error (op_names nodes) i = Some a /\ nth_error (op_names nodes) (S i) = Some b.
Proof.
  unfold named. split.
  - intros (l1 & l2 & E & P). exists (length l1).
    assert (E1 : nth_error (combine (op_names nodes) nodes) (length l1) = Some (a, p)) by (rewrite E, nth_error_app2, Nat.sub_diag by lia; reflexivity).
    assert (E2 : nth_error (combine (op_names nodes) nodes) (S (length l1)) = Some (b, q)) by (rewrite E, nth_error_app2 by lia; replace (S (length l1) - length l1) with 1 by lia; reflexivity).
    apply combine_nth_error in E1, E2. tauto.
  - intros (i & H1 & H2 & P & H3 & H4). assert (E1 : nth_error (combine (op_names nodes) nodes) i = Some (a, p)) by (apply combine_nth_error; auto).
    assert (E2 : nth_error (combine (op_names nodes) nodes) (S i) = Some (b, q)) by (apply combine_nth_error; auto).
    destruct (nth_error_split _ _ E1) as (l1 & l2 & E & Li). rewrite E in E2. rewrite nth_error_app2 in E2 by lia. replace (S i - length l1) with 1 in E2 by lia. cbn in E2.
    destruct l2 as [|y l2]; [discriminate|]. cbn in E2. injection E2 as ->. exists l1, l2. auto.
Qed.
Lemma merged_pair nodes a b : merged nodes a b <-> exists p q, pairL (named nodes) a b p q.
Proof.
  unfold merged. split; [intros (i & p & q & H); exists p, q; apply pairL_named; eauto; exists i; tauto|]. intros (p & q & H). apply pairL_named in H. destruct H as (i & H). exists i, p, q. tauto.
Qed.
Lemma named_in nodes a n : In (a, n) (named nodes) <-> exists i, nth_error nodes i = Some n /\ nth_error (op_names nodes) i = Some a.
Proof.
  unfold named. split.
  - intro H. apply In_nth_error in H. destruct H as (i & H). apply combine_nth_error in H. exists i; tauto.
  - intros (i & H1 & H2). eapply nth_error_In. apply combine_nth_error. eauto.
Qed.
Lemma trace_named nodes mods : good_trace nodes mods -> NoDup (map fst (named nodes)) /\ apart (named nodes).
Proof.
  intros (C & _ & _ & T & _). rewrite named_names. split; [apply op_names_NoDup; auto|]. intros (a, n) t H K. rewrite named_names. apply T. exists n. split; auto. apply (in_map snd) in H. rewrite named_nodes in H. exact H.
Qed.
Lemma summary_rep nodes mods : good_trace nodes mods -> tidy nodes -> exists g, pad_summary_graph nodes = Ok g /\ rep g (collapse (named nodes)).
Proof.
  intros G Ti. destruct (trace_named _ _ G) as (N & T). assert (R := build_rep nodes (proj1 G)). destruct (loop_ok _ (named nodes) (le_n _)) as (H & _).
  destruct (H (build_pgraph nodes) [] R N T) as (g & s & E & R'); [rewrite named_nodes; auto|]. exists g. split; auto. unfold pad_summary_graph, merge_pad_avgpool. rewrite (proj1 R), E. reflexivity.
Qed.
