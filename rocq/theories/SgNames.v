(** Proofs about the names of the operations and the graph of a trace. *)
From Coq Require Import String Ascii List Bool Arith Lia.
From Verif Require Import Base SgModel SgSpec SgProofs.
Import ListNotations.
Open Scope list_scope.

(** decimal numbers *)
Fixpoint parse (a : nat) (s : string) : nat :=
  match s with EmptyString => a | String c s => parse (10 * a + (nat_of_ascii c - 48)) s end.
Lemma digit_val n : n < 10 -> nat_of_ascii (digit n) - 48 = n.
Proof. intro H. unfold digit. rewrite nat_ascii_embedding by lia. lia. Qed.
Lemma parse_dec_aux fuel : forall n s, n < fuel -> parse 0 (dec_aux fuel n s) = parse n s.
Proof.
  induction fuel as [|fuel IH]; intros n s H; [lia|]. cbn [dec_aux]. destruct (Nat.ltb_spec n 10).
  - cbn [parse]. rewrite Nat.mod_small by auto. rewrite digit_val by auto. reflexivity.
  - rewrite IH. 2:{ assert (n / 10 < n) by (apply Nat.div_lt; lia). lia. }
    cbn [parse]. rewrite digit_val by (apply Nat.mod_upper_bound; lia). f_equal. symmetry. apply Nat.div_mod. lia.
Qed.
Lemma dec_inj a b : dec a = dec b -> a = b.
Proof.
  intro H. assert (K : parse 0 (dec a) = parse 0 (dec b)) by (rewrite H; auto). unfold dec in K. rewrite !parse_dec_aux in K by lia. exact K.
Qed.
Lemma dec_aux_digits fuel : forall n s, no_underscore s -> no_underscore (dec_aux fuel n s).
Proof.
  induction fuel as [|fuel IH]; intros n s H; auto. cbn [dec_aux].
  assert (K : no_underscore (String (digit (n mod 10)) s)).
  { unfold no_underscore in *. cbn [list_ascii_of_string]. intros [E|I]; [|contradiction]. apply (f_equal nat_of_ascii) in E. unfold digit in E.
    assert (n mod 10 < 10) by (apply Nat.mod_upper_bound; lia). rewrite nat_ascii_embedding in E by lia. change (nat_of_ascii "_") with 95 in E. lia. }
  destruct (Nat.ltb n 10); auto.
Qed.
Lemma dec_digits n : no_underscore (dec n).
Proof. apply dec_aux_digits. intros []. Qed.

(** splitting at the last underscore *)
Lemma last_sep (u : ascii) (a a' d d' : list ascii) : ~ In u d -> ~ In u d' -> a ++ u :: d = a' ++ u :: d' -> a = a' /\ d = d'.
Proof.
  revert a'. induction a as [|x a IH]; intros a' H H' E.
  - destruct a' as [|y a']; cbn in E; [injection E as ->; auto|]. injection E as E1 E2. exfalso. apply H. rewrite E2, in_app_iff. right; left; auto.
  - destruct a' as [|y a']; cbn in E; injection E as E1 E2; [exfalso; apply H'; rewrite <- E2, in_app_iff; right; left; auto|].
    subst. destruct (IH _ H H' E2) as (-> & ->). auto.
Qed.
Lemma la_app s t : list_ascii_of_string (s ++ t) = list_ascii_of_string s ++ list_ascii_of_string t.
Proof. induction s; cbn; f_equal; auto. Qed.
Lemma la_inj s t : list_ascii_of_string s = list_ascii_of_string t -> s = t.
Proof. intro H. rewrite <- (string_of_list_ascii_of_string s), H. apply string_of_list_ascii_of_string. Qed.
Lemma last_us a a' d d' : no_underscore d -> no_underscore d' -> (a ++ "_" ++ d = a' ++ "_" ++ d')%string -> a = a' /\ d = d'.
Proof.
  intros H H' E. apply (f_equal list_ascii_of_string) in E. rewrite !la_app in E. cbn [list_ascii_of_string app] in E.
  destruct (last_sep _ _ _ _ _ H H' E) as (E1 & E2). split; apply la_inj; auto.
Qed.
Lemma sapp_assoc (a b c : string) : ((a ++ b) ++ c = a ++ b ++ c)%string.
Proof. induction a; cbn; f_equal; auto. Qed.
Lemma sapp_neq a t k : a <> (a ++ "_" ++ t ++ "_" ++ dec k)%string.
Proof. generalize (t ++ "_" ++ dec k)%string. intros s E. induction a as [|c a IH]; cbn in E; [discriminate|]. injection E as E. auto. Qed.

Opaque dec.
Lemma op_name_same m k k' t t' : k < k' -> no_underscore t -> no_underscore t' -> op_name k m t <> op_name k' m t'.
Proof.
  intros L U U' E. destruct k' as [|k']; [lia|]. destruct k as [|k]; cbn [op_name] in E; [apply sapp_neq in E; auto|].
  set (j := S k) in *. set (j' := S k') in *.
  assert (E' : ((base_name m ++ "_" ++ t) ++ "_" ++ dec j = (base_name m ++ "_" ++ t') ++ "_" ++ dec j')%string) by (rewrite !sapp_assoc; exact E).
  apply last_us in E'; try apply dec_digits. destruct E' as (_ & D). apply dec_inj in D. lia.
Qed.
Lemma op_name_other m m' k k' t t' : no_underscore t -> no_underscore t' -> base_name m <> base_name m' ->
  (forall t k, base_name m' <> (base_name m ++ "_" ++ t ++ "_" ++ dec k)%string) ->
  (forall t k, base_name m <> (base_name m' ++ "_" ++ t ++ "_" ++ dec k)%string) -> op_name k m t <> op_name k' m' t'.
Proof.
  intros U U' B C C' E. destruct k as [|k], k' as [|k']; cbn [op_name] in E; [auto|eapply C'; eauto|symmetry in E; eapply C; eauto|].
  set (j := S k) in *. set (j' := S k') in *.
  assert (E' : ((base_name m ++ "_" ++ t) ++ "_" ++ dec j = (base_name m' ++ "_" ++ t') ++ "_" ++ dec j')%string) by (rewrite !sapp_assoc; exact E).
  apply last_us in E'; try apply dec_digits. destruct E' as (E1 & _). apply last_us in E1; auto. destruct E1; auto.
Qed.
Lemma count_app m a b : count_mod m (a ++ b) = count_mod m a + count_mod m b.
Proof. unfold count_mod. rewrite filter_app, app_length. auto. Qed.

Lemma names_app pre a b : names_after pre (a ++ b) = names_after pre a ++ names_after (pre ++ a) b.
Proof. revert pre. induction a as [|n a IH]; intro pre; cbn; [rewrite app_nil_r; auto|]. rewrite IH, <- app_assoc. auto. Qed.
Lemma names_in pre nodes x : In x (names_after pre nodes) -> exists a n b, nodes = a ++ n :: b /\ x = op_name (count_mod (n_module n) (pre ++ a)) (n_module n) (n_type n).
Proof.
  revert pre. induction nodes as [|n nodes IH]; intros pre H; [destruct H|]. destruct H as [<-|H].
  - exists [], n, nodes. rewrite app_nil_r. auto.
  - destruct (IH _ H) as (a & n' & b & -> & ->). exists (n :: a), n', b. rewrite <- app_assoc. auto.
Qed.
Lemma no_clash_names pre n nodes : no_clash (pre ++ n :: nodes) ->
  ~ In (op_name (count_mod (n_module n) pre) (n_module n) (n_type n)) (op_names pre).
Proof.
  intros (U & C) H. apply names_in in H. destruct H as (a & n' & b & -> & E). cbn [app] in E.
  assert (I : In n ((a ++ n' :: b) ++ n :: nodes)) by (rewrite in_app_iff; right; left; auto).
  assert (I' : In n' ((a ++ n' :: b) ++ n :: nodes)) by (rewrite !in_app_iff; left; right; left; auto).
  destruct (string_dec (n_module n) (n_module n')) as [Em|Em].
  - rewrite <- Em in E. symmetry in E. revert E. apply op_name_same; auto. rewrite count_app. unfold count_mod at 3. cbn [filter]. rewrite Em, String.eqb_refl. cbn [length]. lia.
  - revert E. destruct (C _ _ I I' Em) as (D1 & D2). destruct (C _ _ I' I) as (D3 & D4); [auto|]. apply op_name_other; auto.
Qed.
Lemma NoDup_snoc {A} (l : list A) x : NoDup l -> ~ In x l -> NoDup (l ++ [x]).
Proof. intros H N. apply (Permutation.Permutation_NoDup (l := x :: l)); [apply Permutation.Permutation_cons_append|constructor; auto]. Qed.
Lemma no_clash_pre nodes n : no_clash (nodes ++ [n]) -> no_clash nodes.
Proof. intros (U & C). split; [intros x Hx; apply U; rewrite in_app_iff; auto|intros x y Hx Hy; apply C; rewrite in_app_iff; auto]. Qed.
Lemma op_names_NoDup nodes : no_clash nodes -> NoDup (op_names nodes).
Proof.
  induction nodes as [|n nodes IH] using rev_ind; intro C; [constructor|]. unfold op_names. rewrite names_app. cbn [names_after app].
  assert (C0 := no_clash_pre _ _ C).
  apply NoDup_snoc; [auto|]. apply (no_clash_names nodes n []); auto.
Qed.

(** the state after a part of the trace *)
Definition mop_names (nodes : list tnode) (m : string) : list string :=
  map snd (filter (fun p => String.eqb (n_module (fst p)) m) (combine nodes (op_names nodes))).
Definition edges_of (nodes : list tnode) : list (string * string) :=
  flat_map (fun p => map (fun t => (t, snd p)) (n_ins (fst p)) ++ map (fun t => (snd p, t)) (n_outs (fst p))) (combine nodes (op_names nodes)).
Definition ops_of (nodes : list tnode) : dict sop := map (fun p => (snd p, mkOp (n_type (fst p)) (n_module (fst p)))) (combine nodes (op_names nodes)).

Lemma names_len pre nodes : length (names_after pre nodes) = length nodes.
Proof. revert pre. induction nodes; intro pre; cbn; auto. Qed.
Lemma combine_app {A B} (a a' : list A) (b b' : list B) : length a = length b -> combine (a ++ a') (b ++ b') = combine a b ++ combine a' b'.
Proof. revert b. induction a; intros [|y b] L; try discriminate; cbn; auto. rewrite IHa; auto. Qed.
Lemma combine_snoc nodes n : combine (nodes ++ [n]) (op_names (nodes ++ [n])) = combine nodes (op_names nodes) ++ [(n, op_name (count_mod (n_module n) nodes) (n_module n) (n_type n))].
Proof. unfold op_names. rewrite names_app. rewrite combine_app by (rewrite names_len; auto). reflexivity. Qed.
Lemma mop_len nodes m : length (mop_names nodes m) = count_mod m nodes.
Proof.
  unfold mop_names, count_mod. rewrite map_length. assert (L := names_len [] nodes). fold (op_names nodes) in L. revert L. generalize (op_names nodes).
  induction nodes as [|n nodes IH]; intros [|x l] L; try discriminate; auto. cbn. destruct (String.eqb (n_module n) m); cbn; auto.
Qed.
Lemma ops_keys nodes : dkeys (ops_of nodes) = op_names nodes.
Proof.
  unfold ops_of, dkeys. rewrite map_map. cbn. assert (L := names_len [] nodes). fold (op_names nodes) in L. revert L. generalize (op_names nodes).
  induction nodes as [|n nodes IH]; intros [|x l] L; try discriminate; auto. cbn. f_equal. auto.
Qed.
Lemma dset_new {A} (d : dict A) k v : ~ In k (dkeys d) -> dset d k v = d ++ [(k, v)].
Proof.
  induction d as [|(k', v') d IH]; intro H; cbn in *; auto. destruct (String.eqb_spec k k') as [->|Hn]; [tauto|]. f_equal. apply IH. tauto.
Qed.

Lemma build_state mods nodes : no_clash nodes ->
  s_ops (build_graph nodes mods) = ops_of nodes /\ s_edges (build_graph nodes mods) = edges_of nodes /\ s_mods (build_graph nodes mods) = mods /\
  (forall m, match dget (s_mops (build_graph nodes mods)) m with Some l => l | None => [] end = mop_names nodes m) /\
  (forall n, In n nodes -> dget (s_mops (build_graph nodes mods)) (n_module n) <> None).
Proof.
  induction nodes as [|n nodes IH] using rev_ind; intro C.
  - repeat split; auto.
  - destruct (IH (no_clash_pre _ _ C)) as (A1 & A2 & A3 & A4 & A5). unfold build_graph in *. rewrite fold_left_app. cbn [fold_left].
    set (g := fold_left add_node nodes (mkSg [] [] [] mods)) in *.
    unfold add_node. rewrite A4. cbn [s_ops s_edges s_mods s_mops]. fold (base_name (n_module n)).
    assert (Nm : match mop_names nodes (n_module n) with [] => base_name (n_module n) | _ :: _ => (base_name (n_module n) ++ "_" ++ n_type n ++ "_" ++ dec (length (mop_names nodes (n_module n))))%string end
      = op_name (count_mod (n_module n) nodes) (n_module n) (n_type n)).
    { rewrite <- mop_len. destruct (mop_names nodes (n_module n)); reflexivity. }
    rewrite Nm. set (nm := op_name _ _ _) in *. split; [|split; [|split; [|split]]].
    + rewrite A1, dset_new; [|rewrite ops_keys; apply (no_clash_names nodes n []); auto]. unfold ops_of. rewrite combine_snoc, map_app. reflexivity.
    + rewrite A2. unfold edges_of. rewrite combine_snoc, flat_map_app. cbn [flat_map fst snd]. rewrite app_nil_r. reflexivity.
    + auto.
    + intro m. unfold mop_names at 2. rewrite combine_snoc, filter_app, map_app. cbn [filter fst snd]. destruct (String.eqb_spec (n_module n) m) as [<-|Hn].
      * rewrite dget_dset_same. reflexivity.
      * rewrite dget_dset_other by auto. rewrite A4. cbn. rewrite app_nil_r. reflexivity.
    + intros n' H. apply in_app_or in H. destruct (string_dec (n_module n) (n_module n')) as [<-|Hn]; [rewrite dget_dset_same; discriminate|]. rewrite dget_dset_other by auto.
      destruct H as [H|[<-|[]]]; [apply A5; auto|congruence].
Qed.

(** the i-th operation of the trace *)
Definition op_at (nodes : list tnode) (i : nat) (n : tnode) (nm : string) : Prop := nth_error nodes i = Some n /\ nth_error (op_names nodes) i = Some nm.
Lemma in_combine_at nodes n nm : In (n, nm) (combine nodes (op_names nodes)) <-> exists i, op_at nodes i n nm.
Proof.
  unfold op_at. generalize (op_names nodes). induction nodes as [|x nodes IH]; intros [|y l]; cbn.
  - split; [tauto|]. intros ([|i] & H & _); discriminate.
  - split; [tauto|]. intros ([|i] & H & _); discriminate.
  - split; [tauto|]. intros ([|i] & _ & H); discriminate.
  - rewrite IH. split.
    + intros [H|(i & H)]; [injection H as <- <-; exists 0; auto|exists (S i); auto].
    + intros ([|i] & H1 & H2); [left; cbn in *; congruence|right; exists i; auto].
Qed.

Lemma combine_snd {A B} (a : list A) (b : list B) : length b = length a -> map snd (combine a b) = b.
Proof. revert b. induction a as [|x a IH]; intros [|y b] L; try discriminate; cbn; auto. f_equal. auto. Qed.
Section Good.
  Variable nodes : list tnode.
  Variable mods : dict bool.
  Hypothesis G : good_trace nodes mods.
  Let g := build_graph nodes mods.

  Lemma good_ops : s_ops g = ops_of nodes. Proof. apply build_state, G. Qed.
  Lemma good_edges : s_edges g = edges_of nodes. Proof. apply build_state, G. Qed.
  Lemma is_op_names x : is_op g x <-> In x (op_names nodes).
  Proof. unfold is_op. rewrite good_ops, ops_keys. tauto. Qed.
  Lemma op_at_names i n nm : op_at nodes i n nm -> In nm (op_names nodes).
  Proof. intros (_ & H). eapply nth_error_In; eauto. Qed.
  Lemma op_at_fun i j n n' nm : op_at nodes i n nm -> op_at nodes j n' nm -> i = j.
  Proof.
    intros (A1 & A2) (B1 & B2). assert (N : NoDup (op_names nodes)) by (apply op_names_NoDup, G). rewrite NoDup_nth_error in N. apply N; [apply nth_error_Some; congruence|congruence].
  Qed.
  Lemma in_ops nm o : In (nm, o) (s_ops g) <-> exists i n, op_at nodes i n nm /\ o = mkOp (n_type n) (n_module n).
  Proof.
    rewrite good_ops. unfold ops_of. rewrite in_map_iff. split.
    - intros ((n, x) & E & H). apply in_combine_at in H. destruct H as (i & H). cbn in E. injection E as <- <-. eauto.
    - intros (i & n & H & ->). exists (n, nm). split; [reflexivity|]. apply in_combine_at. eauto.
  Qed.
  Lemma in_edges x y : In (x, y) (s_edges g) <-> exists i n nm, op_at nodes i n nm /\ ((y = nm /\ In x (n_ins n)) \/ (x = nm /\ In y (n_outs n))).
  Proof.
    rewrite good_edges. unfold edges_of. rewrite in_flat_map. split.
    - intros ((n, nm) & H & K). apply in_combine_at in H. destruct H as (i & H). cbn in K. exists i, n, nm. split; auto. apply in_app_or in K.
      destruct K as [K|K]; apply in_map_iff in K; destruct K as (t & E & I); injection E as <- <-; auto.
    - intros (i & n & nm & H & K). exists (n, nm). split; [apply in_combine_at; eauto|]. cbn. apply in_or_app. destruct K as [(-> & I)|(-> & I)]; [left|right]; apply in_map_iff; eauto.
  Qed.
  Lemma tensor_notop i n nm t : op_at nodes i n nm -> In t (n_ins n) \/ In t (n_outs n) -> ~ is_op g t.
  Proof.
    intros (H & _) K. rewrite is_op_names. destruct G as (_ & _ & _ & T & _). apply T. exists n. split; [eapply nth_error_In; eauto|auto].
  Qed.

  Lemma trace_wf : wf_graph g.
  Proof.
    split; [rewrite good_ops, ops_keys; apply op_names_NoDup, G|]. split; [|split; [|split]].
    - unfold g. destruct (build_state mods nodes (proj1 G)) as (_ & _ & -> & _). apply G.
    - intros x y H. apply in_edges in H. destruct H as (i & n & nm & H & [(-> & I)|(-> & I)]).
      + right. split; [eapply tensor_notop; eauto|apply is_op_names; eapply op_at_names; eauto].
      + left. split; [apply is_op_names; eapply op_at_names; eauto|eapply tensor_notop; eauto].
    - intros nm o H. apply in_ops in H. destruct H as (i & n & H & ->). cbn [o_module]. unfold g. destruct (build_state mods nodes (proj1 G)) as (_ & _ & -> & _). apply G. destruct H as (H & _). eapply nth_error_In; eauto.
    - intros nm o H. apply in_ops in H. destruct H as (i & n & H & ->). cbn [o_module]. destruct (build_state mods nodes (proj1 G)) as (_ & _ & _ & M & S). fold g in M, S.
      assert (In0 : In n nodes) by (destruct H as (H & _); eapply nth_error_In; eauto). specialize (M (n_module n)). specialize (S n In0).
      destruct (dget (s_mops g) (n_module n)) as [l|]; [|congruence]. exists l. split; [reflexivity|]. subst l. unfold mop_names. split.
      + assert (N : NoDup (map snd (combine nodes (op_names nodes)))).
        { assert (E : map snd (combine nodes (op_names nodes)) = op_names nodes); [|rewrite E; apply op_names_NoDup, G].
          apply combine_snd. apply (names_len [] nodes). }
        revert N. generalize (combine nodes (op_names nodes)). clear. intro l. induction l as [|x l IH]; cbn; intro N; [constructor|]. inversion N as [|? ? Nx Nl]; subst.
        destruct (String.eqb (n_module (fst x)) (n_module n)); auto. cbn. constructor; auto. intro K. apply Nx. apply in_map_iff in K. destruct K as (y & <- & K). apply filter_In in K. apply in_map. tauto.
      + intro nm'. rewrite in_map_iff. split.
        * intros ((n', x) & E & K). cbn in E. subst x. apply filter_In in K. destruct K as (K & Em). cbn in Em. apply String.eqb_eq in Em. apply in_combine_at in K. destruct K as (j & K).
          exists (mkOp (n_type n') (n_module n')). split; [apply in_ops; eauto|auto].
        * intros (o' & K & Em). apply in_ops in K. destruct K as (j & n' & K & ->). exists (n', nm'). split; [reflexivity|]. apply filter_In. split; [apply in_combine_at; eauto|]. cbn in *. rewrite Em. apply String.eqb_refl.
  Qed.

  Lemma trace_feeds a b : is_op g a -> (feeds g a b <-> exists i j ni nj t, op_at nodes i ni a /\ op_at nodes j nj b /\ In t (n_outs ni) /\ In t (n_ins nj)).
  Proof.
    intro Ha. split.
    - intros (t & H1 & H2). apply in_edges in H1. destruct H1 as (i & ni & nm & A1 & [(-> & I)|(-> & I)]); [exfalso; eapply tensor_notop; eauto|].
      apply in_edges in H2. destruct H2 as (j & nj & nm' & A2 & [(-> & I')|(-> & I')]); [exists i, j, ni, nj, t; auto|]. exfalso. eapply (tensor_notop i ni nm nm'); eauto. apply is_op_names; eapply op_at_names; eauto.
    - intros (i & j & ni & nj & t & A1 & A2 & I1 & I2). exists t. split; apply in_edges; [exists i, ni, a; auto|exists j, nj, b; auto].
  Qed.

  Lemma op_at_ex a : is_op g a -> exists i n, op_at nodes i n a.
  Proof.
    rewrite is_op_names. intro H. apply In_nth_error in H. destruct H as (i & H). assert (L : i < length nodes).
    { rewrite <- (names_len [] nodes). apply nth_error_Some. fold (op_names nodes). congruence. }
    apply nth_error_Some in L. destruct (nth_error nodes i) as [n|] eqn:E; [|congruence]. exists i, n. split; auto.
  Qed.
  Fixpoint index (x : string) (l : list string) : nat := match l with [] => 0 | y :: l => if String.eqb x y then 0 else S (index x l) end.
  Lemma index_at l : forall i x, NoDup l -> nth_error l i = Some x -> index x l = i.
  Proof.
    induction l as [|y l IH]; intros [|i] x N H; try discriminate; cbn in *.
    - injection H as ->. rewrite String.eqb_refl. auto.
    - inversion N as [|? ? Ny Nl]; subst. destruct (String.eqb_spec x y) as [->|Hn]; [exfalso; apply Ny; eapply nth_error_In; eauto|]. f_equal. apply IH; auto.
  Qed.
  Lemma trace_acyclic : acyclic g.
  Proof.
    exists (fun x => if in_dec string_dec x (op_names nodes) then S (index x (op_names nodes)) else 0). intros a b Ha F.
    apply trace_feeds in F; auto. destruct F as (i & j & ni & nj & t & A1 & A2 & I1 & I2).
    assert (N : NoDup (op_names nodes)) by (apply op_names_NoDup, G).
    destruct (in_dec string_dec a (op_names nodes)) as [_|K]; [|exfalso; apply K; eapply op_at_names; eauto]. destruct (in_dec string_dec b (op_names nodes)) as [_|K]; [|exfalso; apply K; eapply op_at_names; eauto].
    rewrite (index_at _ i a), (index_at _ j b); auto; try apply A1; try apply A2. apply -> Nat.succ_lt_mono. destruct G as (_ & _ & _ & _ & O). destruct A1, A2. eapply O; eauto.
  Qed.
End Good.

(** scope names *)
Lemma bracketed_skip s r : lacks "[" s -> bracketed None (s ++ r) = bracketed None r.
Proof.
  unfold lacks. induction s as [|c s IH]; intro H; auto. cbn. destruct (Ascii.eqb_spec c "["); [exfalso; apply H; left; auto|]. apply IH. intro; apply H; right; auto.
Qed.
Lemma bracketed_in s : forall p r, lacks "]" s -> bracketed (Some p) (s ++ String "]" r) = (p ++ s)%string :: bracketed None r.
Proof.
  unfold lacks. induction s as [|c s IH]; intros p r H; cbn.
  - replace (p ++ "")%string with p; auto. clear. induction p; cbn; f_equal; auto.
  - destruct (Ascii.eqb_spec c "]"); [exfalso; apply H; left; auto|]. rewrite IH by (intro; apply H; right; auto). f_equal. rewrite sapp_assoc. reflexivity.
Qed.
Lemma bracketed_tail path : Forall (fun p => lacks "[" (fst p) /\ lacks "]" (snd p)) path -> bracketed None (scope_tail path) = map snd path.
Proof.
  induction path as [|(cls, nm) path IH]; intro F; auto. inversion F as [|? ? (H1 & H2) F']; subst. cbn [scope_tail map snd fst] in *.
  change ("/" ++ cls ++ "[" ++ nm ++ "]" ++ scope_tail path)%string with (String "/" (cls ++ String "[" (nm ++ String "]" (scope_tail path))))%string.
  cbn [bracketed]. change (Ascii.eqb "/" "[") with false. cbn iota. rewrite bracketed_skip by auto. cbn [bracketed]. change (Ascii.eqb "[" "[") with true. cbn iota. rewrite bracketed_in by auto. cbn [append]. f_equal. auto.
Qed.
