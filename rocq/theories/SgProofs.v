(** Proofs about the summary-graph queries. *)
From Coq Require Import String List Bool Arith Lia Permutation Sorting.Sorted.
From Verif Require Import Base SgModel SgSpec.
Import ListNotations.
Open Scope list_scope.

Lemma smem_In x l : smem x l = true <-> In x l.
Proof.
  unfold smem. rewrite existsb_exists. split; [intros (y & H & E); apply String.eqb_eq in E; subst; auto|]. intro H. exists x. rewrite String.eqb_refl. auto.
Qed.
Definition edge (fwd : bool) (es : list (string * string)) (a b : string) : Prop := In (if fwd then (a, b) else (b, a)) es.
Lemma step_edges_in fwd es n done x : In x (step_edges fwd es n done) <-> edge fwd es n x /\ ~ In x done.
Proof.
  unfold step_edges, edge. rewrite filter_In, in_map_iff, negb_true_iff, <- Bool.not_true_iff_false, smem_In. split.
  - intros (((a, b) & E & H) & N). apply filter_In in H. destruct H as (H & Q). apply String.eqb_eq in Q. split; auto. destruct fwd; cbn in *; subst; auto.
  - intros (H & N). split; auto. destruct fwd; [exists (n, x)|exists (x, n)]; (split; [reflexivity|apply filter_In; split; [auto|apply String.eqb_refl]]).
Qed.
Lemma fold0 fwd es l : forall acc done,
  exists added, fold_left (fun s x => let r := neighbours fwd es 0 x (snd s) in (fst s ++ fst r, snd r)) l (acc, done) = (acc ++ added, done ++ added) /\
    forall x, In x added <-> ~ In x done /\ exists t, In t l /\ edge fwd es t x.
Proof.
  induction l as [|t l IH]; intros acc done.
  - exists []. rewrite !app_nil_r. split; [reflexivity|]. intro x. cbn. firstorder.
  - cbn [fold_left]. cbn [neighbours fst snd]. destruct (IH (acc ++ step_edges fwd es t done) (done ++ step_edges fwd es t done)) as (ad & E & H).
    exists (step_edges fwd es t done ++ ad). rewrite !app_assoc. split; [exact E|]. intro x. rewrite in_app_iff, H, step_edges_in, in_app_iff, step_edges_in. split.
    + intros [(A & B)|(A & t' & B & C)]; [split; auto; exists t; split; [left; auto|auto]|]. split; [tauto|]. exists t'. split; [right; auto|auto].
    + intros (A & t' & [<-|B] & C); [left; auto|]. destruct (in_dec string_dec x (step_edges fwd es t done)) as [K|K]; [left; apply step_edges_in in K; auto|].
      right. rewrite step_edges_in in K. split; [tauto|]. exists t'. auto.
Qed.
Lemma neighbours2 fwd es n x : In x (fst (neighbours fwd es 1 n [])) <-> (exists t, edge fwd es n t /\ edge fwd es t x) /\ ~ edge fwd es n x.
Proof.
  set (next := step_edges fwd es n []).
  change (neighbours fwd es 1 n []) with (fold_left (fun s x => let r := neighbours fwd es 0 x (snd s) in (fst s ++ fst r, snd r)) next ([], next)).
  destruct (fold0 fwd es next [] next) as (ad & E & H). rewrite E. cbn [fst app]. rewrite H.
  unfold next. rewrite step_edges_in. split.
  - intros (A & t & B & C). apply step_edges_in in B. split; [exists t; tauto|]. intro K. apply A. split; auto.
  - intros ((t & A & B) & C). split; [tauto|]. exists t. split; auto. apply step_edges_in. auto.
Qed.

Lemma has_type_op g n t : has_type g n t -> is_op g n.
Proof. intros (m & H). apply (in_map fst) in H. exact H. Qed.
Lemma op_dget g n : is_op g n -> exists o, dget (s_ops g) n = Some o.
Proof.
  intro H. destruct (dget (s_ops g) n) eqn:E; eauto. apply dget_None_notin in E. contradiction.
Qed.
Lemma nodup_pair {A} (d : dict A) k v v' : NoDup (dkeys d) -> In (k, v) d -> In (k, v') d -> v = v'.
Proof. intros N H1 H2. apply (In_dget d) in H1; auto. apply (In_dget d) in H2; auto. congruence. Qed.

Section G.
  Variable g : sgraph.
  Hypothesis W : wf_graph g.

  Lemma feeds_ops a b : is_op g a -> feeds g a b -> is_op g b.
  Proof.
    destruct W as (_ & _ & E & _). intros Ha (t & H1 & H2). destruct (E _ _ H1) as [(_ & N)|(N & _)]; [|contradiction]. destruct (E _ _ H2) as [(K & _)|(_ & K)]; [contradiction|auto].
  Qed.
  Lemma feeds_ops' a b : is_op g b -> feeds g a b -> is_op g a.
  Proof.
    destruct W as (_ & _ & E & _). intros Ha (t & H1 & H2). destruct (E _ _ H2) as [(_ & N)|(N & _)]; [contradiction|]. destruct (E _ _ H1) as [(K & _)|(_ & K)]; [auto|contradiction].
  Qed.
  Lemma successors2 n x : is_op g n -> (In x (successors g n 2) <-> feeds g n x).
  Proof.
    intro Hn. unfold successors. cbn [Nat.sub]. rewrite neighbours2. unfold edge, feeds. split; [tauto|]. intro H. split; auto. intro K.
    assert (Ox := feeds_ops n x Hn H). destruct W as (_ & _ & E & _). destruct (E _ _ K) as [(_ & ?)|(? & _)]; contradiction.
  Qed.
  Lemma predecessors2 n x : is_op g n -> (In x (predecessors g n 2) <-> feeds g x n).
  Proof.
    intro Hn. unfold predecessors. cbn [Nat.sub]. rewrite neighbours2. unfold edge, feeds. split.
    - intros ((t & H1 & H2) & _). eauto.
    - intros (t & H1 & H2). split; [eauto|]. intro K.
      assert (Ox : is_op g x) by (apply (feeds_ops' x n); auto; exists t; auto). destruct W as (_ & _ & E & _). destruct (E _ _ K) as [(_ & ?)|(? & _)]; contradiction.
  Qed.

  Lemma dedicated_spec only n : is_op g n -> exists b, dedicated_check g only n = Ok b /\ (b = true <-> shown g only n).
  Proof.
    intro Hn. destruct W as (N1 & N2 & _ & M & L). unfold dedicated_check. destruct only.
    2:{ exists true. split; [reflexivity|]. split; [intros _; split; [auto|discriminate]|auto]. }
    cbn [negb]. destruct (op_dget g n Hn) as (o & Eo). rewrite Eo. assert (Io := dget_In _ _ _ Eo).
    destruct (dget (s_mods g) (o_module o)) as [hc|] eqn:Em; [|apply dget_None_notin in Em; exfalso; apply Em; eapply M; eauto].
    destruct (L _ _ Io) as (l & El & Nl & Hl). rewrite El. eexists. split; [reflexivity|]. rewrite andb_true_iff, Nat.eqb_eq, negb_true_iff. split.
    - intros (Len & ->). split; auto. intros _. exists o. split; auto. split; [apply dget_In; auto|]. intros n' o' H' E'.
      destruct l as [|x [|]]; try discriminate. assert (A : In n [x]) by (apply Hl; eauto). assert (B : In n' [x]) by (apply Hl; eauto).
      destruct A as [<-|[]], B as [<-|[]]. auto.
    - intros (_ & D). destruct (D eq_refl) as (o2 & I2 & M2 & U). assert (o2 = o) as -> by (eapply nodup_pair; eauto). split.
      + assert (A : forall x, In x l -> x = n) by (intros x Hx; apply Hl in Hx; destruct Hx as (o' & Io' & Eo'); eapply U; eauto).
        assert (B : In n l) by (apply Hl; eauto). destruct l as [|x [|y l]]; [destruct B|auto|]. exfalso. inversion Nl as [|? ? Nx _]; subst. apply Nx. rewrite (A x), (A y); cbn; auto.
      + apply (In_dget _ _ _ N2) in M2. congruence.
  Qed.

  Lemma metas_spec only l : Forall (is_op g) l -> exists r, metas g only l = Ok r /\ forall b t, In (b, t) r <-> In b l /\ shown g only b /\ has_type g b t.
  Proof.
    induction l as [|n l IH]; intro F.
    - exists []. split; [reflexivity|]. intros; cbn; tauto.
    - inversion F as [|? ? Hn F']; subst. destruct (IH F') as (r & E & H). cbn [metas]. destruct (dedicated_spec only n Hn) as (b & Eb & Hb). rewrite Eb. cbn [bind]. destruct b.
      + destruct (op_dget g n Hn) as (o & Eo). rewrite Eo, E. cbn [bind]. eexists. split; [reflexivity|]. intros b t. cbn [In]. rewrite H. split.
        * intros [K|K]; [|tauto]. injection K as <- <-. split; [auto|]. split; [apply Hb; auto|]. exists (o_module o). destruct o. apply dget_In; auto.
        * intros ([<-|K] & S & T); [left|right; auto]. f_equal. destruct T as (m & T). apply In_dget in T; [|apply W]. rewrite Eo in T. injection T as ->. reflexivity.
      + rewrite E. exists r. split; [reflexivity|]. intros b t. rewrite H. cbn [In]. split; [tauto|]. intros ([<-|K] & S & T); [|tauto]. apply Hb in S. discriminate.
  Qed.

  Lemma Forall_succ n : is_op g n -> Forall (is_op g) (successors g n 2).
  Proof. intro Hn. apply Forall_forall. intros x Hx. apply successors2 in Hx; auto. eapply feeds_ops; eauto. Qed.
  Lemma Forall_pred n : is_op g n -> Forall (is_op g) (predecessors g n 2).
  Proof. intro Hn. apply Forall_forall. intros x Hx. apply predecessors2 in Hx; auto. eapply feeds_ops'; eauto. Qed.

  Definition entry_ok (only : bool) (n : string) (e : entry) : Prop :=
    has_type g n (e_type e) /\
    (forall b t, In (b, t) (e_succs e) <-> feeds g n b /\ shown g only b /\ has_type g b t) /\
    (forall b t, In (b, t) (e_preds e) <-> feeds g b n /\ shown g only b /\ has_type g b t).

  Definition keepb (only : bool) (n : string) : bool := match dedicated_check g only n with Ok b => b | Raise _ => false end.
  Lemma build_fold only l : forall m, (forall n o, In (n, o) l -> In (n, o) (s_ops g)) -> NoDup (dkeys l) -> NoDup (dkeys m) -> (forall n, In n (dkeys l) -> ~ In n (dkeys m)) ->
    (forall n e, dget m n = Some e -> entry_ok only n e) ->
    exists m', foldM (adj_body g only) l m = Ok m' /\ NoDup (dkeys m') /\ (forall n e, dget m' n = Some e -> entry_ok only n e) /\
      (forall n, In n (dkeys m') <-> In n (dkeys m) \/ (In n (dkeys l) /\ shown g only n)) /\
      dkeys m' = dkeys m ++ filter (keepb only) (dkeys l).
  Proof.
    induction l as [|(n, o) l IH]; intros m Hl Nl Nm Dj Ok0.
    - exists m. split; [reflexivity|]. split; [auto|]. split; [auto|]. split; [intro n; cbn; tauto|]. cbn. rewrite app_nil_r. auto.
    - cbn [foldM adj_body]. inversion Nl as [|? ? Nn Nl']; subst. assert (In0 := Hl n o (or_introl eq_refl)).
      assert (Hn : is_op g n) by (apply (in_map fst) in In0; exact In0).
      destruct (dedicated_spec only n Hn) as (b & Eb & Hb). rewrite Eb. cbn [bind]. destruct b.
      + destruct (metas_spec only _ (Forall_pred n Hn)) as (ps & Ep & Hp). destruct (metas_spec only _ (Forall_succ n Hn)) as (ss & Es & Hs).
        rewrite Ep, Es. cbn [bind].
        destruct (IH (dset m n (mkEntry (o_type o) ps ss))) as (m' & E & A & B & C & D); auto.
        * intros; apply Hl; right; auto.
        * apply dset_NoDup; auto.
        * intros n' Hn' K. rewrite dset_keys_new in K by (apply Dj; left; auto). apply in_app_or in K. destruct K as [K|[<-|[]]]; [|contradiction]. apply (Dj n'); auto. right; auto.
        * intros n' e H'. destruct (string_dec n n') as [<-|Hne].
          -- rewrite dget_dset_same in H'. injection H' as <-. split; [exists (o_module o); destruct o; auto|]. cbn [e_succs e_preds]. split; intros b t.
             ++ rewrite Hs, successors2 by auto. tauto.
             ++ rewrite Hp, predecessors2 by auto. tauto.
          -- rewrite dget_dset_other in H' by auto. apply Ok0; auto.
        * exists m'. split; [exact E|]. split; [auto|]. split; [auto|]. split; [|rewrite D, dset_keys_new by (apply Dj; left; auto); cbn [dkeys map fst filter]; unfold keepb at 2; rewrite Eb, <- app_assoc; reflexivity].
          intro n'. rewrite C. rewrite dset_keys_new by (apply Dj; left; auto). rewrite in_app_iff. cbn [In dkeys map fst].
          split; [intros [[K|[<-|[]]]|K]; [auto|right; split; [auto|apply Hb; auto]|right; split; tauto]|]. intros [K|([<-|K] & S)]; auto.
      + destruct (IH m) as (m' & E & A & B & C & D); auto.
        * intros; apply Hl; right; auto.
        * intros n' Hn'. apply Dj. right; auto.
        * exists m'. split; [exact E|]. split; [auto|]. split; [auto|]. split; [|rewrite D; cbn [dkeys map fst filter]; unfold keepb at 2; rewrite Eb; reflexivity].
          intro n'. rewrite C. cbn [In dkeys map fst]. split; [tauto|]. intros [K|([<-|K] & S)]; auto. apply Hb in S. discriminate.
  Qed.

  Lemma build_adj_spec only : exists m, build_adj g only = Ok m /\ is_adjacency g only m.
  Proof.
    destruct (build_fold only (s_ops g) [] ltac:(auto) ltac:(apply W) ltac:(constructor) ltac:(cbn; auto) ltac:(discriminate)) as (m & E & A & B & C & D).
    exists m. split; [exact E|]. split; auto. split; [intro n; rewrite C; cbn; unfold shown, is_op; tauto|]. split; [exists (keepb only); rewrite D; reflexivity|auto].
  Qed.
End G.
