(** Proofs about the greedy search. *)
From Coq Require Import String List ZArith QArith Bool Arith Lia Lqa.
From Verif Require Import Base GreedyModel GreedySpec.
Import ListNotations.
Open Scope list_scope.

(** * Dictionaries *)
Lemma dset_twice {A} (d : dict A) k a b : dset (dset d k a) k b = dset d k b.
Proof.
  induction d as [|(k', v') d IH]; simpl.
  - rewrite String.eqb_refl; auto.
  - destruct (String.eqb k k') eqn:E; simpl; rewrite E; [auto|f_equal; auto].
Qed.

Lemma dset_app {A} (d : dict A) k v : ~ In k (dkeys d) -> dset d k v = d ++ [(k, v)].
Proof.
  induction d as [|(k', v') d IH]; simpl; auto.
  intro H. destruct (String.eqb_spec k k'); [subst; tauto|]. f_equal; auto.
Qed.

Lemma nodup_snoc {A} (l : list A) x : NoDup l -> ~ In x l -> NoDup (l ++ [x]).
Proof.
  induction 1 as [|y l Hy Hnd IH]; simpl; intro H.
  - constructor; [intros []|constructor].
  - constructor; [|auto]. intro Hin. apply in_app_or in Hin. simpl in Hin. destruct Hin as [?|[?|[]]]; subst; tauto.
Qed.

Lemma nil_or_snoc {A} (l : list A) : l = [] \/ exists l' x, l = l' ++ [x].
Proof. induction l using rev_ind; eauto. Qed.

Definition keyadd (l : list string) (k : string) : list string :=
  if existsb (String.eqb k) l then l else l ++ [k].

Lemma existsb_In k l : existsb (String.eqb k) l = true <-> In k l.
Proof.
  rewrite existsb_exists. split.
  - intros (x & Hx & He). apply String.eqb_eq in He. congruence.
  - intro H; exists k; split; auto. apply String.eqb_refl.
Qed.

Lemma existsb_nIn k l : existsb (String.eqb k) l = false <-> ~ In k l.
Proof. rewrite <- existsb_In. destruct (existsb (String.eqb k) l); intuition congruence. Qed.

Lemma dset_keyadd {A} (d : dict A) k v : dkeys (dset d k v) = keyadd (dkeys d) k.
Proof.
  unfold keyadd. destruct (existsb (String.eqb k) (dkeys d)) eqn:E.
  - apply existsb_In in E. apply dset_keys_mem; auto.
  - apply existsb_nIn in E. rewrite dset_app; auto. unfold dkeys. rewrite map_app. auto.
Qed.

Lemma dupdate_keys e : forall d, dkeys (dupdate d e) = fold_left keyadd (dkeys e) (dkeys d).
Proof.
  induction e as [|(k, v) e IH]; intro d; simpl; auto.
  change (dupdate d ((k, v) :: e)) with (dupdate (dset d k v) e).
  rewrite IH, dset_keyadd. auto.
Qed.

Lemma keyadd_id l k : In k l -> keyadd l k = l.
Proof. intro H. unfold keyadd. apply existsb_In in H. rewrite H; auto. Qed.

Lemma keyadd_incl l k x : In x l -> In x (keyadd l k).
Proof. unfold keyadd. destruct (existsb (String.eqb k) l); auto. intro; apply in_or_app; auto. Qed.

Lemma keyadd_in l k : In k (keyadd l k).
Proof.
  unfold keyadd. destruct (existsb (String.eqb k) l) eqn:E; [apply existsb_In; auto|apply in_or_app; simpl; auto].
Qed.

Lemma keyadds_incl ks : forall l x, In x l -> In x (fold_left keyadd ks l).
Proof. induction ks as [|k ks IH]; simpl; auto. intros. apply IH, keyadd_incl; auto. Qed.

Lemma keyadds_in ks : forall l k, In k ks -> In k (fold_left keyadd ks l).
Proof.
  induction ks as [|k0 ks IH]; simpl; [tauto|]. intros l k [->|H]; [|auto].
  apply keyadds_incl, keyadd_in.
Qed.

Lemma keyadds_id ks : forall l, (forall k, In k ks -> In k l) -> fold_left keyadd ks l = l.
Proof. induction ks as [|k ks IH]; simpl; auto. intros l H. rewrite keyadd_id; auto. Qed.

Lemma keyadd_NoDup l k : NoDup l -> NoDup (keyadd l k).
Proof.
  intro H. unfold keyadd. destruct (existsb (String.eqb k) l) eqn:E; auto.
  apply existsb_nIn in E. apply nodup_snoc; auto.
Qed.

Lemma dupdate_NoDup d e : NoDup (dkeys d) -> NoDup (dkeys (dupdate d e)).
Proof.
  rewrite dupdate_keys. generalize (dkeys d) as l. induction (dkeys e) as [|k ks IH]; simpl; auto.
  intros l H. apply IH, keyadd_NoDup, H.
Qed.

Lemma dupdate_dget e : forall d k, NoDup (dkeys e) ->
  dget (dupdate d e) k = match dget e k with Some v => Some v | None => dget d k end.
Proof.
  induction e as [|(k0, v0) e IH]; intros d k Hnd; auto.
  change (dupdate d ((k0, v0) :: e)) with (dupdate (dset d k0 v0) e). inversion Hnd; subst.
  rewrite IH by auto. simpl. destruct (String.eqb_spec k k0).
  - subst. assert (dget e k0 = None) as -> by (apply dget_None_notin; auto). apply dget_dset_same.
  - rewrite dget_dset_other by auto. auto.
Qed.

Lemma dict_ext {A} (d : dict A) : forall e, dkeys d = dkeys e -> NoDup (dkeys d) ->
  (forall k, dget d k = dget e k) -> d = e.
Proof.
  induction d as [|(k, v) d IH]; intros [|(k', v') e]; simpl; try discriminate; auto.
  intros Hk Hnd Hg. inversion Hk; subst. inversion Hnd; subst.
  pose proof (Hg k') as H. rewrite String.eqb_refl in H. inversion H; subst.
  f_equal. apply IH; auto. intro k. specialize (Hg k).
  destruct (String.eqb_spec k k'); auto. subst.
  assert (dget d k' = None) as -> by (apply dget_None_notin; auto).
  symmetry. apply dget_None_notin. rewrite <- H1. auto.
Qed.

Lemma dupdate_over d c1 c2 : NoDup (dkeys d) -> NoDup (dkeys c1) -> dkeys c1 = dkeys c2 ->
  dupdate (dupdate d c1) c2 = dupdate d c2.
Proof.
  intros Hd H1 He. assert (NoDup (dkeys c2)) as H2 by congruence.
  apply dict_ext.
  - rewrite !dupdate_keys, He. apply keyadds_id. intros k Hk. apply keyadds_in; auto.
  - apply dupdate_NoDup, dupdate_NoDup, Hd.
  - intro k. rewrite !dupdate_dget by auto.
    destruct (dget c2 k) eqn:E2; auto. destruct (dget c1 k) eqn:E1; auto.
    apply dget_None_notin in E2. rewrite <- He in E2. apply dget_None_notin in E2. congruence.
Qed.

Lemma entry_dset b n v : entry_of (dset b n v) n = v.
Proof. unfold entry_of. rewrite dget_dset_same; auto. Qed.

Lemma update_ensure b n c : update_at (ensure b n) n c = Ok (dset b n (dupdate (entry_of b n) c)).
Proof.
  unfold ensure, entry_of, update_at. destruct (dget b n) as [[|kv d]|] eqn:E.
  - rewrite dget_dset_same, dset_twice; auto.
  - rewrite E; auto.
  - rewrite dget_dset_same, dset_twice; auto.
Qed.

(** * The search for one layer *)
Section One.
Variable score : dict ov -> res Q.
Variables (n : string) (b : dict ov).
Let f (c : ov) : res Q := score (dset b n (dupdate (entry_of b n) c)).

Definition reached (ks : list string) (S : dict ov) : Prop :=
  S = b \/ exists c, NoDup (dkeys c) /\ dkeys c = ks /\ S = dset b n (dupdate (entry_of b n) c).

Lemma reached_next ks S c : NoDup (dkeys (entry_of b n)) -> dkeys c = ks -> reached ks S ->
  update_at (ensure S n) n c = Ok (dset b n (dupdate (entry_of b n) c)).
Proof.
  intros Hnd Hc [->|(c' & Hc' & Hk & ->)]; rewrite update_ensure; auto.
  rewrite entry_dset, dset_twice, dupdate_over; auto. congruence.
Qed.

Definition best_at (cands : list ov) (o : ov) (q : Q) : Prop :=
  exists pre post, cands = pre ++ o :: post /\ f o = Ok q /\
    (forall c, In c pre -> exists p, f c = Ok p /\ p < q) /\
    (forall c, In c post -> exists p, f c = Ok p /\ p <= q).

Lemma qltb_lt x y : Qltb x y = true <-> x < y.
Proof.
  unfold Qltb. rewrite negb_true_iff. split; intro H.
  - apply Qnot_le_lt. intro Hle. apply Qle_bool_iff in Hle. congruence.
  - destruct (Qle_bool y x) eqn:E; auto. apply Qle_bool_iff in E. lra.
Qed.

Lemma qltb_ge x y : Qltb x y = false <-> y <= x.
Proof. unfold Qltb. rewrite negb_false_iff. apply Qle_bool_iff. Qed.

Lemma loop_best ks (Hnd : NoDup (dkeys (entry_of b n))) l :
  (forall c, In c l -> NoDup (dkeys c) /\ dkeys c = ks) ->
  forall done S bp bl st, best_at done bl bp -> reached ks S ->
  foldM (try_override score n) l (S, Some bp, bl) = Ok st -> exists q, best_at (done ++ l) (snd st) q.
Proof.
  induction l as [|c l IH]; intros Hl done S bp bl st Hb HS H.
  - cbn [foldM] in H. inversion H; subst. rewrite app_nil_r. simpl. eauto.
  - cbn [foldM] in H. apply bind_ok in H. destruct H as (st1 & H1 & H2).
    unfold try_override in H1. destruct (Hl c (or_introl eq_refl)) as (Hc1 & Hc2).
    rewrite (reached_next ks) in H1 by auto. cbn [bind] in H1.
    apply bind_ok in H1. destruct H1 as (p & Hp & H1). fold (f c) in Hp.
    replace (done ++ c :: l) with ((done ++ [c]) ++ l) by (rewrite <- app_assoc; auto).
    assert (reached ks (dset b n (dupdate (entry_of b n) c))) as HS' by (right; exists c; auto).
    assert (forall x, In x l -> NoDup (dkeys x) /\ dkeys x = ks) as Hl' by (intros; apply Hl; simpl; auto).
    destruct Hb as (pre & post & -> & Ho & Hpre & Hpost).
    destruct (Qltb bp p) eqn:E; inversion H1; subst; clear H1.
    + apply qltb_lt in E. eapply IH; [auto| |exact HS'|exact H2].
      exists (pre ++ bl :: post), []. split; [auto|]. split; [auto|]. split; [|simpl; tauto].
      intros x Hx. apply in_app_or in Hx. simpl in Hx. destruct Hx as [Hx|[<-|Hx]].
      * destruct (Hpre _ Hx) as (r & Hr & ?). exists r; split; auto; lra.
      * exists bp; auto.
      * destruct (Hpost _ Hx) as (r & Hr & ?). exists r; split; auto; lra.
    + apply qltb_ge in E. eapply IH; [auto| |exact HS'|exact H2].
      exists pre, (post ++ [c]). split; [rewrite <- app_assoc; auto|]. split; [auto|]. split; [auto|].
      intros x Hx. apply in_app_or in Hx. simpl in Hx. destruct Hx as [Hx|[<-|[]]]; eauto.
Qed.

Lemma search_best cands o : NoDup (dkeys (entry_of b n)) -> uniform cands ->
  search_best_local_settings score n b cands = Ok o ->
  (cands = [] /\ o = []) \/ first_best f cands o.
Proof.
  intros Hnd (Hu1 & Hu2) H. unfold search_best_local_settings in H.
  apply bind_ok in H. destruct H as (st & H & Ho). inversion Ho; subst; clear Ho.
  destruct cands as [|c l].
  - cbn [foldM] in H. inversion H; subst. left; auto.
  - right. cbn [foldM] in H. apply bind_ok in H. destruct H as (st1 & H1 & H2).
    unfold try_override in H1. rewrite (reached_next (dkeys c)) in H1 by (auto; left; auto). cbn [bind] in H1.
    apply bind_ok in H1. destruct H1 as (p & Hp & H1). fold (f c) in Hp. inversion H1; subst; clear H1.
    assert (exists q, best_at ([c] ++ l) (snd st) q) as (q & pre & post & He & Hf & Hpre & Hpost).
    { eapply (loop_best (dkeys c) Hnd); [| | |exact H2].
      - intros x Hx. split; [apply Hu1; simpl; auto|apply Hu2; simpl; auto].
      - exists [], []. split; [auto|]. split; [auto|]. simpl; tauto.
      - right. exists c. split; [apply Hu1; simpl; auto|auto]. }
    exists pre, q, post. simpl in He. auto.
Qed.

Lemma search_total cands : NoDup (dkeys (entry_of b n)) -> uniform cands ->
  (forall c, In c cands -> exists q, f c = Ok q) ->
  exists o, search_best_local_settings score n b cands = Ok o.
Proof.
  intros Hnd (Hu1 & Hu2) Hs. unfold search_best_local_settings.
  assert (forall ks l, (forall c, In c l -> NoDup (dkeys c) /\ dkeys c = ks /\ exists q, f c = Ok q) ->
    forall S bp bl, reached ks S -> exists st, foldM (try_override score n) l (S, bp, bl) = Ok st) as L.
  { intros ks l. induction l as [|c l IH]; intros Hl S bp bl HS; cbn [foldM]; eauto.
    destruct (Hl c (or_introl eq_refl)) as (Hc1 & Hc2 & q & Hq).
    unfold try_override at 1. rewrite (reached_next ks) by auto. cbn [bind]. unfold f in Hq. rewrite Hq. cbn [bind].
    assert (reached ks (dset b n (dupdate (entry_of b n) c))) as HS' by (right; exists c; auto).
    destruct (match bp with Some b0 => Qltb b0 q | None => true end); cbn [bind];
      apply IH; auto; intros; apply Hl; simpl; auto. }
  destruct cands as [|c l].
  - exists []. reflexivity.
  - destruct (L (dkeys c) (c :: l)) with (S := b) (bp := @None Q) (bl := @nil (string * val)) as (st & Hst).
    + intros x Hx. split; [apply Hu1; auto|]. split; [apply Hu2; simpl; auto|]. auto.
    + left; auto.
    + exists (snd st). unfold ov, dict in *. rewrite Hst. auto.
Qed.

(** Whatever the candidates, the search returns one of them. *)
Lemma search_in cands o : search_best_local_settings score n b cands = Ok o ->
  (cands = [] /\ o = []) \/ In o cands.
Proof.
  intros H. unfold search_best_local_settings in H.
  apply bind_ok in H. destruct H as (st & H & Ho). inversion Ho; subst; clear Ho.
  destruct cands as [|c l]; [cbn [foldM] in H; inversion H; subst; left; auto|].
  right.
  cbn [foldM] in H. apply bind_ok in H. destruct H as (st1 & H1 & H2).
  assert (snd st1 = c /\ exists x, snd (fst st1) = Some x) as (Hc & Hx).
  { unfold try_override in H1. apply bind_ok in H1. destruct H1 as (o' & _ & H1).
    apply bind_ok in H1. destruct H1 as (p & _ & H1). inversion H1; subst; simpl; eauto. }
  assert (In (snd st1) (c :: l)) as Hin by (rewrite Hc; simpl; auto).
  refine (foldM_inv (try_override score n) (fun s => In (snd s) (c :: l)) l _ st1 st Hin H2).
  intros ((S & bp) & bl) a s' Ha Hp Hs. unfold try_override in Hs. apply bind_ok in Hs. destruct Hs as (o' & _ & Hs).
  apply bind_ok in Hs. destruct Hs as (p & _ & Hs).
  destruct (match bp with None => true | Some b0 => Qltb b0 p end); inversion Hs; subst; simpl in *; auto.
Qed.
End One.

Lemma fc_ok b n : fc_workaround n (ensure b n) = Ok (dset b n (base_of b n)) \/
  (n <> "fc"%string /\ fc_workaround n (ensure b n) = Ok (ensure b n)).
Proof.
  unfold fc_workaround. destruct (String.eqb_spec n "fc") as [->|H]; [left|right; auto].
  rewrite update_ensure. unfold base_of, start_of. simpl String.eqb. auto.
Qed.

Lemma ensure_spec b n : entry_of (ensure b n) n = entry_of b n /\ forall v, dset (ensure b n) n v = dset b n v.
Proof.
  unfold ensure, entry_of. destruct (dget b n) as [[|kv d]|] eqn:E.
  - rewrite dget_dset_same. split; auto. intros. apply dset_twice.
  - rewrite E. auto.
  - rewrite dget_dset_same. split; auto. intros. apply dset_twice.
Qed.

Lemma dset_same b n v : dget b n = Some v -> dset b n v = (b : dict ov).
Proof.
  induction b as [|(k, w) b IH]; simpl; [discriminate|].
  destruct (String.eqb_spec n k); intro H; [inversion H; subst; auto|f_equal; auto].
Qed.

Lemma ensure_dset b n : ensure b n = dset b n (entry_of b n).
Proof.
  unfold ensure, entry_of. destruct (dget b n) as [[|kv d]|] eqn:E; auto.
  rewrite dset_same; auto.
Qed.

Lemma fc_base b n : fc_workaround n (ensure b n) = Ok (dset b n (base_of b n)).
Proof.
  destruct (fc_ok b n) as [H|(Hn & H)]; auto. rewrite H, ensure_dset. unfold base_of, start_of.
  destruct (String.eqb_spec n "fc"); [tauto|]. auto.
Qed.

Lemma start_NoDup n : NoDup (dkeys (start_of n)).
Proof. unfold start_of. destruct (String.eqb n "fc"); repeat constructor; simpl; tauto. Qed.

Lemma entry_dset_other (b : dict ov) n m v : n <> m -> entry_of (dset b n v) m = entry_of b m.
Proof. intro H. unfold entry_of. rewrite dget_dset_other by auto. auto. Qed.

Lemma prefixes_snoc {A} (l : list A) x : prefixes (l ++ [x]) = prefixes l ++ [l ++ [x]].
Proof. induction l as [|y l IH]; simpl; auto. rewrite IH, map_app. auto. Qed.

Lemma base_fresh b n : ~ In n (dkeys b) -> base_of b n = start_of n.
Proof.
  intro H. unfold base_of, entry_of. assert (dget b n = None) as -> by (apply dget_None_notin; auto).
  unfold start_of. destruct (String.eqb n "fc"); auto.
Qed.

(** * The whole search *)
Section Whole.
Variable score : dict ov -> res Q.
Variable modules : dict mclass.
Variable gen : string -> dict ov -> res (list ov).
Let step := module_step score modules gen.

Definition skipped (n : string) : bool := match dget modules n with Some c => is_skip c | None => false end.

(** What one step does when the layer is not taken from the checkpoint. *)
Lemma step_search b loaded saved n st : skipped n = false ->
  dmem b n && has (entry_of b n) "bits_activations" && negb (existsb (String.eqb n) loaded) = false ->
  step (b, loaded, saved) n = Ok st ->
  exists cands o, gen n (dset b n (base_of b n)) = Ok cands /\
    search_best_local_settings score n (dset b n (base_of b n)) cands = Ok o /\
    st = (dset b n (dupdate (base_of b n) o), loaded, saved ++ [dset b n (dupdate (base_of b n) o)]).
Proof.
  intros Hs Hc H. unfold step, module_step in H. apply bind_ok in H. destruct H as (c & Hm & H).
  unfold module_of in Hm. unfold skipped in Hs. destruct (dget modules n) as [c'|]; inversion Hm; subst. rewrite Hs in H.
  fold (entry_of b n) in H. rewrite Hc in H. rewrite fc_base in H. cbn [bind] in H.
  apply bind_ok in H. destruct H as (cands & Hg & H). apply bind_ok in H. destruct H as (o & Ho & H).
  unfold update_at in H. rewrite dget_dset_same in H. cbn [bind] in H. inversion H; subst. rewrite dset_twice.
  exists cands, o. auto.
Qed.

Lemma step_search_ok b loaded saved n c cands o : dget modules n = Some c -> is_skip c = false ->
  dmem b n && has (entry_of b n) "bits_activations" && negb (existsb (String.eqb n) loaded) = false ->
  gen n (dset b n (base_of b n)) = Ok cands ->
  search_best_local_settings score n (dset b n (base_of b n)) cands = Ok o ->
  step (b, loaded, saved) n = Ok (dset b n (dupdate (base_of b n) o), loaded, saved ++ [dset b n (dupdate (base_of b n) o)]).
Proof.
  intros Hm Hs Hc Hg Ho. unfold step, module_step, module_of. rewrite Hm. cbn [bind]. rewrite Hs.
  fold (entry_of b n). rewrite Hc, fc_base. cbn [bind]. rewrite Hg. cbn [bind]. rewrite Ho. cbn [bind].
  unfold update_at. rewrite dget_dset_same. cbn [bind]. rewrite dset_twice. auto.
Qed.

Lemma step_skip st n st' : skipped n = true -> step st n = Ok st' -> st' = st.
Proof.
  intros Hs H. unfold step, module_step in H. destruct st as ((b & l) & s). apply bind_ok in H. destruct H as (c & Hm & H).
  unfold module_of in Hm. unfold skipped in Hs. destruct (dget modules n); inversion Hm; subst. rewrite Hs in H. congruence.
Qed.

Definition not_done (b : dict ov) (n : string) : Prop := has (entry_of b n) "bits_activations" = false.

(** entries are dictionaries *)
Definition wf_entries (b : dict ov) : Prop := forall n, NoDup (dkeys (entry_of b n)).

Lemma wf_dset b n v : wf_entries b -> NoDup (dkeys v) -> wf_entries (dset b n v).
Proof.
  intros Hb Hv m. destruct (string_dec n m) as [->|H]; [rewrite entry_dset; auto|rewrite entry_dset_other; auto].
Qed.

Lemma base_NoDup b n : wf_entries b -> NoDup (dkeys (base_of b n)).
Proof. intro H. apply dupdate_NoDup, H. Qed.

Lemma chain_run l : forall b saved st,
  (forall n d cands, gen n d = Ok cands -> uniform cands) -> wf_entries b ->
  NoDup l -> (forall n, In n l -> not_done b n) ->
  foldM step l (b, [], saved) = Ok st ->
  exists new, st = (fst (fst st), [], saved ++ new) /\
    greedy_chain score gen (filter (fun n => negb (skipped n)) l) b new (fst (fst st)).
Proof.
  induction l as [|n l IH]; intros b saved st Hg Hb Hnd Hn H; cbn [foldM] in H.
  - inversion H; subst. exists []. rewrite app_nil_r. split; auto. constructor.
  - apply bind_ok in H. destruct H as (st1 & H1 & H2). inversion Hnd; subst. simpl filter.
    destruct (skipped n) eqn:Es.
    + apply step_skip in H1; auto. subst st1. simpl negb. cbv iota. apply IH in H2; auto. intros; apply Hn; simpl; auto.
    + simpl negb. cbv iota. apply step_search in H1; auto.
      2: { pose proof (Hn n (or_introl eq_refl)) as Hx. unfold not_done in Hx. rewrite Hx, andb_false_r. auto. }
      destruct H1 as (cands & o & Hc & Ho & ->).
      apply IH in H2; auto.
      * destruct H2 as (new & He & Hch). exists (dset b n (dupdate (base_of b n) o) :: new). split.
        { rewrite He at 1. rewrite <- app_assoc. auto. }
        apply chain_layer with (cands := cands); auto.
        apply search_best in Ho.
        -- destruct Ho as [Ho|(pre & q & post & Ho)]; [left; auto|right]. exists pre, q, post.
           rewrite entry_dset in Ho. destruct Ho as (Ho1 & Ho2 & Ho3 & Ho4). rewrite dset_twice in Ho2. split; [auto|]. split; [auto|].
           split; intros c Hin; [apply Ho3 in Hin|apply Ho4 in Hin]; rewrite dset_twice in Hin; auto.
        -- rewrite entry_dset. apply base_NoDup; auto.
        -- apply Hg in Hc. auto.
      * apply wf_dset; auto. apply dupdate_NoDup, base_NoDup; auto.
      * intros m Hm. unfold not_done. rewrite entry_dset_other by (intro; subst; tauto). apply Hn; simpl; auto.
Qed.

(** ** A fresh search: the closed form *)
Lemma chain_closed names b saved final : greedy_chain score gen names b saved final ->
  NoDup (dkeys b ++ names) -> greedy_outcome score gen b ->
  exists rest, final = b ++ rest /\ dkeys rest = names /\ prefixes final = prefixes b ++ saved /\ greedy_outcome score gen final.
Proof.
  induction 1 as [b|n names b cands o saved final Hg Ho Hch IH]; intros Hnd Hb.
  - exists []. rewrite !app_nil_r. auto.
  - assert (~ In n (dkeys b)) as Hn.
    { intro Hin. apply NoDup_remove_2 in Hnd. apply Hnd, in_or_app; auto. }
    rewrite (base_fresh b n Hn) in *. rewrite (dset_app b n) in * by auto.
    destruct IH as (rest & -> & Hk & Hp & Ho').
    + unfold dkeys in *. rewrite map_app, <- app_assoc. auto.
    + intros pre m e post He.
      destruct (@nil_or_snoc _ post) as [->|(post' & x & ->)].
      * apply app_inj_tail in He. destruct He as (<- & He). inversion He; subst.
        exists cands, o. split; auto. split; auto. destruct Ho as [Ho|(p1 & q & p2 & Ho)]; [left; auto|right].
        exists p1, q, p2. destruct Ho as (Ho1 & Ho2 & Ho3 & Ho4). rewrite (dset_app b m) in Ho2 by auto.
        split; auto. split; auto. split; intros c Hin; [apply Ho3 in Hin|apply Ho4 in Hin]; rewrite (dset_app b m) in Hin by auto; auto.
      * rewrite app_comm_cons, app_assoc in He. apply app_inj_tail in He. destruct He as (He & _).
        apply (Hb pre m e post' He).
    + exists ((n, dupdate (start_of n) o) :: rest). rewrite <- app_assoc. split; auto. split; [simpl; f_equal; auto|].
      rewrite <- app_assoc in Hp. split; [|rewrite <- app_assoc in Ho'; auto].
      etransitivity; [exact Hp|]. rewrite prefixes_snoc, <- app_assoc. auto.
Qed.
End Whole.
