From Coq Require Import String Ascii List ZArith QArith Qround Qabs Bool Arith Sorted Lia Lqa.
From Verif Require Import Base Lists Names PrunerModel StructModel QuantModel QuantProofs AmcModel AmcSpec.
Import ListNotations.
Local Open Scope string_scope.
Open Scope list_scope.

(** * Sums *)
Lemma qsum_cons x a : qsum (x :: a) = (x + qsum a)%Q. Proof. reflexivity. Qed.
Lemma qsum_app a b : (qsum (a ++ b) == qsum a + qsum b)%Q.
Proof. induction a as [|x a IH]; cbn [app]; [change (qsum []) with 0%Q; ring|]. rewrite !qsum_cons, IH. ring. Qed.
Lemma qsum_sub {A} (f : A -> Q) ids : forall l, (forall i, In i l -> 0 <= f i)%Q -> NoDup ids -> incl ids l -> (qsum (map f ids) <= qsum (map f l))%Q.
Proof.
  induction ids as [|i ids IH]; intros l P N I.
  - cbn. clear N I. induction l as [|x l IHl]; [discriminate|]. cbn [map]. rewrite qsum_cons.
    assert (0 <= f x)%Q by (apply P; left; auto). assert (0 <= qsum (map f l))%Q by (apply IHl; intros; apply P; right; auto). lra.
  - destruct (in_split i l) as (l1 & l2 & ->); [apply I; left; auto|]. inversion N as [|? ? Ni N']; subst.
    assert (H : (qsum (map f ids) <= qsum (map f (l1 ++ l2)))%Q).
    { apply IH; auto.
      - intros j Hj. apply P. rewrite in_app_iff in *. cbn. tauto.
      - intros j Hj. assert (Hj' : In j (l1 ++ i :: l2)) by (apply I; right; auto). rewrite in_app_iff in *. destruct Hj' as [|[->|]]; auto. tauto. }
    cbn [map]. rewrite qsum_cons. rewrite map_app in *. cbn [map]. rewrite !qsum_app in *. rewrite qsum_cons. lra.
Qed.

(** * Names *)
Lemma filter_name ls n l : NoDup (map al_name ls) -> In l ls -> al_name l = n -> filter (fun l => String.eqb (al_name l) n) ls = [l].
Proof.
  induction ls as [|x ls IH]; intros N H E; [destruct H|]. cbn [filter map] in *. inversion N as [|? ? Nx N']; subst. destruct H as [->|H].
  - rewrite String.eqb_refl. f_equal. clear - Nx. induction ls as [|y ls IH]; auto. cbn [filter]. cbn in Nx.
    destruct (String.eqb_spec (al_name y) (al_name l)); [tauto|]. apply IH. tauto.
  - destruct (String.eqb_spec (al_name x) (al_name l)) as [K|K]; [|apply IH; auto]. exfalso. apply Nx. rewrite K. apply in_map; auto.
Qed.
Lemma name2layer_in ls n l : NoDup (map al_name ls) -> In l ls -> al_name l = n -> name2layer ls n = Ok l.
Proof. intros N H E. unfold name2layer. rewrite (filter_name ls n l); auto. Qed.
Lemma ids_filter {A} (f : A -> bool) l : forall i, map fst (filter (fun p => f (snd p)) (combine (seq i (length l)) l)) = ids_from f l i.
Proof. induction l as [|x l IH]; intro i; cbn [length seq combine filter ids_from snd]; auto. destruct (f x); cbn [map fst]; rewrite IH; reflexivity. Qed.
Lemma ids_none ls n : forall i, ~ In n (map al_name ls) -> ids_from (fun l => String.eqb (al_name l) n) ls i = [].
Proof.
  induction ls as [|x ls IH]; intros i H; cbn [ids_from]; auto. destruct (String.eqb_spec (al_name x) n) as [K|K].
  - exfalso. apply H. left; auto.
  - apply IH. intro; apply H; right; auto.
Qed.
Lemma name2id_in ls : NoDup (map al_name ls) -> forall n, In n (map al_name ls) -> exists i l, name2id ls n = Ok i /\ nth_error ls i = Some l /\ al_name l = n.
Proof.
  intros N n H. unfold name2id.
  assert (G : forall k, exists i l, ids_from (fun l => String.eqb (al_name l) n) ls k = [(k + i)%nat] /\ nth_error ls i = Some l /\ al_name l = n).
  { revert N H. induction ls as [|x ls IH]; intros N H k; [destruct H|]. cbn [map] in *. inversion N as [|? ? Nx N']; subst. cbn [ids_from].
    destruct (String.eqb_spec (al_name x) n) as [K|K].
    - exists 0%nat, x. rewrite ids_none by congruence. rewrite Nat.add_0_r. auto.
    - destruct H as [H|H]; [congruence|]. destruct (IH N' H (S k)) as (i & l & E & E1 & E2). exists (S i), l. rewrite E. split; [f_equal; lia|]. auto. }
  destruct (G 0%nat) as (i & l & E & E1 & E2). exists i, l. rewrite E. auto.
Qed.

(** * Cutting *)
Definition cutall (r : Q) (names : list string) (l : alayer) : alayer := if existsb (String.eqb (al_name l)) names then cut r l else l.
Lemma cutall_name r ns l : al_name (cutall r ns l) = al_name l. Proof. unfold cutall. destruct (existsb _ _); reflexivity. Qed.
Lemma cutall_deps r ns l : al_deps (cutall r ns l) = al_deps l. Proof. unfold cutall. destruct (existsb _ _); reflexivity. Qed.
Lemma cutall_names r ns ls : map al_name (map (cutall r ns) ls) = map al_name ls.
Proof. rewrite map_map. apply map_ext. intro. apply cutall_name. Qed.
Lemma cut_at_spec r ls : NoDup (map al_name ls) -> forall i l, nth_error ls i = Some l -> cut_at r i ls = map (cutall r [al_name l]) ls.
Proof.
  induction ls as [|x ls IH]; intros N i l H; [destruct i; discriminate|]. cbn [map] in *. inversion N as [|? ? Nx N']; subst. destruct i as [|i]; cbn [nth_error cut_at] in *.
  - injection H as ->. unfold cutall at 1. cbn [existsb]. rewrite String.eqb_refl. cbn [orb]. f_equal.
    clear - Nx. induction ls as [|y ls IH]; auto. cbn [map] in *. f_equal; [|apply IH; intro; apply Nx; right; auto].
    unfold cutall. cbn [existsb]. destruct (String.eqb_spec (al_name y) (al_name l)); [exfalso; apply Nx; left; auto|reflexivity].
  - rewrite (IH N' i l H). f_equal. unfold cutall. cbn [existsb]. destruct (String.eqb_spec (al_name x) (al_name l)) as [K|K]; [|reflexivity].
    exfalso. apply Nx. rewrite K. apply in_map. eapply nth_error_In; eauto.
Qed.
Lemma cut_name_spec r d ns ls : ~ In d ns -> cut_name r d (map (cutall r ns) ls) = map (cutall r (ns ++ [d])) ls.
Proof.
  intro H. unfold cut_name. rewrite map_map. apply map_ext. intro l. rewrite cutall_name. unfold cutall. rewrite existsb_app. cbn [existsb]. rewrite orb_false_r.
  destruct (String.eqb_spec (al_name l) d) as [K|K].
  - rewrite orb_true_r. assert (E : existsb (String.eqb (al_name l)) ns = false). { apply not_true_is_false. intro E. apply existsb_exists in E. destruct E as (y & Hy & E). apply String.eqb_eq in E. congruence. }
    rewrite E. reflexivity.
  - rewrite orb_false_r. reflexivity.
Qed.
(** the sum after cutting one more layer *)
Lemma cut_sum (f : alayer -> Q) r d ls l : (forall x, f (cut r x) == f x - f x * r)%Q -> NoDup (map al_name ls) -> In l ls -> al_name l = d ->
  (qsum (map f (cut_name r d ls)) + f l * r == qsum (map f ls))%Q.
Proof.
  intros Hf. induction ls as [|x ls IH]; intros N H E; [destruct H|]. unfold cut_name. cbn [map] in *. inversion N as [|? ? Nx N']; subst.
  rewrite !qsum_cons. fold (cut_name r (al_name l) ls). destruct H as [->|H].
  - rewrite String.eqb_refl, Hf.
    assert (K : cut_name r (al_name l) ls = ls). { clear - Nx. induction ls as [|y ls IH]; auto. cbn. cbn in Nx. destruct (String.eqb_spec (al_name y) (al_name l)); [exfalso; tauto|]. f_equal. apply IH. tauto. }
    rewrite K. lra.
  - destruct (String.eqb_spec (al_name x) (al_name l)) as [K|K]; [exfalso; apply Nx; rewrite K; apply in_map; auto|]. specialize (IH N' H eq_refl). lra.
Qed.

Section Reduce.
Variables (m : meta) (i : nat) (l : alayer) (ds : list string) (r : Q).
Hypothesis HN : NoDup (map al_name (m_layers m)).
Hypothesis Hl : nth_error (m_layers m) i = Some l.
Hypothesis Hd : al_deps l = Some ds.
Hypothesis Hnd : NoDup (al_name l :: ds).
Hypothesis Hin : incl ds (map al_name (m_layers m)).

Lemma reduce_ok : exists rm rn, reduce_layer_macs m i r = Ok (mkMeta (map (cutall r (al_name l :: ds)) (m_layers m)) (m_pruned m) (m_dep m) (m_macs m - rm) (m_nnz m - rn)) /\
  (qsum (map al_macs (map (cutall r (al_name l :: ds)) (m_layers m))) + rm == qsum (map al_macs (m_layers m)))%Q /\
  (qsum (map al_vol (map (cutall r (al_name l :: ds)) (m_layers m))) + rn == qsum (map al_vol (m_layers m)))%Q.
Proof.
  unfold reduce_layer_macs, get_layer. rewrite Hl. cbn [bind]. unfold deps_of. rewrite Hd. cbn [bind].
  rewrite (cut_at_spec r _ HN i l Hl).
  set (F := fun (s : list alayer * (Q * Q)) d => _).
  assert (G : forall todo done tm tn, NoDup (done ++ todo) -> incl todo (map al_name (m_layers m)) ->
     (qsum (map al_macs (map (cutall r done) (m_layers m))) + tm == qsum (map al_macs (m_layers m)))%Q ->
     (qsum (map al_vol (map (cutall r done) (m_layers m))) + tn == qsum (map al_vol (m_layers m)))%Q ->
     exists rm rn, foldM F todo (map (cutall r done) (m_layers m), (tm, tn)) = Ok (map (cutall r (done ++ todo)) (m_layers m), (rm, rn)) /\
       (qsum (map al_macs (map (cutall r (done ++ todo)) (m_layers m))) + rm == qsum (map al_macs (m_layers m)))%Q /\
       (qsum (map al_vol (map (cutall r (done ++ todo)) (m_layers m))) + rn == qsum (map al_vol (m_layers m)))%Q).
  { induction todo as [|d todo IH]; intros done tm tn N I S1 S2.
    - exists tm, tn. rewrite app_nil_r. cbn [foldM]. auto.
    - assert (Nd : ~ In d done) by (apply NoDup_remove_2 in N; intro; apply N; apply in_or_app; auto).
      assert (Hx : In d (map al_name (map (cutall r done) (m_layers m)))) by (rewrite cutall_names; apply I; left; auto).
      apply in_map_iff in Hx. destruct Hx as (x & Ex & Hx).
      assert (N1 : NoDup (map al_name (map (cutall r done) (m_layers m)))) by (rewrite cutall_names; auto).
      cbn [foldM]. unfold F at 1. cbn [fst snd]. rewrite (name2layer_in _ d x N1 Hx Ex). cbn [bind]. rewrite cut_name_spec by auto.
      destruct (IH (done ++ [d]) (tm + al_macs x * r)%Q (tn + al_vol x * r)%Q) as (rm & rn & E & T1 & T2).
      + rewrite <- app_assoc. exact N.
      + intros y Hy. apply I. right; auto.
      + rewrite <- cut_name_spec by auto. rewrite <- S1, <- (cut_sum al_macs r d (map (cutall r done) (m_layers m)) x); auto; [ring|]. intro; cbn [cut al_macs]; ring.
      + rewrite <- cut_name_spec by auto. rewrite <- S2, <- (cut_sum al_vol r d (map (cutall r done) (m_layers m)) x); auto; [ring|]. intro; cbn [cut al_vol]; ring.
      + rewrite <- app_assoc in E, T1, T2. cbn [app] in *. exists rm, rn. auto. }
  assert (B : forall f, (forall x, f (cut r x) == f x - f x * r)%Q -> (qsum (map f (map (cutall r [al_name l]) (m_layers m))) + f l * r == qsum (map f (m_layers m)))%Q).
  { intros f Hf. assert (K : map (cutall r [al_name l]) (m_layers m) = cut_name r (al_name l) (m_layers m)).
    { unfold cut_name. apply map_ext. intro x. unfold cutall. cbn [existsb]. rewrite orb_false_r. reflexivity. }
    rewrite K. apply cut_sum; auto. eapply nth_error_In; eauto. }
  destruct (G ds [al_name l] (al_macs l * r)%Q (al_vol l * r)%Q) as (rm & rn & E & T1 & T2); auto.
  - apply B. intro; cbn [cut al_macs]; ring.
  - apply B. intro; cbn [cut al_vol]; ring.
  - rewrite E. cbn [bind fst snd]. exists rm, rn. auto.
Qed.

Lemma layer_macs_gen ls' x : map al_name ls' = map al_name (m_layers m) -> al_deps x = Some ds -> forall m', m_layers m' = ls' ->
  exists v, layer_macs m' x = Ok v /\ (v == al_macs x + qsum (map (fun d => match name2layer ls' d with Ok y => al_macs y | Raise _ => 0 end) ds))%Q.
Proof.
  intros E Ex m' Em. unfold layer_macs, deps_of. rewrite Ex. cbn [bind]. rewrite Em. clear Em.
  assert (G : forall ds0 a, incl ds0 (map al_name (m_layers m)) -> exists v, foldM (fun acc d => do l <- name2layer ls' d; Ok (acc + al_macs l)%Q) ds0 a = Ok v /\
    (v == a + qsum (map (fun d => match name2layer ls' d with Ok y => al_macs y | Raise _ => 0 end) ds0))%Q).
  { induction ds0 as [|d ds0 IH]; intros a I; [exists a; split; [reflexivity|]; cbn; ring|]. cbn [foldM map].
    assert (Hx : In d (map al_name ls')) by (rewrite E; apply I; left; auto). apply in_map_iff in Hx. destruct Hx as (y & Ey & Hy).
    assert (Ny : name2layer ls' d = Ok y) by (apply name2layer_in; auto; rewrite E; auto).
    rewrite Ny. cbn [bind]. destruct (IH (a + al_macs y)%Q) as (v & Ev & Qv). { intros z Hz; apply I; right; auto. }
    exists v. split; auto. rewrite Qv, qsum_cons. ring. }
  apply G. exact Hin.
Qed.
Lemma layer_macs_cut : exists v v', layer_macs m l = Ok v /\ 
  (forall a b c d, layer_macs (mkMeta (map (cutall r (al_name l :: ds)) (m_layers m)) a b c d) (cutall r (al_name l :: ds) l) = Ok v') /\ (v' == v * (1 - r))%Q /\
  (v == al_macs l + qsum (map (fun d => match name2layer (m_layers m) d with Ok y => al_macs y | Raise _ => 0 end) ds))%Q.
Proof.
  destruct (layer_macs_gen (m_layers m) l eq_refl Hd m eq_refl) as (v & Ev & Qv).
  set (ls' := map (cutall r (al_name l :: ds)) (m_layers m)).
  assert (El : cutall r (al_name l :: ds) l = cut r l) by (unfold cutall; cbn [existsb]; rewrite String.eqb_refl; reflexivity).
  destruct (layer_macs_gen ls' (cut r l) (cutall_names _ _ _) Hd (mkMeta ls' [] [] 0 0) eq_refl) as (v' & Ev' & Qv').
  exists v, v'. split; auto. split; [intros; rewrite El; exact Ev'|]. split; auto. rewrite Qv, Qv'. cbn [cut al_macs].
  assert (S : (qsum (map (fun d => match name2layer ls' d with Ok y => al_macs y | Raise _ => 0 end) ds) ==
     qsum (map (fun d => match name2layer (m_layers m) d with Ok y => al_macs y | Raise _ => 0 end) ds) * (1 - r))%Q).
  { assert (H : forall ds0, incl ds0 ds -> (qsum (map (fun d => match name2layer ls' d with Ok y => al_macs y | Raise _ => 0 end) ds0) ==
     qsum (map (fun d => match name2layer (m_layers m) d with Ok y => al_macs y | Raise _ => 0 end) ds0) * (1 - r))%Q).
    { induction ds0 as [|d ds0 IH]; intro I; [cbn; ring|]. cbn [map]. rewrite !qsum_cons, IH by (intros z Hz; apply I; right; auto).
      assert (Hx : In d (map al_name (m_layers m))) by (apply Hin, I; left; auto). apply in_map_iff in Hx. destruct Hx as (y & Ey & Hy).
      rewrite (name2layer_in (m_layers m) d y HN Hy Ey).
      rewrite (name2layer_in ls' d (cutall r (al_name l :: ds) y)); [|unfold ls'; rewrite cutall_names; auto|apply in_map; auto|rewrite cutall_name; auto].
      assert (Ec : cutall r (al_name l :: ds) y = cut r y).
      { unfold cutall. replace (existsb (String.eqb (al_name y)) (al_name l :: ds)) with true; auto. symmetry. apply existsb_exists. exists d. split; [right; apply I; left; auto|apply String.eqb_eq; auto]. }
      rewrite Ec. cbn [cut al_macs]. ring. }
    apply H. intros z Hz; exact Hz. }
  rewrite S. ring.
Qed.
End Reduce.

(** * Soundness is kept *)
Definition trimmed (r : Q) (names : list string) (l0 l : alayer) : Prop :=
  al_name l = al_name l0 /\ al_deps l = al_deps l0 /\
  (al_macs l == al_macs l0 * (if existsb (String.eqb (al_name l0)) names then 1 - r else 1))%Q /\
  (al_vol l == al_vol l0 * (if existsb (String.eqb (al_name l0)) names then 1 - r else 1))%Q.
Lemma cutall_trimmed r names l : trimmed r names l (cutall r names l).
Proof. unfold trimmed, cutall. destruct (existsb _ _); cbn [cut al_name al_deps al_macs al_vol]; repeat split; auto; ring. Qed.
Lemma id_trimmed names l : trimmed 0 names l l.
Proof. unfold trimmed. destruct (existsb _ _); repeat split; auto; ring. Qed.
Lemma trimmed_pos r names l0 l : (r < 1)%Q -> trimmed r names l0 l -> (0 < al_macs l0)%Q -> (0 < al_macs l)%Q.
Proof. intros H (_ & _ & E & _) P. rewrite E. destruct (existsb _ _); [|lra]. rewrite <- (Qmult_0_l (1 - r)). apply Qmult_lt_compat_r; lra. Qed.
Lemma Forall2_map_same {A B} (R : A -> B -> Prop) f l : (forall x, R x (f x)) -> Forall2 R l (map f l).
Proof. intro H. induction l; cbn [map]; constructor; auto. Qed.
Lemma Forall2_refl_on {A} (R : A -> A -> Prop) l : (forall x, R x x) -> Forall2 R l l.
Proof. intro H. induction l; constructor; auto. Qed.
Lemma trimmed_names r names ls ls' : Forall2 (trimmed r names) ls ls' -> map al_name ls' = map al_name ls.
Proof. induction 1 as [|a b ? ? (E & _) _ IH]; cbn [map]; [|rewrite E, IH]; auto. Qed.
Lemma Forall2_nth {A B} (R : A -> B -> Prop) l l' : Forall2 R l l' -> forall i x, nth_error l i = Some x -> exists y, nth_error l' i = Some y /\ R x y.
Proof. induction 1 as [|a b l l' HR _ IH]; intros [|i] x E; try discriminate; cbn [nth_error] in *; [injection E as <-; eauto|auto]. Qed.

Lemma sound_trim m m' r names : sound m -> (r < 1)%Q -> Forall2 (trimmed r names) (m_layers m) (m_layers m') -> m_pruned m' = m_pruned m ->
  (m_macs m' == qsum (map al_macs (m_layers m')))%Q -> (m_nnz m' == qsum (map al_vol (m_layers m')))%Q -> sound m'.
Proof.
  intros S Hr F Ep E1 E2. pose proof (trimmed_names _ _ _ _ F) as En. constructor; auto.
  - rewrite En. apply (sd_names m S).
  - rewrite Ep. apply (sd_order m S).
  - rewrite Ep. apply (sd_some m S).
  - intros i Hi. rewrite Ep in Hi. destruct (sd_pruned m S i Hi) as (l & ds & H1 & H2 & H3 & H4).
    destruct (Forall2_nth _ _ _ F i l H1) as (l' & H5 & T1 & T2 & _). exists l', ds. rewrite T1, T2, En. auto.
  - pose proof (sd_pos m S) as P. clear - F P Hr. induction F as [|a b l l' T F IH]; constructor; inversion P; subst; auto. eapply trimmed_pos; eauto.
Qed.

Lemma touched_eq m i l ds : nth_error (m_layers m) i = Some l -> al_deps l = Some ds -> touched m i = al_name l :: ds.
Proof. intros H1 H2. unfold touched. rewrite H1, H2. reflexivity. Qed.

Lemma memn_in i l : memn i l = true <-> In i l.
Proof. unfold memn. rewrite existsb_exists. split; [intros (x & H & E); apply Nat.eqb_eq in E; subst; auto|]. intro H; exists i; split; auto. apply Nat.eqb_refl. Qed.
Lemma memn_out i l : memn i l = false <-> ~ In i l.
Proof. rewrite <- memn_in. destruct (memn i l); split; congruence. Qed.
Lemma mapM_ok {A B} (f : A -> res B) l : (forall x, In x l -> exists y, f x = Ok y) -> exists ys, mapM f l = Ok ys.
Proof.
  induction l as [|x l IH]; intro H; [exists []; reflexivity|]. cbn [mapM]. destruct (H x (or_introl eq_refl)) as (y & ->). cbn [bind].
  destruct IH as (ys & ->); [intros; apply H; right; auto|]. exists (y :: ys). reflexivity.
Qed.
Lemma mapM_in {A B} (f : A -> res B) l ys : mapM f l = Ok ys -> forall y, In y ys <-> exists x, In x l /\ f x = Ok y.
Proof.
  revert ys. induction l as [|x l IH]; intros ys H y; cbn [mapM] in H.
  - injection H as <-. split; [intros []|intros (? & [] & _)].
  - destruct (f x) as [z|] eqn:E; [|discriminate]. cbn [bind] in H. destruct (mapM f l) as [zs|] eqn:E2; [|discriminate]. cbn [bind] in H. injection H as <-.
    specialize (IH zs eq_refl y). cbn [In]. rewrite IH. split.
    + intros [->|(w & Hw & Ew)]; [exists x; auto|exists w; auto].
    + intros (w & [->|Hw] & Ew); [left; congruence|right; exists w; auto].
Qed.

(** the sum over ids of the layers is the sum of the layers *)
Lemma macs_ids m : qsum (map (macs_at m) (seq 0 (length (m_layers m)))) = qsum (map al_macs (m_layers m)).
Proof.
  f_equal. unfold macs_at. generalize (m_layers m) as ls. intro ls.
  assert (G : forall pre ls, map (fun i => match nth_error (pre ++ ls) i with Some l => al_macs l | None => 0%Q end) (seq (length pre) (length ls)) = map al_macs ls).
  { intros pre ls0; revert pre. induction ls0 as [|x ls0 IH]; intro pre; [reflexivity|]. cbn [length seq map]. rewrite nth_error_app2, Nat.sub_diag by lia. cbn [nth_error]. f_equal.
    specialize (IH (pre ++ [x])). rewrite <- app_assoc in IH. cbn [app] in IH. rewrite app_length in IH. cbn [length] in IH. rewrite Nat.add_1_r in IH. exact IH. }
  apply (G []).
Qed.
Lemma macs_at_nonneg m i : sound m -> (0 <= macs_at m i)%Q.
Proof. intro S. unfold macs_at. destruct (nth_error (m_layers m) i) as [l|] eqn:E; [|lra]. pose proof (sd_pos m S) as P. rewrite Forall_forall in P. apply nth_error_In in E. specialize (P l E). lra. Qed.

Lemma NoDup_app_intro {A} (l1 l2 : list A) : NoDup l1 -> NoDup l2 -> (forall x, In x l1 -> ~ In x l2) -> NoDup (l1 ++ l2).
Proof.
  induction l1 as [|x l1 IH]; intros N1 N2 H; auto. cbn [app]. inversion N1; subst. constructor.
  - intro K. apply in_app_or in K. destruct K; [auto|]. apply (H x); [left|]; auto.
  - apply IH; auto. intros y Hy. apply H. right; auto.
Qed.
Section Step.
Variables (cfg : acfg) (orig : Q) (achieve : env -> Q -> Q).
Hypothesis Hach : forall e f, (0 <= achieve e f < 1)%Q.
Hypothesis Horig : (0 < orig)%Q.

Record good (m0 : meta) (e : env) : Prop := mkGood {
  g_sound : sound (e_meta e);
  g_pruned : m_pruned (e_meta e) = m_pruned m0;
  g_dep : m_dep (e_meta e) = m_dep m0;
  g_cur : In (e_layer e) (m_pruned m0);
  g_removed : (e_removed e == orig - m_macs (e_meta e))%Q;
  g_nonneg : (0 <= e_removed e)%Q }.

Lemma get_pruned_ok m i : sound m -> In i (m_pruned m) -> exists l ds, get_pruned_layer m i = Ok l /\ get_layer m i = Ok l /\ nth_error (m_layers m) i = Some l /\ al_deps l = Some ds /\
  NoDup (al_name l :: ds) /\ incl ds (map al_name (m_layers m)) /\ (0 < al_macs l)%Q.
Proof.
  intros S Hi. destruct (sd_pruned m S i Hi) as (l & ds & H1 & H2 & H3 & H4). exists l, ds. unfold get_pruned_layer, get_layer. rewrite (proj2 (memn_in _ _) Hi), H1. repeat split; auto.
  pose proof (sd_pos m S) as P. rewrite Forall_forall in P. apply P. eapply nth_error_In; eauto.
Qed.

Lemma rest_ok m0 e : good m0 e -> exists l ds ign, get_pruned_layer (e_meta e) (e_layer e) = Ok l /\ al_deps l = Some ds /\ mapM (name2id (m_layers (e_meta e))) ds = Ok ign /\
  rest_macs_raw e = Ok (qsum (map (macs_at (e_meta e)) (rest_ids (e_meta e) (e_layer e) ign)), qsum (map (macs_at (e_meta e)) (other_ids (e_meta e)))).
Proof.
  intros [S Gp Gd Gc Gr Gn]. rewrite <- Gp in Gc. destruct (get_pruned_ok _ _ S Gc) as (l & ds & H1 & _ & H2 & H3 & H4 & H5 & H6).
  destruct (mapM_ok (name2id (m_layers (e_meta e))) ds) as (ign & E).
  { intros x Hx. destruct (name2id_in _ (sd_names _ S) x (H5 x Hx)) as (i & _ & Ei & _). eauto. }
  exists l, ds, ign. repeat split; auto. unfold rest_macs_raw. rewrite H1. cbn [bind]. unfold deps_of. rewrite H3. cbn [bind]. rewrite E. reflexivity.
Qed.

Lemma layer_macs_pos m i l ds : sound m -> nth_error (m_layers m) i = Some l -> al_deps l = Some ds -> incl ds (map al_name (m_layers m)) -> NoDup (al_name l :: ds) ->
  exists v, layer_macs m l = Ok v /\ (0 < v)%Q /\ (v == al_macs l + qsum (map (fun d => match name2layer (m_layers m) d with Ok y => al_macs y | Raise _ => 0 end) ds))%Q.
Proof.
  intros S H1 H2 H3 H4. destruct (layer_macs_gen m ds (sd_names m S) H3 (m_layers m) l eq_refl H2 m eq_refl) as (v & E & Qv). exists v. split; auto. split; auto. rewrite Qv.
  pose proof (sd_pos m S) as P. rewrite Forall_forall in P.
  assert (0 < al_macs l)%Q by (apply P; eapply nth_error_In; eauto).
  assert (0 <= qsum (map (fun d => match name2layer (m_layers m) d with Ok y => al_macs y | Raise _ => 0 end) ds))%Q; [|lra].
  clear - P. induction ds as [|d ds IH]; [discriminate|]. cbn [map]. rewrite qsum_cons.
  assert (0 <= match name2layer (m_layers m) d with Ok y => al_macs y | Raise _ => 0 end)%Q; [|lra].
  unfold name2layer. destruct (filter _ (m_layers m)) as [|y [|z t]] eqn:E; try lra.
  assert (In y (m_layers m)). { apply (proj1 (filter_In (fun l => String.eqb (al_name l) d) y (m_layers m))). rewrite E. left; auto. }
  specialize (P y H). lra.
Qed.

Lemma clamp_ok m0 e a : good m0 e -> exists b, clamp_action cfg orig e a = Ok b.
Proof.
  intro G. pose proof G as [S Gp Gd Gc Gr Gn]. rewrite <- Gp in Gc. destruct (get_pruned_ok _ _ S Gc) as (l & ds & H1 & _ & H2 & H3 & H4 & H5 & H6).
  destruct (layer_macs_pos _ _ _ _ S H2 H3 H5 H4) as (v & Ev & Pv & _). destruct (rest_ok _ _ G) as (l' & ds' & ign & _ & _ & _ & Er).
  unfold clamp_action. rewrite H1. cbn [bind]. rewrite Ev. cbn [bind]. apply Qltb_lt in Pv. rewrite Pv. cbn [negb]. rewrite Er. cbn [bind].
  replace (Qeq_bool (e_removed e) (orig - m_macs (e_meta e))) with true by (symmetry; apply Qeq_bool_iff; exact Gr). cbn [negb]. eauto.
Qed.

(** the ids counted by an observation are distinct layers *)
Lemma obs_sum m cur ign : sound m -> In cur (m_pruned m) -> (cur < length (m_layers m))%nat ->
  (macs_at m cur + (qsum (map (macs_at m) (rest_ids m cur ign)) + qsum (map (macs_at m) (other_ids m))) <= m_macs m)%Q.
Proof.
  intros S Hc Hl. rewrite (sd_macs m S), <- macs_ids.
  setoid_replace (macs_at m cur + (qsum (map (macs_at m) (rest_ids m cur ign)) + qsum (map (macs_at m) (other_ids m))))%Q
    with (qsum (map (macs_at m) (cur :: rest_ids m cur ign ++ other_ids m))) by (cbn [map]; rewrite map_app, qsum_cons, qsum_app; ring).
  assert (C : is_compressible m cur = true) by (unfold is_compressible; apply memn_in; apply in_or_app; auto).
  apply qsum_sub.
  - intros i _. apply macs_at_nonneg; auto.
  - constructor.
    + intro H. apply in_app_or in H. destruct H as [H|H]; unfold rest_ids, other_ids in H; apply filter_In in H; destruct H as [H1 H2].
      * apply in_seq in H1. lia.
      * rewrite C in H2. discriminate.
    + apply NoDup_app_intro.
      * apply NoDup_filter, seq_NoDup.
      * apply NoDup_filter, seq_NoDup.
      * intros i H1 H2. unfold rest_ids, other_ids in *. apply filter_In in H1, H2. destruct H1 as [_ H1], H2 as [_ H2]. apply andb_prop in H1. destruct H1 as [H1 _]. rewrite H1 in H2. discriminate.
  - intros i [<-|H]; [apply in_seq; lia|]. apply in_app_or in H. destruct H as [H|H]; unfold rest_ids, other_ids in H; apply filter_In in H; destruct H as [H _]; apply in_seq in H; apply in_seq; lia.
Qed.

Lemma obs_ok m0 e : good m0 e -> exists rd rs, get_obs orig e = Ok (rd, rs, e_prev e) /\ (rd == e_removed e / orig)%Q /\ (0 <= rs <= 1)%Q /\ (rd < 1)%Q.
Proof.
  intro G. pose proof G as [S Gp Gd Gc Gr Gn]. rewrite <- Gp in Gc. destruct (get_pruned_ok _ _ S Gc) as (l & ds & H1 & _ & H2 & H3 & H4 & H5 & H6).
  destruct (rest_ok _ _ G) as (l' & ds' & ign & _ & _ & _ & Er). unfold get_obs. rewrite H1. cbn [bind]. rewrite Er. cbn [bind fst snd].
  assert (Hc : (e_layer e < length (m_layers (e_meta e)))%nat) by (apply nth_error_Some; congruence).
  pose proof (obs_sum (e_meta e) (e_layer e) ign S Gc Hc) as B. unfold macs_at at 1 in B. rewrite H2 in B.
  set (r1 := qsum (map (macs_at (e_meta e)) (rest_ids (e_meta e) (e_layer e) ign))) in *. set (r2 := qsum (map (macs_at (e_meta e)) (other_ids (e_meta e)))) in *.
  assert (P : forall ids, (0 <= qsum (map (macs_at (e_meta e)) ids))%Q).
  { induction ids as [|i ids IH]; [discriminate|]. cbn [map]. rewrite qsum_cons. pose proof (macs_at_nonneg (e_meta e) i S). lra. }
  assert (P1 : (0 <= r1)%Q) by apply P. assert (P2 : (0 <= r2)%Q) by apply P.
  assert (Hi : (0 < / orig)%Q) by (apply Qinv_lt_0_compat; auto). assert (Hone : (orig * / orig == 1)%Q) by (apply Qmult_inv_r; lra).
  assert (Hle : forall x y, (x <= y -> x * / orig <= y * / orig)%Q) by (intros; apply Qmult_le_compat_r; lra).
  assert (M0 : (0 < m_macs (e_meta e))%Q) by lra.
  unfold Qdiv in *.
  replace (Qle_bool (e_removed e * / orig + al_macs l * / orig + (r1 + r2) * / orig) 1) with true.
  - eexists _, _. split; [reflexivity|]. split; [reflexivity|]. rewrite Gr.
    assert (HT : (r1 + r2 <= m_macs (e_meta e))%Q) by lra.
    split; [split|].
    + rewrite <- (Qmult_0_l (/ orig)). apply Hle. lra.
    + rewrite <- Hone. apply Hle. lra.
    + rewrite <- Hone. apply Qmult_lt_compat_r; lra.
  - symmetry. apply Qle_bool_iff. rewrite Gr. rewrite <- Hone. rewrite <- !Qmult_plus_distr_l. apply Hle. lra.
Qed.

Lemma remove_ok m0 e f : good m0 e -> (0 < f)%Q -> exists m' r, remove_structures achieve e f = Ok (m', r) /\ (0 <= r < 1)%Q /\
  Forall2 (trimmed r (touched (e_meta e) (e_layer e))) (m_layers (e_meta e)) (m_layers m') /\ m_pruned m' = m_pruned (e_meta e) /\ m_dep m' = m_dep (e_meta e) /\
  (m_macs m' == qsum (map al_macs (m_layers m')))%Q /\ (m_nnz m' == qsum (map al_vol (m_layers m')))%Q /\ (m_macs m' <= m_macs (e_meta e))%Q /\
  (r == achieve e (if Qeq_bool f 1 then 9999 # 10000 else f))%Q.
Proof.
  intros G Hf. pose proof G as [S Gp Gd Gc Gr Gn]. rewrite <- Gp in Gc. destruct (get_pruned_ok _ _ S Gc) as (l & ds & H1 & H1' & H2 & H3 & H4 & H5 & H6).
  unfold remove_structures. rewrite (proj2 (memn_in _ _) Gc). cbn [negb]. assert (Ef : Qltb f 0 = false) by (apply Qltb_ge; lra). rewrite Ef.
  destruct (Qeq_bool f 0) eqn:E0; [apply Qeq_bool_iff in E0; lra|]. rewrite H1. cbn [bind].
  set (g := if Qeq_bool f 1 then 9999 # 10000 else f). destruct (Qeq_bool (achieve e g) 0) eqn:Ea.
  - exists (e_meta e), 0%Q. split; [reflexivity|]. split; [lra|]. split; [apply Forall2_refl_on; intro; apply id_trimmed|]. repeat split; auto; [apply S|apply S|lra|]. apply Qeq_bool_iff in Ea. symmetry. exact Ea.
  - set (r := achieve e g) in *. assert (Hr : (0 <= r < 1)%Q) by apply Hach.
    destruct (reduce_ok (e_meta e) (e_layer e) l ds r (sd_names _ S) H2 H3 H4 H5) as (rm & rn & E & T1 & T2). rewrite E. cbn [bind].
    set (m' := mkMeta _ _ _ _ _). rewrite (touched_eq _ _ _ _ H2 H3).
    assert (F : Forall2 (trimmed r (al_name l :: ds)) (m_layers (e_meta e)) (m_layers m')) by (apply Forall2_map_same; intro; apply cutall_trimmed).
    destruct (Forall2_nth _ _ _ F _ _ H2) as (l' & El & _ & _ & Em & _). unfold get_layer. rewrite El. cbn [bind].
    destruct (Qeq_bool (al_macs l) 0) eqn:Ez; [apply Qeq_bool_iff in Ez; lra|].
    replace (existsb (String.eqb (al_name l)) (al_name l :: ds)) with true in Em by (cbn [existsb]; rewrite String.eqb_refl; reflexivity).
    replace (Qeq_bool (1 - al_macs l' / al_macs l) r) with true.
    + exists m', r. split; [reflexivity|]. split; [exact Hr|]. split; [exact F|]. cbn [m' m_pruned m_dep m_macs m_nnz m_layers]. pose proof (sd_macs _ S) as A1. pose proof (sd_nnz _ S) as A2.
      repeat split; auto; try lra.
      assert (LE : (qsum (map al_macs (map (cutall r (al_name l :: ds)) (m_layers (e_meta e)))) <= qsum (map al_macs (m_layers (e_meta e))))%Q); [|lra].
      pose proof (sd_pos _ S) as P. clear - P Hr. induction (m_layers (e_meta e)) as [|x ls IH]; [discriminate|]. inversion P; subst. cbn [map]. rewrite !qsum_cons. specialize (IH H2).
      assert (al_macs (cutall r (al_name l :: ds) x) <= al_macs x)%Q; [|lra]. unfold cutall. destruct (existsb _ _); [|lra]. cbn [cut al_macs].
      assert (0 <= al_macs x * r)%Q by (apply Qmult_le_0_compat; lra). lra.
    + symmetry. apply Qeq_bool_iff. rewrite Em. field. lra.
Qed.

(** the action that reaches the pruner *)
Definition asked (e : env) (a : Q) : Q := match (if c_constrained cfg then clamp_action cfg orig e (map_action cfg a) else Ok (map_action cfg a)) with Ok b => b | Raise _ => 0 end.

Lemma layer_macs_trim m m' i l l' ds r : sound m -> sound m' -> nth_error (m_layers m) i = Some l -> nth_error (m_layers m') i = Some l' -> al_deps l = Some ds -> al_deps l' = Some ds ->
  NoDup (al_name l :: ds) -> incl ds (map al_name (m_layers m)) ->
  Forall2 (trimmed r (al_name l :: ds)) (m_layers m) (m_layers m') -> exists v v', layer_macs m l = Ok v /\ layer_macs m' l' = Ok v' /\ (0 < v)%Q /\ (v' == v * (1 - r))%Q.
Proof.
  intros S S' H1 H1' H2 H2' H3 H4 F. pose proof (trimmed_names _ _ _ _ F) as En.
  destruct (layer_macs_pos m i l ds S H1 H2 H4 H3) as (v & Ev & Pv & Qv).
  destruct (layer_macs_gen m ds (sd_names m S) H4 (m_layers m') l' En H2' m' eq_refl) as (v' & Ev' & Qv'). exists v, v'. repeat split; auto. rewrite Qv, Qv'.
  assert (TR : forall j x y, nth_error (m_layers m) j = Some x -> nth_error (m_layers m') j = Some y -> In (al_name x) (al_name l :: ds) -> (al_macs y == al_macs x * (1 - r))%Q).
  { intros j x y Hx Hy Hin. destruct (Forall2_nth _ _ _ F j x Hx) as (y' & Ey & _ & _ & Em & _). assert (y' = y) by congruence. subst y'. rewrite Em.
    replace (existsb (String.eqb (al_name x)) (al_name l :: ds)) with true; [reflexivity|]. symmetry. apply existsb_exists. exists (al_name x). split; auto. apply String.eqb_refl. }
  rewrite (TR i l l' H1 H1' (or_introl eq_refl)).
  assert (G : forall ds0, incl ds0 ds -> (qsum (map (fun d => match name2layer (m_layers m') d with Ok y => al_macs y | Raise _ => 0 end) ds0) == qsum (map (fun d => match name2layer (m_layers m) d with Ok y => al_macs y | Raise _ => 0 end) ds0) * (1 - r))%Q).
  { induction ds0 as [|d ds0 IH]; intro I; [cbn; ring|]. cbn [map]. rewrite !qsum_cons, IH by (intros z Hz; apply I; right; auto).
    assert (Hd : In d (map al_name (m_layers m))) by (apply H4, I; left; auto). destruct (name2id_in _ (sd_names _ S) d Hd) as (j & x & _ & Ej & Ex).
    destruct (Forall2_nth _ _ _ F j x Ej) as (y & Ey & Eyn & _).
    rewrite (name2layer_in (m_layers m) d x (sd_names _ S) (nth_error_In _ _ Ej) Ex). rewrite (name2layer_in (m_layers m') d y (sd_names _ S') (nth_error_In _ _ Ey)) by congruence.
    rewrite (TR j x y Ej Ey) by (rewrite Ex; right; apply I; left; auto). ring. }
  rewrite (G ds) by (intros z Hz; exact Hz). ring.
Qed.

Lemma step_ok m0 e a : good m0 e -> (e_state e < length (m_pruned m0))%nat -> exists e' o r, step cfg orig achieve e a = Ok (e', o) /\ (0 <= r < 1)%Q /\
  Forall2 (trimmed r (touched (e_meta e) (e_layer e))) (m_layers (e_meta e)) (m_layers (e_meta e')) /\
  good m0 e' /\ e_state e' = S (e_state e) /\ e_hist e' = e_hist e ++ [r] /\ e_agent e' = e_agent e ++ [a] /\ e_prev e' = r /\
  (if Qltb 0 (asked e a) then r == achieve e (if Qeq_bool (asked e a) 1 then 9999 # 10000 else asked e a) else r == 0)%Q /\
  (S (e_state e) = length (m_pruned m0) -> o = None /\ e_layer e' = e_layer e) /\
  ((S (e_state e) < length (m_pruned m0))%nat -> nth_error (m_pruned m0) (S (e_state e)) = Some (e_layer e') /\ exists rd rs, o = Some (rd, rs, e_prev e) /\ (rd == e_removed e' / orig)%Q /\ (0 <= rd < 1)%Q /\ (0 <= rs <= 1)%Q).
Proof.
  intros G Hs. pose proof G as [S Gp Gd Gc Gr Gn]. rewrite <- Gp in Gc. destruct (get_pruned_ok _ _ S Gc) as (l & ds & H1 & H1' & H2 & H3 & H4 & H5 & H6).
  unfold step. rewrite H1. cbn [bind]. unfold asked. set (A := if c_constrained cfg then _ else _).
  assert (EA : exists b, A = Ok b) by (unfold A; destruct (c_constrained cfg); [eapply clamp_ok; eauto|eauto]). destruct EA as (b & ->). cbn [bind].
  destruct (layer_macs_pos _ _ _ _ S H2 H3 H5 H4) as (lm & Elm & Plm & _). rewrite Elm. cbn [bind].
  destruct (rest_ok _ _ G) as (? & ? & ign & _ & _ & _ & Er). rewrite Er. cbn [bind].
  assert (R : exists m' r, (if Qltb 0 b then remove_structures achieve e b else Ok (e_meta e, 0%Q)) = Ok (m', r) /\ (0 <= r < 1)%Q /\
     Forall2 (trimmed r (touched (e_meta e) (e_layer e))) (m_layers (e_meta e)) (m_layers m') /\ m_pruned m' = m_pruned (e_meta e) /\ m_dep m' = m_dep (e_meta e) /\
     (m_macs m' == qsum (map al_macs (m_layers m')))%Q /\ (m_nnz m' == qsum (map al_vol (m_layers m')))%Q /\ (m_macs m' <= m_macs (e_meta e))%Q /\
     (if Qltb 0 b then r == achieve e (if Qeq_bool b 1 then 9999 # 10000 else b) else r == 0)%Q).
  { destruct (Qltb 0 b) eqn:Eb.
    - apply Qltb_lt in Eb. destruct (remove_ok m0 e b G Eb) as (m' & r & E & X). exists m', r. split; [exact E|]. exact X.
    - exists (e_meta e), 0%Q. split; [reflexivity|]. split; [lra|]. split; [apply Forall2_refl_on; intro; apply id_trimmed|]. repeat split; auto; [apply S|apply S|lra]. }
  destruct R as (m' & r & -> & Hr & F & Ep & Ed & Em & Env & Hle & Hach'). cbn [bind fst snd].
  assert (S' : sound m') by (eapply sound_trim; eauto; lra).
  assert (Gc' : In (e_layer e) (m_pruned m')) by (rewrite Ep; auto).
  destruct (get_pruned_ok _ _ S' Gc') as (l' & ds' & K1 & _ & K2 & K3 & _). rewrite K1. cbn [bind].
  assert (ds' = ds). { destruct (Forall2_nth _ _ _ F _ _ H2) as (y & Ey & _ & Edd & _). congruence. } subst ds'.
  rewrite (touched_eq _ _ _ _ H2 H3) in F.
  destruct (layer_macs_trim _ _ _ _ _ _ _ S S' H2 K2 H3 K3 H4 H5 F) as (v & v' & Ev & Ev' & Pv & Qv). assert (v = lm) by congruence. subst v. rewrite Ev'. cbn [bind].
  destruct (Qeq_bool lm 0) eqn:Ez; [apply Qeq_bool_iff in Ez; lra|].
  replace (Qeq_bool (v' / lm) (1 - r)) with true by (symmetry; apply Qeq_bool_iff; rewrite Qv; field; lra). cbn [negb].
  assert (Good : forall st i pv h ag, In i (m_pruned m0) -> good m0 (mkEnv m' st i pv (e_removed e + (m_macs (e_meta e) - m_macs m')) h ag)).
  { intros st i pv h ag Hi. constructor; cbn [e_meta e_layer e_removed]; auto; try congruence; lra. }
  unfold episode_is_done. cbn [e_state e_meta]. rewrite Ep, Gp.
  rewrite (touched_eq _ _ _ _ H2 H3).
  destruct (Nat.eqb_spec (Datatypes.S (e_state e)) (length (m_pruned m0))) as [K|K].
  - eexists _, None, r. split; [reflexivity|]. cbn [e_meta e_state e_hist e_agent e_prev e_layer]. split; [exact Hr|]. split; [exact F|]. split; [apply Good; congruence|]. do 4 (split; [reflexivity|]). split; [exact Hach'|]. split; [auto|lia].
  - destruct (nth_error (m_pruned m0) (Datatypes.S (e_state e))) as [i|] eqn:Ei; [|apply nth_error_None in Ei; lia].
    assert (Hi : In i (m_pruned m0)) by (eapply nth_error_In; eauto).
    destruct (obs_ok m0 (mkEnv m' (Datatypes.S (e_state e)) i (e_prev e) (e_removed e + (m_macs (e_meta e) - m_macs m')) (e_hist e ++ [r]) (e_agent e ++ [a])) (Good _ _ _ _ _ Hi)) as (rd & rs & Eo & Q1 & Q2 & Q3).
    rewrite Eo. cbn [bind]. eexists _, _, r. split; [reflexivity|]. cbn [e_meta e_state e_hist e_agent e_prev e_layer e_removed] in *. split; [exact Hr|]. split; [exact F|]. split; [apply Good; auto|].
    do 4 (split; [reflexivity|]). split; [exact Hach'|]. split; [intro; lia|]. intros _. split; [auto|]. exists rd, rs. split; [reflexivity|]. split; [exact Q1|]. split; auto. split; auto.
    rewrite Q1. apply Qle_shift_div_l; auto. lra.
Qed.
End Step.
Lemma Forall2_len {A B} (R : A -> B -> Prop) l l' : Forall2 R l l' -> length l = length l'.
Proof. induction 1; cbn [length]; congruence. Qed.
(** * Episodes *)
Lemma left_of_app a b n : (left_of (a ++ b) n == left_of a n * left_of b n)%Q.
Proof. induction a as [|[ns x] a IH]; cbn [app left_of]; [ring|]. rewrite IH. ring. Qed.
Lemma combine_snoc {A B} (l : list A) (l' : list B) x y : (length l' < length l)%nat -> nth_error l (length l') = Some x -> combine l (l' ++ [y]) = combine l l' ++ [(x, y)].
Proof.
  revert l'. induction l as [|a l IH]; intros l' H E; [cbn in H; lia|]. destruct l' as [|b l']; cbn [length app combine nth_error] in *.
  - injection E as ->. destruct l; reflexivity.
  - rewrite IH; auto. lia.
Qed.
Lemma foldM_snoc {A S} (f : S -> A -> res S) l x s : foldM f (l ++ [x]) s = (do s' <- foldM f l s; f s' x).
Proof. revert s. induction l as [|y l IH]; intro s; cbn [app foldM]. - cbn [bind]. destruct (f s x); reflexivity. - destruct (f s y); cbn [bind]; auto. Qed.
Definition same_shape (l0 l : alayer) : Prop := al_name l = al_name l0 /\ al_deps l = al_deps l0.
Lemma touched_same m m' i : Forall2 same_shape (m_layers m) (m_layers m') -> touched m' i = touched m i.
Proof.
  intro F. unfold touched. destruct (nth_error (m_layers m) i) as [l|] eqn:E.
  - destruct (Forall2_nth _ _ _ F i l E) as (l' & -> & E1 & E2). rewrite E1, E2. reflexivity.
  - assert (K : nth_error (m_layers m') i = None). { apply nth_error_None. apply nth_error_None in E. rewrite <- (Forall2_len _ _ _ F). exact E. } rewrite K. reflexivity.
Qed.

Section Run.
Variables (cfg : acfg) (orig : Q) (achieve : env -> Q -> Q).
Hypothesis Hach : forall e f, (0 <= achieve e f < 1)%Q.
Variable m0 : meta.
Hypothesis S0 : sound m0.
Hypothesis Horig : (orig == m_macs m0)%Q.
Lemma orig_pos : (0 < orig)%Q.
Proof.
  rewrite Horig, (sd_macs m0 S0). destruct (m_pruned m0) as [|i r] eqn:E; [destruct (sd_some m0 S0 E)|].
  destruct (sd_pruned m0 S0 i) as (l & _ & H & _); [rewrite E; left; auto|]. pose proof (sd_pos m0 S0) as P. destruct (m_layers m0) as [|x ls]; [destruct i; discriminate|].
  inversion P as [|? ? P1 P2]; subst. cbn [map]. rewrite qsum_cons. assert (0 <= qsum (map al_macs ls))%Q; [|lra].
  clear - P2. induction P2; [discriminate|]. cbn [map]. rewrite qsum_cons. lra.
Qed.
Definition at_layer (k : nat) (e : env) : Prop := nth_error (m_pruned m0) (Nat.min k (length (m_pruned m0) - 1)%nat) = Some (e_layer e).

Lemma episode_acc : forall acts, (length acts <= length (m_pruned m0))%nat -> exists e, episode cfg orig achieve m0 acts = Ok e /\ good orig m0 e /\ accounted orig m0 acts e /\
  at_layer (length acts) e /\ e_prev e = last (e_hist e) 0%Q.
Proof.
  intro acts. induction acts as [|a acts IH] using rev_ind; intro H.
  - unfold episode, reset. destruct (m_pruned m0) as [|i r] eqn:E; [destruct (sd_some m0 S0 E)|]. cbn [bind].
    assert (G : good orig m0 (mkEnv m0 0 i 0 0 [] [])). { constructor; cbn [e_meta e_layer e_removed]; auto; try lra. rewrite E; left; auto. }
    destruct (obs_ok orig orig_pos _ _ G) as (rd & rs & -> & _). cbn [bind run_steps foldM]. eexists. split; [reflexivity|]. split; [exact G|]. split; [|split; [|reflexivity]].
    + constructor; cbn [e_meta e_state e_hist e_agent e_removed length]; auto; try apply S0; [|lra].
      apply Forall2_refl_on. intro x. rewrite combine_nil. cbn [left_of]. repeat split; auto; ring.
    + unfold at_layer. rewrite E. reflexivity.
  - rewrite app_length in H. cbn [length] in H. destruct IH as (e & E & G & A & L & Pv); [lia|].
    assert (Hst : e_state e = length acts) by apply A.
    destruct (step_ok cfg orig achieve Hach orig_pos m0 e a G ltac:(lia)) as (e' & o & r & Es & Hr & F & G' & T1 & T2 & T3 & T4 & _ & T5 & T6).
    exists e'. assert (EE : episode cfg orig achieve m0 (acts ++ [a]) = Ok e').
    { unfold episode in *. destruct (reset m0) as [x|]; [|discriminate]. cbn [bind] in *. destruct (get_obs orig x); [|discriminate]. cbn [bind] in *. unfold run_steps in *. rewrite foldM_snoc, E. cbn [bind]. rewrite Es. reflexivity. }
    split; [exact EE|]. split; [exact G'|]. unfold at_layer in *. rewrite Nat.min_l in L by lia.
    assert (SH : Forall2 same_shape (m_layers m0) (m_layers (e_meta e))). { pose proof (ac_layers _ _ _ _ A) as X. revert X. clear. induction 1 as [|? ? ? ? (X1 & X2 & _)]; constructor; auto. split; auto. }
    rewrite (touched_same _ _ _ SH) in F.
    assert (Lh : length (e_hist e) = length acts) by apply A.
    split; [|split].
    + constructor.
      * rewrite T3, (ac_agent _ _ _ _ A). reflexivity.
      * rewrite T1, T2, !app_length, Hst, Lh. cbn [length]. lia.
      * destruct G'. auto.
      * rewrite T2. apply Forall_app. split; [apply A|]. constructor; auto.
      * rewrite T2. rewrite (combine_snoc _ _ (touched m0 (e_layer e)) r); [|rewrite map_length, Lh; lia|rewrite Lh; apply map_nth_error; exact L].
        pose proof (ac_layers _ _ _ _ A) as X. revert F X. generalize (m_layers m0) (m_layers (e_meta e)) (m_layers (e_meta e')). clear. intros l0 l1 l2 F X.
        revert l2 F. induction X as [|x y l0 l1 (X1 & X2 & X3 & X4) X IH]; intros l2 F; inversion F as [|? z ? l2' (Y1 & Y2 & Y3 & Y4) F']; subst; constructor; auto.
        rewrite Y1, Y2, Y3, Y4, X1, X2, X3, X4, !left_of_app. cbn [left_of]. repeat split; auto; ring.
      * apply (sd_macs _ (g_sound _ _ _ G')).
      * apply (sd_nnz _ (g_sound _ _ _ G')).
      * apply (g_removed _ _ _ G').
    + rewrite app_length. cbn [length]. destruct (Nat.eq_dec (S (e_state e)) (length (m_pruned m0))) as [K|K].
      * destruct (T5 K) as (_ & ->). rewrite Nat.min_r by lia. replace (length (m_pruned m0) - 1)%nat with (length acts) by lia. exact L.
      * destruct (T6 ltac:(lia)) as (Y & _). rewrite Nat.min_l by lia. rewrite Nat.add_1_r, <- Hst. exact Y.
    + rewrite T2, T4, last_last. reflexivity.
Qed.
End Run.

(** * Sums over the layers (C95) *)
Definition lsum (m : meta) (b : nat -> alayer -> bool) : Q :=
  qsum (map (fun p => if b (fst p) (snd p) then al_macs (snd p) else 0%Q) (combine (seq 0 (length (m_layers m))) (m_layers m))).
Lemma qsum_filter {A} (f : A -> Q) b l : (qsum (map f (filter b l)) == qsum (map (fun x => if b x then f x else 0%Q) l))%Q.
Proof. induction l as [|x l IH]; [reflexivity|]. cbn [filter map]. rewrite qsum_cons. destruct (b x); cbn [map]; rewrite ?qsum_cons, IH; ring. Qed.
Lemma qsum_le {A} (f g : A -> Q) l : (forall x, In x l -> f x <= g x)%Q -> (qsum (map f l) <= qsum (map g l))%Q.
Proof. induction l as [|x l IH]; intro H; [apply Qle_refl|]. cbn [map]. rewrite !qsum_cons. apply Qplus_le_compat; [apply H; left; auto|apply IH; intros; apply H; right; auto]. Qed.
Lemma qsum_ext {A} (f g : A -> Q) l : (forall x, In x l -> f x == g x)%Q -> (qsum (map f l) == qsum (map g l))%Q.
Proof. intro H. apply Qle_antisym; apply qsum_le; intros x Hx; rewrite (H x Hx); apply Qle_refl. Qed.
Lemma qsum_plus {A} (f g : A -> Q) l : (qsum (map (fun x => f x + g x) l) == qsum (map f l) + qsum (map g l))%Q.
Proof. induction l as [|x l IH]; [reflexivity|]. cbn [map]. rewrite !qsum_cons, IH. ring. Qed.
Lemma qsum_scale {A} (f : A -> Q) c l : (qsum (map (fun x => c * f x) l) == c * qsum (map f l))%Q.
Proof. induction l as [|x l IH]; [change (0 == c * 0)%Q; ring|]. cbn [map]. rewrite !qsum_cons, IH. ring. Qed.
Lemma map_fst_combine {A B} (a : list A) : forall (b : list B), length a = length b -> map fst (combine a b) = a.
Proof. induction a as [|x a IH]; intros [|y b] H; try discriminate; auto. cbn [combine map fst]. rewrite IH; auto. Qed.
Lemma map_snd_combine {A B} (a : list A) : forall (b : list B), length a = length b -> map snd (combine a b) = b.
Proof. induction a as [|x a IH]; intros [|y b] H; try discriminate; auto. cbn [combine map snd]. rewrite IH; auto. Qed.
Lemma in_pairs (ls : list alayer) p : In p (combine (seq 0 (length ls)) ls) -> nth_error ls (fst p) = Some (snd p).
Proof.
  assert (G : forall pre ls, In p (combine (seq (length pre) (length ls)) ls) -> nth_error (pre ++ ls) (fst p) = Some (snd p)).
  { intros pre ls0; revert pre. induction ls0 as [|x ls0 IH]; intros pre H; [destruct H|]. cbn [length seq combine] in H. destruct H as [<-|H].
    - cbn [fst snd]. rewrite nth_error_app2, Nat.sub_diag by lia. reflexivity.
    - specialize (IH (pre ++ [x])). rewrite <- app_assoc in IH. cbn [app] in IH. apply IH. rewrite app_length. cbn [length]. rewrite Nat.add_1_r. exact H. }
  apply (G []).
Qed.
Lemma macs_at_pairs m (b : nat -> bool) : (qsum (map (fun i => if b i then macs_at m i else 0%Q) (seq 0 (length (m_layers m)))) == lsum m (fun i _ => b i))%Q.
Proof.
  unfold lsum. rewrite (qsum_ext (fun p => if b (fst p) then al_macs (snd p) else 0%Q) (fun p => if b (fst p) then macs_at m (fst p) else 0%Q)).
  - rewrite <- (map_map (@fst nat alayer) (fun i => if b i then macs_at m i else 0%Q)). rewrite map_fst_combine. reflexivity. rewrite seq_length; auto.
  - intros p Hp. destruct (b (fst p)); [|reflexivity]. apply in_pairs in Hp. unfold macs_at. rewrite Hp. reflexivity.
Qed.
Lemma lsum_names m f : (lsum m (fun _ l => f l) == qsum (map (fun l => if f l then al_macs l else 0%Q) (m_layers m)))%Q.
Proof.
  unfold lsum. rewrite <- (map_map (@snd nat alayer) (fun l => if f l then al_macs l else 0%Q)). rewrite map_snd_combine; [reflexivity|]. rewrite seq_length; auto.
Qed.
(** the MACs of a layer and its dependents *)
Lemma named_sum ls ns : NoDup (map al_name ls) -> NoDup ns -> incl ns (map al_name ls) ->
  (qsum (map (fun d => match name2layer ls d with Ok y => al_macs y | Raise _ => 0 end) ns) == qsum (map (fun l => if existsb (String.eqb (al_name l)) ns then al_macs l else 0%Q) ls))%Q.
Proof.
  intro N. induction ns as [|n ns IH]; intros Nn I.
  - cbn [map existsb]. clear. induction ls as [|x ls IH]; [reflexivity|]. cbn [map]. rewrite qsum_cons, <- IH. reflexivity.
  - inversion Nn as [|? ? Hn Nn']; subst. cbn [map]. rewrite qsum_cons, IH by (auto; intros z Hz; apply I; right; auto).
    assert (Hx : In n (map al_name ls)) by (apply I; left; auto). apply in_map_iff in Hx. destruct Hx as (y & Ey & Hy). rewrite (name2layer_in ls n y N Hy Ey).
    assert (One : (al_macs y == qsum (map (fun l => if String.eqb (al_name l) n then al_macs l else 0%Q) ls))%Q).
    { rewrite <- qsum_filter. rewrite (filter_name ls n y N Hy Ey). cbn [map]. rewrite qsum_cons. change (qsum []) with 0%Q. ring. }
    rewrite One. rewrite <- qsum_plus. apply qsum_ext. intros l Hl. cbn [existsb]. destruct (String.eqb_spec (al_name l) n) as [K|K]; cbn [orb]; [|destruct (existsb _ _); ring].
    replace (existsb (String.eqb (al_name l)) ns) with false; [ring|]. symmetry. apply not_true_is_false. intro X. apply existsb_exists in X. destruct X as (z & Hz & Ez). apply String.eqb_eq in Ez. congruence.
Qed.

Lemma name2id_iff ls : NoDup (map al_name ls) -> forall n i l, nth_error ls i = Some l -> (name2id ls n = Ok i <-> al_name l = n).
Proof.
  intros N n i l H. split.
  - intro E. unfold name2id in E. destruct (ids_from _ ls 0) as [|j [|? ?]] eqn:Ei; try discriminate. injection E as ->.
    assert (X : In i (ids_from (fun l => String.eqb (al_name l) n) ls 0)) by (rewrite Ei; left; auto). rewrite <- ids_filter in X. apply in_map_iff in X. destruct X as ((j & y) & Ej & Hf). cbn [fst] in Ej. subst j.
    apply filter_In in Hf. destruct Hf as [Hp Ey]. apply in_pairs in Hp. cbn [fst snd] in *. apply String.eqb_eq in Ey. congruence.
  - intros <-. destruct (name2id_in ls N (al_name l)) as (j & y & Ej & Hj & Ey). { apply in_map. eapply nth_error_In; eauto. }
    rewrite Ej. f_equal. apply (proj1 (NoDup_nth_error (map al_name ls)) N).
    + rewrite map_length. apply nth_error_Some. congruence.
    + rewrite (map_nth_error _ _ _ Hj), (map_nth_error _ _ _ H). congruence.
Qed.

Definition aheadb (m0 : meta) (p j : nat) (l : alayer) : bool := Nat.ltb p j && (memn j (m_pruned m0 ++ m_dep m0) && negb (existsb (String.eqb (al_name l)) (touched m0 p))).
Lemma existsb_name n ns : existsb (String.eqb n) ns = true <-> In n ns.
Proof. rewrite existsb_exists. split; [intros (x & H & E); apply String.eqb_eq in E; subst; auto|]. intro H; exists n; split; auto. apply String.eqb_refl. Qed.
Lemma aheadb_iff m0 p j l : nth_error (m_layers m0) j = Some l -> (aheadb m0 p j l = true <-> ahead m0 p j).
Proof.
  intro H. unfold aheadb, ahead. rewrite !andb_true_iff, Nat.ltb_lt, memn_in, negb_true_iff, in_app_iff. split.
  - intros (A & B & C). repeat split; auto. exists l. split; auto. rewrite <- existsb_name. congruence.
  - intros (A & B & x & Hx & C). repeat split; auto. assert (x = l) by congruence. subst x. apply not_true_is_false. rewrite existsb_name. exact C.
Qed.

Section Target.
Variables (cfg : acfg) (orig : Q) (achieve : env -> Q -> Q) (loss : env -> Q).
Hypothesis Hach : forall e f, (0 <= achieve e f < 1)%Q.
Variable m0 : meta.
Hypothesis S0 : sound m0.
Hypothesis Horig : (orig == m_macs m0)%Q.
Hypothesis Hc : c_constrained cfg = true.
Let s := qmin (9 # 10) (c_high cfg).
Hypothesis Hs : (0 <= c_high cfg)%Q.
Hypothesis Hloss : forall e f, (0 < f < 1 -> f - loss e <= achieve e f)%Q.
Hypothesis Hl0 : forall e, (0 <= loss e)%Q.
Let T := ((1 - c_density cfg) * orig)%Q.

Definition rest_of (e : env) : Q := lsum (e_meta e) (fun j l => aheadb m0 (e_layer e) j l).
Definition ok_env (e : env) : Prop := good orig m0 e /\ Forall2 same_shape (m_layers m0) (m_layers (e_meta e)).

Lemma rest_eq e : ok_env e -> exists x y, rest_macs_raw e = Ok (x, y) /\ (x == rest_of e)%Q.
Proof.
  intros (G & SH). destruct (rest_ok orig m0 e G) as (l & ds & ign & E1 & E2 & E3 & Er). eexists _, _. split; [exact Er|].
  destruct G as [S Gp Gd Gc Gr Gn]. pose proof Gc as Gc'. rewrite <- Gp in Gc'. destruct (get_pruned_ok _ _ S Gc') as (l' & ds' & K1 & _ & K2 & K3 & K4 & K5 & K6).
  assert (l' = l) by congruence. subst l'. assert (ds' = ds) by congruence. subst ds'.
  assert (Hn : (e_layer e < length (m_layers (e_meta e)))%nat) by (apply nth_error_Some; congruence).
  unfold rest_ids. rewrite qsum_filter.
  set (n := length (m_layers (e_meta e))) in *. set (b := fun i => is_compressible (e_meta e) i && negb (memn i ign)).
  assert (Sp : seq 0 n = seq 0 (Datatypes.S (e_layer e)) ++ seq (Datatypes.S (e_layer e)) (n - Datatypes.S (e_layer e))).
  { replace n with (Datatypes.S (e_layer e) + (n - Datatypes.S (e_layer e)))%nat at 1 by lia. rewrite seq_app. reflexivity. }
  assert (X : (qsum (map (fun x => if b x then macs_at (e_meta e) x else 0%Q) (seq (Datatypes.S (e_layer e)) (n - Datatypes.S (e_layer e)))) ==
     qsum (map (fun i => if Nat.ltb (e_layer e) i && b i then macs_at (e_meta e) i else 0%Q) (seq 0 n)))%Q).
  { rewrite Sp, map_app, qsum_app.
    rewrite (qsum_ext (fun i => if Nat.ltb (e_layer e) i && b i then macs_at (e_meta e) i else 0%Q) (fun _ => 0 * 0)%Q (seq 0 (Datatypes.S (e_layer e)))).
    - rewrite qsum_scale. rewrite (qsum_ext (fun i => if Nat.ltb (e_layer e) i && b i then macs_at (e_meta e) i else 0%Q) (fun x => if b x then macs_at (e_meta e) x else 0%Q) (seq (Datatypes.S (e_layer e)) (n - Datatypes.S (e_layer e)))); [ring|].
      intros i Hi. apply in_seq in Hi. replace (Nat.ltb (e_layer e) i) with true by (symmetry; apply Nat.ltb_lt; lia). reflexivity.
    - intros i Hi. apply in_seq in Hi. replace (Nat.ltb (e_layer e) i) with false by (symmetry; apply Nat.ltb_ge; lia). cbn [andb]. ring. }
  etransitivity; [exact X|]. unfold n. rewrite (macs_at_pairs (e_meta e) (fun i => Nat.ltb (e_layer e) i && b i)). unfold rest_of, lsum. apply qsum_ext. intros (j & y) Hj. apply in_pairs in Hj. cbn [fst snd] in *.
  replace (Nat.ltb (e_layer e) j && b j) with (aheadb m0 (e_layer e) j y); [reflexivity|]. unfold aheadb, b, is_compressible. rewrite Gp, Gd.
  destruct (Nat.ltb_spec (e_layer e) j) as [Hlt|]; cbn [andb]; [|reflexivity]. f_equal. f_equal.
  rewrite <- (touched_same _ _ (e_layer e) SH). rewrite (touched_eq _ _ _ _ K2 K3).
  apply eq_true_iff_eq. rewrite existsb_name, memn_in, (mapM_in _ _ _ E3). split.
  - intros [K|K].
    + exfalso. assert (j = e_layer e); [|lia]. apply (proj1 (NoDup_nth_error _) (sd_names _ S)); [rewrite map_length; apply nth_error_Some; congruence|]. rewrite (map_nth_error _ _ _ Hj), (map_nth_error _ _ _ K2). congruence.
    + exists (al_name y). split; auto. apply (name2id_iff _ (sd_names _ S) _ _ _ Hj). reflexivity.
  - intros (d & Hd & Ed). right. apply (name2id_iff _ (sd_names _ S) _ _ _ Hj) in Ed. subst d. exact Hd.
Qed.

Lemma reach_eq e l : ok_env e -> get_pruned_layer (e_meta e) (e_layer e) = Ok l -> exists v, layer_macs (e_meta e) l = Ok v /\ (v == reachable_macs e)%Q /\ (0 < v)%Q.
Proof.
  intros ([S Gp Gd Gc Gr Gn] & SH) E. rewrite <- Gp in Gc. destruct (get_pruned_ok _ _ S Gc) as (l' & ds & K1 & _ & K2 & K3 & K4 & K5 & K6). assert (l' = l) by congruence. subst l'.
  destruct (layer_macs_pos _ _ _ _ S K2 K3 K5 K4) as (v & Ev & Pv & Qv). exists v. split; [exact Ev|]. split; [|exact Pv]. rewrite Qv. unfold reachable_macs. rewrite (touched_eq _ _ _ _ K2 K3).
  rewrite <- named_sum; [|apply (sd_names _ S)|exact K4|].
  - cbn [map]. rewrite qsum_cons. rewrite (name2layer_in _ _ l (sd_names _ S) (nth_error_In _ _ K2) eq_refl). reflexivity.
  - intros z [<-|Hz]; [|apply K5; exact Hz]. apply in_map. eapply nth_error_In; eauto.
Qed.

(** one constrained step *)
Lemma target_step e a e' o r : ok_env e -> step cfg orig achieve e a = Ok (e', o) -> (e_state e < length (m_pruned m0))%nat ->
  (T - (e_removed e + s * rest_of e) <= (9999 # 10000) * reachable_macs e)%Q -> e_hist e' = e_hist e ++ [r] ->
  ok_env e' /\ (e_removed e' == e_removed e + r * reachable_macs e)%Q /\ (T - s * rest_of e - loss e * reachable_macs e <= e_removed e')%Q /\
  Forall2 (trimmed r (touched m0 (e_layer e))) (m_layers (e_meta e)) (m_layers (e_meta e')).
Proof.
  intros (G & SH) Es Hst Hd Hh.
  destruct (step_ok cfg orig achieve Hach (orig_pos orig m0 S0 Horig) m0 e a G Hst) as (e1 & o1 & r1 & Es1 & Hr & F & G' & _ & T2 & _ & _ & HA & _ & _).
  assert (e1 = e') by congruence. subst e1. assert (r1 = r). { rewrite T2 in Hh. apply app_inj_tail in Hh. apply Hh. } subst r1. clear Es1 o1.
  assert (SH' : Forall2 same_shape (m_layers m0) (m_layers (e_meta e'))).
  { revert SH F. generalize (m_layers m0) (m_layers (e_meta e)) (m_layers (e_meta e')). clear. intros l0 l1 l2 SH. revert l2. induction SH as [|x y l0 l1 (X1 & X2) SH IH]; intros l2 F; inversion F as [|? z ? l2' (Y1 & Y2 & _) F']; subst; constructor; auto. split; congruence. }
  rewrite (touched_same _ _ _ SH) in F.
  destruct (rest_eq e (conj G SH)) as (x & y & Er & Ex). pose proof G as [S Gp Gd Gc Gr Gn].
  destruct (rest_ok orig m0 e G) as (l & ds & ign & El & _). destruct (reach_eq e l (conj G SH) El) as (v & Ev & Qv & Pv).
  assert (M : (m_macs (e_meta e') == m_macs (e_meta e) - r * reachable_macs e)%Q).
  { rewrite (sd_macs _ (g_sound _ _ _ G')), (sd_macs _ S). unfold reachable_macs. rewrite (touched_same _ _ _ SH). revert F. generalize (m_layers (e_meta e)) (m_layers (e_meta e')). clear. intros l1 l2 F.
    induction F as [|x y l1 l2 (_ & _ & X & _) F IH]; [change (0 == 0 - r * 0)%Q; ring|]. cbn [map]. rewrite !qsum_cons, IH, X. destruct (existsb _ _); ring. }
  assert (Rm : (e_removed e' == e_removed e + r * reachable_macs e)%Q) by (rewrite (g_removed _ _ _ G'), Gr, M; ring).
  split; [split; auto|]. split; [exact Rm|]. split; [|exact F].
  assert (K : (T - (e_removed e + s * rest_of e) - loss e * reachable_macs e <= r * reachable_macs e)%Q); [|lra].
  unfold asked in HA. rewrite Hc in HA. unfold clamp_action in HA. rewrite El in HA. cbn [bind] in HA. rewrite Ev in HA. cbn [bind] in HA. rewrite (proj2 (Qltb_lt 0 v) Pv) in HA. cbn [negb] in HA.
  rewrite Er in HA. cbn [bind fst snd] in HA. replace (Qeq_bool (e_removed e) (orig - m_macs (e_meta e))) with true in HA by (symmetry; apply Qeq_bool_iff; exact Gr). cbn [negb] in HA.
  fold s in HA. fold T in HA. set (duty := (T - (e_removed e + x * s))%Q) in *. set (q := qmax (map_action cfg a) (duty / v)) in *.
  assert (Dq : (duty / v <= q)%Q) by (unfold q, qmax; destruct (Qle_bool (map_action cfg a) (duty / v)) eqn:Eq; [lra|]; apply not_true_iff_false in Eq; rewrite Qle_bool_iff in Eq; lra).
  assert (Dv : (duty / v * v == duty)%Q) by (field; lra).
  assert (Dd : (duty == T - (e_removed e + s * rest_of e))%Q) by (unfold duty; rewrite Ex; ring).
  assert (D9 : (duty / v <= 9999 # 10000)%Q). { apply Qle_shift_div_r; [exact Pv|]. rewrite Qv. rewrite Dd. lra. }
  rewrite <- Dd. rewrite <- Qv.
  assert (Goal : (duty / v - loss e <= r)%Q).
  2:{ assert (((duty / v - loss e) * v <= r * v)%Q) by (apply Qmult_le_compat_r; lra). assert (((duty / v - loss e) * v == duty - loss e * v)%Q) by (rewrite <- Dv at 2; ring). lra. }
  pose proof (Hl0 e) as L0.
  assert (M1 : (qmin 1 q == 1 /\ 1 <= q)%Q \/ (qmin 1 q == q /\ q < 1)%Q).
  { unfold qmin. destruct (Qle_bool 1 q) eqn:E1; [left; apply Qle_bool_iff in E1; split; [reflexivity|auto]|right]. apply not_true_iff_false in E1. rewrite Qle_bool_iff in E1. split; [reflexivity|lra]. }
  destruct (Qltb 0 (qmin 1 q)) eqn:Eb.
  - apply Qltb_lt in Eb. destruct (Qeq_bool (qmin 1 q) 1) eqn:E1.
    + rewrite HA. pose proof (Hloss e (9999 # 10000)) as X. lra.
    + rewrite HA. apply Qeq_bool_neq in E1. destruct M1 as [[M1 _]|[M1 M2]]; [contradiction|]. pose proof (Hloss e (qmin 1 q)) as X. assert (0 < qmin 1 q < 1)%Q by lra. specialize (X H). lra.
  - apply Qltb_ge in Eb. rewrite HA. destruct M1 as [[M1 _]|[M1 M2]]; lra.
Qed.
Hypothesis CV : coverable m0.
Hypothesis Hden : (1 - c_density cfg <= s)%Q.

Lemma shape_of acts e : accounted orig m0 acts e -> Forall2 same_shape (m_layers m0) (m_layers (e_meta e)).
Proof. intro A. pose proof (ac_layers _ _ _ _ A) as X. revert X. clear. induction 1 as [|? ? ? ? (X1 & X2 & _)]; constructor; auto. split; auto. Qed.
Lemma ok_of acts : (length acts <= length (m_pruned m0))%nat -> exists e, episode cfg orig achieve m0 acts = Ok e /\ ok_env e /\ accounted orig m0 acts e /\ at_layer m0 (length acts) e.
Proof.
  intro H. destruct (episode_acc cfg orig achieve Hach m0 S0 Horig acts H) as (e & E & G & A & L & _). exists e. split; [exact E|]. split; [split; [exact G|eapply shape_of; eauto]|]. auto.
Qed.
Lemma s_range : (0 <= s)%Q /\ (s <= 9 # 10)%Q.
Proof. unfold s, qmin. destruct (Qle_bool (9 # 10) (c_high cfg)) eqn:E; [split; [discriminate|apply Qle_refl]|]. apply not_true_iff_false in E. rewrite Qle_bool_iff in E. split; [exact Hs|lra]. Qed.

Lemma shape_nth ls ls' i l : Forall2 same_shape ls ls' -> nth_error ls' i = Some l -> exists l0, nth_error ls i = Some l0 /\ same_shape l0 l.
Proof. intro F. revert i. induction F as [|a b ls ls' HR F IH]; intros [|i] E; try discriminate; cbn [nth_error] in *; [injection E as <-; eauto|auto]. Qed.
Lemma reach_lsum e : ok_env e -> (reachable_macs e == lsum (e_meta e) (fun _ l => existsb (String.eqb (al_name l)) (touched m0 (e_layer e))))%Q.
Proof. intros (G & SH). rewrite lsum_names. unfold reachable_macs. rewrite (touched_same _ _ _ SH). reflexivity. Qed.
Lemma aheadb_shape e p j l : ok_env e -> nth_error (m_layers (e_meta e)) j = Some l -> (aheadb m0 p j l = true <-> ahead m0 p j).
Proof.
  intros (G & SH) H. destruct (shape_nth _ _ _ _ SH H) as (l0 & H0 & E1 & E2). rewrite <- (aheadb_iff m0 p j l0 H0). unfold aheadb. rewrite E1. reflexivity.
Qed.
Lemma pos_layer e j l : ok_env e -> nth_error (m_layers (e_meta e)) j = Some l -> (0 < al_macs l)%Q.
Proof. intros (G & _) H. pose proof (sd_pos _ (g_sound _ _ _ G)) as P. rewrite Forall_forall in P. apply P. eapply nth_error_In; eauto. Qed.

Lemma first_duty e : episode cfg orig achieve m0 [] = Ok e -> (T - (e_removed e + s * rest_of e) <= (9999 # 10000) * reachable_macs e)%Q.
Proof.
  intro E. destruct (ok_of [] ltac:(cbn; lia)) as (e1 & E1 & OK & A & L). assert (e1 = e) by congruence. subst e1. destruct s_range as [s1 s2].
  pose proof OK as (G & SH). unfold at_layer in L. cbn [length Nat.min] in L.
  assert (Z : (e_removed e == 0)%Q). { unfold episode, reset in E. destruct (m_pruned m0); [discriminate|]. cbn [bind] in E. destruct (get_obs orig _); [|discriminate]. cbn [bind run_steps foldM] in E. injection E as <-. reflexivity. }
  assert (TOT : (orig <= rest_of e + reachable_macs e)%Q).
  { pose proof (g_removed _ _ _ G) as Gr. assert (orig == m_macs (e_meta e))%Q by lra. rewrite H, (sd_macs _ (g_sound _ _ _ G)). rewrite reach_lsum by exact OK. unfold rest_of.
    rewrite <- (lsum_names (e_meta e) (fun _ => true)). unfold lsum. rewrite <- qsum_plus. apply qsum_le. intros (j & l) Hj. apply in_pairs in Hj. cbn [fst snd] in *.
    pose proof (pos_layer e j l OK Hj) as P. destruct (shape_nth _ _ _ _ SH Hj) as (l0 & H0 & N1 & _).
    destruct (cv_first m0 CV _ j l0 L H0) as [X|X].
    - rewrite N1. replace (existsb (String.eqb (al_name l0)) (touched m0 (e_layer e))) with true by (symmetry; apply existsb_name; exact X). destruct (aheadb _ _ _ _); lra.
    - apply (aheadb_shape e _ j l OK Hj) in X. rewrite X. destruct (existsb _ _); lra. }
  assert (R0 : (0 <= reachable_macs e)%Q). { rewrite reach_lsum by exact OK. unfold lsum. apply Qle_trans with (qsum (map (fun _ => 0 * 0)%Q (combine (seq 0 (length (m_layers (e_meta e)))) (m_layers (e_meta e))))); [rewrite qsum_scale; lra|].
     apply qsum_le. intros (j & l) Hj. apply in_pairs in Hj. cbn [fst snd] in *. pose proof (pos_layer e j l OK Hj). destruct (existsb _ _); lra. }
  rewrite Z. unfold T. pose proof (orig_pos orig m0 S0 Horig) as OP.
  assert (A1 : ((1 - c_density cfg) * orig <= s * orig)%Q) by (apply Qmult_le_compat_r; lra).
  assert (A2 : (s * orig <= s * (rest_of e + reachable_macs e))%Q) by (rewrite !(Qmult_comm s); apply Qmult_le_compat_r; lra).
  assert (A3 : (s * reachable_macs e <= (9999 # 10000) * reachable_macs e)%Q) by (apply Qmult_le_compat_r; lra). lra.
Qed.

Section Path.
Variable acts : list Q.
Hypothesis Hlen : length acts = length (m_pruned m0).
Hypothesis Hsmall : forall pre a post e e', acts = pre ++ a :: post -> post <> [] -> episode cfg orig achieve m0 pre = Ok e -> episode cfg orig achieve m0 (pre ++ [a]) = Ok e' ->
  (loss e * reachable_macs e <= ((9999 # 10000) - s) * reachable_macs e')%Q.

Lemma episode_snoc pre a e e' : episode cfg orig achieve m0 pre = Ok e -> episode cfg orig achieve m0 (pre ++ [a]) = Ok e' -> exists o, step cfg orig achieve e a = Ok (e', o).
Proof.
  unfold episode. destruct (reset m0) as [x|]; [|discriminate]. cbn [bind]. destruct (get_obs orig x); [|discriminate]. cbn [bind]. unfold run_steps. rewrite foldM_snoc. intros E. rewrite E. cbn [bind].
  destruct (step cfg orig achieve e a) as [(e1 & o)|]; [|discriminate]. cbn [bind fst]. intro H. injection H as ->. eauto.
Qed.

Lemma duty_path : forall pre post, acts = pre ++ post -> post <> [] -> exists e, episode cfg orig achieve m0 pre = Ok e /\ ok_env e /\ at_layer m0 (length pre) e /\ e_state e = length pre /\
  (T - (e_removed e + s * rest_of e) <= (9999 # 10000) * reachable_macs e)%Q.
Proof.
  intro pre. induction pre as [|a pre IH] using rev_ind; intros post Ha Hp.
  - destruct (ok_of [] ltac:(cbn; lia)) as (e & E & OK & A & L). exists e. repeat split; auto; try apply OK; [apply A|]. apply first_duty. exact E.
  - rewrite <- app_assoc in Ha. cbn [app] in Ha. destruct (IH (a :: post) Ha ltac:(discriminate)) as (e & E & OK & L & St & D). clear IH.
    assert (Hl : (length pre + S (length post) = length (m_pruned m0))%nat) by (rewrite <- Hlen, Ha, app_length; reflexivity).
    assert (Hq : (1 <= length post)%nat) by (destruct post; [congruence|cbn; lia]).
    destruct (ok_of (pre ++ [a])) as (e' & E' & OK' & A' & L'). { rewrite app_length. cbn [length]. lia. }
    destruct (episode_snoc pre a e e' E E') as (o & Es). destruct (ac_steps _ _ _ _ A') as [St' Lh']. exists e'. split; [exact E'|]. split; [exact OK'|]. split; [exact L'|]. split; [exact St'|].
    destruct (step_ok cfg orig achieve Hach (orig_pos orig m0 S0 Horig) m0 e a (proj1 OK) ltac:(lia)) as (e1 & o1 & r & Es1 & Hr & _ & _ & _ & T2 & _). assert (e1 = e') by congruence. subst e1.
    destruct (target_step e a e' o r OK Es ltac:(lia) D T2) as (_ & Rm & LB & F).
    pose proof (Hsmall pre a post e e' Ha Hp E E') as SM. destruct s_range as [s1 s2].
    assert (RR : (rest_of e <= rest_of e' + reachable_macs e')%Q).
    { rewrite reach_lsum by exact OK'. unfold rest_of, lsum. rewrite <- qsum_plus.
      pose proof (Forall2_len _ _ _ F) as FL.
      rewrite (qsum_ext (fun p => if aheadb m0 (e_layer e) (fst p) (snd p) then al_macs (snd p) else 0%Q) (fun p => if aheadb m0 (e_layer e) (fst p) (snd p) then macs_at (e_meta e) (fst p) else 0%Q)).
      2:{ intros p Hj. apply in_pairs in Hj. unfold macs_at. rewrite Hj. reflexivity. }
      assert (SW : forall (b : nat -> alayer -> bool), (forall j l l', al_name l = al_name l' -> b j l = b j l') ->
        (qsum (map (fun p => if b (fst p) (snd p) then macs_at (e_meta e) (fst p) else 0%Q) (combine (seq 0 (length (m_layers (e_meta e)))) (m_layers (e_meta e)))) ==
         qsum (map (fun p => if b (fst p) (snd p) then macs_at (e_meta e) (fst p) else 0%Q) (combine (seq 0 (length (m_layers (e_meta e')))) (m_layers (e_meta e')))))%Q).
      { intros b Hb. rewrite <- FL. clear - F Hb. generalize (macs_at (e_meta e)) as f. generalize 0%nat as k. intros k f. revert k. induction F as [|x y l1 l2 (X & _) F IH]; intro k; [reflexivity|]. cbn [length seq combine map]. rewrite !qsum_cons, IH. cbn [fst snd]. rewrite (Hb k x y) by congruence. reflexivity. }
      rewrite (SW (aheadb m0 (e_layer e))). 2:{ intros j x y Exy. unfold aheadb. rewrite Exy. reflexivity. }
      apply qsum_le. intros (j & l) Hj. apply in_pairs in Hj. cbn [fst snd] in *. pose proof (pos_layer e' j l OK' Hj) as P.
      destruct (aheadb m0 (e_layer e) j l) eqn:Ah; [|destruct (aheadb m0 (e_layer e') j l), (existsb _ _); lra].
      assert (AH : ahead m0 (e_layer e) j) by (apply (aheadb_shape e' _ j l OK' Hj); exact Ah).
      destruct (shape_nth _ _ _ _ (proj2 OK') Hj) as (l0 & H0 & N1 & _).
      assert (EQ : (macs_at (e_meta e) j == al_macs l)%Q).
      { destruct (shape_nth _ _ _ _ (proj2 OK') Hj) as (l0' & H0' & _). destruct (Forall2_nth _ _ _ (proj2 OK) j l0' H0') as (l1 & H1 & N2 & _). unfold macs_at. rewrite H1.
        destruct (Forall2_nth _ _ _ F j l1 H1) as (l2 & H2 & N3 & _ & X & _). assert (l2 = l) by congruence. subst l2. rewrite X. destruct AH as (_ & _ & lx & Hx & Nx). assert (lx = l0') by congruence. subst lx. rewrite <- N2 in Nx.
        replace (existsb (String.eqb (al_name l1)) (touched m0 (e_layer e))) with false; [ring|]. symmetry. apply not_true_is_false. rewrite existsb_name. exact Nx. }
      rewrite EQ. unfold at_layer in L, L'. rewrite Nat.min_l in L by lia. rewrite app_length in L'. cbn [length] in L'. rewrite Nat.min_l in L' by lia. rewrite Nat.add_1_r in L'.
      destruct (cv_next m0 CV _ _ _ j l0 L L' H0 AH) as [X|X].
      - rewrite N1. replace (existsb (String.eqb (al_name l0)) (touched m0 (e_layer e'))) with true by (symmetry; apply existsb_name; exact X). destruct (aheadb m0 (e_layer e') j l); lra.
      - apply (aheadb_shape e' _ j l OK' Hj) in X. rewrite X. destruct (existsb _ _); lra. }
    assert (A2 : (s * rest_of e <= s * (rest_of e' + reachable_macs e'))%Q) by (rewrite !(Qmult_comm s); apply Qmult_le_compat_r; lra). lra.
Qed.

Lemma target_reached : exists pre a e e', acts = pre ++ [a] /\ episode cfg orig achieve m0 pre = Ok e /\ episode cfg orig achieve m0 acts = Ok e' /\
  (m_macs (e_meta e') <= c_density cfg * orig + loss e * reachable_macs e)%Q.
Proof.
  assert (NE : acts <> []). { intro X. rewrite X in Hlen. destruct (m_pruned m0) eqn:Y; [apply (sd_some m0 S0 Y)|cbn in Hlen; lia]. }
  destruct (exists_last NE) as (pre & a & Ea).
  destruct (duty_path pre [a] Ea ltac:(discriminate)) as (e & E & OK & L & St & D).
  assert (Hl : (S (length pre) = length (m_pruned m0))%nat) by (rewrite <- Hlen, Ea, app_length; cbn [length]; lia).
  destruct (ok_of (pre ++ [a])) as (e' & E' & OK' & A' & L'). { rewrite app_length. cbn [length]. lia. }
  destruct (episode_snoc pre a e e' E E') as (o & Es). exists pre, a, e, e'. split; [exact Ea|]. split; [exact E|]. split; [rewrite Ea; exact E'|].
  destruct (step_ok cfg orig achieve Hach (orig_pos orig m0 S0 Horig) m0 e a (proj1 OK) ltac:(lia)) as (e1 & o1 & r & Es1 & Hr & _ & _ & _ & T2 & _). assert (e1 = e') by congruence. subst e1.
  destruct (target_step e a e' o r OK Es ltac:(lia) D T2) as (_ & Rm & LB & F).
  assert (Z : (rest_of e == 0)%Q).
  { unfold rest_of, lsum. rewrite (qsum_ext _ (fun _ => 0 * 0)%Q); [rewrite qsum_scale; ring|]. intros (j & l) Hj. apply in_pairs in Hj. cbn [fst snd] in *.
    destruct (aheadb m0 (e_layer e) j l) eqn:Ah; [|reflexivity]. apply (aheadb_shape e _ j l OK Hj) in Ah. unfold at_layer in L. rewrite Nat.min_l in L by lia. destruct (cv_last m0 CV _ _ j Hl L Ah). }
  pose proof (g_removed _ _ _ (proj1 OK')) as Gr. rewrite Z in LB. unfold T in LB. lra.
Qed.
End Path.
End Target.
