(** Proofs for the feature-map reconstruction pruner. *)
From Coq Require Import String List ZArith QArith Qabs Qround Bool Arith Lia Lqa.
From Verif Require Import Base Lists SchedModel PrunerModel StructModel FmModel FmSpec.
Import ListNotations.
Open Scope list_scope.
Open Scope nat_scope.

(** ** sums *)
Lemma qsum_ext {A} (f g : A -> Q) l : (forall a, In a l -> (f a == g a)%Q) -> (qsum (map f l) == qsum (map g l))%Q.
Proof.
  induction l; intros H; [reflexivity|]. unfold qsum in *. cbn [map fold_right]. rewrite (H a) by (now left).
  rewrite IHl by (intros; apply H; now right). reflexivity.
Qed.
Lemma qsum_tab_ext n f g : (forall i, i < n -> (f i == g i)%Q) -> (qsum (tab n f) == qsum (tab n g))%Q.
Proof. intros H. unfold tab. apply qsum_ext. intros a Ha. apply in_seq in Ha. apply H. lia. Qed.
Lemma qsum_app l1 l2 : (qsum (l1 ++ l2) == qsum l1 + qsum l2)%Q.
Proof. unfold qsum. induction l1; cbn [app fold_right]; [ring|rewrite IHl1; ring]. Qed.
Lemma tab_S {A} n (f : nat -> A) : tab (S n) f = tab n f ++ [f n].
Proof. unfold tab. rewrite seq_S, map_app. reflexivity. Qed.
Lemma tab_add {A} a b (f : nat -> A) : tab (a + b) f = tab a f ++ tab b (fun i => f (a + i)).
Proof.
  induction b; [unfold tab; rewrite Nat.add_0_r; cbn; now rewrite app_nil_r|].
  rewrite <- plus_n_Sm, !tab_S, IHb, app_assoc. reflexivity.
Qed.
Lemma qsum_flat m K h : (qsum (tab (m * K) h) == qsum (tab m (fun i => qsum (tab K (fun q => h (i * K + q)))%nat)))%Q.
Proof.
  induction m; [reflexivity|]. replace (S m * K) with (m * K + K) by lia.
  rewrite tab_add, qsum_app, IHm, tab_S, qsum_app. apply Qplus_comp; [reflexivity|]. unfold qsum at 2. cbn [fold_right]. ring.
Qed.
Lemma qsum_flat2 a b h : 0 < b ->
  (qsum (tab a (fun i => qsum (tab b (fun j => h i j)))) == qsum (tab (a * b) (fun q => h (q / b)%nat (q mod b)%nat)))%Q.
Proof.
  intros Hb. rewrite qsum_flat. apply qsum_tab_ext; intros i Hi. apply qsum_tab_ext; intros j Hj.
  rewrite Nat.div_add_l, Nat.div_small by lia. rewrite (Nat.add_comm (i * b) j), Nat.mod_add, Nat.mod_small by lia.
  rewrite Nat.add_0_r. reflexivity.
Qed.
(** a sum over a list is the sum over the members where it is not zero *)
Lemma qsum_filter (k : nat -> bool) g l : (forall c, In c l -> k c = false -> (g c == 0)%Q) ->
  (qsum (map g l) == qsum (map g (filter k l)))%Q.
Proof.
  unfold qsum. induction l; intros H; [reflexivity|]. cbn [map filter fold_right].
  assert (E := IHl (fun c Hc => H c (or_intror Hc))). destruct (k a) eqn:Ek.
  - cbn [map fold_right]. rewrite E. reflexivity.
  - rewrite (H a (or_introl eq_refl) Ek), E. ring.
Qed.
Lemma map_nth_tab {A B} (d : A) (g : A -> B) l : map g l = tab (length l) (fun i => g (nth i l d)).
Proof. rewrite <- (tab_of_list d l) at 1. unfold tab at 1. rewrite map_map. unfold tab. now rewrite ?map_map. Qed.
Lemma map2_tab {A B C'} (h : A -> B -> C') n f g : map2 h (tab n f) (tab n g) = tab n (fun i => h (f i) (g i)).
Proof.
  unfold tab. generalize 0. induction n; intros s; [reflexivity|]. cbn [seq map map2]. now rewrite IHn.
Qed.
Lemma dot_tab n f g : (dot (tab n f) (tab n g) == qsum (tab n (fun i => f i * g i)))%Q.
Proof. unfold dot. rewrite map2_tab. reflexivity. Qed.

Lemma kept_lt bm c : In c (kept bm) -> c < length bm.
Proof. unfold kept. rewrite filter_In, in_seq. lia. Qed.
Lemma kept_nodup bm : NoDup (kept bm).
Proof. unfold kept. apply NoDup_filter, seq_NoDup. Qed.

Lemma find_pos_nth l i : NoDup l -> i < length l -> find_pos (nth i l 0) l = Some i.
Proof.
  revert i. induction l; intros i Hn Hi; [cbn in Hi; lia|]. inversion Hn; subst. destruct i; cbn [nth find_pos].
  - now rewrite Nat.eqb_refl.
  - cbn in Hi. destruct (Nat.eqb_spec (nth i l 0) a) as [E|_].
    + exfalso. apply H1. rewrite <- E. apply nth_In. lia.
    + rewrite IHl by (auto; lia). reflexivity.
Qed.
Lemma find_pos_none c l : ~ In c l -> find_pos c l = None.
Proof.
  induction l; intros H; [reflexivity|]. cbn. destruct (Nat.eqb_spec c a); [subst; exfalso; apply H; now left|].
  rewrite IHl; [reflexivity|]. intros Hc. apply H. now right.
Qed.
Lemma find_pos_some c l i : find_pos c l = Some i -> i < length l /\ nth i l 0 = c.
Proof.
  revert i. induction l; intros i H; [discriminate|]. cbn in H. destruct (Nat.eqb_spec c a).
  - assert (i = 0) by congruence. subst. cbn. lia.
  - destruct (find_pos c l) eqn:E; [|discriminate]. cbn in H. assert (i = S n0) by congruence. subst.
    destruct (IHl _ eq_refl). cbn. split; [lia|auto].
Qed.

(** ** the regression problem and the layer error *)
Section Core.
Variables (A : Type) (F C K kwd : nat) (feat : A -> nat -> Q) (target : A -> nat -> Q).
Variable out : nd -> A -> nat -> Q.
Hypothesis HK : 0 < K.
(** the layer with weights [v] is linear in the features *)
Hypothesis Hout : forall v a f, f < F ->
  (out v a f == qsum (tab C (fun c => qsum (tab K (fun q => wt v f c (q / kwd)%nat (q mod kwd)%nat * feat a (c * K + q)%nat)))))%Q.
Variable bm : list Q.
Hypothesis Hbm : length bm = C.
Let idx := kept bm.
Let m := length idx.

Definition row_of (a : A) : list Q := tab (m * K) (fun j => feat a (nth (j / K) idx 0 * K + j mod K)).
Definition restrict (v : nd) (f : nat) : list Q :=
  tab (m * K) (fun j => wt v f (nth (j / K) idx 0) ((j mod K) / kwd) ((j mod K) mod kwd)).
Definition supported (v : nd) : Prop := forall f c q, f < F -> c < C -> q < K -> (nth c bm 0 == 0)%Q -> (wt v f c (q / kwd)%nat (q mod kwd)%nat == 0)%Q.

Lemma dot_out v a f : supported v -> f < F -> (dot (row_of a) (restrict v f) == out v a f)%Q.
Proof using HK Hout Hbm.
  intros Hs Hf. unfold row_of, restrict. rewrite dot_tab, Hout by auto.
  rewrite qsum_flat.
  set (g := fun c => qsum (tab K (fun q => (wt v f c (q / kwd)%nat (q mod kwd)%nat * feat a (c * K + q)%nat)%Q))).
  transitivity (qsum (map g idx)).
  - rewrite (map_nth_tab 0 g). fold m. apply qsum_tab_ext. intros i Hi. unfold g. apply qsum_tab_ext. intros q Hq.
    rewrite Nat.div_add_l, Nat.div_small by lia. rewrite (Nat.add_comm (i * K) q), Nat.mod_add, Nat.mod_small by lia.
    rewrite Nat.add_0_r. ring.
  - unfold idx, kept. symmetry. rewrite <- Hbm. unfold tab at 1. apply qsum_filter.
    intros c Hc Hk. apply in_seq in Hc. unfold g. transitivity (qsum (tab K (fun _ => 0%Q))).
    + apply qsum_tab_ext. intros q Hq. assert (E0 : (nth c bm 0 == 0)%Q).
      { destruct (Qeq_bool (nth c bm 0%Q) 0) eqn:E; [now apply Qeq_bool_eq|discriminate]. }
      assert (E1 := Hs f c q Hf ltac:(lia) Hq E0). rewrite E1. ring.
    + clear. unfold tab, qsum. induction (seq 0 K); cbn; [reflexivity|rewrite IHl; reflexivity].
Qed.

Definition layer_err (l : list A) (v : nd) : Q :=
  qsum (map (fun a => qsum (tab F (fun f => sq (out v a f - target a f)))) l).

Lemma sse_layer l v B : supported v -> matrix F (m * K) B ->
  (forall f j, f < F -> j < m * K -> (nth j (nth f B []) 0 == nth j (restrict v f) 0)%Q) ->
  (sse (map row_of l) B (map (fun a => tab F (target a)) l) == layer_err l v)%Q.
Proof using HK Hout Hbm.
  intros Hs [HB1 HB2] Heq. unfold sse, layer_err.
  induction l as [|a l IH]; [reflexivity|]. unfold qsum at 1 3. cbn [map map2 fold_right].
  fold (qsum (map2 (fun x y => qsum (map2 (fun b t => sq (dot x b - t)%Q) B y)) (map row_of l) (map (fun a => tab F (target a)) l))).
  rewrite IH. apply Qplus_comp; [|reflexivity].
  rewrite <- (tab_of_list [] B), HB1. rewrite map2_tab. apply qsum_tab_ext. intros f Hf.
  assert (E : (dot (row_of a) (nth f B []) == out v a f)%Q).
  { rewrite <- dot_out by auto.
    assert (HL : length (nth f B []) = m * K).
    { rewrite Forall_forall in HB2. apply HB2. apply nth_In. lia. }
    rewrite <- (tab_of_list 0%Q (nth f B [])), HL. unfold row_of. unfold restrict. rewrite !dot_tab.
    apply qsum_tab_ext. intros j Hj. rewrite Heq by auto. unfold restrict. rewrite tab_nth by auto. reflexivity. }
  unfold sq. rewrite E. reflexivity.
Qed.

Lemma restrict_matrix v : matrix F (m * K) (tab F (restrict v)).
Proof using.
  split; [apply tab_length|]. apply Forall_forall. intros r Hr. unfold tab in Hr. apply in_map_iff in Hr.
  destruct Hr as (f & <- & _). unfold restrict. apply tab_length.
Qed.

(** weights whose kept part is a least-squares solution and which are zero elsewhere are the best
    among all the weights zero elsewhere *)
Lemma best l B v : least_squares F (m * K) (map row_of l) (map (fun a => tab F (target a)) l) B ->
  supported v -> (forall f j, f < F -> j < m * K -> (nth j (nth f B []) 0 == nth j (restrict v f) 0)%Q) ->
  forall v', supported v' -> (layer_err l v <= layer_err l v')%Q.
Proof using HK Hout Hbm.
  intros [HM Hmin] Hs Heq v' Hs'. rewrite <- (sse_layer l v B), <- (sse_layer l v' (tab F (restrict v'))); auto.
  - apply Hmin. apply restrict_matrix.
  - apply restrict_matrix.
  - intros f j Hf Hj. rewrite tab_nth by auto. reflexivity.
Qed.
End Core.
