(** Tensors: slices, selection and sub-tensors. *)
From Coq Require Import String List ZArith QArith Bool Arith Lia.
From Verif Require Import Base Lists StructModel ThinModel ThinSpec.
Import ListNotations.
Local Open Scope nat_scope.

Lemma slice_length {A} g j (d : list A) : (S j) * g <= length d -> length (slice g j d) = g.
Proof. intro H. unfold slice. rewrite firstn_length, skipn_length. simpl in H. lia. Qed.
Lemma slice_nth {A} g j (d : list A) i x : i < g -> nth i (slice g j d) x = nth (j * g + i) d x.
Proof. intro H. unfold slice. rewrite nth_firstn by auto. apply nth_skipn. Qed.
Lemma slice_0 {A} g (d : list A) : slice g 0 d = firstn g d.
Proof. reflexivity. Qed.
Lemma slice_S {A} g j (d : list A) : slice g (S j) d = slice g j (skipn g d).
Proof. unfold slice. rewrite skipn_skipn'. reflexivity. Qed.
Lemma slice_all {A} (d : list A) g : length d = g -> slice g 0 d = d.
Proof. intros <-. unfold slice. simpl. apply firstn_all. Qed.

Lemma slice_flat_map {A B} (f : B -> list A) g l j b :
  (forall x, In x l -> length (f x) = g) -> j < length l -> slice g j (flat_map f l) = f (nth j l b).
Proof.
  revert j. induction l as [|x l IH]; intros j H L; [simpl in L; lia|].
  destruct j; simpl.
  - unfold slice. simpl. rewrite firstn_app. rewrite (H x) by (left; auto). rewrite Nat.sub_diag. simpl. rewrite app_nil_r.
    rewrite <- (H x) by (left; auto). apply firstn_all.
  - rewrite slice_S. rewrite skipn_app. rewrite (H x) by (left; auto). rewrite Nat.sub_diag. simpl.
    replace (skipn g (f x)) with (@nil A) by (symmetry; apply skipn_all2; rewrite (H x) by (left; auto); lia).
    simpl. apply IH; [intros; apply H; right; auto|simpl in L; lia].
Qed.
Lemma flat_map_length' {A B} (f : B -> list A) g l : (forall x, In x l -> length (f x) = g) -> length (flat_map f l) = length l * g.
Proof. induction l as [|x l IH]; intro H; simpl; auto. rewrite app_length, IH, (H x); [reflexivity|left; auto|intros; apply H; right; auto]. Qed.
Lemma slices_id {A} g n (d : list A) : length d = n * g -> flat_map (fun j => slice g j d) (seq 0 n) = d.
Proof.
  revert d. induction n as [|n IH]; intros d H; simpl in *.
  - destruct d; auto. simpl in H. lia.
  - rewrite <- (firstn_skipn g d) at 2. f_equal. rewrite <- seq_shift, flat_map_concat_map, map_map, <- flat_map_concat_map.
    rewrite (flat_map_ext _ (fun j => slice g j (skipn g d))) by (intro; apply slice_S). apply IH. rewrite skipn_length. lia.
Qed.
Lemma flat_map_map' {A B C} (f : B -> list C) (h : A -> B) l : flat_map f (map h l) = flat_map (fun x => f (h x)) l.
Proof. rewrite !flat_map_concat_map, map_map. reflexivity. Qed.
Lemma flat_map_ext_in {A B} (f h : A -> list B) l : (forall x, In x l -> f x = h x) -> flat_map f l = flat_map h l.
Proof. induction l; simpl; intro H; auto. rewrite H by auto. f_equal. apply IHl. intros. apply H. auto. Qed.

Lemma set_nth_length {A} (l : list A) k v : length (set_nth l k v) = length l.
Proof. revert k. induction l; destruct k; simpl; auto. Qed.
Lemma set_nth_same {A} (l : list A) k v x : k < length l -> nth k (set_nth l k v) x = v.
Proof. revert k. induction l; destruct k; simpl; intros; auto; try lia. apply IHl. lia. Qed.
Lemma set_nth_other {A} (l : list A) k j v x : k <> j -> nth j (set_nth l k v) x = nth j l x.
Proof. revert k j. induction l; destruct k, j; simpl; intros; auto; try congruence. Qed.
Lemma set_nth_id {A} (l : list A) k x : k < length l -> set_nth l k (nth k l x) = l.
Proof. revert k. induction l; destruct k; simpl; intros; auto; try lia. f_equal. apply IHl. lia. Qed.

(** * Simultaneous selection *)
Fixpoint sel_all (sh : list nat) (Ks : list (list nat)) (d : list Q) : list Q :=
  match sh, Ks with
  | n :: sh, K :: Ks => flat_map (fun j => sel_all sh Ks (slice (numel sh) j d)) K
  | _, _ => d
  end.
Definition full (sh : list nat) : list (list nat) := map (fun n => seq 0 n) sh.
Definition in_range (sh : list nat) (Ks : list (list nat)) : Prop := Forall2 (fun n K => forall j, In j K -> j < n) sh Ks.

Lemma numel_cons n sh : numel (n :: sh) = n * numel sh. Proof. reflexivity. Qed.

Lemma slice_len_le {A} n g j (d : list A) : length d = n * g -> j < n -> length (slice g j d) = g.
Proof. intros H L. apply slice_length. rewrite H. apply Nat.mul_le_mono_r. lia. Qed.

Lemma sel_all_length : forall sh Ks d, in_range sh Ks -> length d = numel sh -> length (sel_all sh Ks d) = numel (map (@length nat) Ks).
Proof.
  induction sh as [|n sh IH]; intros Ks d R L; inversion R; subst; simpl; auto.
  rewrite (flat_map_length' _ (numel (map (@length nat) l'))).
  - reflexivity.
  - intros j J. apply IH; auto. eapply slice_len_le; eauto.
Qed.
Lemma sel_all_full : forall sh d, length d = numel sh -> sel_all sh (full sh) d = d.
Proof.
  induction sh as [|n sh IH]; intros d L; auto. simpl. rewrite numel_cons in L.
  rewrite (flat_map_ext_in _ (fun j => slice (numel sh) j d)).
  - apply slices_id; auto.
  - intros j J. apply in_seq in J. apply IH. eapply slice_len_le; eauto. lia.
Qed.
Lemma full_in_range sh : in_range sh (full sh).
Proof. induction sh; simpl; constructor; auto. intros j J. apply in_seq in J. lia. Qed.
Lemma full_lengths sh : map (@length nat) (full sh) = sh.
Proof. unfold full. rewrite map_map. rewrite <- (map_id sh) at 2. apply map_ext. intro. apply seq_length. Qed.

Lemma sel_data_all : forall sh dim idx d, dim < length sh -> length d = numel sh -> sel_data sh dim idx d = sel_all sh (set_nth (full sh) dim idx) d
  \/ exists j, In j idx /\ nth dim sh 0 <= j.
Proof.
  induction sh as [|n sh IH]; intros dim idx d L E; simpl in L; [lia|].
  destruct dim as [|dim].
  - simpl. destruct (existsb (fun j => Nat.leb n j) idx) eqn:X.
    + right. apply existsb_exists in X as (j & J & X). apply Nat.leb_le in X. eauto.
    + left. apply flat_map_ext_in. intros j J. symmetry. apply sel_all_full. eapply slice_len_le; eauto.
      destruct (Nat.ltb_spec j n); auto. exfalso.
      assert (T : existsb (fun j => n <=? j) idx = true) by (apply existsb_exists; exists j; split; auto; apply Nat.leb_le; auto). congruence.
  - simpl. destruct (existsb (fun j => Nat.leb (nth dim sh 0) j) idx) eqn:X.
    + right. apply existsb_exists in X as (j & J & X). apply Nat.leb_le in X. eauto.
    + left. apply flat_map_ext_in. intros j J. apply in_seq in J.
      destruct (IH dim idx (slice (numel sh) j d)) as [K|(k & K1 & K2)]; auto; [lia|eapply slice_len_le; eauto; lia|].
      exfalso. assert (T : existsb (fun j => nth dim sh 0 <=? j) idx = true) by (apply existsb_exists; exists k; split; auto; apply Nat.leb_le; auto). congruence.
Qed.

(** selecting along one more dimension *)
Lemma sel_all_more : forall sh Ks dim idx d, in_range sh Ks -> length d = numel sh -> dim < length sh ->
  nth dim Ks [] = seq 0 (nth dim sh 0) -> (forall j, In j idx -> j < nth dim sh 0) ->
  sel_data (map (@length nat) Ks) dim idx (sel_all sh Ks d) = sel_all sh (set_nth Ks dim idx) d.
Proof.
  induction sh as [|n sh IH]; intros Ks dim idx d R E L F J; simpl in L; [lia|].
  inversion R as [|? K ? Ks' R1 R2]; subst. rewrite numel_cons in E.
  assert (P : forall j, In j K -> length (sel_all sh Ks' (slice (numel sh) j d)) = numel (map (@length nat) Ks')).
  { intros j I. apply sel_all_length; auto. eapply slice_len_le; eauto. }
  destruct dim as [|dim]; simpl in F, J |- *.
  - subst K. apply flat_map_ext_in. intros j I. rewrite (slice_flat_map _ _ _ _ 0); auto.
    + rewrite seq_nth by auto. reflexivity.
    + rewrite seq_length. auto.
  - assert (Q : forall j, j < length K -> slice (numel (map (@length nat) Ks')) j (flat_map (fun j => sel_all sh Ks' (slice (numel sh) j d)) K)
        = sel_all sh Ks' (slice (numel sh) (nth j K 0) d)) by (intros j I; rewrite (slice_flat_map _ _ _ _ 0); auto).
    transitivity (flat_map (fun j => sel_all sh (set_nth Ks' dim idx) (slice (numel sh) (nth j K 0) d)) (seq 0 (length K))).
    + apply flat_map_ext_in. intros j I. apply in_seq in I. rewrite Q by lia. apply IH; auto; [|lia].
      eapply slice_len_le; eauto. apply R1. apply nth_In. lia.
    + clear -K. rewrite <- (flat_map_map' (fun i => sel_all sh (set_nth Ks' dim idx) (slice (numel sh) i d)) (fun j => nth j K 0)).
      f_equal. apply (tab_of_list 0 K).
Qed.

(** * Elements *)
Lemma offset_lt : forall sh ix o, offset sh ix = Some o -> o < numel sh.
Proof.
  induction sh as [|n sh IH]; intros [|i ix] o H; simpl in H; try discriminate.
  - injection H as <-. simpl. lia.
  - destruct (Nat.ltb_spec i n); try discriminate. destruct (offset sh ix) as [q|] eqn:E; try discriminate. injection H as <-.
    apply IH in E. rewrite numel_cons. nia.
Qed.
Lemma nth_error_slice {A} g j (d : list A) i : i < g -> nth_error (slice g j d) i = nth_error d (j * g + i).
Proof.
  intro H. unfold slice.
  assert (K : forall g i (l : list A), i < g -> nth_error (firstn g l) i = nth_error l i).
  { clear. induction g; intros i l H; [lia|]. destruct l, i; simpl; auto. apply IHg. lia. }
  rewrite K by auto. revert d. generalize (j * g). clear. induction n; intro d; simpl; auto. destruct d; simpl; auto. destruct i; reflexivity.
Qed.

Lemma elem_sel_all : forall sh Ks d ix, in_range sh Ks -> length d = numel sh -> length ix = length sh ->
  (forall k, k < length ix -> nth k ix 0 < length (nth k Ks [])) ->
  elem (mkND (map (@length nat) Ks) (sel_all sh Ks d)) ix =
  elem (mkND sh d) (map (fun k => nth (nth k ix 0) (nth k Ks []) 0) (seq 0 (length ix))).
Proof.
  unfold elem. simpl.
  induction sh as [|n sh IH]; intros Ks d ix R E L B.
  - inversion R; subst. destruct ix; [|discriminate]. reflexivity.
  - inversion R as [|? K ? Ks' R1 R2]; subst. destruct ix as [|i ix]; [discriminate|]. rewrite numel_cons in E. injection L as L.
    simpl. rewrite <- seq_shift, map_map. simpl.
    assert (I : i < length K) by (apply (B 0); simpl; lia).
    assert (I' : nth i K 0 < n) by (apply R1, nth_In; auto).
    destruct (Nat.ltb_spec i (length K)); [|lia]. destruct (Nat.ltb_spec (nth i K 0) n); [|lia].
    assert (P : forall j, In j K -> length (sel_all sh Ks' (slice (numel sh) j d)) = numel (map (@length nat) Ks')).
    { intros j J. apply sel_all_length; auto. eapply slice_len_le; eauto. }
    specialize (IH Ks' (slice (numel sh) (nth i K 0) d) ix R2).
    assert (E' : length (slice (numel sh) (nth i K 0) d) = numel sh) by (eapply slice_len_le; eauto).
    specialize (IH E' L). assert (B' : forall k, k < length ix -> nth k ix 0 < length (nth k Ks' [])) by (intros k Hk; apply (B (S k)); simpl; lia).
    specialize (IH B').
    destruct (offset (map (@length nat) Ks') ix) as [o|] eqn:O1; destruct (offset sh _) as [o'|] eqn:O2; simpl.
    + assert (o < numel (map (@length nat) Ks')) by (eapply offset_lt; eauto). assert (o' < numel sh) by (eapply offset_lt; eauto).
      rewrite <- (nth_error_slice (numel (map (@length nat) Ks')) i) by auto. rewrite (slice_flat_map _ _ _ _ 0) by auto. rewrite IH.
      rewrite nth_error_slice by auto. reflexivity.
    + exfalso. assert (o < numel (map (@length nat) Ks')) by (eapply offset_lt; eauto).
      assert (nth_error (sel_all sh Ks' (slice (numel sh) (nth i K 0) d)) o <> None); [|congruence].
      apply nth_error_Some. rewrite P; auto. apply nth_In; auto.
    + exfalso. assert (o' < numel sh) by (eapply offset_lt; eauto).
      assert (nth_error (slice (numel sh) (nth i K 0) d) o' <> None); [|congruence].
      apply nth_error_Some. rewrite E'. auto.
    + reflexivity.
Qed.
