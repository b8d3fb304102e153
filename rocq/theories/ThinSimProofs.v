(** C24, numerical part: a network whose parameters are cut according to a plan computes the kept channels. *)
From Coq Require Import String List ZArith QArith Bool Arith Lia Lqa Setoid Morphisms.
From Verif Require Import Base Lists StructModel ThinModel ThinSpec ThinProofs ThinExecProofs ThinNetSpec.
Import ListNotations.
Local Open Scope nat_scope.

Lemma Forall2_refl' {A} (R : A -> A -> Prop) : (forall a, R a a) -> forall l, Forall2 R l l.
Proof. intros H l. induction l; constructor; auto. Qed.
Lemma Forall2_length {A B} (R : A -> B -> Prop) l l' : Forall2 R l l' -> length l = length l'.
Proof. induction 1; simpl; auto. Qed.
Lemma veq_refl x : veq x x.
Proof. apply Forall2_refl'. intro. apply Forall2_refl'. intro. reflexivity. Qed.
Lemma Forall2_trans'' {A} (R : A -> A -> Prop) : (forall a b c, R a b -> R b c -> R a c) -> forall l l' l'', Forall2 R l l' -> Forall2 R l' l'' -> Forall2 R l l''.
Proof. intros T l l' l'' F. revert l''. induction F; intros l2 G; inversion G; subst; constructor; eauto. Qed.
Lemma veq_trans x y z : veq x y -> veq y z -> veq x z.
Proof. apply Forall2_trans''. apply Forall2_trans''. intros a b c A B. rewrite A. exact B. Qed.
Lemma veq_length x y : veq x y -> length x = length y.
Proof. apply Forall2_length. Qed.
Lemma Forall2_nth' {A} (R : A -> A -> Prop) l l' d i : Forall2 R l l' -> R d d -> R (nth i l d) (nth i l' d).
Proof. intros F D. revert i. induction F; destruct i; simpl; auto. Qed.
Lemma veq_nth x y i : veq x y -> Forall2 Qeq (nth i x []) (nth i y []).
Proof. intro V. apply Forall2_nth'; auto. Qed.
Lemma veq_nth2 x y i q : veq x y -> (nth q (nth i x []) 0 == nth q (nth i y []) 0)%Q.
Proof. intro V. apply Forall2_nth'; [apply veq_nth; auto|reflexivity]. Qed.
Lemma veq_map {A} (f g : A -> list Q) l : (forall a, In a l -> Forall2 Qeq (f a) (g a)) -> veq (map f l) (map g l).
Proof. intro H. induction l; simpl; constructor; [apply H; left; auto|apply IHl; intros; apply H; right; auto]. Qed.
Lemma qeq_map {A} (f g : A -> Q) l : (forall a, In a l -> f a == g a)%Q -> Forall2 Qeq (map f l) (map g l).
Proof. intro H. induction l; simpl; constructor; [apply H; left; auto|apply IHl; intros; apply H; right; auto]. Qed.
Lemma qsum_eq {A} (f g : A -> Q) l : (forall a, In a l -> f a == g a)%Q -> (qsum (map f l) == qsum (map g l))%Q.
Proof. intro H. induction l; simpl; [reflexivity|]. rewrite (H a) by (left; auto). rewrite IHl by (intros; apply H; right; auto). reflexivity. Qed.
Lemma qsum_zero {A} (f : A -> Q) l : (forall a, In a l -> f a == 0)%Q -> (qsum (map f l) == 0)%Q.
Proof. intro H. induction l; simpl; [reflexivity|]. rewrite (H a) by (left; auto). rewrite IHl by (intros; apply H; right; auto). reflexivity. Qed.
(** the terms outside an index set may be dropped when they are zero *)
Lemma qsum_filter {A} (keep : A -> bool) (f : A -> Q) l : (forall a, In a l -> keep a = false -> f a == 0)%Q -> (qsum (map f (filter keep l)) == qsum (map f l))%Q.
Proof.
  intro H. induction l; simpl; [reflexivity|]. destruct (keep a) eqn:K; simpl; rewrite IHl by (intros; apply H; auto; right; auto); [reflexivity|].
  rewrite (H a) by (auto; left; auto). ring.
Qed.
Lemma qsum_index n idx (f : nat -> Q) : index_set n idx -> (forall c, c < n -> ~ In c idx -> (f c == 0)%Q) -> (qsum (map f idx) == qsum (map f (seq 0 n)))%Q.
Proof.
  intros [kp ->] H. apply qsum_filter. intros a I K. apply in_seq in I. apply H; [lia|]. rewrite filter_In. intros [_ K']. congruence.
Qed.
Lemma map_nth_index {A} (f : nat -> A) l : map f l = map (fun j => f (nth j l 0)) (seq 0 (length l)).
Proof.
  induction l as [|a l IH]; simpl; auto. f_equal. rewrite IH, <- seq_shift, map_map. reflexivity.
Qed.
Lemma nth_select idx x j : j < length idx -> nth j (select idx x) [] = nth (nth j idx 0) x [].
Proof. intro L. unfold select. rewrite nth_indep with (d' := nth 0 x []) by (rewrite map_length; auto). rewrite (map_nth (fun c => nth c x [])). reflexivity. Qed.
Lemma select_length idx x : length (select idx x) = length idx. Proof. apply map_length. Qed.
Lemma select_veq idx x y : veq x y -> veq (select idx x) (select idx y).
Proof. intro V. apply veq_map. intros c _. apply veq_nth; auto. Qed.
Lemma select_all x : select (seq 0 (length x)) x = x.
Proof.
  unfold select. apply nth_ext with (d := []) (d' := []); [rewrite map_length, seq_length; auto|]. intros i L. rewrite map_length, seq_length in L.
  rewrite nth_indep with (d' := nth 0 x []) by (rewrite map_length, seq_length; auto). rewrite (map_nth (fun c => nth c x [])). rewrite seq_nth; auto.
Qed.
Lemma select_map (f : list Q -> list Q) idx x : (forall c, In c idx -> c < length x) -> select idx (map f x) = map f (select idx x).
Proof.
  intro H. unfold select. rewrite map_map. apply map_ext_in. intros c I. rewrite nth_indep with (d' := f []) by (rewrite map_length; auto). apply map_nth.
Qed.

(** * Dot products *)
Lemma dot_eq w f g : (forall k, k < length w -> (f k == g k)%Q) -> (dot w f == dot w g)%Q.
Proof. intro H. unfold dot. apply qsum_eq. intros k I. apply in_seq in I. rewrite H by lia. reflexivity. Qed.
Lemma dot_zero_w w f : all_zero w -> (dot w f == 0)%Q.
Proof. intro H. unfold dot. apply qsum_zero. intros k I. apply in_seq in I. rewrite (H (nth k w 0%Q)) by (apply nth_In; lia). ring. Qed.
Lemma dot_zero_x w f : (forall k, f k == 0)%Q -> (dot w f == 0)%Q.
Proof. intro H. unfold dot. apply qsum_zero. intros k I. rewrite H. ring. Qed.
Lemma nth_zero l q : all_zero l -> (nth q l 0 == 0)%Q.
Proof. intro H. destruct (nth_in_or_default q l 0%Q) as [I| ->]; [apply H; auto|reflexivity]. Qed.
Lemma tap_zero ge x s k : all_zero x -> (tap ge x s k == 0)%Q.
Proof. intro H. unfold tap. destruct (ge_tap ge s k); [apply nth_zero; auto|reflexivity]. Qed.
Lemma tap_eq ge x y s k : Forall2 Qeq x y -> (tap ge x s k == tap ge y s k)%Q.
Proof. intro H. unfold tap. destruct (ge_tap ge s k); [|reflexivity]. apply Forall2_nth'; [auto|reflexivity]. Qed.

(** * The operations depend on the values only *)
Lemma conv_proper w b gr ge x x' y : veq x x' -> conv w b gr ge x = Ok y -> exists y', conv w b gr ge x' = Ok y' /\ veq y y'.
Proof.
  intros V. unfold conv. destruct (nd_shape w) as [|O_ [|C ks]]; try discriminate. rewrite <- (veq_length _ _ V).
  destruct (_ && _); [|discriminate]. intros [= <-]. eexists. split; [reflexivity|].
  apply veq_map. intros o _. apply qeq_map. intros s _. apply Qplus_comp; [reflexivity|]. apply qsum_eq. intros c _. apply dot_eq. intros k _. apply tap_eq. apply veq_nth; auto.
Qed.
Lemma concat_eq x x' : veq x x' -> Forall2 Qeq (concat x) (concat x').
Proof. induction 1; simpl; [constructor|]. apply Forall2_app; auto. Qed.
Lemma linear_proper w b x x' y : veq x x' -> linear w b x = Ok y -> exists y', linear w b x' = Ok y' /\ veq y y'.
Proof.
  intros V. pose proof (concat_eq _ _ V) as Cq. unfold linear. destruct (nd_shape w) as [|O_ [|F [|? ?]]]; try discriminate. rewrite <- (Forall2_length _ _ _ Cq).
  destruct (_ && _); [|discriminate]. intros [= <-]. eexists. split; [reflexivity|].
  apply veq_map. intros o _. constructor; [|constructor]. apply Qplus_comp; [reflexivity|]. apply dot_eq. intros k _. apply Forall2_nth'; [auto|reflexivity].
Qed.
Lemma Forall2_map' {A B} (R : B -> B -> Prop) (S : A -> A -> Prop) (f g : A -> B) l l' : (forall a b, S a b -> R (f a) (g b)) -> Forall2 S l l' -> Forall2 R (map f l) (map g l').
Proof. intros H F. induction F; simpl; constructor; auto. Qed.
Lemma bn_proper rs w b mean var x x' y : veq x x' -> bn rs w b mean var x = Ok y -> exists y', bn rs w b mean var x' = Ok y' /\ veq y y'.
Proof.
  intros V. unfold bn. rewrite <- (veq_length _ _ V). destruct (_ && _); [|discriminate]. intros [= <-]. eexists. split; [reflexivity|].
  apply veq_map. intros c _. apply (Forall2_map' _ Qeq); [|apply veq_nth; auto]. intros u v E. rewrite E. reflexivity.
Qed.
Lemma Forall2_map2 {A} (R : A -> A -> Prop) (f : A -> A -> A) : (forall a b c d, R a b -> R c d -> R (f a c) (f b d)) ->
  forall l l', Forall2 R l l' -> forall k k', Forall2 R k k' -> Forall2 R (map2 f l k) (map2 f l' k').
Proof. intros H l l' F. induction F; intros k k' G; simpl; [constructor|]. destruct G; constructor; auto. Qed.
Lemma veq_lengths x y : veq x y -> map (@length Q) x = map (@length Q) y.
Proof. induction 1; simpl; f_equal; auto. eapply Forall2_length; eauto. Qed.
Lemma fadd_proper x x' z z' y : veq x x' -> veq z z' -> fadd x z = Ok y -> exists y', fadd x' z' = Ok y' /\ veq y y'.
Proof.
  intros V W. unfold fadd. rewrite <- (veq_lengths _ _ V), <- (veq_lengths _ _ W). destruct (list_eqb _ _); [|discriminate]. intros [= <-]. eexists. split; [reflexivity|].
  apply Forall2_map2; auto. intros a b c d A B. apply Forall2_map2; auto. intros p q r s E F. rewrite E, F. reflexivity.
Qed.

(** * Cutting *)
Definition uniform_len (v : fmap) : Prop := exists L, forall c, c < length v -> length (nth c v []) = L.
(** what is known about the value [v] of [n], and about the value [v'] of the thinned network *)
Record related (zero : bool) (pl : plan) (n : string) (v v' : fmap) : Prop := {
  rl_len : length v = chans pl n;
  rl_sel : veq (select (keep pl n) v) v';
  rl_zero : zero = true -> forall c, removed pl n c -> all_zero (nth c v []);
  rl_uni : all_kept pl n \/ uniform_len v
}.

Section Conv.
  Variables (w : nd) (O_ C : nat) (ks : list nat).
  Hypothesis Sw : nd_shape w = O_ :: C :: ks.
  Hypothesis Ww : wf_nd w.
  Variables (KO KC : list nat).
  Hypothesis IO : forall j, In j KO -> j < O_.
  Hypothesis IC : forall j, In j KC -> j < C.
  Definition cut_w : nd := mkND (length KO :: length KC :: ks) (sel_all (nd_shape w) (KO :: KC :: full ks) (nd_data w)).

  Lemma cut_w_kernel o c : o < length KO -> c < length KC -> kernel_of cut_w o c = kernel_of w (nth o KO 0) (nth c KC 0).
  Proof.
    intros Ho Hc. unfold kernel_of, filter_of, cut_w. cbn [nd_shape nd_data tl]. unfold wf_nd in Ww. rewrite Sw in *. cbn [tl]. cbn [sel_all].
    assert (Lo : forall o, In o KO -> length (slice (numel (C :: ks)) o (nd_data w)) = C * numel ks) by (intros; apply (slice_len_le O_); auto).
    assert (Lc : forall o c, In o KO -> In c KC -> length (slice (numel ks) c (slice (numel (C :: ks)) o (nd_data w))) = numel ks) by (intros; apply (slice_len_le C); auto).
    rewrite (slice_flat_map _ (numel (length KC :: ks)) KO o 0); auto.
    2:{ intros x X. rewrite numel_cons. apply flat_map_length'. intros y Y. rewrite sel_all_full; auto. }
    rewrite (slice_flat_map _ (numel ks) KC c 0); auto.
    - rewrite sel_all_full; auto. apply Lc; apply nth_In; auto.
    - intros y Y. rewrite sel_all_full; auto. apply Lc; auto. apply nth_In; auto. apply Lc; auto. apply nth_In; auto.
  Qed.
  Lemma cut_w_length : length (nd_data cut_w) = length KO * (length KC * numel ks).
  Proof.
    unfold cut_w. cbn [nd_data]. rewrite sel_all_length.
    - cbn [map]. rewrite full_lengths. reflexivity.
    - rewrite Sw. constructor; auto. constructor; auto. apply full_in_range.
    - exact Ww.
  Qed.
End Conv.

Definition conv_at (w : nd) (b : option nd) (gr : nat) (ge : geom) (x : fmap) (O_ C o s : nat) : Q :=
  (bias_at b o + qsum (map (fun c => dot (kernel_of w o c) (tap ge (nth (o / (O_ / gr) * C + c) x []) s)) (seq 0 C)))%Q.
Definition conv_out w b gr ge x O_ C : fmap := map (fun o => map (conv_at w b gr ge x O_ C o) (seq 0 (ge_out ge))) (seq 0 O_).
Definition conv_fits (w : nd) (b : option nd) gr (x : fmap) O_ C ks : Prop :=
  length (nd_data w) = O_ * (C * numel ks) /\ gr <> 0 /\ C * gr = length x /\ O_ mod gr = 0 /\ (forall t, b = Some t -> length (nd_data t) = O_).
Lemma conv_spec w b gr ge x O_ C ks y : nd_shape w = O_ :: C :: ks -> (conv w b gr ge x = Ok y <-> conv_fits w b gr x O_ C ks /\ y = conv_out w b gr ge x O_ C).
Proof.
  intro S. unfold conv, conv_out, conv_at, kernel_of, filter_of. rewrite S. cbn [tl].
  change (numel (C :: ks)) with (C * numel ks).
  destruct (_ && _) eqn:E.
  - repeat rewrite andb_true_iff in E. destruct E as ((((E1 & E2) & E3) & E4) & E5). apply Nat.eqb_eq in E1, E3, E4. apply negb_true_iff, Nat.eqb_neq in E2.
    split; [intros [= <-]|intros [_ ->]; reflexivity]. split; [|reflexivity]. repeat split; auto. intros t ->. apply Nat.eqb_eq in E5. auto.
  - split; [discriminate|]. intros [(E1 & E2 & E3 & E4 & E5) _]. exfalso.
    apply Nat.eqb_eq in E1, E3, E4. apply Nat.eqb_neq in E2. rewrite E1, E2, E3, E4 in E. simpl in E. destruct b as [t|]; [|discriminate]. rewrite (E5 t eq_refl), Nat.eqb_refl in E. discriminate.
Qed.
Lemma conv_out_length w b gr ge x O_ C : length (conv_out w b gr ge x O_ C) = O_.
Proof. unfold conv_out. rewrite map_length, seq_length. auto. Qed.
Lemma conv_out_nth w b gr ge x O_ C o : o < O_ -> nth o (conv_out w b gr ge x O_ C) [] = map (conv_at w b gr ge x O_ C o) (seq 0 (ge_out ge)).
Proof.
  intro L. unfold conv_out. rewrite nth_indep with (d' := map (conv_at w b gr ge x O_ C 0) (seq 0 (ge_out ge))) by (rewrite map_length, seq_length; auto).
  rewrite (map_nth (fun o => map (conv_at w b gr ge x O_ C o) (seq 0 (ge_out ge)))). rewrite seq_nth by auto. reflexivity.
Qed.

(** the bias of the kept filters *)
Definition cut_bias (K : list nat) (b b' : option nd) : Prop :=
  match b, b' with
  | Some t, Some t' => nd_data t' = map (fun o => nth o (nd_data t) 0%Q) K
  | None, None => True
  | _, _ => False
  end.
Lemma cut_bias_at K b b' o : cut_bias K b b' -> o < length K -> bias_at b' o = bias_at b (nth o K 0).
Proof.
  unfold cut_bias, bias_at. destruct b, b'; try tauto. intros -> L. rewrite nth_indep with (d' := nth 0 (nd_data n) 0%Q) by (rewrite map_length; auto).
  rewrite (map_nth (fun o => nth o (nd_data n) 0%Q)). reflexivity.
Qed.
Lemma cut_bias_length K b b' t : cut_bias K b b' -> b' = Some t -> length (nd_data t) = length K.
Proof. unfold cut_bias. intros H ->. destruct b; [|tauto]. rewrite H, map_length. auto. Qed.

(** an ordinary convolution *)
Lemma conv_cut w b b' ge x y O_ C ks KO KC :
  nd_shape w = O_ :: C :: ks -> wf_nd w -> index_set O_ KO -> index_set C KC -> cut_bias KO b b' ->
  (forall c, c < C -> ~ In c KC -> all_zero (nth c x []) \/ forall o, In o KO -> all_zero (kernel_of w o c)) ->
  conv w b 1 ge x = Ok y ->
  exists y', conv (cut_w w ks KO KC) b' 1 ge (select KC x) = Ok y' /\ veq (select KO y) y'.
Proof.
  intros Sw Ww HO HC Hb Hz H. apply (conv_spec _ _ _ _ _ _ _ _ _ Sw) in H as [(L & _ & Lx & _ & _) ->].
  assert (IO : forall j, In j KO -> j < O_) by (intros; eapply index_set_lt; eauto). assert (IC : forall j, In j KC -> j < C) by (intros; eapply index_set_lt; eauto).
  eexists. split.
  - apply (conv_spec _ _ _ _ _ (length KO) (length KC) ks); [reflexivity|]. split; [|reflexivity].
    split; [apply cut_w_length with (O_ := O_) (C := C); auto|]. split; [lia|]. split; [rewrite select_length; lia|]. split; [apply Nat.mod_1_r|]. intros t E. eapply cut_bias_length; eauto.
  - unfold select at 1, conv_out at 2. rewrite map_nth_index. apply veq_map. intros o' I. apply in_seq in I. assert (Lo : o' < length KO) by lia.
    assert (Ho : nth o' KO 0 < O_) by (apply IO, nth_In; auto). rewrite conv_out_nth by auto. apply qeq_map. intros s _. unfold conv_at.
    rewrite (cut_bias_at _ _ _ _ Hb Lo). apply Qplus_comp; [reflexivity|]. rewrite !Nat.div_1_r. rewrite (Nat.div_small (nth o' KO 0)) by auto. rewrite (Nat.div_small o') by auto. simpl (0 * _ + _).
    rewrite <- (qsum_index C KC); auto.
    + rewrite map_nth_index. apply qsum_eq. intros c' J. apply in_seq in J. rewrite (cut_w_kernel w O_ C ks Sw Ww KO KC) by (auto; lia). rewrite nth_select by lia. reflexivity.
    + intros c Hc Nc. destruct (Hz c Hc Nc) as [Z|Z].
      * apply dot_zero_x. intro k. apply tap_zero. auto.
      * apply dot_zero_w. apply Z. apply nth_In. auto.
Qed.

(** a depth-wise convolution *)
Lemma conv_cut_depthwise w b b' ge x y O_ ks K :
  nd_shape w = O_ :: 1 :: ks -> wf_nd w -> index_set O_ K -> K <> [] -> cut_bias K b b' ->
  conv w b O_ ge x = Ok y ->
  exists y', conv (cut_w w ks K [0]) b' (length K) ge (select K x) = Ok y' /\ veq (select K y) y'.
Proof.
  intros Sw Ww HO NK Hb H. apply (conv_spec _ _ _ _ _ _ _ _ _ Sw) in H as [(L & _ & Lx & _ & _) ->].
  assert (IO : forall j, In j K -> j < O_) by (intros; eapply index_set_lt; eauto). assert (LK : length K <> 0) by (destruct K; [congruence|discriminate]).
  assert (I1 : forall j, In j [0] -> j < 1) by (intros j [<-|[]]; lia).
  eexists. split.
  - apply (conv_spec _ _ _ _ _ (length K) 1 ks); [reflexivity|]. split; [|reflexivity].
    split; [apply cut_w_length with (O_ := O_) (C := 1); auto|]. split; auto. split; [rewrite select_length; lia|]. split; [apply Nat.mod_same; auto|]. intros t E. eapply cut_bias_length; eauto.
  - unfold select at 1, conv_out at 2. rewrite map_nth_index. apply veq_map. intros o' I. apply in_seq in I. assert (Lo : o' < length K) by lia.
    assert (Ho : nth o' K 0 < O_) by (apply IO, nth_In; auto). rewrite conv_out_nth by auto. apply qeq_map. intros s _. unfold conv_at.
    rewrite (cut_bias_at _ _ _ _ Hb Lo). apply Qplus_comp; [reflexivity|]. rewrite !Nat.div_same by lia. rewrite !Nat.div_1_r. apply qsum_eq. intros c J. apply in_seq in J. assert (c = 0) by lia. subst c.
    rewrite (cut_w_kernel w O_ 1 ks Sw Ww K [0]) by (auto; simpl; lia). rewrite !Nat.mul_1_r, !Nat.add_0_r. rewrite nth_select by lia. reflexivity.
Qed.

(** * Linear layers *)
Lemma seq_shift_add a n s : map (fun k => a + k) (seq s n) = seq (a + s) n.
Proof. revert s. induction n as [|n IH]; intro s; simpl; auto. f_equal. rewrite IH. f_equal. lia. Qed.
Lemma dot_app a b f : (dot (a ++ b) f == dot a f + dot b (fun k => f (length a + k)%nat))%Q.
Proof.
  unfold dot. rewrite app_length, seq_app, map_app. simpl (0 + _).
  assert (A : forall l l', (qsum (l ++ l') == qsum l + qsum l')%Q) by (intros l l'; induction l; simpl; [ring|rewrite IHl; ring]). rewrite A.
  apply Qplus_comp.
  - apply qsum_eq. intros k I. apply in_seq in I. rewrite app_nth1 by lia. reflexivity.
  - rewrite <- (Nat.add_0_r (length a)) at 1. rewrite <- seq_shift_add. rewrite map_map. apply qsum_eq. intros k I. rewrite app_nth2_plus. reflexivity.
Qed.
Lemma dot_blocks {A} (wc xc : A -> list Q) P l : (forall c, In c l -> length (wc c) = P /\ length (xc c) = P) ->
  (dot (flat_map wc l) (fun i => nth i (concat (map xc l)) 0) == qsum (map (fun c => dot (wc c) (fun k => nth k (xc c) 0)) l))%Q.
Proof.
  induction l as [|c l IH]; intro H; [reflexivity|]. cbn [flat_map map concat]. rewrite dot_app. destruct (H c) as [Hw Hx]; [left; auto|].
  assert (E : (qsum (map (fun c => dot (wc c) (fun k => nth k (xc c) 0%Q)) (c :: l)) == dot (wc c) (fun k => nth k (xc c) 0%Q) + qsum (map (fun c => dot (wc c) (fun k => nth k (xc c) 0%Q)) l))%Q) by reflexivity.
  rewrite E. apply Qplus_comp.
  - apply dot_eq. intros k L. rewrite app_nth1 by lia. reflexivity.
  - rewrite <- IH by (intros; apply H; right; auto). apply dot_eq. intros k L. rewrite Hw, <- Hx, app_nth2_plus. reflexivity.
Qed.
Definition lin_cut (O_ C P : nat) (K : list nat) (w : nd) : nd :=
  mkND [O_; P * length K] (flat_map (fun o => flat_map (fun c => slice P c (slice (C * P) o (nd_data w))) K) (seq 0 O_)).
Lemma linear_spec w b x O_ F y : nd_shape w = [O_; F] -> (linear w b x = Ok y <->
  (length (nd_data w) = O_ * F /\ length (concat x) = F /\ (forall t, b = Some t -> length (nd_data t) = O_)) /\
  y = map (fun o => [(bias_at b o + dot (slice F o (nd_data w)) (fun i => nth i (concat x) 0))%Q]) (seq 0 O_)).
Proof.
  intro S. unfold linear. rewrite S. destruct (_ && _) eqn:E.
  - repeat rewrite andb_true_iff in E. destruct E as ((E1 & E2) & E3). apply Nat.eqb_eq in E1, E2.
    split; [intros [= <-]|intros [_ ->]; reflexivity]. split; [|reflexivity]. repeat split; auto. intros t ->. apply Nat.eqb_eq in E3. auto.
  - split; [discriminate|]. intros [(E1 & E2 & E5) _]. exfalso. apply Nat.eqb_eq in E1, E2. rewrite E1, E2 in E. simpl in E. destruct b as [t|]; [|discriminate]. rewrite (E5 t eq_refl), Nat.eqb_refl in E. discriminate.
Qed.
Lemma concat_uniform (x : fmap) P : (forall c, c < length x -> length (nth c x []) = P) -> length (concat x) = length x * P.
Proof.
  induction x as [|a x IH]; intro H; [reflexivity|]. simpl. rewrite app_length, IH.
  - assert (length a = P) by (apply (H 0); simpl; lia). lia.
  - intros c L. apply (H (S c)). simpl. lia.
Qed.
Lemma linear_cut w b x y O_ C P K :
  nd_shape w = [O_; C * P] -> index_set C K -> length x = C -> (forall c, c < C -> length (nth c x []) = P) ->
  (forall c, c < C -> ~ In c K -> all_zero (nth c x []) \/ forall o, o < O_ -> all_zero (slice P c (slice (C * P) o (nd_data w)))) -> linear w b x = Ok y ->
  exists y', linear (lin_cut O_ C P K w) b (select K x) = Ok y' /\ veq y y'.
Proof.
  intros Sw HK Lx Lp Hz H. apply (linear_spec _ _ _ _ _ _ Sw) in H as [(L & _ & Hb) ->].
  assert (IK : forall j, In j K -> j < C) by (intros; eapply index_set_lt; eauto).
  assert (Lr : forall o, o < O_ -> length (slice (C * P) o (nd_data w)) = C * P) by (intros; eapply slice_len_le; eauto).
  assert (Lc : forall o c, o < O_ -> c < C -> length (slice P c (slice (C * P) o (nd_data w))) = P) by (intros; eapply slice_len_le; eauto).
  assert (Lrow : forall o, In o (seq 0 O_) -> length (flat_map (fun c => slice P c (slice (C * P) o (nd_data w))) K) = P * length K).
  { intros o I. apply in_seq in I. rewrite flat_map_length' with (g := P); [lia|]. intros c J. apply Lc; auto. lia. }
  assert (Lsel : length (concat (select K x)) = P * length K).
  { rewrite concat_uniform with (P := P); [rewrite select_length; lia|]. intros c J. rewrite select_length in J. rewrite nth_select by auto. apply Lp, IK, nth_In; auto. }
  eexists. split.
  - apply (linear_spec _ _ _ O_ (P * length K)); [reflexivity|]. split; [|reflexivity]. split; [|split; auto]. cbn [nd_data lin_cut]. rewrite (flat_map_length' _ _ _ Lrow), seq_length. auto.
  - apply veq_map. intros o I. constructor; [|constructor]. apply Qplus_comp; [reflexivity|]. cbn [nd_data lin_cut].
    rewrite (slice_flat_map _ (P * length K) (seq 0 O_) o 0); [|auto|apply in_seq in I; rewrite seq_length; lia]. apply in_seq in I. rewrite seq_nth by lia. simpl (0 + o).
    rewrite <- (slices_id P C (slice (C * P) o (nd_data w))) at 1 by (apply Lr; lia). unfold select.
    rewrite (dot_eq _ (fun i => nth i (concat x) 0%Q) (fun i => nth i (concat (map (fun c => nth c x []) (seq 0 C))) 0%Q)) by (intros; rewrite <- Lx; fold (select (seq 0 (length x)) x); rewrite select_all; reflexivity).
    rewrite (dot_blocks _ (fun c => nth c x []) P) by (intros c J; apply in_seq in J; split; [apply Lc; lia|apply Lp; lia]).
    rewrite (dot_blocks _ (fun c => nth c x []) P) by (intros c J; split; [apply Lc; auto; lia|apply Lp; auto]).
    symmetry. apply (qsum_index C K); auto. intros c Hc Nc. destruct (Hz c Hc Nc) as [Z|Z]; [apply dot_zero_x; intro k; apply nth_zero; auto|apply dot_zero_w; apply Z; lia].
Qed.

(** * Batch normalization and sums *)
Definition cut_vec (K : list nat) (t t' : nd) : Prop := nd_data t' = map (fun o => nth o (nd_data t) 0%Q) K.
Lemma cut_vec_nth K t t' j : cut_vec K t t' -> j < length K -> nth j (nd_data t') 0%Q = nth (nth j K 0) (nd_data t) 0%Q.
Proof. intros H L. rewrite H. rewrite nth_indep with (d' := nth 0 (nd_data t) 0%Q) by (rewrite map_length; auto). rewrite (map_nth (fun o => nth o (nd_data t) 0%Q)). reflexivity. Qed.
Definition bn_at rs (w b mean var : nd) (c : nat) (v : Q) : Q :=
  ((v - nth c (nd_data mean) 0) * rs (nth c (nd_data var) 0) * nth c (nd_data w) 0 + nth c (nd_data b) 0)%Q.
Lemma bn_spec rs w b mean var x y : bn rs w b mean var x = Ok y <->
  (length (nd_data w) = length x /\ length (nd_data b) = length x /\ length (nd_data mean) = length x /\ length (nd_data var) = length x) /\
  y = map (fun c => map (bn_at rs w b mean var c) (nth c x [])) (seq 0 (length x)).
Proof.
  unfold bn. destruct (_ && _) eqn:E.
  - repeat rewrite andb_true_iff in E. destruct E as (((E1 & E2) & E3) & E4). apply Nat.eqb_eq in E1, E2, E3, E4. split; [intros [= <-]; auto|intros [_ ->]; reflexivity].
  - split; [discriminate|]. intros [(E1 & E2 & E3 & E4) _]. exfalso. rewrite E1, E2, E3, E4, Nat.eqb_refl in E. discriminate.
Qed.
Lemma nth_map_seq {A} (f : nat -> list A) n c : c < n -> nth c (map f (seq 0 n)) [] = f c.
Proof. intro L. rewrite nth_indep with (d' := f 0) by (rewrite map_length, seq_length; auto). rewrite map_nth, seq_nth; auto. Qed.
Lemma bn_cut rs w b mean var w' b' mean' var' x y K :
  (forall c, In c K -> c < length x) -> cut_vec K w w' -> cut_vec K b b' -> cut_vec K mean mean' -> cut_vec K var var' ->
  bn rs w b mean var x = Ok y -> bn rs w' b' mean' var' (select K x) = Ok (select K y).
Proof.
  intros HK Hw Hb Hm Hv H. apply bn_spec in H as [_ ->]. apply bn_spec. rewrite select_length.
  split; [rewrite Hw, Hb, Hm, Hv, !map_length; auto|]. unfold select at 1. rewrite map_nth_index. apply map_ext_in. intros j J. apply in_seq in J.
  rewrite nth_map_seq by (apply HK, nth_In; lia). rewrite nth_select by lia. apply map_ext. intro v. unfold bn_at.
  rewrite (cut_vec_nth K w w'), (cut_vec_nth K b b'), (cut_vec_nth K mean mean'), (cut_vec_nth K var var') by (auto; lia). reflexivity.
Qed.
Lemma lengths_nth (x z : fmap) c : map (@length Q) x = map (@length Q) z -> length (nth c x []) = length (nth c z []).
Proof. intro E. change 0 with (length (@nil Q)). rewrite <- !(map_nth (@length Q)). rewrite E. auto. Qed.
Lemma fadd_spec x z y : fadd x z = Ok y <-> map (@length Q) x = map (@length Q) z /\ y = map2 (map2 Qplus) x z.
Proof.
  unfold fadd. destruct (list_eqb _ _) eqn:E.
  - apply list_eqb_eq in E. split; [intros [= <-]; auto|intros [_ ->]; auto].
  - split; [discriminate|]. intros [A _]. apply list_eqb_eq in A. congruence.
Qed.
Lemma map2_nth_l (x z : fmap) c : length x = length z -> nth c (map2 (map2 Qplus) x z) [] = map2 Qplus (nth c x []) (nth c z []).
Proof.
  intro L. destruct (Nat.lt_ge_cases c (length x)).
  - rewrite map2_nth with (da := []) (db := []); auto. lia.
  - rewrite !nth_overflow; auto; try lia. rewrite map2_length. lia.
Qed.
Lemma fadd_cut x z y K : (forall c, In c K -> c < length x) -> fadd x z = Ok y -> fadd (select K x) (select K z) = Ok (select K y).
Proof.
  intros HK H. apply fadd_spec in H as [E ->]. apply fadd_spec. assert (L : length x = length z) by (apply (f_equal (@length nat)) in E; rewrite !map_length in E; auto).
  split.
  - unfold select. rewrite !map_map. apply map_ext. intro c. apply lengths_nth; auto.
  - unfold select. clear HK. induction K as [|c K IH]; simpl; auto. rewrite map2_nth_l by auto. f_equal. apply IH.
Qed.

(** * One operation *)
Definition zero_bias (pl : plan) (n : string) (b : option nd) : Prop := forall c, removed pl n c -> (bias_at b c == 0)%Q.
(** what the simulation needs to know about a layer of the model [m] and of the thinned model [m'];
    [zero]: the values of removed channels are zero (otherwise the consumers have zero weights for them) *)
Definition sim_node (zero : bool) (rs : Q -> Q) (m m' : mstate) (pl : plan) (nd : node) : Prop :=
  let n := n_name nd in
  match n_op nd, n_in nd with
  | OConv _, [i] =>
    exists w gr C ks w' gr', get_param m (n, "weight"%string) = Ok w /\ nd_shape w = chans pl n :: C :: ks /\ wf_nd w /\ int_attr m n "groups" = Ok gr /\
    get_param m' (n, "weight"%string) = Ok w' /\ int_attr m' n "groups" = Ok gr' /\
    (zero = true -> zero_bias pl n (opt_param m (n, "bias"%string))) /\
    ((gr = 1 /\ gr' = 1 /\ C = chans pl i /\ w' = cut_w w ks (keep pl n) (keep pl i) /\
        cut_bias (keep pl n) (opt_param m (n, "bias"%string)) (opt_param m' (n, "bias"%string)) /\
        (zero = true -> forall o, removed pl n o -> all_zero (filter_of w o)) /\
        (zero = false -> forall o c, In o (keep pl n) -> removed pl i c -> all_zero (kernel_of w o c))) \/
     (gr = chans pl n /\ gr' = length (keep pl n) /\ C = 1 /\ same_channels pl n i /\ w' = cut_w w ks (keep pl n) [0] /\
        cut_bias (keep pl n) (opt_param m (n, "bias"%string)) (opt_param m' (n, "bias"%string))) \/
     (gr' = gr /\ w' = w /\ opt_param m' (n, "bias"%string) = opt_param m (n, "bias"%string) /\ all_kept pl n /\ all_kept pl i))
  | OLinear, [i] =>
    exists w F w', get_param m (n, "weight"%string) = Ok w /\ nd_shape w = [chans pl n; F] /\ get_param m' (n, "weight"%string) = Ok w' /\
    opt_param m' (n, "bias"%string) = opt_param m (n, "bias"%string) /\ all_kept pl n /\
    ((all_kept pl i /\ w' = w) \/ (zero = true /\ ~ all_kept pl i /\ exists P, F = chans pl i * P /\ w' = lin_cut (chans pl n) (chans pl i) P (keep pl i) w) \/
     (zero = false /\ ~ all_kept pl i /\ F = chans pl i /\ w' = lin_cut (chans pl n) (chans pl i) 1 (keep pl i) w /\ forall o c, o < chans pl n -> removed pl i c -> all_zero (kernel_of w o c)))
  | OBn, [i] =>
    exists w b mean var w' b' mean' var', get_param m (n, "weight"%string) = Ok w /\ get_param m (n, "bias"%string) = Ok b /\
    ten_attr m n "running_mean" = Ok mean /\ ten_attr m n "running_var" = Ok var /\
    get_param m' (n, "weight"%string) = Ok w' /\ get_param m' (n, "bias"%string) = Ok b' /\
    ten_attr m' n "running_mean" = Ok mean' /\ ten_attr m' n "running_var" = Ok var' /\
    cut_vec (keep pl n) w w' /\ cut_vec (keep pl n) b b' /\ cut_vec (keep pl n) mean mean' /\ cut_vec (keep pl n) var var' /\
    same_channels pl n i /\ (zero = true -> forall c, removed pl n c -> (bn_at rs w b mean var c 0 == 0)%Q)
  | OChan f, [i] => same_channels pl n i /\ respects f /\ (all_kept pl n \/ (zero = true -> keeps_zero f) /\ uniform f)
  | OAdd, [i; j] => same_channels pl n i /\ same_channels pl n j
  | OOther f, l => all_kept pl n /\ (forall i, In i l -> all_kept pl i) /\ respects_values f /\ (forall xs y, f xs = Ok y -> Forall2 (fun i (x : fmap) => length x = chans pl i) l xs -> length y = chans pl n)
  | _, _ => False
  end.

Definition keep_ok (pl : plan) : Prop := forall n, index_set (chans pl n) (keep pl n) /\ keep pl n <> [].
Lemma same_removed pl n i c : same_channels pl n i -> removed pl n c <-> removed pl i c.
Proof. unfold same_channels, removed. intros (A & B). rewrite A, B. tauto. Qed.
Lemma all_zero_slice g j l : all_zero l -> all_zero (slice g j l).
Proof.
  intros H v I. apply H. unfold slice in I. apply In_nth with (d := 0%Q) in I as (k & L & <-). rewrite firstn_length, skipn_length in L.
  rewrite nth_firstn by lia. rewrite nth_skipn. apply nth_In. lia.
Qed.
Lemma all_kept_sel pl n v v' : length v = chans pl n -> all_kept pl n -> veq (select (keep pl n) v) v' -> veq v v'.
Proof. unfold all_kept. intros L K. rewrite K, <- L, select_all. auto. Qed.
Lemma all_kept_not_removed pl n c : all_kept pl n -> ~ removed pl n c.
Proof. unfold all_kept, removed. intros K [L N]. apply N. rewrite K. apply in_seq. lia. Qed.
Lemma related_full zero pl n v v' : length v = chans pl n -> all_kept pl n -> veq v v' -> related zero pl n v v'.
Proof.
  intros L K V. constructor; auto.
  - rewrite K, <- L, select_all. auto.
  - intros _ c R. exfalso. eapply all_kept_not_removed; eauto.
Qed.
Lemma nth_keep pl n (x : fmap) c : keep_ok pl -> length x = chans pl n -> In c (keep pl n) -> c < length x.
Proof. intros K L I. rewrite L. eapply index_set_lt; eauto. apply K. Qed.

Lemma sim_op zero rs m m' pl nd xs xs' y :
  keep_ok pl -> sim_node zero rs m m' pl nd -> Forall2 (fun i xx => related zero pl i (fst xx) (snd xx)) (n_in nd) (combine xs xs') -> length xs = length xs' ->
  apply_op rs m (n_name nd) (n_op nd) xs = Ok y ->
  exists y', apply_op rs m' (n_name nd) (n_op nd) xs' = Ok y' /\ related zero pl (n_name nd) y y'.
Proof.
  intros KO S R Lx H. unfold sim_node in S. set (n := n_name nd) in *.
  assert (One : forall i, n_in nd = [i] -> exists x x', xs = [x] /\ xs' = [x'] /\ related zero pl i x x').
  { intros i E. rewrite E in R. destruct xs as [|x xs], xs' as [|x' xs']; simpl in R; try (inversion R; fail); try discriminate. inversion R as [|? ? ? ? Rx R2]; subst. destruct xs as [|? ?], xs' as [|? ?]; simpl in *; try discriminate; [|inversion R2]. exists x, x'. auto. }
  destruct (n_op nd) as [ge| | |f| |f].
  - (* conv *)
    destruct (n_in nd) as [|i [|? ?]]; try (destruct S; fail). destruct (One i eq_refl) as (x & x' & -> & -> & Rx). clear One R.
    destruct S as (w & gr & C & ks & w' & gr' & Gw & Sw & Ww & Gg & Gw' & Gg' & Zb & S). unfold apply_op, arg in *. cbn [nth_error bind] in *. rewrite Gw, Gg in H. rewrite Gw', Gg'. cbn [bind] in *.
    pose proof (proj1 (conv_spec _ _ _ _ _ _ _ _ _ Sw) H) as [(Fw & Fg & Fx & _ & _) Ey].
    assert (Ly : length y = chans pl n) by (subst y; apply conv_out_length).
    assert (U : uniform_len y). { exists (ge_out ge). intros c L. subst y. rewrite conv_out_nth by (rewrite <- Ly; auto). rewrite map_length, seq_length. auto. }
    destruct S as [(-> & -> & -> & -> & Cb & Z1 & Z2)|[(-> & -> & -> & Sc & -> & Cb)|(-> & -> & Eb & Kn & Ki)]].
    + destruct (conv_cut w (opt_param m (n, "bias"%string)) (opt_param m' (n, "bias"%string)) ge x y _ _ ks (keep pl n) (keep pl i) Sw Ww) as (y1 & C1 & V1); auto; try apply KO.
      { intros c Lc Nc. destruct zero; [left; apply (rl_zero _ _ _ _ _ Rx); auto; split; auto|right]. intros o Io. apply Z2; auto. split; auto. }
      destruct (conv_proper _ _ _ _ _ x' _ (rl_sel _ _ _ _ _ Rx) C1) as (y2 & C2 & V2). exists y2. split; auto. constructor; auto; [eapply veq_trans; eauto|].
      intros Z o Ro. subst y. rewrite conv_out_nth by apply Ro. intros v Iv. apply in_map_iff in Iv as (s & <- & _). unfold conv_at.
      rewrite (Zb Z o Ro). rewrite qsum_zero; [ring|]. intros c _. apply dot_zero_w. apply all_zero_slice. apply Z1; auto.
    + destruct (conv_cut_depthwise w (opt_param m (n, "bias"%string)) (opt_param m' (n, "bias"%string)) ge x y _ ks (keep pl n) Sw Ww) as (y1 & C1 & V1); auto; try apply KO.
      pose proof (rl_sel _ _ _ _ _ Rx) as V. rewrite <- (proj2 Sc) in V.
      destruct (conv_proper _ _ _ _ _ x' _ V C1) as (y2 & C2 & V2). exists y2. split; auto. constructor; auto; [eapply veq_trans; eauto|].
      intros Z o Ro. subst y. rewrite conv_out_nth by apply Ro. intros v Iv. apply in_map_iff in Iv as (s & <- & _). unfold conv_at.
      rewrite (Zb Z o Ro). rewrite qsum_zero; [ring|]. intros c Ic. apply in_seq in Ic. assert (c = 0) by lia. subst c. rewrite Nat.div_same by auto. rewrite Nat.div_1_r, Nat.mul_1_r, Nat.add_0_r.
      apply dot_zero_x. intro k. apply tap_zero. apply (rl_zero _ _ _ _ _ Rx); auto. apply (same_removed pl n i); auto.
    + pose proof (all_kept_sel _ _ _ _ (rl_len _ _ _ _ _ Rx) Ki (rl_sel _ _ _ _ _ Rx)) as V. rewrite Eb. destruct (conv_proper _ _ _ _ _ x' _ V H) as (y2 & C2 & V2). exists y2. split; auto.
      apply related_full; auto.
  - (* linear *)
    destruct (n_in nd) as [|i [|? ?]]; try (destruct S; fail). destruct (One i eq_refl) as (x & x' & -> & -> & Rx). clear One R.
    destruct S as (w & F & w' & Gw & Sw & Gw' & Eb & Kn & S). unfold apply_op, arg in *. cbn [nth_error bind] in *. rewrite Gw in H. rewrite Gw'. cbn [bind] in *. rewrite Eb.
    pose proof (proj1 (linear_spec _ _ _ _ _ _ Sw) H) as [(Fw & Fx & _) Ey].
    assert (Ly : length y = chans pl n) by (subst y; rewrite map_length, seq_length; auto).
    destruct S as [(Ki & ->)|[(Z & Ni & P & -> & ->)|(Z & Ni & -> & -> & Zw)]].
    + pose proof (all_kept_sel _ _ _ _ (rl_len _ _ _ _ _ Rx) Ki (rl_sel _ _ _ _ _ Rx)) as V. destruct (linear_proper _ _ _ x' _ V H) as (y2 & C2 & V2). exists y2. split; auto. apply related_full; auto.
    + destruct (rl_uni _ _ _ _ _ Rx) as [|(L & HL)]; [contradiction|]. pose proof (rl_len _ _ _ _ _ Rx) as Lx'.
      assert (Hx : forall c, c < chans pl i -> length (nth c x []) = P).
      { intros c Lc. rewrite concat_uniform with (P := L) in Fx; auto. rewrite HL by lia. nia. }
      destruct (linear_cut w (opt_param m (n, "bias"%string)) x y _ _ P (keep pl i) Sw) as (y1 & C1 & V1); auto; [apply KO|intros c Lc Nc; left; apply (rl_zero _ _ _ _ _ Rx); auto; split; auto|].
      destruct (linear_proper _ _ _ x' _ (rl_sel _ _ _ _ _ Rx) C1) as (y2 & C2 & V2). exists y2. split; auto. apply related_full; auto. eapply veq_trans; eauto.
    + destruct (rl_uni _ _ _ _ _ Rx) as [|(L & HL)]; [contradiction|]. pose proof (rl_len _ _ _ _ _ Rx) as Lx'.
      assert (Hx : forall c, c < chans pl i -> length (nth c x []) = 1).
      { intros c Lc. rewrite concat_uniform with (P := L) in Fx; auto. rewrite HL by lia. nia. }
      assert (S1 : nd_shape w = [chans pl n; chans pl i * 1]) by (rewrite Nat.mul_1_r; auto).
      destruct (linear_cut w (opt_param m (n, "bias"%string)) x y _ _ 1 (keep pl i) S1) as (y1 & C1 & V1); auto; [apply KO| |].
      { intros c Lc Nc; right. intros o Lo. specialize (Zw o c Lo (conj Lc Nc)). unfold kernel_of, filter_of in Zw. rewrite Sw in Zw. cbn [tl] in Zw.
        replace (numel [chans pl i]) with (chans pl i * 1) in Zw by (simpl; lia). exact Zw. }
      destruct (linear_proper _ _ _ x' _ (rl_sel _ _ _ _ _ Rx) C1) as (y2 & C2 & V2). exists y2. split; auto. apply related_full; auto. eapply veq_trans; eauto.
  - (* batch norm *)
    destruct (n_in nd) as [|i [|? ?]]; try (destruct S; fail). destruct (One i eq_refl) as (x & x' & -> & -> & Rx). clear One R.
    destruct S as (w & b & mean & var & w' & b' & mean' & var' & G1 & G2 & G3 & G4 & G1' & G2' & G3' & G4' & Cw & Cb & Cm & Cv & Sc & Zb).
    unfold apply_op, arg in *. cbn [nth_error bind] in *. rewrite G1, G2, G3, G4 in H. rewrite G1', G2', G3', G4'. cbn [bind] in *.
    pose proof (rl_len _ _ _ _ _ Rx) as Lx'. pose proof (rl_sel _ _ _ _ _ Rx) as V.
    rewrite <- (proj2 Sc) in V. assert (HK : forall c, In c (keep pl n) -> c < length x) by (intros c I; rewrite Lx', <- (proj1 Sc); eapply index_set_lt; eauto; apply KO).
    pose proof (bn_cut rs w b mean var w' b' mean' var' x y (keep pl n) HK Cw Cb Cm Cv H) as C1.
    destruct (bn_proper _ _ _ _ _ _ x' _ V C1) as (y2 & C2 & V2). exists y2. split; auto.
    apply bn_spec in H as [_ Ey]. assert (Ny : forall c, c < length x -> nth c y [] = map (bn_at rs w b mean var c) (nth c x [])) by (intros c L; subst y; apply (nth_map_seq (fun c => map (bn_at rs w b mean var c) (nth c x []))); auto).
    assert (Ly : length y = length x) by (subst y; rewrite map_length, seq_length; auto).
    constructor; auto.
    + rewrite Ly, Lx'. symmetry. apply Sc.
    + intros Z c Rc. pose proof (proj1 (same_removed pl n i c Sc) Rc) as Ri. rewrite Ny by (rewrite Lx'; apply Ri). intros v Iv. apply in_map_iff in Iv as (u & <- & Iu).
      pose proof (rl_zero _ _ _ _ _ Rx Z c Ri u Iu) as Zu. unfold bn_at in *. rewrite Zu. apply Zb; auto.
    + destruct (rl_uni _ _ _ _ _ Rx) as [K|(L & HL)]; [left; unfold all_kept in *; destruct Sc as [-> ->]; auto|right]. exists L. intros c Lc. rewrite Ly in Lc. rewrite Ny, map_length; auto.
  - (* channel operation *)
    destruct (n_in nd) as [|i [|? ?]]; try (destruct S; fail). destruct (One i eq_refl) as (x & x' & -> & -> & Rx). clear One R.
    destruct S as (Sc & Pf & Zf). unfold apply_op, arg in *. cbn [nth_error bind] in *. injection H as <-. eexists. split; [reflexivity|].
    pose proof (rl_len _ _ _ _ _ Rx) as Lx'. pose proof (rl_sel _ _ _ _ _ Rx) as V. rewrite <- (proj2 Sc) in V.
    assert (HK : forall c, In c (keep pl n) -> c < length x) by (intros c I; rewrite Lx', <- (proj1 Sc); eapply index_set_lt; eauto; apply KO).
    assert (Ny : forall c, c < length x -> nth c (map f x) [] = f (nth c x [])) by (intros c L; rewrite nth_indep with (d' := f []) by (rewrite map_length; auto); apply map_nth).
    constructor; auto.
    + rewrite map_length, Lx'. symmetry. apply Sc.
    + rewrite select_map by auto. apply (Forall2_map' _ (Forall2 Qeq)); auto.
    + intros Z c Rc. pose proof (proj1 (same_removed pl n i c Sc) Rc) as Ri. rewrite Ny by (rewrite Lx'; apply Ri).
      destruct Zf as [K|[Zf _]]; [exfalso; eapply all_kept_not_removed; eauto|]. apply Zf; auto. apply (rl_zero _ _ _ _ _ Rx); auto.
    + destruct Zf as [K|[_ Uf]]; auto. destruct (rl_uni _ _ _ _ _ Rx) as [K|(L & HL)]; [left; unfold all_kept in *; destruct Sc as [-> ->]; auto|right].
      exists (length (f (repeat 0%Q L))). intros c Lc. rewrite map_length in Lc. rewrite Ny by auto. apply Uf. rewrite repeat_length. auto.
  - (* sum *)
    clear One. destruct (n_in nd) as [|i [|j [|? ?]]]; try (destruct S; fail). destruct S as (Si & Sj).
    destruct xs as [|x [|z [|? ?]]], xs' as [|x' [|z' [|? ?]]]; simpl in R, Lx; try discriminate; repeat match goal with R : Forall2 _ _ _ |- _ => inversion R; clear R; subst end.
    cbn [fst snd] in *. match goal with A : related _ _ i _ _, B : related _ _ j _ _ |- _ => rename A into Rx; rename B into Rz end.
    unfold apply_op, arg in *. cbn [nth_error bind] in *.
    pose proof (rl_len _ _ _ _ _ Rx) as Lx'. pose proof (rl_sel _ _ _ _ _ Rx) as V. rewrite <- (proj2 Si) in V. pose proof (rl_sel _ _ _ _ _ Rz) as W. rewrite <- (proj2 Sj) in W.
    assert (HK : forall c, In c (keep pl n) -> c < length x) by (intros c I; rewrite Lx', <- (proj1 Si); eapply index_set_lt; eauto; apply KO).
    pose proof (fadd_cut x z y (keep pl n) HK H) as C1. destruct (fadd_proper _ _ _ _ _ V W C1) as (y2 & C2 & V2). exists y2. split; auto.
    apply fadd_spec in H as [E ->]. assert (Lz : length x = length z) by (apply (f_equal (@length nat)) in E; rewrite !map_length in E; auto).
    constructor; auto.
    + rewrite map2_length, <- Lz, Nat.min_id, Lx'. symmetry. apply Si.
    + intros Z c Rc. rewrite map2_nth_l by auto. pose proof (rl_zero _ _ _ _ _ Rx Z c (proj1 (same_removed _ _ _ _ Si) Rc)) as A. pose proof (rl_zero _ _ _ _ _ Rz Z c (proj1 (same_removed _ _ _ _ Sj) Rc)) as B.
      revert A B. generalize (nth c x []), (nth c z []). induction l as [|u l IH]; intros k A B v Iv; [destruct Iv|]. destruct k as [|u' k]; [destruct Iv|]. destruct Iv as [<-|Iv].
      * rewrite (A u), (B u') by (left; auto). ring.
      * apply (IH k); auto; intros ? ?; [apply A|apply B]; right; auto.
    + destruct (rl_uni _ _ _ _ _ Rx) as [K|(L & HL)]; [left; unfold all_kept in *; destruct Si as [-> ->]; auto|right]. exists L. intros c Lc. rewrite map2_length, <- Lz, Nat.min_id in Lc.
      rewrite map2_nth_l by auto. rewrite map2_length, <- (lengths_nth _ _ c E), Nat.min_id. auto.
  - (* other *)
    clear One. destruct S as (Kn & Ki & Pf & Lf). unfold apply_op in *.
    assert (V : Forall2 veq xs xs' /\ Forall2 (fun i (x : fmap) => length x = chans pl i) (n_in nd) xs).
    { clear H Lf. revert xs xs' R Lx Ki. induction (n_in nd) as [|i l IH]; intros xs xs' R Lx Ki; destruct xs as [|x xs], xs' as [|x' xs']; simpl in *; try discriminate; try (inversion R; fail); auto.
      inversion R as [|? ? ? ? Rx R2]; subst. destruct (IH xs xs' R2) as [A B]; auto. cbn [fst snd] in Rx. split; constructor; auto; [|apply Rx].
      eapply all_kept_sel; [apply Rx|apply Ki; auto|apply Rx]. }
    destruct V as [V VL]. destruct (Pf xs xs' y V H) as (y' & H' & Vy). exists y'. split; auto. apply related_full; auto. eapply Lf; eauto.
Qed.

(** * The whole network *)
Definition env_rel zero pl (a b : string * fmap) : Prop := fst a = fst b /\ related zero pl (fst a) (snd a) (snd b).
Lemma env_get zero pl env env' n : Forall2 (env_rel zero pl) env env' ->
  match dget env n, dget env' n with Some v, Some v' => related zero pl n v v' | None, None => True | _, _ => False end.
Proof. induction 1 as [|[k v] [k' v'] l l' (E & R) F IH]; simpl; auto. simpl in E, R. subst k'. destruct (String.eqb_spec n k); subst; auto. Qed.
Lemma env_set zero pl env env' n v v' : Forall2 (env_rel zero pl) env env' -> related zero pl n v v' -> Forall2 (env_rel zero pl) (dset env n v) (dset env' n v').
Proof.
  intros F R. induction F as [|[k u] [k' u'] l l' (E & R') F IH]; simpl; [constructor; [split; auto|constructor]|]. simpl in E, R'. subst k'.
  destruct (String.eqb_spec n k); constructor; auto; split; auto. simpl. subst. auto.
Qed.
Lemma sim_args zero pl env env' l xs : Forall2 (env_rel zero pl) env env' -> args env l = Ok xs ->
  exists xs', args env' l = Ok xs' /\ length xs = length xs' /\ Forall2 (fun i xx => related zero pl i (fst xx) (snd xx)) l (combine xs xs').
Proof.
  intros F. revert xs. induction l as [|n l IH]; intros xs H; simpl in *; [injection H as <-; exists []; repeat split; constructor|].
  unfold lookup in *. pose proof (env_get zero pl env env' n F) as G. destruct (dget env n) as [v|]; [|discriminate]. destruct (dget env' n) as [v'|]; [|destruct G]. cbn [bind] in *.
  destruct (args env l) as [ys|] eqn:E; [|discriminate]. cbn [bind] in H. injection H as <-. destruct (IH ys eq_refl) as (ys' & A & B & C). rewrite A. cbn [bind]. eexists. split; [reflexivity|].
  simpl. split; auto.
Qed.
Theorem sim_forward zero rs m m' pl net x env :
  keep_ok pl -> (forall nd, In nd net -> sim_node zero rs m m' pl nd) -> length x = chans pl net_input -> all_kept pl net_input ->
  forward rs m net x = Ok env ->
  exists env', forward rs m' net x = Ok env' /\ Forall2 (env_rel zero pl) env env'.
Proof.
  intros KO S Lx Kx. unfold forward.
  assert (R0 : Forall2 (env_rel zero pl) [(net_input, x)] [(net_input, x)]).
  { constructor; [|constructor]. split; auto. apply related_full; auto. apply veq_refl. }
  assert (G : forall e e', Forall2 (env_rel zero pl) e e' ->
    foldM (fun env nd => do xs <- args env (n_in nd); do y <- apply_op rs m (n_name nd) (n_op nd) xs; Ok (dset env (n_name nd) y)) net e = Ok env ->
    exists env', foldM (fun env nd => do xs <- args env (n_in nd); do y <- apply_op rs m' (n_name nd) (n_op nd) xs; Ok (dset env (n_name nd) y)) net e' = Ok env' /\ Forall2 (env_rel zero pl) env env'); [|apply G; auto].
  clear R0 Lx Kx.
  induction net as [|nd net IH]; intros e e' R H; simpl in *; [injection H as <-; exists e'; auto|].
  destruct (args e (n_in nd)) as [xs|] eqn:E; [|discriminate]. cbn [bind] in H. destruct (sim_args _ _ _ _ _ _ R E) as (xs' & A & L & F). rewrite A. cbn [bind].
  destruct (apply_op rs m (n_name nd) (n_op nd) xs) as [y|] eqn:Ey; [|discriminate]. cbn [bind] in H.
  destruct (sim_op zero rs m m' pl nd xs xs' y KO (S nd (or_introl eq_refl)) F L Ey) as (y' & B & Ry). rewrite B. cbn [bind].
  apply IH with (e := dset e (n_name nd) y); auto. apply env_set; auto.
Qed.
