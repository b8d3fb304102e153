From Coq Require Import String List Reals ZArith Arith Bool Lia Lra Psatz.
From Verif Require Import Base GradModel GradSpec GradProofs.
Import ListNotations.
Open Scope R_scope.

Lemma dot_div g h L (y : list R) : dot g (map (fun x => h x / L) y) = dot g (map h y) / L.
Proof.
  revert g; induction y; destruct g; simpl; try (unfold Rdiv; lra).
  rewrite IHy. unfold Rdiv; lra.
Qed.
Lemma map_put (f : R -> R) i t x : map f (put i t x) = put i (f t) (map f x).
Proof. revert i; induction x; destruct i; simpl; auto. f_equal; auto. Qed.
Lemma nth_map0 (f : R -> R) l i : (i < length l)%nat -> nth i (map f l) 0 = f (nth i l 0).
Proof. revert i; induction l; destruct i; simpl; intros; auto; try lia. apply IHl; lia. Qed.

Lemma largest_put_other x m i t : (m < length x)%nat -> (i < length x)%nat -> i <> m ->
  (forall k, (k < length x)%nat -> k <> m -> Rabs (nth k x 0) < Rabs (nth m x 0)) ->
  Rabs t <= Rabs (nth m x 0) -> largest (put i t x) = Rabs (nth m x 0).
Proof.
  intros Hm Hi Hne Hu Ht.
  rewrite (largest_at _ m); rewrite ?put_length; auto.
  - rewrite put_nth by auto. destruct (Nat.eqb_spec m i); [lia|auto].
  - intros k Hk. rewrite !put_nth by auto.
    destruct (Nat.eqb_spec m i); [lia|]. destruct (Nat.eqb_spec k i); auto.
    destruct (Nat.eq_dec k m); [subst; lra|]. left; auto.
Qed.
Lemma largest_put_same x m t : (m < length x)%nat ->
  (forall k, (k < length x)%nat -> k <> m -> Rabs (nth k x 0) <= Rabs t) ->
  largest (put m t x) = Rabs t.
Proof.
  intros Hm Hu.
  rewrite (largest_at _ m); rewrite ?put_length; auto.
  - rewrite put_nth by auto. rewrite Nat.eqb_refl. auto.
  - intros k Hk. rewrite !put_nth by auto. rewrite Nat.eqb_refl.
    destruct (Nat.eqb_spec k m); [lra|]. apply Hu; auto.
Qed.

Section Dorefa.
Variables (x g : list R) (m : nat).
Hypothesis Lg : length g = length x.
Hypothesis Hm : (m < length x)%nat.
Hypothesis Hnz : nth m x 0 <> 0.
Hypothesis Hu : forall k, (k < length x)%nat -> k <> m -> Rabs (nth k x 0) < Rabs (nth m x 0).

Let y := map tanh x.
Let ym := nth m y 0.
Let M := Rabs ym.

Lemma y_nth k : (k < length x)%nat -> nth k y 0 = tanh (nth k x 0).
Proof. intros. unfold y. apply nth_map0; auto. Qed.
Lemma y_len : length y = length x.
Proof. unfold y. apply map_length. Qed.
Lemma y_lt k : (k < length x)%nat -> k <> m -> Rabs (nth k y 0) < M.
Proof.
  intros Hk Hne. unfold M, ym. rewrite !y_nth by auto. rewrite !tanh_abs. apply tanh_lt. auto.
Qed.
Lemma M_pos : 0 < M.
Proof.
  unfold M, ym. rewrite y_nth by auto. rewrite tanh_abs. rewrite <- tanh_0 at 1. apply tanh_lt.
  apply Rabs_pos_lt; auto.
Qed.
Lemma y_le k : (k < length x)%nat -> Rabs (nth k y 0) <= M.
Proof. intros. destruct (Nat.eq_dec k m); [subst; unfold M, ym; lra|]. left. apply y_lt; auto. Qed.

Lemma dorefa_put i t : dot g (dorefa (put i t x)) = dot g (map tanh (put i t x)) / largest (put i (tanh t) y).
Proof. unfold dorefa. rewrite dot_div. rewrite (map_put tanh i t x). fold y. reflexivity. Qed.

(** the derivative DoReFa's backward pass should give for element i *)
Definition dorefa_grad (i : nat) : R :=
  (1 - nth i y 0 * nth i y 0) *
  (nth i g 0 / M - (if Nat.eqb i m then rsign ym * (dot g y / (M * M)) else 0)).

Lemma rsign_abs a : rsign a * Rabs a = a.
Proof.
  unfold rsign, Rabs. destruct (Rlt_dec 0 a); destruct (Rcase_abs a); try destruct (Rlt_dec a 0); lra.
Qed.
Lemma abs_rsign a : Rabs a = rsign a * a.
Proof.
  unfold rsign, Rabs. destruct (Rlt_dec 0 a); destruct (Rcase_abs a); try destruct (Rlt_dec a 0); lra.
Qed.
Lemma rsign_sq a : a <> 0 -> rsign a * rsign a = 1.
Proof. intros. unfold rsign. destruct (Rlt_dec 0 a); try destruct (Rlt_dec a 0); lra. Qed.

Lemma dorefa_derivative i : (i < length x)%nat ->
  derivable_pt_lim (fun t => dot g (dorefa (put i t x))) (nth i x 0) (dorefa_grad i).
Proof.
  intros Hi. pose proof M_pos as MP. unfold dorefa_grad.
  destruct (Nat.eqb_spec i m) as [->|Hne].
  - (* the element of largest magnitude *)
    set (s := rsign ym). set (D := dot g (map tanh x) - nth m g 0 * tanh (nth m x 0)).
    assert (Hyne : ym <> 0).
    { intro E. unfold M in MP. rewrite E, Rabs_R0 in MP. lra. }
    assert (Hs : s * s = 1) by (apply rsign_sq; auto).
    assert (Eym : ym = tanh (nth m x 0)) by (unfold ym; apply y_nth; auto).
    assert (P : derivable_pt_lim (fun t => (nth m g 0 * tanh t + D) / (s * tanh t + 0)) (nth m x 0)
                  ((nth m g 0 * (1 - ym * ym) * (s * ym + 0) - s * (1 - ym * ym) * (nth m g 0 * ym + D)) / (s * ym + 0)²)).
    { rewrite Eym.
      apply (derivable_pt_lim_div (fun t => nth m g 0 * tanh t + D) (fun t => s * tanh t + 0)).
      - apply dlim_comp_affine. apply tanh_d.
      - apply dlim_comp_affine. apply tanh_d.
      - rewrite Rplus_0_r. rewrite <- Eym. unfold s. rewrite <- abs_rsign. apply Rabs_no_R0; auto. }
    replace ((1 - nth m y 0 * nth m y 0) * (nth m g 0 / M - s * (dot g y / (M * M))))
      with ((nth m g 0 * (1 - ym * ym) * (s * ym + 0) - s * (1 - ym * ym) * (nth m g 0 * ym + D)) / (s * ym + 0)²).
    + eapply dlim_loc; [|exact P].
      (* B bounds the others *)
      set (B := largest (put m 0 y)).
      assert (HB : B < M).
      { unfold B. destruct (Rle_lt_dec M (largest (put m 0 y))) as [C|C]; auto. exfalso.
        assert (Hf : exists k, (k < length (put m 0 y))%nat /\ M <= Rabs (nth k (put m 0 y) 0)).
        { clear - C MP. revert C. generalize (put m 0 y). induction l; unfold largest; simpl; intros C; [lra|].
          fold (largest l) in C. revert C. apply (Rmax_case_strong (Rabs a) (largest l)); intros _ C.
          2: destruct (IHl C) as [k [? ?]]; exists (S k); split; [lia|auto].
          exists 0%nat. split; [lia|auto]. }
        destruct Hf as [k [Hk Hc]]. rewrite put_length, y_len in Hk.
        rewrite put_nth in Hc by (rewrite y_len; auto). destruct (Nat.eqb_spec k m).
        - rewrite Rabs_R0 in Hc. lra.
        - pose proof (y_lt k Hk n). lra. }
      destruct (tanh_cont (nth m x 0) (M - B)) as [d [Hd Hc]]; [lra|].
      exists (Rmin d (Rabs (nth m x 0))). split; [apply Rmin_pos; auto; apply Rabs_pos_lt; auto|].
      intros t Ht.
      assert (Ht1 : Rabs (t - nth m x 0) < d) by (eapply Rlt_le_trans; [exact Ht|apply Rmin_l]).
      assert (Ht2 : Rabs (t - nth m x 0) < Rabs (nth m x 0)) by (eapply Rlt_le_trans; [exact Ht|apply Rmin_r]).
      specialize (Hc t Ht1). rewrite <- Eym in Hc.
      assert (HT : B <= Rabs (tanh t)).
      { pose proof (Rabs_triang_inv ym (ym - tanh t)). replace (ym - (ym - tanh t)) with (tanh t) in H by lra.
        rewrite Rabs_minus_sym in Hc. fold M in H. lra. }
      rewrite dorefa_put. rewrite (largest_put_same y m (tanh t)).
      2: rewrite y_len; auto.
      2: { intros k Hk Hne. eapply Rle_trans; [|exact HT]. unfold B.
           replace (nth k y 0) with (nth k (put m 0 y) 0).
           - apply largest_ge. rewrite put_length; auto.
           - rewrite put_nth by (rewrite y_len; auto). destruct (Nat.eqb_spec k m); [contradiction|auto]. }
      rewrite dot_put by auto. fold D. f_equal. rewrite Rplus_0_r.
      (* the sign does not change *)
      unfold s. rewrite Eym.
      assert (SG : rsign (tanh (nth m x 0)) = rsign (tanh t)).
      { unfold rsign. apply Rabs_def2 in Ht2.
        destruct (Rlt_dec 0 (nth m x 0)) as [p|p].
        - assert (0 < t) by (rewrite Rabs_right in Ht2 by lra; lra).
          pose proof (tanh_lt _ _ p). pose proof (tanh_lt _ _ H). rewrite tanh_0 in *.
          destruct (Rlt_dec 0 (tanh (nth m x 0))); [|lra]. destruct (Rlt_dec 0 (tanh t)); [auto|lra].
        - assert (p2 : nth m x 0 < 0) by lra.
          assert (H : t < 0) by (rewrite Rabs_left in Ht2 by lra; lra).
          pose proof (tanh_lt _ _ p2). pose proof (tanh_lt _ _ H). rewrite tanh_0 in *.
          destruct (Rlt_dec 0 (tanh (nth m x 0))); [lra|]. destruct (Rlt_dec 0 (tanh t)); [lra|].
          destruct (Rlt_dec (tanh (nth m x 0)) 0); [|lra]. destruct (Rlt_dec (tanh t) 0); [auto|lra]. }
      rewrite SG. apply abs_rsign.
    + fold ym. rewrite Rplus_0_r. unfold s. rewrite <- abs_rsign. fold s. fold M.
      replace D with (dot g y - nth m g 0 * ym) by (unfold D; rewrite Eym; reflexivity).
      unfold Rsqr. 
      replace (nth m g 0 * ym + (dot g y - nth m g 0 * ym)) with (dot g y) by lra.
      field. lra.
  - rewrite Rminus_0_r.
    eapply dlim_loc.
    2: { apply (dlim_comp_affine tanh (nth i g 0 / M)
          ((dot g (map tanh x) - nth i g 0 * tanh (nth i x 0)) / M) (nth i x 0) (1 - nth i y 0 * nth i y 0)) ||
         idtac. rewrite (y_nth i Hi). rewrite Rmult_comm.
         apply (dlim_comp_affine tanh (nth i g 0 / M) ((dot g (map tanh x) - nth i g 0 * tanh (nth i x 0)) / M)).
         apply tanh_d. }
    destruct (tanh_cont (nth i x 0) (M - Rabs (nth i y 0))) as [d [Hd Hc]].
    { pose proof (y_lt i Hi Hne). lra. }
    exists d. split; auto. intros t Ht. specialize (Hc t Ht). rewrite <- (y_nth i Hi) in Hc.
    rewrite dorefa_put. rewrite (largest_put_other y m i (tanh t)); rewrite ?y_len; auto.
    + fold ym. fold M. rewrite dot_put by auto. field. lra.
    + intros k Hk Hn. apply y_lt; auto.
    + fold ym. fold M. pose proof (Rabs_triang (nth i y 0) (tanh t - nth i y 0)).
      replace (nth i y 0 + (tanh t - nth i y 0)) with (tanh t) in H by lra. lra.
Qed.
End Dorefa.
