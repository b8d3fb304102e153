From Coq Require Import String List Reals ZArith Arith Bool Lia Lra Psatz.
From Verif Require Import Base GradModel GradSpec.
Import ListNotations.
Open Scope R_scope.

Lemma total_dot g y : length g = length y -> total (map2 Rmult g y) = dot g y.
Proof. revert y; induction g; destruct y; simpl; intros; try lra; try lia. unfold total in *. rewrite IHg; lia || lra. Qed.

Lemma put_length i t x : length (put i t x) = length x.
Proof. revert i; induction x; destruct i; simpl; auto. Qed.
Lemma put_nth i t x j : (i < length x)%nat -> nth j (put i t x) 0 = if Nat.eqb j i then t else nth j x 0.
Proof.
  revert i j; induction x; intros i j H; simpl in *; try lia.
  destruct i; destruct j; simpl; auto. apply IHx; lia.
Qed.
Lemma put_same i x : put i (nth i x 0) x = x.
Proof. revert i; induction x; destruct i; simpl; auto. f_equal; auto. Qed.

Lemma dot_put f g x i t : (i < length x)%nat -> length g = length x ->
  dot g (map f (put i t x)) = nth i g 0 * f t + (dot g (map f x) - nth i g 0 * f (nth i x 0)).
Proof.
  revert g i; induction x; intros g i H L; simpl in *; try lia.
  destruct g as [|b g]; simpl in *; try lia.
  destruct i; simpl.
  - lra.
  - rewrite IHx by lia. lra.
Qed.

(** locally equal functions have the same derivative *)
Lemma dlim_loc f h x d : (exists e, 0 < e /\ forall t, Rabs (t - x) < e -> f t = h t) ->
  derivable_pt_lim h x d -> derivable_pt_lim f x d.
Proof.
  intros [e [He Hl]] Hd eps Heps.
  destruct (Hd eps Heps) as [del Hdel].
  assert (Hm : 0 < Rmin e del) by (apply Rmin_pos; [lra | apply cond_pos]).
  exists (mkposreal _ Hm). intros k Hk Hlt. simpl in Hlt.
  rewrite !Hl.
  - apply Hdel; auto. eapply Rlt_le_trans; [exact Hlt | apply Rmin_r].
  - replace (x - x) with 0 by lra. rewrite Rabs_R0. lra.
  - replace (x + k - x) with k by lra. eapply Rlt_le_trans; [exact Hlt | apply Rmin_l].
Qed.

Lemma dlim_affine a b x : derivable_pt_lim (fun t => a * t + b) x a.
Proof.
  intros eps He. exists (mkposreal 1 Rlt_0_1). intros h Hh _.
  replace ((a * (x + h) + b - (a * x + b)) / h - a) with 0 by (field; auto).
  rewrite Rabs_R0. lra.
Qed.

Lemma dlim_comp_affine f a b x d : derivable_pt_lim f x d -> derivable_pt_lim (fun t => a * f t + b) x (a * d).
Proof.
  intros H. pose proof (derivable_pt_lim_plus _ _ x _ _ (derivable_pt_lim_scal f a x d H) (derivable_pt_lim_const b x)) as P.
  rewrite Rplus_0_r in P. eapply dlim_loc; [|exact P].
  exists 1. split; [lra|]. intros. unfold plus_fct, mult_real_fct, fct_cte. reflexivity.
Qed.

Lemma dlim_ext f h x d : (forall t, f t = h t) -> derivable_pt_lim h x d -> derivable_pt_lim f x d.
Proof. intros E. apply dlim_loc. exists 1. split; [lra|auto]. Qed.

(** an element-wise function *)
Lemma gradient_map f d x g : length g = length x ->
  (forall i, (i < length x)%nat -> derivable_pt_lim f (nth i x 0) (d (nth i x 0))) ->
  is_gradient (map f) x g (map2 (fun a ga => ga * d a) x g).
Proof.
  intros L H. split.
  - rewrite map2_length. lia.
  - intros i Hi. eapply dlim_ext.
    + intros t. apply dot_put; auto.
    + rewrite (map2_nth _ x g i 0 0 0) by lia. apply dlim_comp_affine. auto.
Qed.

(** clipping *)
Lemma clip_d lo hi x : lo <= hi -> x <> lo -> x <> hi ->
  derivable_pt_lim (clip lo hi) x (if Rle_dec lo x then if Rle_dec x hi then 1 else 0 else 0).
Proof.
  intros Hlh Hl Hh.
  destruct (Rle_dec lo x); [destruct (Rle_dec x hi)|].
  - eapply dlim_loc; [|apply (dlim_affine 1 0)].
    exists (Rmin (x - lo) (hi - x)). split; [apply Rmin_pos; lra|].
    intros t Ht. apply Rabs_def2 in Ht.
    pose proof (Rmin_l (x - lo) (hi - x)). pose proof (Rmin_r (x - lo) (hi - x)).
    unfold clip. destruct (Rle_dec t lo); [lra|]. destruct (Rle_dec hi t); lra.
  - eapply dlim_loc; [|apply (dlim_affine 0 hi)].
    exists (x - hi). split; [lra|]. intros t Ht. apply Rabs_def2 in Ht.
    unfold clip. destruct (Rle_dec t lo); [lra|]. destruct (Rle_dec hi t); lra.
  - eapply dlim_loc; [|apply (dlim_affine 0 lo)].
    exists (lo - x). split; [lra|]. intros t Ht. apply Rabs_def2 in Ht.
    unfold clip. destruct (Rle_dec t lo); lra.
Qed.

Lemma clamp_clip lo hi x : lo <= hi -> Rmin (Rmax x lo) hi = clip lo hi x.
Proof.
  intros. unfold clip, Rmax, Rmin. destruct (Rle_dec x lo).
  - destruct (Rle_dec lo hi); lra.
  - destruct (Rle_dec x hi); destruct (Rle_dec hi x); lra.
Qed.

(** rounding *)
Lemma rnd_close x : Rabs (rnd x - x) <= 1 / 2.
Proof.
  unfold rnd. pose proof (base_fp x) as [B1 B2].
  assert (E : x = IZR (Int_part x) + frac_part x) by (unfold frac_part; lra).
  set (n := Int_part x) in *. set (f := frac_part x) in *.
  assert (E1 : IZR (n + 1) = IZR n + 1) by (rewrite plus_IZR; lra).
  destruct (Rlt_dec f (1 / 2)); [|destruct (Rlt_dec (1 / 2) f); [|destruct (Z.even n)]];
    apply Rabs_le; rewrite ?E1; lra.
Qed.
Lemma rnd_0 : rnd 0 = 0.
Proof.
  pose proof (rnd_close 0). rewrite Rminus_0_r in H.
  assert (exists z, rnd 0 = IZR z) as [z Hz].
  { unfold rnd. repeat destruct (Rlt_dec _ _); try destruct (Z.even _); eauto. }
  rewrite Hz in *.
  assert (-(1/2) <= IZR z <= 1/2) as [? ?] by (unfold Rabs in H; destruct (Rcase_abs (IZR z)); lra). assert (-1 < z < 1)%Z as B. { split; apply lt_IZR; simpl; lra. }
  assert (z = 0)%Z by lia. subst. auto.
Qed.

(** tanh *)
Lemma cosh_pos x : 0 < cosh x.
Proof. unfold cosh. pose proof (exp_pos x). pose proof (exp_pos (- x)). lra. Qed.
Lemma tanh_d x : derivable_pt_lim tanh x (1 - tanh x * tanh x).
Proof.
  pose proof (cosh_pos x).
  assert (N : cosh x <> 0) by lra.
  pose proof (derivable_pt_lim_div sinh cosh x _ _ (derivable_pt_lim_sinh x) (derivable_pt_lim_cosh x) N) as P.
  replace (1 - tanh x * tanh x) with ((cosh x * cosh x - sinh x * sinh x) / (cosh x)²).
  - eapply dlim_ext; [|exact P]. intros; reflexivity.
  - unfold tanh, Rsqr. field. auto.
Qed.
Lemma tanh_exp x : tanh x = 1 - 2 / (exp x * exp x + 1).
Proof.
  unfold tanh, sinh, cosh. rewrite exp_Ropp. pose proof (exp_pos x).
  field. repeat split; apply Rgt_not_eq; nra.
Qed.
Lemma tanh_lt x y : x < y -> tanh x < tanh y.
Proof.
  intros H. rewrite !tanh_exp. pose proof (exp_increasing _ _ H). pose proof (exp_pos x).
  assert (/ (exp y * exp y + 1) < / (exp x * exp x + 1)).
  { apply Rinv_lt_contravar; nra. }
  unfold Rdiv. lra.
Qed.
Lemma tanh_0 : tanh 0 = 0.
Proof. rewrite tanh_exp, exp_0. lra. Qed.
Lemma tanh_opp x : tanh (- x) = - tanh x.
Proof.
  unfold tanh, sinh, cosh. rewrite Ropp_involutive. pose proof (exp_pos x). pose proof (exp_pos (- x)).
  field. repeat split; apply Rgt_not_eq; lra.
Qed.
Lemma tanh_abs x : Rabs (tanh x) = tanh (Rabs x).
Proof.
  unfold Rabs at 2. destruct (Rcase_abs x).
  - rewrite tanh_opp. pose proof (tanh_lt x 0 r). rewrite tanh_0 in H. apply Rabs_left; auto.
  - destruct (Req_dec x 0) as [->|n]; [rewrite tanh_0; apply Rabs_R0|].
    assert (0 < x) by lra. pose proof (tanh_lt 0 x H). rewrite tanh_0 in H0. apply Rabs_right. lra.
Qed.
Lemma tanh_cont x e : 0 < e -> exists d, 0 < d /\ forall t, Rabs (t - x) < d -> Rabs (tanh t - tanh x) < e.
Proof.
  intros He.
  assert (C : continuity_pt tanh x).
  { apply derivable_continuous_pt. exists (1 - tanh x * tanh x). apply tanh_d. }
  destruct (C e He) as [d [Hd Hc]]. exists d. split; [exact Hd|].
  intros t Ht. destruct (Req_dec t x) as [->|n].
  - replace (tanh x - tanh x) with 0 by lra. rewrite Rabs_R0. auto.
  - apply Hc. split; [split; [exact I|auto]|exact Ht].
Qed.

(** maxima *)
Lemma largest_ge l k : (k < length l)%nat -> Rabs (nth k l 0) <= largest l.
Proof.
  revert k; induction l; intros k H; simpl in H; try lia.
  unfold largest; simpl. destruct k; [apply Rmax_l|].
  eapply Rle_trans; [apply (IHl k); lia | apply Rmax_r].
Qed.
Lemma largest_nonneg l : 0 <= largest l.
Proof. induction l; unfold largest; simpl; [lra|]. eapply Rle_trans; [exact IHl|apply Rmax_r]. Qed.
Lemma largest_le l b : 0 <= b -> (forall k, (k < length l)%nat -> Rabs (nth k l 0) <= b) -> largest l <= b.
Proof.
  intros Hb. induction l; intros H; unfold largest; simpl; [auto|].
  apply Rmax_lub; [apply (H 0%nat); simpl; lia|].
  apply IHl. intros k Hk. apply (H (S k)); simpl; lia.
Qed.
Lemma largest_at l m : (m < length l)%nat ->
  (forall k, (k < length l)%nat -> Rabs (nth k l 0) <= Rabs (nth m l 0)) -> largest l = Rabs (nth m l 0).
Proof.
  intros Hm H. apply Rle_antisym.
  - apply largest_le; auto using Rabs_pos.
  - apply largest_ge; auto.
Qed.

Lemma maximum_ge x r k : (k < length (x :: r))%nat -> nth k (x :: r) 0 <= maximum x r.
Proof.
  revert x k; induction r as [|y r IH]; intros x k H; simpl in H.
  - destruct k; simpl; [lra|lia].
  - cbn [maximum]. destruct k; [apply Rmax_l|].
    eapply Rle_trans; [apply (IH y k); simpl; lia|apply Rmax_r].
Qed.
Lemma maximum_le x r b : (forall k, (k < length (x :: r))%nat -> nth k (x :: r) 0 <= b) -> maximum x r <= b.
Proof.
  revert x; induction r as [|y r IH]; intros x H.
  - apply (H 0%nat); simpl; lia.
  - cbn [maximum]. apply Rmax_lub; [apply (H 0%nat); simpl; lia|].
    apply IH. intros k Hk. apply (H (S k)). simpl in *; lia.
Qed.
Lemma maximum_at x r m : (m < length (x :: r))%nat ->
  (forall k, (k < length (x :: r))%nat -> nth k (x :: r) 0 <= nth m (x :: r) 0) ->
  maximum x r = nth m (x :: r) 0.
Proof.
  intros Hm H. apply Rle_antisym; [apply maximum_le; auto|apply maximum_ge; auto].
Qed.
Lemma first_hit_length M g l : length (first_hit M g l) = length l.
Proof. induction l; simpl; auto. destruct (Req_EM_T a M); simpl; rewrite ?map_length; auto. Qed.
Lemma first_hit_at M g l m : (m < length l)%nat -> nth m l 0 = M ->
  (forall k, (k < length l)%nat -> k <> m -> nth k l 0 <> M) ->
  forall i, (i < length l)%nat -> nth i (first_hit M g l) 0 = if Nat.eqb i m then g else 0.
Proof.
  revert m; induction l; intros m Hm E Hu i Hi; simpl in *; try lia.
  destruct (Req_EM_T a M) as [Ea|Ea].
  - destruct m; [|exfalso; apply (Hu 0%nat); auto; lia].
    destruct i; simpl; auto.
    assert (Z : forall (l : list R) i, nth i (map (fun _ => 0) l) 0 = 0).
    { induction l0; destruct i0; simpl; auto. } apply Z.
  - destruct m; [contradiction|]. destruct i; simpl; auto.
    apply IHl; auto; try lia. intros k Hk Hkm. apply (Hu (S k)); lia.
Qed.
