(** C36: learning-rate schedules (learning_rate.py). *)
From Coq Require Import List ZArith QArith Qpower Bool Arith Lia Lqa Sorted.
From Verif Require Import Base AppModel AppSpec.
Import ListNotations.
Open Scope Q_scope.

(* ------------------------------------------------------------------------- *)
(** ** bisect_right *)
Lemma bisect_loop_spec a x fuel : forall lo hi,
  StronglySorted Z.le a -> (lo <= hi <= length a)%nat -> (hi - lo < fuel)%nat ->
  (forall i, (i < lo)%nat -> (nth i a 0 <= x)%Z) ->
  (forall i, (hi <= i < length a)%nat -> (x < nth i a 0)%Z) ->
  let r := bisect_loop fuel a x lo hi in
  (r <= length a)%nat /\ (forall i, (i < r)%nat -> (nth i a 0 <= x)%Z) /\
  (forall i, (r <= i < length a)%nat -> (x < nth i a 0)%Z).
Proof.
  assert (Hnth : forall l i j, StronglySorted Z.le l -> (i <= j < length l)%nat -> (nth i l 0 <= nth j l 0)%Z).
  { induction l as [|y l IH]; simpl; intros i j Hs Hij; [lia|].
    inversion Hs as [|? ? Hs' Hf]; subst.
    destruct i, j; simpl; try lia.
    - rewrite Forall_forall in Hf. apply Hf. apply nth_In. lia.
    - apply IH; auto; lia. }
  induction fuel as [|fuel IH]; intros lo hi Hs Hb Hf Hlo Hhi; [lia|]. simpl.
  destruct (Nat.ltb_spec lo hi) as [Hlt|Hge].
  - set (mid := Nat.div2 (lo + hi)) in *.
    assert (Hm : (lo <= mid < hi)%nat).
    { unfold mid. rewrite Nat.div2_div. split.
      - apply Nat.div_le_lower_bound; lia.
      - apply Nat.div_lt_upper_bound; lia. }
    destruct (Z.ltb_spec x (nth mid a 0%Z)) as [Hx|Hx].
    + apply IH; auto; try lia.
      intros i Hi. specialize (Hnth a mid i Hs ltac:(lia)). lia.
    + apply IH; auto; try lia.
      intros i Hi. specialize (Hnth a i mid Hs ltac:(lia)). lia.
  - simpl. assert (lo = hi) by lia. subst. repeat split; auto; lia.
Qed.

Lemma bisect_right_spec a x : StronglySorted Z.le a ->
  (bisect_right a x <= length a)%nat /\ (forall i, (i < bisect_right a x)%nat -> (nth i a 0 <= x)%Z) /\
  (forall i, (bisect_right a x <= i < length a)%nat -> (x < nth i a 0)%Z).
Proof. intro H. apply bisect_loop_spec; auto; try lia. Qed.

Lemma zsorted_iff l : zsorted l = true <-> StronglySorted Z.le l.
Proof.
  split.
  - intro H. apply Sorted_StronglySorted; [red; lia|].
    induction l as [|a l IH]; [constructor|]. destruct l as [|b l]; [repeat constructor|].
    change (Z.leb a b && zsorted (b :: l) = true) in H. apply andb_true_iff in H. destruct H as [H1 H2].
    constructor; auto. constructor. apply Z.leb_le; auto.
  - induction l as [|a l IH]; auto. intro H. inversion H as [|? ? H1 H2]; subst.
    destruct l as [|b l]; auto. change (Z.leb a b && zsorted (b :: l) = true).
    apply andb_true_iff; split; auto. apply Z.leb_le. inversion H2; auto.
Qed.

Lemma cum_gammas_nth gs : forall acc k, (k <= length gs)%nat ->
  nth k (cum_gammas acc gs) 0 == acc * qprod (firstn k gs).
Proof.
  induction gs as [|g gs IH]; intros acc k Hk; destruct k; simpl in *; try lia; try ring.
  rewrite IH by lia. ring.
Qed.

Lemma filter_prefix : forall (ms : list Z) (gs : list Q) (e : Z) k, length ms = length gs -> (k <= length ms)%nat ->
  (forall i, (i < k)%nat -> (nth i ms 0 <= e)%Z) -> (forall i, (k <= i < length ms)%nat -> (e < nth i ms 0)%Z) ->
  gammas_up_to e ms gs = firstn k gs.
Proof.
  unfold gammas_up_to. induction ms as [|m ms IH]; intros [|g gs] e k Hl Hk H1 H2; try discriminate.
  - simpl. destruct k; auto.
  - simpl in *. destruct k as [|k].
    + pose proof (H2 0%nat ltac:(lia)) as H. simpl in H.
      destruct (Z.leb_spec m e); [lia|].
      rewrite (IH gs e 0%nat); auto; try lia.
      intros i Hi. apply (H2 (S i)). lia.
    + pose proof (H1 0%nat ltac:(lia)) as H. simpl in H.
      destruct (Z.leb_spec m e); [|lia]. simpl. f_equal.
      apply IH; auto; try lia.
      * intros i Hi. apply (H1 (S i)). lia.
      * intros i Hi. apply (H2 (S i)). lia.
Qed.

(** C36: for non-decreasing milestones with as many gammas, the rate of every parameter group at
    every epoch is its base rate times the product of the gammas of the milestones <= epoch. *)
Theorem C36_multi_step_multi_gamma : forall milestones gammas base_lrs epoch,
  StronglySorted Z.le milestones -> length milestones = length gammas ->
  exists rates, multi_gamma_lr milestones gammas base_lrs epoch = Ok rates /\
    Forall2 (fun rate base => rate == base * qprod (gammas_up_to epoch milestones gammas)) rates base_lrs.
Proof.
  intros ms gs bases e Hs Hl. unfold multi_gamma_lr.
  rewrite (proj2 (zsorted_iff ms) Hs), Hl, Nat.eqb_refl. simpl. eexists; split; [reflexivity|].
  destruct (bisect_right_spec ms e Hs) as (B1 & B2 & B3).
  rewrite (filter_prefix ms gs e (bisect_right ms e)) by (auto; lia).
  induction bases as [|b bases IH]; simpl; constructor; auto.
  rewrite cum_gammas_nth by lia. ring.
Qed.

(** C36: the constructor raises ValueError exactly for milestones that decrease somewhere or lists
    of different lengths; nothing else raises. *)
Theorem C36_multi_gamma_errors : forall milestones gammas base_lrs epoch,
  (multi_gamma_lr milestones gammas base_lrs epoch = Raise ValueError <->
   ~ StronglySorted Z.le milestones \/ length milestones <> length gammas) /\
  (forall e, multi_gamma_lr milestones gammas base_lrs epoch = Raise e -> e = ValueError).
Proof.
  intros ms gs bases e. unfold multi_gamma_lr. split.
  - rewrite <- zsorted_iff. destruct (zsorted ms); simpl; [|split; auto].
    destruct (Nat.eqb_spec (length ms) (length gs)); simpl; split; auto; try discriminate.
    intros [H|H]; congruence.
  - destruct (zsorted ms); simpl; [|congruence].
    destruct (Nat.eqb (length ms) (length gs)); simpl; congruence.
Qed.

(** C36: before the first milestone the rate is the base rate; the rate changes only at milestones
    (two epochs with no milestone in (e1, e2] have the same rates). *)
Theorem C36_multi_gamma_constant_between_milestones : forall milestones gammas base_lrs e1 e2 r1 r2,
  (e1 <= e2)%Z -> Forall (fun m => (m <= e1 \/ e2 < m)%Z) milestones ->
  multi_gamma_lr milestones gammas base_lrs e1 = Ok r1 ->
  multi_gamma_lr milestones gammas base_lrs e2 = Ok r2 ->
  Forall2 Qeq r1 r2.
Proof.
  intros ms gs bases e1 e2 r1 r2 He Hf H1 H2.
  assert (Hok : StronglySorted Z.le ms /\ length ms = length gs).
  { unfold multi_gamma_lr in H1. destruct (zsorted ms) eqn:E; simpl in H1; [|discriminate].
    destruct (Nat.eqb_spec (length ms) (length gs)); simpl in H1; [|discriminate].
    split; auto. apply zsorted_iff; auto. }
  destruct Hok as [Hs Hl].
  destruct (C36_multi_step_multi_gamma ms gs bases e1 Hs Hl) as (q1 & Q1 & F1).
  destruct (C36_multi_step_multi_gamma ms gs bases e2 Hs Hl) as (q2 & Q2 & F2).
  rewrite H1 in Q1. rewrite H2 in Q2. injection Q1 as <-. injection Q2 as <-.
  assert (Hg : gammas_up_to e1 ms gs = gammas_up_to e2 ms gs).
  { unfold gammas_up_to. f_equal. apply filter_ext_in. intros (m, g) Hin. simpl.
    apply in_combine_l in Hin. rewrite Forall_forall in Hf. specialize (Hf m Hin).
    destruct (Z.leb_spec m e1), (Z.leb_spec m e2); auto; lia. }
  rewrite <- Hg in F2. clear - F1 F2. revert r2 F2.
  induction F1 as [|a b l l' Hab HF IH]; intros r2 F2; inversion F2 as [|x y lx ly Hxy HFx]; subst; constructor; auto.
  rewrite Hab, Hxy. reflexivity.
Qed.

Example multi_gamma_case :
  multi_gamma_lr [2; 2; 5]%Z [1#10; 1#2; 1#5] [1; 3] 4 = Ok [1 * ((1#2) * ((1#10) * 1)); 3 * ((1#2) * ((1#10) * 1))]
  /\ StronglySorted Z.le [2; 2; 5]%Z.
Proof. split; [reflexivity|]. repeat constructor; lia. Qed.
Example multi_gamma_at_milestone :
  gammas_up_to 5 [2; 2; 5]%Z [1#10; 1#2; 1#5] = [1#10; 1#2; 1#5].
Proof. reflexivity. Qed.

(* ------------------------------------------------------------------------- *)
(** ** PolynomialLR *)
Lemma Qpower_pos_succ b p : Qpower_positive b (Pos.succ p) == b * Qpower_positive b p.
Proof. rewrite <- Pos.add_1_l. rewrite Qpower_plus_positive. reflexivity. Qed.

Lemma Qpp_nonneg b p : 0 <= b -> 0 <= Qpower_positive b p.
Proof.
  intro H. induction p using Pos.peano_ind; [exact H|]. rewrite Qpower_pos_succ. apply Qmult_le_0_compat; auto.
Qed.
Lemma Qpp_mono a b p : 0 <= a -> a <= b -> Qpower_positive a p <= Qpower_positive b p.
Proof.
  intros Ha Hab. induction p using Pos.peano_ind; [exact Hab|]. rewrite !Qpower_pos_succ.
  pose proof (Qpp_nonneg a p Ha). nra.
Qed.
Lemma Qpp_strict a b p : 0 <= a -> a < b -> Qpower_positive a p < Qpower_positive b p.
Proof.
  intros Ha Hab. induction p using Pos.peano_ind; [exact Hab|]. rewrite !Qpower_pos_succ.
  pose proof (Qpp_nonneg a p Ha). nra.
Qed.
Lemma Qpp_one p : Qpower_positive 1 p == 1.
Proof. induction p using Pos.peano_ind; [reflexivity|]. rewrite Qpower_pos_succ, IHp. reflexivity. Qed.
Lemma Qpp_zero p : Qpower_positive 0 p == 0.
Proof. induction p using Pos.peano_ind; [reflexivity|]. rewrite Qpower_pos_succ. ring. Qed.
Lemma Qpp_eq a b p : a == b -> Qpower_positive a p == Qpower_positive b p.
Proof. intro H. rewrite H. reflexivity. Qed.

Lemma poly_ok t p bases e : t <> 0%Z ->
  poly_lr t (Zpos p) bases e = Ok (map (fun base => base * Qpower_positive (1 - Zq e / Zq t) p) bases).
Proof.
  intro Ht. unfold poly_lr. destruct (Z.eqb_spec t 0); [contradiction|]. rewrite andb_false_r. reflexivity.
Qed.

Lemma frac_le t e1 e2 : (0 < t)%Z -> (e1 <= e2)%Z -> Zq e1 / Zq t <= Zq e2 / Zq t.
Proof.
  intros Ht He. pose proof (Zq_pos t Ht). unfold Qdiv. apply Qmult_le_compat_r.
  - apply (proj1 (Zq_le e1 e2)); auto.
  - apply Qlt_le_weak. apply Qinv_lt_0_compat; auto.
Qed.
Lemma frac_lt t e1 e2 : (0 < t)%Z -> (e1 < e2)%Z -> Zq e1 / Zq t < Zq e2 / Zq t.
Proof.
  intros Ht He. pose proof (Zq_pos t Ht). unfold Qdiv. apply Qmult_lt_compat_r.
  - apply Qinv_lt_0_compat; auto.
  - apply (proj1 (Zq_lt e1 e2)); auto.
Qed.
Lemma frac_self t : (0 < t)%Z -> Zq t / Zq t == 1.
Proof. intro Ht. pose proof (Zq_pos t Ht). field. lra. Qed.
Lemma frac_zero t : (0 < t)%Z -> Zq 0 / Zq t == 0.
Proof. intro Ht. pose proof (Zq_pos t Ht). unfold Zq at 1. field. lra. Qed.

(** C36: PolynomialLR starts at the base rates, is 0 at epoch T_max, stays within [0, base] and
    never increases in between (strictly decreases for a positive base rate). *)
Theorem C36_polynomial : forall t_max power base_lrs,
  (0 < t_max)%Z -> (1 <= power)%Z -> Forall (fun b => 0 <= b) base_lrs ->
  exists rate : Z -> list Q,
    (forall e, poly_lr t_max power base_lrs e = Ok (rate e)) /\
    Forall2 Qeq (rate 0%Z) base_lrs /\
    Forall (fun r => r == 0) (rate t_max) /\ length (rate t_max) = length base_lrs /\
    (forall e1 e2, (0 <= e1 <= e2)%Z -> (e2 <= t_max)%Z ->
       Forall2 (fun r2 r1 => 0 <= r2 /\ r2 <= r1) (rate e2) (rate e1)) /\
    (forall e1 e2, (0 <= e1 < e2)%Z -> (e2 <= t_max)%Z -> Forall (fun b => 0 < b) base_lrs ->
       Forall2 Qlt (rate e2) (rate e1)).
Proof.
  intros t power bases Ht Hp Hb. destruct power as [|p|p]; try lia.
  exists (fun e => map (fun base => base * Qpower_positive (1 - Zq e / Zq t) p) bases).
  split; [intro e; apply poly_ok; lia|]. split; [|split; [|split; [|split]]].
  - clear Hb. induction bases as [|b bases IH]; simpl; constructor; auto.
    rewrite (Qpp_eq _ 1 p) by (rewrite frac_zero by auto; ring). rewrite Qpp_one. ring.
  - clear Hb. induction bases as [|b bases IH]; simpl; constructor; auto.
    rewrite (Qpp_eq _ 0 p) by (rewrite frac_self by auto; ring). rewrite Qpp_zero. ring.
  - rewrite map_length; auto.
  - intros e1 e2 H1 H2. pose proof (frac_le t e1 e2 Ht ltac:(lia)) as F.
    pose proof (frac_le t e2 t Ht ltac:(lia)) as G. rewrite (frac_self t Ht) in G.
    assert (M := Qpp_mono (1 - Zq e2 / Zq t) (1 - Zq e1 / Zq t) p ltac:(lra) ltac:(lra)).
    assert (N := Qpp_nonneg (1 - Zq e2 / Zq t) p ltac:(lra)).
    induction Hb as [|b bases Hb0 Hb IH]; simpl; constructor; auto. split; [|]; nra.
  - intros e1 e2 H1 H2 Hpos. pose proof (frac_lt t e1 e2 Ht ltac:(lia)) as F.
    pose proof (frac_le t e2 t Ht ltac:(lia)) as G. rewrite (frac_self t Ht) in G.
    assert (M := Qpp_strict (1 - Zq e2 / Zq t) (1 - Zq e1 / Zq t) p ltac:(lra) ltac:(lra)).
    clear Hb. induction Hpos as [|b bases Hb0 Hb IH]; simpl; constructor; auto. nra.
Qed.

(** C36: T_max = 0 divides by zero. *)
Theorem C36_polynomial_zero_length : forall power base_lrs e,
  poly_lr 0 power base_lrs e = Raise ZeroDivisionError.
Proof. reflexivity. Qed.

(** C36 (finding): the schedule is not clamped at T_max: for every even power the rate rises again
    after T_max, and for every odd power it becomes negative. *)
Theorem C36_polynomial_after_the_end_refuted : forall t_max base_lr k e,
  (0 < t_max)%Z -> 0 < base_lr -> (0 < k)%Z -> (t_max < e)%Z ->
  (exists r, poly_lr t_max (2 * k) [base_lr] e = Ok [r] /\ 0 < r) /\
  (exists r, poly_lr t_max (2 * k - 1) [base_lr] e = Ok [r] /\ r < 0).
Proof.
  intros t base k e Ht Hb Hk He.
  pose proof (frac_lt t t e Ht ltac:(lia)) as F. rewrite (frac_self t Ht) in F.
  set (b := 1 - Zq e / Zq t) in *. assert (Hneg : b < 0) by (unfold b; lra).
  assert (Heven : forall p, 0 < Qpower_positive b (p~0)).
  { intro p. simpl. assert (H : ~ Qpower_positive b p == 0).
    { induction p using Pos.peano_ind; [simpl; lra|]. rewrite Qpower_pos_succ. nra. }
    destruct (Qlt_le_dec 0 (Qpower_positive b p)); [nra|].
    destruct (Qlt_le_dec (Qpower_positive b p) 0); [nra|]. exfalso. apply H. lra. }
  destruct k as [|k|k]; try lia. split.
  - change (2 * Z.pos k)%Z with (Z.pos k~0). rewrite poly_ok by lia. eexists; split; [reflexivity|].
    fold b. pose proof (Heven k). nra.
  - destruct (Pos.eq_dec k 1) as [->|Hk1].
    + change (2 * 1 - 1)%Z with 1%Z. rewrite poly_ok by lia. eexists; split; [reflexivity|]. fold b. simpl. nra.
    + replace (2 * Z.pos k - 1)%Z with (Z.pos ((Pos.pred k)~1)) by lia.
      rewrite poly_ok by lia. eexists; split; [reflexivity|]. fold b.
      assert (H := Heven (Pos.pred k)). simpl in H. simpl.
      set (P := Qpower_positive b (Pos.pred k) * Qpower_positive b (Pos.pred k)) in *.
      assert (b * P < 0) by nra. nra.
Qed.

Example poly_case : exists r, poly_lr 10 2 [4] 5 = Ok [r] /\ r == 1.
Proof. eexists; split; [reflexivity|]. vm_compute. reflexivity. Qed.

Print Assumptions C36_multi_step_multi_gamma.
Print Assumptions C36_multi_gamma_errors.
Print Assumptions C36_multi_gamma_constant_between_milestones.
Print Assumptions C36_polynomial.
Print Assumptions C36_polynomial_zero_length.
Print Assumptions C36_polynomial_after_the_end_refuted.
