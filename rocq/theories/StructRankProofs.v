(** Ranking of structures. *)
From Coq Require Import String List ZArith QArith Qabs Qround Bool Arith Lia Lqa Permutation.
From Verif Require Import Base Lists SchedModel PrunerModel PrunerProofs StructModel StructSpec StructProofs.
Import ListNotations.

Lemma count_below_tab n (s : nat -> Q) f : count_below n (fun i => f (s i)) = countb f (tab n s).
Proof. unfold count_below, tab. rewrite countb_map. auto. Qed.

Lemma count_below_ext n f g : (forall i, (i < n)%nat -> f i = g i) -> count_below n f = count_below n g.
Proof. intro H. apply countb_ext. intros i Hi. apply in_seq in Hi. apply H. lia. Qed.

Definition keep_map (thr : Q) (mags : list Q) : list Q := map (fun m => b2q (Qltb thr m)) mags.

Lemma keep_map_01 thr mags : zero_one (keep_map thr mags).
Proof.
  intros x Hx. apply in_map_iff in Hx. destruct Hx as (m & <- & _). destruct (Qltb thr m); simpl; auto.
Qed.

Lemma off_keep_map thr n s i : (i < n)%nat -> off (keep_map thr (tab n s)) i = Qle_bool (s i) thr.
Proof.
  intro Hi. unfold off, keep_map, tab. rewrite map_map.
  change (map (fun x => b2q (Qltb thr (s x))) (seq 0 n)) with (tab n (fun x => b2q (Qltb thr (s x)))).
  rewrite tab_nth by auto. unfold Qltb. destruct (Qle_bool (s i) thr); reflexivity.
Qed.

Lemma topk_ok mags k : (1 <= k <= length mags)%nat ->
  (do bk <- topk_smallest mags (Z.of_nat k); keep_above mags bk) =
  Ok (keep_map (nth (k - 1) (qsort mags) 0) mags).
Proof.
  intro Hk. unfold topk_smallest.
  assert (Z.leb 0 (Z.of_nat k) && Z.leb (Z.of_nat k) (Z.of_nat (length mags)) = true) as ->.
  { apply andb_true_iff. split; apply Z.leb_le; lia. }
  simpl bind. rewrite Nat2Z.id. unfold keep_above.
  rewrite last_elem_firstn by (rewrite qsort_length; auto). reflexivity.
Qed.

Lemma rank_weakest n k s : (1 <= k <= n)%nat ->
  weakest n k s (off (keep_map (nth (k - 1) (qsort (tab n s)) 0) (tab n s))).
Proof.
  intro Hk. set (thr := nth (k - 1) (qsort (tab n s)) 0).
  assert (Hc : count_below n (off (keep_map thr (tab n s))) = countb (fun x => Qle_bool x thr) (tab n s)).
  { rewrite <- count_below_tab. apply count_below_ext. intros i Hi. apply off_keep_map; auto. }
  assert (Hge : (k <= countb (fun x => Qle_bool x thr) (tab n s))%nat).
  { apply kth_count_ge. rewrite tab_length; auto. }
  split; [rewrite Hc; auto|split; [|split]].
  - intros c Hcc. rewrite Hc. apply Nat.le_antisymm; auto.
    rewrite count_below_tab with (f := fun x => Qle_bool x c) in Hcc.
    assert (thr <= c) as Hle.
    { destruct (Qlt_le_dec c thr) as [Hlt|]; auto. exfalso.
      pose proof (kth_count_lt (tab n s) k ltac:(rewrite tab_length; auto)) as Hl. fold thr in Hl.
      assert (countb (fun x => Qle_bool x c) (tab n s) <= countb (fun x => Qltb x thr) (tab n s))%nat; [|lia].
      apply countb_mono. intros x _ Hx. apply Qle_bool_iff in Hx. apply Qltb_lt. lra. }
    rewrite <- Hcc. apply countb_mono. intros x _ Hx. apply Qle_bool_iff in Hx. apply Qle_bool_iff. lra.
  - intros i j Hi Hj Hri Hrj. rewrite off_keep_map in Hri, Hrj by auto.
    apply Qle_bool_iff in Hri. apply Qle_bool_ngt in Hrj. lra.
  - intros i Hi Hri. rewrite off_keep_map in Hri by auto. apply Qle_bool_iff in Hri.
    rewrite (count_below_tab n s (fun x => Qltb x (s i))).
    pose proof (kth_count_lt (tab n s) k ltac:(rewrite tab_length; auto)) as Hl. fold thr in Hl.
    eapply Nat.le_lt_trans; [|exact Hl]. apply countb_mono. intros x _ Hx. apply Qltb_lt in Hx. apply Qltb_lt. lra.
Qed.

Lemma weakest_scale n k s N r : 0 < N -> weakest n k (fun i => s i / N) r -> weakest n k s r.
Proof.
  intros HN (A & B & C & D). split; auto. split; [|split].
  - intros c Hc. apply (B (c / N)). rewrite <- Hc. apply count_below_ext. intros i _.
    apply eq_true_iff_eq. rewrite !Qle_bool_iff. split; intro H.
    + apply (Qmult_le_r _ _ (/ N)); [apply Qinv_lt_0_compat; auto|]. exact H.
    + apply (Qmult_le_r _ _ (/ N)) in H; [exact H|apply Qinv_lt_0_compat; auto].
  - intros i j Hi Hj Hri Hrj. specialize (C i j Hi Hj Hri Hrj).
    apply (Qmult_lt_r _ _ (/ N)); [apply Qinv_lt_0_compat; auto|]. exact C.
  - intros i Hi Hr. specialize (D i Hi Hr). eapply Nat.le_lt_trans; [|exact D]. apply countb_mono. intros j _ Hj.
    apply Qltb_lt in Hj. apply Qltb_lt. apply (Qmult_lt_r _ _ (/ N)); [apply Qinv_lt_0_compat; auto|]. exact Hj.
Qed.

Lemma weakest_ext n k s s' r : (forall i, (i < n)%nat -> s i = s' i) -> weakest n k s r -> weakest n k s' r.
Proof.
  intros E (A & B & C & D). split; auto. split; [|split].
  - intros c Hc. apply (B c). rewrite <- Hc. apply count_below_ext. intros i Hi. rewrite E; auto.
  - intros i j Hi Hj. rewrite <- !E by auto. apply C; auto.
  - intros i Hi Hr. specialize (D i Hi Hr). erewrite count_below_ext; [exact D|]. intros j Hj. cbv beta. rewrite !E by auto. reflexivity.
Qed.

(** ** the number of structures *)
Lemma floor_Zq z : Qfloor (Zq z) = z.
Proof. apply Qfloor_Z. Qed.

Lemma Qfloor_le' x y : x <= y -> (Qfloor x <= Qfloor y)%Z.
Proof. apply Qfloor_resp_le. Qed.

Lemma num_structs_multiple n gl f rf q : (1 <= gl)%nat -> n = (q * gl)%nat ->
  exists m : Z, num_structs_to_prune n gl f rf = (m * Z.of_nat gl)%Z.
Proof.
  intros Hg Hn. unfold num_structs_to_prune.
  match goal with |- context [if ?c then _ else _] => destruct c end; [|eexists; reflexivity].
  exists (Z.of_nat q - 1)%Z. rewrite Hn. rewrite Nat2Z.inj_mul. ring.
Qed.

(** rounding functions: monotone and exact on integers (floor, ceil, round) *)
Definition rounding (rf : Q -> Z) : Prop :=
  (forall x y, x <= y -> (rf x <= rf y)%Z) /\ (forall z, rf (Zq z) = z).

Lemma rounding_floor : rounding Qfloor.
Proof. split; [exact Qfloor_le'|exact floor_Zq]. Qed.

Lemma num_structs_bounds n gl f rf q : (1 <= gl)%nat -> n = (q * gl)%nat -> (1 <= q)%nat ->
  rounding rf -> 0 <= f -> f <= 1 ->
  let k := num_structs_to_prune n gl f rf in
  (0 <= k <= Z.of_nat n)%Z /\ (~ f == 1 -> (k <= Z.of_nat n - Z.of_nat gl)%Z).
Proof.
  intros Hg Hn Hq [Hm Hi] Hf0 Hf1 k.
  assert (Hng : 0 < Zq (Z.of_nat gl)) by (apply Zq_pos; lia).
  assert (Hnn : 0 <= Zq (Z.of_nat n)) by (apply Zq_nonneg; lia).
  set (n1 := rf (f * Zq (Z.of_nat n))).
  assert (H1 : (0 <= n1 <= Z.of_nat n)%Z).
  { unfold n1. split.
    - rewrite <- (Hi 0%Z). apply Hm. change (Zq 0) with 0. apply Qmult_le_0_compat; auto.
    - rewrite <- (Hi (Z.of_nat n)) at 2. apply Hm. rewrite <- (Qmult_1_l (Zq (Z.of_nat n))) at 2.
      apply Qmult_le_compat_r; auto. }
  set (r := rf (Zq n1 / Zq (Z.of_nat gl))).
  assert (H2 : (0 <= r <= Z.of_nat q)%Z).
  { unfold r. split.
    - rewrite <- (Hi 0%Z). apply Hm. change (Zq 0) with 0. apply Qle_shift_div_l; auto.
      ring_simplify. apply Zq_nonneg. lia.
    - rewrite <- (Hi (Z.of_nat q)). apply Hm. apply Qle_shift_div_r; auto.
      rewrite <- Zq_mult. apply (proj1 (Zq_le _ _)). rewrite <- Nat2Z.inj_mul, <- Hn. lia. }
  assert (H3 : (0 <= r * Z.of_nat gl <= Z.of_nat n)%Z) by (rewrite Hn, Nat2Z.inj_mul; nia).
  unfold k, num_structs_to_prune. fold n1. fold r.
  destruct (Z.eqb_spec (r * Z.of_nat gl) (Z.of_nat n)) as [E|E]; simpl.
  - destruct (Qeq_bool f 1) eqn:Ef; simpl.
    + split; [lia|]. intro Hne. apply Qeq_bool_iff in Ef. contradiction.
    + split; [|lia]. rewrite Hn, Nat2Z.inj_mul. nia.
  - split; [lia|]. intros _.
    assert (r <> Z.of_nat q) by (intro; subst r; apply E; rewrite H, Hn, Nat2Z.inj_mul; ring).
    rewrite Hn, Nat2Z.inj_mul. nia.
Qed.

(** group_len = 1 with floor: floor(f * n) *)
Lemma num_structs_one n f : 0 <= f -> f <= 1 -> (1 <= n)%nat ->
  num_structs_to_prune n 1 f Qfloor = Qfloor (f * Zq (Z.of_nat n)).
Proof.
  intros H0 H1 Hn. unfold num_structs_to_prune.
  assert (E : (Qfloor (Zq (Qfloor (f * Zq (Z.of_nat n))) / Zq (Z.of_nat 1))%Q * Z.of_nat 1)%Z =
              Qfloor (f * Zq (Z.of_nat n))).
  { replace (Z.of_nat 1) with 1%Z by reflexivity. rewrite Z.mul_1_r.
    assert (Zq (Qfloor (f * Zq (Z.of_nat n))) / Zq 1 == Zq (Qfloor (f * Zq (Z.of_nat n)))) as -> by (change (Zq 1) with 1; field).
    apply floor_Zq. }
  rewrite E. destruct (Z.eqb_spec (Qfloor (f * Zq (Z.of_nat n))) (Z.of_nat n)) as [E1|]; auto.
  destruct (Qeq_bool f 1) eqn:Ef; auto. exfalso.
  assert (Hf : f < 1).
  { destruct (Qlt_le_dec f 1); auto. exfalso. assert (f == 1) as K by lra. apply Qeq_bool_iff in K. congruence. }
  pose proof (Qfloor_le (f * Zq (Z.of_nat n))) as Hfl. rewrite E1 in Hfl. fold (Zq (Z.of_nat n)) in Hfl.
  assert (0 < Zq (Z.of_nat n)) by (apply Zq_pos; lia).
  assert (f * Zq (Z.of_nat n) < 1 * Zq (Z.of_nat n)) by (apply Qmult_lt_r; auto). lra.
Qed.

Lemma topk_raises mags k : (k < 0 \/ Z.of_nat (length mags) < k)%Z -> topk_smallest mags k = Raise RuntimeError.
Proof.
  intro H. unfold topk_smallest.
  destruct (Z.leb_spec 0 k), (Z.leb_spec k (Z.of_nat (length mags))); simpl; auto; lia.
Qed.
