From Coq Require Import String List ZArith QArith Qabs Qround Qfield Bool Arith Lia Lqa Permutation.
From Verif Require Import Base Lists SchedModel SchedSpec PrunerModel.
Import ListNotations.

Lemma py_int_nonneg q : 0 <= q -> py_int q = Qfloor q.
Proof. intro H. unfold py_int. apply Qle_bool_iff in H. rewrite H. auto. Qed.

Lemma thr_nth t thr i d : (i < length t)%nat ->
  nth i (create_mask_threshold_criterion t thr) d = b2q (Qltb thr (Qabs (nth i t 0))).
Proof.
  intro H. unfold create_mask_threshold_criterion.
  rewrite nth_indep with (d' := b2q (Qltb thr (Qabs 0))) by (rewrite map_length; auto).
  rewrite map_nth with (f := fun x => b2q (Qltb thr (Qabs x))). auto.
Qed.

Lemma thr_length t thr : length (create_mask_threshold_criterion t thr) = length t.
Proof. apply map_length. Qed.

Lemma thr_binary t thr : binary (create_mask_threshold_criterion t thr).
Proof.
  unfold create_mask_threshold_criterion, binary. apply Forall_map. apply Forall_forall.
  intros x _. destruct (Qltb thr (Qabs x)); simpl; [right|left]; reflexivity.
Qed.

Definition is_zero (q : Q) : bool := Qeq_bool q 0.

Lemma thr_zeros t thr :
  countb is_zero (create_mask_threshold_criterion t thr) = countb (fun x => Qle_bool (Qabs x) thr) t.
Proof.
  unfold create_mask_threshold_criterion. rewrite countb_map. apply countb_ext. intros x _.
  unfold Qltb. destruct (Qle_bool (Qabs x) thr); reflexivity.
Qed.

Lemma last_elem_firstn l k : (1 <= k <= length l)%nat ->
  last_elem (firstn k l) = Ok (nth (k - 1) l 0).
Proof.
  intro H. unfold last_elem. destruct (rev (firstn k l)) as [|x r] eqn:E.
  - apply (f_equal (@length Q)) in E. rewrite rev_length, firstn_length in E. simpl in E. lia.
  - f_equal. assert (firstn k l = rev r ++ [x]) as E2.
    { rewrite <- (rev_involutive (firstn k l)), E. reflexivity. }
    rewrite <- (nth_firstn 0 k l (k - 1)) by lia. rewrite E2.
    assert (k - 1 = length (rev r))%nat as ->.
    { apply (f_equal (@length Q)) in E2. rewrite firstn_length, app_length in E2. simpl in E2. lia. }
    rewrite app_nth2 by lia. rewrite Nat.sub_diag. reflexivity.
Qed.

(** What the level criterion computes, for a non-negative requested level. *)
Lemma level_spec t s : 0 <= s ->
  let n := length t in let k := Qfloor (s * Zq (Z.of_nat n)) in
  create_mask_level_criterion t s =
    if Z.ltb (Z.of_nat n) k then Raise RuntimeError
    else if Z.eqb k 0 then Raise IndexError
    else Ok (create_mask_threshold_criterion t (nth (Z.to_nat k - 1) (qsort (map Qabs t)) 0)).
Proof.
  intros Hs n k. unfold create_mask_level_criterion.
  assert (0 <= s * Zq (Z.of_nat n)) as Hp.
  { apply Qmult_le_0_compat; auto. apply Zq_nonneg; lia. }
  rewrite py_int_nonneg by exact Hp. fold n k. unfold topk_smallest. rewrite map_length. fold n.
  assert (0 <= k)%Z as Hk. { unfold k. change 0%Z with (Qfloor 0). apply Qfloor_resp_le. auto. }
  destruct (Z.leb_spec 0 k) as [_|]; [|lia]. simpl.
  destruct (Z.leb_spec k (Z.of_nat n)), (Z.ltb_spec (Z.of_nat n) k); try lia; simpl; auto.
  destruct (Z.eqb_spec k 0) as [->|Hne]; simpl; auto.
  rewrite last_elem_firstn; auto. rewrite qsort_length, map_length. fold n. lia.
Qed.

Lemma countb_map_abs thr t :
  countb (fun x => Qle_bool (Qabs x) thr) t = countb (fun x => Qle_bool x thr) (map Qabs t).
Proof. rewrite countb_map. auto. Qed.

Lemma level_mask_inv t s m : 0 <= s -> create_mask_level_criterion t s = Ok m ->
  let k := Z.to_nat (Qfloor (s * Zq (Z.of_nat (length t)))) in
  (1 <= k <= length t)%nat /\
  m = create_mask_threshold_criterion t (nth (k - 1) (qsort (map Qabs t)) 0).
Proof.
  intros Hs H k. rewrite level_spec in H by auto.
  set (kz := Qfloor (s * Zq (Z.of_nat (length t)))) in *.
  assert (0 <= kz)%Z as Hk.
  { unfold kz. change 0%Z with (Qfloor 0). apply Qfloor_resp_le. apply Qmult_le_0_compat; auto.
    apply Zq_nonneg; lia. }
  destruct (Z.ltb_spec (Z.of_nat (length t)) kz); [discriminate|].
  destruct (Z.eqb_spec kz 0); [discriminate|]. injection H as <-. split; auto. lia.
Qed.

Lemma level_zeros_ge t s m : 0 <= s -> create_mask_level_criterion t s = Ok m ->
  (Z.to_nat (Qfloor (s * Zq (Z.of_nat (length t)))) <= countb is_zero m)%nat.
Proof.
  intros Hs H. destruct (level_mask_inv t s m Hs H) as [Hk ->]. rewrite thr_zeros, countb_map_abs.
  apply kth_count_ge. rewrite map_length. auto.
Qed.

Lemma level_zeros_eq t s m c : 0 <= s -> create_mask_level_criterion t s = Ok m ->
  let k := Z.to_nat (Qfloor (s * Zq (Z.of_nat (length t)))) in
  countb (fun x => Qle_bool (Qabs x) c) t = k -> countb is_zero m = k.
Proof.
  intros Hs H k Hc. destruct (level_mask_inv t s m Hs H) as [Hk E]. fold k in Hk, E.
  pose proof (level_zeros_ge t s m Hs H) as Hge. fold k in Hge. apply Nat.le_antisymm; auto.
  rewrite E, thr_zeros, countb_map_abs. rewrite countb_map_abs in Hc.
  set (thr := nth (k - 1) (qsort (map Qabs t)) 0) in *.
  assert (thr <= c) as Hle.
  { apply Qnot_lt_le. intro Hlt.
    pose proof (kth_count_lt (map Qabs t) k) as Hl. rewrite map_length in Hl. specialize (Hl Hk). fold thr in Hl.
    pose proof (countb_mono (fun x => Qle_bool x c) (fun x => Qltb x thr) (map Qabs t)) as Hm.
    assert (countb (fun x => Qle_bool x c) (map Qabs t) <= countb (fun x => Qltb x thr) (map Qabs t))%nat; [|lia].
    apply Hm. intros x _ Hx. apply Qltb_lt. apply Qle_bool_iff in Hx. lra. }
  rewrite <- Hc. apply countb_mono. intros x _ Hx. apply Qle_bool_iff. apply Qle_bool_iff in Hx. lra.
Qed.

Lemma level_order t s m i j : 0 <= s -> create_mask_level_criterion t s = Ok m ->
  (i < length t)%nat -> (j < length t)%nat ->
  nth i m 0 == 0 -> ~ nth j m 0 == 0 -> Qabs (nth i t 0) < Qabs (nth j t 0).
Proof.
  intros Hs H Hi Hj Zi Zj. destruct (level_mask_inv t s m Hs H) as [Hk ->].
  rewrite thr_nth in Zi, Zj by auto.
  destruct (Qltb _ (Qabs (nth i t 0))) eqn:Ei; [simpl in Zi; lra|].
  destruct (Qltb _ (Qabs (nth j t 0))) eqn:Ej; [|simpl in Zj; lra].
  apply Qltb_ge in Ei. apply Qltb_lt in Ej. lra.
Qed.

Lemma thr_mono t a b i : a <= b -> (i < length t)%nat ->
  nth i (create_mask_threshold_criterion t a) 0 == 0 -> nth i (create_mask_threshold_criterion t b) 0 == 0.
Proof.
  intros Hab Hi. rewrite !thr_nth by auto.
  destruct (Qltb a _) eqn:Ea; simpl; [intro; lra|]. intros _. apply Qltb_ge in Ea.
  destruct (Qltb b _) eqn:Eb; simpl; [|lra]. apply Qltb_lt in Eb. lra.
Qed.

Lemma level_mono t s s' m m' i : 0 <= s -> s <= s' ->
  create_mask_level_criterion t s = Ok m -> create_mask_level_criterion t s' = Ok m' ->
  (i < length t)%nat -> nth i m 0 == 0 -> nth i m' 0 == 0.
Proof.
  intros Hs Hle H H' Hi. destruct (level_mask_inv t s m Hs H) as [Hk ->].
  destruct (level_mask_inv t s' m' ltac:(lra) H') as [Hk' ->]. apply thr_mono; auto.
  apply kth_mono; [|rewrite map_length; lia]. split; [lia|].
  apply Z2Nat.inj_le.
  - change 0%Z with (Qfloor 0). apply Qfloor_resp_le. apply Qmult_le_0_compat; auto. apply Zq_nonneg; lia.
  - change 0%Z with (Qfloor 0). apply Qfloor_resp_le. apply Qmult_le_0_compat; [lra|]. apply Zq_nonneg; lia.
  - apply Qfloor_resp_le. apply Qmult_le_compat_r; auto. apply Zq_nonneg; lia.
Qed.

(** A zero weight is pruned by any non-negative threshold; the level threshold is one. *)
Lemma thr_zero t thr i : 0 <= thr -> (i < length t)%nat -> nth i t 0 == 0 ->
  nth i (create_mask_threshold_criterion t thr) 0 == 0.
Proof.
  intros Ht Hi Hz. rewrite thr_nth by auto.
  destruct (Qltb thr _) eqn:E; simpl; [|lra]. apply Qltb_lt in E. rewrite Hz in E. simpl in E.
  change (Qabs 0) with 0 in E. lra.
Qed.

Lemma level_zero t s m i : 0 <= s -> create_mask_level_criterion t s = Ok m ->
  (i < length t)%nat -> nth i t 0 == 0 -> nth i m 0 == 0.
Proof.
  intros Hs H Hi Hz. destruct (level_mask_inv t s m Hs H) as [Hk ->]. apply thr_zero; auto.
  set (k := Z.to_nat _) in *. assert (In (nth (k - 1) (qsort (map Qabs t)) 0) (map Qabs t)) as Hin.
  { apply qsort_nth_In. rewrite map_length. lia. }
  apply in_map_iff in Hin. destruct Hin as (x & <- & _). apply Qabs_nonneg.
Qed.

(* ------------------------------------------------------------------------- *)
(** ** AGP *)
Lemma agp_ok init final cur start en freq x :
  agp_step init final cur start en freq = Ok x ->
  freq <> 0%Z /\ (0 < (en - start - 1) / freq * freq)%Z /\
  x = final + (init - final) *
      ((1 - Zq (cur - start) / Zq ((en - start - 1) / freq * freq)) *
       (1 - Zq (cur - start) / Zq ((en - start - 1) / freq * freq)) *
       (1 - Zq (cur - start) / Zq ((en - start - 1) / freq * freq))).
Proof.
  unfold agp_step. destruct (Z.eqb_spec freq 0) as [|Hfz]; [discriminate|].
  destruct (Z.ltb_spec 0 ((en - start - 1) / freq * freq)) as [Hsp|]; [|discriminate].
  intro H; injection H as <-. auto.
Qed.

Lemma cube_mono a b : 0 <= b -> b <= a -> b * b * b <= a * a * a.
Proof.
  intros Hb Hab. assert (b * b <= a * a) by nra.
  assert (b * b * b <= a * a * b) by (apply Qmult_le_compat_r; auto).
  assert (a * a * b <= a * a * a).
  { rewrite (Qmult_comm (a * a) b), (Qmult_comm (a * a) a). apply Qmult_le_compat_r; auto. nra. }
  lra.
Qed.

Lemma cube_01 a : 0 <= a -> a <= 1 -> 0 <= a * a * a /\ a * a * a <= 1.
Proof.
  intros H0 H1. split.
  - pose proof (cube_mono a 0 (Qle_refl 0) H0). lra.
  - pose proof (cube_mono 1 a H0 H1). lra.
Qed.

Lemma frac_01 c s : (0 < s)%Z -> (0 <= c <= s)%Z -> 0 <= 1 - Zq c / Zq s /\ 1 - Zq c / Zq s <= 1.
Proof.
  intros Hs [H0 H1].
  assert (0 < Zq s) as P by (apply Zq_pos; auto).
  assert (0 <= Zq c / Zq s /\ Zq c / Zq s <= 1) as [A B]; [|lra].
  split.
  - apply Qle_shift_div_l; auto. rewrite Qmult_0_l. apply Zq_nonneg. auto.
  - apply Qle_shift_div_r; auto. rewrite Qmult_1_l. apply (proj1 (Zq_le _ _)). auto.
Qed.

Lemma frac_mono c c' s : (0 < s)%Z -> (c <= c')%Z -> 1 - Zq c' / Zq s <= 1 - Zq c / Zq s.
Proof.
  intros Hs H. assert (0 < Zq s) as P by (apply Zq_pos; auto).
  assert (Zq c / Zq s <= Zq c' / Zq s); [|lra].
  unfold Qdiv. apply Qmult_le_compat_r; [apply (proj1 (Zq_le _ _)); auto|]. apply Qlt_le_weak, Qinv_lt_0_compat; auto.
Qed.

Lemma agp_first init final start en freq x :
  agp_step init final start start en freq = Ok x -> x == init.
Proof.
  intro H. apply agp_ok in H. destruct H as (_ & Hs & ->).
  set (sp := ((en - start - 1) / freq * freq)%Z) in *.
  rewrite Z.sub_diag. assert (Zq 0 / Zq sp == 0) as ->.
  { unfold Qdiv. change (Zq 0) with 0. ring. }
  ring.
Qed.

Lemma agp_last init final start en freq x :
  agp_step init final (start + (en - start - 1) / freq * freq) start en freq = Ok x -> x == final.
Proof.
  intro H. apply agp_ok in H. destruct H as (_ & Hs & ->).
  set (sp := ((en - start - 1) / freq * freq)%Z) in *.
  replace (start + sp - start)%Z with sp by lia.
  assert (~ Zq sp == 0) by (intro E; change 0 with (Zq 0) in E; apply Zq_inj in E; lia).
  assert (Zq sp / Zq sp == 1) as -> by (field; auto).
  ring.
Qed.

Lemma agp_mono init final start en freq c c' x x' :
  init <= final -> (start <= c)%Z -> (c <= c')%Z -> (c' <= start + (en - start - 1) / freq * freq)%Z ->
  agp_step init final c start en freq = Ok x -> agp_step init final c' start en freq = Ok x' ->
  init <= x /\ x <= x' /\ x' <= final.
Proof.
  intros Hif H1 H2 H3 H H'. apply agp_ok in H, H'. destruct H as (_ & Hs & ->), H' as (_ & _ & ->).
  set (sp := ((en - start - 1) / freq * freq)%Z) in *.
  pose proof (frac_01 (c - start) sp Hs ltac:(lia)) as [A0 A1].
  pose proof (frac_01 (c' - start) sp Hs ltac:(lia)) as [B0 B1].
  pose proof (frac_mono (c - start) (c' - start) sp Hs ltac:(lia)) as M.
  set (a := 1 - Zq (c - start) / Zq sp) in *. set (b := 1 - Zq (c' - start) / Zq sp) in *.
  pose proof (cube_mono a b B0 M). pose proof (cube_01 a A0 A1). pose proof (cube_01 b B0 B1).
  set (ca := a * a * a) in *. set (cb := b * b * b) in *. repeat split; nra.
Qed.

Lemma agp_defined init final c start en freq : (0 < freq)%Z ->
  ((exists x, agp_step init final c start en freq = Ok x) <-> (freq < en - start)%Z).
Proof.
  intro Hf. unfold agp_step. destruct (Z.eqb_spec freq 0); [lia|].
  pose proof (Z.mul_div_le (en - start - 1) freq Hf) as Hd.
  pose proof (Z.mod_pos_bound (en - start - 1) freq Hf).
  pose proof (Z.div_mod (en - start - 1) freq ltac:(lia)).
  destruct (Z.ltb_spec 0 ((en - start - 1) / freq * freq)) as [Hp|Hp]; split; intro H1; try lia.
  - assert (0 < (en - start - 1) / freq)%Z by (apply (Z.mul_pos_cancel_r _ freq); lia).
    assert (1 * freq <= (en - start - 1) / freq * freq)%Z by (apply Z.mul_le_mono_nonneg_r; lia). lia.
  - eauto.
  - destruct H1; discriminate.
Qed.

(* ------------------------------------------------------------------------- *)
(** ** Baidu *)
Lemma baidu_slopes_pos c start en freq sl :
  0 < ba_q c -> (0 < freq)%Z -> (ba_offset c < 3 * (en - start))%Z -> 0 <= ba_mult c ->
  baidu_slopes c start en freq = Ok sl -> 0 < fst sl /\ 0 <= snd sl.
Proof.
  intros Hq Hf Ho Hm H. unfold baidu_slopes in H. cbv zeta in H.
  set (den := (2 * (ba_offset c + start - start) + 3 * (en - (ba_offset c + start)))%Z) in *.
  destruct (Z.eqb den 0); [discriminate|].
  assert (0 < 2 * ba_q c * Zq freq / Zq den) as P.
  { apply Qlt_shift_div_l; [apply Zq_pos; unfold den; lia|]. rewrite Qmult_0_l. apply Qmult_lt_0_compat; [lra|apply Zq_pos; auto]. }
  injection H as <-. cbn [fst snd]. split; [exact P|]. apply Qmult_le_0_compat; [apply Qlt_le_weak; exact P|exact Hm].
Qed.

Lemma baidu_eps_mono c sl cur cur' start freq :
  0 < fst sl -> 0 <= snd sl -> (0 < freq)%Z -> (0 <= ba_offset c)%Z ->
  (start <= cur)%Z -> (cur <= cur')%Z ->
  0 < baidu_eps c sl cur start freq /\ baidu_eps c sl cur start freq <= baidu_eps c sl cur' start freq.
Proof.
  intros H1 H2 Hf Ho Hc Hcc. unfold baidu_eps. set (ramp := (ba_offset c + start)%Z).
  pose proof (Zq_pos freq Hf) as Pf.
  assert (forall a b, a <= b -> a / Zq freq <= b / Zq freq) as Hdiv.
  { intros a b Hab. unfold Qdiv. apply Qmult_le_compat_r; auto. apply Qlt_le_weak, Qinv_lt_0_compat; auto. }
  assert (forall a, 0 < a -> 0 < a / Zq freq) as Hpos.
  { intros a Ha. apply Qlt_shift_div_l; [exact Pf|lra]. }
  destruct (Z.ltb_spec cur ramp), (Z.ltb_spec cur' ramp); try lia.
  - split.
    + apply Hpos. pose proof (Zq_pos (cur - start + 1) ltac:(lia)). nra.
    + apply Hdiv. pose proof (proj1 (Zq_le (cur - start + 1) (cur' - start + 1)) ltac:(lia)). nra.
  - split.
    + apply Hpos. pose proof (Zq_pos (cur - start + 1) ltac:(lia)). nra.
    + apply Hdiv. pose proof (proj1 (Zq_le (cur - start + 1) (ramp - start + 1)) ltac:(lia)).
      pose proof (Zq_nonneg (cur' - ramp + 1) ltac:(lia)). nra.
  - split.
    + apply Hpos. pose proof (Zq_pos (ramp - start + 1) ltac:(lia)). pose proof (Zq_nonneg (cur - ramp + 1) ltac:(lia)). nra.
    + apply Hdiv. pose proof (proj1 (Zq_le (cur - ramp + 1) (cur' - ramp + 1)) ltac:(lia)). nra.
Qed.
