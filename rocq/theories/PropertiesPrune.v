(** Properties C12-C17: element-wise pruning criteria and schedules. *)
From Coq Require Import String List ZArith QArith Qabs Qround Bool Arith Lia Lqa.
From Verif Require Import Base Lists SchedModel SchedSpec SchedProofs SchedMaskProofs SchedPolicyProofs2
  SchedTightProofs PrunerModel PrunerSpec PrunerProofs PrunerHistProofs.
Import ListNotations.

(** Number of zero entries of a tensor. *)
Definition zeros (t : tensor) : nat := countb (fun x => Qeq_bool x 0) t.

(* ------------------------------------------------------------------------- *)
(** * C12: threshold masks *)
Theorem C12_threshold_mask :
  forall t thr i, (i < length t)%nat ->
  length (create_mask_threshold_criterion t thr) = length t /\
  (thr < Qabs (nth i t 0) -> nth i (create_mask_threshold_criterion t thr) 0 == 1) /\
  (Qabs (nth i t 0) <= thr -> nth i (create_mask_threshold_criterion t thr) 0 == 0).
Proof.
  intros t thr i Hi. split; [apply thr_length|]. rewrite thr_nth by auto. split; intro H.
  - apply Qltb_lt in H. rewrite H. reflexivity.
  - apply Qltb_ge in H. rewrite H. reflexivity.
Qed.

Theorem C12_larger_threshold_prunes_more :
  forall t a b i, a <= b -> (i < length t)%nat ->
  nth i (create_mask_threshold_criterion t a) 0 == 0 ->
  nth i (create_mask_threshold_criterion t b) 0 == 0.
Proof. exact thr_mono. Qed.

(** MagnitudeParameterPruner: the parameter's own threshold, else the default '*', which is
    mandatory. *)
Theorem C12_magnitude_pruner :
  forall thresholds n t me mask,
  (magnitude_ctor thresholds = Ok thresholds <-> In "*"%string (dkeys thresholds)) /\
  (forall d, dget thresholds "*" = Some d ->
   magnitude_pruner thresholds tt me n t mask =
   Ok (tt, Some (create_mask_threshold_criterion t
                   (match dget thresholds n with Some x => x | None => d end)))).
Proof.
  intros thresholds n t me mask. split.
  - unfold magnitude_ctor, dmem. destruct (dget thresholds "*") eqn:E; split; intro H; auto; try discriminate.
    + eapply dget_Some_In; eauto.
    + exfalso. apply dget_None_notin in E. auto.
  - intros d Hd. unfold magnitude_pruner. rewrite Hd. reflexivity.
Qed.

Example C12_example :
  create_mask_threshold_criterion [-(3); 1; 2; 0] 2 = [1; 0; 0; 0].
Proof. reflexivity. Qed.

(* ------------------------------------------------------------------------- *)
(** * C13: level pruning *)
(** [int(s * n)] elements are asked for. *)
Definition requested (s : Q) (t : tensor) : nat := Z.to_nat (Qfloor (s * Zq (Z.of_nat (length t)))).

Theorem C13_level_criterion :
  forall t s m, 0 <= s -> create_mask_level_criterion t s = Ok m ->
  length m = length t /\ binary m /\
  (requested s t <= zeros m)%nat /\
  (forall c, countb (fun x => Qle_bool (Qabs x) c) t = requested s t -> zeros m = requested s t) /\
  (forall i j, (i < length t)%nat -> (j < length t)%nat ->
     nth i m 0 == 0 -> nth j m 0 == 1 -> Qabs (nth i t 0) < Qabs (nth j t 0)).
Proof.
  intros t s m Hs H. destruct (level_mask_inv t s m Hs H) as [Hk E].
  split; [rewrite E; apply thr_length|]. split; [rewrite E; apply thr_binary|].
  split; [apply (level_zeros_ge t s m Hs H)|]. split.
  - intros c Hc. apply (level_zeros_eq t s m c Hs H). exact Hc.
  - intros i j Hi Hj Zi Zj. apply (level_order t s m i j Hs H Hi Hj Zi). lra.
Qed.

(** Only ties at the boundary make it prune more: fewer than the requested number of pruned
    magnitudes lie strictly below the largest pruned one. *)
Theorem C13_over_pruning_only_by_ties :
  forall t s m, 0 <= s -> create_mask_level_criterion t s = Ok m ->
  exists thr, In thr (map Qabs t) /\ m = create_mask_threshold_criterion t thr /\
    (countb (fun x => Qltb (Qabs x) thr) t < requested s t)%nat.
Proof.
  intros t s m Hs H. destruct (level_mask_inv t s m Hs H) as [Hk E]. eexists. split; [|split; [exact E|]].
  - apply qsort_nth_In. rewrite map_length. lia.
  - rewrite <- (countb_map (fun x => Qltb x (nth (Z.to_nat (Qfloor (s * Zq (Z.of_nat (length t)))) - 1) (qsort (map Qabs t)) 0%Q)) Qabs t).
    apply kth_count_lt. rewrite map_length. auto.
Qed.

Theorem C13_larger_level_prunes_more :
  forall t s s' m m' i, 0 <= s -> s <= s' ->
  create_mask_level_criterion t s = Ok m -> create_mask_level_criterion t s' = Ok m' ->
  (i < length t)%nat -> nth i m 0 == 0 -> nth i m' 0 == 0.
Proof. exact level_mono. Qed.

(** When the call raises: a level so small that nothing is to be pruned is an IndexError
    (finding), a level above 1 a RuntimeError. *)
Theorem C13_level_criterion_raises :
  forall t s, 0 <= s ->
  (requested s t = 0%nat -> create_mask_level_criterion t s = Raise IndexError) /\
  ((length t < requested s t)%nat -> create_mask_level_criterion t s = Raise RuntimeError) /\
  ((1 <= requested s t <= length t)%nat -> exists m, create_mask_level_criterion t s = Ok m).
Proof.
  intros t s Hs. pose proof (level_spec t s Hs) as E. cbv zeta in E. unfold requested.
  set (k := Qfloor (s * Zq (Z.of_nat (length t)))) in *.
  assert (0 <= k)%Z as Hk.
  { unfold k. change 0%Z with (Qfloor 0). apply Qfloor_resp_le. apply Qmult_le_0_compat; auto. apply Zq_nonneg. lia. }
  rewrite E. destruct (Z.ltb_spec (Z.of_nat (length t)) k), (Z.eqb_spec k 0); repeat split; intro; auto; try lia; eauto.
Qed.

(** SparsityLevelParameterPruner. *)
Theorem C13_level_pruner :
  forall levels n t me mask,
  let s := match dget levels n with Some x => x | None =>
             match dget levels "*" with Some x => x | None => 0 end end in
  (s == 0 -> level_pruner levels tt me n t mask = Ok (tt, mask)) /\
  (~ s == 0 -> forall m, create_mask_level_criterion t s = Ok m ->
     level_pruner levels tt me n t mask = Ok (tt, Some m)).
Proof.
  intros levels n t me mask s. unfold level_pruner. fold s. split.
  - intro H. apply Qeq_bool_iff in H. rewrite H. auto.
  - intros H m Hm. destruct (Qeq_bool s 0) eqn:E; [apply Qeq_bool_iff in E; contradiction|].
    rewrite Hm. auto.
Qed.

Example C13_example :
  create_mask_level_criterion [4; -(1); 3; 2] (1 # 2) = Ok [1; 0; 1; 0] /\
  countb (fun x => Qle_bool (Qabs x) 2) [4; -(1); 3; 2] = requested (1 # 2) [4; -(1); 3; 2] /\
  create_mask_level_criterion [1; 1; 1] (1 # 3) = Ok [0; 0; 0] /\
  create_mask_level_criterion [1; 2; 3] (1 # 4) = Raise IndexError.
Proof. vm_compute. auto. Qed.

(* ------------------------------------------------------------------------- *)
(** * C14: the AGP schedule *)
(** The epochs at which a policy added with (start, end, freq) runs. *)
Definition scheduled (start en freq e : Z) : Prop := (start <= e < en)%Z /\ (freq | e - start)%Z.
Definition last_scheduled (start en freq e : Z) : Prop :=
  scheduled start en freq e /\ forall e', scheduled start en freq e' -> (e' <= e)%Z.

Lemma scheduled_le_last start en freq e : (0 < freq)%Z -> scheduled start en freq e ->
  (e <= start + (en - start - 1) / freq * freq)%Z.
Proof.
  intros Hf [[H1 H2] [q Hq]].
  assert (q <= (en - start - 1) / freq)%Z by (apply Z.div_le_lower_bound; lia). nia.
Qed.

Lemma last_scheduled_is start en freq e : (0 < freq)%Z -> last_scheduled start en freq e ->
  e = (start + (en - start - 1) / freq * freq)%Z.
Proof.
  intros Hf [Hs Hl]. apply Z.le_antisymm; [apply scheduled_le_last; auto|].
  apply Hl. destruct Hs as [[H1 H2] _].
  pose proof (Z.mul_div_le (en - start - 1) freq Hf).
  assert (0 <= (en - start - 1) / freq)%Z by (apply Z.div_pos; lia).
  split; [|exists ((en - start - 1) / freq)%Z; lia]. split; [nia|lia].
Qed.

Theorem C14_agp_schedule :
  forall init final start en freq c x,
  init < final -> (0 < freq)%Z -> scheduled start en freq c ->
  agp_step init final c start en freq = Ok x ->
  init <= x /\ x <= final /\
  (c = start -> x == init) /\
  (last_scheduled start en freq c -> x == final) /\
  (forall c' x', (c <= c')%Z -> scheduled start en freq c' ->
     agp_step init final c' start en freq = Ok x' -> x <= x').
Proof.
  intros init final start en freq c x Hif Hf Hs H.
  pose proof (scheduled_le_last start en freq c Hf Hs) as Hl. destruct Hs as [[Hs1 Hs2] Hdiv].
  destruct (agp_mono init final start en freq c c x x ltac:(lra) Hs1 ltac:(lia) Hl H H) as (A & _ & B).
  split; auto. split; auto. split; [|split].
  - intros ->. eapply agp_first; eauto.
  - intro HL. apply last_scheduled_is in HL; auto. subst c. eapply agp_last; eauto.
  - intros c' x' Hcc Hs' H'. pose proof (scheduled_le_last start en freq c' Hf Hs') as Hl'.
    apply (agp_mono init final start en freq c c' x x'); auto; lra.
Qed.

(** The exact rate: between two consecutive scheduled epochs the remaining gap to the final
    sparsity shrinks cubically with the share of the schedule already done. *)
Theorem C14_agp_formula :
  forall init final start en freq c last x,
  (0 < freq)%Z -> last_scheduled start en freq last -> (start < last)%Z ->
  agp_step init final c start en freq = Ok x ->
  x == final + (init - final) * ((Zq last - Zq c) / (Zq last - Zq start))
                              * ((Zq last - Zq c) / (Zq last - Zq start))
                              * ((Zq last - Zq c) / (Zq last - Zq start)).
Proof.
  intros init final start en freq c last x Hf HL Hlt H. apply last_scheduled_is in HL; auto.
  unfold agp_step in H. destruct (Z.eqb_spec freq 0); [lia|].
  set (sp := ((en - start - 1) / freq * freq)%Z) in *.
  destruct (Z.ltb_spec 0 sp); [|discriminate]. injection H as <-.
  assert (Hl : Zq last == Zq start + Zq sp) by (rewrite <- Zq_plus, HL; reflexivity).
  assert (0 < Zq sp) by (apply Zq_pos; lia).
  rewrite Hl, Zq_minus. field. lra.
Qed.

(** The constructor accepts exactly the pairs with initial_sparsity < final_sparsity. *)
Theorem C14_agp_ctor :
  forall init final, (init < final -> agp_ctor init final = Ok (init, final)) /\
                     (final <= init -> agp_ctor init final = Raise AssertionError).
Proof.
  intros init final. unfold agp_ctor. split; intro H.
  - apply Qltb_lt in H. rewrite H. auto.
  - apply Qltb_ge in H. rewrite H. auto.
Qed.

(** The rate is defined (no AssertionError) iff the schedule has at least two epochs.  A
    frequency equal to end - start passes add_policy's checks but not AGP's (finding). *)
Theorem C14_agp_needs_two_epochs :
  forall init final c start en freq, (0 < freq)%Z ->
  ((exists x, agp_step init final c start en freq = Ok x) <->
   exists e e', scheduled start en freq e /\ scheduled start en freq e' /\ (e < e')%Z).
Proof.
  intros init final c start en freq Hf. rewrite agp_defined by auto. split.
  - intro H. exists start, (start + freq)%Z. unfold scheduled. repeat split; try lia.
    + exists 0%Z. lia.
    + exists 1%Z. lia.
  - intros (e & e' & [[A B] [q1 C]] & [[D E] [q2 F]] & G).
    assert (Hq : (q1 < q2)%Z) by (apply (proj2 (Z.mul_lt_mono_pos_r freq q1 q2 Hf)); lia).
    assert (1 * freq <= (q2 - q1) * freq)%Z by (apply Z.mul_le_mono_nonneg_r; lia).
    lia.
Qed.

Theorem C14_single_epoch_refuted :
  (exists s, add_policy new_sched (mkAdd 0 None (Some 0%Z) (Some 3%Z) (Some 3%Z)) = Ok s) /\
  agp_step (1 # 10) (1 # 2) 0 0 3 3 = Raise AssertionError /\
  agp_target (1 # 10) (1 # 2) (mkMeta 0 3 None (Some 1%Z)) = Raise TypeError.
Proof. split; [eexists; vm_compute; reflexivity|]. vm_compute. auto. Qed.

(** The pruner: in every scheduled epoch a listed parameter gets the level mask of the
    epoch's target; at the last scheduled epoch at least the requested share of
    final_sparsity is pruned. Other parameters keep their masks. *)
Theorem C14_agp_pruner :
  forall weights init final me t mask n r,
  agp_pruner weights init final tt me n t mask = Ok r ->
  (~ In n weights -> snd r = mask) /\
  (In n weights -> exists s m, agp_target init final me = Ok s /\
     create_mask_level_criterion t s = Ok m /\ snd r = Some m /\
     (forall freq e, me_freq me = Some freq -> me_cur me = Some e -> (0 < freq)%Z -> 0 <= init -> init < final ->
        scheduled (me_start me) (me_end me) freq e ->
        (requested init t <= zeros m)%nat /\
        (last_scheduled (me_start me) (me_end me) freq e -> (requested final t <= zeros m)%nat))).
Proof.
  intros weights init final me t mask n r H. unfold agp_pruner in H.
  destruct (existsb (String.eqb n) weights) eqn:E.
  - apply existsb_exists in E. destruct E as (y & Hy & Ey). apply String.eqb_eq in Ey. subst y.
    split; [contradiction|]. intros _. inv_bind H. inv_bind H. injection H as <-.
    exists x, x0. split; auto. split; auto. split; auto.
    intros freq e Hf He Hfp Hi Hif Hs. unfold agp_target in H0. rewrite He, Hf in H0.
    destruct (C14_agp_schedule init final (me_start me) (me_end me) freq e x Hif Hfp Hs H0) as (A & B & _ & D & _).
    pose proof (level_zeros_ge t x x0 ltac:(lra) H1) as Hz.
    assert (forall a b, a <= b -> (requested a t <= requested b t)%nat) as Hreq.
    { intros a b Hab. unfold requested.
      assert (Qfloor (a * Zq (Z.of_nat (length t))) <= Qfloor (b * Zq (Z.of_nat (length t))))%Z; [|lia].
      apply Qfloor_resp_le. apply Qmult_le_compat_r; auto. apply Zq_nonneg. lia. }
    split.
    + eapply Nat.le_trans; [apply (Hreq init x A)|]. exact Hz.
    + intro HL. specialize (D HL). eapply Nat.le_trans; [apply (Hreq final x)|]; [rewrite D; lra|]. exact Hz.
  - split; intro Hn.
    + injection H as <-. auto.
    + exfalso. assert (existsb (String.eqb n) weights = true); [|congruence].
      apply existsb_exists. exists n. split; auto. apply String.eqb_refl.
Qed.

Example C14_example :
  (exists x, agp_step (1 # 10) (1 # 2) 0 0 6 2 = Ok x /\ x == 1 # 10) /\
  scheduled 0 6 2 2 /\ last_scheduled 0 6 2 4 /\
  (exists x, agp_step (1 # 10) (1 # 2) 2 0 6 2 = Ok x /\ x == 9 # 20) /\
  (exists x, agp_step (1 # 10) (1 # 2) 4 0 6 2 = Ok x /\ x == 1 # 2).
Proof.
  split; [eexists; split; vm_compute; reflexivity|]. split; [split; [lia|exists 1%Z; lia]|].
  split; [split; [split; [lia|exists 2%Z; lia]|intros e' [[A B] [q C]]; lia]|].
  split; eexists; split; vm_compute; reflexivity.
Qed.

(* ------------------------------------------------------------------------- *)
(** * C15: splicing *)
(** [low]/[hi]: the two thresholds, from the statistics of the first weights seen. *)
Theorem C15_splicing_history :
  forall std mean c h cache masks n s t0 ts len,
  sp_mult c <= 0 ->
  calls (splicing_pruner std mean c) [] h = Ok (cache, masks) ->
  (match dget (sp_sens c) n with Some x => Some x | None => dget (sp_sens c) "*" end) = Some s ->
  weights_of n h = t0 :: ts ->
  (forall t, In t (weights_of n h) -> length t = len) ->
  let low := (mean (map Qabs t0) + std (map Qabs t0) * s) * sp_low c in
  let hi := (mean (map Qabs t0) + std (map Qabs t0) * s) * sp_hi c in
  exists m, masks n = Some m /\ length m = len /\
  forall i, (i < len)%nat ->
    (* the most recent value outside [low, hi) decides *)
    (forall pre x post, map (fun t => Qabs (nth i t 0)) (weights_of n h) = pre ++ x :: post ->
       (x < low \/ hi <= x) -> (forall y, In y post -> low <= y /\ y < hi) ->
       nth i m 0 = if Qle_bool hi x then 1 else 0) /\
    (* if there is none the weight was never pruned *)
    ((forall y, In y (map (fun t => Qabs (nth i t 0)) (weights_of n h)) -> low <= y /\ y < hi) ->
       nth i m 0 = 1).
Proof.
  intros std mean c h cache masks n s t0 ts len Hm H Hs Hw Hlen low hi.
  apply Qle_bool_iff in Hm.
  destruct (splice_state std mean c h cache masks n s Hm H Hs) as [_ Hst]. rewrite Hw in Hst.
  rewrite <- Hw in Hst. destruct (Hst len Hlen) as (m & A & B & C). exists m. split; auto. split; auto.
  intros i Hi. specialize (C i Hi).
  change (thr_low std mean c s t0) with low in C. change (thr_hi std mean c s t0) with hi in C.
  assert (nth i m 0 = fold_left (fun cur y => splice1 low hi y cur) (map (fun t => nth i t 0) (weights_of n h)) 1) as Cm.
  { rewrite C. clear. generalize 1. induction (weights_of n h) as [|t l IH]; intro z; simpl; auto. }
  split.
  - intros pre x post E Hx Hp. rewrite Cm. rewrite <- (map_map (fun t => nth i t 0) Qabs) in E.
    apply map_eq_app in E. destruct E as (l1 & l2 & E & E1 & E2).
    apply map_eq_cons in E2. destruct E2 as (x' & l3 & E2 & E3 & E4). subst.
    rewrite E. apply splice_last; auto. intros y Hy. apply Hp. apply in_map. auto.
  - intro Hp. rewrite Cm. apply splice_never. intros y Hy. apply Hp.
    rewrite <- (map_map (fun t => nth i t 0) Qabs). apply in_map. auto.
Qed.

(** One call, with or without the sensitivity multiplier (which scales the sensitivity by
    1 + multiplier * epochs since the start). The statistics are those cached at the first call. *)
Theorem C15_splicing_step :
  forall std mean c ps me n t mask s0 cur ps' mask',
  (match dget (sp_sens c) n with Some x => Some x | None => dget (sp_sens c) "*" end) = Some s0 ->
  me_cur me = Some cur ->
  (forall m, mask = Some m -> length m = length t) ->
  splicing_pruner std mean c ps me n t mask = Ok (ps', mask') ->
  let st := match dget ps n with Some x => x | None => (std (map Qabs t), mean (map Qabs t)) end in
  let s := if Qltb 0 (sp_mult c) then s0 * (1 + sp_mult c * (Zq cur - Zq (me_start me))) else s0 in
  let base := snd st + fst st * s in
  dget ps' n = Some st /\
  exists m', mask' = Some m' /\ length m' = length t /\
  forall i, (i < length t)%nat ->
    let x := Qabs (nth i t 0) in
    (base * sp_hi c <= x -> nth i m' 0 = 1) /\
    (x < base * sp_low c -> x < base * sp_hi c -> nth i m' 0 = 0) /\
    (base * sp_low c <= x -> x < base * sp_hi c ->
       nth i m' 0 = match mask with Some m => nth i m 0 | None => 1 end).
Proof.
  intros std mean c ps me n t mask s0 cur ps' mask' Hs Hc Hm H st s base.
  unfold splicing_pruner, lookup_default in H. rewrite Hs, Hc in H. inv_bind H.
  unfold splicing_create_mask in H. injection H as E1 E2.
  assert (Hst : dget ps' n = Some st).
  { subst ps'. unfold st, dmem. destruct (dget ps n) eqn:E; auto. apply dget_dset_same. }
  split; auto. rewrite E1, Hst in E2.
  assert (Hx : x == s).
  { unfold s. destruct (Qltb 0 (sp_mult c)); injection H0 as <-; [rewrite Zq_minus; ring|reflexivity]. }
  assert (Hb : snd st + fst st * x == base) by (unfold base; rewrite Hx; reflexivity).
  match type of E2 with context [map2 _ t (map2 _ t ?M)] => set (m0 := M) in * end.
  assert (Hl0 : length m0 = length t).
  { unfold m0. destruct mask; auto. apply map_length. }
  eexists. split; [symmetry; exact E2|]. split; [rewrite !map2_length; lia|].
  intros i Hi y.
  assert (Hm0 : nth i m0 0 = match mask with Some m => nth i m 0 | None => 1 end).
  { unfold m0. destruct mask; auto. rewrite nth_indep with (d' := 1) by (rewrite map_length; auto).
    apply (map_nth (fun _ => 1) t 0 i). }
  rewrite map2_nth with (da := 0) (db := 0) by (rewrite ?map2_length; lia).
  rewrite map2_nth with (da := 0) (db := 0) by lia.
  rewrite Hm0. fold y. split; [|split]; intros A; [|intro B|intro B].
  - assert (Qle_bool ((snd st + fst st * x) * sp_hi c) y = true) as -> by (apply Qle_bool_iff; rewrite Hb; auto).
    reflexivity.
  - assert (Qle_bool ((snd st + fst st * x) * sp_hi c) y = false) as -> by (apply Qle_bool_ngt; rewrite Hb; auto).
    assert (Qltb y ((snd st + fst st * x) * sp_low c) = true) as -> by (apply Qltb_lt; rewrite Hb; auto).
    reflexivity.
  - assert (Qle_bool ((snd st + fst st * x) * sp_hi c) y = false) as -> by (apply Qle_bool_ngt; rewrite Hb; auto).
    assert (Qltb y ((snd st + fst st * x) * sp_low c) = false) as -> by (apply Qltb_ge; rewrite Hb; auto).
    reflexivity.
Qed.

(** A parameter without an entry and without a default is left alone. *)
Theorem C15_unlisted_unchanged :
  forall std mean c ps me n t mask, dget (sp_sens c) n = None -> dget (sp_sens c) "*" = None ->
  splicing_pruner std mean c ps me n t mask = Ok (ps, mask).
Proof. intros. unfold splicing_pruner, lookup_default. rewrite H, H0. auto. Qed.

Example C15_example :
  let c := mkSplicing [("w"%string, 0)] (1 # 2) 2 0 in
  let mean := fun _ : tensor => 2 in let std := fun _ : tensor => 0 in
  let me := mkMeta 0 3 (Some 1%Z) (Some 0%Z) in
  exists r, calls (splicing_pruner std mean c) []
    [(me, "w"%string, [3; 2; 5]); (me, "v"%string, [0]); (me, "w"%string, [(1 # 2); 2; 0]); (me, "w"%string, [3; 2; 5])] = Ok r /\
    snd r "w"%string = Some [0; 1; 1] /\ snd r "v"%string = None.
Proof. cbv zeta. eexists. split; [vm_compute; reflexivity|]. vm_compute. auto. Qed.

(* ------------------------------------------------------------------------- *)
(** * C16: the Baidu RNN pruner *)
(** For one policy (fixed start, end, frequency): there is a threshold per epoch, positive and
    non-decreasing, used for every listed parameter whatever the history of calls. *)
Theorem C16_baidu_threshold :
  forall c start en freq,
  0 < ba_q c -> (0 < freq)%Z -> (0 <= ba_offset c < 3 * (en - start))%Z -> 0 <= ba_mult c ->
  exists eps : Z -> Q,
    (forall e, (start <= e)%Z -> 0 < eps e) /\
    (forall e e', (start <= e)%Z -> (e <= e')%Z -> eps e <= eps e') /\
    (* the paper's equation: slope 2q/(2*offset + 3*(length - offset)), ramped from [offset] on *)
    (let slope := 2 * ba_q c / (2 * Zq (ba_offset c) + 3 * Zq (en - start - ba_offset c)) in
     forall e, (start <= e)%Z ->
       ((e < start + ba_offset c)%Z -> eps e == slope * Zq (e - start + 1)) /\
       ((start + ba_offset c <= e)%Z ->
          eps e == slope * Zq (ba_offset c + 1) + slope * ba_mult c * Zq (e - start - ba_offset c + 1))) /\
    forall h st e n t st',
      (forall me n t, In (me, n, t) h -> me_start me = start /\ me_end me = en /\ me_freq me = Some freq) ->
      calls (baidu_pruner c) None h = Ok st -> In n (ba_weights c) ->
      call_one (baidu_pruner c) st (mkMeta start en (Some freq) (Some e), n, t) = Ok st' ->
      snd st' n = Some (create_mask_threshold_criterion t (eps e)).
Proof.
  intros c start en freq Hq Hf Ho Hm.
  assert (exists sl, baidu_slopes c start en freq = Ok sl) as [sl Hsl].
  { unfold baidu_slopes. match goal with |- context [Z.eqb ?a 0] => destruct (Z.eqb_spec a 0) end; [lia|]. eauto. }
  destruct (baidu_slopes_pos c start en freq sl Hq Hf (proj2 Ho) Hm Hsl) as [P1 P2].
  exists (fun e => baidu_eps c sl e start freq). split; [|split; [|split]].
  - intros e He. apply (baidu_eps_mono c sl e e start freq); auto; lia.
  - intros e e' He Hee. apply (baidu_eps_mono c sl e e' start freq); auto; lia.
  - clear P1 P2. unfold baidu_slopes in Hsl.
    match type of Hsl with context [Z.eqb ?a 0] => destruct (Z.eqb_spec a 0) as [|Hden] end; [discriminate|].
    injection Hsl as <-. intros slope e He. unfold baidu_eps. cbn [fst snd].
    assert (Hfq : 0 < Zq freq) by (apply Zq_pos; lia).
    assert (Hd : 0 < 2 * Zq (ba_offset c) + 3 * Zq (en - start - ba_offset c)).
    { change 2 with (Zq 2). change 3 with (Zq 3). rewrite <- !Zq_mult, <- Zq_plus. apply Zq_pos. lia. }
    assert (Hsl : 2 * ba_q c * Zq freq /
       Zq (2 * (ba_offset c + start - start) + 3 * (en - (ba_offset c + start))) == slope * Zq freq).
    { unfold slope. rewrite Zq_plus, !Zq_mult. change (Zq 2) with 2. change (Zq 3) with 3.
      replace (ba_offset c + start - start)%Z with (ba_offset c) by lia.
      replace (en - (ba_offset c + start))%Z with (en - start - ba_offset c)%Z by lia. field. lra. }
    split; intro Hc; [destruct (Z.ltb_spec e (ba_offset c + start)); [|lia]|destruct (Z.ltb_spec e (ba_offset c + start)); [lia|]].
    + rewrite Hsl. field. lra.
    + rewrite Hsl. replace (ba_offset c + start - start + 1)%Z with (ba_offset c + 1)%Z by lia.
      replace (e - (ba_offset c + start) + 1)%Z with (e - start - ba_offset c + 1)%Z by lia. field. lra.
  - intros h [ps masks] e n t st' Hh Hc Hn H1. pose proof (baidu_state c h ps masks Hc) as Hst.
    unfold call_one in H1. inv_bind H1. injection H1 as <-. simpl. rewrite String.eqb_refl.
    cbn [fst snd] in H. unfold baidu_pruner in H.
    assert (existsb (String.eqb n) (ba_weights c) = true) as Hex.
    { apply existsb_exists. exists n. split; auto. apply String.eqb_refl. }
    rewrite Hex in H. cbn [me_cur me_freq me_start me_end] in H. inv_bind H.
    destruct (Z.eqb_spec freq 0); [lia|]. injection H as <-. simpl.
    assert (x0 = sl) as ->; [|reflexivity].
    destruct (filter (fun k => existsb (String.eqb (call_name k)) (ba_weights c)) h) as [|[[me n1] t1] r] eqn:Ef.
    + subst ps. simpl in H0. congruence.
    + assert (In (me, n1, t1) h) as Hin.
      { pose proof (proj1 (filter_In (fun k : call => existsb (String.eqb (call_name k)) (ba_weights c)) (me, n1, t1) h)) as Hf'.
        rewrite Ef in Hf'. apply Hf'. left. reflexivity. }
      destruct (Hh _ _ _ Hin) as (A & B & C). destruct Hst as (sl' & fr & D & E & ->). simpl in H0.
      rewrite A, B in E. rewrite C in D. injection D as <-. congruence.
Qed.

(** The slopes are fixed by the first call: a pruner object shared by two policies keeps the
    slopes of the first one's schedule. *)
Theorem C16_slopes_fixed_by_first_call :
  forall c h ps masks me n t r,
  calls (baidu_pruner c) None h = Ok (ps, masks) ->
  filter (fun k => existsb (String.eqb (call_name k)) (ba_weights c)) h = (me, n, t) :: r ->
  exists sl freq, me_freq me = Some freq /\
    baidu_slopes c (me_start me) (me_end me) freq = Ok sl /\ ps = Some sl.
Proof. intros c h ps masks me n t r H E. pose proof (baidu_state c h ps masks H) as Hs. rewrite E in Hs. auto. Qed.

(** Findings: a ramp offset of three times the schedule's length divides by zero, a larger one
    gives a negative threshold. *)
Theorem C16_late_ramp_refuted :
  baidu_slopes (mkBaidu ["w"%string] 1 9 1) 0 3 1 = Raise ZeroDivisionError /\
  exists sl, baidu_slopes (mkBaidu ["w"%string] 1 12 1) 0 3 1 = Ok sl /\
    baidu_eps (mkBaidu ["w"%string] 1 12 1) sl 0 0 1 < 0.
Proof. split; [vm_compute; reflexivity|]. eexists. split; vm_compute; reflexivity. Qed.

Example C16_example :
  let c := mkBaidu ["w"%string] (1 # 2) 1 2 in
  0 < ba_q c /\ (0 <= ba_offset c < 3 * (4 - 0))%Z /\
  exists st, calls (baidu_pruner c) None
      [(mkMeta 0 4 (Some 1%Z) (Some 0%Z), "w"%string, [1]); (mkMeta 0 4 (Some 1%Z) (Some 3%Z), "w"%string, [1; (1 # 10)])] = Ok st /\
    snd st "w"%string = Some [1; 0].
Proof. cbv zeta. split; [reflexivity|]. split; [simpl; lia|]. eexists. split; vm_compute; reflexivity. Qed.

(* ------------------------------------------------------------------------- *)
(** * C17: sensitivity *)
Theorem C17_sensitivity_threshold_fixed :
  forall std sens h cache masks me n t s cache' masks',
  calls (sensitivity_pruner std sens) [] h = Ok (cache, masks) ->
  (match dget sens n with Some x => Some x | None => dget sens "*" end) = Some s ->
  call_one (sensitivity_pruner std sens) (cache, masks) (me, n, t) = Ok (cache', masks') ->
  let sigma := std (match weights_of n h with t0 :: _ => t0 | [] => t end) in
  exists m, masks' n = Some m /\ length m = length t /\
  forall i, (i < length t)%nat ->
    (Qabs (nth i t 0) <= s * sigma -> nth i m 0 == 0) /\ (s * sigma < Qabs (nth i t 0) -> nth i m 0 == 1).
Proof.
  intros std sens h cache masks me n t s cache' masks' H Hs H1 sigma.
  rewrite (sens_history std sens h cache masks me n t s cache' masks' H Hs H1).
  eexists. split; [reflexivity|]. split; [apply thr_length|]. intros i Hi.
  destruct (C12_threshold_mask t (sigma * s) i Hi) as (_ & A & B).
  split; intro Hx; [apply B|apply A]; lra.
Qed.

Theorem C17_unlisted_unchanged :
  forall std sens ps me n t mask, dget sens n = None -> dget sens "*" = None ->
  sensitivity_pruner std sens ps me n t mask = Ok (ps, mask).
Proof. intros. unfold sensitivity_pruner, lookup_default. rewrite H, H0. auto. Qed.

Example C17_example :
  let std := fun t : tensor => nth 0 t 0 in
  let me := mkMeta 0 3 (Some 1%Z) (Some 0%Z) in
  exists st, calls (sensitivity_pruner std [("*"%string, (1 # 2))]) []
     [(me, "w"%string, [4; 1]); (me, "w"%string, [1; 3])] = Ok st /\
     snd st "w"%string = Some [0; 1].
Proof. cbv zeta. eexists. split; vm_compute; reflexivity. Qed.

Print Assumptions C13_level_criterion.
Print Assumptions C14_agp_schedule.
Print Assumptions C14_agp_pruner.
Print Assumptions C15_splicing_history.
Print Assumptions C16_baidu_threshold.
Print Assumptions C17_sensitivity_threshold_fixed.
