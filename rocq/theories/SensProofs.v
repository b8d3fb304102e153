(** Proofs about pruning to a level: which structures stay, and pruning an already pruned tensor. *)
From Coq Require Import String List ZArith QArith Qabs Qround Bool Arith Lia Lqa.
From Verif Require Import Base Names Lists SchedModel PrunerModel PrunerProofs StructModel StructSpec StructProofs
  StructRankProofs PropertiesPrune PropertiesStruct SensModel SensSpec.
Import ListNotations.

(** ** Ranks *)
Lemma weaker_ext n s s' i : (i < n)%nat -> (forall j, (j < n)%nat -> s j == s' j) -> weaker n s i = weaker n s' i.
Proof.
  intros Hi H. apply count_below_ext. intros j Hj. apply eq_true_iff_eq. rewrite !Qltb_lt.
  rewrite (H j Hj), (H i Hi). reflexivity.
Qed.

Lemma weaker_mono n s i j : s i <= s j -> (weaker n s i <= weaker n s j)%nat.
Proof.
  intro H. apply countb_mono. intros x _ Hx. apply Qltb_lt in Hx. apply Qltb_lt. lra.
Qed.

Lemma weaker_pos n s i : (1 <= weaker n s i)%nat -> exists j, (j < n)%nat /\ s j < s i.
Proof.
  intro H. unfold weaker, count_below in H.
  destruct (existsb (fun j => Qltb (s j) (s i)) (seq 0 n)) eqn:E.
  - apply existsb_exists in E. destruct E as (j & Hj & Hl). apply in_seq in Hj. exists j. split; [lia|]. apply Qltb_lt; auto.
  - exfalso. rewrite countb_none in H; [lia|]. intros x Hx. apply not_true_iff_false. intro Hc.
    assert (existsb (fun j => Qltb (s j) (s i)) (seq 0 n) = true) by (apply existsb_exists; eauto). congruence.
Qed.

Lemma weaker_compose n s s' k k' i : (i < n)%nat ->
  (forall j, (j < n)%nat -> 0 <= s j) ->
  (forall j, (j < n)%nat -> s' j == keep_if (Nat.leb k (weaker n s j)) (s j)) ->
  Nat.leb k (weaker n s i) && Nat.leb k' (weaker n s' i) = Nat.leb (Nat.max k k') (weaker n s i).
Proof.
  intros Hi Hpos Hs. destruct (Nat.leb_spec k (weaker n s i)) as [Hk|Hk].
  - replace (weaker n s' i) with (weaker n s i).
    + cbn [andb]. destruct (Nat.leb_spec k' (weaker n s i)); symmetry; [apply Nat.leb_le|apply Nat.leb_gt]; lia.
    + destruct k as [|k0].
      { apply weaker_ext; auto. intros j Hj. rewrite (Hs j Hj). reflexivity. }
      destruct (weaker_pos n s i ltac:(lia)) as (j0 & Hj0 & Hlt). pose proof (Hpos j0 Hj0).
      apply count_below_ext. intros j Hj. apply eq_true_iff_eq. rewrite !Qltb_lt.
      rewrite (Hs j Hj), (Hs i Hi). apply Nat.leb_le in Hk. rewrite Hk. apply Nat.leb_le in Hk.
      destruct (Nat.leb_spec (S k0) (weaker n s j)); simpl; [tauto|]. split; intro; [lra|].
      destruct (Qlt_le_dec (s j) (s i)); auto. exfalso. pose proof (weaker_mono n s i j ltac:(auto)). lia.
  - cbn [andb]. symmetry. apply Nat.leb_gt. lia.
Qed.

(** The level criterion keeps exactly the elements with at least [k] strictly smaller ones. *)
Lemma kth_rank l k x : (1 <= k <= length l)%nat ->
  Qltb (nth (k - 1) (qsort l) 0) x = Nat.leb k (countb (fun y => Qltb y x) l).
Proof.
  intro Hk. destruct (Nat.leb_spec k (countb (fun y => Qltb y x) l)) as [H|H].
  - apply Qltb_lt. destruct (Qlt_le_dec (nth (k - 1) (qsort l) 0) x) as [|Hle]; auto. exfalso.
    pose proof (kth_count_lt l k Hk). assert (countb (fun y => Qltb y x) l <= countb (fun y => Qltb y (nth (k - 1) (qsort l) 0%Q)) l)%nat; [|lia].
    apply countb_mono. intros y _ Hy. apply Qltb_lt in Hy. apply Qltb_lt. lra.
  - apply Qltb_ge. destruct (Qlt_le_dec (nth (k - 1) (qsort l) 0) x) as [Hlt|]; auto. exfalso.
    pose proof (kth_count_ge l k Hk). assert (countb (fun y => Qle_bool y (nth (k - 1) (qsort l) 0%Q)) l <= countb (fun y => Qltb y x) l)%nat; [|lia].
    apply countb_mono. intros y _ Hy. apply Qle_bool_iff in Hy. apply Qltb_lt. lra.
Qed.

Lemma keep_if_mul b x : x * b2q b == keep_if b x.
Proof. destruct b; simpl; ring. Qed.

Lemma keep_if_and b c x : keep_if c (keep_if b x) == keep_if (b && c) x.
Proof. destruct b, c; reflexivity. Qed.

Lemma keep_if_compat b x y : x == y -> keep_if b x == keep_if b y.
Proof. destruct b; simpl; auto. reflexivity. Qed.

Lemma tmul_length a b : length a = length b -> length (tmul a b) = length a.
Proof.
  unfold tmul. revert b. induction a as [|x a IH]; intros [|y b]; simpl; intro H; try discriminate; auto.
Qed.

Lemma tmul_nth a b i : length a = length b -> (i < length a)%nat -> nth i (tmul a b) 0 = nth i a 0 * nth i b 0.
Proof.
  unfold tmul. revert b i. induction a as [|x a IH]; intros [|y b] i; simpl; try lia; try discriminate.
  intros H Hi. destruct i; auto. apply IH; auto; lia.
Qed.

(** ** One level *)
Section Scores.
Definition rel (b : bool) (x y : Q) : Prop := y == keep_if b x.

Lemma Forall2_tab {A B} (P : A -> B -> Prop) n f g : (forall i, (i < n)%nat -> P (f i) (g i)) -> Forall2 P (tab n f) (tab n g).
Proof.
  revert f g. induction n as [|n IH]; intros f g H; [constructor|].
  rewrite !tab_S. constructor; [apply H; lia|]. apply IH. intros i Hi. apply H. lia.
Qed.

Lemma Forall2_each {A B} (P : A -> B -> Prop) n f g : (forall i, (i < n)%nat -> Forall2 P (f i) (g i)) ->
  Forall2 P (each n f) (each n g).
Proof.
  unfold each. revert f g. induction n as [|n IH]; intros f g H; [constructor|].
  rewrite !tab_S. simpl. apply Forall2_app; [apply H; lia|]. apply IH. intros i Hi. apply H. lia.
Qed.

Lemma qsum_rel b l l' : Forall2 (rel b) l l' -> qsum (map Qabs l') == keep_if b (qsum (map Qabs l)).
Proof.
  unfold rel. induction 1 as [|x y l l' H HF IH]; simpl; [destruct b; reflexivity|].
  rewrite IH, H. destruct b; cbn [keep_if]; reflexivity.
Qed.
End Scores.

Lemma qsum_abs_nn l : 0 <= qsum (map Qabs l).
Proof. apply qsum_abs_nonneg. Qed.

Lemma pruned_to_zero g t : (g <> GElement -> ndim t = 4%nat) -> g <> GOther -> pruned_to g 0 t t.
Proof.
  intros Hd Hg. split; auto. split; auto.
  destruct g; [intros; reflexivity| | |congruence];
    unfold ndim in Hd; specialize (Hd ltac:(discriminate));
    (destruct (nd_shape t) as [|F [|C [|H [|W [|]]]]]; try discriminate); intros; reflexivity.
Qed.

Lemma pruned_to_compose g k k' t t1 t2 : pruned_to g k t t1 -> pruned_to g k' t1 t2 ->
  pruned_to g (Nat.max k k') t t2.
Proof.
  intros (Hs & Hl & H) (Hs' & Hl' & H'). split; [congruence|]. split; [congruence|].
  rewrite Hs in H'. destruct g.
  - intros i Hi. rewrite H' by lia. rewrite Hl.
    set (n := length (nd_data t)) in *.
    rewrite <- (weaker_compose n (fun j => Qabs (nth j (nd_data t) 0)) (fun j => Qabs (nth j (nd_data t1) 0)) k k' i); auto.
    + rewrite <- keep_if_and. apply keep_if_compat. auto.
    + intros. apply Qabs_nonneg.
    + intros j Hj. rewrite (H j Hj). destruct (Nat.leb _ _); reflexivity.
  - destruct (nd_shape t) as [|F [|C [|HH [|W [|]]]]]; try contradiction.
    intros f c h w Hf Hc Hh Hw. rewrite H' by auto.
    rewrite <- (weaker_compose F (fun j => qsum (map Qabs (filter_of t C HH W j))) (fun j => qsum (map Qabs (filter_of t1 C HH W j))) k k' f); auto.
    + rewrite <- keep_if_and. apply keep_if_compat. auto.
    + intros. apply qsum_abs_nn.
    + intros j Hj. apply qsum_rel. unfold filter_of, kernel. apply Forall2_each. intros c' Hc'. apply Forall2_each.
      intros h' Hh'. apply Forall2_tab. intros w' Hw'. red. auto.
  - destruct (nd_shape t) as [|F [|C [|HH [|W [|]]]]]; try contradiction.
    intros f c h w Hf Hc Hh Hw. rewrite H' by auto.
    rewrite <- (weaker_compose C (fun j => qsum (map Qabs (channel_of t F C HH W j))) (fun j => qsum (map Qabs (channel_of t1 F C HH W j))) k k' c); auto.
    + rewrite <- keep_if_and. apply keep_if_compat. auto.
    + intros. apply qsum_abs_nn.
    + intros j Hj. apply qsum_rel. unfold channel_of, kernel. apply Forall2_each. intros c' Hc'. apply Forall2_each.
      intros h' Hh'. apply Forall2_tab. intros w' Hw'. red. auto.
  - destruct (nd_shape t) as [|F [|C [|HH [|W [|]]]]]; contradiction.
Qed.

(** The element-wise pruner. *)
Lemma level_pruned t s : 0 <= s -> s <= 1 -> (1 <= asked GElement t s)%nat ->
  exists m, create_mask_level_criterion (nd_data t) s = Ok m /\ length m = length (nd_data t) /\
    pruned_to GElement (asked GElement t s) t (mkND (nd_shape t) (tmul (nd_data t) m)).
Proof.
  intros H0 H1 Hk. unfold asked in *. cbn [structures] in *. set (d := nd_data t) in *.
  assert (Hkl : (Z.to_nat (Qfloor (s * Zq (Z.of_nat (length d)))) <= length d)%nat).
  { assert (Qfloor (s * Zq (Z.of_nat (length d))) <= Z.of_nat (length d))%Z; [|lia].
    rewrite <- (floor_Zq (Z.of_nat (length d))) at 2. apply Qfloor_resp_le.
    setoid_replace (Zq (Z.of_nat (length d))) with (1 * Zq (Z.of_nat (length d))) at 2 by ring.
    apply Qmult_le_compat_r; auto. apply Zq_nonneg. lia. }
  destruct (C13_level_criterion_raises d s H0) as (_ & _ & E).
  destruct E as (m & E); [unfold requested; lia|].
  exists m. destruct (level_mask_inv d s m H0 E) as [_ Em]. set (k := Z.to_nat _) in *.
  assert (Hlen : length m = length d) by (rewrite Em; apply thr_length).
  split; auto. split; auto. split; auto. cbn [nd_data nd_shape]. fold d. split; [apply tmul_length; auto|].
  intros i Hi. rewrite tmul_nth by auto. rewrite Em, thr_nth by auto.
  rewrite kth_rank by (rewrite map_length; lia). rewrite countb_map.
  assert (weaker (length d) (fun j => Qabs (nth j d 0)) i = countb (fun y => Qltb (Qabs y) (Qabs (nth i d 0))) d) as Ew.
  { unfold weaker. rewrite (count_below_tab _ (fun j => nth j d 0) (fun y => Qltb (Qabs y) (Qabs (nth i d 0)))).
    rewrite tab_of_list. reflexivity. }
  rewrite Ew. apply keep_if_mul.
Qed.

Lemma weakest_rank n k s r : weakest n k s r -> forall i, (i < n)%nat -> r i = negb (Nat.leb k (weaker n s i)).
Proof.
  intros (A & _ & C & D) i Hi. destruct (r i) eqn:E.
  - specialize (D i Hi E). symmetry. apply negb_true_iff. apply Nat.leb_gt. exact D.
  - symmetry. apply negb_false_iff. apply Nat.leb_le. eapply Nat.le_trans; [exact A|].
    unfold weaker, count_below. apply countb_mono. intros j Hj Hr. apply in_seq in Hj. apply Qltb_lt. apply C; auto; lia.
Qed.

Lemma zero_one_off b i : zero_one b -> (i < length b)%nat -> nth i b 0 = b2q (negb (off b i)).
Proof.
  intros H Hi. unfold off. destruct (H (nth i b 0)) as [E|E]; [apply nth_In; auto|rewrite E; reflexivity|rewrite E; reflexivity].
Qed.

Lemma conv_of_nd t : nd_ok t -> (forall d, In d (nd_shape t) -> (0 < d)%nat) -> ndim t = 4%nat ->
  exists F C H W, conv_shape t F C H W.
Proof.
  intros Hok Hp Hd. unfold ndim in Hd. destruct (nd_shape t) as [|F [|C [|H [|W [|]]]]] eqn:E; try discriminate.
  exists F, C, H, W. split; auto. split; auto. repeat split; apply Hp; simpl; auto.
Qed.

Lemma at4_tmul t m F C H W f c h w : conv_shape t F C H W -> conv_shape m F C H W ->
  (f < F)%nat -> (c < C)%nat -> (h < H)%nat -> (w < W)%nat ->
  at4 (mkND (nd_shape t) (tmul (nd_data t) (nd_data m))) C H W f c h w = at4 t C H W f c h w * at4 m C H W f c h w.
Proof.
  intros (Hs & Hok & _) (Hs' & Hok' & _) Hf Hc Hh Hw. unfold at4. cbn [nd_data]. red in Hok, Hok'. rewrite Hs in Hok. rewrite Hs' in Hok'.
  apply tmul_nth; [congruence|]. rewrite Hok. cbn [numel fold_right].
  pose proof (idx_lt f c F C Hf Hc). pose proof (idx_lt (f * C + c) h (F * C) H ltac:(auto) Hh).
  pose proof (idx_lt ((f * C + c) * H + h) w (F * C * H) W ltac:(auto) Hw).
  replace (F * (C * (H * (W * 1))))%nat with (F * C * H * W)%nat by ring. auto.
Qed.

Definition gt_of (g : group) : gtype := match g with GFilter => TFilters | _ => TChannels end.

(** The ranked structure pruner. *)
Lemma ranked_pruned g t s ws : g = GFilter \/ g = GChannel -> nd_ok t -> (forall d, In d (nd_shape t) -> (0 < d)%nat) -> ndim t = 4%nat ->
  0 <= s -> s <= 1 ->
  exists o, prune_group (mkLp (gt_of g) ws false 1 [] l1_norm) None s t true None = Ok o /\
    match snd o with
    | None => pruned_to g (asked g t s) t t
    | Some m => length (nd_data m) = length (nd_data t) /\
                pruned_to g (asked g t s) t (mkND (nd_shape t) (tmul (nd_data t) (nd_data m)))
    end.
Proof.
  intros Hg Hok Hp Hd H0 H1. destruct (conv_of_nd t Hok Hp Hd) as (F & C & H & W & Hc).
  assert (Hz : asked g t s = 0%nat -> pruned_to g (asked g t s) t t).
  { intros ->. apply pruned_to_zero; [auto|destruct Hg; subst; discriminate]. }
  pose proof Hc as (Hsh & _ & _).
  unfold prune_group. destruct (Qeq_bool s 0) eqn:Es.
  { exists (None, None). split; auto. cbn [snd]. apply Hz. unfold asked. apply Qeq_bool_iff in Es.
    setoid_replace (s * Zq (Z.of_nat (structures g t))) with 0 by (rewrite Es; ring). reflexivity. }
  cbn [lp_group lp_mag lp_size].
  destruct Hg as [-> | ->]; cbn [gt_of].
  - destruct (C19_filters t F C H W l1_norm s Hc H0 H1) as [A B]. cbv zeta in A, B.
    assert (Ea : asked GFilter t s = Z.to_nat (Qfloor (s * Zq (Z.of_nat F)))) by (unfold asked, structures; rewrite Hsh; auto).
    destruct (Nat.eq_dec (asked GFilter t s) 0) as [Ez|Hnz].
    + exists (None, None). split; [apply A; congruence|]. cbn [snd]. auto.
    + destruct B as (b & m & E & Hb & H01 & Hm & Hat & Hw); [lia|].
      exists (Some b, Some m). split; auto. cbn [snd].
      pose proof Hc as (_ & Ho1 & _). pose proof Hm as (Hsm & Ho2 & _). red in Ho1, Ho2.
      assert (Hl : length (nd_data m) = length (nd_data t)) by congruence.
      split; auto. split; auto. split; [apply tmul_length; auto|]. rewrite Hsh.
      intros f c h w Hf Hcc Hh Hww. rewrite <- Hsh. rewrite (at4_tmul t m F) by auto. rewrite Hat by auto.
      rewrite (zero_one_off b f H01 ltac:(lia)), (weakest_rank _ _ _ _ Hw f Hf), negb_involutive, <- Ea. apply keep_if_mul.
  - destruct (C19_channels t F C H W l1_norm s Hc H0 H1) as [A B]. cbv zeta in A, B.
    assert (Ea : asked GChannel t s = Z.to_nat (Qfloor (s * Zq (Z.of_nat C)))) by (unfold asked, structures; rewrite Hsh; auto).
    destruct (Nat.eq_dec (asked GChannel t s) 0) as [Ez|Hnz].
    + exists (None, None). split; [apply A; congruence|]. cbn [snd]. auto.
    + destruct B as (b & m & E & Hb & H01 & Hm & Hat & Hw); [lia|].
      exists (Some b, Some m). split; auto. cbn [snd].
      pose proof Hc as (_ & Ho1 & _). pose proof Hm as (Hsm & Ho2 & _). red in Ho1, Ho2.
      assert (Hl : length (nd_data m) = length (nd_data t)) by congruence.
      split; auto. split; auto. split; [apply tmul_length; auto|]. rewrite Hsh.
      intros f c h w Hf Hcc Hh Hww. rewrite <- Hsh. rewrite (at4_tmul t m F) by auto. rewrite Hat by auto.
      rewrite (zero_one_off b c H01 ltac:(lia)), (weakest_rank _ _ _ _ Hw c Hcc), negb_involutive, <- Ea. apply keep_if_mul.
Qed.
