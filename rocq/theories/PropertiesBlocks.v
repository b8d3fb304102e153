(** Property C44: block-structured pruning of convolution weights. *)
From Coq Require Import String List ZArith QArith Qabs Qround Bool Arith Lia Lqa.
From Verif Require Import Base Lists SchedModel PrunerModel PrunerProofs StructModel StructSpec StructProofs StructRankProofs PropertiesStruct PropertiesStruct2.
Import ListNotations.

Section View.
Variables (t : nd) (v0 v1 v2 : nat).
Hypothesis Hlen : length (nd_data t) = (v0 * v1 * v2)%nat.
Hypothesis Hok : length (nd_data t) = numel (nd_shape t).
Hypothesis Hp : (0 < v0)%nat /\ (0 < v1)%nat /\ (0 < v2)%nat.
Let n := (v0 * v2)%nat.

Lemma block_mask_ok b : length b = n ->
  exists m, block_mask t (v0, v1, v2) b = Ok m /\ nd_shape m = nd_shape t /\ nd_ok m /\
    forall g i q, (g < v0)%nat -> (i < v1)%nat -> (q < v2)%nat ->
      nth ((g * v1 + i) * v2 + q) (nd_data m) 0 = nth (g * v2 + q) b 0.
Proof using Hlen Hok Hp.
  intro Hb. unfold block_mask. rewrite Hb, Nat.eqb_refl. unfold view. cbn [nd_data].
  rewrite tab_length. assert (Nat.eqb (v0 * v1 * v2) (numel (nd_shape t)) = true) as -> by (apply Nat.eqb_eq; congruence). eexists. split; [reflexivity|]. cbn [nd_shape nd_data].
  split; auto. split; [unfold nd_ok; cbn [nd_data nd_shape]; rewrite tab_length; lia|].
  intros g i q Hg Hi Hq. rewrite tab_nth.
  - f_equal. replace ((g * v1 + i) * v2 + q)%nat with (g * (v1 * v2) + (i * v2 + q))%nat by ring.
    rewrite idx_div by (apply idx_lt; auto). f_equal.
    replace (g * (v1 * v2) + (i * v2 + q))%nat with ((g * v1 + i) * v2 + q)%nat by ring. apply idx_mod; auto.
  - apply idx_lt; auto. apply idx_lt; auto.
Qed.

Lemma blocks_generic f mag : 0 <= f -> f <= 1 ->
  let k := Z.to_nat (Qfloor (f * Zq (Z.of_nat n))) in
  let mags := tab n (fun j => mag (block (nd_data t) (v0, v1, v2) j)) in
  let r := if Z.eqb (py_int (f * Zq (Z.of_nat (length mags)))) 0 then Ok None
           else do bottomk <- topk_smallest mags (py_int (f * Zq (Z.of_nat (length mags))));
                do b <- keep_above mags bottomk; Ok (Some b) in
  (k = 0%nat -> r = Ok None) /\
  ((1 <= k)%nat -> exists b, r = Ok (Some b) /\ length b = n /\ zero_one b /\
      weakest n k (fun j => mag (block (nd_data t) (v0, v1, v2) j)) (off b)).
Proof using Hlen Hok Hp.
  intros H0 H1 k mags r. unfold n in *.
  assert (Hn : (1 <= v0 * v2)%nat) by nia.
  assert (Hx : 0 <= f * Zq (Z.of_nat (v0 * v2))) by (apply Qmult_le_0_compat; auto; apply Zq_nonneg; lia).
  destruct (k_bounds f _ (conj H0 H1) Hn) as [Hkn _]. fold k in Hkn.
  assert (Hz : py_int (f * Zq (Z.of_nat (length mags))) = Z.of_nat k).
  { unfold mags. rewrite tab_length. unfold py_int. apply Qle_bool_iff in Hx. rewrite Hx. unfold k.
    apply Qle_bool_iff in Hx. apply Qfloor_le' in Hx. change (Qfloor 0) with 0%Z in Hx. lia. }
  unfold r. rewrite Hz. split.
  - intros ->. reflexivity.
  - intro Hk. destruct (Z.eqb_spec (Z.of_nat k) 0); [lia|].
    pose proof (topk_ok mags k ltac:(unfold mags; rewrite tab_length; lia)) as E.
    apply bind_ok in E. destruct E as (bk & E1 & E2). rewrite E1. cbn [bind]. rewrite E2. cbn [bind].
    eexists. split; [reflexivity|]. split; [unfold keep_map, mags; rewrite map_length, tab_length; auto|].
    split; [apply keep_map_01|]. apply rank_weakest. lia.
Qed.

Lemma prune_blocks_view f mag reps depth : block_view t reps depth = Ok (v0, v1, v2) -> v1 = (reps * depth)%nat ->
  0 <= f -> f <= 1 ->
  let k := Z.to_nat (Qfloor (f * Zq (Z.of_nat n))) in
  let r := rank_and_prune_blocks f t true None [reps; depth; 1; 1]%nat mag in
  (k = 0%nat -> r = Ok (None, None)) /\
  ((1 <= k)%nat -> exists b m, r = Ok (Some b, Some m) /\ length b = n /\ zero_one b /\
      nd_shape m = nd_shape t /\ nd_ok m /\
      (forall g i q, (g < v0)%nat -> (i < v1)%nat -> (q < v2)%nat ->
         nth ((g * v1 + i) * v2 + q) (nd_data m) 0 = nth (g * v2 + q) b 0) /\
      weakest n k (fun j => mag (block (nd_data t) (v0, v1, v2) j)) (off b)).
Proof using Hlen Hok Hp.
  intros Hv E1 H0 H1 k r. unfold r, rank_and_prune_blocks. cbn [Nat.eqb andb].
  destruct (Nat.eqb_spec (reps * depth) 0); [lia|].
  assert (length (nd_data t) mod (reps * depth) = 0)%nat as ->.
  { rewrite Hlen, <- E1. replace (v0 * v1 * v2)%nat with (v0 * v2 * v1)%nat by ring. apply Nat.mod_mul. lia. }
  cbn [Nat.eqb]. rewrite Hv. cbn [bind fst snd].
  destruct (blocks_generic f mag H0 H1) as [G0 G1]. fold n in G0, G1 |- *. fold k in G0, G1. split.
  - intro Hk. rewrite (G0 Hk). reflexivity.
  - intro Hk. destruct (G1 Hk) as (b & Eb & Lb & Zb & Wb). rewrite Eb. cbn [bind].
    destruct (block_mask_ok b Lb) as (m & Em & A & B & D). rewrite Em. cbn [bind]. exists b, m. repeat split; auto; apply Wb.
Qed.

Lemma sparsity_blocks_view reps depth : (exists F C H W, nd_shape t = [F; C; H; W]) ->
  block_view t reps depth = Ok (v0, v1, v2) -> v1 = (reps * depth)%nat ->
  exists s, sparsity_blocks t [reps; depth; 1; 1]%nat = Ok s /\
    s == frac (count_below n (fun j => all_zero (block (nd_data t) (v0, v1, v2) j))) n.
Proof using Hlen Hok Hp.
  intros (F & C & H & W & Hsh) Hv E1. unfold sparsity_blocks. rewrite Hsh. cbn [Nat.eqb andb].
  destruct (Nat.eqb_spec (reps * depth) 0); [lia|]. rewrite Hv. cbn [bind fst snd].
  destruct (Nat.eqb_spec (length (nd_data t)) 0); [nia|]. eexists. split; [reflexivity|].
  fold n. rewrite (nonzero_tab n (fun k => block (nd_data t) (v0, v1, v2) k)).
  rewrite <- one_minus_frac by (unfold n; nia). unfold frac.
  assert (0 < Zq (Z.of_nat n)) by (apply Zq_pos; unfold n; nia).
  assert (0 < Zq (Z.of_nat (reps * depth))) by (apply Zq_pos; nia).
  assert (E : Zq (Z.of_nat (length (nd_data t))) == Zq (Z.of_nat n) * Zq (Z.of_nat (reps * depth))).
  { rewrite <- Zq_mult, <- Nat2Z.inj_mul. rewrite Hlen, <- E1. unfold n.
    replace (v0 * v1 * v2)%nat with (v0 * v2 * v1)%nat by ring. reflexivity. }
  rewrite E. field. lra.
Qed.
End View.

(* ------------------------------------------------------------------------- *)
(** ** [reps] consecutive filters, depth 1 *)
Lemma fview t F C H W reps G : conv_shape t F C H W -> (1 <= reps)%nat -> F = (G * reps)%nat ->
  block_view t reps 1 = Ok (G, reps, (C * H * W)%nat).
Proof.
  intros (Hsh & Hok & Hpos) Hr HG. unfold block_view. rewrite Hsh. cbn [Nat.ltb Nat.leb].
  assert (Hl : length (nd_data t) = (C * H * W * (G * reps))%nat).
  { unfold nd_ok in Hok. rewrite Hok, Hsh. simpl. subst F. ring. }
  assert (Hd : (F / reps)%nat = G) by (subst F; apply Nat.div_mul; lia).
  rewrite Hd. destruct (Nat.eqb_spec (G * reps) 0); [lia|].
  rewrite Hl, Nat.mod_mul, Nat.div_mul by lia. reflexivity.
Qed.

Lemma fblock_block t F C H W reps G g c h w : conv_shape t F C H W -> (1 <= reps)%nat ->
  (g < G)%nat -> (c < C)%nat -> (h < H)%nat -> (w < W)%nat ->
  block (nd_data t) (G, reps, (C * H * W)%nat) (((g * C + c) * H + h) * W + w) = fblock t C H W reps g c h w.
Proof.
  intros Hc Hr Hg Hcc Hh Hw. unfold block, fblock. apply tab_ext. intros i Hi. unfold at4. f_equal.
  replace (((g * C + c) * H + h) * W + w)%nat with (g * (C * H * W) + ((c * H + h) * W + w))%nat by ring.
  rewrite idx_div, idx_mod; [ring| |]; apply idx_lt; auto; apply idx_lt; auto.
Qed.

(** With block shape [reps, 1, 1, 1] the weakest floor(f * number of blocks) blocks, each made of
    the elements at one position (c, h, w) of [reps] consecutive filters, are masked as a whole. *)
Theorem C44_filter_blocks :
  forall t F C H W reps G mag f, conv_shape t F C H W -> (1 <= reps)%nat -> F = (G * reps)%nat -> 0 <= f -> f <= 1 ->
  let n := (G * C * H * W)%nat in
  let idx := fun g c h w : nat => (((g * C + c) * H + h) * W + w)%nat in
  let k := Z.to_nat (Qfloor (f * Zq (Z.of_nat n))) in
  let r := rank_and_prune_blocks f t true None [reps; 1; 1; 1]%nat mag in
  (k = 0%nat -> r = Ok (None, None)) /\
  ((1 <= k)%nat -> exists b m score, r = Ok (Some b, Some m) /\ length b = n /\ zero_one b /\ conv_shape m F C H W /\
     (forall g i c h w, (g < G)%nat -> (i < reps)%nat -> (c < C)%nat -> (h < H)%nat -> (w < W)%nat ->
        at4 m C H W (g * reps + i) c h w = nth (idx g c h w) b 0) /\
     (forall g c h w, (g < G)%nat -> (c < C)%nat -> (h < H)%nat -> (w < W)%nat ->
        score (idx g c h w) = mag (fblock t C H W reps g c h w)) /\
     weakest n k score (off b)).
Proof.
  intros t F C H W reps G mag f Hc Hr HG H0 H1 n idx k r. pose proof Hc as (Hsh & Hok & Hpos).
  assert (HG0 : (0 < G)%nat) by nia.
  assert (Hl : length (nd_data t) = (G * reps * (C * H * W))%nat).
  { unfold nd_ok in Hok. rewrite Hok, Hsh. simpl. subst F. ring. }
  assert (Hp : (0 < G)%nat /\ (0 < reps)%nat /\ (0 < C * H * W)%nat) by (repeat split; nia).
  assert (Hn : n = (G * (C * H * W))%nat) by (unfold n; ring).
  destruct (prune_blocks_view t G reps (C * H * W) Hl Hok Hp f mag reps 1 (fview t F C H W reps G Hc Hr HG) ltac:(lia) H0 H1) as [P0 P1].
  rewrite <- Hn in P0, P1. fold k r in P0, P1. split; auto.
  intro Hk. destruct (P1 Hk) as (b & m & E & Lb & Zb & Sm & Om & D & Wk).
  exists b, m, (fun j => mag (block (nd_data t) (G, reps, (C * H * W)%nat) j)).
  split; auto. split; auto. split; auto. split; [split; [congruence|auto]|]. split; [|split; auto].
  - intros g i c h w Hg Hi Hcc Hh Hw. unfold at4, idx.
    replace (((g * reps + i) * C + c) * H + h)%nat with ((g * reps + i) * (C * H) + (c * H + h))%nat by ring.
    replace (((g * reps + i) * (C * H) + (c * H + h)) * W + w)%nat with ((g * reps + i) * (C * H * W) + ((c * H + h) * W + w))%nat by ring.
    rewrite D; auto; [f_equal; ring|]. apply idx_lt; auto. apply idx_lt; auto.
  - intros g c h w Hg Hcc Hh Hw. unfold idx. rewrite (fblock_block t F); auto.
Qed.

(* ------------------------------------------------------------------------- *)
(** ** depth > 1: [reps * depth] consecutive (filter, channel) pairs *)
(** The elements at position (h, w) of the [n] consecutive kernels g*n, g*n+1, ... counted
    filter by filter. *)
Definition kblock (t : nd) (C H W n g h w : nat) : list Q :=
  tab n (fun i => at4 t C H W ((g * n + i) / C) ((g * n + i) mod C) h w).

Lemma kview t F C H W reps depth G : conv_shape t F C H W -> (1 <= reps)%nat -> (2 <= depth)%nat ->
  (F * C = G * (reps * depth))%nat -> block_view t reps depth = Ok (G, (reps * depth)%nat, (H * W)%nat).
Proof.
  intros (Hsh & Hok & Hpos) Hr Hd HG. unfold block_view. rewrite Hsh.
  destruct (Nat.ltb_spec 1 depth); [|lia]. cbn [fst snd].
  assert (E : (F * C / (reps * depth) = G)%nat) by (rewrite HG; apply Nat.div_mul; nia).
  rewrite E. unfold nd_ok in Hok. rewrite Hok, Hsh. simpl numel.
  replace (F * (C * (H * (W * 1))))%nat with (F * C * (H * W))%nat by ring. rewrite HG, Nat.eqb_refl. reflexivity.
Qed.

Theorem C44_kernel_blocks :
  forall t F C H W reps depth G mag f, conv_shape t F C H W -> (1 <= reps)%nat -> (2 <= depth)%nat ->
  (F * C = G * (reps * depth))%nat -> 0 <= f -> f <= 1 ->
  let N := (reps * depth)%nat in
  let n := (G * H * W)%nat in
  let idx := fun g h w : nat => ((g * H + h) * W + w)%nat in
  let k := Z.to_nat (Qfloor (f * Zq (Z.of_nat n))) in
  let r := rank_and_prune_blocks f t true None [reps; depth; 1; 1]%nat mag in
  (k = 0%nat -> r = Ok (None, None)) /\
  ((1 <= k)%nat -> exists b m score, r = Ok (Some b, Some m) /\ length b = n /\ zero_one b /\ conv_shape m F C H W /\
     (forall fi ch h w, (fi < F)%nat -> (ch < C)%nat -> (h < H)%nat -> (w < W)%nat ->
        at4 m C H W fi ch h w = nth (idx ((fi * C + ch) / N)%nat h w) b 0) /\
     (forall g h w, (g < G)%nat -> (h < H)%nat -> (w < W)%nat ->
        score (idx g h w) = mag (kblock t C H W N g h w)) /\
     weakest n k score (off b)).
Proof.
  intros t F C H W reps depth G mag f Hc Hr Hd HG H0 H1 N n idx k r. pose proof Hc as (Hsh & Hok & Hpos).
  assert (HN : (0 < N)%nat) by (unfold N; nia).
  assert (HG0 : (0 < G)%nat) by nia.
  assert (Hl : length (nd_data t) = (G * N * (H * W))%nat).
  { unfold nd_ok in Hok. rewrite Hok, Hsh. simpl. unfold N. rewrite <- HG. ring. }
  assert (Hp : (0 < G)%nat /\ (0 < N)%nat /\ (0 < H * W)%nat) by (repeat split; nia).
  assert (Hn : n = (G * (H * W))%nat) by (unfold n; ring).
  destruct (prune_blocks_view t G N (H * W) Hl Hok Hp f mag reps depth (kview t F C H W reps depth G Hc Hr Hd HG) eq_refl H0 H1) as [P0 P1].
  rewrite <- Hn in P0, P1. fold k r in P0, P1. split; auto.
  intro Hk. destruct (P1 Hk) as (b & m & E & Lb & Zb & Sm & Om & D & Wk).
  exists b, m, (fun j => mag (block (nd_data t) (G, N, (H * W)%nat) j)).
  split; auto. split; auto. split; auto. split; [split; [congruence|auto]|]. split; [|split; auto].
  - intros fi ch h w Hfi Hch Hh Hw. unfold at4, idx.
    pose proof (Nat.div_mod (fi * C + ch) N ltac:(lia)) as Ed.
    pose proof (Nat.mod_upper_bound (fi * C + ch) N ltac:(lia)) as Hm.
    set (g := ((fi * C + ch) / N)%nat) in *. set (i := ((fi * C + ch) mod N)%nat) in *.
    assert (Hg : (g < G)%nat).
    { pose proof (idx_lt fi ch F C Hfi Hch) as Hx. rewrite HG in Hx. fold N in Hx. nia. }
    replace (((fi * C + ch) * H + h) * W + w)%nat with ((fi * C + ch) * (H * W) + (h * W + w))%nat by ring.
    replace (fi * C + ch)%nat with (g * N + i)%nat by lia.
    rewrite D; auto; [f_equal; ring|]. apply idx_lt; auto.
  - intros g h w Hg Hh Hw. f_equal. unfold block, kblock, idx. apply tab_ext. intros i Hi. unfold at4. f_equal.
    replace ((g * H + h) * W + w)%nat with (g * (H * W) + (h * W + w))%nat by ring.
    rewrite idx_div, idx_mod by (apply idx_lt; auto).
    pose proof (Nat.div_mod (g * N + i) C ltac:(lia)) as Ed.
    replace ((g * N + i) / C * C + (g * N + i) mod C)%nat with (g * N + i)%nat by lia. ring.
Qed.

(** For reps = 1 these are [depth] consecutive channels of one filter (depth divides C); for
    depth = C they are [reps] whole consecutive filters at one kernel position. *)
Theorem C44_block_shapes :
  forall t C H W h w,
  (forall depth D f g, (1 <= depth)%nat -> C = (D * depth)%nat -> (g < D)%nat ->
     kblock t C H W depth (f * D + g) h w = cblock t C H W depth f g h w) /\
  (forall reps g, (1 <= C)%nat ->
     kblock t C H W (reps * C) g h w = each reps (fun i => tab C (fun c => at4 t C H W (g * reps + i) c h w))).
Proof.
  intros t C H W h w. split.
  - intros depth D f g Hd HC Hg. unfold kblock, cblock. apply tab_ext. intros i Hi.
    replace ((f * D + g) * depth + i)%nat with (f * C + (g * depth + i))%nat by (subst C; ring).
    assert (g * depth + i < C)%nat by (subst C; apply idx_lt; auto).
    rewrite idx_div, idx_mod by auto. reflexivity.
  - intros reps g HC. unfold kblock.
    rewrite <- (each_tab reps C (fun j => at4 t C H W ((g * (reps * C) + j) / C) ((g * (reps * C) + j) mod C) h w)).
    apply each_ext. intros i Hi. apply tab_ext. intros c Hcc.
    replace (g * (reps * C) + (i * C + c))%nat with ((g * reps + i) * C + c)%nat by ring.
    rewrite idx_div, idx_mod by auto. reflexivity.
Qed.

(** Finding: for reps > 1 and 1 < depth < C the documented super block ("the basic block repeats
    in [reps] consecutive filters") is not what is pruned: with a 2x4x1x1 weight, shape
    [2,2,1,1] and half the blocks pruned, the documented block {filters 0-1, channels 0-1} holds
    all the zero weights, yet a whole filter is removed. *)
Theorem C44_super_block_refuted :
  let t := mkND [2; 4; 1; 1]%nat [0; 0; 5; 5; 0; 0; 5; 6] in
  conv_shape t 2 4 1 1 /\
  exists b m, rank_and_prune_blocks (1 # 2) t true None [2; 2; 1; 1]%nat l1_norm = Ok (Some b, Some m) /\
    nd_data m = [0; 0; 0; 0; 1; 1; 1; 1].
Proof.
  cbv zeta. split; [repeat split; simpl; lia|]. eexists. eexists. split; vm_compute; reflexivity.
Qed.

(** Unsupported block shapes. *)
Theorem C44_errors :
  forall f t bm want mag,
  (forall s, length s <> 4%nat -> rank_and_prune_blocks f t want bm s mag = Raise ValueError) /\
  (forall r d h w, h <> 1%nat \/ w <> 1%nat -> rank_and_prune_blocks f t want bm [r; d; h; w] mag = Raise ValueError) /\
  (forall r d, (0 < r * d)%nat -> ~ Nat.divide (r * d) (length (nd_data t)) ->
     rank_and_prune_blocks f t want bm [r; d; 1; 1]%nat mag = Raise ValueError).
Proof.
  intros f t bm want mag. split; [|split].
  - intros [|a [|b [|c [|d [|e s]]]]] Hs; simpl in Hs; try reflexivity; lia.
  - intros r d h w Hh. unfold rank_and_prune_blocks.
    destruct (Nat.eqb_spec w 1), (Nat.eqb_spec h 1); cbn [andb]; auto; lia.
  - intros r d Hp Hd. unfold rank_and_prune_blocks. cbn [Nat.eqb andb].
    destruct (Nat.eqb_spec (r * d) 0); [lia|].
    destruct (Nat.eqb_spec (length (nd_data t) mod (r * d)) 0) as [E|]; auto.
    exfalso. apply Hd. apply Nat.mod_divide; auto.
Qed.

(** sparsity_blocks is the share of all-zero blocks. *)
Theorem C44_block_sparsity :
  forall t F C H W reps depth G, conv_shape t F C H W -> (1 <= reps)%nat -> (2 <= depth)%nat ->
  (F * C = G * (reps * depth))%nat ->
  exists s, sparsity_blocks t [reps; depth; 1; 1]%nat = Ok s /\
    s == frac (count_below (G * (H * W)) (fun j =>
           all_zero (kblock t C H W (reps * depth) (j / (H * W)) (j mod (H * W) / W) (j mod W)))) (G * (H * W)).
Proof.
  intros t F C H W reps depth G Hc Hr Hd HG. pose proof Hc as (Hsh & Hok & Hpos).
  assert (HN : (0 < reps * depth)%nat) by nia. assert (HG0 : (0 < G)%nat) by nia.
  assert (Hl : length (nd_data t) = (G * (reps * depth) * (H * W))%nat).
  { unfold nd_ok in Hok. rewrite Hok, Hsh. simpl. rewrite <- HG. ring. }
  destruct (sparsity_blocks_view t G (reps * depth) (H * W) Hl Hok ltac:(repeat split; nia) reps depth
              ltac:(exists F, C, H, W; auto) (kview t F C H W reps depth G Hc Hr Hd HG) eq_refl) as (s & Es & Hs).
  exists s. split; auto. rewrite Hs. unfold frac. rewrite (count_below_ext _ _ (fun j =>
           all_zero (kblock t C H W (reps * depth) (j / (H * W)) (j mod (H * W) / W) (j mod W)))); [reflexivity|].
  intros j Hj. f_equal. unfold block, kblock. apply tab_ext. intros i Hi. unfold at4. f_equal.
  set (N := (reps * depth)%nat) in *.
  pose proof (Nat.div_mod (j / (H * W) * N + i) C ltac:(lia)) as Ed.
  replace ((j / (H * W) * N + i) / C * C + (j / (H * W) * N + i) mod C)%nat with (j / (H * W) * N + i)%nat by lia.
  assert (Ej : (j mod (H * W) = j mod (H * W) / W * W + j mod W)%nat).
  { pose proof (Nat.div_mod (j mod (H * W)) W ltac:(lia)) as E1.
    assert (Em : ((j mod (H * W)) mod W = j mod W)%nat); [|lia].
    rewrite (Nat.mul_comm H W), Nat.mod_mul_r by lia.
    replace (j mod W + W * ((j / W) mod H))%nat with ((j / W) mod H * W + j mod W)%nat by ring.
    apply idx_mod. apply Nat.mod_upper_bound; lia. }
  rewrite Ej at 1. ring.
Qed.

Theorem C44_filter_block_sparsity :
  forall t F C H W reps G, conv_shape t F C H W -> (1 <= reps)%nat -> F = (G * reps)%nat ->
  exists s score, sparsity_blocks t [reps; 1; 1; 1]%nat = Ok s /\
    (forall g c h w, (g < G)%nat -> (c < C)%nat -> (h < H)%nat -> (w < W)%nat ->
       score (((g * C + c) * H + h) * W + w)%nat = all_zero (fblock t C H W reps g c h w)) /\
    s == frac (count_below (G * (C * H * W)) score) (G * (C * H * W)).
Proof.
  intros t F C H W reps G Hc Hr HG. pose proof Hc as (Hsh & Hok & Hpos). assert (HG0 : (0 < G)%nat) by nia.
  assert (Hl : length (nd_data t) = (G * reps * (C * H * W))%nat).
  { unfold nd_ok in Hok. rewrite Hok, Hsh. simpl. subst F. ring. }
  destruct (sparsity_blocks_view t G reps (C * H * W) Hl Hok ltac:(repeat split; nia) reps 1
              ltac:(exists F, C, H, W; auto) (fview t F C H W reps G Hc Hr HG) ltac:(lia)) as (s & Es & Hs).
  exists s, (fun j => all_zero (block (nd_data t) (G, reps, (C * H * W)%nat) j)). split; auto. split; auto.
  intros g c h w Hg Hcc Hh Hw. rewrite (fblock_block t F); auto.
Qed.

(** (C19) the ranked pruners accept filters, channels, rows and blocks, and at least one weight. *)
Theorem C19_constructor :
  forall c, let supported := [T3D; TFilters; TChannels; TRows; TBlocks] in
  (lp_weights c = [] -> lp_ctor c = Raise AssertionError) /\
  (lp_weights c <> [] -> In (lp_group c) supported -> lp_ctor c = Ok c) /\
  (lp_weights c <> [] -> ~ In (lp_group c) supported -> lp_ctor c = Raise ValueError).
Proof.
  intros [g w l sz b m]. unfold lp_ctor. cbv zeta. cbn [lp_weights lp_group In].
  destruct w as [|w0 w]; [|destruct g]; repeat split; try congruence; try tauto; try (intros _ K; exfalso; intuition discriminate).
Qed.

(** A concrete case: shape [1,2,1,1] on a 2x4x1x1 weight, half of the four blocks pruned. *)
Example C44_example :
  let t := mkND [2; 4; 1; 1]%nat [1; 1; 5; 5; 0; 0; 5; 6] in
  conv_shape t 2 4 1 1 /\ (2 * 4 = 4 * (1 * 2))%nat /\ Z.to_nat (Qfloor ((1 # 2) * Zq 4)) = 2%nat /\
  exists b m, rank_and_prune_blocks (1 # 2) t true None [1; 2; 1; 1]%nat l1_norm = Ok (Some b, Some m) /\
    nd_data m = [0; 0; 1; 1; 0; 0; 1; 1].
Proof.
  cbv zeta. split; [repeat split; simpl; lia|]. split; auto. split; [reflexivity|].
  eexists. eexists. split; vm_compute; reflexivity.
Qed.

Print Assumptions C44_filter_blocks.
Print Assumptions C44_kernel_blocks.
Print Assumptions C44_block_shapes.
Print Assumptions C44_super_block_refuted.
Print Assumptions C44_errors.
Print Assumptions C44_block_sparsity.
Print Assumptions C44_filter_block_sparsity.
