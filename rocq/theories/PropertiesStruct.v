(** Properties C18-C22, C39 and the block pruner (C44): structured masks, ranking, sparsity. *)
From Coq Require Import String List ZArith QArith Qabs Qround Bool Arith Lia Lqa Permutation.
From Verif Require Import Base Lists SchedModel PrunerModel PrunerProofs StructModel StructSpec StructProofs StructRankProofs.
Import ListNotations.

(** A weight tensor of a convolution (4-D) or of a linear layer (2-D), with no empty dimension. *)
Definition conv_shape (t : nd) (F C H W : nat) : Prop :=
  nd_shape t = [F; C; H; W] /\ nd_ok t /\ (0 < F /\ 0 < C /\ 0 < H /\ 0 < W)%nat.
Definition mat_shape (t : nd) (R C : nat) : Prop :=
  nd_shape t = [R; C] /\ nd_ok t /\ (0 < R /\ 0 < C)%nat.

(* ------------------------------------------------------------------------- *)
(** * C18: masks are all-or-nothing per structure *)
Theorem C18_expand_conv :
  forall t F C H W, conv_shape t F C H W ->
  (forall g b, g = TFilters \/ g = T3D -> length b = F ->
     exists m, expand_binary_map t g b = Ok m /\ conv_shape m F C H W /\
       forall f c h w, (f < F)%nat -> (c < C)%nat -> (h < H)%nat -> (w < W)%nat -> at4 m C H W f c h w = nth f b 0) /\
  (forall b, length b = C ->
     exists m, expand_binary_map t TChannels b = Ok m /\ conv_shape m F C H W /\
       forall f c h w, (f < F)%nat -> (c < C)%nat -> (h < H)%nat -> (w < W)%nat -> at4 m C H W f c h w = nth c b 0) /\
  (forall b, length b = (F * C)%nat ->
     exists m, expand_binary_map t T2D b = Ok m /\ conv_shape m F C H W /\
       forall f c h w, (f < F)%nat -> (c < C)%nat -> (h < H)%nat -> (w < W)%nat -> at4 m C H W f c h w = nth (f * C + c) b 0).
Proof.
  intros t F C H W (Hsh & Hok & Hpos). split; [|split].
  - intros g b Hg Hb. destruct (expand_filters_ok t F C H W Hsh Hok Hpos g b Hg Hb) as (m & A & B & D & E).
    exists m. split; auto. split; auto. split; [congruence|auto].
  - intros b Hb. destruct (expand_channels_ok t F C H W Hsh Hok Hpos b Hb) as (m & A & B & D & E).
    exists m. split; auto. split; auto. split; [congruence|auto].
  - intros b Hb. destruct (expand_kernels_ok t F C H W Hsh Hok Hpos b Hb) as (m & A & B & D & E).
    exists m. split; auto. split; auto. split; [congruence|auto].
Qed.

Theorem C18_expand_matrix :
  forall t R C, mat_shape t R C ->
  (forall b, length b = R ->
     exists m, expand_binary_map t TRows b = Ok m /\ mat_shape m R C /\
       forall i j, (i < R)%nat -> (j < C)%nat -> at2 m C i j = nth i b 0) /\
  (forall g b, g = TCols \/ g = TChannels -> length b = C ->
     exists m, expand_binary_map t g b = Ok m /\ mat_shape m R C /\
       forall i j, (i < R)%nat -> (j < C)%nat -> at2 m C i j = nth j b 0).
Proof.
  intros t R C (Hsh & Hok & Hpos). split.
  - intros b Hb. destruct (expand_rows_ok t R C Hsh Hok Hpos b Hb) as (m & A & B & D & E).
    exists m. split; auto. split; auto. split; [congruence|auto].
  - intros g b Hg Hb. destruct (expand_cols_ok t R C Hsh Hok Hpos g b Hg Hb) as (m & A & B & D & E).
    exists m. split; auto. split; auto. split; [congruence|auto].
Qed.

(** Threshold masks: every structure is kept iff its norm (its mean when the criterion says so)
    exceeds the threshold. *)
Definition crit_score (l2 : list Q -> Q) (c : crit) (l : list Q) : Q :=
  match c with
  | CMean_Abs | CMean_L1 => l1_norm l / Zq (Z.of_nat (length l))
  | CL1 => l1_norm l
  | CMean_L2 => l2 l / Zq (Z.of_nat (length l))
  | CL2 => l2 l
  | CMax => max_norm l
  | COther => 0
  end.

Lemma each_length {A} n m (f : nat -> list A) : (forall i, (i < n)%nat -> length (f i) = m) -> length (each n f) = (n * m)%nat.
Proof.
  intro H. unfold each. assert (forall l, (forall i, In i l -> (i < n)%nat) -> length (concat (map f l)) = (length l * m)%nat) as K.
  { induction l as [|a l IH]; intro Hl; simpl; auto. rewrite app_length, IH, H; auto; intros; apply Hl; simpl; auto. }
  unfold tab. rewrite K, seq_length; auto. intros i Hi. apply in_seq in Hi. lia.
Qed.
Lemma kernel_length t C H W f c : length (kernel t C H W f c) = (H * W)%nat.
Proof. unfold kernel. apply each_length. intros. apply tab_length. Qed.
Lemma filter_length t C H W f : length (filter_of t C H W f) = (C * (H * W))%nat.
Proof. unfold filter_of. apply each_length. intros. apply kernel_length. Qed.
Lemma channel_length t F C H W c : length (channel_of t F C H W c) = (F * (H * W))%nat.
Proof. unfold channel_of. apply each_length. intros. apply kernel_length. Qed.

Lemma each_1 {A} (f : nat -> list A) : each 1 f = f 0%nat.
Proof. unfold each, tab. simpl. apply app_nil_r. Qed.

Lemma thr_map_nth n s thr i : (i < n)%nat ->
  nth i (map (fun x => b2q (Qltb thr x)) (tab n s)) 0 = b2q (Qltb thr (s i)).
Proof.
  intro Hi. unfold tab. rewrite map_map.
  change (nth i (tab n (fun x => b2q (Qltb thr (s x)))) 0 = b2q (Qltb thr (s i))). exact (tab_nth n (fun x => b2q (Qltb thr (s x))) i 0 Hi).
Qed.

Theorem C18_threshold_filters :
  forall l2 t F C H W thr c g, conv_shape t F C H W -> c <> COther -> g = TFilters \/ g = T3D ->
  exists m, group_threshold_mask l2 t g thr c = Ok m /\ conv_shape m F C H W /\
  forall f ch h w, (f < F)%nat -> (ch < C)%nat -> (h < H)%nat -> (w < W)%nat ->
    at4 m C H W f ch h w = b2q (Qltb thr (crit_score l2 c (filter_of t C H W f))).
Proof.
  intros l2 t F C H W thr c g Hc Hco Hg. pose proof Hc as (Hsh & Hok & Hpos).
  assert (exists b, group_threshold_binary_map l2 t g thr c = Ok b /\ length b = F /\
          forall f, (f < F)%nat -> nth f b 0 = b2q (Qltb thr (crit_score l2 c (filter_of t C H W f)))) as (b & Eb & Hb & Hn).
  { unfold group_threshold_binary_map.
    assert (forall nf ln, (match g with
      | T2D => if Nat.eqb (ndim t) 4 then kernels_norm t nf 1 ln else Raise AssertionError
      | TRows => if Nat.eqb (ndim t) 2 then sub_matrix_norm t nf 1 ln 1 else Raise AssertionError
      | TCols => if Nat.eqb (ndim t) 2 then sub_matrix_norm t nf 1 ln 0 else Raise AssertionError
      | T3D | TFilters => if Nat.eqb (ndim t) 4 || Nat.eqb (ndim t) 3 then filters_norm t nf 1 ln else Raise AssertionError
      | TChannels => if Nat.eqb (ndim t) 4 then channels_norm t nf 1 ln else Raise AssertionError
      | _ => Raise NameError end) = filters_norm t nf 1 ln) as K.
    { intros nf ln. unfold ndim. rewrite Hsh. destruct Hg; subst g; reflexivity. }
    destruct c; try contradiction; cbn [crit_norm bind fst snd];
    rewrite K, (filters_norm_ok t F C H W Hsh Hok Hpos _ 1 F) by lia; cbn [bind];
    (eexists; split; [reflexivity|]; split; [rewrite map_length; apply tab_length|]; intros f Hf;
     rewrite thr_map_nth by auto; cbv zeta; rewrite each_1, Nat.mul_1_r, Nat.add_0_r; cbn [crit_score];
     rewrite ?filter_length; try reflexivity;
     replace (1 * (C * H * W))%nat with (C * (H * W))%nat by ring; reflexivity). }
  destruct (C18_expand_conv t F C H W Hc) as (E1 & _ & _). destruct (E1 g b Hg Hb) as (m & A & B & D).
  exists m. split; [|split; auto].
  - unfold group_threshold_mask. destruct Hg; subst g; rewrite Eb; exact A.
  - intros f ch h w Hf Hch Hh Hw. rewrite D, Hn; auto.
Qed.

Theorem C18_threshold_channels :
  forall l2 t F C H W thr c, conv_shape t F C H W -> c <> COther ->
  exists m, group_threshold_mask l2 t TChannels thr c = Ok m /\ conv_shape m F C H W /\
  forall f ch h w, (f < F)%nat -> (ch < C)%nat -> (h < H)%nat -> (w < W)%nat ->
    at4 m C H W f ch h w = b2q (Qltb thr (crit_score l2 c (channel_of t F C H W ch))).
Proof.
  intros l2 t F C H W thr c Hc Hco. pose proof Hc as (Hsh & Hok & Hpos).
  assert (exists b, group_threshold_binary_map l2 t TChannels thr c = Ok b /\ length b = C /\
          forall f, (f < C)%nat -> nth f b 0 = b2q (Qltb thr (crit_score l2 c (channel_of t F C H W f)))) as (b & Eb & Hb & Hn).
  { unfold group_threshold_binary_map, ndim. rewrite Hsh. cbn [length Nat.eqb].
    destruct c; try contradiction; cbn [crit_norm bind fst snd];
    rewrite (channels_norm_ok t F C H W Hsh Hok Hpos _ 1 C) by lia; cbn [bind];
    (eexists; split; [reflexivity|]; split; [rewrite map_length; apply tab_length|]; intros f Hf;
     rewrite thr_map_nth by auto; cbv zeta; rewrite each_1, Nat.mul_1_r, Nat.add_0_r; cbn [crit_score];
     rewrite ?channel_length; try reflexivity;
     replace (1 * (F * H * W))%nat with (F * (H * W))%nat by ring; reflexivity). }
  destruct (C18_expand_conv t F C H W Hc) as (_ & E1 & _). destruct (E1 b Hb) as (m & A & B & D).
  exists m. split; [|split; auto].
  - unfold group_threshold_mask. rewrite Eb; exact A.
  - intros f ch h w Hf Hch Hh Hw. rewrite D, Hn; auto.
Qed.

Theorem C18_threshold_kernels :
  forall l2 t F C H W thr c, conv_shape t F C H W -> c <> COther ->
  exists m, group_threshold_mask l2 t T2D thr c = Ok m /\ conv_shape m F C H W /\
  forall f ch h w, (f < F)%nat -> (ch < C)%nat -> (h < H)%nat -> (w < W)%nat ->
    at4 m C H W f ch h w = b2q (Qltb thr (crit_score l2 c (kernel t C H W f ch))).
Proof.
  intros l2 t F C H W thr c Hc Hco. pose proof Hc as (Hsh & Hok & Hpos).
  assert (exists b, group_threshold_binary_map l2 t T2D thr c = Ok b /\ length b = (F * C)%nat /\
          forall f ch, (f < F)%nat -> (ch < C)%nat -> nth (f * C + ch) b 0 = b2q (Qltb thr (crit_score l2 c (kernel t C H W f ch)))) as (b & Eb & Hb & Hn).
  { unfold group_threshold_binary_map, ndim. rewrite Hsh. cbn [length Nat.eqb].
    destruct c; try contradiction; cbn [crit_norm bind fst snd];
    rewrite (kernels_norm_ok t F C H W Hsh Hok Hpos _ 1 (F * C)) by lia; cbn [bind];
    (eexists; split; [reflexivity|]; split; [rewrite map_length; apply tab_length|]; intros f ch Hf Hch;
     rewrite thr_map_nth by (apply idx_lt; auto); cbv zeta; rewrite each_1, Nat.mul_1_r, Nat.add_0_r, idx_div, idx_mod by auto; cbn [crit_score];
     rewrite ?kernel_length; try reflexivity; rewrite Nat.mul_1_l; reflexivity). }
  destruct (C18_expand_conv t F C H W Hc) as (_ & _ & E1). destruct (E1 b Hb) as (m & A & B & D).
  exists m. split; [|split; auto].
  - unfold group_threshold_mask. rewrite Eb; exact A.
  - intros f ch h w Hf Hch Hh Hw. rewrite D, Hn; auto.
Qed.

(** Rows and columns: for the un-normalized criteria as above. *)
Theorem C18_threshold_matrix :
  forall l2 t R C thr c, mat_shape t R C -> c = CL1 \/ c = CL2 \/ c = CMax ->
  (exists m, group_threshold_mask l2 t TRows thr c = Ok m /\ mat_shape m R C /\
   forall i j, (i < R)%nat -> (j < C)%nat -> at2 m C i j = b2q (Qltb thr (crit_score l2 c (row_of t C i)))) /\
  (exists m, group_threshold_mask l2 t TCols thr c = Ok m /\ mat_shape m R C /\
   forall i j, (i < R)%nat -> (j < C)%nat -> at2 m C i j = b2q (Qltb thr (crit_score l2 c (col_of t R C j)))).
Proof.
  intros l2 t R C thr c Hm Hc. pose proof Hm as (Hsh & Hok & Hpos). destruct (C18_expand_matrix t R C Hm) as [E1 E2]. split.
  - assert (exists b, group_threshold_binary_map l2 t TRows thr c = Ok b /\ length b = R /\
      forall i, (i < R)%nat -> nth i b 0 = b2q (Qltb thr (crit_score l2 c (row_of t C i)))) as (b & Eb & Hb & Hn).
    { unfold group_threshold_binary_map, ndim. rewrite Hsh. cbn [length Nat.eqb].
      destruct Hc as [->|[->| ->]]; cbn [crit_norm bind fst snd]; fold (rows_norm t);
      match goal with |- context [sub_matrix_norm t ?nf ?gl ?ln 1] => change (sub_matrix_norm t nf gl ln 1) with (rows_norm t nf gl ln) end;
      rewrite (rows_norm_ok t R C Hsh); cbn [bind];
      (eexists; split; [reflexivity|]; split; [rewrite map_length; apply tab_length|]; intros i Hi;
       rewrite thr_map_nth by auto; reflexivity). }
    destruct (E1 b Hb) as (m & A & B & D). exists m. split; [|split; auto].
    + unfold group_threshold_mask. rewrite Eb. exact A.
    + intros i j Hi Hj. rewrite D, Hn; auto.
  - assert (exists b, group_threshold_binary_map l2 t TCols thr c = Ok b /\ length b = C /\
      forall i, (i < C)%nat -> nth i b 0 = b2q (Qltb thr (crit_score l2 c (col_of t R C i)))) as (b & Eb & Hb & Hn).
    { unfold group_threshold_binary_map, ndim. rewrite Hsh. cbn [length Nat.eqb].
      destruct Hc as [->|[->| ->]]; cbn [crit_norm bind fst snd];
      match goal with |- context [sub_matrix_norm t ?nf ?gl ?ln 0] => change (sub_matrix_norm t nf gl ln 0) with (cols_norm t nf gl ln) end;
      rewrite (cols_norm_ok t R C Hsh); cbn [bind];
      (eexists; split; [reflexivity|]; split; [rewrite map_length; apply tab_length|]; intros i Hi;
       rewrite thr_map_nth by auto; reflexivity). }
    destruct (E2 TCols b (or_introl eq_refl) Hb) as (m & A & B & D). exists m. split; [|split; auto].
    + unfold group_threshold_mask. rewrite Eb. exact A.
    + intros i j Hi Hj. rewrite D, Hn; auto.
Qed.

(** Finding: a mean-absolute-value threshold on rows divides by the number of rows instead of
    the row length: rows whose mean is below the threshold survive. *)
Theorem C18_mean_rows_refuted :
  exists t m, mat_shape t 1 4 /\
    group_threshold_mask (fun _ => 0) t TRows 2 CMean_Abs = Ok m /\
    crit_score (fun _ => 0) CMean_Abs (row_of t 4 0) < 2 /\ at2 m 4 0 0 == 1.
Proof.
  exists (mkND [1; 4]%nat [1; 1; 1; 1]). eexists. split; [|split; [vm_compute; reflexivity|]].
  - split; [reflexivity|]. split; [reflexivity|]. lia.
  - split; vm_compute; reflexivity.
Qed.

(** StructureParameterPruner: listed parameters get the threshold mask, others are not touched. *)
Theorem C18_structure_pruner :
  forall l2 regims c n p, c = CMax \/ c = CMean_Abs ->
  (dget regims n = None -> structure_pruner l2 regims c n p = Ok None) /\
  (forall thr g m, dget regims n = Some (thr, g) -> group_threshold_mask l2 p g thr c = Ok m ->
     structure_pruner l2 regims c n p = Ok (Some m)).
Proof.
  intros l2 regims c n p Hc. split.
  - intro H. unfold structure_pruner. destruct Hc as [-> | ->]; rewrite H; auto.
  - intros thr g m H Hm. unfold structure_pruner. destruct Hc as [-> | ->]; rewrite H, Hm; auto.
Qed.

Example C18_example :
  let t := mkND [2; 2; 1; 2]%nat [1; 2; 3; 4; 0; 0; 0; 1] in
  conv_shape t 2 2 1 2 /\
  group_threshold_mask (fun _ => 0) t TFilters 1 CMean_Abs = Ok (mkND [2; 2; 1; 2]%nat [1; 1; 1; 1; 0; 0; 0; 0]) /\
  group_threshold_mask (fun _ => 0) t TChannels 2 CMax = Ok (mkND [2; 2; 1; 2]%nat [0; 0; 1; 1; 0; 0; 1; 1]).
Proof. cbv zeta. split; [repeat split; try reflexivity; lia|]. split; vm_compute; reflexivity. Qed.

(* ------------------------------------------------------------------------- *)
(** * C20: structure norms *)
Theorem C20_conv_norms :
  forall t F C H W nf gl n (ln : bool), conv_shape t F C H W -> (0 < gl)%nat ->
  let d (x : Q) (k : nat) := if ln then x / Zq (Z.of_nat k) else x in
  (F = (n * gl)%nat -> filters_norm t nf gl ln =
     Ok (tab n (fun i => d (nf (each gl (fun j => filter_of t C H W (i * gl + j)))) (gl * (C * H * W))%nat))) /\
  (C = (n * gl)%nat -> channels_norm t nf gl ln =
     Ok (tab n (fun i => d (nf (each gl (fun j => channel_of t F C H W (i * gl + j)))) (gl * (F * H * W))%nat))) /\
  ((F * C = n * gl)%nat -> kernels_norm t nf gl ln =
     Ok (tab n (fun i => d (nf (each gl (fun j => kernel t C H W ((i * gl + j) / C) ((i * gl + j) mod C)))) (gl * (H * W))%nat))).
Proof.
  intros t F C H W nf gl n ln (Hsh & Hok & Hpos) Hg d. split; [|split]; intro Hn.
  - apply (filters_norm_ok t F C H W); auto.
  - apply (channels_norm_ok t F C H W); auto.
  - apply (kernels_norm_ok t F C H W); auto.
Qed.

(** A group length that does not divide the number of structures is an error. *)
Theorem C20_bad_group_len :
  forall t F C H W nf gl ln, conv_shape t F C H W -> (0 < gl)%nat ->
  (~ Nat.divide gl F -> filters_norm t nf gl ln = Raise RuntimeError) /\
  (~ Nat.divide gl C -> channels_norm t nf gl ln = Raise RuntimeError).
Proof.
  intros t F C H W nf gl ln (Hsh & Hok & Hpos) Hg. split; intro Hn.
  - apply (filters_norm_bad t F C H W); auto.
  - apply (channels_norm_bad t F C H W); auto.
Qed.

(** Rows and columns: one norm per row/column whatever the group length; when
    length_normalized the divisor is group_len times the number of rows (resp. columns). *)
Theorem C20_matrix_norms :
  forall t R C nf gl (ln : bool), mat_shape t R C ->
  rows_norm t nf gl ln = Ok (tab R (fun i => if ln then nf (row_of t C i) / Zq (Z.of_nat (gl * R)) else nf (row_of t C i))) /\
  cols_norm t nf gl ln = Ok (tab C (fun j => if ln then nf (col_of t R C j) / Zq (Z.of_nat (gl * C)) else nf (col_of t R C j))) /\
  channels_norm t nf gl ln = cols_norm t nf gl ln.
Proof.
  intros t R C nf gl ln (Hsh & Hok & Hpos). split; [|split].
  - apply (rows_norm_ok t R C Hsh).
  - apply (cols_norm_ok t R C Hsh).
  - unfold channels_norm. rewrite Hsh. auto.
Qed.

(** Finding: so the "mean" of a row of a non-square matrix is not its mean. *)
Theorem C20_row_mean_refuted :
  forall t R C, mat_shape t R C -> R <> C ->
  forall i, (i < R)%nat -> ~ l1_norm (row_of t C i) == 0 ->
  exists norms, rows_norm t l1_norm 1 true = Ok norms /\
    ~ nth i norms 0 == l1_norm (row_of t C i) / Zq (Z.of_nat (length (row_of t C i))).
Proof.
  intros t R C Hm Hne i Hi Hz. destruct (C20_matrix_norms t R C l1_norm 1 true Hm) as [E _].
  eexists. split; [exact E|]. rewrite tab_nth by auto. unfold row_of at 3. rewrite tab_length.
  destruct Hm as (_ & _ & HR & HC). rewrite Nat.mul_1_l.
  set (x := l1_norm (row_of t C i)) in *. intro K. apply Hne.
  assert (0 < Zq (Z.of_nat R)) by (apply Zq_pos; lia). assert (0 < Zq (Z.of_nat C)) by (apply Zq_pos; lia).
  assert (K2 : x * Zq (Z.of_nat C) == x * Zq (Z.of_nat R)).
  { assert (x == (x / Zq (Z.of_nat R)) * Zq (Z.of_nat R)) as E1 by (field; lra).
    assert (x == (x / Zq (Z.of_nat C)) * Zq (Z.of_nat C)) as E2 by (field; lra).
    rewrite K in E1. rewrite E1 at 1. field. lra. }
  apply Qmult_inj_l in K2; auto. apply Zq_inj in K2. lia.
Qed.

(* ------------------------------------------------------------------------- *)
(** * C19: ranked structure pruning *)
Theorem C19_count :
  forall n gl q f rf, (1 <= gl)%nat -> n = (q * gl)%nat -> (1 <= q)%nat -> rounding rf -> 0 <= f -> f <= 1 ->
  let k := num_structs_to_prune n gl f rf in
  (0 <= k <= Z.of_nat n)%Z /\ (Z.of_nat gl | k)%Z /\
  (f < 1 -> (k <= Z.of_nat n - Z.of_nat gl)%Z).
Proof.
  intros n gl q f rf Hg Hn Hq Hr H0 H1 k.
  destruct (num_structs_bounds n gl f rf q Hg Hn Hq Hr H0 H1) as [A B]. split; auto. split.
  - destruct (num_structs_multiple n gl f rf q Hg Hn) as [m E]. exists m. exact E.
  - intro Hf. apply B. lra.
Qed.

(** With the default rounding and group length the number is floor(f * n). *)
Theorem C19_count_floor :
  forall n f, 0 <= f -> f <= 1 -> (1 <= n)%nat ->
  num_structs_to_prune n 1 f Qfloor = Qfloor (f * Zq (Z.of_nat n)) /\
  (f < 1 -> (num_structs_to_prune n 1 f Qfloor < Z.of_nat n)%Z).
Proof.
  intros n f H0 H1 Hn. split; [apply num_structs_one; auto|]. intro Hf.
  destruct (C19_count n 1 n f Qfloor ltac:(lia) ltac:(lia) Hn rounding_floor H0 H1) as (_ & _ & B). specialize (B Hf). lia.
Qed.

Section Ranked.
Variables (mag : list Q -> Q) (f : Q) (n : nat).
Hypothesis Hf : 0 <= f /\ f <= 1.
Hypothesis Hn : (1 <= n)%nat.
Let k := Z.to_nat (Qfloor (f * Zq (Z.of_nat n))).

Lemma k_bounds : (k <= n)%nat /\ num_structs_to_prune n 1 f Qfloor = Z.of_nat k.
Proof using Hf Hn.
  destruct (C19_count_floor n f (proj1 Hf) (proj2 Hf) Hn) as [E _].
  destruct (num_structs_bounds n 1 f Qfloor n ltac:(lia) ltac:(lia) Hn rounding_floor (proj1 Hf) (proj2 Hf)) as [B _].
  rewrite E in *. unfold k. lia.
Qed.

Lemma rank_generic (s : nat -> Q) N : 0 < N ->
  (1 <= k)%nat ->
  exists b, (do r <- (do r <- k_smallest_elems (tab n (fun i => s i / N)) (Z.of_nat k) None; Ok (Some r));
             match r with None => Ok None | Some (bottomk, mags) => do b <- keep_above mags bottomk; Ok (Some b) end)
            = Ok (Some b) /\
    length b = n /\ zero_one b /\ weakest n k s (off b).
Proof using Hf Hn.
  intros HN Hk. destruct k_bounds as [Hkn _].
  set (mags := tab n (fun i => s i / N)).
  pose proof (topk_ok mags k ltac:(unfold mags; rewrite tab_length; lia)) as E.
  apply bind_ok in E. destruct E as (bk & E1 & E2).
  exists (keep_map (nth (k - 1) (qsort mags) 0) mags). unfold k_smallest_elems. rewrite E1. simpl. rewrite E2. simpl.
  split; auto. split; [unfold keep_map, mags; rewrite map_length, tab_length; auto|]. split; [apply keep_map_01|].
  apply (weakest_scale n k s N); auto. apply rank_weakest. lia.
Qed.
End Ranked.

(** Filters: with group_size 1 and no ranking noise, the pruner removes the weakest floor(f * F)
    filters, all-or-nothing; nothing happens when that number is 0. *)
Theorem C19_filters :
  forall t F C H W mag f, conv_shape t F C H W -> 0 <= f -> f <= 1 ->
  let k := Z.to_nat (Qfloor (f * Zq (Z.of_nat F))) in
  let r := rank_and_prune_filters f t true None mag None 1 Qfloor in
  (k = 0%nat -> r = Ok (None, None)) /\
  ((1 <= k)%nat -> exists b m, r = Ok (Some b, Some m) /\ length b = F /\ zero_one b /\ conv_shape m F C H W /\
     (forall fi ch h w, (fi < F)%nat -> (ch < C)%nat -> (h < H)%nat -> (w < W)%nat -> at4 m C H W fi ch h w = nth fi b 0) /\
     weakest F k (fun i => mag (filter_of t C H W i)) (off b)).
Proof.
  intros t F C H W mag f Hc H0 H1 k r. pose proof Hc as (Hsh & Hok & Hpos).
  destruct (k_bounds f F (conj H0 H1) ltac:(lia)) as [Hkn Ek]. fold k in Hkn, Ek.
  unfold r, rank_and_prune_filters, ndim. rewrite Hsh. cbn [length Nat.eqb orb].
  unfold rank_filters. rewrite Hsh, Ek. split; intro Hk.
  - rewrite Hk. reflexivity.
  - destruct (Z.eqb_spec (Z.of_nat k) 0); [lia|].
    rewrite (filters_norm_ok t F C H W Hsh Hok Hpos mag 1 F true) by lia. cbn [bind].
    destruct (rank_generic f F (conj H0 H1) ltac:(lia) (fun i => mag (each 1 (fun j => filter_of t C H W (i * 1 + j)))) (Zq (Z.of_nat (1 * (C * H * W)))))
      as (b & E & Hb & H01 & Hw); auto.
    { apply Zq_pos. nia. }
    fold k in E. cbv zeta in E. match goal with |- context [bind (bind ?x ?y) ?z] => idtac end.
    cbv zeta. rewrite E. cbn [bind].
    destruct (C18_expand_conv t F C H W Hc) as (E1 & _ & _). destruct (E1 TFilters b (or_introl eq_refl) Hb) as (m & A & B & D).
    rewrite A. cbn [bind]. exists b, m. split; auto. split; auto. split; auto. split; auto. split; auto.
    eapply weakest_ext; [|exact Hw]. intros i Hi. cbv beta. rewrite each_1. f_equal. f_equal. lia.
Qed.

(** Input channels of a convolution. *)
Theorem C19_channels :
  forall t F C H W mag f, conv_shape t F C H W -> 0 <= f -> f <= 1 ->
  let k := Z.to_nat (Qfloor (f * Zq (Z.of_nat C))) in
  let r := rank_and_prune_channels f t true None mag None 1 Qfloor in
  (k = 0%nat -> r = Ok (None, None)) /\
  ((1 <= k)%nat -> exists b m, r = Ok (Some b, Some m) /\ length b = C /\ zero_one b /\ conv_shape m F C H W /\
     (forall fi ch h w, (fi < F)%nat -> (ch < C)%nat -> (h < H)%nat -> (w < W)%nat -> at4 m C H W fi ch h w = nth ch b 0) /\
     weakest C k (fun i => mag (channel_of t F C H W i)) (off b)).
Proof.
  intros t F C H W mag f Hc H0 H1 k r. pose proof Hc as (Hsh & Hok & Hpos).
  destruct (k_bounds f C (conj H0 H1) ltac:(lia)) as [Hkn Ek]. fold k in Hkn, Ek.
  unfold r, rank_and_prune_channels. unfold rank_channels. rewrite Hsh, Ek. split; intro Hk.
  - rewrite Hk. reflexivity.
  - destruct (Z.eqb_spec (Z.of_nat k) 0); [lia|].
    rewrite (channels_norm_ok t F C H W Hsh Hok Hpos mag 1 C true) by lia. cbn [bind].
    destruct (rank_generic f C (conj H0 H1) ltac:(lia) (fun i => mag (each 1 (fun j => channel_of t F C H W (i * 1 + j)))) (Zq (Z.of_nat (1 * (F * H * W)))))
      as (b & E & Hb & H01 & Hw); auto.
    { apply Zq_pos. nia. }
    fold k in E. cbv zeta in *. rewrite E. cbn [bind].
    destruct (C18_expand_conv t F C H W Hc) as (_ & E1 & _). destruct (E1 b Hb) as (m & A & B & D).
    rewrite A. cbn [bind]. exists b, m. split; auto. split; auto. split; auto. split; auto. split; auto.
    eapply weakest_ext; [|exact Hw]. intros i Hi. cbv beta. rewrite each_1. f_equal. f_equal. lia.
Qed.

(** Input channels (columns) of a linear layer; this is also what group type 'Rows' prunes. *)
Theorem C19_matrix_columns :
  forall t R C mag f, mat_shape t R C -> 0 <= f -> f <= 1 ->
  let k := Z.to_nat (Qfloor (f * Zq (Z.of_nat C))) in
  let r := rank_and_prune_channels f t true None mag None 1 Qfloor in
  (k = 0%nat -> r = Ok (None, None)) /\
  ((1 <= k)%nat -> exists b m, r = Ok (Some b, Some m) /\ length b = C /\ zero_one b /\ mat_shape m R C /\
     (forall i j, (i < R)%nat -> (j < C)%nat -> at2 m C i j = nth j b 0) /\
     weakest C k (fun j => mag (col_of t R C j)) (off b)).
Proof.
  intros t R C mag f Hc H0 H1 k r. pose proof Hc as (Hsh & Hok & Hpos).
  destruct (k_bounds f C (conj H0 H1) ltac:(lia)) as [Hkn Ek]. fold k in Hkn, Ek.
  unfold r, rank_and_prune_channels. unfold rank_channels. rewrite Hsh, Ek. split; intro Hk.
  - rewrite Hk. reflexivity.
  - destruct (Z.eqb_spec (Z.of_nat k) 0); [lia|].
    destruct (C20_matrix_norms t R C mag 1 true Hc) as (_ & En & Ech). rewrite Ech, En. cbn [bind].
    destruct (rank_generic f C (conj H0 H1) ltac:(lia) (fun j => mag (col_of t R C j)) (Zq (Z.of_nat (1 * C))))
      as (b & E & Hb & H01 & Hw); auto.
    { apply Zq_pos. lia. }
    fold k in E. cbv zeta in *. rewrite E. cbn [bind].
    destruct (C18_expand_matrix t R C Hc) as (_ & E1). destruct (E1 TChannels b (or_intror eq_refl) Hb) as (m & A & B & D).
    rewrite A. cbn [bind]. exists b, m. repeat (split; auto).
Qed.

(** 'Rows' and 'Channels' are the same operation; so are '3D' and 'Filters'. A fraction of 0 does
    nothing. *)
Theorem C19_group_types :
  forall c noise f p want bm,
  (Qeq_bool f 0 = true -> prune_group c noise f p want bm = Ok (None, None)) /\
  (Qeq_bool f 0 = false ->
   (lp_group c = TRows \/ lp_group c = TChannels ->
      prune_group c noise f p want bm = rank_and_prune_channels f p want bm (lp_mag c) noise (lp_size c) Qfloor) /\
   (lp_group c = T3D \/ lp_group c = TFilters ->
      prune_group c noise f p want bm = rank_and_prune_filters f p want bm (lp_mag c) noise (lp_size c) Qfloor)).
Proof.
  intros c noise f p want bm. unfold prune_group. split; intro E; rewrite E; auto.
  split; intros [-> | ->]; auto.
Qed.

(** Finding: ties remove more than asked for, possibly every filter of the layer although the
    fraction is below 1. *)
Theorem C19_ties_remove_all_refuted :
  exists t b m, conv_shape t 2 1 1 1 /\
    rank_and_prune_filters (1 # 2) t true None l1_norm None 1 Qfloor = Ok (Some b, Some m) /\
    (forall x, In x (nd_data m) -> x == 0).
Proof.
  exists (mkND [2; 1; 1; 1]%nat [1; 1]). eexists. eexists. split; [repeat split; try reflexivity; lia|].
  split; [vm_compute; reflexivity|]. simpl. intros x [<-|[<-|[]]]; reflexivity.
Qed.

(** Finding: with group_size > 1 the 4-D pruners never prune anything: every call either does
    nothing or raises. *)
Theorem C19_group_size_refuted :
  forall t F C H W mag f gl b m, conv_shape t F C H W -> (2 <= gl)%nat ->
  (rank_and_prune_filters f t true None mag None gl Qfloor = Ok (b, m) -> m = None) /\
  (rank_and_prune_channels f t true None mag None gl Qfloor = Ok (b, m) -> m = None).
Proof.
  intros t F C H W mag f gl b m Hc Hg. pose proof Hc as (Hsh & Hok & Hpos). split.
  - unfold rank_and_prune_filters, ndim. rewrite Hsh. cbn [length Nat.eqb orb].
    unfold rank_filters. rewrite Hsh. set (k := num_structs_to_prune F gl f Qfloor).
    destruct (Z.eqb_spec k 0) as [E0|Hk]; [simpl; intro H'; injection H' as <- <-; auto|].
    destruct (Nat.eq_dec (F mod gl) 0) as [Ed|Ed].
    2:{ rewrite (filters_norm_bad t F C H W) by (auto; try lia; intros [q Hq]; apply Ed; rewrite Hq; apply Nat.mod_mul; lia).
        discriminate. }
    apply Nat.mod_divide in Ed; [|lia]. destruct Ed as [q Hq].
    rewrite (filters_norm_ok t F C H W Hsh Hok Hpos mag gl q true) by lia. cbn [bind].
    match goal with |- context [k_smallest_elems ?M k None] => set (mags := M) end.
    assert (Hl : length mags = q) by apply tab_length.
    destruct (num_structs_multiple F gl f Qfloor q ltac:(lia) Hq) as [mm Hm]. fold k in Hm.
    destruct (Z_lt_dec k 0) as [Hneg|Hneg].
    { unfold k_smallest_elems. rewrite topk_raises by lia. discriminate. }
    destruct (Z_lt_dec (Z.of_nat q) k) as [Hbig|Hbig].
    { unfold k_smallest_elems. rewrite topk_raises by lia. discriminate. }
    pose proof (topk_ok mags (Z.to_nat k) ltac:(lia)) as E. rewrite Z2Nat.id in E by lia.
    apply bind_ok in E. destruct E as (bk & E1 & E2). unfold k_smallest_elems. rewrite E1. cbn [bind]. rewrite E2. cbn [bind].
    rewrite expand_filters_bad with (F := F) (C := C) (H := H) (W := W); auto; [discriminate| |];
      unfold keep_map; rewrite map_length, Hl; [nia|].
    intro K. assert (E3 : (mm * Z.of_nat gl = 1)%Z) by lia.
    assert (mm <= 0 \/ 1 <= mm)%Z as [K1|K1] by lia; nia.
  - unfold rank_and_prune_channels. unfold rank_channels. rewrite Hsh. set (k := num_structs_to_prune C gl f Qfloor).
    destruct (Z.eqb_spec k 0) as [E0|Hk]; [simpl; intro H'; injection H' as <- <-; auto|].
    destruct (Nat.eq_dec (C mod gl) 0) as [Ed|Ed].
    2:{ rewrite (channels_norm_bad t F C H W) by (auto; try lia; intros [q Hq]; apply Ed; rewrite Hq; apply Nat.mod_mul; lia).
        discriminate. }
    apply Nat.mod_divide in Ed; [|lia]. destruct Ed as [q Hq].
    rewrite (channels_norm_ok t F C H W Hsh Hok Hpos mag gl q true) by lia. cbn [bind].
    match goal with |- context [k_smallest_elems ?M k None] => set (mags := M) end.
    assert (Hl : length mags = q) by apply tab_length.
    destruct (num_structs_multiple C gl f Qfloor q ltac:(lia) Hq) as [mm Hm]. fold k in Hm.
    destruct (Z_lt_dec k 0) as [Hneg|Hneg].
    { unfold k_smallest_elems. rewrite topk_raises by lia. discriminate. }
    destruct (Z_lt_dec (Z.of_nat q) k) as [Hbig|Hbig].
    { unfold k_smallest_elems. rewrite topk_raises by lia. discriminate. }
    pose proof (topk_ok mags (Z.to_nat k) ltac:(lia)) as E. rewrite Z2Nat.id in E by lia.
    apply bind_ok in E. destruct E as (bk & E1 & E2). unfold k_smallest_elems. rewrite E1. cbn [bind]. rewrite E2. cbn [bind].
    rewrite expand_channels_bad with (F := F) (C := C) (H := H) (W := W); auto; [discriminate| |];
      unfold keep_map; rewrite map_length, Hl; [nia|].
    intro K. assert (E3 : (mm * Z.of_nat gl = 1)%Z) by lia.
    assert (mm <= 0 \/ 1 <= mm)%Z as [K1|K1] by lia; nia.
Qed.

Example C19_example :
  let t := mkND [4; 1; 1; 2]%nat [1; 1; 5; 5; 2; -(3); 0; 1] in
  conv_shape t 4 1 1 2 /\
  rank_and_prune_filters (1 # 2) t true None l1_norm None 1 Qfloor =
    Ok (Some [0; 1; 1; 0], Some (mkND [4; 1; 1; 2]%nat [0; 0; 1; 1; 1; 1; 0; 0])) /\
  count_below 4 (fun i => Qle_bool (l1_norm (filter_of t 1 1 2 i)) 2) = 2%nat /\
  rounding Qfloor.
Proof.
  cbv zeta. split; [repeat split; try reflexivity; lia|]. split; [vm_compute; reflexivity|].
  split; [vm_compute; reflexivity|apply rounding_floor].
Qed.

Print Assumptions C18_expand_conv.
Print Assumptions C18_expand_matrix.
Print Assumptions C18_threshold_filters.
Print Assumptions C18_threshold_channels.
Print Assumptions C18_threshold_kernels.
Print Assumptions C18_threshold_matrix.
Print Assumptions C18_mean_rows_refuted.
Print Assumptions C18_structure_pruner.
Print Assumptions C20_conv_norms.
Print Assumptions C20_bad_group_len.
Print Assumptions C20_matrix_norms.
Print Assumptions C20_row_mean_refuted.
Print Assumptions C19_count.
Print Assumptions C19_count_floor.
Print Assumptions C19_filters.
Print Assumptions C19_channels.
Print Assumptions C19_matrix_columns.
Print Assumptions C19_group_types.
Print Assumptions C19_ties_remove_all_refuted.
Print Assumptions C19_group_size_refuted.
