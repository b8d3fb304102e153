(** Lemmas about structured tensors. *)
From Coq Require Import String List ZArith QArith Qabs Qround Bool Arith Lia Lqa Permutation.
From Verif Require Import Base Lists SchedModel PrunerModel PrunerProofs StructModel StructSpec.
Import ListNotations.

Lemma idx_lt i j a b : (i < a)%nat -> (j < b)%nat -> (i * b + j < a * b)%nat.
Proof. intros. nia. Qed.

Lemma idx_div i j b : (j < b)%nat -> ((i * b + j) / b)%nat = i.
Proof. intro H. rewrite Nat.div_add_l by lia. rewrite Nat.div_small by auto. lia. Qed.

Lemma idx_mod i j b : (j < b)%nat -> ((i * b + j) mod b)%nat = j.
Proof. intro H. rewrite Nat.add_comm, Nat.mod_add by lia. apply Nat.mod_small; auto. Qed.

Lemma tab_S {A} n (f : nat -> A) : tab (S n) f = f 0%nat :: tab n (fun i => f (S i)).
Proof. unfold tab. simpl. f_equal. rewrite <- seq_shift, map_map. auto. Qed.

Lemma tab_app {A} n m (f : nat -> A) : tab (n + m) f = tab n f ++ tab m (fun j => f (n + j)%nat).
Proof.
  revert f; induction n as [|n IH]; intro f; [reflexivity|].
  simpl plus. rewrite !tab_S. simpl. f_equal. apply IH.
Qed.

Lemma each_tab {A} n m (f : nat -> A) : each n (fun i => tab m (fun j => f (i * m + j)%nat)) = tab (n * m) f.
Proof.
  unfold each. revert f. induction n as [|n IH]; intro f; [reflexivity|].
  rewrite tab_S. simpl concat. simpl Nat.mul. rewrite tab_app. f_equal.
  rewrite <- IH. f_equal. apply tab_ext. intros i _. apply tab_ext. intros j _. f_equal. lia.
Qed.

Lemma each_ext {A} n (f g : nat -> list A) : (forall i, (i < n)%nat -> f i = g i) -> each n f = each n g.
Proof. intro H. unfold each. f_equal. apply tab_ext. auto. Qed.

Lemma expand2_ok b r c : length b = c -> expand2 b r c = Ok (tab (r * c) (fun k => nth (k mod c) b 0)).
Proof. intro H. unfold expand2. rewrite H, Nat.eqb_refl. auto. Qed.

Lemma expand2_nth b r c i j : (i < r)%nat -> (j < c)%nat ->
  nth (i * c + j) (tab (r * c) (fun k => nth (k mod c) b 0)) 0 = nth j b 0.
Proof. intros Hi Hj. rewrite tab_nth by (apply idx_lt; auto). rewrite idx_mod; auto. Qed.

Lemma transp_length r c d : length (transp r c d) = (c * r)%nat.
Proof. apply tab_length. Qed.

Lemma transp_nth r c d i j : (i < c)%nat -> (j < r)%nat ->
  nth (i * r + j) (transp r c d) 0 = nth (j * c + i) d 0.
Proof.
  intros Hi Hj. unfold transp. rewrite tab_nth by (apply idx_lt; auto).
  rewrite idx_mod, idx_div; auto.
Qed.

Lemma expand_last_nth s d i j : (i < length d)%nat -> (j < s)%nat ->
  nth (i * s + j) (expand_last s d) 0 = nth i d 0.
Proof. intros Hi Hj. unfold expand_last. rewrite tab_nth by (apply idx_lt; auto). rewrite idx_div; auto. Qed.

Lemma transpose01_length a b s d : length (transpose01 a b s d) = (b * a * s)%nat.
Proof. apply tab_length. Qed.

Lemma transpose01_nth a b s d i j q : (i < b)%nat -> (j < a)%nat -> (q < s)%nat ->
  nth (i * (a * s) + (j * s + q)) (transpose01 a b s d) 0 = nth ((j * b + i) * s + q) d 0.
Proof.
  intros Hi Hj Hq. unfold transpose01.
  assert (H : (j * s + q < a * s)%nat) by (apply idx_lt; auto).
  rewrite tab_nth by (rewrite <- Nat.mul_assoc; apply idx_lt; auto).
  assert (E : (i * (a * s) + (j * s + q) = (i * a + j) * s + q)%nat) by ring.
  rewrite (idx_div i (j * s + q) (a * s)) by auto.
  rewrite E, idx_div, idx_mod, idx_mod by auto. auto.
Qed.

Lemma view_rows_ok g n d : (0 < g)%nat -> length d = (n * g)%nat ->
  view_rows g d = Ok (tab n (fun i => tab g (fun j => nth (i * g + j) d 0))).
Proof.
  intros Hg Hl. unfold view_rows. destruct (Nat.eqb_spec g 0); [lia|].
  rewrite Hl, Nat.mod_mul by lia. simpl. f_equal.
  apply (list_eq_nth []).
  - rewrite (chunks_length g n d), tab_length; auto.
  - intros i Hi. rewrite (chunks_length g n d) in Hi by auto.
    rewrite (chunks_nth g n d i), tab_nth by auto. apply (row_tab 0 g d i n); auto.
Qed.

Lemma view_rows_bad g d : (0 < g)%nat -> ~ Nat.divide g (length d) -> view_rows g d = Raise RuntimeError.
Proof.
  intros Hg Hn. unfold view_rows. destruct (Nat.eqb_spec g 0); [lia|].
  destruct (Nat.eqb_spec (length d mod g) 0) as [E|]; auto.
  exfalso. apply Hn. apply Nat.mod_divide; lia.
Qed.

(** ** structures as tables *)
Lemma kernel_tab t C H W f c : kernel t C H W f c = tab (H * W) (fun k => nth ((f * C + c) * (H * W) + k) (nd_data t) 0).
Proof.
  unfold kernel. rewrite <- each_tab. apply each_ext. intros h _. apply tab_ext. intros w _. unfold at4. f_equal. ring.
Qed.

Lemma filter_tab t C H W f : filter_of t C H W f = tab (C * (H * W)) (fun k => nth (f * (C * (H * W)) + k) (nd_data t) 0).
Proof.
  unfold filter_of. rewrite <- each_tab. apply each_ext. intros c _. rewrite kernel_tab. apply tab_ext. intros k _. f_equal. ring.
Qed.

Lemma filters_tab t C H W i g : each g (fun j => filter_of t C H W (i * g + j)) =
  tab (g * (C * (H * W))) (fun k => nth (i * (g * (C * (H * W))) + k) (nd_data t) 0).
Proof.
  rewrite <- each_tab. apply each_ext. intros j _. rewrite filter_tab. apply tab_ext. intros k _. f_equal. ring.
Qed.

Lemma kernels_tab t C H W i g : (0 < C)%nat -> each g (fun j => kernel t C H W ((i * g + j) / C) ((i * g + j) mod C)) =
  tab (g * (H * W)) (fun k => nth (i * (g * (H * W)) + k) (nd_data t) 0).
Proof.
  intro HC. rewrite <- each_tab. apply each_ext. intros j _. rewrite kernel_tab. apply tab_ext. intros k _. f_equal.
  pose proof (Nat.div_mod (i * g + j) C ltac:(lia)) as E.
  replace ((i * g + j) / C * C + (i * g + j) mod C)%nat with (i * g + j)%nat by lia. ring.
Qed.

Lemma channel_tab t F C H W c : (c < C)%nat -> nd_shape t = [F; C; H; W] ->
  channel_of t F C H W c =
  tab (F * (H * W)) (fun k => nth (c * (F * (H * W)) + k) (transpose01 F C (H * W) (nd_data t)) 0).
Proof.
  intros Hc _. unfold channel_of. rewrite <- each_tab. apply each_ext. intros f Hf. rewrite kernel_tab.
  apply tab_ext. intros k Hk. rewrite transpose01_nth; auto.
Qed.

Lemma channels_tab t F C H W i g : (i * g + g <= C)%nat ->
  each g (fun j => channel_of t F C H W (i * g + j)) =
  tab (g * (F * (H * W))) (fun k => nth (i * (g * (F * (H * W))) + k) (transpose01 F C (H * W) (nd_data t)) 0).
Proof.
  intro Hg. rewrite <- each_tab. apply each_ext. intros j Hj.
  unfold channel_of. rewrite <- each_tab. apply each_ext. intros f Hf. rewrite kernel_tab.
  apply tab_ext. intros k Hk. rewrite <- (transpose01_nth F C (H * W) (nd_data t) (i * g + j) f k) by (auto; lia).
  f_equal. ring.
Qed.

(** ** norms *)
Lemma generic_norm_tab n (s : nat -> list Q) nf gs ln :
  generic_norm (tab n s) nf gs ln =
  tab n (fun i => if ln then nf (s i) / Zq (Z.of_nat gs) else nf (s i)).
Proof. unfold generic_norm, tab. rewrite map_map. auto. Qed.

Section Norm4.
Variables (t : nd) (F C H W : nat).
Hypothesis Hsh : nd_shape t = [F; C; H; W].
Hypothesis Hok : nd_ok t.
Hypothesis Hpos : (0 < F /\ 0 < C /\ 0 < H /\ 0 < W)%nat.

Lemma data_len : length (nd_data t) = (F * (C * (H * W)))%nat.
Proof using Hsh Hok. unfold nd_ok in Hok. rewrite Hok, Hsh. simpl. ring. Qed.

Lemma filters_norm_ok nf gl n ln : (0 < gl)%nat -> F = (n * gl)%nat ->
  filters_norm t nf gl ln = Ok (tab n (fun i =>
    let x := nf (each gl (fun j => filter_of t C H W (i * gl + j))) in
    if ln then x / Zq (Z.of_nat (gl * (C * H * W))) else x)).
Proof using Hsh Hok Hpos.
  intros Hg Hn. unfold filters_norm, ndim. rewrite Hsh. cbn [length Nat.eqb skipn numel fold_right].
  replace (gl * (C * (H * (W * 1))))%nat with (gl * (C * (H * W)))%nat by ring.
  rewrite (view_rows_ok (gl * (C * (H * W))) n); [|nia|rewrite data_len, Hn; ring].
  simpl bind. rewrite generic_norm_tab. f_equal. apply tab_ext. intros i Hi. cbv zeta.
  rewrite filters_tab. replace (C * H * W)%nat with (C * (H * W))%nat by ring. reflexivity.
Qed.

Lemma filters_norm_bad nf gl ln : (0 < gl)%nat -> ~ Nat.divide gl F ->
  filters_norm t nf gl ln = Raise RuntimeError.
Proof using Hsh Hok Hpos.
  intros Hg Hn. unfold filters_norm, ndim. rewrite Hsh. cbn [length Nat.eqb skipn numel fold_right].
  rewrite view_rows_bad; auto.
  - nia.
  - rewrite data_len. intros [q Hq]. apply Hn. exists q.
    apply (Nat.mul_cancel_r _ _ (C * (H * W))); [nia|]. rewrite Hq. ring.
Qed.

Lemma kernels_norm_ok nf gl n ln : (0 < gl)%nat -> (F * C = n * gl)%nat ->
  kernels_norm t nf gl ln = Ok (tab n (fun i =>
    let x := nf (each gl (fun j => kernel t C H W ((i * gl + j) / C) ((i * gl + j) mod C))) in
    if ln then x / Zq (Z.of_nat (gl * (H * W))) else x)).
Proof using Hsh Hok Hpos.
  intros Hg Hn. unfold kernels_norm, ndim. rewrite Hsh. cbn [length Nat.eqb skipn numel fold_right].
  replace (gl * (H * (W * 1)))%nat with (gl * (H * W))%nat by ring.
  rewrite (view_rows_ok (gl * (H * W)) n); [|nia|rewrite data_len; rewrite Nat.mul_assoc, Hn; ring].
  simpl bind. rewrite generic_norm_tab. f_equal. apply tab_ext. intros i Hi. cbv zeta.
  rewrite kernels_tab by lia. reflexivity.
Qed.

Lemma channels_norm_ok nf gl n ln : (0 < gl)%nat -> C = (n * gl)%nat ->
  channels_norm t nf gl ln = Ok (tab n (fun i =>
    let x := nf (each gl (fun j => channel_of t F C H W (i * gl + j))) in
    if ln then x / Zq (Z.of_nat (gl * (F * H * W))) else x)).
Proof using Hsh Hok Hpos.
  intros Hg Hn. unfold channels_norm. rewrite Hsh.
  rewrite (view_rows_ok (gl * (F * (H * W))) n); [|nia|rewrite transpose01_length; rewrite Hn; ring].
  simpl bind. rewrite generic_norm_tab. f_equal. apply tab_ext. intros i Hi. cbv zeta.
  rewrite channels_tab by (rewrite Hn; nia). replace (F * H * W)%nat with (F * (H * W))%nat by ring. reflexivity.
Qed.

Lemma channels_norm_bad nf gl ln : (0 < gl)%nat -> ~ Nat.divide gl C ->
  channels_norm t nf gl ln = Raise RuntimeError.
Proof using Hsh Hok Hpos.
  intros Hg Hn. unfold channels_norm. rewrite Hsh.
  rewrite view_rows_bad; auto.
  - nia.
  - rewrite transpose01_length. intros [q Hq]. apply Hn. exists q.
    apply (Nat.mul_cancel_r _ _ (F * (H * W))); [nia|]. replace (q * gl * (F * (H * W)))%nat with (q * (gl * (F * (H * W))))%nat by ring. rewrite <- Hq. ring.
Qed.

(** ** expansion *)
Lemma expand_filters_ok g b : (g = TFilters \/ g = T3D) -> length b = F ->
  exists m, expand_binary_map t g b = Ok m /\ nd_shape m = nd_shape t /\ nd_ok m /\
  forall f c h w, (f < F)%nat -> (c < C)%nat -> (h < H)%nat -> (w < W)%nat ->
    at4 m C H W f c h w = nth f b 0.
Proof using Hsh Hok Hpos.
  intros Hg Hb.
  assert (E : expand_binary_map t g b =
    Ok (mkND (nd_shape t) (transp (C * (H * W)) F (tab (C * (H * W) * F) (fun k => nth (k mod F) b 0))))).
  { destruct Hg; subst g; unfold expand_binary_map, size; rewrite Hsh; cbn [nth_error bind skipn numel fold_right];
    replace (C * (H * (W * 1)))%nat with (C * (H * W))%nat by ring;
    rewrite expand2_ok by auto; simpl bind; unfold view; cbn [nd_data];
    rewrite transp_length; simpl numel;
    (destruct (Nat.eqb_spec (F * (C * (H * W))) (F * (C * (H * (W * 1))))) as [|Hne]; [reflexivity|exfalso; apply Hne; ring]). }
  eexists. split; [exact E|]. cbn [nd_shape]. split; auto. split.
  - unfold nd_ok. cbn [nd_data nd_shape]. rewrite transp_length, Hsh. simpl. ring.
  - intros f c h w Hf Hc Hh Hw. unfold at4. cbn [nd_data].
    replace (((f * C + c) * H + h) * W + w)%nat with (f * (C * (H * W)) + (c * (H * W) + (h * W + w)))%nat by ring.
    assert (Hk : (c * (H * W) + (h * W + w) < C * (H * W))%nat) by (apply idx_lt; auto; apply idx_lt; auto).
    rewrite transp_nth by auto. rewrite expand2_nth by auto. reflexivity.
Qed.

Lemma expand_kernels_ok b : length b = (F * C)%nat ->
  exists m, expand_binary_map t T2D b = Ok m /\ nd_shape m = nd_shape t /\ nd_ok m /\
  forall f c h w, (f < F)%nat -> (c < C)%nat -> (h < H)%nat -> (w < W)%nat ->
    at4 m C H W f c h w = nth (f * C + c) b 0.
Proof using Hsh Hok Hpos.
  intros Hb.
  assert (E : expand_binary_map t T2D b =
    Ok (mkND (nd_shape t) (transp (H * W) (F * C) (tab (H * W * (F * C)) (fun k => nth (k mod (F * C)) b 0))))).
  { unfold expand_binary_map, size; rewrite Hsh; cbn [nth_error bind].
    rewrite expand2_ok by auto; simpl bind; unfold view; cbn [nd_data];
    rewrite transp_length; simpl numel.
    destruct (Nat.eqb_spec (F * C * (H * W)) (F * (C * (H * (W * 1))))) as [|Hne]; [reflexivity|exfalso; apply Hne; ring]. }
  eexists. split; [exact E|]. cbn [nd_shape]. split; auto. split.
  - unfold nd_ok. cbn [nd_data nd_shape]. rewrite transp_length, Hsh. simpl. ring.
  - intros f c h w Hf Hc Hh Hw. unfold at4. cbn [nd_data].
    replace (((f * C + c) * H + h) * W + w)%nat with ((f * C + c) * (H * W) + (h * W + w))%nat by ring.
    rewrite transp_nth by (apply idx_lt; auto). rewrite expand2_nth by (apply idx_lt; auto). reflexivity.
Qed.

Lemma expand_channels_ok b : length b = C ->
  exists m, expand_binary_map t TChannels b = Ok m /\ nd_shape m = nd_shape t /\ nd_ok m /\
  forall f c h w, (f < F)%nat -> (c < C)%nat -> (h < H)%nat -> (w < W)%nat ->
    at4 m C H W f c h w = nth c b 0.
Proof using Hsh Hok Hpos.
  intros Hb.
  assert (E : expand_binary_map t TChannels b =
    Ok (mkND (nd_shape t) (expand_last (H * W) (tab (F * C) (fun k => nth (k mod C) b 0))))).
  { unfold expand_binary_map, size, ndim; rewrite Hsh; cbn [nth_error bind length Nat.eqb].
    rewrite expand2_ok by auto; simpl bind; unfold view; cbn [nd_data].
    unfold expand_last at 1. rewrite !tab_length. simpl numel.
    destruct (Nat.eqb_spec (F * C * (H * W)) (F * (C * (H * (W * 1))))) as [|Hne]; [reflexivity|exfalso; apply Hne; ring]. }
  eexists. split; [exact E|]. cbn [nd_shape]. split; auto. split.
  - unfold nd_ok. cbn [nd_data nd_shape]. unfold expand_last. rewrite !tab_length, Hsh. simpl. ring.
  - intros f c h w Hf Hc Hh Hw. unfold at4. cbn [nd_data].
    replace (((f * C + c) * H + h) * W + w)%nat with ((f * C + c) * (H * W) + (h * W + w))%nat by ring.
    rewrite expand_last_nth by (rewrite ?tab_length; apply idx_lt; auto).
    apply expand2_nth; auto.
Qed.

(** a binary map of the wrong length (and not of length 1) cannot be expanded *)
Lemma expand_filters_bad b : length b <> F -> length b <> 1%nat ->
  expand_binary_map t TFilters b = Raise RuntimeError.
Proof using Hsh.
  intros H1 H2. unfold expand_binary_map, size. rewrite Hsh. cbn [nth_error bind].
  unfold expand2. destruct (Nat.eqb_spec (length b) F); [contradiction|].
  destruct (Nat.eqb_spec (length b) 1); [contradiction|]. reflexivity.
Qed.
Lemma expand_channels_bad b : length b <> C -> length b <> 1%nat ->
  expand_binary_map t TChannels b = Raise RuntimeError.
Proof using Hsh.
  intros H1 H2. unfold expand_binary_map, size, ndim. rewrite Hsh. cbn [nth_error bind length Nat.eqb].
  unfold expand2. destruct (Nat.eqb_spec (length b) C); [contradiction|].
  destruct (Nat.eqb_spec (length b) 1); [contradiction|]. reflexivity.
Qed.
End Norm4.

Section Norm2.
Variables (t : nd) (R C : nat).
Hypothesis Hsh : nd_shape t = [R; C].
Hypothesis Hok : nd_ok t.
Hypothesis Hpos : (0 < R /\ 0 < C)%nat.

Lemma rows_norm_ok nf gl ln :
  rows_norm t nf gl ln = Ok (tab R (fun i => let x := nf (row_of t C i) in
     if ln then x / Zq (Z.of_nat (gl * R)) else x)).
Proof using Hsh. unfold rows_norm, sub_matrix_norm. rewrite Hsh. simpl. rewrite generic_norm_tab. reflexivity. Qed.

Lemma cols_norm_ok nf gl ln :
  cols_norm t nf gl ln = Ok (tab C (fun j => let x := nf (col_of t R C j) in
     if ln then x / Zq (Z.of_nat (gl * C)) else x)).
Proof using Hsh. unfold cols_norm, sub_matrix_norm. rewrite Hsh. simpl. rewrite generic_norm_tab. reflexivity. Qed.

Lemma expand_rows_ok b : length b = R ->
  exists m, expand_binary_map t TRows b = Ok m /\ nd_shape m = nd_shape t /\ nd_ok m /\
  forall i j, (i < R)%nat -> (j < C)%nat -> at2 m C i j = nth i b 0.
Proof using Hsh Hok Hpos.
  intro Hb. eexists. split; [|split; [|split]].
  - unfold expand_binary_map, size. rewrite Hsh. cbn [nth_error bind]. rewrite expand2_ok by auto. reflexivity.
  - rewrite Hsh. reflexivity.
  - unfold nd_ok. cbn [nd_data nd_shape]. rewrite transp_length. simpl. lia.
  - intros i j Hi Hj. unfold at2. cbn [nd_data]. rewrite transp_nth by auto. rewrite expand2_nth; auto.
Qed.

Lemma expand_cols_ok g b : (g = TCols \/ g = TChannels) -> length b = C ->
  exists m, expand_binary_map t g b = Ok m /\ nd_shape m = nd_shape t /\ nd_ok m /\
  forall i j, (i < R)%nat -> (j < C)%nat -> at2 m C i j = nth j b 0.
Proof using Hsh Hok Hpos.
  intros Hg Hb. eexists. split; [|split; [|split]].
  - destruct Hg; subst g; unfold expand_binary_map, ndim; rewrite Hsh; cbn [length Nat.eqb bind];
    rewrite expand2_ok by auto; reflexivity.
  - rewrite Hsh. reflexivity.
  - unfold nd_ok. cbn [nd_data nd_shape]. rewrite tab_length. simpl. lia.
  - intros i j Hi Hj. unfold at2. cbn [nd_data]. apply expand2_nth; auto.
Qed.
End Norm2.

(** ** L1 norm and zeros *)
Lemma qsum_abs_nonneg l : 0 <= qsum (map Qabs l).
Proof.
  induction l as [|x l IH]; [apply Qle_refl|].
  change (qsum (map Qabs (x :: l))) with (Qabs x + qsum (map Qabs l)). pose proof (Qabs_nonneg x). lra.
Qed.

Lemma l1_zero l : Qeq_bool (l1_norm l) 0 = all_zero l.
Proof.
  unfold l1_norm, all_zero. induction l as [|x l IH]; [reflexivity|].
  cbn [forallb]. rewrite <- IH. pose proof (Qabs_nonneg x) as Hx. pose proof (qsum_abs_nonneg l) as Hn.
  change (qsum (map Qabs (x :: l))) with (Qabs x + qsum (map Qabs l)).
  set (S := qsum (map Qabs l)) in *. clearbody S.
  apply eq_true_iff_eq. rewrite andb_true_iff, !Qeq_bool_iff. split.
  - intro E. assert (Qabs x == 0) as K by lra. split; [|lra].
    destruct (Qlt_le_dec x 0) as [Hx'|Hx'].
    + rewrite Qabs_neg in K by lra. lra.
    + rewrite Qabs_pos in K by auto. auto.
  - intros [E1 E2]. assert (Qabs x == 0) by (rewrite E1; reflexivity). lra.
Qed.

Lemma nonzero_tab n (s : nat -> list Q) :
  nonzero (tab n (fun i => l1_norm (s i))) = count_below n (fun i => negb (all_zero (s i))).
Proof.
  unfold nonzero, tab. rewrite countb_map. apply countb_ext. intros i _. rewrite l1_zero. auto.
Qed.
