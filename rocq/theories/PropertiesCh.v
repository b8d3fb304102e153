(** C114: activation channel statistics and activation records. *)
From Coq Require Import String Ascii List Reals Arith Bool Lia Lra Permutation.
From Verif Require Import Base CollModel CollSpec CollProofs PropertiesColl LapqModel ChModel ChSpec ChProofs.
Import ListNotations.
Open Scope list_scope.
Open Scope nat_scope.
Open Scope R_scope.

(** C114: the number reported for channel j of a batch of images: the batch mean of the L1 norms, the mean of the
    channel's values, the percentage of zeros among them. *)
Theorem C114_channel_statistics : forall a n c h w, images a n c h w ->
  exists l1 means apoz,
    activation_channels_l1 a = Ok l1 /\ activation_channels_means a = Ok means /\ activation_channels_apoz a = Ok apoz /\
    length l1 = c /\ length means = c /\ length apoz = c /\
    forall j, (j < c)%nat ->
      nth j l1 0 = rsum (map Rabs (channel a j)) / INR n /\
      nth j means 0 = CollSpec.mean (channel a j) /\
      (forall z, n_zeros (channel a j) z -> nth j apoz 0 = 100 * INR z / INR (n * (h * w))).
Proof.
  intros a n c h w H. rewrite (l1_eq _ _ _ _ _ H), (means_eq _ _ _ _ _ H), (apoz_eq _ _ _ _ _ H).
  do 3 eexists. do 3 (split; [reflexivity|]). rewrite !map_length, !seq_length. do 3 (split; [reflexivity|]).
  intros j Hj. rewrite !nth_map_seq by auto. split; [reflexivity|]. split; [reflexivity|].
  intros z Hz. unfold apoz_stat. rewrite (n_zeros_eq _ _ Hz), (channel_length _ _ _ _ _ _ H). reflexivity.
Qed.

Lemma channel_nonempty a n c h w j : images a n c h w -> (0 < length (channel a j))%nat.
Proof. intro H. rewrite (channel_length _ _ _ _ _ _ H). destruct H as (_ & _ & Hn & _ & Hh & Hw). repeat apply Nat.mul_pos_pos; auto. Qed.
Lemma zeros_all l : (zeros l = length l)%nat <-> Forall (fun x => x = 0) l.
Proof.
  pose proof (nonzeros_eq l) as E. unfold nonzeros in E. split.
  - intro H. rewrite Forall_forall. intros x Hx. destruct (Req_EM_T x 0) as [|Hne]; auto. exfalso.
    assert (In x (filter (fun x => if Rlt_dec 0 (Rabs x) then true else false) l)) as K.
    { apply filter_In. split; auto. destruct (Rlt_dec 0 (Rabs x)); auto. exfalso; apply n. apply Rabs_pos_lt; auto. }
    destruct (filter (fun x => if Rlt_dec 0 (Rabs x) then true else false) l); [contradiction|simpl in E; lia].
  - clear E. unfold zeros. induction 1 as [|x l Hx Hl IH]; [reflexivity|]. cbn [filter]. destruct (Req_EM_T x 0); [simpl; lia|congruence].
Qed.

(** APoZ is a percentage; it is 100 exactly for a channel that is dead on the whole batch. *)
Theorem C114_apoz_range : forall a n c h w v j, images a n c h w -> activation_channels_apoz a = Ok v -> (j < c)%nat ->
  0 <= nth j v 0 <= 100 /\ (nth j v 0 = 100 <-> Forall (fun x => x = 0) (channel a j)).
Proof.
  intros a n c h w v j H E Hj. rewrite (apoz_eq _ _ _ _ _ H) in E. assert (v = map (fun j => apoz_stat (channel a j)) (seq 0 c)) by congruence. subst v.
  rewrite nth_map_seq by auto. unfold apoz_stat. assert (P : 0 < INR (length (channel a j))) by (apply INR_pos, (channel_nonempty _ _ _ _ _ _ H)).
  assert (Q : INR (zeros (channel a j)) <= INR (length (channel a j))) by (apply le_INR, zeros_le).
  assert (Q0 : 0 <= INR (zeros (channel a j))) by apply pos_INR.
  split; [split|].
  - apply Rdiv_nonneg; auto. lra.
  - apply Rmult_le_reg_r with (INR (length (channel a j))); auto. unfold Rdiv. rewrite Rmult_assoc, Rinv_l by lra. lra.
  - rewrite <- zeros_all. split; intro K.
    + apply INR_eq. apply (f_equal (fun x => x * INR (length (channel a j)))) in K. unfold Rdiv in K. rewrite Rmult_assoc, Rinv_l in K by lra. lra.
    + rewrite K. field. lra.
Qed.

(** On non-negative activations (after a ReLU) the L1 statistic is the mean times the image size: the two rank the
    channels of a layer alike. *)
Theorem C114_l1_is_scaled_mean : forall a n c h w l1 means j, images a n c h w ->
  activation_channels_l1 a = Ok l1 -> activation_channels_means a = Ok means -> (j < c)%nat ->
  Forall (fun x => 0 <= x) (channel a j) -> nth j l1 0 = INR (h * w) * nth j means 0.
Proof.
  intros a n c h w l1 means j H E1 E2 Hj Hp. rewrite (l1_eq _ _ _ _ _ H) in E1. rewrite (means_eq _ _ _ _ _ H) in E2.
  assert (l1 = map (fun j => l1_stat n (channel a j)) (seq 0 c)) by congruence. subst l1.
  assert (means = map (fun j => CollSpec.mean (channel a j)) (seq 0 c)) by congruence. subst means.
  rewrite !nth_map_seq by auto. unfold l1_stat, CollSpec.mean. rewrite (channel_length _ _ _ _ _ _ H), (mult_INR n (h * w)).
  replace (map Rabs (channel a j)) with (channel a j).
  - destruct H as (_ & _ & Hn & _ & Hh & Hw). assert (0 < INR n) by (apply INR_pos; auto). assert (0 < INR (h * w)) by (apply INR_pos; nia). field. lra.
  - rewrite <- (map_id (channel a j)) at 1. apply map_ext_in. intros x Hx. rewrite Forall_forall in Hp. symmetry. apply Rabs_right. specialize (Hp x Hx). lra.
Qed.

(** For the output of a linear layer the "channel" statistic is a single number for all the neurons. *)
Theorem C114_linear_single_number_refuted : forall n k l v, length l = (n * k)%nat -> (0 < n)%nat -> (0 < k)%nat ->
  (activation_channels_l1 (mkAct [n; k] l) = Ok v -> v = [rsum (map Rabs l) / INR n]) /\
  (activation_channels_means (mkAct [n; k] l) = Ok v -> v = [CollSpec.mean l]) /\
  (activation_channels_apoz (mkAct [n; k] l) = Ok v -> v = [100 * INR (zeros l) / INR (n * k)]).
Proof.
  intros n k l v Hl Hn Hk. assert (Pn : 0 < INR n) by (apply INR_pos; auto). assert (Pk : 0 < INR k) by (apply INR_pos; auto).
  assert (F : forall g : nat -> R, flat_map (fun i => map (fun p => nth (i * k + p) l 0) (seq 0 k)) (seq 0 n) = l).
  { intros _. clear Pn Pk Hn. revert l Hl. induction n as [|n IH]; intros l Hl; [destruct l; [reflexivity|discriminate]|].
    cbn [seq flat_map]. transitivity (firstn k l ++ skipn k l); [|apply firstn_skipn]. rewrite firstn_tab by (simpl in Hl; lia). f_equal.
    rewrite <- (IH (skipn k l)) by (rewrite skipn_length; simpl in Hl; lia).
    rewrite <- seq_shift, !flat_map_concat_map, map_map. f_equal. apply map_ext. intro i. apply map_ext. intro p.
    rewrite nth_skipn_R. f_equal. lia. }
  specialize (F (fun _ => 0)).
  assert (R1 : rows n k l = map (fun i => map (fun p => nth (i * k + p) l 0) (seq 0 k)) (seq 0 n)) by (apply rows_eq; lia).
  assert (S1 : forall f : list R -> R, vmean (map f (rows n k l)) = rsum (map (fun i => f (map (fun p => nth (i * k + p) l 0) (seq 0 k))) (seq 0 n)) / INR n).
  { intro f. unfold vmean. rewrite R1, !map_map, map_length, seq_length. reflexivity. }
  unfold activation_channels_l1, activation_channels_means, activation_channels_apoz, activation_channels. cbn [a_shape a_data].
  rewrite !S1. cbn [bind map]. split; [|split]; intro E; match type of E with Ok ?x = Ok _ => assert (Ev : v = x) by congruence end; rewrite Ev; clear E Ev; f_equal.
  - pose proof (f_equal (fun l0 => rsum (map Rabs l0)) F) as F1. cbv beta in F1. rewrite map_flat, rsum_flat in F1. rewrite <- F1. reflexivity.
  - unfold CollSpec.mean. rewrite Hl, mult_INR. pose proof (f_equal rsum F) as F1. rewrite rsum_flat in F1. rewrite <- F1.
    rewrite (rsum_map_ext _ (fun i => rsum (map (fun p => nth (i * k + p) l 0) (seq 0 k)) / INR k)) by (intros i _; unfold vmean; rewrite map_length, seq_length; auto).
    rewrite rsum_map_div. field. lra.
  - assert (E : INR (zeros l) = INR (n * k) - INR (nonzeros l)) by (rewrite <- Hl, <- nonzeros_eq, plus_INR; lra). rewrite E.
    pose proof (f_equal (fun l0 => INR (nonzeros l0)) F) as F1. cbv beta in F1. rewrite nonzeros_flat in F1. rewrite <- F1.
    rewrite (rsum_map_ext _ (fun i => INR (nonzeros (map (fun p => nth (i * k + p) l 0) (seq 0 k))) / INR k)) by (intros i _; rewrite map_length, seq_length; auto).
    rewrite rsum_map_div, (mult_INR n k). field. lra.
Qed.

(** Any other number of dimensions is refused. *)
Theorem C114_unsupported_shape : forall a, length (a_shape a) <> 2%nat -> length (a_shape a) <> 4%nat ->
  activation_channels_l1 a = Raise ValueError /\ activation_channels_means a = Raise ValueError /\ activation_channels_apoz a = Raise ValueError.
Proof.
  intros a H2 H4. unfold activation_channels_l1, activation_channels_means, activation_channels_apoz, activation_channels.
  destruct (a_shape a) as [|x1 [|x2 [|x3 [|x4 [|x5 l]]]]]; simpl in H2, H4; try lia; auto.
Qed.

(* ------------------------------------------------------------------------- *)
(** * Collected over many forward passes *)

Lemma numel_images a n c h w : images a n c h w -> numel a = (n * c * (h * w))%nat /\ (0 < numel a)%nat.
Proof. intros (H & Hl & Hn & Hc & Hh & Hw). unfold numel. rewrite Hl. split; auto. repeat apply Nat.mul_pos_pos; auto. Qed.

Lemma summary_tfold fn g outs : (forall a, In a outs -> fn a = Ok (g a)) -> forall ms,
  foldM (fun ms c => do m <- summary_cb fn OUT ms (fst c) (snd c); Ok (Some m)) (map (fun a => ([], a)) outs) ms =
  tfold (map (fun a => (g a, numel a)) outs) ms.
Proof.
  induction outs as [|a outs IH]; intros Hg ms; [reflexivity|]. unfold tfold. cbn [map foldM fst snd]. unfold summary_cb at 1.
  cbn [bind]. rewrite Hg by (simpl; auto). cbn [bind]. destruct (tm_add ms (g a) (numel a)) as [m|e]; cbn [bind]; [|reflexivity].
  apply IH. intros b Hb. apply Hg. simpl; auto.
Qed.

(** the value of the collector for channel j: the weighted mean of the batch statistics *)
Lemma collected fn g outs c : (0 < c)%nat -> outs <> [] ->
  (forall a, In a outs -> fn a = Ok (g a) /\ length (g a) = c /\ (0 < numel a)%nat) ->
  exists ms, summary_run fn OUT (map (fun a => ([], a)) outs) = Ok ms /\ length (summary_value ms) = c /\
  forall j, (j < c)%nat -> nth j (summary_value ms) 0 =
    rsum (map (fun a => nth j (g a) 0 * INR (numel a)) outs) / rsum (map (fun a => INR (numel a)) outs).
Proof.
  intros Hc Hne H. unfold summary_run. rewrite (summary_tfold fn g outs) by (intros a Ha; apply (H a Ha)).
  destruct (tfold_eq c (map (fun a => (g a, numel a)) outs) Hc) as (ms & E & L & G).
  { destruct outs; [congruence|discriminate]. }
  { rewrite Forall_forall. intros x Hx. apply in_map_iff in Hx. destruct Hx as (a & <- & Ha). apply (H a Ha). }
  exists (Some ms). rewrite E. split; auto. cbn [summary_value]. rewrite map_length. split; auto.
  intros j Hj. specialize (G j Hj). destruct (C62_meter _ _ G) as (_ & _ & M & _).
  rewrite (nth_indep _ 0 (w_mean meter0)) by (rewrite map_length, L; auto). rewrite map_nth.
  rewrite M by (unfold hist; destruct outs; [congruence|discriminate]). unfold hist. rewrite map_map. cbn [fst snd].
  unfold wsum. rewrite map_map. cbn [fst snd]. f_equal.
  clear. induction outs as [|a l IH]; [reflexivity|]. cbn [map wtotal fold_right snd]. fold (wtotal (map (fun x => (nth j (g x) 0, numel x)) l)).
  rewrite plus_INR, IH. reflexivity.
Qed.

Lemma zeros_flat {A} (f : A -> list R) l : INR (zeros (flat_map f l)) = rsum (map (fun x => INR (zeros (f x))) l).
Proof. induction l as [|x l IH]; [reflexivity|]. cbn [flat_map map]. rewrite zeros_app, plus_INR, IH. reflexivity. Qed.
Lemma flat_len_R {A} (f : A -> list R) l : INR (length (flat_map f l)) = rsum (map (fun x => INR (length (f x))) l).
Proof. induction l as [|x l IH]; [reflexivity|]. cbn [flat_map map]. rewrite app_length, plus_INR, IH. reflexivity. Qed.
Lemma numel_channel a n c h w j : images a n c h w -> INR (numel a) = INR c * INR (length (channel a j)).
Proof. intro H. destruct (numel_images _ _ _ _ _ H) as [E _]. rewrite E, (channel_length _ _ _ _ _ _ H). rewrite <- mult_INR. f_equal. lia. Qed.
Lemma rsum_pos {A} (f : A -> R) l : l <> [] -> (forall x, In x l -> 0 < f x) -> 0 < rsum (map f l).
Proof.
  intros Hne H. destruct l as [|x l]; [congruence|]. cbn [map rsum fold_right]. fold (rsum (map f l)).
  assert (0 < f x) by (apply H; simpl; auto). assert (0 <= rsum (map f l)); [|lra].
  assert (forall y, In y l -> 0 < f y) as H' by (intros y Hy; apply H; simpl; auto). clear - H'. induction l as [|y l IH]; [simpl; lra|].
  cbn [map rsum fold_right]. fold (rsum (map f l)). assert (0 < f y) by (apply H'; simpl; auto). assert (0 <= rsum (map f l)) by (apply IH; intros z Hz; apply H'; simpl; auto). lra.
Qed.

(** C114: over any history of forward calls - mini-batches of any sizes, partial batches of several devices, images of
    any resolution - the collected channel mean is the mean of all the values the channel took, and the collected
    APoZ is the percentage of zeros among them. *)
Theorem C114_collected_means : forall outs c, (0 < c)%nat -> outs <> [] ->
  (forall a, In a outs -> exists n h w, images a n c h w) ->
  (exists ms, summary_run activation_channels_means OUT (map (fun a => ([], a)) outs) = Ok ms /\ length (summary_value ms) = c /\
     forall j, (j < c)%nat -> nth j (summary_value ms) 0 = CollSpec.mean (flat_map (fun a => channel a j) outs)) /\
  (exists ms, summary_run activation_channels_apoz OUT (map (fun a => ([], a)) outs) = Ok ms /\ length (summary_value ms) = c /\
     forall j z, (j < c)%nat -> n_zeros (flat_map (fun a => channel a j) outs) z ->
       nth j (summary_value ms) 0 = 100 * INR z / INR (length (flat_map (fun a => channel a j) outs))).
Proof.
  intros outs c Hc Hne H. assert (Pc : 0 < INR c) by (apply INR_pos; auto).
  assert (Den : forall j, rsum (map (fun a => INR (numel a)) outs) = rsum (map (fun a => INR (length (channel a j))) outs) * INR c).
  { intro j. rewrite <- rsum_map_mulr. apply rsum_map_ext. intros a Ha. destruct (H a Ha) as (n & h & w & I). rewrite (numel_channel _ _ _ _ _ j I). ring. }
  assert (Pos : forall j, 0 < rsum (map (fun a => INR (length (channel a j))) outs)).
  { intro j. apply rsum_pos; auto. intros a Ha. destruct (H a Ha) as (n & h & w & I). apply INR_pos. apply (channel_nonempty _ _ _ _ _ _ I). }
  split.
  - destruct (collected activation_channels_means (fun a => map (fun j => CollSpec.mean (channel a j)) (seq 0 c)) outs c Hc Hne) as (ms & E & L & V).
    { intros a Ha. destruct (H a Ha) as (n & h & w & I). rewrite (means_eq _ _ _ _ _ I), map_length, seq_length. repeat split; auto. apply (numel_images _ _ _ _ _ I). }
    exists ms. split; auto. split; auto. intros j Hj. rewrite V by auto. rewrite (Den j). unfold CollSpec.mean at 2. rewrite rsum_flat, flat_len_R.
    rewrite (rsum_map_ext _ (fun a => rsum (channel a j) * INR c)).
    + rewrite rsum_map_mulr. specialize (Pos j). field. lra.
    + intros a Ha. destruct (H a Ha) as (n & h & w & I). rewrite nth_map_seq by auto. rewrite (numel_channel _ _ _ _ _ j I). unfold CollSpec.mean.
      assert (0 < INR (length (channel a j))) by (apply INR_pos, (channel_nonempty _ _ _ _ _ _ I)). field. lra.
  - destruct (collected activation_channels_apoz (fun a => map (fun j => apoz_stat (channel a j)) (seq 0 c)) outs c Hc Hne) as (ms & E & L & V).
    { intros a Ha. destruct (H a Ha) as (n & h & w & I). rewrite (apoz_eq _ _ _ _ _ I), map_length, seq_length. repeat split; auto. apply (numel_images _ _ _ _ _ I). }
    exists ms. split; auto. split; auto. intros j z Hj Hz. rewrite (n_zeros_eq _ _ Hz). rewrite V by auto. rewrite (Den j), zeros_flat, flat_len_R.
    rewrite (rsum_map_ext _ (fun a => (100 * INR (zeros (channel a j))) * INR c)).
    + rewrite rsum_map_mulr. rewrite (rsum_map_ext (fun x => 100 * INR (zeros (channel x j))) (fun x => INR (zeros (channel x j)) * 100)) by (intros; ring).
      rewrite rsum_map_mulr. specialize (Pos j). field. lra.
    + intros a Ha. destruct (H a Ha) as (n & h & w & I). rewrite nth_map_seq by auto. rewrite (numel_channel _ _ _ _ _ j I). unfold apoz_stat.
      assert (0 < INR (length (channel a j))) by (apply INR_pos, (channel_nonempty _ _ _ _ _ _ I)). field. lra.
Qed.

(** The same for the L1 statistic at one resolution: the mean over all the samples seen of their L1 norm. *)
Theorem C114_collected_l1 : forall outs c h w, (0 < c)%nat -> outs <> [] ->
  (forall a, In a outs -> exists n, images a n c h w) ->
  exists ms, summary_run activation_channels_l1 OUT (map (fun a => ([], a)) outs) = Ok ms /\ length (summary_value ms) = c /\
    forall j, (j < c)%nat -> nth j (summary_value ms) 0 =
      rsum (map Rabs (flat_map (fun a => channel a j) outs)) / INR (list_sum (map (fun a => hd O (a_shape a)) outs)).
Proof.
  intros outs c h w Hc Hne H. assert (Pc : 0 < INR c) by (apply INR_pos; auto).
  destruct (collected activation_channels_l1 (fun a => map (fun j => l1_stat (hd O (a_shape a)) (channel a j)) (seq 0 c)) outs c Hc Hne) as (ms & E & L & V).
  { intros a Ha. destruct (H a Ha) as (n & I). rewrite (l1_eq _ _ _ _ _ I), map_length, seq_length. pose proof (numel_images _ _ _ _ _ I) as [_ Pn]. destruct I as (Es & _). rewrite Es. repeat split; auto. }
  exists ms. split; auto. split; auto. intros j Hj. rewrite V by auto.
  set (N := fun a => INR (hd O (a_shape a))).
  assert (Hs : INR (list_sum (map (fun a => hd O (a_shape a)) outs)) = rsum (map N outs)).
  { clear. induction outs as [|a l IH]; [reflexivity|]. cbn [map list_sum fold_right]. fold (list_sum (map (fun a => hd O (a_shape a)) l)). rewrite plus_INR, IH. reflexivity. }
  assert (Ph : forall a, In a outs -> 0 < INR (h * w) /\ 0 < N a /\ INR (numel a) = N a * (INR c * INR (h * w))).
  { intros a Ha. destruct (H a Ha) as (n & I). pose proof (numel_images _ _ _ _ _ I) as [En _]. destruct I as (Es & _ & Hn & _ & Hh & Hw). unfold N. rewrite Es, En. cbn [hd].
    split; [apply INR_pos; nia|]. split; [apply INR_pos; auto|]. rewrite <- !mult_INR. f_equal. lia. }
  assert (P1 : 0 < INR (h * w)) by (destruct outs as [|a l]; [congruence|apply (Ph a); simpl; auto]).
  assert (P2 : 0 < rsum (map N outs)) by (apply rsum_pos; auto; intros a Ha; apply (Ph a Ha)).
  rewrite Hs, map_flat, rsum_flat.
  rewrite (rsum_map_ext (fun a => INR (numel a)) (fun a => N a * (INR c * INR (h * w)))) by (intros a Ha; apply (Ph a Ha)).
  rewrite (rsum_map_ext _ (fun a => rsum (map Rabs (channel a j)) * (INR c * INR (h * w)))).
  - rewrite !rsum_map_mulr. field. lra.
  - intros a Ha. rewrite nth_map_seq by auto. destruct (Ph a Ha) as (_ & Q1 & Q2). rewrite Q2. unfold l1_stat. fold (N a). field. lra.
Qed.

(** C114: how the data was split into batches, and their order, does not matter. *)
Theorem C114_split_and_order_irrelevant : forall outs outs' c j ms ms', (0 < c)%nat -> outs <> [] -> outs' <> [] ->
  (forall a, In a outs -> exists n h w, images a n c h w) -> (forall a, In a outs' -> exists n h w, images a n c h w) ->
  (j < c)%nat -> Permutation (flat_map (fun a => channel a j) outs) (flat_map (fun a => channel a j) outs') ->
  (summary_run activation_channels_means OUT (map (fun a => ([], a)) outs) = Ok ms -> summary_run activation_channels_means OUT (map (fun a => ([], a)) outs') = Ok ms' ->
   nth j (summary_value ms) 0 = nth j (summary_value ms') 0) /\
  (summary_run activation_channels_apoz OUT (map (fun a => ([], a)) outs) = Ok ms -> summary_run activation_channels_apoz OUT (map (fun a => ([], a)) outs') = Ok ms' ->
   nth j (summary_value ms) 0 = nth j (summary_value ms') 0).
Proof.
  intros outs outs' c j ms ms' Hc Hn Hn' H H' Hj P.
  assert (Z : forall l, exists z, n_zeros l z).
  { induction l as [|x l [z IH]]; [eexists; constructor|]. destruct (Req_EM_T x 0); [subst; eexists; constructor; eauto|eexists; apply NzOther; eauto]. }
  destruct (C114_collected_means outs c Hc Hn H) as [(m1 & A1 & _ & A2) (m2 & B1 & _ & B2)].
  destruct (C114_collected_means outs' c Hc Hn' H') as [(m3 & A3 & _ & A4) (m4 & B3 & _ & B4)].
  split; intros E E'.
  - assert (ms = m1) by congruence. assert (ms' = m3) by congruence. subst. rewrite A2, A4 by auto. apply mean_perm; auto.
  - assert (ms = m2) by congruence. assert (ms' = m4) by congruence. subst.
    destruct (Z (flat_map (fun a => channel a j) outs)) as (z & Hz). destruct (Z (flat_map (fun a => channel a j) outs')) as (z' & Hz').
    rewrite (B2 j z), (B4 j z') by auto. rewrite (Permutation_length P).
    assert (z = z'); [|subst; auto]. rewrite (n_zeros_eq _ _ Hz), (n_zeros_eq _ _ Hz').
    clear - P. unfold zeros. induction P; cbn [filter]; auto.
    + destruct (Req_EM_T x 0); simpl; congruence.
    + destruct (Req_EM_T y 0), (Req_EM_T x 0); simpl; auto.
    + congruence.
Qed.

(** C114: collecting inputs: the inputs of a call are taken together as one larger batch. *)
Theorem C114_inputs_are_one_batch : forall inputs output ms fn c h w, inputs <> [] ->
  (forall a, In a inputs -> exists n, images a n c h w) ->
  exists all, summary_cb fn IN ms inputs output = summary_cb fn OUT ms [] all /\
    images all (list_sum (map (fun a => hd O (a_shape a)) inputs)) c h w /\
    forall j, (j < c)%nat -> channel all j = flat_map (fun a => channel a j) inputs.
Proof.
  intros inputs output ms fn c h w Hne H.
  set (all := mkAct (list_sum (map (fun b => hd O (a_shape b)) inputs) :: [c; h; w]) (concat (map a_data inputs))).
  assert (Lall : length (a_data all) = (list_sum (map (fun a => hd O (a_shape a)) inputs) * c * (h * w))%nat).
  { unfold all. cbn [a_data]. clear - H. induction inputs as [|a l IH]; [reflexivity|]. cbn [map concat list_sum fold_right]. fold (list_sum (map (fun a => hd O (a_shape a)) l)).
    rewrite app_length, IH by (intros b Hb; apply H; simpl; auto). destruct (H a) as (n & Es & El & _); [simpl; auto|]. rewrite El, Es. cbn [hd]. lia. }
  exists all. split; [|split].
  - unfold summary_cb. cbn [bind]. destruct inputs as [|a l]; [congruence|]. unfold torch_cat.
    assert (F : forallb (same_tail a) (a :: l) = true).
    { apply forallb_forall. intros b Hb. destruct (H b Hb) as (n & Es & _). destruct (H a) as (n' & Es' & _); [simpl; auto|]. unfold same_tail. rewrite Es, Es'. destruct (list_eq_dec Nat.eq_dec [c; h; w] [c; h; w]); congruence. }
    rewrite F. cbn [bind]. destruct (H a) as (n' & Es' & _); [simpl; auto|]. unfold all. rewrite Es'. cbn [tl]. reflexivity.
  - unfold images. split; [reflexivity|]. split; [exact Lall|]. destruct inputs as [|a l]; [congruence|]. destruct (H a) as (n & Es & _ & Hn & Hc & Hh & Hw); [simpl; auto|].
    cbn [map list_sum fold_right]. rewrite Es. cbn [hd]. repeat split; auto. lia.
  - intros j Hj. clear Lall. subst all. unfold channel at 1. cbn [a_shape]. unfold pixel. cbn [a_data]. clear - H Hj.
    set (s := (h * w)%nat). induction inputs as [|a l IH]; [reflexivity|].
    cbn [map list_sum fold_right concat]. fold (list_sum (map (fun b => hd O (a_shape b)) l)).
    destruct (H a) as (n & I); [simpl; auto|]. pose proof I as (Es & El & _). fold s in El.
    assert (Hd : hd O (a_shape a) = n) by (rewrite Es; auto). rewrite Hd.
    rewrite seq_app, flat_map_app. cbn [flat_map]. f_equal.
    + rewrite (channel_images _ _ _ _ _ _ I). apply flat_ext. intros i Hi. apply in_seq in Hi. unfold image, pixel. apply map_ext_in. intros p Hp. apply in_seq in Hp.
      rewrite app_nth1; auto. fold s in Hp. rewrite El. fold s. assert (i * c + j + 1 <= n * c)%nat by nia. nia.
    + rewrite <- IH by (intros b Hb; apply H; simpl; auto). cbn [Nat.add].
      assert (Sh : forall m k, seq k m = map (fun i => (k + i)%nat) (seq 0 m)).
      { induction m as [|m IHm]; intro k; [reflexivity|]. cbn [seq map]. f_equal; [lia|]. rewrite (IHm (S k)), (IHm 1%nat), map_map. apply map_ext. intro; lia. }
      rewrite (Sh _ n). rewrite !flat_map_concat_map, map_map. f_equal. apply map_ext. intro i. apply map_ext. intro p.
      rewrite app_nth2 by (rewrite El; nia). rewrite El. f_equal. nia.
Qed.

(** A module instance used at several places of the network: calls with another number of channels fail, but calls
    with the same number are pooled silently, and so is a later call with one channel. *)
Theorem C114_shared_module_refuted :
  (forall ms v n, (0 < n)%nat -> length v <> length ms -> length v <> 1%nat -> tm_add (Some ms) v n = Raise RuntimeError) /\
  (exists a b ms, images a 1 2 1 1 /\ images b 1 1 1 1 /\
     summary_run activation_channels_means OUT [([], a); ([], b)] = Ok ms /\ summary_value ms = [7 / 3; 11 / 3]).
Proof.
  split.
  - intros ms v n Hn Hl H1. unfold tm_add. destruct (Nat.eqb_spec n 0); [lia|]. destruct (Nat.eqb_spec (length v) (length ms)); [lia|].
    destruct v as [|x [|y v]]; simpl in H1; try lia; auto.
  - exists (mkAct [1; 2; 1; 1]%nat [1; 3]), (mkAct [1; 1; 1; 1]%nat [5]).
    assert (I1 : images (mkAct [1; 2; 1; 1]%nat [1; 3]) 1 2 1 1) by (repeat split; auto).
    assert (I2 : images (mkAct [1; 1; 1; 1]%nat [5]) 1 1 1 1) by (repeat split; auto).
    unfold summary_run. cbn [foldM fst snd]. unfold summary_cb. cbn [bind]. rewrite (means_eq _ _ _ _ _ I1), (means_eq _ _ _ _ _ I2).
    cbn. eexists. split; [auto|]. split; [auto|]. split; [reflexivity|]. unfold CollSpec.mean. cbn. f_equal; [field|f_equal; field].
Qed.

(* ------------------------------------------------------------------------- *)
(** * Records per sample *)

Definition forwards (outs : list act) : list rop := map RForward outs.

Lemma list_set_nth {A} (l : list A) k v d : (k < length l)%nat -> nth k (list_set l k v) d = v.
Proof. revert k; induction l as [|x l IH]; intros [|k] H; simpl in *; try lia; auto. apply IH; lia. Qed.
Lemma list_set_other {A} (l : list A) k v d i : i <> k -> nth i (list_set l k v) d = nth i l d.
Proof. revert k i; induction l as [|x l IH]; intros [|k] [|i] H; simpl; auto; try lia. Qed.
Lemma list_set_length {A} (l : list A) k v : length (list_set l k v) = length l.
Proof. revert k; induction l as [|x l IH]; intros [|k]; simpl; auto. Qed.

Lemma forwards_run outs : forall s r l, cur s = Some r -> (r < length (heap s))%nat -> records_of l (read s r) ->
  (forall a, In a outs -> well_formed a) ->
  exists s', rrun (forwards outs) (s, true) = Ok (s', true) /\ cur s' = Some r /\ length (heap s') = length (heap s) /\
    records_of (l ++ flat_map samples outs) (read s' r) /\
    (outs <> [] -> s_shape (read s' r) = a_shape (last outs (mkAct [] []))) /\
    (forall i, i <> r -> read s' i = read s i).
Proof.
  induction outs as [|a outs IH]; intros s r l Hc Hr Hl H.
  - exists s. split; [reflexivity|]. split; [auto|]. split; [auto|]. cbn [flat_map]. rewrite app_nil_r. split; [auto|]. split; [congruence|auto].
  - destruct (records_step (read s r) l a Hl) as (x & E1 & E2 & E3); [apply H; simpl; auto|].
    unfold rrun, forwards. cbn [map foldM rstep]. rewrite Hc. unfold read in E1. rewrite E1. cbn [bind].
    set (s1 := mkRS (list_set (heap s) r x) (Some r)).
    assert (Rd : read s1 r = x) by (unfold read, s1; cbn [heap]; apply list_set_nth; auto).
    destruct (IH s1 r (l ++ samples a)) as (s' & F1 & F2 & F3 & F4 & F5 & F6).
    + reflexivity.
    + unfold s1; cbn [heap]; rewrite list_set_length; auto.
    + rewrite Rd. exact E2.
    + intros b Hb; apply H; simpl; auto.
    + exists s'. unfold rrun, forwards in F1. rewrite F1. split; auto. split; auto. split; [rewrite F3; unfold s1; cbn [heap]; apply list_set_length|].
      split; [cbn [flat_map]; rewrite app_assoc; exact F4|]. split.
      * intros _. destruct outs as [|b outs]; [|apply F5; discriminate]. cbn [last]. unfold rrun, forwards in F1. cbn [map foldM] in F1. assert (s' = s1) by congruence. subst s'. rewrite Rd. exact E3.
      * intros i Hi. rewrite F6 by auto. unfold read, s1. cbn [heap]. apply list_set_other; auto.
Qed.

(** C114: after start and any forward calls the records have one entry per sample, in the order seen: its minimum,
    maximum, mean, standard deviation and L2 norm; the recorded shape is that of the last batch. *)
Theorem C114_records : forall outs, (forall a, In a outs -> well_formed a) ->
  exists s r, rrun (RStart :: forwards outs) (mkRS [] None, false) = Ok (s, true) /\ cur s = Some r /\
    records_of (flat_map samples outs) (read s r) /\
    (outs <> [] -> s_shape (read s r) = a_shape (last outs (mkAct [] []))).
Proof.
  intros outs H. unfold rrun. cbn [foldM rstep cur bind heap length app].
  destruct (forwards_run outs (mkRS [records0] (Some 0%nat)) 0 []) as (s & A & B & C & D & E & F); auto.
  - apply records_empty.
  - exists s, 0%nat. unfold rrun in A. rewrite A. auto.
Qed.

(** Entries are consistent: minimum <= mean <= maximum, and the squared L2 norm of a sample of k values is
    (k - 1) std^2 + k mean^2. *)
Lemma mean_between l m x : l <> [] -> is_min l m -> is_max l x -> m <= CollSpec.mean l <= x.
Proof.
  intros Hne [_ Hm] [_ Hx]. unfold CollSpec.mean. assert (P : 0 < INR (length l)) by (apply INR_pos; destruct l; [congruence|simpl; lia]).
  assert (F : Forall (fun y => m <= y <= x) l) by (rewrite Forall_forall; intros y Hy; split; [apply Hm|apply Hx]; auto).
  destruct (rsum_bounds m x l F). split; apply Rmult_le_reg_r with (INR (length l)); auto; unfold Rdiv; rewrite Rmult_assoc, Rinv_l by lra; lra.
Qed.
Lemma rsum_sq_split l c : rsum (map (fun x => (x - c) ^ 2) l) = rsum (map (fun x => x * x) l) - 2 * c * rsum l + INR (length l) * c ^ 2.
Proof.
  induction l as [|x l IH]; [simpl; lra|]. cbn [map rsum fold_right]. fold (rsum (map (fun x => (x - c) ^ 2) l)). rewrite IH.
  fold (rsum (map (fun x => x * x) l)). fold (rsum l). change (length (x :: l)) with (S (length l)). rewrite S_INR. ring.
Qed.
Theorem C114_records_consistent : forall l s i, records_of l s -> (i < length l)%nat -> nth i l [] <> [] ->
  let k := INR (length (nth i l [])) in
  nth i (s_min s) 0 <= nth i (s_mean s) 0 <= nth i (s_max s) 0 /\ 0 <= nth i (s_std s) 0 /\
  nth i (s_l2 s) 0 ^ 2 = (k - 1) * nth i (s_std s) 0 ^ 2 + k * nth i (s_mean s) 0 ^ 2.
Proof.
  intros l s i (A1 & A2 & A3 & A4 & A5 & A6) Hi Hne k. destruct (A3 i Hi) as [Hm Hx]. rewrite A4, A5, A6.
  rewrite (nth_indep (map CollSpec.mean l) 0 (CollSpec.mean [])), map_nth by (rewrite map_length; auto).
  rewrite (nth_indep (map sample_std l) 0 (sample_std [])), map_nth by (rewrite map_length; auto).
  rewrite (nth_indep (map (fun r => sqrt (rsum (map (fun x => x * x) r))) l) 0 (sqrt (rsum (map (fun x => x * x) []))))by (rewrite map_length; auto).
  rewrite (map_nth (fun r => sqrt (rsum (map (fun x => x * x) r)))).
  set (r := nth i l []) in *. split; [apply mean_between; auto|].
  assert (Sq : 0 <= rsum (map (fun x => x * x) r)) by (clear; induction r as [|x r IH]; [simpl; lra|]; cbn [map rsum fold_right]; fold (rsum (map (fun x => x * x) r)); nra).
  assert (Pk : 0 < k) by (apply INR_pos; destruct r; [congruence|simpl; lia]).
  assert (D : forall c, 0 <= rsum (map (fun x => (x - c) ^ 2) r)) by (intro c; apply rsum_sq_nonneg).
  assert (Hsum : rsum r = k * CollSpec.mean r) by (unfold CollSpec.mean, k; field; fold k; lra).
  pose proof (rsum_sq_split r (CollSpec.mean r)) as Sp. rewrite Hsum in Sp. fold k in Sp.
  rewrite pow2_sqrt by auto. unfold sample_std. destruct r as [|x [|y r']] eqn:Er; [congruence| |].
  - split; [lra|]. unfold k, CollSpec.mean. simpl. field.
  - assert (K1 : 0 < k - 1) by (unfold k; change (length (x :: y :: r')) with (S (S (length r'))); rewrite !S_INR; pose proof (pos_INR (length r')); lra).
    fold k. split; [apply sqrt_pos|]. rewrite pow2_sqrt by (apply Rdiv_nonneg; auto).
    replace ((k - 1) * (rsum (map (fun x0 => (x0 - CollSpec.mean (x :: y :: r')) ^ 2) (x :: y :: r')) / (k - 1))) with (rsum (map (fun x0 => (x0 - CollSpec.mean (x :: y :: r')) ^ 2) (x :: y :: r'))) by (field; lra).
    rewrite Sp. ring.
Qed.

(** C114: reset starts over: what is recorded after a reset does not depend on what was recorded before, and a value()
    taken before the reset keeps its contents. *)
Theorem C114_records_reset : forall before after, (forall a, In a (before ++ after) -> well_formed a) ->
  exists s0 r0 s r, rrun (RStart :: forwards before) (mkRS [] None, false) = Ok (s0, true) /\ cur s0 = Some r0 /\
    rrun (RReset :: forwards after) (s0, true) = Ok (s, true) /\ cur s = Some r /\ r <> r0 /\
    records_of (flat_map samples after) (read s r) /\ read s r0 = read s0 r0.
Proof.
  intros before after H.
  unfold rrun. cbn [foldM rstep cur bind heap length app].
  destruct (forwards_run before (mkRS [records0] (Some 0%nat)) 0 []) as (s0 & A & B & C & D & E & F); auto.
  { apply records_empty. } { intros a Ha. apply H, in_or_app; auto. }
  exists s0, 0%nat. unfold rrun in A. rewrite A, B. cbn [bind]. set (s1 := mkRS (heap s0 ++ [records0]) (Some (length (heap s0)))).
  assert (R1 : read s1 (length (heap s0)) = records0) by (unfold read, s1; cbn [heap]; rewrite app_nth2, Nat.sub_diag; auto).
  destruct (forwards_run after s1 (length (heap s0)) []) as (s & A' & B' & C' & D' & E' & F').
  { reflexivity. } { unfold s1; cbn [heap]; rewrite app_length; simpl; lia. } { rewrite R1. apply records_empty. } { intros a Ha. apply H, in_or_app; auto. }
  exists s, (length (heap s0)). unfold rrun in A'. rewrite A'. cbn [app] in D'. split; [auto|]. split; [auto|]. split; [reflexivity|]. split; [exact B'|]. split; [rewrite C; simpl; lia|]. split; [exact D'|].
  rewrite F' by (rewrite C; simpl; lia). unfold read, s1. cbn [heap]. apply app_nth1. rewrite C. simpl; lia.
Qed.

(** After stop nothing is recorded (and nothing fails); a later start goes on with the same records. *)
Lemma rrun_app l1 l2 st : rrun (l1 ++ l2) st = do st' <- rrun l1 st; rrun l2 st'.
Proof. apply foldM_app. Qed.
Lemma stopped_run outs : forall s, rrun (forwards outs) (s, false) = Ok (s, false).
Proof. induction outs as [|a l IH]; intro s; [reflexivity|]. unfold rrun, forwards. cbn [map foldM rstep bind]. apply IH. Qed.
Theorem C114_stop_and_restart : forall before missed after, (forall a, In a (before ++ after) -> well_formed a) ->
  exists s0 s1 r, rrun (RStart :: forwards before) (mkRS [] None, false) = Ok (s0, true) /\ cur s0 = Some r /\
    rrun (RStop :: forwards missed) (s0, true) = Ok (s0, false) /\
    rrun (RStart :: forwards after) (s0, false) = Ok (s1, true) /\ cur s1 = Some r /\
    records_of (flat_map samples before) (read s0 r) /\ records_of (flat_map samples (before ++ after)) (read s1 r).
Proof.
  intros before missed after H. unfold rrun. cbn [foldM rstep cur bind heap length app].
  destruct (forwards_run before (mkRS [records0] (Some 0%nat)) 0 []) as (s0 & A & B & C & D & E & F); auto.
  { apply records_empty. } { intros a Ha. apply H, in_or_app; auto. }
  destruct (forwards_run after s0 0 (flat_map samples before)) as (s & A' & B' & C' & D' & E' & F'); auto.
  { rewrite C. simpl; lia. } { intros a Ha. apply H, in_or_app; auto. }
  exists s0, s, 0%nat. unfold rrun in A, A'. rewrite A. split; [auto|]. split; [auto|]. pose proof (stopped_run missed s0) as St. unfold rrun in St.
  split; [exact St|]. rewrite B. cbn [bind]. rewrite A', flat_map_app. auto.
Qed.

(** A value() is the live object: forward calls made after it change its contents. *)
Theorem C114_value_is_live_refuted : forall before later, (forall a, In a (before ++ later) -> well_formed a) ->
  exists s0 r s, rrun (RStart :: forwards before) (mkRS [] None, false) = Ok (s0, true) /\ cur s0 = Some r /\
    rrun (forwards later) (s0, true) = Ok (s, true) /\
    records_of (flat_map samples before) (read s0 r) /\ records_of (flat_map samples (before ++ later)) (read s r).
Proof.
  intros before later H.
  unfold rrun. cbn [foldM rstep cur bind heap length app].
  destruct (forwards_run before (mkRS [records0] (Some 0%nat)) 0 []) as (s0 & A & B & C & D & E & F); auto.
  { apply records_empty. } { intros a Ha. apply H, in_or_app; auto. }
  destruct (forwards_run later s0 0 (flat_map samples before)) as (s & A' & B' & C' & D' & E' & F'); auto.
  { rewrite C. simpl; lia. } { intros a Ha. apply H, in_or_app; auto. }
  exists s0, 0%nat, s. unfold rrun in A, A'. rewrite A, A'. rewrite flat_map_app. auto.
Qed.

(* ------------------------------------------------------------------------- *)
(** * File names and module names *)

(** The two collectors name their file by different rules: the summary collector adds ".xlsx" only when it is
    missing; the records collector always adds it. *)
Theorem C114_file_names : forall f,
  summary_fname (f ++ ".xlsx") = (f ++ ".xlsx")%string /\
  (endswith ".xlsx" f = false -> summary_fname f = records_fname f) /\
  records_fname (f ++ ".xlsx") = (f ++ ".xlsx.xlsx")%string.
Proof.
  intro f. assert (E : endswith ".xlsx" (f ++ ".xlsx") = true) by (induction f as [|c f IH]; [reflexivity|]; cbn [append endswith]; rewrite IH; apply orb_true_r).
  unfold summary_fname, records_fname. rewrite E. split; auto. split; [intros ->; auto|]. rewrite append_assoc. reflexivity.
Qed.

Lemma replace_skip s : forall k t, String.length s = k -> replace_conv k (s ++ t) = replace_conv 0 t.
Proof. induction s as [|c s IH]; intros [|k] t H; try discriminate; [reflexivity|]. cbn [append replace_conv]. apply IH. simpl in H; lia. Qed.
Lemma replace_conv_cons c r : prefix ".conv" (String c r) = false -> replace_conv 0 (String c r) = String c (replace_conv 0 r).
Proof. intro H. cbn [replace_conv]. rewrite H. reflexivity. Qed.
Lemma prefix_app t : forall s u, prefix t s = true -> prefix t (s ++ u) = true.
Proof.
  induction t as [|c t IH]; intros s u H; [destruct (s ++ u)%string; reflexivity|]. destruct s as [|d s]; [discriminate|]. cbn [append prefix] in *.
  destruct (ascii_dec c d); [apply IH; auto|discriminate].
Qed.
Lemma prefix_split t : forall s, prefix t s = true -> exists u, s = (t ++ u)%string.
Proof.
  induction t as [|c t IH]; intros s H; [exists s; reflexivity|]. destruct s as [|d s]; [discriminate|]. cbn [prefix] in H.
  destruct (ascii_dec c d); [subst|discriminate]. destruct (IH s H) as (u & ->). exists u. reflexivity.
Qed.
(** an occurrence of ".conv" cannot straddle the beginning of another *)
Lemma no_straddle b : forall a, a <> ""%string -> prefix ".conv" a = false -> prefix ".conv" (a ++ ".conv" ++ b) = false.
Proof.
  intros a Ha H. destruct a as [|c1 a]; [congruence|]. cbn [append prefix] in *. destruct (ascii_dec "." c1); auto. subst.
  destruct a as [|c2 a]; [reflexivity|]. cbn [append prefix] in *. destruct (ascii_dec "c" c2); auto. subst.
  destruct a as [|c3 a]; [reflexivity|]. cbn [append prefix] in *. destruct (ascii_dec "o" c3); auto. subst.
  destruct a as [|c4 a]; [reflexivity|]. cbn [append prefix] in *. destruct (ascii_dec "n" c4); auto. subst.
  destruct a as [|c5 a]; [reflexivity|]. cbn [append prefix] in *. destruct (ascii_dec "v" c5); auto. subst. destruct a; discriminate.
Qed.
Lemma replace_at b : forall n a k, (String.length a <= n)%nat -> (k <= String.length a)%nat ->
  replace_conv k (a ++ ".conv" ++ b) = (replace_conv k a ++ ".relu" ++ replace_conv 0 b)%string.
Proof.
  induction n as [|n IH]; intros a k Hn Hk.
  - destruct a as [|c a]; [|simpl in Hn; lia]. assert (k = 0%nat) by (simpl in Hk; lia). subst k. destruct b; reflexivity.
  - destruct a as [|c a]; [assert (k = 0%nat) by (simpl in Hk; lia); subst k; destruct b; reflexivity|].
    simpl in Hn, Hk. destruct k as [|k].
    + destruct (prefix ".conv" (String c a)) eqn:P.
      * cbn [append]. pose proof (prefix_app _ _ (".conv" ++ b) P) as P'. cbn [append] in P'. cbn [replace_conv]. rewrite P, P'.
        destruct (prefix_split _ _ P) as (u & Eu). assert (4 <= String.length a)%nat by (apply (f_equal String.length) in Eu; simpl in Eu; lia).
        change (String "." (String "c" (String "o" (String "n" (String "v" b))))) with (".conv" ++ b)%string. rewrite IH by lia. reflexivity.
      * pose proof (no_straddle b (String c a) ltac:(discriminate) P) as P'. cbn [append] in *. rewrite replace_conv_cons by auto.
        rewrite (replace_conv_cons c a P). change (String "." (String "c" (String "o" (String "n" (String "v" b))))) with (".conv" ++ b)%string. rewrite IH by lia. reflexivity.
    + cbn [append replace_conv]. apply IH; lia.
Qed.
Lemma replace_length : forall n s k, (String.length s <= n)%nat -> (k <= String.length s)%nat -> String.length (replace_conv k s) = (String.length s - k)%nat.
Proof.
  induction n as [|n IH]; intros s k Hn Hk.
  - destruct s; [|simpl in Hn; lia]. reflexivity.
  - destruct s as [|c s]; [reflexivity|]. simpl in Hn, Hk. destruct k as [|k].
    + cbn [replace_conv]. destruct (prefix ".conv" (String c s)) eqn:P.
      * destruct (prefix_split _ _ P) as (u & Eu). assert (4 <= String.length s)%nat by (apply (f_equal String.length) in Eu; simpl in Eu; lia).
        cbn [append String.length]. rewrite IH by lia. lia.
      * cbn [String.length]. rewrite IH by lia. lia.
    + cbn [replace_conv String.length]. rewrite IH by lia. lia.
Qed.
Lemma replace_none s : ~ occurs ".conv" s -> replace_conv 0 s = s.
Proof.
  induction s as [|c s IH]; intro H; [reflexivity|]. rewrite replace_conv_cons.
  - f_equal. apply IH. intros (a & b & E). apply H. exists (String c a), b. rewrite E. reflexivity.
  - destruct (prefix ".conv" (String c s)) eqn:P; auto. exfalso. apply H. destruct (prefix_split _ _ P) as (u & ->). exists ""%string, u. reflexivity.
Qed.
Lemma substring_app a : forall b, substring 0 (String.length a) (a ++ b) = a.
Proof. induction a as [|c a IH]; intro b; [destruct b; reflexivity|]. cbn. f_equal. apply IH. Qed.
Lemma length_app a b : String.length (a ++ b) = (String.length a + String.length b)%nat.
Proof. induction a; simpl; auto. Qed.
Lemma drop_weight_app a : drop_weight (a ++ ".weight") = a.
Proof. unfold drop_weight. rewrite length_app. replace (String.length a + String.length ".weight" - 7)%nat with (String.length a) by (simpl; lia). apply substring_app. Qed.

(** C114: the statistics used to rank the filters of the convolution "<scope>.conv<k>" are those of the module
    "<scope>.relu<k>" ... *)
Theorem C114_statistics_of_which_module : forall scope k, ~ occurs ".conv" scope -> ~ occurs ".conv" (k ++ ".weight") ->
  activation_module_name (scope ++ ".conv" ++ k ++ ".weight") = (scope ++ ".relu" ++ k)%string.
Proof.
  intros scope k H1 H2. unfold activation_module_name. rewrite (replace_at (k ++ ".weight") (String.length scope) scope 0) by lia.
  rewrite (replace_none scope H1), (replace_none _ H2). rewrite <- (append_assoc ".relu" k ".weight"), <- append_assoc. apply drop_weight_app.
Qed.
(** ... every ".conv" of the name is replaced, also in the names of enclosing modules, and a name without one (a
    convolution at the top level of the model, "conv1.weight", or "features.0.weight") refers to the
    convolution itself, which is not an activation module: then the statistic is missing (ValueError). *)
Theorem C114_which_module_refuted : forall name modules,
  (~ occurs ".conv" (name ++ ".weight") -> activation_module_name (name ++ ".weight") = name /\
     (dget modules name = Some None -> quality_criterion modules 4 (name ++ ".weight") = Raise ValueError)) /\
  activation_module_name "features.convs.conv1.weight" = "features.relus.relu1"%string.
Proof.
  intros name modules. split; [|reflexivity]. intro H.
  assert (E : activation_module_name (name ++ ".weight") = name) by (unfold activation_module_name; rewrite replace_none by auto; apply drop_weight_app).
  split; auto. intro D. unfold quality_criterion. rewrite E, D. reflexivity.
Qed.

(** The criterion is the collected per-channel value. *)
Theorem C114_criterion : forall modules name ms, dget modules (activation_module_name name) = Some (Some ms) ->
  quality_criterion modules 4 name = Ok (map w_mean ms) /\
  (forall d, d <> 4%nat -> quality_criterion modules d name = Raise AssertionError).
Proof.
  intros modules name ms H. unfold quality_criterion. rewrite H. split; auto. intros d Hd. destruct (Nat.eqb_spec d 4); [congruence|reflexivity].
Qed.

(* ------------------------------------------------------------------------- *)
(** * The hypotheses hold in concrete, non-trivial cases *)
Definition ex_a := mkAct [2; 2; 1; 2]%nat [1; 0; 3; 4; 0; 0; -2; 5].
Definition ex_b := mkAct [1; 2; 1; 2]%nat [0; 0; 7; 7].
Example C114_ex_images : images ex_a 2 2 1 2 /\ images ex_b 1 2 1 2 /\ channel ex_a 0 = [1; 0; 0; 0] /\ channel ex_a 1 = [3; 4; -2; 5].
Proof. repeat split; auto. Qed.
Example C114_ex_apoz : exists v, activation_channels_apoz ex_a = Ok v /\ nth 0 v 0 = 75 /\ nth 1 v 0 = 0.
Proof.
  destruct (C114_channel_statistics ex_a 2 2 1 2) as (l & m & p & _ & _ & E & _ & _ & _ & H); [apply C114_ex_images|].
  exists p. split; auto. split.
  - destruct (H 0%nat ltac:(auto)) as (_ & _ & Z). rewrite (Z 3%nat); [simpl; field|]. change (channel ex_a 0) with [1; 0; 0; 0]. apply NzOther; [lra|]. repeat constructor.
  - destruct (H 1%nat ltac:(auto)) as (_ & _ & Z). rewrite (Z 0%nat); [simpl; field|]. change (channel ex_a 1) with [3; 4; -2; 5]. repeat (apply NzOther; [lra|]). constructor.
Qed.
Example C114_ex_collected : exists ms, summary_run activation_channels_means OUT [([], ex_a); ([], ex_b)] = Ok ms /\
  nth 0 (summary_value ms) 0 = 1 / 6 /\ nth 1 (summary_value ms) 0 = 4.
Proof.
  destruct (C114_collected_means [ex_a; ex_b] 2 ltac:(auto) ltac:(discriminate)) as [(ms & E & _ & V) _].
  - intros a [<-|[<-|[]]]; [exists 2%nat, 1%nat, 2%nat|exists 1%nat, 1%nat, 2%nat]; apply C114_ex_images.
  - exists ms. split; auto. rewrite !V by auto.
    change (flat_map (fun a => channel a 0) [ex_a; ex_b]) with [1; 0; 0; 0; 0; 0]. change (flat_map (fun a => channel a 1) [ex_a; ex_b]) with [3; 4; -2; 5; 7; 7].
    unfold CollSpec.mean. simpl. split; field.
Qed.
Example C114_ex_wf : well_formed ex_a /\ samples ex_a = [[1; 0; 3; 4]; [0; 0; -2; 5]].
Proof. split; [split; [simpl; lia|split; [reflexivity|unfold numel; simpl; lia]]|reflexivity]. Qed.
Example C114_ex_name : ~ occurs ".conv" "layer1.0" /\ ~ occurs ".conv" "2.weight" /\
  activation_module_name "layer1.0.conv2.weight" = "layer1.0.relu2"%string.
Proof.
  assert (N : forall s, (String.length s < 9)%nat -> forallb (fun i => negb (prefix ".conv" (substring i 9 s))) (seq 0 9) = true -> ~ occurs ".conv" s).
  { intros s Hl H (a & b & E). rewrite forallb_forall in H. assert (La : (String.length a < 9)%nat) by (rewrite E, length_app in Hl; lia).
    specialize (H (String.length a) ltac:(apply in_seq; lia)). apply negb_true_iff in H.
    assert (P : forall a t m, substring (String.length a) m (a ++ t) = substring 0 m t) by (clear; induction a; intros; simpl; auto).
    rewrite E, P in H. clear - H. cbn [append substring prefix] in H. repeat (cbn in H). destruct b; discriminate. }
  split; [|split; [|reflexivity]]; apply N; try (vm_compute; reflexivity); simpl; lia.
Qed.

Print Assumptions C114_channel_statistics.
Print Assumptions C114_apoz_range.
Print Assumptions C114_l1_is_scaled_mean.
Print Assumptions C114_linear_single_number_refuted.
Print Assumptions C114_unsupported_shape.
Print Assumptions C114_collected_means.
Print Assumptions C114_collected_l1.
Print Assumptions C114_split_and_order_irrelevant.
Print Assumptions C114_inputs_are_one_batch.
Print Assumptions C114_shared_module_refuted.
Print Assumptions C114_records.
Print Assumptions C114_records_consistent.
Print Assumptions C114_records_reset.
Print Assumptions C114_value_is_live_refuted.
Print Assumptions C114_file_names.
Print Assumptions C114_statistics_of_which_module.
Print Assumptions C114_which_module_refuted.
Print Assumptions C114_criterion.
Print Assumptions C114_stop_and_restart.
