(** Proofs about the activation channel statistics. *)
From Coq Require Import String Ascii List Reals Arith Bool Lia Lra Permutation.
From Verif Require Import Base CollModel CollSpec CollProofs ChModel ChSpec.
Import ListNotations.
Open Scope list_scope.
Open Scope nat_scope.
Open Scope R_scope.

Lemma firstn_tab k : forall l, (k <= length l)%nat -> firstn k l = map (fun p => nth p l 0) (seq 0 k).
Proof.
  induction k as [|k IH]; intros l H; [reflexivity|]. destruct l as [|x l]; [simpl in H; lia|].
  cbn [firstn seq map nth]. f_equal. rewrite <- seq_shift, map_map. apply IH. simpl in H. lia.
Qed.
Lemma nth_skipn_R k : forall (l : list R) p, nth p (skipn k l) 0 = nth (k + p) l 0.
Proof. induction k as [|k IH]; intros l p; [reflexivity|]. destruct l; [destruct p; reflexivity|]. simpl. apply IH. Qed.
Lemma rows_eq m k : forall l, (m * k <= length l)%nat ->
  rows m k l = map (fun i => map (fun p => nth (i * k + p) l 0) (seq 0 k)) (seq 0 m).
Proof.
  induction m as [|m IH]; intros l H; [reflexivity|]. cbn [rows seq map]. f_equal.
  - rewrite firstn_tab by lia. reflexivity.
  - rewrite <- seq_shift, map_map, IH by (rewrite skipn_length; simpl in H; lia).
    apply map_ext. intro i. apply map_ext. intro p. rewrite nth_skipn_R. f_equal. lia.
Qed.
Lemma nth_map_seq {A} (f : nat -> A) d n i : (i < n)%nat -> nth i (map f (seq 0 n)) d = f i.
Proof. intro H. rewrite (nth_indep _ d (f 0%nat)) by (rewrite map_length, seq_length; auto). rewrite map_nth, seq_nth by auto. auto. Qed.
Lemma rsum_map_ext {A} (f g : A -> R) l : (forall x, In x l -> f x = g x) -> rsum (map f l) = rsum (map g l).
Proof. intro H. f_equal. apply map_ext_in; auto. Qed.
Lemma rsum_flat {A} (f : A -> list R) l : rsum (flat_map f l) = rsum (map (fun x => rsum (f x)) l).
Proof. induction l as [|x l IH]; [reflexivity|]. cbn [flat_map map]. rewrite rsum_app, IH. reflexivity. Qed.
Lemma rsum_map_div {A} (f : A -> R) l d : rsum (map (fun x => f x / d) l) = rsum (map f l) / d.
Proof. unfold Rdiv. induction l as [|x l IH]; simpl; [lra|]. rewrite IH. lra. Qed.
Lemma rsum_map_mulr {A} (f : A -> R) l d : rsum (map (fun x => f x * d) l) = rsum (map f l) * d.
Proof. induction l as [|x l IH]; simpl; [lra|]. rewrite IH. lra. Qed.
Lemma map_flat {A B C} (g : B -> C) (f : A -> list B) l : map g (flat_map f l) = flat_map (fun x => map g (f x)) l.
Proof. induction l as [|x l IH]; [reflexivity|]. cbn. rewrite map_app, IH. reflexivity. Qed.
Lemma flat_length {A B} (f : A -> list B) k l : (forall x, In x l -> length (f x) = k) -> length (flat_map f l) = (length l * k)%nat.
Proof. induction l as [|x l IH]; intro H; [reflexivity|]. simpl. rewrite app_length, H by (simpl; auto). rewrite IH; auto. intros y Hy. apply H. simpl; auto. Qed.
Lemma flat_ext {A B} (f g : A -> list B) l : (forall x, In x l -> f x = g x) -> flat_map f l = flat_map g l.
Proof. induction l as [|x l IH]; intro H; [reflexivity|]. simpl. rewrite H by (simpl; auto). rewrite IH; auto. intros y Hy. apply H. simpl; auto. Qed.

(** image [j] of sample [i] *)
Definition image (a : act) (c s i j : nat) : list R := map (fun p => pixel a c s i j p) (seq 0 s).

Lemma channel_images a n c h w j : images a n c h w ->
  channel a j = flat_map (fun i => image a c (h * w) i j) (seq 0 n).
Proof. intros (H & _). unfold channel. rewrite H. reflexivity. Qed.
Lemma channel_length a n c h w j : images a n c h w -> length (channel a j) = (n * (h * w))%nat.
Proof.
  intro H. rewrite (channel_images _ _ _ _ _ _ H), (flat_length _ (h * w)), seq_length; auto.
  intros i _. unfold image. rewrite map_length, seq_length. auto.
Qed.

Lemma channels_eq f a n c h w : images a n c h w ->
  activation_channels f a = Ok (map (fun j => rsum (map (fun i => f (image a c (h * w) i j)) (seq 0 n)) / INR n) (seq 0 c)).
Proof.
  intros (Hs & Hl & Hn & Hc & Hh & Hw). unfold activation_channels. rewrite Hs.
  assert (Hp : (0 < n * c * (h * w))%nat) by (repeat apply Nat.mul_pos_pos; auto).
  unfold numel. rewrite Hl. destruct (Nat.eqb_spec (n * c * (h * w)) 0) as [E|_]; [exfalso; rewrite E in Hp; lia|]. f_equal.
  set (s := (h * w)%nat) in *. rewrite (rows_eq (n * c) s) by lia. rewrite map_map.
  rewrite rows_eq by (rewrite map_length, seq_length; auto).
  unfold mean_dim0. apply map_ext_in. intros j Hj. apply in_seq in Hj. rewrite map_length, seq_length, map_map. f_equal.
  apply rsum_map_ext. intros i Hi. apply in_seq in Hi. rewrite nth_map_seq by lia.
  assert (i * c + j < n * c)%nat by nia. rewrite nth_map_seq by auto. reflexivity.
Qed.

Lemma nonzeros_eq l : (nonzeros l + zeros l = length l)%nat.
Proof.
  unfold nonzeros, zeros. induction l as [|x l IH]; [reflexivity|]. cbn [filter length].
  destruct (Rlt_dec 0 (Rabs x)) as [A|A], (Req_EM_T x 0) as [B|B].
  - subst x. rewrite Rabs_R0 in A. lra.
  - simpl. lia.
  - simpl. lia.
  - exfalso. apply A. apply Rabs_pos_lt; auto.
Qed.
Lemma nonzeros_app a b : nonzeros (a ++ b) = (nonzeros a + nonzeros b)%nat.
Proof. unfold nonzeros. rewrite filter_app, app_length. auto. Qed.
Lemma nonzeros_flat {A} (f : A -> list R) l : INR (nonzeros (flat_map f l)) = rsum (map (fun x => INR (nonzeros (f x))) l).
Proof. induction l as [|x l IH]; [reflexivity|]. cbn [flat_map map]. rewrite nonzeros_app, plus_INR, IH. reflexivity. Qed.

(** the three statistics, channel by channel *)
Definition l1_stat (n : nat) (l : list R) : R := rsum (map Rabs l) / INR n.
Definition apoz_stat (l : list R) : R := 100 * INR (zeros l) / INR (length l).

Lemma l1_eq a n c h w : images a n c h w ->
  activation_channels_l1 a = Ok (map (fun j => l1_stat n (channel a j)) (seq 0 c)).
Proof.
  intro H. unfold activation_channels_l1. rewrite (channels_eq _ _ _ _ _ _ H). f_equal. apply map_ext. intro j.
  unfold l1_stat. rewrite (channel_images _ _ _ _ _ _ H), map_flat, rsum_flat. reflexivity.
Qed.
Lemma means_eq a n c h w : images a n c h w ->
  activation_channels_means a = Ok (map (fun j => CollSpec.mean (channel a j)) (seq 0 c)).
Proof.
  intro H. unfold activation_channels_means. rewrite (channels_eq _ _ _ _ _ _ H). f_equal. apply map_ext. intro j.
  unfold CollSpec.mean. rewrite (channel_length _ _ _ _ _ _ H). rewrite (channel_images _ _ _ _ _ _ H), rsum_flat.
  destruct H as (Hs & Hl & Hn & Hc & Hh & Hw).
  rewrite (rsum_map_ext _ (fun i => rsum (image a c (h * w) i j) / INR (h * w))).
  - rewrite rsum_map_div. rewrite (mult_INR n (h * w)). assert (0 < INR n) by (apply INR_pos; auto).
    assert (0 < INR (h * w)) by (apply INR_pos; nia). field. lra.
  - intros i _. unfold vmean. unfold image at 2. rewrite map_length, seq_length. reflexivity.
Qed.
Lemma apoz_eq a n c h w : images a n c h w ->
  activation_channels_apoz a = Ok (map (fun j => apoz_stat (channel a j)) (seq 0 c)).
Proof.
  intro H. unfold activation_channels_apoz. rewrite (channels_eq _ _ _ _ _ _ H). cbn [bind]. f_equal. rewrite map_map. apply map_ext. intro j.
  unfold apoz_stat. rewrite (channel_length _ _ _ _ _ _ H).
  assert (E : INR (zeros (channel a j)) = INR (n * (h * w)) - INR (nonzeros (channel a j))).
  { rewrite <- (channel_length _ _ _ _ _ j H), <- nonzeros_eq, plus_INR. lra. }
  rewrite E, (channel_images _ _ _ _ _ _ H), nonzeros_flat.
  destruct H as (Hs & Hl & Hn & Hc & Hh & Hw).
  rewrite (rsum_map_ext _ (fun i => INR (nonzeros (image a c (h * w) i j)) / INR (h * w))).
  - rewrite rsum_map_div, (mult_INR n (h * w)). assert (0 < INR n) by (apply INR_pos; auto).
    assert (0 < INR (h * w)) by (apply INR_pos; nia). field. lra.
  - intros i _. unfold image at 2. rewrite map_length, seq_length. reflexivity.
Qed.

(** ** the tensor meter is a meter per channel *)
Lemma mapM_ok {A B} (f : A -> res B) (g : A -> B) l : (forall x, In x l -> f x = Ok (g x)) -> mapM f l = Ok (map g l).
Proof. induction l as [|x l IH]; intro H; [reflexivity|]. cbn [mapM map]. rewrite H by (simpl; auto). rewrite IH; [reflexivity|]. intros y Hy. apply H. simpl; auto. Qed.

(** one batch: its statistics and its number of elements *)
Definition hist (j : nat) (h : list (list R * nat)) : list (R * nat) := map (fun x => (nth j (fst x) 0, snd x)) h.
Definition mfold (h : list (R * nat)) (m : meter) : res meter := foldM (fun m x => meter_add m (fst x) (snd x)) h m.
Definition tfold (h : list (list R * nat)) (ms : option (list meter)) : res (option (list meter)) :=
  foldM (fun ms x => do m <- tm_add ms (fst x) (snd x); Ok (Some m)) h ms.

Definition madd (m : meter) (v : R) (n : nat) : meter := match meter_add m v n with Ok m => m | Raise _ => m end.
Lemma madd_ok m v n : (0 < n)%nat -> meter_add m v n = Ok (madd m v n).
Proof. intro H. unfold madd, meter_add. destruct (Nat.eqb_spec n 0); [lia|]. destruct (Nat.eqb (w_n m) 0); reflexivity. Qed.

Lemma combine_tab {A B} (l : list A) (l' : list B) d d' c : length l = c -> length l' = c ->
  combine l l' = map (fun j => (nth j l d, nth j l' d')) (seq 0 c).
Proof.
  revert l' c. induction l as [|x l IH]; intros [|y l'] [|c] H H'; try discriminate; [reflexivity|].
  cbn [combine seq map nth]. f_equal. rewrite <- seq_shift, map_map. apply IH; simpl in *; lia.
Qed.
Lemma tab_nth_id {A} (l : list A) d c : length l = c -> l = map (fun j => nth j l d) (seq 0 c).
Proof.
  revert c. induction l as [|x l IH]; intros [|c] H; try discriminate; [reflexivity|].
  cbn [seq map nth]. f_equal. rewrite <- seq_shift, map_map. apply IH; simpl in *; lia.
Qed.

Lemma tm_add_first vs n c : (0 < n)%nat -> length vs = c ->
  tm_add None vs n = Ok (map (fun j => madd meter0 (nth j vs 0) n) (seq 0 c)).
Proof.
  intros Hn Hl. unfold tm_add. destruct (Nat.eqb_spec n 0); [lia|]. rewrite (tab_nth_id vs 0 c Hl) at 1.
  rewrite (mapM_ok _ (fun v => madd meter0 v n)); [rewrite map_map; auto|]. intros x _. apply madd_ok; auto.
Qed.
Lemma tm_add_next ms vs n c : (0 < n)%nat -> length ms = c -> length vs = c ->
  tm_add (Some ms) vs n = Ok (map (fun j => madd (nth j ms meter0) (nth j vs 0) n) (seq 0 c)).
Proof.
  intros Hn Hm Hl. unfold tm_add. destruct (Nat.eqb_spec n 0); [lia|]. rewrite Hm, Hl, Nat.eqb_refl.
  rewrite (combine_tab ms vs meter0 0 c Hm Hl).
  rewrite (mapM_ok _ (fun p => madd (fst p) (snd p) n)); [rewrite map_map; auto|]. intros x _. apply madd_ok; auto.
Qed.

Lemma tfold_next c : forall h ms, length ms = c -> Forall (fun x => length (fst x) = c /\ (0 < snd x)%nat) h ->
  exists ms', tfold h (Some ms) = Ok (Some ms') /\ length ms' = c /\
    forall j, (j < c)%nat -> mfold (hist j h) (nth j ms meter0) = Ok (nth j ms' meter0).
Proof.
  induction h as [|(v, n) h IH]; intros ms Hm Hf; [exists ms; repeat split; auto|].
  inversion Hf as [|? ? [H1 H2] Hf']; subst. cbn [fst snd] in H1, H2.
  unfold tfold. cbn [foldM fst snd]. rewrite (tm_add_next ms v n (length ms)) by auto. cbn [bind].
  set (ms1 := map _ _). assert (L1 : length ms1 = length ms) by (unfold ms1; rewrite map_length, seq_length; auto).
  destruct (IH ms1 L1 Hf') as (ms' & E & L & G). exists ms'. unfold tfold in E. rewrite E. split; auto. split; auto.
  intros j Hj. unfold mfold, hist. cbn [map foldM fst snd]. rewrite madd_ok by auto. cbn [bind].
  specialize (G j Hj). unfold ms1 in G. rewrite nth_map_seq in G by auto. exact G.
Qed.
Lemma tfold_eq c h : (0 < c)%nat -> h <> [] -> Forall (fun x => length (fst x) = c /\ (0 < snd x)%nat) h ->
  exists ms', tfold h None = Ok (Some ms') /\ length ms' = c /\
    forall j, (j < c)%nat -> mfold (hist j h) meter0 = Ok (nth j ms' meter0).
Proof.
  intros Hc Hne Hf. destruct h as [|(v, n) h]; [congruence|]. inversion Hf as [|? ? [H1 H2] Hf']; subst. cbn [fst snd] in *.
  unfold tfold. cbn [foldM fst snd]. rewrite (tm_add_first v n (length v)) by auto. cbn [bind].
  set (ms1 := map _ _). assert (L1 : length ms1 = length v) by (unfold ms1; rewrite map_length, seq_length; auto).
  destruct (tfold_next (length v) h ms1 L1 Hf') as (ms' & E & L & G). exists ms'. unfold tfold in E. rewrite E. split; auto. split; auto.
  intros j Hj. unfold mfold, hist. cbn [map foldM fst snd]. rewrite madd_ok by auto. cbn [bind].
  specialize (G j Hj). unfold ms1 in G. rewrite nth_map_seq in G by auto. exact G.
Qed.

(** ** samples *)
Lemma rows_samples a : well_formed a -> rows (hd O (a_shape a)) (numel a / hd O (a_shape a)) (a_data a) = samples a.
Proof.
  intros (Hn & Hd & Hp). rewrite rows_eq; [reflexivity|].
  change (length (a_data a)) with (numel a). rewrite Hd. destruct (a_shape a) as [|n s]; [simpl in Hn; lia|]. cbn [hd fold_right] in *.
  rewrite (Nat.mul_comm n (fold_right Nat.mul 1%nat s)), Nat.div_mul by lia. lia.
Qed.
Lemma sample_length a i : well_formed a -> length (sample a i) = (numel a / hd O (a_shape a))%nat.
Proof. intros _. unfold sample. rewrite map_length, seq_length. auto. Qed.
Lemma sample_size a : well_formed a -> (numel a = hd O (a_shape a) * (numel a / hd O (a_shape a)))%nat.
Proof.
  intros (Hn & Hd & Hp). rewrite Hd. destruct (a_shape a) as [|n s]; [simpl in Hn; lia|]. cbn [hd fold_right] in *.
  rewrite (Nat.mul_comm n (fold_right Nat.mul 1%nat s)), Nat.div_mul by lia. lia.
Qed.
Lemma records_of_app l l' s s' :
  records_of l s -> records_of l' s' ->
  forall sh, records_of (l ++ l') (mkRecords (s_min s ++ s_min s') (s_max s ++ s_max s') (s_mean s ++ s_mean s') (s_std s ++ s_std s') (s_l2 s ++ s_l2 s') sh).
Proof.
  intros (A1 & A2 & A3 & A4 & A5 & A6) (B1 & B2 & B3 & B4 & B5 & B6) sh. unfold records_of. cbn [s_min s_max s_mean s_std s_l2].
  rewrite !app_length, !map_app, A1, A2, B1, B2, A4, A5, A6, B4, B5, B6. repeat (split; [reflexivity|]). split; [|repeat split; reflexivity].
  intros i Hi. destruct (lt_dec i (length l)) as [K|K].
  - rewrite !app_nth1 by lia. apply A3; auto.
  - rewrite !app_nth2 by lia. rewrite A1, A2. apply B3. lia.
Qed.
Lemma std_eq r : (2 <= length r)%nat -> unbiased_std r = sample_std r.
Proof.
  intro H. unfold unbiased_std, sample_std. destruct r as [|x [|y r]]; simpl in H; try lia.
  rewrite minus_INR by (simpl; lia). reflexivity.
Qed.
Lemma records_one a : well_formed a ->
  records_of (samples a) (mkRecords (map min_of (samples a)) (map max_of (samples a)) (map vmean (samples a))
    (if Nat.eqb (hd O (a_shape a)) (numel a) then map (fun _ => 0) (samples a) else map unbiased_std (samples a)) (map l2_norm (samples a)) (a_shape a)).
Proof.
  intro H. pose proof (sample_size a H) as Hs. set (k := (numel a / hd O (a_shape a))%nat) in *. destruct H as (Hn & Hd & Hp).
  assert (Hk : (0 < k)%nat) by (destruct k; [rewrite Nat.mul_0_r in Hs; lia|lia]).
  assert (Hlen : forall r, In r (samples a) -> length r = k).
  { intros r Hr. unfold samples in Hr. apply in_map_iff in Hr. destruct Hr as (i & <- & _). unfold sample. fold k. rewrite map_length, seq_length. auto. }
  unfold records_of. cbn [s_min s_max s_mean s_std s_l2]. rewrite !map_length. repeat (split; [reflexivity|]).
  split; [|repeat split].
  - intros i Hi. assert (nth i (samples a) [] <> []).
    { intro E. assert (L : length (nth i (samples a) []) = k) by (apply Hlen; apply nth_In; auto). rewrite E in L. simpl in L. lia. }
    split.
    + rewrite (nth_indep _ 0 (min_of [])) by (rewrite map_length; auto). rewrite map_nth. apply min_of_spec; auto.
    + rewrite (nth_indep _ 0 (max_of [])) by (rewrite map_length; auto). rewrite map_nth. apply max_of_spec; auto.
  - destruct (Nat.eqb_spec (hd O (a_shape a)) (numel a)) as [E|E]; apply map_ext_in; intros r Hr.
    + assert (k = 1%nat) by nia. specialize (Hlen r Hr). destruct r as [|x [|y r]]; simpl in Hlen; try lia. reflexivity.
    + apply std_eq. rewrite (Hlen r Hr). destruct k as [|[|k]]; try lia.
  - apply map_ext. intro r. unfold l2_norm. do 2 f_equal. apply map_ext. intro x. ring.
Qed.
Lemma records_step s l a : records_of l s -> well_formed a ->
  exists s', records_cb s a = Ok s' /\ records_of (l ++ samples a) s' /\ s_shape s' = a_shape a.
Proof.
  intros H Hw. pose proof Hw as (Hn & Hd & Hp). unfold records_cb. pose proof (rows_samples a Hw) as E.
  destruct (a_shape a) as [|n sh] eqn:Es; [simpl in Hn; lia|]. cbn [hd] in E, Hn.
  destruct (Nat.eqb_spec (numel a) 0); [lia|]. rewrite E. eexists. split; [reflexivity|]. split; [|reflexivity].
  pose proof (records_of_app _ _ _ _ H (records_one a Hw) (n :: sh)) as G. cbn [s_min s_max s_mean s_std s_l2] in G. rewrite Es in G. exact G.
Qed.
Lemma records_empty : records_of [] records0.
Proof. unfold records_of. simpl. repeat split; auto; intros; lia. Qed.

(** ** texts *)
Lemma append_assoc a b c : ((a ++ b) ++ c = a ++ (b ++ c))%string.
Proof. induction a; simpl; congruence. Qed.
Lemma append_nil_r a : (a ++ "" = a)%string.
Proof. induction a; simpl; congruence. Qed.
