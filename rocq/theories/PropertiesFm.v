(** C113: pruning channels by feature-map reconstruction
    (distiller/pruning/ranked_structures_pruner.py:518-728, AMC's features_collector.py and
    net_wrapper.py:133-137). *)
From Coq Require Import String List ZArith QArith Qabs Qround Bool Arith Lia Lqa.
From Verif Require Import Base Lists SchedModel PrunerModel StructModel StructSpec StructProofs FmModel FmSpec FmProofs FmProofs2 FmProofs3 FmLs.
Import ListNotations.
Local Open Scope string_scope.
Open Scope list_scope.
Open Scope nat_scope.

(** the collecting run for a convolution with weights [p] and bias [bias], and for a Linear *)
Definition run_conv (g : geom) (F C : nat) (p : nd) (bias : nat -> Q) (bs : list batch) :=
  collect (fun b => hook_conv g F C (wt p) bias (b_x b) (b_rx b) (b_ry b)) bs.
Definition run_fc (F C : nat) (p : nd) (bias : nat -> Q) (bs : list (list (nat -> Q))) :=
  collect (fun x => Ok (hook_fc F C (wt p) bias x)) bs.

(** the weights of filter [f] for the kept channels, channel by channel, row-major inside *)
Definition columns (h w : nat) (bm : list Q) (v : nd) (f : nat) : list Q :=
  flat_map (fun c => flat_map (fun i => map (fun j => wt v f c i j) (seq 0 w)) (seq 0 h)) (kept bm).

Lemma tab_flat {A} a b (h : nat -> nat -> A) : 0 < b ->
  tab (a * b) (fun j => h (j / b) (j mod b)) = flat_map (fun i => tab b (h i)) (seq 0 a).
Proof.
  intros Hb. induction a; [reflexivity|]. replace (S a * b) with (a * b + b) by lia.
  rewrite tab_add, IHa, seq_S, flat_map_app. cbn [flat_map]. rewrite app_nil_r. f_equal.
  apply tab_ext. intros i Hi. destruct (div_block a b i Hi) as [-> ->]. reflexivity.
Qed.
Lemma columns_restrict h w bm v f : 0 < h -> 0 < w -> columns h w bm v f = restrict (h * w) w bm v f.
Proof.
  intros Hh Hw. unfold columns, restrict.
  rewrite (tab_flat (length (kept bm)) (h * w) (fun i q => wt v f (nth i (kept bm) 0) (q / w) (q mod w))) by nia.
  rewrite <- (tab_of_list 0 (kept bm)) at 1. unfold tab at 1. rewrite flat_map_of_map. apply flat_map_ext_in. intros i _.
  rewrite (tab_flat h w (fun a b => wt v f (nth i (kept bm) 0) a b)) by auto. reflexivity.
Qed.

(** The positions of the output along an axis are those at which the (dilated) kernel lies inside
    the padded input; and the padded input is the input framed by zeros. *)
Theorem C113_output_positions n k s p d i : 0 < s -> d * (k - 1) < n + 2 * p ->
  i < out_size n k s p d <-> i * s + d * (k - 1) < n + 2 * p.
Proof.
  intros Hs Hf. unfold out_size. set (a := n + 2 * p - d * (k - 1) - 1).
  assert (Ha : n + 2 * p = a + d * (k - 1) + 1) by lia. rewrite Ha.
  assert (E : i <= a / s <-> i * s <= a).
  { split; intros H; [|apply Nat.div_le_lower_bound; lia]. assert (s * (a / s) <= a) by (apply Nat.mul_div_le; lia). nia. }
  lia.
Qed.
Theorem C113_padding g x n c i j :
  (i < fH x -> j < fW x -> padded g x n c (ph g + i) (pw g + j) = fAt x n c i j) /\
  (i < ph g \/ ph g + fH x <= i \/ j < pw g \/ pw g + fW x <= j -> padded g x n c i j = 0%Q).
Proof.
  unfold padded. split.
  - intros Hi Hj. rewrite (proj2 (Nat.leb_le _ _)), (proj2 (Nat.ltb_lt _ _)), (proj2 (Nat.leb_le _ _)), (proj2 (Nat.ltb_lt _ _)) by lia.
    cbn [andb]. f_equal; lia.
  - intros H. destruct (Nat.leb_spec (ph g) i); destruct (Nat.ltb_spec i (ph g + fH x)); destruct (Nat.leb_spec (pw g) j);
      destruct (Nat.ltb_spec j (pw g + fW x)); cbn [andb]; try reflexivity. lia.
Qed.

(** What is collected.  For an undilated, ungrouped convolution with square outputs (or a 1 x 1 one with
    stride 1 and no padding), with batches of more than one image: the collected targets are the
    layer's outputs at the sampled positions, and the regression rows made for any set of
    kept channels reproduce, position by position, the convolution of ANY weights that use only these channels. *)
Theorem C113_samples g F C P p bias bs : plain g -> bs <> [] -> 0 < P -> positions bs <> [] ->
  Forall (fun b => regular g (b_x b)) bs -> Forall (drawn g C P) bs ->
  exists X Y, run_conv g F C p bias bs = Ok (X, Y) /\
    Y = map (fun q => match q with (x, n, i, j) => tab F (fun f => conv_at g F C (wt p) bias x n f i j) end) (positions bs) /\
    forall bm, length bm = C -> kept bm <> [] ->
      exists rows, x_rows (OpConv (kh g, kw g)) bm X = Ok rows /\
        Forall2 (fun row q => match q with (x, n, i, j) =>
           forall v f, f < F -> uses_kept F C (kh g) (kw g) bm v ->
             (dot row (columns (kh g) (kw g) bm v f) == conv_at g F C (wt v) no_bias x n f i j)%Q end) rows (positions bs).
Proof.
  intros Hp Hne HP Hpos Hr Hd. assert (HK := plain_K g Hp).
  do 2 eexists. split; [apply (conv_collected g F C P); auto|]. split.
  { apply map_ext. intros [[[x n] i] j]. reflexivity. }
  intros bm Hb Hk. eexists. split; [apply conv_rows; auto|].
  clear Hpos. induction (positions bs) as [|q l IH]; cbn [map]; constructor; auto.
  destruct q as [[[x n] i] j]. intros v f Hf Hu. assert (Hg := Hp). destruct Hg as (_ & _ & _ & H1 & H2).
  rewrite columns_restrict by auto.
  exact (dot_out _ F C (kh g * kw g) (kw g) (feat g) (conv_pos g F C) HK (conv_linear g F C Hp) bm Hb v (x, n, i, j) f (uses_kept_supported F C (kh g) (kw g) bm v H2 Hu) Hf).
Qed.

Lemma conv_err_layer g F C p bias bs v :
  conv_err g F C p bias bs v = layer_err _ F (conv_target g F C p bias) (conv_pos g F C) (positions bs) v.
Proof. unfold conv_err, layer_err. f_equal. apply map_ext. intros [[[x n] i] j]. reflexivity. Qed.

(** The main claim.  Let the samples be collected as above and let the solver return a least-squares solution
    of the problem it is given.  If the pruner prunes (to the map [bm], the weights [p'], the mask [m]), then
    the layer with [p'] masked by [m] has, on the sampled positions, the smallest squared error against the
    sampled outputs among ALL weights that use only the kept channels. *)
Theorem C113_reconstruction_is_best solver frac g F C P p bias bs layer mag gs rf noise bm p' m X Y :
  plain g -> bs <> [] -> Forall (fun b => regular g (b_x b)) bs -> Forall (drawn g C P) bs ->
  nd_ok p -> nd_shape p = [F; C; kh g; kw g] -> 0 < F -> 0 < C ->
  run_conv g F C p bias bs = Ok (X, Y) ->
  (forall rows, x_rows (OpConv (kh g, kw g)) bm X = Ok rows ->
      least_squares F (length (kept bm) * (kh g * kw g)) rows Y (solver rows Y)) ->
  rank_and_reconstruct solver frac p layer (kh g, kw g) true (Some [(layer, (X, Y))]) None mag gs rf noise = Ok (Some (bm, p', Some m)) ->
  uses_kept F C (kh g) (kw g) bm (masked p' m) /\
  forall v, uses_kept F C (kh g) (kw g) bm v ->
    (conv_err g F C p bias bs (masked p' m) <= conv_err g F C p bias bs v)%Q.
Proof.
  intros Hp Hne Hr Hd Hok Hs HF HC HX Hsolve H. assert (HK := plain_K g Hp).
  assert (Hg := Hp). destruct Hg as (_ & _ & _ & H1 & H2).
  unfold run_conv in HX. rewrite (conv_collected g F C P) in HX by auto.
  assert (EX : X = mkS (cols_of g C) P (flat_map (batch_at g) bs)) by congruence.
  assert (EY : Y = map (fun q => tab F (conv_target g F C p bias q)) (positions bs)) by congruence. clear HX.
  apply reconstruct_inv in H. destruct H as (mags & bk & rows & HRK & HKA & HXR & Hnr & HWB & HE).
  destruct (HE eq_refl) as (m' & Em & HE'). assert (m' = m) by congruence. subst m'. clear HE Em.
  assert (Hdim : ndim p = 4) by (unfold ndim; now rewrite Hs). rewrite Hdim in HXR. cbn [Nat.eqb] in HXR.
  assert (HXR' := HXR). rewrite EX in HXR'. destruct (x_rows_conv_len _ _ _ _ _ _ HXR' HK) as (Hb & Hk & HP'). specialize (HP' Hnr).
  assert (Hpos : positions bs <> []).
  { intros E. assert (EL := HXR'). unfold positions in E.
    assert (EN : forall b, In b bs -> fN (b_x b) = 0).
    { intros b Hin. destruct (fN (b_x b)) eqn:EN; [reflexivity|]. exfalso. rewrite Forall_forall in Hd.
      destruct (Hd b Hin) as (_ & Hl1 & Hl2 & _). destruct (b_rx b) as [|r rx] eqn:ER; [cbn in Hl1; lia|]. destruct (b_ry b) as [|r' ry] eqn:ER'; [cbn in Hl2; lia|].
      assert (In (b_x b, 0, r, r') []) as [].
      rewrite <- E. apply in_flat_map. exists b. split; auto. apply in_flat_map. exists 0. split; [apply in_seq; lia|].
      rewrite ER, ER'. cbn. now left. }
    assert (EB : flat_map (batch_at g) bs = []).
    { clear - EN. induction bs as [|b l IH]; [reflexivity|]. cbn [flat_map]. rewrite IH by (intros; apply EN; now right).
      unfold batch_at. rewrite (EN b) by (now left). now destruct (_ && _). }
    rewrite EB in EL. apply Hnr. clear - EL H1 H2.
    assert (Hd' : (kh g = 1 /\ kw g = 1) \/ ~ (kh g = 1 /\ kw g = 1)) by lia. destruct Hd' as [[Ea Eb]|Hn].
    - rewrite Ea, Eb in EL. cbn [x_rows s_cols s_pts s_at flat_map] in EL. destruct (_ =? _); [|discriminate]. destruct (_ =? _); [discriminate|]. congruence.
    - rewrite x_rows_gen in EL by auto. cbn [s_at length Nat.eqb orb] in EL. discriminate. }
  assert (ER : rows = map (conv_row g bm) (positions bs)).
  { rewrite EX, (conv_rows g C P) in HXR by auto. congruence. }
  specialize (Hsolve rows HXR). rewrite ER, EY in Hsolve.
  assert (Hw : wshape p F C (kh g) (kw g)) by (repeat split; auto).
  destruct (keep_above_01 _ _ _ HKA) as [_ H01].
  destruct (final_wt p p' m F C (kh g) (kw g) bm _ Hw Hb H01 HWB HE') as [FS FC]. rewrite ER, EY in FC.
  split.
  { intros f c i j Hf Hc Hi Hj Hz. specialize (FS f c (i * kw g + j) Hf Hc ltac:(nia) Hz).
    destruct (div_block i (kw g) j Hj) as [D1 D2]. now rewrite D1, D2 in FS. }
  intros v Hv.
  rewrite !conv_err_layer.
  refine (best _ F C (kh g * kw g) (kw g) (feat g) (conv_target g F C p bias) (conv_pos g F C) HK (conv_linear g F C Hp) bm Hb
    (positions bs) _ (masked p' m) Hsolve FS _ v (uses_kept_supported F C (kh g) (kw g) bm v H2 Hv)).
  intros f j Hf Hj. unfold restrict. rewrite tab_nth by auto. exact (FC f j Hf Hj).
Qed.

(** the same for a fully connected layer *)
Definition lfeat (q : list (nat -> Q) * nat) (c : nat) : Q := nth (snd q) (fst q) (fun _ => 0%Q) c.
Definition lin_pos C (v : nd) (q : list (nat -> Q) * nat) (f : nat) : Q := lin_at C (wt v) no_bias (fst q) (snd q) f.
Definition lin_target C (p : nd) bias (q : list (nat -> Q) * nat) (f : nat) : Q := lin_at C (wt p) bias (fst q) (snd q) f.

Lemma lin_linear C : forall v a f, (lin_pos C v a f == qsum (tab C (fun c => qsum (tab 1 (fun q =>
     wt v f c (q / 1)%nat (q mod 1)%nat * lfeat a (c * 1 + q)%nat)))))%Q.
Proof.
  intros v [x n] f. unfold lin_pos, lin_at, no_bias, lfeat. rewrite Qplus_0_l. apply qsum_tab_ext. intros c Hc.
  unfold tab, qsum. cbn [seq map fold_right fst snd]. change (0 / 1) with 0. change (0 mod 1) with 0. rewrite Nat.mul_1_r, Nat.add_0_r. ring.
Qed.

Lemma lin_collected F C p bias bs : bs <> [] ->
  run_fc F C p bias bs = Ok (mkS C 1 (flat_map (fun x => tab (length x) (fun n => fun c (_ : nat) => nth n x (fun _ => 0%Q) c)) bs),
                              map (fun q => tab F (lin_target C p bias q)) (lin_positions bs)).
Proof.
  intros Hne. unfold run_fc. rewrite (collect_ok _ C 1 (fun x => tab (length x) (fun n => fun c (_ : nat) => nth n x (fun _ => 0%Q) c))
     (fun x => y_rows (length x) 1 F (fun n f _ => lin_at C (wt p) bias x n f))) by auto.
  do 2 f_equal. unfold lin_positions. rewrite flat_map_map. apply flat_map_ext_in. intros x _. unfold y_rows.
  rewrite map_map. unfold tab at 1. cbn [seq map]. unfold lin_target. cbn [fst snd].
  generalize (seq 0 (length x)). induction l; [reflexivity|]. cbn. now rewrite IHl.
Qed.

Lemma lin_rows C bm bs rows : length bm = C ->
  x_rows OpFc bm (mkS C 1 (flat_map (fun x => tab (length x) (fun n => fun c (_ : nat) => nth n x (fun _ => 0%Q) c)) bs)) = Ok rows ->
  rows = map (row_of _ 1 lfeat bm) (lin_positions bs).
Proof.
  intros Hb H. cbn [x_rows s_cols s_pts s_at] in H. rewrite Hb, Nat.eqb_refl in H.
  assert (E : forall x : list (nat -> Q), flat_map (fun a : nat -> nat -> Q => tab 1 (fun p0 : nat => map (fun c : nat => a c p0) (kept bm)))
               (tab (length x) (fun n => fun c (_ : nat) => nth n x (fun _ => 0%Q) c)) = map (row_of _ 1 lfeat bm) (map (fun n => (x, n)) (seq 0 (length x)))).
  { intros x. unfold tab at 2. rewrite flat_map_of_map, map_map. generalize (seq 0 (length x)).
    induction l; [reflexivity|]. cbn [flat_map map app]. rewrite IHl. unfold tab at 1. cbn [seq map app]. f_equal.
    unfold row_of, lfeat. cbn [fst snd]. rewrite (map_nth_tab 0), Nat.mul_1_r. apply tab_ext. intros i Hi.
    now rewrite Nat.div_1_r, Nat.mod_1_r, Nat.mul_1_r, Nat.add_0_r. }
  rewrite flat_map_flat_map in H. unfold lin_positions. rewrite flat_map_map.
  rewrite <- (flat_map_ext_in _ _ bs (fun x _ => E x)). congruence.
Qed.

Theorem C113_linear_reconstruction_is_best solver frac F C p bias bs layer kernel mag gs rf noise bm p' m X Y :
  bs <> [] -> nd_ok p -> nd_shape p = [F; C] -> 0 < F -> 0 < C ->
  run_fc F C p bias bs = Ok (X, Y) ->
  (forall rows, x_rows OpFc bm X = Ok rows -> least_squares F (length (kept bm)) rows Y (solver rows Y)) ->
  rank_and_reconstruct solver frac p layer kernel true (Some [(layer, (X, Y))]) None mag gs rf noise = Ok (Some (bm, p', Some m)) ->
  uses_kept F C 1 1 bm (masked p' m) /\
  forall v, uses_kept F C 1 1 bm v -> (lin_err F C p bias bs (masked p' m) <= lin_err F C p bias bs v)%Q.
Proof.
  intros Hne Hok Hs HF HC HX Hsolve H. rewrite lin_collected in HX by auto.
  apply reconstruct_inv in H. destruct H as (mags & bk & rows & HRK & HKA & HXR & Hnr & HWB & HE).
  destruct (HE eq_refl) as (m' & Em & HE'). assert (m' = m) by congruence. subst m'. clear HE Em.
  assert (Hdim : ndim p = 2) by (unfold ndim; now rewrite Hs). rewrite Hdim in HXR. cbn [Nat.eqb] in HXR.
  assert (Hb : length bm = C).
  { assert (EX : s_cols X = C) by (assert (X = mkS C 1 (flat_map (fun x => tab (length x) (fun n => fun c (_ : nat) => nth n x (fun _ => 0%Q) c)) bs)) by congruence; now subst X).
    cbn [x_rows] in HXR. rewrite EX in HXR. destruct (Nat.eqb_spec C (length bm)); [auto|discriminate]. }
  assert (ER : rows = map (row_of _ 1 lfeat bm) (lin_positions bs)).
  { apply (lin_rows C); auto. rewrite <- HXR. f_equal. congruence. }
  assert (EY : Y = map (fun q => tab F (lin_target C p bias q)) (lin_positions bs)) by congruence.
  specialize (Hsolve rows HXR).
  assert (Hw : wshape p F C 1 1) by (repeat split; auto).
  destruct (keep_above_01 _ _ _ HKA) as [_ H01].
  destruct (final_wt p p' m F C 1 1 bm _ Hw Hb H01 HWB HE') as [FS FC]. rewrite ER, EY in FC, Hsolve.
  assert (EL : forall v, lin_err F C p bias bs v = layer_err _ F (lin_target C p bias) (lin_pos C) (lin_positions bs) v).
  { intros v. unfold lin_err, layer_err. f_equal. apply map_ext. intros [x n]. reflexivity. }
  split.
  { intros f c i j Hf Hc Hi Hj Hz. specialize (FS f c (i * 1 + j) Hf Hc ltac:(nia) Hz).
    destruct (div_block i 1 j Hj) as [D1 D2]. now rewrite D1, D2 in FS. }
  intros v Hv. rewrite !EL. rewrite <- (Nat.mul_1_r (length (kept bm))) in Hsolve.
  refine (best _ F C 1 1 lfeat (lin_target C p bias) (lin_pos C) ltac:(lia) (fun v a f _ => lin_linear C v a f) bm Hb
    (lin_positions bs) _ (masked p' m) Hsolve FS _ v (uses_kept_supported F C 1 1 bm v ltac:(lia) Hv)).
  intros f j Hf Hj. unfold restrict. rewrite tab_nth by auto. exact (FC f j Hf Hj).
Qed.

(** Least-squares solutions exist for every problem: the hypothesis on the solver can be met. *)
Theorem C113_solutions_exist F m X Y : X <> [] -> matrix (length X) m X -> matrix (length X) F Y ->
  least_squares F m X Y (ls_solver X Y).
Proof. intros Hne [_ HX] [HL HY]. apply ls_solver_ok; auto. Qed.

(** ... so that with an exact solver nothing is assumed of it. *)
Theorem C113_with_exact_solver frac g F C P p bias bs layer mag gs rf noise bm p' m X Y :
  plain g -> bs <> [] -> 0 < P -> positions bs <> [] -> Forall (fun b => regular g (b_x b)) bs -> Forall (drawn g C P) bs ->
  nd_ok p -> nd_shape p = [F; C; kh g; kw g] -> 0 < F -> 0 < C ->
  run_conv g F C p bias bs = Ok (X, Y) ->
  rank_and_reconstruct ls_solver frac p layer (kh g, kw g) true (Some [(layer, (X, Y))]) None mag gs rf noise = Ok (Some (bm, p', Some m)) ->
  forall v, uses_kept F C (kh g) (kw g) bm v ->
    (conv_err g F C p bias bs (masked p' m) <= conv_err g F C p bias bs v)%Q.
Proof.
  intros Hp Hne HP Hpos Hr Hd Hok Hs HF HC HX H.
  refine (proj2 (C113_reconstruction_is_best ls_solver frac g F C P p bias bs layer mag gs rf noise bm p' m X Y Hp Hne Hr Hd Hok Hs HF HC HX _ H)).
  intros rows HR. assert (HK := plain_K g Hp). unfold run_conv in HX. rewrite (conv_collected g F C P) in HX by auto.
  assert (EX : X = mkS (cols_of g C) P (flat_map (batch_at g) bs)) by congruence.
  assert (EY : Y = map (fun q => tab F (conv_target g F C p bias q)) (positions bs)) by congruence.
  rewrite EX in HR. destruct (x_rows_conv_len _ _ _ _ _ _ HR HK) as (Hb & Hk & _).
  rewrite (conv_rows g C P) in HR by auto. assert (ER : rows = map (conv_row g bm) (positions bs)) by congruence.
  rewrite ER, EY. apply ls_solver_ok.
  - destruct (positions bs); [congruence|discriminate].
  - now rewrite !map_length.
  - apply Forall_forall. intros r Hin. apply in_map_iff in Hin. destruct Hin as (q & <- & _). unfold conv_row, row_of. apply tab_length.
  - apply Forall_forall. intros r Hin. apply in_map_iff in Hin. destruct Hin as (q & <- & _). apply tab_length.
Qed.

(** In particular it is never worse than just masking the old weights (bias left out). *)
Theorem C113_no_worse_than_masking solver frac g F C P p bs layer mag gs rf noise bm p' m X Y :
  plain g -> bs <> [] -> Forall (fun b => regular g (b_x b)) bs -> Forall (drawn g C P) bs ->
  nd_ok p -> nd_shape p = [F; C; kh g; kw g] -> 0 < F -> 0 < C ->
  run_conv g F C p no_bias bs = Ok (X, Y) ->
  (forall rows, x_rows (OpConv (kh g, kw g)) bm X = Ok rows ->
      least_squares F (length (kept bm) * (kh g * kw g)) rows Y (solver rows Y)) ->
  rank_and_reconstruct solver frac p layer (kh g, kw g) true (Some [(layer, (X, Y))]) None mag gs rf noise = Ok (Some (bm, p', Some m)) ->
  (conv_err g F C p no_bias bs (masked p' m) <= conv_err g F C p no_bias bs (masked p m))%Q.
Proof.
  intros Hp Hne Hr Hd Hok Hs HF HC HX Hsolve H.
  destruct (C113_reconstruction_is_best solver frac g F C P p no_bias bs layer mag gs rf noise bm p' m X Y Hp Hne Hr Hd Hok Hs HF HC HX Hsolve H) as [_ HB].
  apply HB. assert (HK := plain_K g Hp). assert (Hg := Hp). destruct Hg as (_ & _ & _ & H1 & H2).
  apply reconstruct_inv in H. destruct H as (mags & bk & rows & HRK & HKA & HXR & Hnr & HWB & HE).
  destruct (HE eq_refl) as (m' & Em & HE'). assert (m' = m) by congruence. subst m'.
  assert (Hw : wshape p F C (kh g) (kw g)) by (repeat split; auto).
  destruct (write_back_wt _ _ _ _ _ _ _ _ Hw HWB) as (_ & Esh & _).
  unfold run_conv in HX. rewrite (conv_collected g F C P) in HX by auto.
  assert (EX : X = mkS (cols_of g C) P (flat_map (batch_at g) bs)) by congruence.
  assert (Hdim : ndim p = 4) by (unfold ndim; now rewrite Hs). rewrite Hdim in HXR. cbn [Nat.eqb] in HXR.
  rewrite EX in HXR. destruct (x_rows_conv_len _ _ _ _ _ _ HXR HK) as (Hb & _ & _).
  assert (HE2 : expand_binary_map p TChannels bm = Ok m).
  { rewrite <- HE'. unfold expand_binary_map, size, ndim. rewrite Esh. reflexivity. }
  intros f c i j Hf Hc Hi Hj Hz. rewrite (masked_wt p m F C (kh g) (kw g) bm) by auto. rewrite Hz. ring.
Qed.

(** Which weights are written: the coefficients of the solution in the kept channels, in order; the
    weights of the other channels stay until the mask is applied; the mask is 0 exactly there.  The
    kept channels are those whose score is above that of the last channel to prune. *)
Theorem C113_written solver frac p layer kernel model bm0 mag gs rf noise F C h w bm p' m :
  wshape p F C h w -> length bm = C ->
  rank_and_reconstruct solver frac p layer kernel true model bm0 mag gs rf noise = Ok (Some (bm, p', Some m)) ->
  bm0 = None /\
  exists d X Y rows bottomk mags thr, model = Some d /\ dget d layer = Some (X, Y) /\
    rank_channels p gs mag frac rf noise = Ok (Some (bottomk, mags)) /\ last_elem bottomk = Ok thr /\
    bm = map (fun s => if Qle_bool s thr then 0%Q else 1%Q) mags /\
    x_rows (if Nat.eqb (ndim p) 4 then OpConv kernel else OpFc) bm X = Ok rows /\
    nd_shape p' = nd_shape p /\ nd_shape m = nd_shape p /\
    forall f c i j, f < F -> c < C -> i < h -> j < w ->
      (forall pos, nth_error (kept bm) pos = Some c ->
         wt p' f c i j = nth (pos * (h * w) + (i * w + j)) (nth f (solver rows Y) []) 0%Q) /\
      (~ In c (kept bm) -> wt p' f c i j = wt p f c i j) /\
      wt (masked p' m) f c i j = (wt p' f c i j * nth c bm 0)%Q.
Proof.
  intros Hw Hb H. unfold rank_and_reconstruct in H. destruct bm0 as [b0|]; [discriminate|]. split; [reflexivity|].
  destruct (rank_channels p gs mag frac rf noise) as [[[bk mags]|]|] eqn:ER; cbn [bind] in H; try discriminate.
  destruct (keep_above mags bk) as [bm1|] eqn:EK; cbn [bind] in H; [|discriminate].
  destruct model as [d|]; [|discriminate]. destruct (dget d layer) as [[X Y]|] eqn:ED; [|discriminate].
  destruct (x_rows _ bm1 X) as [rows|] eqn:EX; cbn [bind] in H; [|discriminate].
  destruct (fit solver rows Y) as [coef|] eqn:EF; cbn [bind] in H; [|discriminate].
  destruct (write_back p (kept bm1) coef) as [p0|] eqn:EW; cbn [bind] in H; [|discriminate].
  destruct (expand_binary_map p0 TChannels bm1) as [m0|] eqn:EE; cbn [bind] in H; [|discriminate].
  assert (bm1 = bm /\ p0 = p' /\ m0 = m) as (-> & -> & ->) by (repeat split; congruence).
  apply fit_coef in EF. destruct EF as [-> _].
  assert (EK' := EK). unfold keep_above in EK'. destruct (last_elem bk) as [thr|] eqn:EL; cbn [bind] in EK'; [|discriminate].
  exists d, X, Y, rows, bk, mags, thr.
  destruct (write_back_wt _ _ _ _ _ _ _ _ Hw EW) as (Hw' & Esh & _ & HV).
  repeat (split; [solve [auto]|]).
  split. { assert (E : map (fun m : Q => b2q (Qltb thr m)) mags = bm) by congruence. rewrite <- E. apply map_ext. intros a. unfold Qltb. now destruct (Qle_bool a thr). }
  split; [auto|]. split; [auto|]. split.
  { destruct Hw' as (Hok' & H1 & H2 & H3 & H4 & [Hs|(Hs & -> & ->)]).
    - destruct (expand_channels_ok p' F C h w Hs Hok' ltac:(auto) bm Hb) as (m1 & E0 & E1 & _). congruence.
    - destruct (expand_cols_ok p' F C Hs Hok' ltac:(auto) TChannels bm ltac:(auto) Hb) as (m1 & E0 & E1 & _). congruence. }
  intros f c i j Hf Hc Hi Hj. split; [|split].
  - intros pos Hpos. rewrite HV by auto. assert (Hl : pos < length (kept bm)) by (apply nth_error_Some; congruence).
    assert (En : nth pos (kept bm) 0 = c) by (apply nth_error_nth; auto). rewrite <- En at 1. rewrite find_pos_nth by (auto using kept_nodup). reflexivity.
  - intros Hn. rewrite HV by auto. rewrite find_pos_none by auto. reflexivity.
  - apply (masked_wt p' m F C h w bm); auto.
Qed.

(** When it prunes: some channel scores above the threshold, the layer's samples were collected, and the
    solver returns one row per filter and one column per kept position. *)
Theorem C113_prunes solver frac g F C P p bias bs layer mag gs rf noise bottomk mags bm X Y :
  plain g -> bs <> [] -> 0 < P -> positions bs <> [] -> Forall (fun b => regular g (b_x b)) bs -> Forall (drawn g C P) bs ->
  nd_ok p -> nd_shape p = [F; C; kh g; kw g] -> 0 < F -> 0 < C ->
  run_conv g F C p bias bs = Ok (X, Y) ->
  rank_channels p gs mag frac rf noise = Ok (Some (bottomk, mags)) -> keep_above mags bottomk = Ok bm ->
  length mags = C -> (exists c, c < C /\ ~ (nth c bm 0 == 0)%Q) ->
  (forall rows, matrix F (length (kept bm) * (kh g * kw g)) (solver rows Y)) ->
  exists p' m, rank_and_reconstruct solver frac p layer (kh g, kw g) true (Some [(layer, (X, Y))]) None mag gs rf noise = Ok (Some (bm, p', Some m)).
Proof.
  intros Hp Hne HP Hpos Hr Hd Hok Hs HF HC HX HR HK Hlm (c0 & Hc0 & Hn0) Hsol.
  assert (HKp := plain_K g Hp). assert (Hg := Hp). destruct Hg as (_ & _ & _ & H1 & H2).
  unfold run_conv in HX. rewrite (conv_collected g F C P) in HX by auto.
  assert (EX : X = mkS (cols_of g C) P (flat_map (batch_at g) bs)) by congruence.
  assert (EY : Y = map (fun q => tab F (conv_target g F C p bias q)) (positions bs)) by congruence.
  destruct (keep_above_01 _ _ _ HK) as [Hlb _]. rewrite Hlm in Hlb.
  assert (Hkept : kept bm <> []).
  { intros E. assert (In c0 (kept bm)) as Hin by (apply kept_in; split; [lia|auto]). rewrite E in Hin. exact Hin. }
  assert (Hw : wshape p F C (kh g) (kw g)) by (repeat split; auto).
  unfold rank_and_reconstruct. rewrite HR. cbn [bind]. rewrite HK. cbn [bind dget]. rewrite String.eqb_refl.
  unfold ndim. rewrite Hs. cbn [length Nat.eqb]. rewrite EX, (conv_rows g C P) by auto. cbn [bind].
  assert (EF : fit solver (map (conv_row g bm) (positions bs)) Y = Ok (solver (map (conv_row g bm) (positions bs)) Y)).
  { unfold fit. destruct (positions bs) as [|q l] eqn:EP; [congruence|]. cbn [map].
    assert (Hlr : length (conv_row g bm q) <> 0).
    { unfold conv_row, row_of. rewrite tab_length. destruct (kept bm); [congruence|]. cbn [length]. nia. }
    rewrite (proj2 (Nat.eqb_neq _ _) Hlr). rewrite EY. cbn [map length]. rewrite !map_length, Nat.eqb_refl. reflexivity. }
  rewrite EF. cbn [bind]. destruct (Hsol (map (conv_row g bm) (positions bs))) as [HM1 HM2].
  set (coef := solver _ Y) in *.
  assert (EW : exists p', write_back p (kept bm) coef = Ok p').
  { unfold write_back. rewrite Hs. rewrite (proj2 (Nat.eqb_eq _ _) HM1). cbv zeta.
    rewrite (proj2 (forallb_forall _ coef)). { eauto. }
    intros r Hrr. apply Nat.eqb_eq. rewrite Forall_forall in HM2. auto. }
  destruct EW as (p' & EW). rewrite EW. cbn [bind].
  destruct (write_back_wt _ _ _ _ _ _ _ _ Hw EW) as ((Hok' & G1 & G2 & G3 & G4 & Hs') & Esh & _).
  rewrite Hs in Esh.
  destruct (expand_channels_ok p' F C (kh g) (kw g) Esh Hok' ltac:(auto) bm Hlb) as (m & E0 & _).
  rewrite E0. cbn [bind]. eauto.
Qed.

(** ** when it does not *)

(** Fraction 0, or one too low to prune a channel, changes nothing. *)
Theorem C113_nothing_to_prune solver c frac p layer kernel want model bm :
  ((frac == 0)%Q -> fm_prune_group solver c frac p layer kernel want model bm = Ok None) /\
  (~ (frac == 0)%Q -> bm = None -> rank_channels p (fp_group_size c) l1_norm frac (fp_round c) (fp_noise c) = Ok None ->
     fm_prune_group solver c frac p layer kernel want model bm = Ok None).
Proof.
  unfold fm_prune_group. split.
  - intros E. apply Qeq_bool_iff in E. now rewrite E.
  - intros E -> H. destruct (Qeq_bool frac 0) eqn:E1; [reflexivity|]. unfold rank_and_reconstruct. now rewrite H.
Qed.

(** A binary map handed in (what a "Leader" group does for every tensor) is refused; samples must have
    been collected, and for this layer. *)
Theorem C113_refuses solver c frac p layer kernel want model :
  ~ (frac == 0)%Q ->
  (forall b, fm_prune_group solver c frac p layer kernel want model (Some b) = Raise AssertionError) /\
  forall bk mags b, rank_channels p (fp_group_size c) l1_norm frac (fp_round c) (fp_noise c) = Ok (Some (bk, mags)) -> keep_above mags bk = Ok b ->
    (model = None -> fm_prune_group solver c frac p layer kernel want model None = Raise ValueError) /\
    (forall d, model = Some d -> dget d layer = None -> fm_prune_group solver c frac p layer kernel want model None = Raise KeyError).
Proof.
  intros Hf. assert (E : Qeq_bool frac 0 = false).
  { destruct (Qeq_bool frac 0) eqn:E; [|reflexivity]. exfalso. apply Hf. now apply Qeq_bool_eq. }
  unfold fm_prune_group. rewrite E. split; [reflexivity|]. intros bk mags b HR HK. unfold rank_and_reconstruct.
  rewrite HR. cbn [bind]. rewrite HK. cbn [bind]. split; [intros ->; reflexivity|]. intros d -> ->. reflexivity.
Qed.

(** When every channel scores no more than the threshold (ties), there is nothing left to fit: it fails. *)
Theorem C113_ties_of_all_channels_refuted solver frac p layer kernel want model mag gs rf noise bk mags thr :
  rank_channels p gs mag frac rf noise = Ok (Some (bk, mags)) -> last_elem bk = Ok thr ->
  Forall (fun s => s <= thr)%Q mags ->
  exists e, rank_and_reconstruct solver frac p layer kernel want model None mag gs rf noise = Raise e.
Proof.
  intros HR HL HA. unfold rank_and_reconstruct. rewrite HR. cbn [bind]. unfold keep_above. rewrite HL. cbn [bind].
  set (bm := map _ mags).
  assert (Hk : kept bm = []).
  { destruct (kept bm) as [|c l] eqn:E; [reflexivity|]. exfalso.
    assert (Hin : In c (kept bm)) by (rewrite E; now left). apply kept_in in Hin. destruct Hin as [_ Hn]. apply Hn.
    clear - HA. unfold bm. revert c. induction HA; intros c; [destruct c; reflexivity|]. destruct c; cbn [map nth]; [|apply IHHA].
    unfold Qltb. apply Qle_bool_iff in H. rewrite H. reflexivity. }
  destruct model as [d|]; [|eexists; reflexivity]. destruct (dget d layer) as [[X Y]|]; [|eexists; reflexivity].
  destruct (Nat.eqb (ndim p) 4).
  - assert (E : exists e, x_rows (OpConv kernel) bm X = Raise e).
    { destruct kernel as [k1 k2]. assert (Hd : (k1 = 1 /\ k2 = 1) \/ ~ (k1 = 1 /\ k2 = 1)) by lia. destruct Hd as [[-> ->]|Hn].
      - cbn [x_rows]. rewrite Hk. destruct (_ =? _); eexists; reflexivity.
      - rewrite x_rows_gen by auto. rewrite Hk. cbv zeta. repeat (destruct (_ || _); [eexists; reflexivity|]). destruct (negb _); [eexists; reflexivity|].
        destruct (_ =? _); eexists; reflexivity. }
    destruct E as [e E]. rewrite E. eexists. reflexivity.
  - unfold x_rows. rewrite Hk. destruct (_ =? _); cbn [bind]; [|eexists; reflexivity].
    unfold fit. destruct (flat_map _ _) as [|r l] eqn:EF; [eexists; reflexivity|].
    assert (Hr : r = []).
    { assert (Hin : In r (r :: l)) by now left. rewrite <- EF in Hin. apply in_flat_map in Hin. destruct Hin as (a & _ & Hin).
      unfold tab in Hin. apply in_map_iff in Hin. destruct Hin as (q & <- & _). reflexivity. }
    subst r. cbn. eexists. reflexivity.
Qed.

(** A batch of one image, or a layer with one output position, cannot be sampled (kernels other than
    1 x 1): whatever the draws, the collecting pass fails with an IndexError. *)
Theorem C113_one_image_or_position_refuted g F C w bias x rx ry :
  kh g * kw g <> 1 -> fN x = 1 \/ unf_h g x * unf_w g x = 1 ->
  hook_conv g F C w bias x rx ry = Raise IndexError.
Proof.
  intros HK H. unfold hook_conv.
  destruct ((kh g =? 1) && (kw g =? 1)) eqn:E.
  - apply andb_true_iff in E. destruct E as [E1 E2]. apply Nat.eqb_eq in E1, E2. rewrite E1, E2 in HK. lia.
  - destruct H as [-> | ->]; rewrite Nat.eqb_refl, ?orb_true_r; reflexivity.
Qed.
(** ... also when only the last batch has one image. *)
Theorem C113_last_batch_of_one_refuted g F C P p bias bs b : plain g -> kh g * kw g <> 1 ->
  Forall (fun b => regular g (b_x b)) bs -> Forall (drawn g C P) bs -> fN (b_x b) = 1 ->
  run_conv g F C p bias (bs ++ [b]) = Raise IndexError.
Proof.
  intros Hp HK Hr Hd H1. unfold run_conv, collect.
  assert (E : forall acc, exists acc', foldM (fun acc b => do e <- hook_conv g F C (wt p) bias (b_x b) (b_rx b) (b_ry b); Ok (acc ++ [e])) (bs ++ [b]) acc =
     foldM (fun acc b => do e <- hook_conv g F C (wt p) bias (b_x b) (b_rx b) (b_ry b); Ok (acc ++ [e])) [b] acc').
  { clear H1. induction bs as [|a bs IH]; intros acc; [exists acc; reflexivity|]. inversion Hr; inversion Hd; subst.
    destruct (hook_ok g F C P p bias a Hp ltac:(auto) ltac:(auto)) as [EH _]. cbn [app]. cbn [foldM]. rewrite EH. cbn [bind].
    apply IH; auto. }
  destruct (E []) as (acc' & ->). cbn [foldM]. rewrite C113_one_image_or_position_refuted by auto. reflexivity.
Qed.

(** The magnitude function given to the constructor has no effect: channels are ranked by their L1 norm. *)
Theorem C113_magnitude_function_ignored_refuted solver dep kws mag mag' gs rf noise :
  fm_prune_group solver (mkP dep kws mag gs rf noise) = fm_prune_group solver (mkP dep kws mag' gs rf noise).
Proof. reflexivity. Qed.

(** AMC asks for groups of [group_size] channels, rounded up; the pruner it builds prunes single channels,
    rounded down. *)
Theorem C113_amc_group_size_lost_refuted gs gs' noise solver :
  fm_prune_group solver (amc_pruner gs noise) = fm_prune_group solver (amc_pruner gs' noise) /\
  fp_group_size (amc_pruner gs noise) = 1 /\ fp_round (amc_pruner gs noise) (3 # 2) = 1%Z.
Proof. repeat split. Qed.

(** With channel groups of more than one channel it never prunes: the map has one entry per group. *)
Theorem C113_channel_groups_refuted solver frac g F C P p bias bs layer want mag gs rf noise X Y r :
  plain g -> bs <> [] -> Forall (fun b => regular g (b_x b)) bs -> Forall (drawn g C P) bs ->
  nd_ok p -> nd_shape p = [F; C; kh g; kw g] -> 0 < F -> 0 < C -> 1 < gs -> (forall ns, noise = Some ns -> length ns <> C) ->
  run_conv g F C p bias bs = Ok (X, Y) ->
  rank_and_reconstruct solver frac p layer (kh g, kw g) want (Some [(layer, (X, Y))]) None mag gs rf noise = Ok r -> r = None.
Proof.
  intros Hp Hne Hr Hd Hok Hs HF HC Hgs Hns HX H. assert (HK := plain_K g Hp). assert (Hg := Hp). destruct Hg as (_ & _ & _ & H1 & H2).
  destruct r as [[[bm p'] m]|]; [|reflexivity]. exfalso.
  apply reconstruct_inv in H. destruct H as (mags & bk & rows & HRK & HKA & HXR & _).
  unfold run_conv in HX. rewrite (conv_collected g F C P) in HX by auto.
  assert (EX : X = mkS (cols_of g C) P (flat_map (batch_at g) bs)) by congruence.
  unfold ndim in HXR. rewrite Hs in HXR. cbn [length Nat.eqb] in HXR. rewrite EX in HXR.
  destruct (x_rows_conv_len _ _ _ _ _ _ HXR HK) as (Hb & _ & _).
  destruct (keep_above_01 _ _ _ HKA) as [Hl _].
  unfold rank_channels in HRK. rewrite Hs in HRK. destruct (Z.eqb _ 0); [discriminate|].
  destruct (Nat.eq_dec (C mod gs) 0) as [E|E].
  - assert (EC : C = (C / gs) * gs) by (rewrite Nat.mul_comm; apply Nat.div_exact; lia).
    rewrite (channels_norm_ok p F C (kh g) (kw g) Hs Hok ltac:(auto) mag gs (C / gs)) in HRK by (auto; lia). cbn [bind] in HRK.
    unfold k_smallest_elems in HRK. set (ms := tab _ _) in HRK.
    assert (Hlm : length ms = C / gs) by apply tab_length. clearbody ms.
    destruct noise as [ns|].
    + destruct (topk_smallest _ _) as [t|]; cbn [bind] in HRK; [|discriminate].
      assert (E2 : mags = map2 Qmult ms ns) by congruence. subst mags.
      assert (length (map2 Qmult ms ns) <= length ms).
      { clear. revert ns. induction ms; intros ns; destruct ns; cbn; try lia. specialize (IHms ns). lia. }
      assert (C / gs < C) by (apply Nat.div_lt; lia). lia.
    + destruct (topk_smallest _ _) as [t|]; cbn [bind] in HRK; [|discriminate].
      assert (E2 : mags = ms) by congruence. subst mags. assert (C / gs < C) by (apply Nat.div_lt; lia). lia.
  - rewrite (channels_norm_bad p F C (kh g) (kw g) Hs Hok ltac:(auto) mag gs) in HRK; [discriminate|lia|].
    intros Hdv. apply E. apply Nat.mod_divide; auto; lia.
Qed.

(** ** where the samples are the wrong ones *)
Definition img33 : fmap := mkF 2 1 3 3 (fun _ _ i j => Zq (Z.of_nat (i * 3 + j))).
Definition ones1 : nd := mkND [1; 1; 1; 1] [1%Q].
Definition ones4 : nd := mkND [1; 1; 2; 2] [1; 1; 1; 1]%Q.
(** the regression row(s) a single batch gives when all channels are kept, with the targets *)
Definition sample (g : geom) (p : nd) (x : fmap) (rx ry : list nat) : res (list (list Q) * list (list Q)) :=
  do e <- run_conv g 1 1 p no_bias [mkB x rx ry];
  do rows <- x_rows (OpConv (kh g, kw g)) [1%Q] (fst e); Ok (rows, snd e).
(** does some coefficient row explain the targets, as it must for a one-channel layer? *)
Definition explained_by (c : list Q) (e : list (list Q) * list (list Q)) : Prop :=
  Forall2 (fun r y => (dot r c == nth 0 y 0)%Q) (fst e) (snd e).

(** A 1 x 1 convolution with stride 2: the input is read at the output's coordinates.  The layer's own
    weights do not explain the samples. *)
Theorem C113_strided_pointwise_refuted :
  exists e, sample (mkG 1 1 2 2 0 0 1 1 1) ones1 img33 [1] [1] = Ok e /\ ~ explained_by [1%Q] e.
Proof. eexists. split; [vm_compute; reflexivity|]. intros H. inversion H as [|? ? ? ? E]. vm_compute in E. discriminate. Qed.
(** A 2 x 2 kernel on a wide input (outputs 2 x 3): the wrong block of the unfolded input. *)
Definition wide : fmap := mkF 2 1 3 4 (fun _ _ i j => Zq (Z.of_nat (i * 4 + j))).
Definition tall : fmap := mkF 2 1 4 3 (fun _ _ i j => Zq (Z.of_nat (i * 3 + j))).
Theorem C113_wide_outputs_refuted :
  exists e, sample (mkG 2 2 1 1 0 0 1 1 1) ones4 wide [1] [0] = Ok e /\ ~ explained_by [1; 1; 1; 1]%Q e.
Proof. eexists. split; [vm_compute; reflexivity|]. intros H. inversion H as [|? ? ? ? E]. vm_compute in E. discriminate. Qed.
(** On a tall one (outputs 3 x 2), a drawn position may not exist. *)
Theorem C113_tall_outputs_refuted :
  out_h (mkG 2 2 1 1 0 0 1 1 1) tall = 3 /\ out_w (mkG 2 2 1 1 0 0 1 1 1) tall = 2 /\
  sample (mkG 2 2 1 1 0 0 1 1 1) ones4 tall [2] [1] = Raise IndexError.
Proof. repeat split. Qed.
(** A dilated kernel: the unfolding ignores the dilation. *)
Theorem C113_dilated_refuted :
  exists e, sample (mkG 2 2 1 1 0 0 2 2 1) ones4 img33 [0] [0] = Ok e /\ ~ explained_by [1; 1; 1; 1]%Q e.
Proof. eexists. split; [vm_compute; reflexivity|]. intros H. inversion H as [|? ? ? ? E]. vm_compute in E. discriminate. Qed.
(** The regular cases of the same calls are explained. *)
Example C113_explained :
  (exists e, sample (mkG 1 1 1 1 0 0 1 1 1) ones1 img33 [1; 2] [1; 0] = Ok e /\ explained_by [1%Q] e) /\
  (exists e, sample (mkG 2 2 1 1 0 0 1 1 1) ones4 img33 [1; 0] [0; 1] = Ok e /\ explained_by [1; 1; 1; 1]%Q e).
Proof. split; eexists; (split; [vm_compute; reflexivity|repeat constructor]). Qed.

(** ** a complete case *)
(** two images with two channels, the second channel twice the first; a 2 x 2 kernel *)
Definition x2 : fmap := mkF 2 2 3 3 (fun n c i j => Zq (Z.of_nat ((c + 1) * (n * n * 7 + n + i * i * 3 + j + 1)))).
Definition p2 : nd := mkND [1; 2; 2; 2] [1; -1; 2; 0; 3; 4; -5; 6]%Q.
Definition g2 : geom := mkG 2 2 1 1 0 0 1 1 1.
Definition bs2 : list batch := [mkB x2 [0; 1] [1; 0]; mkB x2 [1; 1] [1; 0]].
Definition solver2 : list (list Q) -> list (list Q) -> list (list Q) := fun _ _ => [[7 # 2; 7 # 2; -4; 6]%Q].

Lemma qsum_nonneg l : Forall (fun a => 0 <= a)%Q l -> (0 <= qsum l)%Q.
Proof. unfold qsum. induction 1; cbn [fold_right]; [lra|lra]. Qed.
Lemma sq_nonneg a : (0 <= sq a)%Q.
Proof. unfold sq. nra. Qed.
Lemma sse_nonneg X B Y : (0 <= sse X B Y)%Q.
Proof.
  apply qsum_nonneg. revert Y. induction X; intros Y; cbn [map2]; [constructor|]. destruct Y; constructor; auto.
  apply qsum_nonneg. generalize l. clear. induction B; intros y; cbn [map2]; [constructor|]. destruct y; constructor; auto using sq_nonneg.
Qed.
Lemma exact_least_squares F m X Y B : matrix F m B -> (sse X B Y == 0)%Q -> least_squares F m X Y B.
Proof. intros HM H. split; auto. intros B' _. rewrite H. apply sse_nonneg. Qed.

Example C113_runs :
  Forall (fun b => regular g2 (b_x b)) bs2 /\ Forall (drawn g2 2 2) bs2 /\
  exists X Y p' m, run_conv g2 1 2 p2 no_bias bs2 = Ok (X, Y) /\
    rank_and_reconstruct solver2 (1 # 2) p2 "conv" (2, 2) true (Some [("conv", (X, Y))]) None l1_norm 1 Qfloor None
      = Ok (Some ([0; 1]%Q, p', Some m)) /\
    nd_data p' = [1; -1; 2; 0; 7 # 2; 7 # 2; -4; 6]%Q /\ nd_data m = [0; 0; 0; 0; 1; 1; 1; 1]%Q /\
    (forall rows, x_rows (OpConv (2, 2)) [0; 1]%Q X = Ok rows -> least_squares 1 4 rows Y (solver2 rows Y)) /\
    (conv_err g2 1 2 p2 no_bias bs2 (masked p' m) == 0)%Q /\ (0 < conv_err g2 1 2 p2 no_bias bs2 (masked p2 m))%Q.
Proof.
  split; [|split].
  - repeat constructor; vm_compute; lia.
  - repeat constructor; vm_compute; lia.
  - do 4 eexists. split; [vm_compute; reflexivity|]. split; [vm_compute; reflexivity|].
    split; [vm_compute; reflexivity|]. split; [vm_compute; reflexivity|]. split; [|split; vm_compute; reflexivity].
    intros rows Hr. apply exact_least_squares.
    + split; [reflexivity|]. repeat constructor.
    + assert (E : exists r, rows = r /\ Ok r = Ok rows) by (exists rows; auto). clear E.
      vm_compute in Hr. assert (E : Ok rows = Ok rows) by reflexivity. rewrite <- Hr in E at 1.
      apply (f_equal (fun r : res (list (list Q)) => match r with Ok a => a | _ => [] end)) in E. cbn beta iota in E. rewrite <- E. vm_compute. reflexivity.
Qed.

(** The targets contain the layer's bias although the fit has no intercept, and the layer adds its bias again:
    here the masked old weights reproduce the layer's output exactly, the reconstructed ones do not. *)
Definition real_err (g : geom) (F C : nat) (p : nd) (bias : nat -> Q) (bs : list batch) (v : nd) : Q :=
  qsum (map (fun q => match q with (x, n, i, j) =>
    qsum (tab F (fun f => sq (conv_at g F C (wt v) bias x n f i j - conv_at g F C (wt p) bias x n f i j))) end) (positions bs)).
Definition x11 : fmap := mkF 1 2 1 1 (fun _ _ _ _ => 1%Q).
Definition p11 : nd := mkND [1; 2; 1; 1] [0; 5]%Q.
Definition b11 : list batch := [mkB x11 [0] [0]].
Definition g11 : geom := mkG 1 1 1 1 0 0 1 1 1.
Theorem C113_bias_counted_twice_refuted :
  exists X Y p' m, run_conv g11 1 2 p11 (fun _ => 1%Q) b11 = Ok (X, Y) /\
    rank_and_reconstruct (fun _ _ => [[6%Q]]) (1 # 2) p11 "conv" (1, 1) true (Some [("conv", (X, Y))]) None l1_norm 1 Qfloor None
      = Ok (Some ([0; 1]%Q, p', Some m)) /\
    least_squares 1 1 [[1%Q]] Y [[6%Q]] /\
    (real_err g11 1 2 p11 (fun _ => 1%Q) b11 (masked p11 m) == 0)%Q /\
    (real_err g11 1 2 p11 (fun _ => 1%Q) b11 (masked p' m) == 1)%Q.
Proof.
  do 4 eexists. split; [vm_compute; reflexivity|]. split; [vm_compute; reflexivity|]. split; [|split; vm_compute; reflexivity].
  apply exact_least_squares; [split; [reflexivity|repeat constructor]|vm_compute; reflexivity].
Qed.

(** a fully connected case *)
Definition xfc : list (nat -> Q) := [(fun c => if Nat.eqb c 0 then 2 else 4)%Q; (fun c => if Nat.eqb c 0 then 3 else 6)%Q].
Definition pfc : nd := mkND [2; 2] [1; 3; 0; -2]%Q.
Example C113_linear_runs :
  exists X Y p' m, run_fc 2 2 pfc no_bias [xfc] = Ok (X, Y) /\
    rank_and_reconstruct (fun _ _ => [[7 # 2]; [-2]]%Q) (1 # 2) pfc "fc" (1, 1) true (Some [("fc", (X, Y))]) None l1_norm 1 Qfloor None
      = Ok (Some ([0; 1]%Q, p', Some m)) /\
    nd_data p' = [1; 7 # 2; 0; -2]%Q /\ (lin_err 2 2 pfc no_bias [xfc] (masked p' m) == 0)%Q /\ (0 < lin_err 2 2 pfc no_bias [xfc] (masked pfc m))%Q.
Proof.
  do 4 eexists. split; [vm_compute; reflexivity|]. split; [vm_compute; reflexivity|]. repeat split; vm_compute; reflexivity.
Qed.

(** ties: two channels with the same norm *)
Example C113_ties : exists bk mags thr, rank_channels (mkND [1; 2; 1; 1] [2; -2]%Q) 1 l1_norm (1 # 2) Qfloor None = Ok (Some (bk, mags)) /\
  last_elem bk = Ok thr /\ Forall (fun s => s <= thr)%Q mags.
Proof. do 3 eexists. split; [vm_compute; reflexivity|]. split; [reflexivity|]. repeat constructor; vm_compute; discriminate. Qed.
Example C113_groups : exists bk mags, rank_channels (mkND [1; 4; 1; 1] [2; -2; 1; 1]%Q) 2 l1_norm (1 # 2) Qfloor None = Ok (Some (bk, mags)) /\ length mags = 2.
Proof. do 2 eexists. split; [vm_compute; reflexivity|reflexivity]. Qed.

Print Assumptions C113_output_positions.
Print Assumptions C113_padding.
Print Assumptions C113_samples.
Print Assumptions C113_reconstruction_is_best.
Print Assumptions C113_linear_reconstruction_is_best.
Print Assumptions C113_solutions_exist.
Print Assumptions C113_with_exact_solver.
Print Assumptions C113_no_worse_than_masking.
Print Assumptions C113_written.
Print Assumptions C113_prunes.
Print Assumptions C113_nothing_to_prune.
Print Assumptions C113_refuses.
Print Assumptions C113_ties_of_all_channels_refuted.
Print Assumptions C113_one_image_or_position_refuted.
Print Assumptions C113_last_batch_of_one_refuted.
Print Assumptions C113_magnitude_function_ignored_refuted.
Print Assumptions C113_amc_group_size_lost_refuted.
Print Assumptions C113_channel_groups_refuted.
Print Assumptions C113_strided_pointwise_refuted.
Print Assumptions C113_wide_outputs_refuted.
Print Assumptions C113_tall_outputs_refuted.
Print Assumptions C113_dilated_refuted.
Print Assumptions C113_bias_counted_twice_refuted.
