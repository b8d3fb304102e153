(** C38: the train / validation / test samples (apputils/data_loaders.py). *)
From Coq Require Import List ZArith QArith Qround Bool Arith Lia Lqa Permutation.
From Verif Require Import Base AppModel AppSpec.
Import ListNotations.
Open Scope Q_scope.

(** the number of samples a fraction of [n] samples stands for *)
Definition part (q : Q) (n : nat) : nat := Z.to_nat (Qfloor (q * Zq (Z.of_nat n))).

(** [perm] is a permutation of the positions 0..n-1 *)
Definition positions (n : nat) (perm : list nat) : Prop := Permutation perm (seq 0 n).

Lemma NoDup_app_remove_r {A} (l l' : list A) : NoDup (l ++ l') -> NoDup l.
Proof.
  induction l as [|a l IH]; simpl; intro H; [constructor|]. inversion H; subst. constructor; auto.
  intro Ha. apply H2. apply in_or_app; auto.
Qed.
Lemma NoDup_app_remove_l {A} (l l' : list A) : NoDup (l ++ l') -> NoDup l'.
Proof. induction l as [|a l IH]; simpl; intro H; auto. inversion H; subst. auto. Qed.

Lemma Qfloor_nonneg q : 0 <= q -> (0 <= Qfloor q)%Z.
Proof. intro H. change 0%Z with (Qfloor 0). apply Qfloor_resp_le. auto. Qed.
Lemma Qfloor_part_le q n : 0 <= q <= 1 -> (0 <= Qfloor (q * Zq (Z.of_nat n)) <= Z.of_nat n)%Z.
Proof.
  intros [H0 H1]. pose proof (Zq_nonneg (Z.of_nat n) ltac:(lia)) as Hn. split.
  - apply Qfloor_nonneg. nra.
  - assert (H : q * Zq (Z.of_nat n) <= Zq (Z.of_nat n)) by nra.
    apply Qfloor_resp_le in H. unfold Zq at 2 in H. rewrite Qfloor_Z in H. exact H.
Qed.
Lemma part_le q n : 0 <= q <= 1 -> (part q n <= n)%nat.
Proof. intro H. unfold part. pose proof (Qfloor_part_le q n H). lia. Qed.
Lemma part_1 n : part 1 n = n.
Proof. unfold part. rewrite (Qfloor_comp _ (Zq (Z.of_nat n))) by ring. unfold Zq. rewrite Qfloor_Z. lia. Qed.
Lemma part_0 n : part 0 n = 0%nat.
Proof. unfold part. rewrite (Qfloor_comp _ 0) by ring. reflexivity. Qed.

Lemma split_list_eq {A} (l : list A) q : 0 <= q <= 1 ->
  split_list l q = (firstn (part q (length l)) l, skipn (part q (length l)) l).
Proof.
  intro H. unfold split_list, py_take, py_drop, part. pose proof (Qfloor_part_le q (length l) H).
  destruct (Z.ltb_spec (Qfloor (q * Zq (Z.of_nat (length l)))) 0); [lia|reflexivity].
Qed.

(** C38: for every shuffled list of the training samples and every split ratio in [0, 1], the
    validation and the training part are disjoint and together are exactly the data set; the
    validation part has floor(ratio * n) samples. *)
Theorem C38_split : forall n shuffled ratio valid train,
  positions n shuffled -> 0 <= ratio <= 1 -> split_list shuffled ratio = (valid, train) ->
  Permutation (valid ++ train) (seq 0 n) /\ NoDup valid /\ NoDup train /\
  (forall x, In x valid -> ~ In x train) /\
  Z.of_nat (length valid) = Qfloor (ratio * Zq (Z.of_nat n)) /\
  (length valid + length train = n)%nat.
Proof.
  intros n sh q v t Hp Hq H. rewrite split_list_eq in H by auto. injection H as <- <-.
  assert (Hl : length sh = n) by (rewrite (Permutation_length Hp), seq_length; auto).
  pose proof (part_le q n Hq). rewrite Hl. rewrite firstn_skipn.
  assert (Hnd : NoDup (firstn (part q n) sh ++ skipn (part q n) sh)).
  { rewrite firstn_skipn. apply (Permutation_NoDup (Permutation_sym Hp)). apply seq_NoDup. }
  pose proof (Qfloor_part_le q n Hq).
  split; auto. repeat split.
  - apply NoDup_app_remove_r in Hnd. auto.
  - apply NoDup_app_remove_l in Hnd. auto.
  - intros x H1 H2. clear - Hnd H1 H2. induction (firstn (part q n) sh) as [|a l IH]; [destruct H1|].
    simpl in Hnd. inversion Hnd; subst. destruct H1 as [->|H1]; auto. apply H3. apply in_or_app; auto.
  - rewrite firstn_length, Hl. unfold part in *. lia.
  - rewrite firstn_length, skipn_length, Hl. lia.
Qed.

(* ------------------------------------------------------------------------- *)
(** ** Samplers *)
Lemma subset_length_ok n eff : (exists k, subset_length n eff = Ok k) <-> 0 < eff <= 1.
Proof.
  unfold subset_length. destruct (Qle_bool eff 0) eqn:E; simpl.
  - apply Qle_bool_iff in E. split; [intros (k & H); discriminate|intros; lra].
  - apply Qle_bool_ngt in E. destruct (Qltb 1 eff) eqn:E1.
    + apply Qltb_lt in E1. split; [intros (k & H); discriminate|intros; lra].
    + apply Qltb_ge in E1. split; [intros _; lra|eauto].
Qed.
Lemma subset_length_val n eff k : subset_length n eff = Ok k -> k = part eff n /\ (k <= n)%nat /\ 0 < eff <= 1.
Proof.
  intro H. assert (Hr : 0 < eff <= 1) by (apply (subset_length_ok n); eauto).
  unfold subset_length in H. destruct (Qle_bool eff 0 || Qltb 1 eff); [discriminate|].
  assert (Hk : k = part eff n).
  { apply (f_equal (fun r => match r with Ok x => x | Raise _ => 0%nat end)) in H. cbv beta iota in H. subst k. unfold part. f_equal. apply Qfloor_comp. ring. }
  split; auto. split; auto. subst k. apply part_le. lra.
Qed.
Lemma subset_length_err n eff : ~ (0 < eff <= 1) -> subset_length n eff = Raise ValueError.
Proof.
  intro H. unfold subset_length. destruct (Qle_bool eff 0) eqn:E; auto. simpl. apply Qle_bool_ngt in E.
  destruct (Qltb 1 eff) eqn:E1; auto. apply Qltb_ge in E1. exfalso. apply H. lra.
Qed.

Lemma map_nth_seq {A} (l : list A) d : map (fun i => nth i l d) (seq 0 (length l)) = l.
Proof.
  induction l as [|a l IH]; auto. simpl. f_equal. rewrite <- seq_shift, map_map. exact IH.
Qed.
Lemma map_nth_perm {A} (l : list A) d perm : positions (length l) perm -> Permutation (map (fun i => nth i l d) perm) l.
Proof. intro H. unfold positions in H. rewrite H. rewrite map_nth_seq. reflexivity. Qed.

(** C38: with an effective size in (0, 1] every enumeration of the sampler draws floor(size * n)
    different samples of its source; any other effective size raises ValueError. *)
Theorem C38_sampler : forall source eff sequential perm order,
  NoDup source -> positions (length source) perm ->
  (0 < eff <= 1 ->
     exists samples, sampler source eff false sequential perm order = Ok samples /\
       NoDup samples /\ (forall x, In x samples -> In x source) /\
       Z.of_nat (length samples) = Qfloor (eff * Zq (Z.of_nat (length source))) /\
       (eff == 1 -> Permutation samples source)) /\
  (~ (0 < eff <= 1) -> sampler source eff false sequential perm order = Raise ValueError).
Proof.
  intros src eff sq perm ord Hnd Hp. split; intro He.
  - destruct (proj2 (subset_length_ok (length src) eff) He) as (k & Hk).
    pose proof (subset_length_val _ _ _ Hk) as (Hk1 & Hk2 & _).
    unfold sampler. rewrite Hk. cbn [bind]. eexists; split; [reflexivity|].
    pose proof (map_nth_perm src 0%nat perm Hp) as Hperm.
    assert (Hl : length perm = length src) by (rewrite (Permutation_length Hp), seq_length; auto).
    rewrite <- firstn_map. pose proof (Qfloor_part_le eff (length src) ltac:(lra)).
    split; [|split; [|split]].
    + apply NoDup_app_remove_r with (l' := skipn k (map (fun i => nth i src 0%nat) perm)). rewrite firstn_skipn.
      apply (Permutation_NoDup (Permutation_sym Hperm)). auto.
    + intros x Hx. apply (Permutation_in _ Hperm). rewrite <- (firstn_skipn k). apply in_or_app; auto.
    + rewrite firstn_length, map_length, Hl. unfold part in Hk1. lia.
    + intro E. rewrite firstn_all2; auto. rewrite map_length, Hl, Hk1.
      unfold part. rewrite (Qfloor_comp _ (1 * Zq (Z.of_nat (length src)))) by (rewrite E; reflexivity).
      fold (part 1 (length src)). rewrite part_1. auto.
  - unfold sampler. rewrite subset_length_err; auto.
Qed.

(** C38: get_data_loaders (without fixed_subset), for all split ratios in [0,1] and all random
    draws.  The training samples are distinct and come from outside the validation part; the
    validation samples come from the training set (disjoint from the training samples) or, if
    there are none, are the test samples; the sizes are the floors of the requested fractions. *)
Theorem C38_loaders : forall n n_test shuffled ratio etrain evalid etest sequential pt ot pv ov pe oe train which_ valid test,
  positions n shuffled -> 0 <= ratio <= 1 ->
  positions (n - part ratio n) pt -> positions (part ratio n) pv -> positions n_test pe ->
  data_loaders n_test shuffled ratio etrain evalid etest false sequential pt ot pv ov pe oe = Ok (train, (which_, valid), test) ->
  NoDup train /\ (forall x, In x train -> (x < n)%nat) /\ length train = part etrain (n - part ratio n) /\
  NoDup test /\ (forall x, In x test -> (x < n_test)%nat) /\ length test = part etest n_test /\
  (which_ = TestSet -> valid = test) /\
  (which_ = TrainSet -> NoDup valid /\ (forall x, In x valid -> (x < n)%nat /\ ~ In x train) /\ valid <> [] /\
                        length valid = part evalid (part ratio n)) /\
  (which_ = TestSet <-> part ratio n = 0%nat \/ part evalid (part ratio n) = 0%nat) /\
  (etrain == 1 -> evalid == 1 -> which_ = TrainSet -> Permutation (valid ++ train) (seq 0 n)).
Proof.
  intros n nt sh q et ev ee sq pt ot pv ov pe oe tr wh va te Hsh Hq Hpt Hpv Hpe H.
  unfold data_loaders in H. inv_bind H. rename x into te'. destruct (split_list sh q) as (vi, ti) eqn:Es.
  destruct (C38_split n sh q vi ti Hsh Hq Es) as (S1 & S2 & S3 & S4 & S5 & S6).
  assert (Lv : length vi = part q n) by (unfold part; lia).
  assert (Lt : length ti = (n - part q n)%nat) by lia.
  inv_bind H. rename x into tr'.
  assert (Hin : forall x, In x vi \/ In x ti -> (x < n)%nat).
  { intros x Hx. apply in_or_app in Hx. apply (Permutation_in _ S1) in Hx. apply in_seq in Hx. lia. }
  (* the test sampler *)
  assert (Te : 0 < ee <= 1).
  { destruct (Qlt_le_dec 0 ee), (Qlt_le_dec 1 ee); try lra;
      unfold sampler in H0; rewrite subset_length_err in H0 by lra; discriminate. }
  destruct (C38_sampler (seq 0 nt) ee sq pe oe (seq_NoDup _ _)) as (T & _); [rewrite seq_length; auto|].
  destruct (T Te) as (te2 & T1 & T2 & T3 & T4 & _). rewrite H0 in T1. injection T1 as <-. rewrite seq_length in T4.
  (* the training sampler *)
  assert (Tt : 0 < et <= 1).
  { destruct (Qlt_le_dec 0 et), (Qlt_le_dec 1 et); try lra;
      unfold sampler in H1; rewrite subset_length_err in H1 by lra; discriminate. }
  destruct (C38_sampler ti et sq pt ot S3) as (U & _); [rewrite Lt; auto|].
  destruct (U Tt) as (tr2 & U1 & U2 & U3 & U4 & U5). rewrite H1 in U1. injection U1 as <-.
  assert (Common : NoDup tr' /\ (forall x, In x tr' -> (x < n)%nat) /\ length tr' = part et (n - part q n) /\
    NoDup te' /\ (forall x, In x te' -> (x < nt)%nat) /\ length te' = part ee nt).
  { split; auto. split; [intros; apply Hin; auto|]. split; [unfold part at 1; rewrite <- Lt; lia|].
    split; auto. split; [intros x Hx; apply T3 in Hx; apply in_seq in Hx; lia|]. unfold part. lia. }
  destruct Common as (K1 & K2 & K3 & K4 & K5 & K6).
  destruct vi as [|v0 vi].
  - injection H as <- <- <- <-. simpl in Lv. do 6 (split; [solve [auto]|]). split; auto. split; [discriminate|].
    split; [|intros; discriminate]. split; auto.
  - inv_bind H. rename x into va'.
    assert (Tv : 0 < ev <= 1).
    { destruct (Qlt_le_dec 0 ev), (Qlt_le_dec 1 ev); try lra;
        unfold sampler in H2; rewrite subset_length_err in H2 by lra; discriminate. }
    destruct (C38_sampler (v0 :: vi) ev sq pv ov S2) as (V & _); [rewrite Lv; auto|].
    destruct (V Tv) as (va2 & V1 & V2 & V3 & V4 & V5). rewrite H2 in V1. injection V1 as <-.
    assert (Lva : length va' = part ev (part q n)) by (unfold part at 1; rewrite <- Lv; lia).
    assert (Hne : part q n <> 0%nat) by (simpl in Lv; lia).
    destruct va' as [|a va'].
    + injection H as <- <- <- <-. simpl in Lva. do 6 (split; [solve [auto]|]). split; auto. split; [discriminate|].
      split; [|intros; discriminate]. split; auto.
    + injection H as <- <- <- <-. do 6 (split; [solve [auto]|]). split; [discriminate|]. split; [|split].
      * intros _. split; auto. split; [|split; auto; discriminate].
        intros x Hx. split; [apply Hin; auto|]. intro Hx'. apply (S4 x); auto.
      * split; [discriminate|]. simpl in Lva. intros [E|E]; lia.
      * intros E1 E2 _. rewrite (U5 E1), (V5 E2). auto.
Qed.

(** C38: which effective sizes raise ValueError: one outside (0, 1], where the validation size is
    only looked at if the validation part is not empty. *)
Theorem C38_loaders_errors : forall n n_test shuffled ratio etrain evalid etest fixed sequential pt ot pv ov pe oe,
  positions n shuffled -> 0 <= ratio <= 1 ->
  (data_loaders n_test shuffled ratio etrain evalid etest fixed sequential pt ot pv ov pe oe = Raise ValueError <->
   ~ (0 < etest <= 1) \/ ~ (0 < etrain <= 1) \/ (part ratio n <> 0%nat /\ ~ (0 < evalid <= 1))) /\
  (forall e, data_loaders n_test shuffled ratio etrain evalid etest fixed sequential pt ot pv ov pe oe = Raise e -> e = ValueError).
Proof.
  intros n nt sh q et ev ee fx sq pt ot pv ov pe oe Hsh Hq.
  assert (Hs : forall src eff perm ord, (0 < eff <= 1 /\ exists l, sampler src eff fx sq perm ord = Ok l) \/
                 (~ (0 < eff <= 1) /\ sampler src eff fx sq perm ord = Raise ValueError)).
  { intros src eff perm ord.
    assert (D : 0 < eff <= 1 \/ ~ (0 < eff <= 1)).
    { destruct (Qlt_le_dec 0 eff), (Qlt_le_dec 1 eff); [right|left|right|right]; lra. }
    destruct D as [D|D]; [left|right]; split; auto.
    - destruct (proj2 (subset_length_ok (length src) eff) D) as (k & Hk). unfold sampler. rewrite Hk. cbn [bind].
      destruct fx; eauto.
    - unfold sampler. rewrite subset_length_err; auto. }
  unfold data_loaders. destruct (split_list sh q) as (vi, ti) eqn:Es.
  destruct (C38_split n sh q vi ti Hsh Hq Es) as (_ & _ & _ & _ & S5 & _).
  assert (Lv : length vi = part q n) by (unfold part; lia).
  destruct (Hs (seq 0 nt) ee pe oe) as [(E1 & te & ->)|(E1 & ->)]; cbn [bind].
  2:{ split; [split; auto|congruence]. }
  destruct (Hs ti et pt ot) as [(E2 & tr & ->)|(E2 & ->)]; cbn [bind].
  2:{ split; [split; auto|congruence]. }
  destruct vi as [|v0 vi].
  - simpl in Lv. split; [|congruence]. split; [discriminate|]. intros [K|[K|[K _]]]; congruence.
  - simpl in Lv. destruct (Hs (v0 :: vi) ev pv ov) as [(E3 & va & ->)|(E3 & ->)]; cbn [bind].
    + split; [|destruct va; congruence]. split; [destruct va; discriminate|]. intros [K|[K|[_ K]]]; contradiction.
    + split; [|congruence]. split; auto. intros _. right. right. split; auto. lia.
Qed.

(** C38 (finding): with fixed_subset=True the positions of the samples in the two parts are used as
    data-set indices, so the split is lost: with full effective sizes and two non-empty parts,
    sample 0 is always both a training and a validation sample; and if the validation part is not
    the larger one, EVERY validation sample is a training sample. *)
Theorem C38_fixed_subset_refuted : forall n n_test shuffled ratio etest pt ot pv ov pe oe sequential train which_ valid test,
  positions n shuffled -> 0 <= ratio <= 1 -> (0 < part ratio n < n)%nat ->
  positions (n - part ratio n) pt -> positions (n - part ratio n) ot ->
  positions (part ratio n) pv -> positions (part ratio n) ov ->
  data_loaders n_test shuffled ratio 1 1 etest true sequential pt ot pv ov pe oe = Ok (train, (which_, valid), test) ->
  which_ = TrainSet /\ In 0%nat train /\ In 0%nat valid /\
  Permutation train (seq 0 (n - part ratio n)) /\ Permutation valid (seq 0 (part ratio n)) /\
  ((2 * part ratio n <= n)%nat -> forall x, In x valid -> In x train).
Proof.
  intros n nt sh q ee pt ot pv ov pe oe sq tr wh va te Hsh Hq Hn Hpt Hot Hpv Hov H.
  unfold data_loaders in H. inv_bind H. rename x into te'. destruct (split_list sh q) as (vi, ti) eqn:Es.
  destruct (C38_split n sh q vi ti Hsh Hq Es) as (S1 & S2 & S3 & S4 & S5 & S6).
  assert (Lv : length vi = part q n) by (unfold part; lia).
  assert (Lt : length ti = (n - part q n)%nat) by lia.
  assert (Hs : forall src m perm ord l, length src = m -> positions m perm -> positions m ord ->
                 sampler src 1 true sq perm ord = Ok l -> Permutation l (seq 0 m)).
  { intros src m perm ord l Hl Hp Ho Hs. unfold sampler in Hs. inv_bind Hs.
    destruct (subset_length_val _ _ _ H1) as (Hx & _ & _). rewrite part_1, Hl in Hx. subst x.
    assert (Hpl : length perm = m) by (rewrite (Permutation_length Hp), seq_length; auto).
    injection Hs as <-. rewrite firstn_all2 by lia. destruct sq; auto.
    rewrite (map_nth_perm perm 0%nat ord); auto. rewrite Hpl. auto. }
  inv_bind H. rename x into tr'. destruct vi as [|v0 vi]; [simpl in Lv; lia|].
  inv_bind H. rename x into va'.
  pose proof (Hs _ _ _ _ _ Lt Hpt Hot H1) as Ptr. pose proof (Hs _ _ _ _ _ Lv Hpv Hov H2) as Pva.
  destruct va' as [|a va'].
  { apply Permutation_length in Pva. rewrite seq_length in Pva. simpl in Pva. lia. }
  injection H as <- <- <- <-. split; auto.
  assert (I : forall l m x, Permutation l (seq 0 m) -> (In x l <-> (x < m)%nat)).
  { intros l m x Hp. split; intro Hx.
    - apply (Permutation_in _ Hp) in Hx. apply in_seq in Hx. lia.
    - apply (Permutation_in _ (Permutation_sym Hp)). apply in_seq. lia. }
  split; [apply (I _ _ 0%nat Ptr); lia|]. split; [apply (I _ _ 0%nat Pva); lia|]. split; auto. split; auto.
  intros H2n x Hx. apply (I _ _ _ Pva) in Hx. apply (I _ _ _ Ptr). lia.
Qed.

(** C38 (finding): "sequential" is ignored unless fixed_subset is also given. *)
Theorem C38_sequential_ignored : forall source eff perm order,
  sampler source eff false true perm order = sampler source eff false false perm order.
Proof. reflexivity. Qed.

(* ------------------------------------------------------------------------- *)
(** ** Batches *)
Lemma batches_fuel_spec {A} b fuel : forall l : list A, (0 < b)%nat -> (length l <= fuel)%nat ->
  concat (batches_fuel fuel b l) = l /\
  Forall (fun x => 1 <= length x <= b)%nat (batches_fuel fuel b l) /\
  Forall (fun x => length x = b) (removelast (batches_fuel fuel b l)) /\
  Z.of_nat (length (batches_fuel fuel b l)) = ((Z.of_nat (length l) + Z.of_nat b - 1) / Z.of_nat b)%Z.
Proof.
  induction fuel as [|fuel IH]; intros l Hb Hl.
  - destruct l; [|simpl in Hl; lia]. simpl. repeat split; auto. symmetry. apply Z.div_small. lia.
  - destruct l as [|a l].
    + simpl. repeat split; auto. symmetry. apply Z.div_small. lia.
    + set (L := a :: l) in *.
      change (batches_fuel (S fuel) b L) with (firstn b L :: batches_fuel fuel b (skipn b L)).
      assert (HL : (1 <= length L)%nat) by (simpl; lia).
      destruct (IH (skipn b L) Hb) as (I1 & I2 & I3 & I4). { rewrite skipn_length. lia. }
      assert (Hf : length (firstn b L) = Nat.min b (length L)) by apply firstn_length.
      split; [simpl; rewrite I1; apply firstn_skipn|]. split; [constructor; auto; lia|]. split.
      * destruct (batches_fuel fuel b (skipn b L)) as [|x bs] eqn:Eb; [constructor|].
        change (removelast (firstn b L :: x :: bs)) with (firstn b L :: removelast (x :: bs)).
        constructor; auto. rewrite Hf. apply Nat.min_l.
        apply Nat.le_ngt. intro Hlt. rewrite skipn_all2 in Eb by lia. destruct fuel; discriminate.
      * cbn [length]. rewrite Nat2Z.inj_succ, I4, skipn_length.
        destruct (Nat.le_gt_cases b (length L)) as [Hle|Hgt].
        -- rewrite Nat2Z.inj_sub by auto.
           replace (Z.of_nat (length L) + Z.of_nat b - 1)%Z with (Z.of_nat (length L) - Z.of_nat b + Z.of_nat b - 1 + 1 * Z.of_nat b)%Z by lia.
           rewrite Z.div_add by lia. lia.
        -- replace (length L - b)%nat with 0%nat by lia. simpl Z.of_nat at 1.
           rewrite (Z.div_small (0 + Z.of_nat b - 1)) by lia.
           replace (Z.of_nat (length L) + Z.of_nat b - 1)%Z with (Z.of_nat (length L) - 1 + 1 * Z.of_nat b)%Z by lia.
           rewrite Z.div_add by lia. rewrite Z.div_small by lia. lia.
Qed.

(** C38: an epoch feeds every drawn sample to exactly one batch, in order; the batches have the
    batch size except possibly the last one; their number is ceil(n / batch size). *)
Theorem C38_batches : forall (b : nat) (samples : list nat), (0 < b)%nat ->
  concat (batches b samples) = samples /\
  Forall (fun x => 1 <= length x <= b)%nat (batches b samples) /\
  Forall (fun x => length x = b) (removelast (batches b samples)) /\
  Z.of_nat (length (batches b samples)) = steps_per_epoch (length samples) b.
Proof.
  intros b l Hb. destruct (batches_fuel_spec b (length l) l Hb (le_n _)) as (H1 & H2 & H3 & H4).
  repeat split; auto. unfold batches. rewrite H4. symmetry.
  unfold steps_per_epoch.
  set (n := Z.of_nat (length l)). assert (Hn : (0 <= n)%Z) by lia. set (m := Z.of_nat b) in *. assert (Hm : (0 < m)%Z) by lia.
  pose proof (Zq_pos m Hm) as Hmq.
  set (q := ((n + m - 1) / m)%Z).
  assert (Hq1 : (m * q <= n + m - 1)%Z) by (apply Z.mul_div_le; lia).
  assert (Hq2 : (n + m - 1 < m * q + m)%Z) by (unfold q; pose proof (Z.mul_succ_div_gt (n + m - 1) m Hm); lia).
  apply Z.le_antisymm.
  - assert (Hle : Zq n / Zq m <= Zq q).
    { apply Qle_shift_div_r; auto. rewrite <- Zq_mult. apply (proj1 (Zq_le _ _)). lia. }
    rewrite <- (Qceiling_Z q). apply Qceiling_resp_le. exact Hle.
  - assert (Hlt : Zq (q - 1) < Zq n / Zq m).
    { apply Qlt_shift_div_l; auto. rewrite <- Zq_mult. apply (proj1 (Zq_lt _ _)). lia. }
    pose proof (Qle_ceiling (Zq n / Zq m)) as Hc.
    assert (Hlt2 : Zq (q - 1) < Zq (Qceiling (Zq n / Zq m))) by (unfold Zq in *; lra).
    apply (proj2 (Zq_lt _ _)) in Hlt2. lia.
Qed.

Example loaders_case :
  data_loaders 3 [4; 2; 0; 1; 3]%nat (2#5) 1 1 1 false false [2; 0; 1]%nat [] [1; 0]%nat [] [0; 1; 2]%nat []
    = Ok ([3; 0; 1]%nat, (TrainSet, [2; 4]%nat), [0; 1; 2]%nat) /\ positions 5 [4; 2; 0; 1; 3]%nat.
Proof. split; [reflexivity|]. unfold positions. apply NoDup_Permutation; [repeat (constructor; [simpl; lia|]); constructor|apply seq_NoDup|]. intro x. simpl. lia. Qed.
Example fixed_case :
  data_loaders 3 [4; 2; 0; 1; 3]%nat (2#5) 1 1 1 true true [2; 0; 1]%nat [0; 1; 2]%nat [1; 0]%nat [0; 1]%nat [0; 1; 2]%nat [0; 1; 2]%nat
    = Ok ([2; 0; 1]%nat, (TrainSet, [1; 0]%nat), [0; 1; 2]%nat).
Proof. reflexivity. Qed.

Print Assumptions C38_split.
Print Assumptions C38_sampler.
Print Assumptions C38_loaders.
Print Assumptions C38_loaders_errors.
Print Assumptions C38_fixed_subset_refuted.
Print Assumptions C38_sequential_ignored.
Print Assumptions C38_batches.
