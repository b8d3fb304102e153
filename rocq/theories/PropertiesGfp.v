(** C84: greedy filter pruning. *)
From Coq Require Import String List ZArith QArith Qround Bool Arith Lia Lqa.
From Verif Require Import Base Lists StructModel StructSpec SensModel SensSpec SensProofs PropertiesStruct PropertiesStruct2 GfpModel GfpSpec GfpProofs.
Import ListNotations.
Open Scope Q_scope.

(** One candidate: exactly the floor(step * filters) weakest filters (with ties) are set to zero; the candidate counts as
    "not pruned" iff no filter is then zero. *)
Theorem C84_prune_tensor : forall t n F C H W step, conv_shape t F C H W -> 0 <= step -> step <= 1 ->
  exists t' mask s, prune_tensor t n step = Ok (t', mask, s) /\
    pruned_to GFilter (asked GFilter t step) t t' /\
    (s == 0 <-> forall f, (f < F)%nat -> all_zero (filter_of t' C H W f) = false) /\
    (asked GFilter t step = 0%nat -> t' = t /\ mask = None).
Proof. intros. eapply prune_tensor_ok; eauto. Qed.

(** Only the candidate's own tensor is pruned in the copy that is fine-tuned, thinned and tested; when nothing was pruned
    that copy is not tested and counts as -1, -1, -1. *)
Theorem C84_candidate : forall finish it size step m n t F C H W,
  dget m n = Some t -> conv_shape t F C H W -> 0 <= step -> step <= 1 ->
  exists t' mask, pruned_to GFilter (asked GFilter t step) t t' /\
    prune_finetune_test finish it size step m n =
      if forallb (fun f => negb (all_zero (filter_of t' C H W f))) (seq 0 F)
      then Ok ((-1, -1, -1), dset m n t', mask)
      else do x <- finish it size (dset m n t') n mask; Ok (fst x, snd x, mask).
Proof.
  intros finish it size step m n t F C H W Et Hc H0 H1.
  destruct (prune_tensor_ok t n F C H W step Hc H0 H1) as (t' & mask & s & Hp & Hpr & Hs & _).
  exists t', mask. split; auto. unfold prune_finetune_test. rewrite Et, Hp. cbn [bind].
  assert (Qeq_bool s 0 = forallb (fun f => negb (all_zero (filter_of t' C H W f))) (seq 0 F)) as ->; auto.
  apply eq_true_iff_eq. rewrite Qeq_bool_iff, Hs, forallb_forall. split; intros Hx f Hf.
  - apply in_seq in Hf. rewrite Hx by lia. auto.
  - specialize (Hx f). rewrite in_seq in Hx. destruct (all_zero (filter_of t' C H W f)); auto. discriminate Hx. lia.
Qed.

(** One iteration picks the first 4-D parameter with the best test result. *)
Theorem C84_most_robust : forall finish it size step m names sc n m' mask,
  find_most_robust_layer finish it size step m names = Ok (Some (sc, n, m', mask)) ->
  prune_finetune_test finish it size step m n = Ok (sc, m', mask) /\
  best_layer (result_of finish it size step m) (candidates m names) n sc.
Proof. intros. eapply find_best; eauto. Qed.

(** A parameter from which nothing could be pruned (it counts as -1, -1, -1) is never picked when another candidate was
    pruned and has a non-negative accuracy. *)
Theorem C84_pruned_wins : forall finish it size step m names sc n m' mask x s1 s5 sl,
  find_most_robust_layer finish it size step m names = Ok (Some (sc, n, m', mask)) ->
  In x (candidates m names) -> result_of finish it size step m x = Some (s1, s5, sl) -> 0 <= s1 ->
  0 <= fst (fst sc).
Proof.
  intros finish it size step m names ((c1 & c5) & cl) n m' mask x s1 s5 sl H Hx Hr Hs.
  apply find_best in H. destruct H as (_ & pre & post & He & Hn & Hpre & Hpost). rewrite He in Hx.
  apply in_app_or in Hx. cbn [fst]. destruct Hx as [Hx|[<-|Hx]].
  - destruct (Hpre x Hx) as (s & Hs' & Hb). rewrite Hr in Hs'. inversion Hs'; subst. cbn in Hb. destruct Hb as [Hb|[Hb _]]; lra.
  - rewrite Hr in Hn. inversion Hn; subst. auto.
  - destruct (Hpost x Hx) as (s & Hs' & Hb). rewrite Hr in Hs'. inversion Hs'; subst. cbn in Hb.
    apply Qnot_lt_le. intro Hlt. apply Hb. left. lra.
Qed.

(** What holds between two consecutive networks: the [i]-th record describes the step from [a] to [b]. *)
Definition step_ok finish (macs : weights -> res Q) (pol : policy) (step frac dense : Q) (names : list string)
           (m : weights) (i : nat) (r : record) (a b : weights) : Prop :=
  exists before size sc mask,
    macs a = Ok before /\ frac * dense < before /\
    size == match pol with Constant s => s | LinearGrow => 1 - before / dense end /\
    best_layer (result_of finish (S i) size step a) (candidates a names) (r_param r) sc /\
    prune_finetune_test finish (S i) size step a (r_param r) = Ok (sc, b, mask) /\
    r_iteration r = S i /\ r_top1 r = fst (fst sc) /\ macs b = Ok (r_macs r) /\ r_density r == r_macs r / dense /\
    Forall2 (fun n d => exists t0 t, dget m n = Some t0 /\ dget b n = Some t /\
               d == Zq (Z.of_nat (length (nd_data t))) / Zq (Z.of_nat (length (nd_data t0)))) (candidates m names) (r_densities r).

Section Run.
Variable finish : nat -> Q -> weights -> string -> option nd -> res (score3 * weights).
Variable macs : weights -> res Q.
Variable final_test : weights -> res score3.
Variables (pol : policy) (step frac dense : Q) (m : weights) (names : list string).

Definition inv (g : gstate) : Prop :=
  length (g_records g) = g_iter g /\ length (g_saved g) = g_iter g /\ g_mask g = None /\
  macs (g_model g) = Ok (g_macs g) /\ last (m :: g_saved g) m = g_model g /\
  forall i r a b, nth_error (g_records g) i = Some r -> nth_error (m :: g_saved g) i = Some a ->
    nth_error (g_saved g) i = Some b -> step_ok finish macs pol step frac dense names m i r a b.

Lemma densities_ok m0 m' ds l : get_param_densities m0 m' l = Ok ds ->
  Forall2 (fun n d => exists t0 t, dget m0 n = Some t0 /\ dget m' n = Some t /\
               d == Zq (Z.of_nat (length (nd_data t))) / Zq (Z.of_nat (length (nd_data t0)))) (candidates m0 l) ds.
Proof.
  unfold get_param_densities. intro H.
  match type of H with foldM ?f _ _ = _ => assert (forall l acc done ds, Forall2 (fun n d => exists t0 t, dget m0 n = Some t0 /\ dget m' n = Some t /\
               d == Zq (Z.of_nat (length (nd_data t))) / Zq (Z.of_nat (length (nd_data t0)))) done acc -> foldM f l acc = Ok ds ->
     Forall2 (fun n d => exists t0 t, dget m0 n = Some t0 /\ dget m' n = Some t /\
               d == Zq (Z.of_nat (length (nd_data t))) / Zq (Z.of_nat (length (nd_data t0)))) (done ++ candidates m0 l) ds) as L end.
  { clear. induction l as [|n l IH]; intros acc done ds Hd H; cbn [foldM] in H.
    - inversion H; subst. rewrite app_nil_r. auto.
    - apply bind_ok in H. destruct H as (acc' & H1 & H2). rewrite candidates_cons, app_assoc. apply (IH acc'); auto.
      destruct (dget m0 n) as [t0|] eqn:E0; [|discriminate]. unfold ndim in H1.
      destruct (Nat.eqb (length (nd_shape t0)) 4); cbn [negb] in H1.
      + destruct (dget m' n) as [t|] eqn:E; [|discriminate]. unfold ratio in H1.
        destruct (Nat.eqb (length (nd_data t0)) 0); [discriminate|]. inversion H1; subst.
        apply Forall2_app; auto. constructor; [|constructor]. exists t0, t. split; auto. split; auto. reflexivity.
      + inversion H1; subst. rewrite app_nil_r. auto. }
  apply (L l [] []) in H; auto.
Qed.

Lemma last_nth {A} (l : list A) : forall x d, nth_error (x :: l) (length l) = Some (last (x :: l) d).
Proof. induction l as [|y l IH]; intros x d; auto. cbn [length nth_error]. rewrite (IH y d). auto. Qed.

Lemma last_snoc {A} (l : list A) x d : last (l ++ [x]) d = x.
Proof. apply last_last. Qed.

Lemma body_inv g g' : inv g -> frac * dense < g_macs g -> greedy_body finish macs pol step dense m names g = Ok g' -> inv g'.
Proof.
  intros (Hr & Hs & Hk & Hm & Hl & Hi) Hlt H. unfold greedy_body in H.
  apply bind_ok in H. destruct H as (size & Hsz & H). apply bind_ok in H. destruct H as (b & Hb & H).
  destruct b as [[[[((p1, p5), pl) n] m'] mask]|]; [|discriminate].
  apply bind_ok in H. destruct H as (total & Ht & H). apply bind_ok in H. destruct H as (ds & Hds & H).
  apply bind_ok in H. destruct H as (cd & Hcd & H). inversion H; subst; clear H.
  apply find_best in Hb. destruct Hb as (Hp & Hb).
  unfold inv. cbn [g_records g_saved g_iter g_mask g_model g_macs].
  rewrite !app_length. cbn [length]. split; [lia|]. split; [lia|]. split; auto. split; auto. split.
  { rewrite app_comm_cons. apply last_snoc. }
  intros i r a b' Hri Ha Hb'. destruct (lt_eq_lt_dec i (g_iter g)) as [[Hlt'|Heq]|Hgt].
  - apply (Hi i r a b').
    + rewrite nth_error_app1 in Hri by lia. auto.
    + rewrite app_comm_cons, nth_error_app1 in Ha by (cbn [length]; lia). auto.
    + rewrite nth_error_app1 in Hb' by lia. auto.
  - subst i. rewrite nth_error_app2 in Hri by lia. rewrite Hr, Nat.sub_diag in Hri. inversion Hri; subst r; clear Hri.
    rewrite nth_error_app2 in Hb' by lia. rewrite Hs, Nat.sub_diag in Hb'. inversion Hb'; subst b'; clear Hb'.
    rewrite app_comm_cons, nth_error_app1 in Ha by (cbn [length]; lia).
    rewrite <- Hs in Ha. rewrite (last_nth _ _ m), Hl in Ha. inversion Ha; subst a.
    exists (g_macs g), size, (p1, p5, pl), mask. cbn [r_param r_iteration r_top1 r_macs r_density fst].
    split; auto. split; auto. split.
    { destruct pol; [inversion Hsz; reflexivity|]. apply bind_ok in Hsz. destruct Hsz as (d & Hd & Hsz).
      unfold div in Hd. destruct (Qeq_bool dense 0); inversion Hd; inversion Hsz; subst. reflexivity. }
    split; auto. split; auto. split; auto. split; auto. split; auto. split.
    2: { cbn [r_densities]. apply densities_ok; auto. }
    unfold div in Hcd. destruct (Qeq_bool dense 0); inversion Hcd. reflexivity.
  - exfalso. assert (nth_error (g_records g ++ [mkRec (S (g_iter g)) p1 n cd total ds]) i <> None) as Hne by congruence.
    apply nth_error_Some in Hne. rewrite app_length in Hne. simpl in Hne. lia.
Qed.

Lemma loop_inv fuel : forall g g' o, inv g -> greedy_loop finish macs fuel pol step frac dense m names g = (g', o) ->
  inv g' /\ (o = Finished -> g_macs g' <= frac * dense) /\ (o = Running -> frac * dense < g_macs g').
Proof.
  induction fuel as [|fuel IH]; intros g g' o Hi H; cbn [greedy_loop] in H;
    destruct (Qltb (frac * dense) (g_macs g)) eqn:E.
  - inversion H; subst. split; auto. split; [discriminate|]. intros _. apply qltb_true; auto.
  - inversion H; subst. split; auto. split; [|discriminate]. intros _. apply qltb_false; auto.
  - destruct (greedy_body finish macs pol step dense m names g) as [g1|e] eqn:Eb.
    + apply IH in H; auto. eapply body_inv; eauto. apply qltb_true; auto.
    + inversion H; subst. split; auto. split; discriminate.
  - inversion H; subst. split; auto. split; [|discriminate]. intros _. apply qltb_false; auto.
Qed.
End Run.

(** A run: every network on the way is the best candidate of the one before it, has the recorded cost, and is only pruned
    further while its cost is above the target. *)
Theorem C84_run : forall finish macs final_test fuel pol step frac m names g fin o dense,
  greedy_pruner finish macs final_test fuel pol step frac m names = (g, fin, o) -> macs m = Ok dense ->
  length (g_records g) = length (g_saved g) /\
  last (m :: g_saved g) m = g_model g /\ macs (g_model g) = Ok (g_macs g) /\
  (o = Running -> frac * dense < g_macs g) /\
  forall i r a b, nth_error (g_records g) i = Some r -> nth_error (m :: g_saved g) i = Some a ->
    nth_error (g_saved g) i = Some b -> step_ok finish macs pol step frac dense (match names with Some l => l | None => dkeys m end) m i r a b.
Proof.
  intros finish macs final_test fuel pol step frac m names g fin o dense H Hd. unfold greedy_pruner in H. rewrite Hd in H.
  destruct (greedy_loop finish macs fuel pol step frac dense m _ _) as (g1 & o1) eqn:E.
  apply loop_inv in E.
  - destruct E as ((Hr & Hs & Hk & Hm & Hl & Hi) & Hfin & Hrun).
    assert (g1 = g /\ (o = Running -> o1 = Running)) as (-> & Ho).
    { destruct o1.
      - inversion H; subst. auto.
      - inversion H; subst. split; auto.
      - destruct (Nat.eqb (g_iter g1) 0); [inversion H; subst; split; auto; discriminate|].
        destruct (final_test (g_model g1)); [|inversion H; subst; split; auto; discriminate].
        destruct (g_mask g1); inversion H; subst; split; auto; discriminate. }
    split; [congruence|]. split; auto.
  - unfold inv. cbn. split; auto. split; auto. split; auto. split; auto. split; auto. intros [|i] r a b Hr; discriminate.
Qed.

(** Finding: no run ever completes.  It ends with AssertionError if the target is met at once; otherwise, when the target
    is reached, the final checkpoint is never written because a deleted variable is used (NameError). *)
Theorem C84_completion_refuted : forall finish macs final_test fuel pol step frac m names g fin o,
  greedy_pruner finish macs final_test fuel pol step frac m names = (g, fin, o) ->
  fin = false /\ (o = Running \/ exists e, o = Raised e) /\
  (forall dense sc, macs m = Ok dense -> o <> Running -> g_macs g <= frac * dense -> g_records g <> [] ->
     final_test (g_model g) = Ok sc -> frac * dense < dense -> o = Raised NameError).
Proof.
  intros finish macs final_test fuel pol step frac m names g fin o H. unfold greedy_pruner in H.
  destruct (macs m) as [dense|e] eqn:Hd.
  2: { inversion H; subst. split; auto. split; eauto. intros. discriminate. }
  destruct (greedy_loop finish macs fuel pol step frac dense m _ _) as (g1 & o1) eqn:E.
  assert (inv finish macs pol step frac dense m (match names with Some l => l | None => dkeys m end) (mkG 0 m dense None [] [])) as Hi0.
  { unfold inv. cbn. split; auto. split; auto. split; auto. split; auto. split; auto. intros [|i] r a b Hr; discriminate. }
  pose proof (loop_inv _ _ _ _ _ _ _ _ fuel _ _ _ Hi0 E) as ((Hr & Hs & Hk & Hm & Hl & Hi) & Hfin & Hrun).
  assert (forall fuel g0 g1 e, greedy_loop finish macs fuel pol step frac dense m (match names with Some l => l | None => dkeys m end) g0 = (g1, Raised e) ->
    frac * dense < g_macs g1) as Hraise.
  { clear. induction fuel as [|fuel IH]; intros g0 g1 e H; cbn [greedy_loop] in H; destruct (Qltb (frac * dense) (g_macs g0)) eqn:E; try discriminate.
    destruct (greedy_body finish macs pol step dense m _ g0); [eapply IH; eauto|]. inversion H; subst. apply qltb_true; auto. }
  destruct o1.
  - inversion H; subst. split; auto. split; auto. intros dense' sc Hd' Ho. tauto.
  - inversion H; subst. split; auto. split; eauto. intros dense' sc Hd' _ Hle. inversion Hd'; subst.
    apply Hraise in E. lra.
  - destruct (Nat.eqb_spec (g_iter g1) 0) as [E0|E0].
    + inversion H; subst. split; auto. split; eauto. intros dense' sc _ _ _ Hne. destruct (g_records g); [tauto|]. simpl in Hr. lia.
    + destruct (final_test (g_model g1)) as [sc|e] eqn:Ef.
      * rewrite Hk in H. inversion H; subst. split; auto. split; eauto.
      * inversion H; subst. split; auto. split; eauto. intros dense' sc _ _ _ _ Hf. congruence.
Qed.

(** A target that is not below the current cost is rejected. *)
Theorem C84_target_met : forall finish macs final_test fuel pol step frac m names dense,
  macs m = Ok dense -> dense <= frac * dense ->
  greedy_pruner finish macs final_test fuel pol step frac m names = (mkG 0 m dense None [] [], false, Raised AssertionError).
Proof.
  intros finish macs final_test fuel pol step frac m names dense Hd Hle. unfold greedy_pruner. rewrite Hd.
  assert (Qltb (frac * dense) dense = false) as E by (apply qltb_false; auto).
  destruct fuel; cbn [greedy_loop g_macs]; rewrite E; reflexivity.
Qed.

(** Finding: once the step is too small for every candidate (fewer than one filter), and none of them has a zero filter,
    the search goes on for ever, recording the same network. *)
Theorem C84_stuck_refuted : forall finish macs final_test pol step frac m names dense,
  macs m = Ok dense -> frac * dense < dense -> 0 < dense -> 0 <= step -> step <= 1 ->
  (forall n, In n names -> In n (dkeys m)) -> candidates m names <> [] ->
  (forall n t, In n (candidates m names) -> dget m n = Some t ->
     exists F C H W, conv_shape t F C H W /\ step * Zq (Z.of_nat F) < 1 /\
       forall f, (f < F)%nat -> all_zero (filter_of t C H W f) = false) ->
  forall fuel, exists g, greedy_pruner finish macs final_test fuel pol step frac m (Some names) = (g, false, Running) /\
    length (g_records g) = fuel /\ (forall b, In b (g_saved g) -> b = m).
Proof.
  intros finish macs final_test pol step frac m names dense Hd Hlt Hpos H0 H1 Hin Hne Hc fuel.
  assert (Hnz : Qeq_bool dense 0 = false) by (apply qeq_false; lra).
  (* each candidate is unchanged *)
  assert (forall n it size, In n (candidates m names) -> prune_finetune_test finish it size step m n = Ok ((-1, -1, -1), m, None)) as Hp.
  { intros n it size Hn. unfold prune_finetune_test.
    assert (exists t, dget m n = Some t) as (t & Et).
    { unfold candidates in Hn. apply filter_In in Hn. destruct Hn as (_ & Hn). destruct (dget m n); eauto. discriminate. }
    rewrite Et. destruct (Hc n t Hn Et) as (F & C & H & W & Hcs & Hst & Hz).
    destruct (prune_tensor_ok t n F C H W step Hcs H0 H1) as (t' & mask & s & Hpt & _ & Hs & Ha).
    assert (asked GFilter t step = 0%nat) as E0.
    { destruct Hcs as (Hsh & _). unfold asked, structures. rewrite Hsh.
      assert (Qfloor (step * Zq (Z.of_nat F)) < 1)%Z.
      { rewrite Zlt_Qlt. eapply Qle_lt_trans; [apply Qfloor_le|]. exact Hst. }
      lia. }
    destruct (Ha E0) as (-> & ->). rewrite Hpt. cbn [bind].
    assert (s == 0) as Es by (apply Hs; auto). apply Qeq_bool_iff in Es. rewrite Es.
    assert (dset m n t = m) as ->.
    { clear - Et. unfold weights in *. induction m as [|(k, w) d IH]; simpl in *; [discriminate|].
      destruct (String.eqb n k); [inversion Et; subst; auto|f_equal; auto]. }
    auto. }
  assert (forall acc0, exists ds, foldM (fun acc n =>
    match dget m n with
    | None => Raise KeyError
    | Some t0 => if negb (Nat.eqb (ndim t0) 4) then Ok acc
        else match dget m n with
             | None => Raise KeyError
             | Some t => do x <- ratio (length (nd_data t)) (length (nd_data t0)); Ok (acc ++ [x])%list
             end
    end) names acc0 = Ok ds) as Hds.
  { assert (forall n t, In n names -> dget m n = Some t -> ndim t = 4%nat -> length (nd_data t) <> 0%nat) as Hne0.
    { intros n t Hn Et E4. destruct (Hc n t) as (F & C & H & W & (Hsh & Hok & Hpos') & _); auto.
      - unfold candidates. apply filter_In. split; auto. rewrite Et. unfold ndim in E4. rewrite E4. auto.
      - red in Hok. rewrite Hok, Hsh. cbn. nia. }
    clear - Hin Hne0. induction names as [|n l IH]; intro acc; cbn [foldM]; eauto.
    destruct (dget m n) as [t|] eqn:Et; [|exfalso; apply dget_None_notin in Et; apply Et, Hin; simpl; auto].
    destruct (Nat.eqb_spec (ndim t) 4) as [E4|E4]; cbn [negb bind].
    - unfold ratio. destruct (Nat.eqb_spec (length (nd_data t)) 0) as [E0|E0].
      { exfalso. apply (Hne0 n t); simpl; auto. }
      cbn [bind]. apply IH; intros; [apply Hin; simpl; auto|eapply Hne0; simpl; eauto].
    - apply IH; intros; [apply Hin; simpl; auto|eapply Hne0; simpl; eauto]. }
  assert (forall g, g_model g = m -> g_macs g = dense -> exists r g', greedy_body finish macs pol step dense m names g = Ok g' /\
    g_model g' = m /\ g_macs g' = dense /\ g_records g' = (g_records g ++ [r])%list /\ g_saved g' = (g_saved g ++ [m])%list) as Hb.
  { intros g Hm Hmac. unfold greedy_body. rewrite Hm, Hmac.
    assert (exists size, match pol with Constant s => Ok s | LinearGrow => do d <- div dense dense; Ok (1 - d) end = Ok size) as (size & ->).
    { destruct pol; eauto. unfold div. rewrite Hnz. cbn [bind]. eauto. }
    cbn [bind].
    destruct (find_total finish (S (g_iter g)) size step m names Hin) as (b & Hf & Hbn).
    { intros n Hn. eexists. apply Hp; auto. }
    rewrite Hf. cbn [bind]. destruct b as [[[[sc n] m'] mask]|].
    2: { exfalso. apply Hne, Hbn. auto. }
    apply find_best in Hf. destruct Hf as (Hpf & (pre & post & He & _)).
    rewrite Hp in Hpf by (rewrite He; apply in_or_app; simpl; auto). inversion Hpf; subst; clear Hpf.
    rewrite Hd. cbn [bind]. unfold get_param_densities. destruct (Hds []) as (ds & Eds). rewrite Eds. cbn [bind].
    unfold div. rewrite Hnz. cbn [bind]. eexists. eexists. split; [reflexivity|]. cbn. auto. }
  assert (forall fuel g, g_model g = m -> g_macs g = dense -> (forall b, In b (g_saved g) -> b = m) ->
    exists g', greedy_loop finish macs fuel pol step frac dense m names g = (g', Running) /\
      length (g_records g') = (length (g_records g) + fuel)%nat /\ (forall b, In b (g_saved g') -> b = m)) as L.
  { induction fuel0 as [|f IH]; intros g Hm Hmac Hsv; cbn [greedy_loop]; rewrite Hmac;
      (assert (Qltb (frac * dense) dense = true) as -> by (apply qltb_true; auto)).
    - exists g. rewrite Nat.add_0_r. auto.
    - destruct (Hb g Hm Hmac) as (r & g' & -> & Hm' & Hmac' & Hrec & Hsv').
      destruct (IH g' Hm' Hmac') as (g2 & Hl & Hlen & Hall).
      + intros b Hin'. rewrite Hsv' in Hin'. apply in_app_or in Hin'. simpl in Hin'. destruct Hin' as [?|[<-|[]]]; auto.
      + exists g2. split; auto. split; auto. rewrite Hlen, Hrec, app_length. simpl. lia. }
  unfold greedy_pruner. rewrite Hd.
  destruct (L fuel (mkG 0 m dense None [] [])) as (g & Hg & Hlen & Hall); auto; [intros b []|].
  rewrite Hg. exists g. split; auto.
Qed.

(** If every step lowers the (integer) cost, the search ends. *)
Theorem C84_terminates : forall finish macs final_test pol step frac m names (cost : weights -> nat),
  0 <= frac ->
  (forall x, macs x = Ok (Zq (Z.of_nat (cost x)))) ->
  (forall it size x sc n x' mask, find_most_robust_layer finish it size step x names = Ok (Some (sc, n, x', mask)) -> (cost x' < cost x)%nat) ->
  forall g fin o, greedy_pruner finish macs final_test (cost m) pol step frac m (Some names) = (g, fin, o) -> o <> Running.
Proof.
  intros finish macs final_test pol step frac m names cost Hf Hm Hdec g fin o H.
  set (dense := Zq (Z.of_nat (cost m))) in *.
  assert (0 <= frac * dense) as Hfd.
  { apply Qmult_le_0_compat; auto. unfold dense, Zq. change 0 with (inject_Z 0). rewrite <- Zle_Qle. lia. }
  assert (forall fuel g0, g_macs g0 = Zq (Z.of_nat (cost (g_model g0))) -> (cost (g_model g0) <= fuel)%nat ->
    snd (greedy_loop finish macs fuel pol step frac dense m names g0) <> Running) as L.
  { induction fuel as [|fuel IH]; intros g0 Hg0 Hle; cbn [greedy_loop].
    - destruct (Qltb (frac * dense) (g_macs g0)) eqn:E; [|simpl; discriminate].
      apply qltb_true in E. rewrite Hg0 in E. assert (cost (g_model g0) = 0%nat) as E0 by lia. rewrite E0 in E.
      change (Zq (Z.of_nat 0)) with 0 in E. lra.
    - destruct (Qltb (frac * dense) (g_macs g0)); [|simpl; discriminate].
      destruct (greedy_body finish macs pol step dense m names g0) as [g1|e] eqn:Eb; [|simpl; discriminate].
      unfold greedy_body in Eb. apply bind_ok in Eb. destruct Eb as (size & _ & Eb). apply bind_ok in Eb. destruct Eb as (b & Hb & Eb).
      destruct b as [[[[((p1, p5), pl) n] m'] mask]|]; [|discriminate].
      apply Hdec in Hb.
      apply bind_ok in Eb. destruct Eb as (total & Ht & Eb). apply bind_ok in Eb. destruct Eb as (ds & _ & Eb).
      apply bind_ok in Eb. destruct Eb as (cd & _ & Eb). inversion Eb; subst; clear Eb.
      apply IH; cbn [g_macs g_model]; [|lia]. rewrite Hm in Ht. congruence. }
  unfold greedy_pruner in H. rewrite Hm in H. fold dense in H.
  specialize (L (cost m) (mkG 0 m dense None [] []) eq_refl (le_n _)).
  destruct (greedy_loop finish macs (cost m) pol step frac dense m names _) as (g1 & o1). simpl in L.
  destruct o1; [tauto|inversion H; discriminate|].
  destruct (Nat.eqb (g_iter g1) 0); [inversion H; discriminate|].
  destruct (final_test (g_model g1)); [|inversion H; discriminate].
  destruct (g_mask g1); inversion H; discriminate.
Qed.

(** *** The hypotheses are met: two 1x1 convolutions with two and three filters *)
Open Scope string_scope.
Definition ca : nd := mkND [2; 1; 1; 1]%nat [1; 2].
Definition cb : nd := mkND [3; 1; 1; 1]%nat [3; 1; 2].
Definition two_convs : weights := [("a", ca); ("b", cb); ("bias", mkND [2%nat] [0; 0])].
(** removing the zero filters; top1 is the number of filters left *)
Definition squeeze (t : nd) : nd :=
  let d := filter (fun x => negb (Qeq_bool x 0)) (nd_data t) in
  match nd_shape t with [_; _; _; _] => mkND [length d; 1; 1; 1]%nat d | _ => t end.
Definition toy_finish (it : nat) (size : Q) (m : weights) (n : string) (mask : option nd) : res (score3 * weights) :=
  let m' := map (fun kv => (fst kv, squeeze (snd kv))) m in
  Ok ((Zq (Z.of_nat (list_sum (map (fun kv => length (nd_data (snd kv))) m'))), 0, 0), m').
Definition toy_cost (m : weights) : nat := list_sum (map (fun kv => match nd_shape (snd kv) with [_; _; _; _] => length (nd_data (snd kv)) | _ => 0%nat end) m).
Definition toy_macs (m : weights) : res Q := Ok (Zq (Z.of_nat (toy_cost m))).

Example toy_run :
  let '(g, fin, o) := greedy_pruner toy_finish toy_macs (fun _ => Ok (0, 0, 0)) 10 LinearGrow (1 # 2) (3 # 5) two_convs None in
  map r_param (g_records g) = ["a"; "b"] /\ g_macs g == 3 /\ fin = false /\ o = Raised NameError.
Proof. vm_compute. repeat split; reflexivity. Qed.

Example toy_stuck : forall fuel, exists g,
  greedy_pruner toy_finish toy_macs (fun _ => Ok (0, 0, 0)) fuel LinearGrow (1 # 10) (3 # 5) two_convs (Some ["a"; "b"]) = (g, false, Running) /\
  length (g_records g) = fuel /\ (forall b, In b (g_saved g) -> b = two_convs).
Proof.
  intro fuel. apply C84_stuck_refuted with (dense := 5).
  - reflexivity.
  - reflexivity.
  - reflexivity.
  - discriminate.
  - discriminate.
  - intros n [<-|[<-|[]]]; simpl; auto.
  - discriminate.
  - intros n t [<-|[<-|[]]] E; inversion E; subst.
    + exists 2%nat, 1%nat, 1%nat, 1%nat. split; [split; [reflexivity|split; [reflexivity|lia]]|]. split; [reflexivity|].
      intros [|[|f]] Hf; [reflexivity|reflexivity|lia].
    + exists 3%nat, 1%nat, 1%nat, 1%nat. split; [split; [reflexivity|split; [reflexivity|lia]]|]. split; [reflexivity|].
      intros [|[|[|f]]] Hf; [reflexivity|reflexivity|reflexivity|lia].
Qed.

Print Assumptions C84_prune_tensor.
Print Assumptions C84_candidate.
Print Assumptions C84_most_robust.
Print Assumptions C84_pruned_wins.
Print Assumptions C84_run.
Print Assumptions C84_completion_refuted.
Print Assumptions C84_target_met.
Print Assumptions C84_stuck_refuted.
Print Assumptions C84_terminates.
