(** Proofs about greedy filter pruning. *)
From Coq Require Import String List ZArith QArith Qround Bool Arith Lia Lqa.
From Verif Require Import Base Lists StructModel StructSpec SensModel SensSpec SensProofs PropertiesStruct PropertiesStruct2 GfpModel GfpSpec.
Import ListNotations.
Open Scope Q_scope.

Lemma qltb_true x y : Qltb x y = true <-> x < y.
Proof.
  unfold Qltb. rewrite negb_true_iff. split; intro H.
  - apply Qnot_le_lt. intro Hle. apply Qle_bool_iff in Hle. congruence.
  - destruct (Qle_bool y x) eqn:E; auto. apply Qle_bool_iff in E. lra.
Qed.
Lemma qltb_false x y : Qltb x y = false <-> y <= x.
Proof. unfold Qltb. rewrite negb_false_iff. apply Qle_bool_iff. Qed.

Lemma qeq_false x y : Qeq_bool x y = false <-> ~ x == y.
Proof. rewrite <- Qeq_bool_iff. destruct (Qeq_bool x y); intuition congruence. Qed.

Lemma score_gt_better a b : score_gt a b = true <-> better a b.
Proof.
  destruct a as ((a1 & a2) & a3), b as ((b1 & b2) & b3). unfold score_gt, better.
  destruct (Qeq_bool a1 b1) eqn:E1; cbn [negb].
  - apply Qeq_bool_iff in E1. destruct (Qeq_bool a2 b2) eqn:E2; cbn [negb].
    + apply Qeq_bool_iff in E2. destruct (Qeq_bool (- a3) (- b3)) eqn:E3; cbn [negb].
      * apply Qeq_bool_iff in E3. split; [discriminate|]. intros [H|[_ [H|[_ H]]]]; lra.
      * rewrite qltb_true. split; intro H; [right; split; auto; right; split; auto; lra|].
        destruct H as [H|[_ [H|[_ H]]]]; lra.
    + apply qeq_false in E2. rewrite qltb_true. split; intro H; [auto|].
      destruct H as [H|[_ [H|[H _]]]]; auto; [lra|tauto].
  - apply qeq_false in E1. rewrite qltb_true. split; intro H; [auto|]. destruct H as [H|[H _]]; auto. tauto.
Qed.

Lemma better_trans a b c : better a b -> better b c -> better a c.
Proof.
  destruct a as ((a1 & a2) & a3), b as ((b1 & b2) & b3), c as ((c1 & c2) & c3). unfold better.
  intros [H|[H [H'|[H' H'']]]] [K|[K [K'|[K' K'']]]]; try (left; lra); right; (split; [lra|]); try (left; lra); right; split; lra.
Qed.

Lemma better_over a b c : better a b -> ~ better c b -> better a c.
Proof.
  destruct a as ((a1 & a2) & a3), b as ((b1 & b2) & b3), c as ((c1 & c2) & c3). unfold better. intros H K.
  assert (c1 <= b1) as K1 by (apply Qnot_lt_le; intro; apply K; auto).
  destruct (Qlt_le_dec c1 b1) as [L|L]; [left; destruct H as [H|[H _]]; lra|].
  assert (c1 == b1) as E1 by lra.
  assert (c2 <= b2) as K2 by (apply Qnot_lt_le; intro; apply K; right; split; auto).
  destruct H as [H|[H H']]; [left; lra|]. right. split; [lra|].
  destruct (Qlt_le_dec c2 b2) as [L2|L2]; [left; destruct H' as [H'|[H' _]]; lra|].
  assert (c2 == b2) as E2 by lra.
  assert (b3 <= c3) as K3 by (apply Qnot_lt_le; intro; apply K; right; split; auto; right; split; auto; lra).
  destruct H' as [H'|[H' H'']]; [left; lra|]. right. split; lra.
Qed.

Section G.
Variable finish : nat -> Q -> weights -> string -> option nd -> res (score3 * weights).
Definition result_of (it : nat) (size step : Q) (m : weights) (n : string) : option score3 :=
  match prune_finetune_test finish it size step m n with Ok (sc, _, _) => Some sc | Raise _ => None end.

Definition tried it size step m (n : string) : Prop := exists r, prune_finetune_test finish it size step m n = Ok r.

Lemma best_layer_snoc res names n sc x s : best_layer res names n sc -> res x = Some s ->
  if score_gt s sc then best_layer res (names ++ [x]) x s else best_layer res (names ++ [x]) n sc.
Proof.
  intros (pre & post & -> & Hn & Hpre & Hpost) Hx. destruct (score_gt s sc) eqn:E.
  - apply score_gt_better in E. exists (pre ++ n :: post), []. split; auto. split; auto. split; [|simpl; tauto].
    intros y Hy. apply in_app_or in Hy. simpl in Hy. destruct Hy as [Hy|[<-|Hy]].
    + destruct (Hpre y Hy) as (s' & Hs & Hb). exists s'. split; auto. eapply better_trans; eauto.
    + exists sc; auto.
    + destruct (Hpost y Hy) as (s' & Hs & Hb). exists s'. split; auto. eapply better_over; eauto.
  - exists pre, (post ++ [x]). split; [rewrite <- app_assoc; auto|]. split; auto. split; auto.
    intros y Hy. apply in_app_or in Hy. simpl in Hy. destruct Hy as [Hy|[<-|[]]]; auto.
    exists s. split; auto. intro Hb. apply score_gt_better in Hb. congruence.
Qed.

Lemma candidates_cons m n names : candidates m (n :: names) =
  (if match dget m n with Some t => Nat.eqb (length (nd_shape t)) 4 | None => false end then [n] else []) ++ candidates m names.
Proof. unfold candidates. simpl. destruct (match dget m n with Some t => _ | None => false end); auto. Qed.

Lemma find_loop it size step m names : forall done b b',
  foldM (try_layer finish it size step m) names b = Ok b' ->
  match b with
  | None => done = []
  | Some (sc, n, m', mask) => prune_finetune_test finish it size step m n = Ok (sc, m', mask) /\ best_layer (result_of it size step m) done n sc
  end ->
  match b' with
  | None => done ++ candidates m names = []
  | Some (sc, n, m', mask) => prune_finetune_test finish it size step m n = Ok (sc, m', mask) /\
      best_layer (result_of it size step m) (done ++ candidates m names) n sc
  end.
Proof.
  induction names as [|n names IH]; intros done b b' H Hb; cbn [foldM] in H.
  - inversion H; subst. unfold candidates. simpl. rewrite app_nil_r. auto.
  - apply bind_ok in H. destruct H as (b1 & H1 & H2). rewrite candidates_cons, app_assoc.
    apply (IH _ b1); auto. unfold try_layer in H1. destruct (dget m n) as [t|]; [|discriminate].
    unfold ndim in H1. destruct (Nat.eqb (length (nd_shape t)) 4); cbn [negb] in H1.
    + apply bind_ok in H1. destruct H1 as (((sc & m1) & mask) & Hp & H1).
      assert (result_of it size step m n = Some sc) as Hr by (unfold result_of; rewrite Hp; auto).
      destruct b as [[[[sb nb] mb] maskb]|].
      * destruct Hb as (Hpb & Hb). pose proof (best_layer_snoc _ _ _ _ _ _ Hb Hr) as Hs.
        destruct (score_gt sc sb); inversion H1; subst; auto.
      * inversion H1; subst. split; auto. exists [], []. simpl. split; auto. split; auto. split; tauto.
    + inversion H1; subst. rewrite app_nil_r. auto.
Qed.

Lemma find_best it size step m names sc n m' mask :
  find_most_robust_layer finish it size step m names = Ok (Some (sc, n, m', mask)) ->
  prune_finetune_test finish it size step m n = Ok (sc, m', mask) /\ best_layer (result_of it size step m) (candidates m names) n sc.
Proof. intro H. apply (find_loop _ _ _ _ _ []) in H; auto. Qed.

Lemma find_none it size step m names :
  find_most_robust_layer finish it size step m names = Ok None -> candidates m names = [].
Proof. intro H. apply (find_loop _ _ _ _ _ []) in H; auto. Qed.

Lemma find_total it size step m names : (forall n, In n names -> In n (dkeys m)) ->
  (forall n, In n (candidates m names) -> tried it size step m n) ->
  exists b, find_most_robust_layer finish it size step m names = Ok b /\ (b = None <-> candidates m names = []).
Proof.
  intros Hn Ht. assert (forall b, exists b', foldM (try_layer finish it size step m) names b = Ok b') as L.
  { clear - Hn Ht. induction names as [|n names IH]; intro b; cbn [foldM]; eauto.
    rewrite candidates_cons in Ht.
    assert (exists b1, try_layer finish it size step m b n = Ok b1) as (b1 & ->).
    { unfold try_layer, ndim. destruct (dget m n) as [t|] eqn:E.
      - destruct (Nat.eqb (length (nd_shape t)) 4) eqn:E4; cbn [negb]; eauto.
        destruct (Ht n) as (((sc & m1) & mask) & ->); [apply in_or_app; simpl; auto|]. cbn [bind].
        destruct (match b with Some (sb, _, _, _) => score_gt sc sb | None => true end); eauto.
      - exfalso. apply dget_None_notin in E. apply E, Hn. simpl; auto. }
    cbn [bind]. apply IH; [intros; apply Hn; simpl; auto|intros; apply Ht, in_or_app; auto]. }
  destruct (L None) as (b & Hb). exists b. split; auto. split; intro E.
  - subst. apply (find_none _ _ _ _ _ Hb).
  - destruct b as [[[[sc n] m'] mask]|]; auto. apply find_best in Hb. destruct Hb as (_ & pre & post & Hc & _).
    rewrite E in Hc. destruct pre; discriminate.
Qed.
End G.

(** * Pruning one tensor *)
Lemma count_zero n f : count_below n f = 0%nat <-> forall i, (i < n)%nat -> f i = false.
Proof.
  unfold count_below. assert (forall l, countb f l = 0%nat <-> forall i, In i l -> f i = false) as L.
  { induction l as [|x l IH]; [cbn; split; auto; intros _ i []|]. unfold countb in *. cbn [filter].
    destruct (f x) eqn:E; cbn [length].
    - split; [discriminate|]. intro H. rewrite (H x) in E by (simpl; auto). discriminate.
    - rewrite IH. split; intros H i; [intros [<-|Hi]; auto|intro Hi; apply H; simpl; auto]. }
  rewrite L. split; intros H i Hi; apply H; [apply in_seq; lia|apply in_seq in Hi; lia].
Qed.

Lemma prune_tensor_ok t n F C H W step : conv_shape t F C H W -> 0 <= step -> step <= 1 ->
  exists t' mask s, prune_tensor t n step = Ok (t', mask, s) /\
    pruned_to GFilter (asked GFilter t step) t t' /\
    (s == 0 <-> forall f, (f < F)%nat -> all_zero (filter_of t' C H W f) = false) /\
    (asked GFilter t step = 0%nat -> t' = t /\ mask = None).
Proof.
  intros Hc H0 H1. pose proof Hc as (Hsh & Hok & Hpos).
  assert (ndim t = 4%nat) as Hd by (unfold ndim; rewrite Hsh; auto).
  assert (forall d, In d (nd_shape t) -> (0 < d)%nat) as Hp.
  { rewrite Hsh. simpl. intros d Hin. intuition lia. }
  destruct (ranked_pruned GFilter t step [n] (or_introl eq_refl) Hok Hp Hd H0 H1) as (o & Ho & Hm).
  unfold prune_tensor. cbn [gt_of] in Ho. rewrite Ho. cbn [bind].
  set (t' := match snd o with Some m => mkND (nd_shape t) (tmul (nd_data t) (nd_data m)) | None => t end).
  assert (pruned_to GFilter (asked GFilter t step) t t') as Hpr.
  { unfold t'. destruct (snd o); [apply Hm|auto]. }
  assert (conv_shape t' F C H W) as Hc'.
  { destruct Hpr as (Hs & Hl & _). split; [congruence|]. split; [|auto]. red. red in Hok. congruence. }
  destruct (C39_structure_sparsity t' F C H W Hc') as ((s & Es & Hs) & _).
  rewrite Es. cbn [bind]. exists t', (snd o), s. split; auto. split; auto. split.
  - rewrite Hs. rewrite <- count_zero. unfold frac.
    assert (0 < Zq (Z.of_nat F)) as HF by (unfold Zq; change 0 with (inject_Z 0); rewrite <- Zlt_Qlt; lia).
    split; intro E.
    + destruct (count_below F (fun i => all_zero (filter_of t' C H W i))) as [|k] eqn:Ek; auto. exfalso.
      assert (0 < Zq (Z.of_nat (S k)) / Zq (Z.of_nat F)).
      { apply Qlt_shift_div_l; auto. unfold Zq. rewrite Qmult_0_l. change 0 with (inject_Z 0). rewrite <- Zlt_Qlt. lia. }
      lra.
    + rewrite E. change (Zq (Z.of_nat 0)) with 0. unfold Qdiv. ring.
  - intro Ha. pose proof (C19_filters t F C H W l1_norm step Hc H0 H1) as (A & _). cbv zeta in A.
    assert (snd o = None) as En.
    { unfold prune_group in Ho. destruct (Qeq_bool step 0); [inversion Ho; auto|]. cbn [lp_group lp_mag lp_size] in Ho.
      rewrite A in Ho; [inversion Ho; auto|]. unfold asked, structures in Ha. rewrite Hsh in Ha. auto. }
    unfold t'. rewrite En. auto.
Qed.
