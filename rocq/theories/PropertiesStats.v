(** C53: quantization parameters from recorded activation statistics. *)
From Coq Require Import String List ZArith QArith Qabs Qround Qpower Bool Arith Lia Lqa Setoid Morphisms.
From Verif Require Import Base Lists StructModel QuantModel QuantSpec QuantProofs PropertiesQuant RangeModel RangeSpec RangeProofs.
Import ListNotations.

(** [lo, hi] is the part of the observed range within n standard deviations of the mean *)
Definition cut_range (st : stats) (n lo hi : Q) : Prop :=
  forall x, (lo <= x /\ x <= hi) <-> (st_min st <= x /\ x <= st_max st /\ Qabs (x - st_mean st) <= n * st_std st).

Lemma qabs_le_iff (x y : Q) : Qabs x <= y <-> - y <= x /\ x <= y.
Proof. apply Qabs_Qle_condition. Qed.

Lemma cut_range_ok st n : st_min st <= st_mean st -> st_mean st <= st_max st -> 0 <= st_std st -> 0 < n ->
  let lo := qmax (st_min st) (st_mean st - n * st_std st) in
  let hi := qmin (st_max st) (st_mean st + n * st_std st) in
  cut_range st n lo hi /\ lo <= hi.
Proof.
  intros H1 H2 H3 H4 lo hi. assert (P : 0 <= n * st_std st) by (apply Qmult_le_0_compat; lra).
  unfold cut_range, lo, hi. split.
  - intro x. rewrite qabs_le_iff.
    destruct (qmax_spec (st_min st) (st_mean st - n * st_std st)) as [[A ->]|[A ->]];
    destruct (qmin_spec (st_max st) (st_mean st + n * st_std st)) as [[B ->]|[B ->]];
    split; intros; repeat split; lra.
  - destruct (qmax_spec (st_min st) (st_mean st - n * st_std st)) as [[A ->]|[A ->]];
    destruct (qmin_spec (st_max st) (st_mean st + n * st_std st)) as [[B ->]|[B ->]]; lra.
Qed.

(** C53: without clipping, every value between the recorded minimum and maximum is represented within
    half a quantization step; with averaged clipping the same holds between the averaged minimum and
    maximum.  Nothing else in the record matters. *)
Theorem C53_none_and_avg :
  forall st bits m n half s z, mode_ok bits (PM m) ->
  let r := mode_range bits (PM m) in
  (st_min st <= st_max st -> params_from_stats st bits (PM m) CNone n half None = Ok (s, z) ->
     0 < s /\ (exists k, z == Zq k) /\
     forall x, st_min st <= x -> x <= st_max st -> Qabs (fq x s z (fst r) (snd r) - x) <= 1 / (2 * s)) /\
  (st_avg_min st <= st_avg_max st -> params_from_stats st bits (PM m) CAvg n half None = Ok (s, z) ->
     0 < s /\ (exists k, z == Zq k) /\
     forall x, st_avg_min st <= x -> x <= st_avg_max st -> Qabs (fq x s z (fst r) (snd r) - x) <= 1 / (2 * s)).
Proof.
  intros st bits m n half s z Hm r. split; intros Hle H; unfold params_from_stats in H; cbn [stats_range bind fst snd] in H;
    inv_bind H; destruct x as [s' z']; cbn [approx_opt fst snd] in H; injection H as -> ->;
    destruct (params_from_range_spec bits (PM m) _ _ _ _ I Hm Hle H0) as (A & _ & B & C & _); auto.
Qed.

(** C53: N_STD clipping covers exactly the observed values within n standard deviations of the mean. *)
Theorem C53_n_std :
  forall st bits m n half s z, mode_ok bits (PM m) ->
  st_min st <= st_mean st -> st_mean st <= st_max st -> 0 <= st_std st ->
  params_from_stats st bits (PM m) CNStd (Some n) half None = Ok (s, z) ->
  let r := mode_range bits (PM m) in
  0 < n /\ 0 < s /\ (exists k, z == Zq k) /\
  (forall x, st_min st <= x -> x <= st_max st -> Qabs (x - st_mean st) <= n * st_std st ->
     Qabs (fq x s z (fst r) (snd r) - x) <= 1 / (2 * s)) /\
  exists lo hi, cut_range st n lo hi /\ lo <= hi /\ params_from_range bits (PM m) lo hi = Ok (s, z).
Proof.
  intros st bits m n half s z Hm H1 H2 H3 H r. unfold params_from_stats in H. cbn [stats_range] in H.
  destruct (Qle_bool n 0) eqn:En; [discriminate|]. cbn [bind fst snd] in H.
  assert (Hn : 0 < n) by (apply Qnot_le_lt; intro K; apply Qle_bool_iff in K; congruence).
  inv_bind H. destruct x as [s' z']. cbn [approx_opt fst snd] in H. injection H as -> ->.
  pose proof (cut_range_ok st n H1 H2 H3 Hn) as [Hc Hle].
  destruct (params_from_range_spec bits (PM m) _ _ _ _ I Hm Hle H0) as (A & _ & B & C & _).
  repeat split; auto.
  - intros x Hx1 Hx2 Hx3. destruct (proj2 (Hc x) (conj Hx1 (conj Hx2 Hx3))). apply C; auto.
  - eauto 6.
Qed.

(** C53: N_STD clipping needs a positive number of standard deviations, and that is the only reason it
    can fail (the clipping range of every other mode needs none). *)
Theorem C53_n_std_error :
  forall st bits m n half approx, mode_ok bits (PM m) ->
  st_min st <= st_mean st -> st_mean st <= st_max st -> 0 <= st_std st ->
  ((n = None \/ exists v, n = Some v /\ v <= 0) <-> params_from_stats st bits (PM m) CNStd n half approx = Raise ValueError) /\
  ((exists v, n = Some v /\ 0 < v) <-> exists p, params_from_stats st bits (PM m) CNStd n half approx = Ok p).
Proof.
  intros st bits m n half approx Hm H1 H2 H3. unfold params_from_stats. cbn [stats_range].
  destruct n as [v|]; [|cbn [bind]; split; split; auto; [intros (w & [=] & _)|intros (p & [=])]].
  destruct (Qle_bool v 0) eqn:En.
  - apply Qle_bool_iff in En. cbn [bind]. split; split; eauto.
    + intros (w & [= <-] & K). lra.
    + intros (p & [=]).
  - assert (Hn : 0 < v) by (apply Qnot_le_lt; intro K; apply Qle_bool_iff in K; congruence).
    cbn [bind fst snd]. pose proof (cut_range_ok st v H1 H2 H3 Hn) as [Hc Hle]. cbv zeta in Hle.
    set (lo := qmax _ _) in *. set (hi := qmin _ _) in *.
    assert (E : exists p, params_from_range bits (PM m) lo hi = Ok p).
    { unfold params_from_range. destruct (is_sym (PM m)).
      - unfold sym_params. assert (P : 0 <= qmax (Qabs lo) (Qabs hi)) by (pose proof (qmax_l (Qabs lo) (Qabs hi)); pose proof (Qabs_nonneg lo); lra).
        cbn [existsb]. destruct (Qltb _ 0) eqn:K; [apply Qltb_lt in K; lra|]. cbn. eauto.
      - unfold asym_params. cbn [combine existsb fst snd map2]. destruct (Qltb hi lo) eqn:K; [apply Qltb_lt in K; lra|]. cbn. eauto. }
    destruct E as (p & ->). cbn [bind]. split; split; eauto.
    + intros [[=]|(w & [= <-] & K)]. lra.
    + discriminate.
Qed.

(** C53: a scale approximation of k bits keeps the zero point, and only lowers the scale, by less than a
    2^-(k-1) part of it. *)
Theorem C53_scale_approximation :
  forall st bits m clip n half k s z, mode_ok bits (PM m) ->
  (match clip with CNone => st_min st <= st_max st | CAvg => st_avg_min st <= st_avg_max st
   | CNStd => st_min st <= st_mean st /\ st_mean st <= st_max st /\ 0 <= st_std st | _ => False end) ->
  (2 <= k)%Z ->
  params_from_stats st bits (PM m) clip n half None = Ok (s, z) ->
  exists s' mult shift, params_from_stats st bits (PM m) clip n half (Some k) = Ok (s', z) /\
    0 < s' /\ s' <= s /\ (s - s') * Zq (2 ^ (k - 1)) < s /\ s' == Zq mult / 2 ^ shift /\ (0 <= mult <= 2 ^ k - 1)%Z.
Proof.
  intros st bits m clip n half k s z Hm Hst Hk H.
  assert (Hs : 0 < s).
  { destruct clip; try contradiction.
    - destruct (C53_none_and_avg st bits m n half s z Hm) as [A _]. apply A; auto.
    - destruct (C53_none_and_avg st bits m n half s z Hm) as [_ A]. apply A; auto.
    - destruct Hst as (A & B & C). destruct n as [n|]; [|discriminate]. apply (C53_n_std st bits m n half s z); auto. }
  unfold params_from_stats in *. inv_bind H. rewrite H0. cbn [bind]. inv_bind H. rewrite H1. cbn [bind].
  destruct x0 as [s0 z0]. cbn [approx_opt fst snd] in *. injection H as -> ->.
  pose proof (C28_scale_approximation s k false Hs ltac:(lia)) as HA. cbv zeta in HA.
  destruct HA as (A & _ & B & C & D & _ & E). exists (approx_scale s k false), (scale_approx_mult s (scale_approx_shift s k false)), (scale_approx_shift s k false).
  split; auto. specialize (E eq_refl Hk). repeat split; auto; try apply A.
  destruct (Qlt_le_dec 0 (approx_scale s k false)) as [P|P]; auto. exfalso.
  assert (Z0 : approx_scale s k false == 0) by lra. rewrite Z0 in E.
  assert (G : 1 <= Zq (2 ^ (k - 1))) by (change 1 with (Zq 1); apply (proj1 (Zq_le _ _)); pose proof (pow2_pos (k-1) ltac:(lia)); lia).
  assert (s * 1 <= s * Zq (2 ^ (k - 1))) by (apply Qmult_le_l; auto).
  assert ((s - 0) * Zq (2 ^ (k - 1)) == s * Zq (2 ^ (k - 1))) by ring. lra.
Qed.

(** C53: a case: observed [-4, 10], averaged [-2, 5], mean 1, deviation 2. *)
Definition st1 : stats := mkStats (-4) 10 (-2) 5 1 2 1.
Example C53_ex :
  mode_ok 8 (PM SYM) /\ mode_ok 8 (PM ASU) /\ mode_ok 4 (PM SYMR) /\
  (st_min st1 <= st_mean st1 /\ st_mean st1 <= st_max st1 /\ 0 <= st_std st1 /\ st_avg_min st1 <= st_avg_max st1) /\
  (exists s z, params_from_stats st1 8 (PM ASU) CNStd (Some 2) false None = Ok (s, z) /\ s == 255 # 8 /\ z == -(96#1)) /\
  (exists s z, params_from_stats st1 8 (PM ASU) CNone None false (Some 4%Z) = Ok (s, z)).
Proof.
  repeat split; try (vm_compute; congruence).
  - eexists _, _. split; [vm_compute; reflexivity|]. split; vm_compute; reflexivity.
  - eexists _, _. vm_compute. reflexivity.
Qed.

Print Assumptions C53_none_and_avg.
Print Assumptions C53_n_std.
Print Assumptions C53_n_std_error.
Print Assumptions C53_scale_approximation.
