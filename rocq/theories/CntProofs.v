(** Proofs about counting non-zero weights in floating point (C108). *)
From Coq Require Import String List ZArith Reals Bool Lia Lra Psatz.
From Flocq Require Import Core BinarySingleNaN Relative.
From Verif Require Import Base CntModel CntSpec.
Import ListNotations.
Open Scope list_scope.
Open Scope R_scope.

Notation fexp := (SpecFloat.fexp 53 1024).
Definition fl (x : R) : R := round radix2 fexp (round_mode mode_NE) x.
Definition fmt (x : R) : Prop := generic_format radix2 fexp x.

Global Instance vexp : Valid_exp fexp := fexp_correct 53 1024 p53.

Lemma fl_le : forall x y, x <= y -> fl x <= fl y. Proof. intros. apply round_le; [exact vexp|apply valid_rnd_round_mode|assumption]. Qed.
Lemma fl_id : forall x, fmt x -> fl x = x. Proof. intros. apply round_generic; [apply valid_rnd_round_mode|assumption]. Qed.

Lemma fmt_int : forall z, (Z.abs z < 2 ^ 53)%Z -> fmt (IZR z).
Proof.
  intros z H. apply (generic_format_FLT radix2 (-1074) 53). exists (Float radix2 z 0); [unfold F2R; cbn; ring|exact H|discriminate].
Qed.
Lemma fmt_small : forall m e, (Z.abs m < 2 ^ 53)%Z -> (-1074 <= e)%Z -> fmt (IZR m * bpow radix2 e).
Proof. intros m e H He. apply (generic_format_FLT radix2 (-1074) 53). exists (Float radix2 m e); [reflexivity|exact H|exact He]. Qed.

Lemma p53_1 : bpow radix2 53 = 9007199254740992. Proof. reflexivity. Qed.

Lemma big : 9007199254740992 < bpow radix2 1024.
Proof. rewrite <- p53_1. apply bpow_lt. reflexivity. Qed.

Lemma no_overflow : forall x, 0 <= x <= 9007199254740991 -> Rlt_bool (Rabs (fl x)) (bpow radix2 1024) = true.
Proof.
  intros x [H0 H1]. apply Rlt_bool_true. assert (A : 0 <= fl x). { rewrite <- (fl_id 0) by (apply (fmt_int 0); reflexivity). now apply fl_le. }
  assert (B : fl x <= 9007199254740991). { rewrite <- (fl_id 9007199254740991) by (apply (fmt_int 9007199254740991); reflexivity). now apply fl_le. }
  rewrite Rabs_right by lra. pose proof big. lra.
Qed.

Lemma of_int_ok : forall z, (0 <= z < 2 ^ 53)%Z -> B2R (of_int z) = IZR z /\ is_finite (of_int z) = true.
Proof.
  intros z [H0 H1]. assert (HF : fmt (IZR z)) by (apply fmt_int; rewrite Z.abs_eq; assumption).
  pose proof (binary_normalize_correct 53 1024 p53 e1024 mode_NE z 0 false) as H. cbv zeta in H.
  assert (E : F2R (Float radix2 z 0) = IZR z) by (unfold F2R; cbn; ring). 
  rewrite E in H. fold (fl (IZR z)) in H.
  rewrite no_overflow in H. 
  - destruct H as (A & B & _). fold (of_int z) in A, B. rewrite (fl_id _ HF) in A. now split.
  - apply IZR_le in H0. assert (H2 : (z <= 9007199254740991)%Z) by (change (2 ^ 53)%Z with 9007199254740992%Z in H1; lia). apply IZR_le in H2. split; assumption.
Qed.

Lemma fdiv_ok : forall x y : f64, is_finite x = true -> 0 < B2R y -> 0 <= B2R x / B2R y <= 9007199254740991 ->
  B2R (fdiv x y) = fl (B2R x / B2R y) /\ is_finite (fdiv x y) = true.
Proof.
  intros x y Hx Hz HB. pose proof (@Bdiv_correct 53 1024 p53 e1024 mode_NE x y ltac:(lra)) as H. fold (fl (B2R x / B2R y)) in H. rewrite no_overflow in H by exact HB.
  destruct H as (A & B & _). split; [exact A|]. unfold fdiv. now rewrite B.
Qed.
Lemma fmul_ok : forall x y : f64, is_finite x = true -> is_finite y = true -> 0 <= B2R x * B2R y <= 9007199254740991 ->
  B2R (fmul x y) = fl (B2R x * B2R y) /\ is_finite (fmul x y) = true.
Proof.
  intros x y Hx Hz HB. pose proof (@Bmult_correct 53 1024 p53 e1024 mode_NE x y) as H. fold (fl (B2R x * B2R y)) in H. rewrite no_overflow in H by exact HB.
  destruct H as (A & B & _). split; [exact A|]. unfold fmul. now rewrite B, Hx, Hz.
Qed.
Lemma fadd_ok : forall x y : f64, is_finite x = true -> is_finite y = true -> 0 <= B2R x + B2R y <= 9007199254740991 ->
  B2R (fadd x y) = fl (B2R x + B2R y) /\ is_finite (fadd x y) = true.
Proof.
  intros x y Hx Hz HB. pose proof (@Bplus_correct 53 1024 p53 e1024 mode_NE x y Hx Hz) as H. fold (fl (B2R x + B2R y)) in H. rewrite no_overflow in H by exact HB.
  destruct H as (A & B & _). split; [exact A|exact B].
Qed.
Lemma fsub_ok : forall x y : f64, is_finite x = true -> is_finite y = true -> 0 <= B2R x - B2R y <= 9007199254740991 ->
  B2R (fsub x y) = fl (B2R x - B2R y) /\ is_finite (fsub x y) = true.
Proof.
  intros x y Hx Hz HB. pose proof (@Bminus_correct 53 1024 p53 e1024 mode_NE x y Hx Hz) as H. fold (fl (B2R x - B2R y)) in H. rewrite no_overflow in H by exact HB.
  destruct H as (A & B & _). split; [exact A|exact B].
Qed.

Lemma fl_rel : forall x, / 9007199254740992 <= x -> exists e, Rabs e <= u /\ fl x = x * (1 + e).
Proof.
  intros x Hx. destruct (relative_error_N_FLT_ex radix2 (-1074) 53 eq_refl (fun z => negb (Z.even z)) x) as (e & He & E).
  - rewrite Rabs_right by lra. apply Rle_trans with (/ 9007199254740992); [|exact Hx]. rewrite <- p53_1, <- bpow_opp. apply bpow_le. discriminate.
  - exists e. split; [|exact E]. unfold u. replace (/ 9007199254740992) with (/ 2 * bpow radix2 (-53 + 1)); [exact He|].
    change (-53 + 1)%Z with (Z.opp 52). rewrite bpow_opp. change (bpow radix2 52) with 4503599627370496. lra.
Qed.

(* ------------------------------------------------------------------ counting *)
Lemma nonzero_iff : forall x : f32, is_finite x = true -> nonzero x = (if Req_EM_T (B2R x) 0 then false else true).
Proof.
  intros [s|s| |s m e B] H; try discriminate H; cbn.
  - destruct (Req_EM_T 0 0); [reflexivity|lra].
  - destruct (Req_EM_T _ 0) as [E|]; [|reflexivity]. exfalso. unfold F2R in E. cbn in E. destruct (Rmult_integral _ _ E) as [E1|E1]; [|pose proof (bpow_gt_0 radix2 e); lra].
    destruct s; cbn in E1; apply eq_IZR in E1; discriminate E1.
Qed.

Lemma nnz_ok : forall t, numbers t -> nnz t = nonzeros t.
Proof.
  intros t H. unfold nnz. induction H as [|x t Hx HF IH]; [reflexivity|]. cbn [filter nonzeros]. rewrite (nonzero_iff x Hx). destruct (Req_EM_T (B2R x) 0); cbn [length]; lia.
Qed.
Lemma nonzeros_bounds : forall t, (0 <= nonzeros t <= size t)%Z.
Proof. induction t as [|x t IH]; unfold size in *; cbn [nonzeros length]; [lia|]. destruct (Req_EM_T (B2R x) 0); lia. Qed.
Lemma nonzeros_zero : forall t, nonzeros t = 0%Z <-> Forall (fun x : weight => B2R x = 0) t.
Proof.
  induction t as [|x t IH]; cbn [nonzeros]; [split; [constructor|reflexivity]|]. pose proof (nonzeros_bounds t). destruct (Req_EM_T (B2R x) 0) as [E|E]; split; intro HH.
  - constructor; [exact E|apply IH; lia].
  - inversion HH; subst. apply IH in H3. lia.
  - lia.
  - inversion HH; subst. contradiction.
Qed.
Lemma nonzeros_all : forall t, nonzeros t = size t <-> Forall (fun x : weight => B2R x <> 0) t.
Proof.
  induction t as [|x t IH]; unfold size in *; cbn [nonzeros length]; [split; [constructor|reflexivity]|]. pose proof (nonzeros_bounds t) as HB. unfold size in HB. destruct (Req_EM_T (B2R x) 0) as [E|E]; split; intro HH.
  - lia.
  - inversion HH; subst. contradiction.
  - constructor; [exact E|apply IH; lia].
  - inversion HH as [|? ? ? H3]; subst. apply IH in H3. lia.
Qed.

(** k of n: the density *)
Section KN.
Variables k n : Z.
Hypothesis Hk : (0 <= k <= n)%Z.
Hypothesis Hn : (0 < n < 2 ^ 53)%Z.
Let K := IZR k.
Let N := IZR n.
Lemma KN : 0 <= K <= N /\ 1 <= N <= 9007199254740991.
Proof.
  unfold K, N. destruct Hk as [A B]. destruct Hn as [C D]. apply IZR_le in A, B. assert (1 <= n <= 9007199254740991)%Z as [E F] by (change (2 ^ 53)%Z with 9007199254740992%Z in D; lia). apply IZR_le in E, F. cbn in *. lra.
Qed.
Lemma q_bounds : 0 <= K / N <= 1.
Proof. destruct KN as [[A B] [C D]]. split; [unfold Rdiv; apply Rmult_le_pos; [lra|apply Rlt_le, Rinv_0_lt_compat; lra]|]. apply Rmult_le_reg_r with N; [lra|]. replace (K / N * N) with K by (field; lra). lra. Qed.

Lemma q_pos : (0 < k)%Z -> / 9007199254740992 <= K / N.
Proof.
  intro H. assert (1 <= k)%Z as H1 by lia. apply IZR_le in H1. fold K in H1. destruct KN as [[A B] [C D]]. apply Rle_trans with (/ N); [apply Rinv_le; lra|]. unfold Rdiv. rewrite <- (Rmult_1_l (/ N)) at 1. apply Rmult_le_compat_r; [|exact H1]. apply Rlt_le, Rinv_0_lt_compat. lra.
Qed.
Lemma q_one : (k < n)%Z -> K / N <= 1 - / 9007199254740992.
Proof.
  intro H. assert (k + 1 <= n)%Z as H1 by lia. apply IZR_le in H1. rewrite plus_IZR in H1. fold K N in H1. destruct KN as [[A B] [C D]].
  apply Rmult_le_reg_r with N; [lra|]. replace (K / N * N) with K by (field; lra). apply Rle_trans with (N - 1); [cbn in H1; lra|]. rewrite Rmult_minus_distr_r, Rmult_1_l.
  assert (/ 9007199254740992 * N <= 1) by lra. lra.
Qed.

Lemma d_bounds : 0 <= fl (K / N) <= 1.
Proof.
  destruct q_bounds. split; [rewrite <- (fl_id 0) by (apply (fmt_int 0); reflexivity)|rewrite <- (fl_id 1) by (apply (fmt_int 1); reflexivity)]; now apply fl_le.
Qed.
Lemma d_pos : (0 < k)%Z -> / 9007199254740992 <= fl (K / N).
Proof.
  intro H. rewrite <- (fl_id (/ 9007199254740992)).
  - apply fl_le. now apply q_pos.
  - replace (/ 9007199254740992) with (IZR 1 * bpow radix2 (-53)); [apply fmt_small; [reflexivity|discriminate]|]. change (-53)%Z with (Z.opp 53). rewrite bpow_opp, p53_1. lra.
Qed.
Lemma d_one : (k < n)%Z -> fl (K / N) <= 1 - / 9007199254740992.
Proof.
  intro H. rewrite <- (fl_id (1 - / 9007199254740992)).
  - apply fl_le. now apply q_one.
  - replace (1 - / 9007199254740992) with (IZR 9007199254740991 * bpow radix2 (-53)); [apply fmt_small; [reflexivity|discriminate]|]. change (-53)%Z with (Z.opp 53). rewrite bpow_opp, p53_1. lra.
Qed.

Lemma c_bounds : 0 <= fl (N * fl (K / N)) <= N.
Proof.
  destruct d_bounds as [A B]. destruct KN as [_ [C D]]. assert (EN : fl N = N) by (apply fl_id, fmt_int; rewrite Z.abs_eq; lia). assert (E0 : fl 0 = 0) by (apply fl_id, (fmt_int 0); reflexivity). split.
  - rewrite <- E0 at 1. apply fl_le. nra.
  - apply Rle_trans with (fl N); [apply fl_le; nra|lra].
Qed.
(** two roundings *)
Lemma c_rel : exists e1 e2, Rabs e1 <= u /\ Rabs e2 <= u /\ fl (N * fl (K / N)) = K * (1 + e1) * (1 + e2).
Proof.
  destruct KN as [[A B] [C D]]. destruct (Z.eq_dec k 0) as [E0|E0].
  - assert (EK : K = 0) by (unfold K; now rewrite E0). exists 0, 0. rewrite Rabs_R0. assert (0 <= u) by (unfold u; lra). repeat split; try lra. rewrite EK. unfold Rdiv. rewrite Rmult_0_l, (fl_id 0), Rmult_0_r, (fl_id 0) by (apply (fmt_int 0); reflexivity). ring.
  - assert (Hk' : (0 < k)%Z) by lia. assert (HK1 : 1 <= K). { assert (1 <= k)%Z as H1 by lia. apply IZR_le in H1. exact H1. }
    destruct (fl_rel (K / N) (q_pos Hk')) as (e1 & He1 & E1).
    assert (HE : N * fl (K / N) = K * (1 + e1)) by (rewrite E1; field; lra).
    assert (-u <= e1 <= u) as [L1 L2] by (apply Rabs_le_inv; exact He1).
    destruct (fl_rel (N * fl (K / N))) as (e2 & He2 & E2).
    + rewrite HE. unfold u in *. nra.
    + exists e1, e2. repeat split; [exact He1|exact He2|]. rewrite E2, HE. reflexivity.
Qed.
End KN.

(* ------------------------------------------------------------------ density and count of a tensor *)
Lemma Btrunc_Z : forall x : f64, Btrunc x = Ztrunc (B2R x).
Proof.
  intro x. apply eq_IZR. rewrite (Btrunc_correct 53 1024 e1024). unfold round, scaled_mantissa, cexp, FIX_exp, F2R. cbn. rewrite !Rmult_1_r. reflexivity.
Qed.

Lemma trunc_near : forall k c, (0 <= k)%Z -> 0 <= c -> IZR k - 1 < c < IZR k + 1 -> Ztrunc c = k \/ Ztrunc c = (k - 1)%Z.
Proof.
  intros k c Hk H0 [H1 H2]. rewrite Ztrunc_floor by exact H0. pose proof (Zfloor_lb c). pose proof (Zfloor_ub c).
  assert (A : (Zfloor c < k + 1)%Z) by (apply lt_IZR; rewrite plus_IZR; lra). assert (B : (k - 1 < Zfloor c + 1)%Z) by (apply lt_IZR; rewrite plus_IZR, minus_IZR; lra). lia.
Qed.

Section T.
Variable t : list f32.
Hypothesis Hnum : numbers t.
Hypothesis Hsz : (0 < size t < 2 ^ 53)%Z.
Let k := nonzeros t.
Let n := size t.
Let K := IZR k.
Let N := IZR n.

Lemma density_ok : exists d, density t = Ok d /\ is_finite d = true /\ B2R d = fl (K / N).
Proof.
  unfold density. change (numel t) with n. rewrite (nnz_ok t Hnum). fold k.
  pose proof (nonzeros_bounds t) as HB. fold k n in HB. fold n in Hsz.
  destruct (Z.eqb_spec n 0) as [E|_]; [lia|].
  destruct (of_int_ok k ltac:(lia)) as [Ek Fk]. destruct (of_int_ok n ltac:(lia)) as [En Fn].
  destruct (KN k n HB Hsz) as [[A B] [C D]].
  destruct (fdiv_ok (of_int k) (of_int n) Fk) as [E1 F1]; [rewrite En; lra|rewrite Ek, En; pose proof (q_bounds k n HB Hsz); lra|].
  eexists. split; [reflexivity|]. split; [exact F1|]. now rewrite E1, Ek, En.
Qed.

Lemma density_zero : forall d, density t = Ok d -> (B2R d = 0 <-> k = 0%Z) /\ (B2R d = 1 <-> k = n) /\ 0 <= B2R d <= 1 /\ is_finite d = true.
Proof.
  intros d Hd. destruct density_ok as (d' & E & F & B). rewrite Hd in E. injection E as <-. rewrite B.
  pose proof (nonzeros_bounds t) as HB. fold k n in HB. fold n in Hsz. pose proof (d_bounds k n HB Hsz) as HD. repeat split; try assumption; try apply HD.
  - intro H. destruct (Z.eq_dec k 0) as [|Nk]; [assumption|]. pose proof (d_pos k n HB Hsz ltac:(lia)) as HP. unfold K, N in H. lra.
  - intros E. unfold K. rewrite E. unfold Rdiv. rewrite Rmult_0_l. apply fl_id, (fmt_int 0). reflexivity.
  - intro H. destruct (Z.eq_dec k n) as [|Nk]; [assumption|]. pose proof (d_one k n HB Hsz ltac:(lia)) as HP. unfold K, N in H. lra.
  - intros E. unfold K. rewrite E. destruct (KN k n HB Hsz) as [_ [C D]]. fold N. replace (N / N) with 1 by (unfold N; field; lra). apply fl_id, (fmt_int 1). reflexivity.
Qed.

Lemma sparsity_ok : forall s, sparsity t = Ok s -> (B2R s = 1 <-> k = 0%Z) /\ (B2R s = 0 <-> k = n) /\ 0 <= B2R s <= 1.
Proof.
  intros s Hs. unfold sparsity in Hs. destruct density_ok as (d & E & F & B). rewrite E in Hs. cbn [bind] in Hs. assert (Es : s = fsub (of_int 1) d) by congruence. clear Hs. subst s.
  pose proof (nonzeros_bounds t) as HB. fold k n in HB. pose proof Hsz as Hsz'. fold n in Hsz'. pose proof (d_bounds k n HB Hsz') as HD. fold K N in HD. rewrite <- B in HD.
  destruct (of_int_ok 1 ltac:(cbn; lia)) as [E1 F1].
  destruct (fsub_ok (of_int 1) d F1 F) as [ES _]; [rewrite E1; cbn; lra|]. rewrite E1 in ES. rewrite ES. cbn [IZR] in *.
  assert (f0 : fl 0 = 0) by (apply fl_id, (fmt_int 0); reflexivity). assert (f1 : fl 1 = 1) by (apply fl_id, (fmt_int 1); reflexivity).
  assert (fm : fl (1 - / 9007199254740992) = 1 - / 9007199254740992).
  { apply fl_id. replace (1 - / 9007199254740992) with (IZR 9007199254740991 * bpow radix2 (-53)); [apply fmt_small; [reflexivity|discriminate]|]. change (-53)%Z with (Z.opp 53). rewrite bpow_opp, p53_1. lra. }
  assert (fe : fl (/ 9007199254740992) = / 9007199254740992).
  { apply fl_id. replace (/ 9007199254740992) with (IZR 1 * bpow radix2 (-53)); [apply fmt_small; [reflexivity|discriminate]|]. change (-53)%Z with (Z.opp 53). rewrite bpow_opp, p53_1. lra. }
  assert (e53 : 0 < / 9007199254740992 < 1) by lra.
  destruct (density_zero d E) as (Z0 & Z1 & _).
  repeat split.
  - intro H. apply Z0. destruct (Z.eq_dec k 0) as [Ez|Nk]; [now apply Z0|]. exfalso. pose proof (d_pos k n HB Hsz' ltac:(lia)) as HP. fold K N in HP. rewrite <- B in HP.
    assert (fl (1 - B2R d) <= fl (1 - / 9007199254740992)) by (apply fl_le; lra). lra.
  - intro H. apply Z0 in H. rewrite H. replace (1 - 0) with 1 by ring. exact f1.
  - intro H. apply Z1. destruct (Z.eq_dec k n) as [Ez|Nk]; [now apply Z1|]. exfalso. pose proof (d_one k n HB Hsz' ltac:(lia)) as HP. fold K N in HP. rewrite <- B in HP.
    assert (fl (/ 9007199254740992) <= fl (1 - B2R d)) by (apply fl_le; lra). lra.
  - intro H. apply Z1 in H. rewrite H. replace (1 - 1) with 0 by ring. exact f0.
  - rewrite <- f0 at 1. apply fl_le. lra.
  - rewrite <- f1. apply fl_le. lra.
Qed.

Lemma shown_ok : (n < 2 ^ 51)%Z -> exists z, shown t = Ok z /\ (z = k \/ z = (k - 1)%Z) /\ (k = 0%Z -> z = k) /\ (k = n -> z = k).
Proof.
  intro H51. unfold shown. destruct density_ok as (d & E & F & B). rewrite E. cbn [bind]. eexists. split; [reflexivity|].
  pose proof (nonzeros_bounds t) as HB. fold k n in HB. pose proof Hsz as Hsz'. fold n in Hsz'. pose proof (d_bounds k n HB Hsz') as HD. fold K N in HD.
  destruct (KN k n HB Hsz') as [[A0 B0] [C0 D0]]. fold K N in A0, B0, C0, D0.
  destruct (of_int_ok n ltac:(lia)) as [En Fn]. fold N in En.
  destruct (fmul_ok d (of_int n) F Fn) as [EM _]; [rewrite B, En; nra|]. change (numel t) with n. rewrite Btrunc_Z, EM, B, En, (Rmult_comm _ N).
  pose proof (c_bounds k n HB Hsz') as HC. fold K N in HC. repeat split.
  - destruct (c_rel k n HB Hsz') as (e1 & e2 & H1 & H2 & EC). fold K N in EC. apply trunc_near; [lia|lra|]. rewrite EC. fold K.
    assert (HK : 0 <= K < 2251799813685248). { assert (k < 2251799813685248)%Z as HH by (change (2 ^ 51)%Z with 2251799813685248%Z in H51; lia). apply IZR_lt in HH. fold K in HH. lra. }
    apply Rabs_le_inv in H1, H2. unfold u in *. set (v := (1 + e1) * (1 + e2)). assert (Hv : 1 - / 3000000000000000 <= v <= 1 + / 3000000000000000) by (unfold v; split; nra).
    replace (K * (1 + e1) * (1 + e2)) with (K * v) by (unfold v; ring). nra.
  - intro Ek. assert (EK : K = 0) by (unfold K; now rewrite Ek). rewrite Ek. assert (f0 : fl 0 = 0) by (apply fl_id, (fmt_int 0); reflexivity). rewrite EK. unfold Rdiv. rewrite Rmult_0_l, f0, Rmult_0_r, f0. apply (Ztrunc_IZR 0).
  - intro Ek. assert (EK : K = N) by (unfold K, N; now rewrite Ek). rewrite EK. replace (N / N) with 1 by (field; lra). rewrite (fl_id 1) by (apply (fmt_int 1); reflexivity). rewrite Rmult_1_r, fl_id by (apply fmt_int; rewrite Z.abs_eq; lia). unfold N. rewrite Ztrunc_IZR. now symmetry.
Qed.
End T.

(* ------------------------------------------------------------------ totals *)
Lemma u_pos : 0 < u < 1. Proof. unfold u. lra. Qed.

Lemma pow_up : forall M, INR M * u <= / 2 -> (1 + u) ^ M <= 1 + 2 * INR M * u.
Proof.
  induction M as [|M IH]; intro H; [cbn; lra|]. rewrite S_INR in *. pose proof u_pos. assert (0 <= INR M) by apply pos_INR. specialize (IH ltac:(nra)). cbn [pow].
  apply Rle_trans with ((1 + u) * (1 + 2 * INR M * u)); [apply Rmult_le_compat_l; lra|]. nra.
Qed.
Lemma pow_down : forall M, 1 - INR M * u <= (1 - u) ^ M.
Proof.
  induction M as [|M IH]; [cbn; lra|]. rewrite S_INR. pose proof u_pos. assert (0 <= INR M) by apply pos_INR. cbn [pow].
  apply Rle_trans with ((1 - u) * (1 - INR M * u)); [nra|]. apply Rmult_le_compat_l; lra.
Qed.
Lemma pow_one : forall M, 0 <= (1 - u) ^ M <= 1 /\ 1 <= (1 + u) ^ M.
Proof.
  induction M as [|M [IH1 IH2]]; cbn [pow]; [lra|]. pose proof u_pos. split; nra.
Qed.

Lemma lowR : forall X p s e, 0 <= X -> 0 <= p -> X * p <= s -> - u <= e -> X * ((1 - u) * p) <= s * (1 + e).
Proof.
  intros X p s e HX Hp HS He. pose proof u_pos. assert (0 <= X * p) by (apply Rmult_le_pos; assumption).
  replace (X * ((1 - u) * p)) with ((X * p) * (1 - u)) by ring. apply Rmult_le_compat; lra.
Qed.
Lemma upR : forall X p s e, 0 <= s -> s <= X * p -> e <= u -> s * (1 + e) <= X * ((1 + u) * p).
Proof.
  intros X p s e Hs HS He. pose proof u_pos. replace (X * ((1 + u) * p)) with ((X * p) * (1 + u)) by ring. apply Rle_trans with (s * (1 + u)); [apply Rmult_le_compat_l; lra|apply Rmult_le_compat_r; lra].
Qed.
Lemma lowC : forall K p e1 e2, 0 <= K -> 0 <= p <= 1 -> - u <= e1 -> - u <= e2 -> K * (p * ((1 - u) * (1 - u))) <= K * (1 + e1) * (1 + e2).
Proof.
  intros K p e1 e2 HK Hp H1 H2. pose proof u_pos. rewrite Rmult_assoc. apply Rmult_le_compat_l; [exact HK|]. 
  assert (A : (1 - u) * (1 - u) <= (1 + e1) * (1 + e2)) by (apply Rmult_le_compat; lra). assert (B : 0 <= (1 - u) * (1 - u)) by (apply Rmult_le_pos; lra).
  apply Rle_trans with (1 * ((1 - u) * (1 - u))); [apply Rmult_le_compat_r; lra|lra].
Qed.
Lemma upC : forall K p e1 e2, 0 <= K -> 1 <= p -> - u <= e1 <= u -> - u <= e2 <= u -> K * (1 + e1) * (1 + e2) <= K * (p * ((1 + u) * (1 + u))).
Proof.
  intros K p e1 e2 HK Hp H1 H2. pose proof u_pos. rewrite Rmult_assoc. apply Rmult_le_compat_l; [exact HK|]. 
  assert (A : (1 + e1) * (1 + e2) <= (1 + u) * (1 + u)) by (apply Rmult_le_compat; lra). assert (B : 0 <= (1 + u) * (1 + u)) by (apply Rmult_le_pos; lra).
  apply Rle_trans with (1 * ((1 + u) * (1 + u))); [lra|apply Rmult_le_compat_r; lra].
Qed.
Lemma halfC : forall K e1 e2, 1 <= K -> - u <= e1 -> - u <= e2 -> / 2 <= K * (1 + e1) * (1 + e2).
Proof.
  intros K e1 e2 HK H1 H2. rewrite Rmult_assoc. assert (A : (1 - u) * (1 - u) <= (1 + e1) * (1 + e2)) by (pose proof u_pos; apply Rmult_le_compat; lra).
  assert (B : / 2 <= (1 - u) * (1 - u)) by (unfold u; lra). apply Rle_trans with (1 * ((1 + e1) * (1 + e2))); [lra|]. apply Rmult_le_compat_r; lra.
Qed.

Definition fine (t : list f32) : Prop := numbers t /\ (0 < size t)%Z.

Lemma total_bounds : forall ps, (0 <= total nonzeros ps <= total size ps)%Z.
Proof. induction ps as [|t ps IH]; cbn [total]; [lia|]. pose proof (nonzeros_bounds t). lia. Qed.
Lemma total_snoc : forall f ps t, total f (ps ++ [t]) = (total f ps + f t)%Z.
Proof. intros f ps t. induction ps as [|x ps IH]; cbn [total app]; [lia|]. rewrite IH. lia. Qed.

(** what the loop over the parameters holds *)
Definition inv (ps : list (list f32)) (acc : Z * f64) : Prop :=
  fst acc = total size ps /\ is_finite (snd acc) = true /\ 0 <= B2R (snd acc) <= IZR (total size ps) /\
  (B2R (snd acc) = 0 \/ / 2 <= B2R (snd acc)) /\
  IZR (total nonzeros ps) * (1 - u) ^ (length ps + 2) <= B2R (snd acc) <= IZR (total nonzeros ps) * (1 + u) ^ (length ps + 2) /\
  (total nonzeros ps = total size ps -> B2R (snd acc) = IZR (total size ps)).

Lemma inv_nil : inv [] (0%Z, of_int 0).
Proof.
  destruct (of_int_ok 0 ltac:(lia)) as [E F]. repeat split; cbn [fst snd total]; auto; try rewrite E; cbn; lra.
Qed.

Lemma fl_half : fl (/ 2) = / 2.
Proof. apply fl_id. replace (/ 2) with (IZR 1 * bpow radix2 (-1)) by (cbn; lra). apply fmt_small; [reflexivity|discriminate]. Qed.

Lemma inv_step : forall ps acc t, inv ps acc -> fine t -> (total size (ps ++ [t]) < 2 ^ 53)%Z -> exists acc', add_param acc t = Ok acc' /\ inv (ps ++ [t]) acc'.
Proof.
  intros ps [P s] t (I1 & I2 & I3 & I4 & I5 & I6) [Hnum Hsz] HT. cbn [fst snd] in *. pose proof (total_bounds ps) as TB.
  rewrite total_snoc in HT. assert (Hsz' : (0 < size t < 2 ^ 53)%Z) by lia. pose proof (nonzeros_bounds t) as HB.
  destruct (density_ok t Hnum Hsz') as (d & E & F & B). unfold add_param. rewrite E. cbn [bind fst snd]. eexists. split; [reflexivity|].
  pose proof (d_bounds _ _ HB Hsz') as HD. destruct (KN _ _ HB Hsz') as [[A0 B0] [C0 D0]].
  destruct (of_int_ok (size t) ltac:(lia)) as [En Fn].
  destruct (fmul_ok (of_int (size t)) d Fn F) as [EM FM]; [rewrite B, En; nra|]. rewrite B, En in EM. change (numel t) with (size t).
  set (c := fmul (of_int (size t)) d) in *. pose proof (c_bounds _ _ HB Hsz') as HC. rewrite <- EM in HC.
  set (K := IZR (nonzeros t)) in *. set (N := IZR (size t)) in *.
  assert (HS : B2R s + B2R c <= 9007199254740991).
  { apply Rle_trans with (IZR (total size ps + size t)); [rewrite plus_IZR; fold N; lra|]. apply (IZR_le _ 9007199254740991). change (2 ^ 53)%Z with 9007199254740992%Z in HT. lia. }
  destruct (fadd_ok s c I2 FM) as [ES FS]; [lra|].
  assert (HU : B2R (fadd s c) <= IZR (total size (ps ++ [t]))).
  { rewrite ES, total_snoc, <- (fl_id (IZR (total size ps + size t))) by (apply fmt_int; rewrite Z.abs_eq; lia). apply fl_le. rewrite plus_IZR. fold N. lra. }
  assert (HL : 0 <= B2R (fadd s c)). { rewrite ES. rewrite <- (fl_id 0) by (apply (fmt_int 0); reflexivity). apply fl_le. lra. }
  assert (Hc : B2R c = 0 /\ K = 0 \/ / 2 <= B2R c).
  { destruct (Z.eq_dec (nonzeros t) 0) as [Ez|Nz].
    - left. assert (EK : K = 0) by (unfold K; now rewrite Ez). split; [|exact EK]. rewrite EM, EK. unfold Rdiv. rewrite Rmult_0_l, (fl_id 0), Rmult_0_r, (fl_id 0) by (apply (fmt_int 0); reflexivity). reflexivity.
    - right. destruct (c_rel _ _ HB Hsz') as (e1 & e2 & H1 & H2 & EC). fold K N in EC. rewrite EM, EC. apply Rabs_le_inv in H1, H2. assert (HK : 1 <= K). { assert (1 <= nonzeros t)%Z as HH by lia. apply IZR_le in HH. exact HH. }
      apply halfC; lra. }
  unfold inv. cbn [fst snd]. repeat split; auto.
  - rewrite I1, total_snoc. reflexivity.
  - destruct I4 as [I4|I4]; destruct Hc as [[Hc _]|Hc].
    + left. rewrite ES, I4, Hc, Rplus_0_l. apply fl_id, (fmt_int 0). reflexivity.
    + right. rewrite ES, <- fl_half. apply fl_le. lra.
    + right. rewrite ES, <- fl_half. apply fl_le. lra.
    + right. rewrite ES, <- fl_half. apply fl_le. lra.
  - rewrite app_length, total_snoc, plus_IZR. cbn [length]. fold K. replace (length ps + 1 + 2)%nat with (S (length ps + 2)) by lia.
    destruct (pow_one (length ps)) as [PA PB]. destruct (pow_one (length ps + 2)) as [PA2 PB2]. pose proof u_pos as Hu.
    assert (HcL : K * (1 - u) ^ (length ps + 2) <= B2R c).
    { destruct (c_rel _ _ HB Hsz') as (e1 & e2 & H1 & H2 & EC). fold K N in EC. rewrite EM, EC. apply Rabs_le_inv in H1, H2. rewrite pow_add; cbn [pow]; rewrite Rmult_1_r.
      apply lowC; lra. }
    assert (HSL : (IZR (total nonzeros ps) + K) * (1 - u) ^ (length ps + 2) <= B2R s + B2R c) by (rewrite Rmult_plus_distr_r; lra).
    cbn [pow]. assert (0 <= IZR (total nonzeros ps)) by (apply (IZR_le 0); lia).
    destruct I4 as [I4|I4]; destruct Hc as [[Hc HK0]|Hc]; try (destruct (fl_rel (B2R s + B2R c) ltac:(lra)) as (e & He & Ee); apply Rabs_le_inv in He; rewrite ES, Ee; apply lowR; lra).
    rewrite ES, I4, Hc, Rplus_0_l, fl_id by (apply (fmt_int 0); reflexivity). replace 0 with (0 * (1 + 0)) by ring. apply lowR; lra.
  - rewrite app_length, total_snoc, plus_IZR. cbn [length]. fold K. replace (length ps + 1 + 2)%nat with (S (length ps + 2)) by lia.
    destruct (pow_one (length ps)) as [PA PB]. destruct (pow_one (length ps + 2)) as [PA2 PB2]. pose proof u_pos as Hu.
    assert (HcL : B2R c <= K * (1 + u) ^ (length ps + 2)).
    { destruct (c_rel _ _ HB Hsz') as (e1 & e2 & H1 & H2 & EC). fold K N in EC. rewrite EM, EC. apply Rabs_le_inv in H1, H2. rewrite pow_add; cbn [pow]; rewrite Rmult_1_r.
      apply upC; lra. }
    assert (HSL : B2R s + B2R c <= (IZR (total nonzeros ps) + K) * (1 + u) ^ (length ps + 2)) by (rewrite Rmult_plus_distr_r; lra).
    cbn [pow]. assert (0 <= IZR (total nonzeros ps)) by (apply (IZR_le 0); lia).
    destruct I4 as [I4|I4]; destruct Hc as [[Hc HK0]|Hc]; try (destruct (fl_rel (B2R s + B2R c) ltac:(lra)) as (e & He & Ee); apply Rabs_le_inv in He; rewrite ES, Ee; apply upR; lra).
    rewrite ES, I4, Hc, Rplus_0_l, fl_id by (apply (fmt_int 0); reflexivity). rewrite <- (Rmult_0_l (1 + 0)). apply upR; lra.
  - intro Heq. rewrite !total_snoc in *. assert (E1 : total nonzeros ps = total size ps) by lia. assert (E2 : nonzeros t = size t) by lia.
    rewrite ES, (I6 E1), EM. unfold K, N. rewrite E2. fold N. replace (N / N) with 1 by (field; lra). rewrite (fl_id 1) by (apply (fmt_int 1); reflexivity). rewrite Rmult_1_r. unfold N. rewrite (fl_id (IZR (size t))) by (apply fmt_int; rewrite Z.abs_eq; lia).
    rewrite <- plus_IZR. apply fl_id, fmt_int. rewrite Z.abs_eq; lia.
Qed.

Lemma total_le : forall ps qs, (total size ps <= total size (ps ++ qs))%Z.
Proof. intros ps qs. induction ps as [|x ps IH]; cbn [app total]; [|lia]. pose proof (total_bounds qs). lia. Qed.

Lemma loop_inv : forall qs ps acc, inv ps acc -> Forall fine qs -> (total size (ps ++ qs) < 2 ^ 53)%Z -> exists acc', foldM add_param qs acc = Ok acc' /\ inv (ps ++ qs) acc'.
Proof.
  induction qs as [|t qs IH]; intros ps acc HI HF HT.
  - exists acc. rewrite app_nil_r. now split.
  - inversion HF as [|? ? Ht HF']; subst. assert (EA : ps ++ t :: qs = (ps ++ [t]) ++ qs) by (now rewrite <- app_assoc). rewrite EA in *. clear EA.
    destruct (inv_step ps acc t HI Ht) as (a1 & E1 & I1); [eapply Z.le_lt_trans; [apply (total_le (ps ++ [t]) qs)|exact HT]|].
    cbn [foldM]. rewrite E1. cbn [bind]. now apply IH.
Qed.


Lemma fl_err : forall e x, (-1074 + 53 < e)%Z -> Rabs x < bpow radix2 e -> Rabs (fl x - x) <= / 2 * bpow radix2 (e - 53).
Proof.
  intros e x He Hx. unfold fl. cbn [round_mode]. eapply Rle_trans; [apply error_le_half_ulp; exact vexp|]. apply Rmult_le_compat_l; [lra|].
  destruct (Req_dec x 0) as [->|Nx].
  - change (ulp radix2 fexp 0) with (ulp radix2 (FLT_exp (-1074) 53) 0). rewrite ulp_FLT_0 by reflexivity. apply bpow_le. lia.
  - rewrite ulp_neq_0 by exact Nx. apply bpow_le. unfold cexp. assert (M : (mag radix2 x <= e)%Z) by (apply mag_le_bpow; assumption).
    unfold SpecFloat.fexp, SpecFloat.emin. lia.
Qed.
Lemma fl_err1 : forall x, 0 <= x <= 1 -> Rabs (fl x - x) <= u.
Proof.
  intros x [H0 H1]. destruct (Req_dec x 1) as [->|N]; [rewrite fl_id by (apply (fmt_int 1); reflexivity); rewrite Rminus_diag_eq, Rabs_R0 by reflexivity; unfold u; lra|].
  apply Rle_trans with (/ 2 * bpow radix2 (0 - 53)); [apply fl_err; [reflexivity|rewrite Rabs_right by lra; cbn; lra]|]. change (0 - 53)%Z with (Z.opp 53). rewrite bpow_opp, p53_1. unfold u. lra.
Qed.
Lemma fl_err100 : forall x, 0 <= x <= 100 -> Rabs (fl x - x) <= 64 * u.
Proof.
  intros x [H0 H1]. 
  apply Rle_trans with (/ 2 * bpow radix2 (7 - 53)); [apply fl_err; [reflexivity|rewrite Rabs_right by lra; cbn; lra]|]. change (7 - 53)%Z with (Z.opp 46). rewrite bpow_opp. change (bpow radix2 46) with 70368744177664. unfold u. lra.
Qed.

Lemma fl_unit : forall x, 0 <= x <= 1 -> 0 <= fl x <= 1.
Proof.
  intros x H. split.
  - apply Rle_trans with (fl 0); [rewrite fl_id by (apply (fmt_int 0); reflexivity); lra|apply fl_le; lra].
  - apply Rle_trans with (fl 1); [apply fl_le; lra|rewrite fl_id by (apply (fmt_int 1); reflexivity); lra].
Qed.

Section Total.
Variable ps : list (list f32).
Hypothesis Hps : Forall fine ps.
Hypothesis Hne : ps <> [].
Hypothesis HP : (total size ps < 2 ^ 53)%Z.
Let K := IZR (total nonzeros ps).
Let P := IZR (total size ps).
Let M := (length ps + 2)%nat.

Lemma P_pos : (0 < total size ps)%Z.
Proof. destruct Hps as [|t l [_ H] _]; [congruence|]. cbn [total]. pose proof (total_bounds l). lia. Qed.

Lemma stats_ok : exists sp S, model_params_stats ps = Ok (sp, total size ps, S) /\ is_finite sp = true /\ is_finite S = true /\
  B2R sp = fl (fl (1 - fl (B2R S / P)) * 100) /\ 0 <= B2R S <= P /\ (B2R S = 0 \/ / 2 <= B2R S) /\
  K * (1 - u) ^ M <= B2R S <= K * (1 + u) ^ M /\ (K = P -> B2R S = P).
Proof.
  destruct (loop_inv ps [] _ inv_nil Hps) as ([Pz S] & E & I1 & I2 & I3 & I4 & I5 & I6); [exact HP|]. cbn [app fst snd] in I1, I2, I3, I4, I5, I6. fold P in I3. fold K M in I5. subst Pz.
  unfold model_params_stats. rewrite E. cbn [bind fst snd]. pose proof P_pos as PP. destruct (Z.eqb_spec (total size ps) 0) as [E0|_]; [lia|].
  assert (P1 : 1 <= P <= 9007199254740991). { split; [apply (IZR_le 1); lia|]. apply (IZR_le _ 9007199254740991). change (2 ^ 53)%Z with 9007199254740992%Z in HP. lia. }
  assert (f0 : fl 0 = 0) by (apply fl_id, (fmt_int 0); reflexivity). assert (f1 : fl 1 = 1) by (apply fl_id, (fmt_int 1); reflexivity).
  destruct (of_int_ok (total size ps) ltac:(lia)) as [En Fn]. fold P in En. destruct (of_int_ok 1 ltac:(cbn; lia)) as [E1 F1]. destruct (of_int_ok 100 ltac:(cbn; lia)) as [E2 F2].
  assert (Q : 0 <= B2R S / P <= 1). { split; [unfold Rdiv; apply Rmult_le_pos; [lra|apply Rlt_le, Rinv_0_lt_compat; lra]|]. apply Rmult_le_reg_r with P; [lra|]. replace (B2R S / P * P) with (B2R S) by (field; lra). lra. }
  destruct (fdiv_ok S (of_int (total size ps)) I2) as [ED FD]; [rewrite En; lra|rewrite En; lra|]. rewrite En in ED.
  assert (QD : 0 <= fl (B2R S / P) <= 1) by (apply fl_unit; lra).
  destruct (fsub_ok (of_int 1) _ F1 FD) as [ES FS]; [rewrite ED, E1; lra|]. rewrite ED, E1 in ES.
  assert (QS : 0 <= fl (1 - fl (B2R S / P)) <= 1) by (apply fl_unit; lra).
  destruct (fmul_ok _ (of_int 100) FS F2) as [EM FM]; [rewrite ES, E2; lra|]. rewrite ES, E2 in EM.
  do 2 eexists. split; [reflexivity|]. split; [exact FM|]. split; [exact I2|]. split; [exact EM|]. repeat split; try lra. 
  intro HK. apply I6. now apply eq_IZR.
Qed.

Lemma stats_facts : forall sp S, model_params_stats ps = Ok (sp, total size ps, S) -> INR M * u <= / 2 ->
  0 <= B2R S <= P /\ Rabs (B2R S - K) <= 2 * INR M * u * K /\ 0 <= B2R sp <= 100 /\
  Rabs (B2R sp - 100 * (1 - K / P)) <= 200 * (INR M + 2) * u /\
  (K = 0 -> B2R sp = 100) /\ (K = P -> B2R sp = 0) /\
  (4 * INR M * P < 9007199254740992 -> (B2R sp = 100 -> K = 0) /\ (B2R sp = 0 -> K = P)).
Proof.
  intros sp S HE HM. destruct stats_ok as (sp' & S' & E & F1 & F2 & Es & B & H & L & HK). rewrite HE in E. assert (sp' = sp) by congruence. assert (S' = S) by congruence. clear E. subst sp' S'.
  set (s := B2R S) in *. pose proof P_pos as PP. pose proof (total_bounds ps) as TB.
  assert (P1 : 1 <= P <= 9007199254740991). { split; [apply (IZR_le 1); lia|]. apply (IZR_le _ 9007199254740991). change (2 ^ 53)%Z with 9007199254740992%Z in HP. lia. }
  assert (KB : 0 <= K <= P) by (split; [apply (IZR_le 0); lia|apply IZR_le; lia]).
  assert (f0 : fl 0 = 0) by (apply fl_id, (fmt_int 0); reflexivity). assert (f1 : fl 1 = 1) by (apply fl_id, (fmt_int 1); reflexivity).
  pose proof (pow_up M HM) as PU. pose proof (pow_down M) as PD. assert (M0 : 0 <= INR M) by apply pos_INR. pose proof u_pos as U.
  assert (Hs : Rabs (s - K) <= 2 * INR M * u * K).
  { assert (A : K * (1 - INR M * u) <= s) by (apply Rle_trans with (K * (1 - u) ^ M); [apply Rmult_le_compat_l; lra|lra]).
    assert (A' : s <= K * (1 + 2 * INR M * u)) by (apply Rle_trans with (K * (1 + u) ^ M); [lra|apply Rmult_le_compat_l; lra]).
    assert (0 <= INR M * u * K) by (apply Rmult_le_pos; [apply Rmult_le_pos; lra|lra]). apply Rabs_le. split; lra. }
  set (q := s / P). assert (Eq : q * P = s) by (unfold q; field; lra). set (k := K / P). assert (Ek : k * P = K) by (unfold k; field; lra).
  assert (Q : 0 <= q <= 1). { split; [unfold q, Rdiv; apply Rmult_le_pos; [lra|apply Rlt_le, Rinv_0_lt_compat; lra]|]. apply Rmult_le_reg_r with P; lra. }
  assert (Kb : 0 <= k <= 1). { split; [unfold k, Rdiv; apply Rmult_le_pos; [lra|apply Rlt_le, Rinv_0_lt_compat; lra]|]. apply Rmult_le_reg_r with P; lra. }
  fold q in Es. set (d := fl q) in *. assert (D : 0 <= d <= 1) by (apply fl_unit; lra).
  set (z := fl (1 - d)) in *. assert (Zb : 0 <= z <= 1) by (apply fl_unit; lra).
  assert (R1 : Rabs (d - q) <= u) by (apply fl_err1; lra). assert (R2 : Rabs (z - (1 - d)) <= u) by (apply fl_err1; lra).
  assert (R3 : Rabs (B2R sp - z * 100) <= 64 * u) by (rewrite Es; apply fl_err100; lra).
  assert (R0 : Rabs (q - k) <= 2 * INR M * u).
  { apply Rmult_le_reg_r with P; [lra|]. rewrite <- (Rabs_right P) at 1 by lra. rewrite <- Rabs_mult, Rmult_minus_distr_r, Eq, Ek. eapply Rle_trans; [exact Hs|]. apply Rmult_le_compat_l; [|lra]. apply Rmult_le_pos; lra. }
  apply Rabs_le_inv in R0, R1, R2, R3. pose proof Hs as Hs'. apply Rabs_le_inv in Hs'.
  assert (SB : 0 <= B2R sp <= 100). { rewrite Es. assert (f100 : fl 100 = 100) by (apply fl_id, (fmt_int 100); reflexivity). split.
    - apply Rle_trans with (fl 0); [lra|apply fl_le; lra].
    - apply Rle_trans with (fl 100); [apply fl_le; lra|lra]. }
  split; [exact B|]. split; [exact Hs|]. split; [exact SB|]. split; [|split; [|split]].
  - apply Rabs_le. split; lra.
  - intro E0. assert (s0 : s = 0). { rewrite E0 in L. rewrite !Rmult_0_l in L. lra. } assert (q = 0) as Eq0 by (unfold q; rewrite s0; unfold Rdiv; ring).
    assert (d = 0) as Ed by (unfold d; rewrite Eq0; exact f0). rewrite Es. unfold z. rewrite Ed, Rminus_0_r, f1, Rmult_1_l. apply fl_id, (fmt_int 100). reflexivity.
  - intro E0. assert (s0 : s = P) by (now apply HK). assert (q = 1) as Eq0 by (unfold q; rewrite s0; field; lra).
    assert (d = 1) as Ed by (unfold d; rewrite Eq0; exact f1). rewrite Es. assert (Ez : z = 0) by (unfold z; rewrite Ed, Rminus_diag_eq by reflexivity; exact f0). rewrite Ez, Rmult_0_l. exact f0.
  - intro HB. assert (fm : fl (1 - u) = 1 - u).
    { apply fl_id. unfold u. replace (1 - / 9007199254740992) with (IZR 9007199254740991 * bpow radix2 (-53)); [apply fmt_small; [reflexivity|discriminate]|]. change (-53)%Z with (Z.opp 53). rewrite bpow_opp, p53_1. lra. }
    assert (fe : fl u = u).
    { apply fl_id. unfold u. replace (/ 9007199254740992) with (IZR 1 * bpow radix2 (-53)); [apply fmt_small; [reflexivity|discriminate]|]. change (-53)%Z with (Z.opp 53). rewrite bpow_opp, p53_1. lra. }
    assert (M2 : 2 <= INR M) by (unfold M; rewrite plus_INR; pose proof (pos_INR (length ps)); cbn; lra).
    assert (MPu : 2 * INR M * u * P < / 2).
    { replace (2 * INR M * u * P) with ((4 * INR M * P) * (u / 2)) by field. apply Rlt_le_trans with (9007199254740992 * (u / 2)); [apply Rmult_lt_compat_r; lra|unfold u; lra]. }
    assert (Pu : P * u < / 8). { assert (0 < P * u) by (apply Rmult_lt_0_compat; lra). assert (2 * (P * u) <= INR M * (P * u)) by (apply Rmult_le_compat_r; lra). lra. }
    split.
    + intro E100. destruct (Z.eq_dec (total nonzeros ps) 0) as [Ez|Nz]; [unfold K; now rewrite Ez|]. exfalso. assert (K1 : 1 <= K) by (apply (IZR_le 1); lia).
      assert (s2 : / 2 <= s). { destruct H as [H|H]; [|exact H]. assert (2 * INR M * u * K <= 2 * INR M * u * P) by (apply Rmult_le_compat_l; [apply Rmult_le_pos|]; lra). lra. }
      assert (qu : u <= q) by (apply Rmult_le_reg_r with P; lra). assert (du : u <= d) by (rewrite <- fe; now apply fl_le).
      assert (zu : z <= 1 - u) by (rewrite <- fm; apply fl_le; lra). lra.
    + intro E0. destruct (Z.eq_dec (total nonzeros ps) (total size ps)) as [Ez|Nz]; [unfold K, P; now rewrite Ez|]. exfalso.
      assert (K1 : K <= P - 1). { unfold K, P. rewrite <- minus_IZR. apply IZR_le. lia. }
      assert (2 * INR M * u * K <= 2 * INR M * u * P) by (apply Rmult_le_compat_l; [apply Rmult_le_pos|]; lra).
      assert (qu : q <= 1 - u) by (apply Rmult_le_reg_r with P; lra). assert (du : d <= 1 - u) by (rewrite <- fm; now apply fl_le).
      assert (zu : u <= z) by (rewrite <- fe; apply fl_le; lra). lra.
Qed.
End Total.
