(** C108: counting non-zero weights in floating point.

    Density and sparsity of a tensor are doubles; whether they are exactly 0 or 1 decides whether a layer is removed
    (thinning.py:566), and the counts derived from them are shown in the tables and rank the saved checkpoints. *)
From Coq Require Import String List ZArith Reals Bool Lia Lra.
From Flocq Require Import Core BinarySingleNaN.
From Verif Require Import Base CntModel CntSpec CntProofs.
Import ListNotations.
Open Scope list_scope.
Open Scope R_scope.

(** The density is a number between 0 and 1, exactly 0 only for a tensor of zeros, exactly 1 only for a tensor without zeros. *)
Theorem C108_density : forall t, numbers t -> (0 < size t < 2 ^ 53)%Z ->
  exists d, density t = Ok d /\ is_finite d = true /\ 0 <= B2R d <= 1 /\
    (B2R d = 0 <-> Forall (fun x : weight => B2R x = 0) t) /\ (B2R d = 1 <-> Forall (fun x : weight => B2R x <> 0) t) /\
    Rabs (B2R d - IZR (nonzeros t) / IZR (size t)) <= u.
Proof.
  intros t Hn Hs. destruct (density_ok t Hn Hs) as (d & E & F & B). exists d. destruct (density_zero t Hn Hs d E) as (A1 & A2 & A3 & A4).
  split; [exact E|]. split; [exact A4|]. split; [exact A3|]. split; [rewrite A1; apply nonzeros_zero|]. split; [rewrite A2; apply nonzeros_all|].
  rewrite B. apply fl_err1. apply q_bounds; [apply nonzeros_bounds|exact Hs].
Qed.

(** The same for the sparsity. *)
Theorem C108_sparsity : forall t, numbers t -> (0 < size t < 2 ^ 53)%Z ->
  exists s, sparsity t = Ok s /\ 0 <= B2R s <= 1 /\
    (B2R s = 1 <-> Forall (fun x : weight => B2R x = 0) t) /\ (B2R s = 0 <-> Forall (fun x : weight => B2R x <> 0) t).
Proof.
  intros t Hn Hs. destruct (density_ok t Hn Hs) as (d & E & _). assert (ES : sparsity t = Ok (fsub (of_int 1) d)) by (unfold sparsity; rewrite E; reflexivity).
  exists (fsub (of_int 1) d). destruct (sparsity_ok t Hn Hs _ ES) as (A1 & A2 & A3). split; [exact ES|]. split; [exact A3|].
  split; [rewrite A1; apply nonzeros_zero|rewrite A2; apply nonzeros_all].
Qed.

(** The count shown for a tensor of fewer than 2^51 weights is the number of its non-zero weights or one less; it is exact
    when no weight or every weight is zero. *)
Theorem C108_shown : forall t, numbers t -> (0 < size t < 2 ^ 51)%Z ->
  exists z, shown t = Ok z /\ (nonzeros t - 1 <= z <= nonzeros t)%Z /\
    (Forall (fun x : weight => B2R x = 0) t -> z = 0%Z) /\ (Forall (fun x : weight => B2R x <> 0) t -> z = size t).
Proof.
  intros t Hn Hs. assert (Hs' : (0 < size t < 2 ^ 53)%Z) by (split; [lia|]; apply Z.lt_trans with (2 ^ 51)%Z; [lia|reflexivity]).
  destruct (shown_ok t Hn Hs' ltac:(lia)) as (z & E & A & B & C). exists z. split; [exact E|]. split; [lia|]. split; intro H.
  - apply nonzeros_zero in H. rewrite (B H). exact H.
  - apply nonzeros_all in H. rewrite (C H). exact H.
Qed.

(** Totals over the parameters of a model: what is reported lies between 0 and the number of weights, resp. 0 and 100 percent;
    the relative error of the count is at most 2(m+2)u for m parameters; the reported sparsity is 100 for a model of zeros
    and 0 for a model without zeros and, unless the model is astronomically large, for no other. *)
Theorem C108_total : forall ps, ps <> [] -> Forall (fun t => numbers t /\ (0 < size t)%Z) ps -> (total size ps < 2 ^ 53)%Z ->
  let m := INR (length ps) in let K := IZR (total nonzeros ps) in let P := IZR (total size ps) in
  (m + 2) * u <= / 2 ->
  exists sp S, model_params_stats ps = Ok (sp, total size ps, S) /\ is_finite sp = true /\ is_finite S = true /\
    0 <= B2R S <= P /\ Rabs (B2R S - K) <= 2 * (m + 2) * u * K /\
    0 <= B2R sp <= 100 /\ Rabs (B2R sp - 100 * (1 - K / P)) <= 200 * (m + 4) * u /\
    (K = 0 -> B2R sp = 100) /\ (K = P -> B2R sp = 0) /\
    (4 * (m + 2) * P < 9007199254740992 -> (B2R sp = 100 <-> K = 0) /\ (B2R sp = 0 <-> K = P)).
Proof.
  intros ps Hne HF HP m K P HM. destruct (stats_ok ps HF Hne HP) as (sp & S & E & F1 & F2 & _). exists sp, S.
  assert (EM : INR (@length (list f32) ps + 2) = m + 2) by (rewrite plus_INR; reflexivity).
  destruct (stats_facts ps HF Hne HP sp S E) as (A1 & A2 & A3 & A4 & A5 & A6 & A7); [rewrite EM; exact HM|]. rewrite EM in *. fold K P in A1, A2, A4, A5, A6, A7.
  assert (A4' : Rabs (B2R sp - 100 * (1 - K / P)) <= 200 * (m + 4) * u) by (replace (m + 4) with (m + 2 + 2) by ring; exact A4).
  refine (conj E (conj F1 (conj F2 (conj A1 (conj A2 (conj A3 (conj A4' (conj A5 (conj A6 _))))))))).
  intro HB. destruct (A7 HB) as [B1 B2]. exact (conj (conj B1 A5) (conj B2 A6)).
Qed.

(** An empty tensor, or a model without such parameters, has no density. *)
Theorem C108_empty : density [] = Raise ZeroDivisionError /\ model_params_stats [] = Raise ZeroDivisionError /\
  (forall a b, exists e, model_params_stats (a ++ [] :: b) = Raise e).
Proof.
  split; [reflexivity|]. split; [reflexivity|]. intros a b. unfold model_params_stats. generalize (0%Z, of_int 0) as acc.
  induction a as [|t a IH]; intro acc.
  - exists ZeroDivisionError. reflexivity.
  - cbn [app foldM]. destruct (add_param acc t) as [acc'|e]; [|exists e; reflexivity]. apply IH.
Qed.

Definition one32 : f32 := binary_normalize 24 128 eq_refl eq_refl mode_NE 1 0 false.
(** k ones and n-k zeros *)
Definition w (k n : nat) : list f32 := repeat one32 k ++ repeat (B754_zero false) (n - k).

Lemma one32_R : B2R one32 = 1. Proof. unfold one32. vm_compute. lra. Qed.
Lemma w_numbers : forall k n, numbers (w k n).
Proof. intros k n. apply Forall_app. split; apply Forall_forall; intros x H; apply repeat_spec in H; subst x; reflexivity. Qed.
Lemma w_size : forall k n, (k <= n)%nat -> size (w k n) = Z.of_nat n.
Proof. intros k n H. unfold size, w. rewrite app_length, !repeat_length. f_equal. lia. Qed.
Lemma w_nonzeros : forall k n, nonzeros (w k n) = Z.of_nat k.
Proof.
  intros k n. unfold w. induction k as [|k IH].
  - cbn [repeat app]. induction (n - 0)%nat as [|m IH]; [reflexivity|]. cbn [repeat nonzeros]. rewrite IH. cbn [B2R]. destruct (Req_EM_T 0 0); [reflexivity|lra].
  - cbn [repeat app nonzeros]. rewrite one32_R. destruct (Req_EM_T 1 0); [lra|].
    assert (G : forall a b, nonzeros (repeat one32 k ++ repeat (B754_zero false) a) = nonzeros (repeat one32 k ++ repeat (B754_zero false) b)).
    { assert (Z0 : forall a, nonzeros (repeat (B754_zero false) a) = 0%Z). { induction a as [|a IHa]; [reflexivity|]. cbn [repeat nonzeros B2R]. rewrite IHa. destruct (Req_EM_T 0 0); [reflexivity|lra]. }
      intros a b. clear IH. induction k as [|k IHk]; cbn [repeat app nonzeros]; [now rewrite !Z0|]. now rewrite IHk. }
    rewrite (G _ (n - k)%nat), IH. lia.
Qed.

(** The count shown can be one too small: 61 non-zero weights in the first convolution of ResNet20 (16x3x3x3) are shown as
    60, one non-zero weight of 49 as none. *)
Theorem C108_shown_refuted :
  (exists t, numbers t /\ size t = 432%Z /\ nonzeros t = 61%Z /\ shown t = Ok 60%Z) /\
  (exists t, numbers t /\ size t = 49%Z /\ nonzeros t = 1%Z /\ shown t = Ok 0%Z).
Proof.
  split; [exists (w 61 432)|exists (w 1 49)]; (split; [apply w_numbers|split; [apply w_size; lia|split; [apply w_nonzeros|]]]); vm_compute; reflexivity.
Qed.

Definition less (a b : list (list f32)) : bool :=
  match model_params_stats a, model_params_stats b with
  | Ok (_, Pa, Sa), Ok (_, Pb, Sb) => (Pa =? Pb)%Z && is_finite Sa && is_finite Sb && match Bcompare Sa Sb with Some Lt => true | _ => false end
  | _, _ => false
  end.
Lemma less_ok : forall a b, less a b = true ->
  exists sa sb P Sa Sb, model_params_stats a = Ok (sa, P, Sa) /\ model_params_stats b = Ok (sb, P, Sb) /\ B2R Sa < B2R Sb.
Proof.
  intros a b. unfold less. destruct (model_params_stats a) as [[[sa Pa] Sa]|]; [|discriminate]. destruct (model_params_stats b) as [[[sb Pb] Sb]|]; [|discriminate].
  intro H. apply andb_prop in H as [H H4]. apply andb_prop in H as [H H3]. apply andb_prop in H as [H1 H2]. apply Z.eqb_eq in H1. subst Pb.
  exists sa, sb, Pa, Sa, Sb. split; [reflexivity|]. split; [reflexivity|]. rewrite Bcompare_correct in H4 by assumption. destruct (Rcompare_spec (B2R Sa) (B2R Sb)); [assumption|discriminate|discriminate].
Qed.

(** Two models with parameters of the same sizes and the same number of non-zero weights can be given different counts, so
    the tracker of the best checkpoints, which compares counts before accuracy, ranks them by rounding errors. *)
Theorem C108_tracker_refuted : exists a b, Forall numbers a /\ Forall numbers b /\ map size a = map size b /\
  total nonzeros a = total nonzeros b /\
  exists sa sb P Sa Sb, model_params_stats a = Ok (sa, P, Sa) /\ model_params_stats b = Ok (sb, P, Sb) /\ B2R Sa < B2R Sb.
Proof.
  exists [w 28 432; w 1 432], [w 29 432; w 0 432].
  split; [exact (Forall_cons _ (w_numbers _ _) (Forall_cons _ (w_numbers _ _) (Forall_nil _)))|]. split; [exact (Forall_cons _ (w_numbers _ _) (Forall_cons _ (w_numbers _ _) (Forall_nil _)))|].
  split; [cbn [map]; rewrite !w_size by lia; reflexivity|]. split; [cbn [total]; rewrite !w_nonzeros; reflexivity|].
  apply less_ok. vm_compute. reflexivity.
Qed.

(** A weight that is not a number counts as a zero (and an infinite one as a non-zero). *)
Theorem C108_nan_refuted : density [B754_nan; B754_nan] = Ok (of_int 0) /\ density [B754_nan; one32] = density [B754_zero false; one32] /\
  (forall s, density [B754_infinity s; B754_zero false] = density [one32; B754_zero false]).
Proof.
  split; [|split; [|intro s]].
  - unfold density. change (numel [B754_nan; B754_nan]) with 2%Z. change (nnz [B754_nan; B754_nan]) with 0%Z. cbn [Z.eqb]. f_equal.
  - unfold density. replace (nnz [B754_nan; one32]) with (nnz [B754_zero false; one32]) by reflexivity. reflexivity.
  - unfold density. replace (nnz [B754_infinity s; B754_zero false]) with (nnz [one32; B754_zero false]) by reflexivity. reflexivity.
Qed.

Example C108_ex : numbers (w 3 8) /\ (0 < size (w 3 8) < 2 ^ 51)%Z /\ nonzeros (w 3 8) = 3%Z /\ shown (w 3 8) = Ok 3%Z.
Proof. split; [apply w_numbers|]. rewrite w_size by lia. split; [split; reflexivity|]. split; [apply w_nonzeros|]. vm_compute. reflexivity. Qed.
Example C108_ex_total : let ps := [w 61 432; w 29 432; w 10 64] in ps <> [] /\ Forall (fun t => numbers t /\ (0 < size t)%Z) ps /\
  total size ps = 928%Z /\ total nonzeros ps = 100%Z /\ shown_total ps = Ok 100%Z.
Proof.
  cbv zeta. split; [discriminate|]. split; [repeat (apply Forall_cons; [split; [apply w_numbers|rewrite w_size by lia; reflexivity]|]); constructor|].
  split; [cbn [total]; rewrite !w_size by lia; reflexivity|]. split; [cbn [total]; rewrite !w_nonzeros; reflexivity|]. vm_compute. reflexivity.
Qed.

Print Assumptions C108_density.
Print Assumptions C108_sparsity.
Print Assumptions C108_shown.
Print Assumptions C108_total.
Print Assumptions C108_empty.
Print Assumptions C108_shown_refuted.
Print Assumptions C108_tracker_refuted.
Print Assumptions C108_nan_refuted.
