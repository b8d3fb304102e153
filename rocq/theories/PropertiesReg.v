(** C73: the losses and thresholds of the regularizers. *)
From Coq Require Import String List ZArith QArith Qabs Qreals Reals Bool Arith Lia Lra Psatz.
From Verif Require Import Base Lists SchedModel PrunerModel StructModel StructSpec StructProofs CollModel PropertiesStruct RegModel RegSpec.
Import ListNotations.
Open Scope list_scope.
Open Scope R_scope.

(* ------------------------------------------------------------------------- *)
(** * Lemmas *)
Lemma euclid_norm2 l : norm2 l = euclid l.
Proof.
  unfold norm2, euclid, sumsq. f_equal. change rsum with total. f_equal. apply map_ext. intro x. unfold sq. ring.
Qed.
Lemma grouplasso_ok groups q : grouplasso_reg groups (Q2R q) = lasso q groups.
Proof. unfold grouplasso_reg, lasso. rewrite (map_ext _ _ euclid_norm2). change rsum with total. ring. Qed.
Lemma total_app a b : total (a ++ b) = total a + total b.
Proof. induction a; simpl; lra. Qed.
Lemma sumsq_each n f : sumsq (each n f) = total (tab n (fun i => sumsq (f i))).
Proof.
  unfold each, tab. induction (seq 0 n) as [|i l IH]; [reflexivity|]. cbn [map concat]. unfold sumsq at 1. rewrite map_app. change rsum with total. rewrite total_app. cbn [total fold_right]. f_equal. exact IH.
Qed.

Section Conv.
Variables (t : nd) (F C H W : nat).
Hypothesis Hc : conv_shape t F C H W.
Lemma cv_len : length (nd_data t) = (F * (C * (H * W)))%nat.
Proof using Hc. destruct Hc as (Hsh & Hok & _). apply data_len; auto. Qed.
Lemma cv_ndim : ndim t = 4%nat.
Proof using Hc. destruct Hc as (Hsh & _). unfold ndim. rewrite Hsh. reflexivity. Qed.
Lemma cv_size i : size t i = match i with 0%nat => Ok F | 1%nat => Ok C | 2%nat => Ok H | 3%nat => Ok W | _ => Raise IndexError end.
Proof using Hc. destruct Hc as (Hsh & _). unfold size. rewrite Hsh. destruct i as [|[|[|[|[|]]]]]; reflexivity. Qed.

Lemma filterwise_ok q : filterwise_reg t (Q2R q) = Ok (lasso q (filters t F C H W)).
Proof using Hc.
  pose proof Hc as (_ & _ & Hp). unfold filterwise_reg. rewrite cv_ndim, cv_size. cbn [Nat.eqb bind]. unfold view_first. rewrite cv_len. destruct (Nat.eqb_spec F 0) as [E|_]; [lia|].
  rewrite Nat.mul_comm, Nat.mod_mul, Nat.div_mul by lia. cbn [Nat.eqb bind]. rewrite grouplasso_ok. f_equal. f_equal. unfold filters. apply tab_ext. intros f Hf. rewrite filter_tab. reflexivity.
Qed.
Lemma each_tab' {A} n m (g : nat -> A) : each n (fun i => tab m (fun j => g (i * m + j)%nat)) = tab (n * m) g.
Proof. apply each_tab. Qed.
Lemma kernels_rows : view_rows (H * W) (nd_data t) = Ok (kernels t F C H W).
Proof using Hc.
  pose proof Hc as (_ & _ & Hp). rewrite (view_rows_ok (H * W) (F * C)); [|nia|rewrite cv_len; ring]. f_equal. unfold kernels.
  rewrite <- (each_tab' F C). apply each_ext. intros f Hf. apply tab_ext. intros c Hcc. rewrite kernel_tab. reflexivity.
Qed.
Lemma kernelwise_ok q : kernelwise_reg t (Q2R q) = Ok (lasso q (kernels t F C H W)).
Proof using Hc. unfold kernelwise_reg. rewrite cv_ndim, !cv_size. cbn [Nat.eqb bind]. rewrite kernels_rows. cbn [bind]. rewrite grouplasso_ok. reflexivity. Qed.
Lemma layerwise_ok q : layerwise_reg t (Q2R q) = Ok (lasso q [nd_data t]).
Proof using Hc. unfold layerwise_reg. rewrite cv_ndim. cbn [Nat.eqb]. rewrite euclid_norm2. unfold lasso. cbn [map total fold_right]. f_equal. ring. Qed.

Definition eps_norm (l : list Q) : R := sqrt (total (map (fun x => (Q2R x) ^ 2) l) + / 100000000).
Lemma sumsq_total l : sumsq l = total (map (fun x => (Q2R x) ^ 2) l).
Proof. unfold sumsq. change rsum with total. f_equal. apply map_ext. intro x. unfold sq. ring. Qed.
Lemma map_each {A B} (g : A -> B) n (f : nat -> list A) : map g (each n f) = each n (fun i => map g (f i)).
Proof. unfold each, tab. induction (seq 0 n) as [|i l IH]; auto. cbn [map concat]. rewrite map_app, IH. reflexivity. Qed.
Lemma map_tab {A B} (g : A -> B) n f : map g (tab n f) = tab n (fun i => g (f i)).
Proof. unfold tab. rewrite map_map. reflexivity. Qed.
Lemma channels_l2_ok : channels_l2 t = Ok (map eps_norm (channels t F C H W)).
Proof using Hc.
  pose proof Hc as (_ & _ & Hp). unfold channels_l2. rewrite !cv_size. cbn [bind]. rewrite kernels_rows. cbn [bind]. unfold kernels. rewrite map_each.
  assert (E : each F (fun i => map sumsq (tab C (fun c => kernel t C H W i c))) = tab (F * C) (fun k => sumsq (kernel t C H W (k / C) (k mod C)))).
  { rewrite <- (each_tab' F C). apply each_ext. intros f Hf. rewrite map_tab. apply tab_ext. intros c Hcc. rewrite idx_div, idx_mod by auto. reflexivity. }
  rewrite E, tab_length, Nat.eqb_refl. f_equal. unfold channels. rewrite !map_tab. apply tab_ext. intros c Hcc. unfold eps_norm, epsilon. f_equal. f_equal. rewrite <- sumsq_total. unfold channel_of. rewrite sumsq_each. change rsum with total. f_equal.
  apply tab_ext. intros f Hf. rewrite tab_nth by nia. rewrite idx_div, idx_mod by auto. reflexivity.
Qed.
Lemma channelwise_ok q : channelwise_reg t (Q2R q) = Ok (Q2R q * total (map eps_norm (channels t F C H W))).
Proof using Hc. unfold channelwise_reg. rewrite cv_ndim. cbn [Nat.eqb]. rewrite channels_l2_ok. cbn [bind]. change rsum with total. f_equal. ring. Qed.
End Conv.

(* ------------------------------------------------------------------------- *)
(** * C73 *)

(** L1: the strength times the sum of absolute values, added to the loss so far; parameters that are not listed add nothing. *)
Theorem C73_l1_loss :
  forall regims t name acc,
  (dget regims name = None -> l1_loss regims t name acc = acc) /\
  (forall s, dget regims name = Some s -> l1_loss regims t name acc = acc + Q2R s * total (map (fun x => Rabs (Q2R x)) (nd_data t))).
Proof.
  intros regims t name acc. unfold l1_loss. split; [intros ->; reflexivity|]. intros s ->. change rsum with total. ring.
Qed.

(** Group lasso on the weights of a convolution: the strength times the sum of the Euclidean norms of its kernels, filters, or of
    the layer; the groups are those of the pruners. *)
Theorem C73_group_lasso_conv :
  forall regims t F C H W name s g acc, conv_shape t F C H W -> dget regims name = Some (s, g) ->
  (g = "2D"%string -> group_loss regims t name acc = Ok (acc + lasso s (kernels t F C H W))) /\
  (g = "3D"%string \/ g = "Filters"%string -> group_loss regims t name acc = Ok (acc + lasso s (filters t F C H W))) /\
  (g = "4D"%string -> group_loss regims t name acc = Ok (acc + lasso s [nd_data t])).
Proof.
  intros regims t F C H W name s g acc Hc D. unfold group_loss. rewrite D. repeat split.
  - intros ->. cbn [String.eqb Ascii.eqb Bool.eqb]. rewrite (kernelwise_ok t F C H W Hc). reflexivity.
  - intros [-> | ->]; cbn; rewrite (filterwise_ok t F C H W Hc); reflexivity.
  - intros ->. cbn. rewrite (layerwise_ok t F C H W Hc). reflexivity.
Qed.

(** ... of a matrix: rows, columns, or both. *)
Theorem C73_group_lasso_matrix :
  forall regims t r c name s g acc, mat_shape t r c -> dget regims name = Some (s, g) ->
  (g = "Rows"%string -> group_loss regims t name acc = Ok (acc + lasso s (rows t r c))) /\
  (g = "Cols"%string -> group_loss regims t name acc = Ok (acc + lasso s (columns t r c))) /\
  (g = "Rows+Cols"%string \/ g = "Cols+Rows"%string -> group_loss regims t name acc = Ok (acc + lasso s (rows t r c) + lasso s (columns t r c))).
Proof.
  intros regims t r c name s g acc (Hsh & Hok & _) D. unfold group_loss. rewrite D.
  assert (R1 : rowwise_reg t (Q2R s) = Ok (lasso s (rows t r c))) by (unfold rowwise_reg; rewrite Hsh, grouplasso_ok; reflexivity).
  assert (R2 : colwise_reg t (Q2R s) = Ok (lasso s (columns t r c))) by (unfold colwise_reg; rewrite Hsh, grouplasso_ok; reflexivity).
  repeat split.
  - intros ->. cbn. rewrite R1. reflexivity.
  - intros ->. cbn. rewrite R2. reflexivity.
  - intros [-> | ->]; cbn; rewrite R1, R2; reflexivity.
Qed.

Lemma sum_sq_nonneg l : 0 <= total (map (fun x => (Q2R x) ^ 2) l).
Proof. induction l as [|a l IH]; cbn [map total fold_right]; [lra|]. pose proof (pow2_ge_0 (Q2R a)). unfold total in IH. lra. Qed.
Lemma eps_bounds l : euclid l < eps_norm l /\ eps_norm l <= euclid l + / 10000.
Proof.
  pose proof (sum_sq_nonneg l) as P. unfold euclid, eps_norm. set (x := total (map (fun x => (Q2R x) ^ 2) l)) in *. split.
  - apply sqrt_lt_1; lra.
  - pose proof (sqrt_pos x) as S. pose proof (sqrt_sqrt x P) as E. apply Rsqr_incr_0_var; [|lra]. rewrite Rsqr_sqrt by lra. unfold Rsqr. nra.
Qed.
(** 'Channels': the same up to the constant under the root.  Per channel the penalty exceeds the norm by at most 0.0001, and it
    is not zero for a channel of zeros. *)
Theorem C73_group_lasso_channels :
  forall regims t F C H W name s acc, conv_shape t F C H W -> dget regims name = Some (s, "Channels"%string) -> 0 <= Q2R s ->
  exists x, group_loss regims t name acc = Ok (acc + x) /\
    lasso s (channels t F C H W) <= x <= lasso s (channels t F C H W) + Q2R s * (INR C * / 10000) /\
    (0 < Q2R s -> lasso s (channels t F C H W) < x) /\
    ((forall e, In e (nd_data t) -> (e == 0)%Q) -> x = Q2R s * (INR C * / 10000)).
Proof.
  intros regims t F C H W name s acc Hc D Hs. unfold group_loss. rewrite D. cbn. rewrite (channelwise_ok t F C H W Hc). cbn [bind]. eexists. split; [reflexivity|].
  assert (L : forall l, total (map euclid l) <= total (map eps_norm l) <= total (map euclid l) + INR (length l) * / 10000 /\ (l <> [] -> total (map euclid l) < total (map eps_norm l))).
  { induction l as [|a l [IH IH']]; cbn [map total fold_right length]; [simpl; split; [lra|congruence]|]. rewrite S_INR. pose proof (eps_bounds a). fold (total (map euclid l)) in *. fold (total (map eps_norm l)) in *. split; [lra|intros _; lra]. }
  destruct (L (channels t F C H W)) as [L1 L2]. assert (Lc : length (channels t F C H W) = C) by apply tab_length. rewrite Lc in L1. unfold lasso. split; [|split].
  - nra.
  - intro Hp. apply Rmult_lt_compat_l; auto. apply L2. destruct Hc as (_ & _ & Hd). intro E. rewrite E in Lc. simpl in Lc. lia.
  - intro Z.
    assert (ZL : forall l, (forall e, In e l -> (e == 0)%Q) -> eps_norm l = / 10000).
    { intros l Hl. unfold eps_norm. replace (total (map (fun x => (Q2R x) ^ 2) l)) with 0.
      - rewrite Rplus_0_l. replace (/ 100000000) with ((/ 10000) * (/ 10000)) by lra. apply sqrt_square. lra.
      - symmetry. induction l as [|a l IH]; auto. cbn [map total fold_right]. fold (total (map (fun x => (Q2R x) ^ 2) l)). rewrite IH by (intros; apply Hl; right; auto). rewrite (Qeq_eqR a 0 (Hl a (or_introl eq_refl))). unfold Q2R. simpl. lra. }
    f_equal. unfold channels. rewrite map_tab.
    rewrite (tab_ext C _ (fun _ => / 10000)).
    + clear. assert (G : forall (l : list nat), total (map (fun _ => / 10000) l) = INR (length l) * / 10000).
      { induction l as [|a l IH]; [simpl; lra|]. cbn [map total fold_right length]. rewrite S_INR. fold (total (map (fun _ : nat => / 10000) l)). rewrite IH. lra. }
      unfold tab. rewrite G, seq_length. reflexivity.
    + intros c Hcc. apply ZL. intros e I. unfold channel_of, kernel, each in I. apply in_concat in I as (l1 & I1 & I2). apply in_map_iff in I1 as (f & <- & _). apply in_concat in I2 as (l2 & I3 & I4). apply in_map_iff in I3 as (h & <- & _). apply in_map_iff in I4 as (w & <- & _).
      unfold at4. destruct (Nat.lt_ge_cases (((f * C + c) * H + h) * W + w) (length (nd_data t))) as [K|K]; [apply Z; apply nth_In; auto|rewrite nth_overflow by auto; reflexivity].
Qed.

Lemma euclid_zero l : euclid l = 0 <-> forall e, In e l -> (e == 0)%Q.
Proof.
  unfold euclid. induction l as [|a l IH]; [simpl; rewrite sqrt_0; split; [intros _ ? []|auto]|]. cbn [map total fold_right]. fold (total (map (fun x => Q2R x ^ 2) l)). pose proof (sum_sq_nonneg l) as P. pose proof (pow2_ge_0 (Q2R a)) as Pa. split.
  - intro E. apply sqrt_eq_0 in E; [|lra]. assert (A : Q2R a ^ 2 = 0) by lra. assert (B : total (map (fun x => Q2R x ^ 2) l) = 0) by lra. intros e [<-|I].
    + apply eqR_Qeq. rewrite RMicromega.Q2R_0. nra.
    + apply IH; auto. rewrite B. apply sqrt_0.
  - intro Z. assert (A : Q2R a = 0) by (rewrite (Qeq_eqR a 0 (Z a (or_introl eq_refl))); apply RMicromega.Q2R_0). assert (B : sqrt (total (map (fun x => Q2R x ^ 2) l)) = 0) by (apply IH; intros; apply Z; right; auto).
    apply sqrt_eq_0 in B; auto. rewrite A, B. replace (0 ^ 2 + 0) with 0 by ring. apply sqrt_0.
Qed.
(** What a penalty says: it is not negative, and 0 exactly when all groups consist of zeros. *)
Theorem C73_lasso_meaning :
  forall s groups, (0 < Q2R s) -> 0 <= lasso s groups /\ (lasso s groups = 0 <-> forall g e, In g groups -> In e g -> (e == 0)%Q).
Proof.
  intros s groups Hs. unfold lasso.
  assert (P : forall l, 0 <= total (map euclid l)) by (induction l as [|a l IH]; cbn [map total fold_right]; [lra|]; pose proof (sqrt_pos (total (map (fun x => Q2R x ^ 2) a))); fold (euclid a) in *; fold (total (map euclid l)); lra).
  split; [apply Rmult_le_pos; [lra|apply P]|]. assert (E : Q2R s * total (map euclid groups) = 0 <-> total (map euclid groups) = 0) by (split; [intro E; apply Rmult_integral in E as [E|E]; lra|intros ->; ring]). rewrite E. clear E Hs.
  induction groups as [|g gs IH]; cbn [map total fold_right]; [split; [intros _ ? ? []|auto]|]. fold (total (map euclid gs)). pose proof (P gs) as Pg. assert (Pe : 0 <= euclid g) by apply sqrt_pos. split.
  - intro E. intros g' e [<-|I] Ie; [apply (proj1 (euclid_zero g)); [lra|auto]|apply (proj1 IH ltac:(lra) g'); auto].
  - intro Z. rewrite (proj2 (euclid_zero g)) by (intros e I; apply (Z g e); [left|]; auto). rewrite (proj2 IH); [ring|]. intros g' e I Ie. apply (Z g'); [right|]; auto.
Qed.

(** Not listed: nothing; the wrong number of dimensions and unknown groups are refused. *)
Theorem C73_group_lasso_errors :
  forall regims t name acc,
  (dget regims name = None -> group_loss regims t name acc = Ok acc) /\
  (forall s g, dget regims name = Some (s, g) ->
    (In g ["2D"; "3D"; "Filters"; "4D"; "Channels"]%string -> length (nd_shape t) <> 4%nat -> group_loss regims t name acc = Raise AssertionError) /\
    (In g ["Rows"; "Cols"; "Rows+Cols"; "Cols+Rows"]%string -> length (nd_shape t) <> 2%nat -> group_loss regims t name acc = Raise AssertionError) /\
    (~ In g ["2D"; "3D"; "Filters"; "4D"; "Channels"; "Rows"; "Cols"; "Rows+Cols"; "Cols+Rows"; "Channels+4D"; "4D+Channels"]%string -> group_loss regims t name acc = Raise ValueError)).
Proof.
  intros regims t name acc. split; [intro D; unfold group_loss; rewrite D; reflexivity|]. intros s g D. unfold group_loss. rewrite D. repeat split.
  - intros I N. apply Nat.eqb_neq in N. cbn in I. decompose [or] I; try contradiction; subst g; cbn; unfold kernelwise_reg, filterwise_reg, layerwise_reg, channelwise_reg, ndim; rewrite N; reflexivity.
  - intros I N. assert (R1 : rowwise_reg t (Q2R s) = Raise AssertionError) by (unfold rowwise_reg; destruct (nd_shape t) as [|a [|b [|]]]; simpl in N; auto; lia).
    assert (R2 : colwise_reg t (Q2R s) = Raise AssertionError) by (unfold colwise_reg; destruct (nd_shape t) as [|a [|b [|]]]; simpl in N; auto; lia).
    cbn in I. decompose [or] I; try contradiction; subst g; cbn; rewrite ?R1, ?R2; reflexivity.
  - intro N. unfold str_in. cbn [existsb].
    repeat match goal with |- context [String.eqb g ?x] => replace (String.eqb g x) with false by (symmetry; apply String.eqb_neq; intros ->; apply N; simpl; tauto) end. reflexivity.
Qed.
(** Finding: 'Channels+4D' (and '4D+Channels') never work: AttributeError whatever the weights. *)
Theorem C73_channels_4d_refuted :
  forall regims t name acc s, dget regims name = Some (s, "Channels+4D"%string) \/ dget regims name = Some (s, "4D+Channels"%string) ->
  group_loss regims t name acc = Raise AttributeError.
Proof. intros regims t name acc s [D|D]; unfold group_loss; rewrite D; reflexivity. Qed.

(** Group variance: the strength divided by the variance of the channels' norms (with the same constant under the root); not a
    finite number for one channel or equal norms; other groups are refused. *)
Theorem C73_variance_loss :
  forall regims t F C H W name s g acc, conv_shape t F C H W -> dget regims name = Some (s, g) ->
  let norms := map eps_norm (channels t F C H W) in
  (g <> "Channels"%string -> variance_loss regims t name acc = Raise ValueError) /\
  (g = "Channels"%string -> (C = 1%nat \/ forall x y, In x norms -> In y norms -> x = y) -> variance_loss regims t name acc = Ok None) /\
  (g = "Channels"%string -> (1 < C)%nat -> (exists x y, In x norms /\ In y norms /\ x <> y) -> variance_loss regims t name acc = Ok (Some (acc + Q2R s / variance norms))).
Proof.
  intros regims t F C H W name s g acc Hc D norms. unfold variance_loss. rewrite D.
  assert (Ln : length norms = C) by (unfold norms, channels; rewrite map_length, tab_length; reflexivity).
  assert (V : rvar norms = variance norms).
  { unfold rvar, variance. f_equal. change rsum with total. f_equal. apply map_ext. intro x. unfold sq, rmean, average. change rsum with total. ring. }
  assert (Sq : forall m l, total (map (fun x => (x - m) ^ 2) l) = 0 <-> forall x, In x l -> x = m).
  { intro m. assert (P : forall l, 0 <= total (map (fun x => (x - m) ^ 2) l)) by (induction l as [|a l IH]; cbn [map total fold_right]; [lra|]; pose proof (pow2_ge_0 (a - m)); fold (total (map (fun x => (x - m) ^ 2) l)); lra).
    induction l as [|a l IH]; cbn [map total fold_right]; [split; [intros _ ? []|auto]|]. fold (total (map (fun x => (x - m) ^ 2) l)). pose proof (P l). pose proof (pow2_ge_0 (a - m)). split.
    - intros E x [<-|I]; [nra|apply IH; [lra|auto]].
    - intro Z. rewrite (proj2 IH) by (intros; apply Z; right; auto). rewrite (Z a (or_introl eq_refl)). ring. }
  split; [|split].
  - intro N. apply String.eqb_neq in N. rewrite N. reflexivity.
  - intros -> E. cbn [String.eqb Ascii.eqb Bool.eqb]. change (String.eqb "Channels" "Channels") with true. cbv iota. rewrite (channels_l2_ok t F C H W Hc). cbn [bind]. fold norms. rewrite Ln. f_equal. destruct (Nat.eqb_spec C 1); auto. destruct E as [E|E]; [contradiction|].
    destruct (Req_EM_T (rvar norms) 0) as [_|K]; auto. exfalso. apply K. rewrite V. unfold variance. replace (total (map (fun x => (x - average norms) ^ 2) norms)) with 0; [unfold Rdiv; ring|]. symmetry. apply Sq. intros x I.
    assert (A : forall l, (forall y, In y l -> y = x) -> total l = INR (length l) * x). { induction l as [|a l IH]; intro A; [simpl; lra|]. cbn [total fold_right length]. rewrite S_INR. fold (total l). rewrite IH by (intros; apply A; right; auto). rewrite (A a (or_introl eq_refl)). ring. }
    unfold average. rewrite (A norms) by (intros y Iy; apply E; auto). rewrite Ln. field. apply not_0_INR. destruct Hc as (_ & _ & Hd). lia.
  - intros -> Hc1 (x & y & Ix & Iy & N). change (String.eqb "Channels" "Channels") with true. cbv iota. rewrite (channels_l2_ok t F C H W Hc). cbn [bind]. fold norms. rewrite Ln. destruct (Nat.eqb_spec C 1); [lia|].
    destruct (Req_EM_T (rvar norms) 0) as [K|_].
    + exfalso. rewrite V in K. unfold variance in K. rewrite Ln in K. assert (K' : total (map (fun x => (x - average norms) ^ 2) norms) = 0).
      { assert (Hn : INR (C - 1) <> 0) by (apply not_0_INR; lia). apply (Rmult_eq_reg_r (/ INR (C - 1))); [unfold Rdiv in K; rewrite K; ring|apply Rinv_neq_0_compat; auto]. }
      pose proof (proj1 (Sq _ _) K') as Z. apply N. rewrite (Z x), (Z y); auto.
    + rewrite V. f_equal. f_equal. unfold Rdiv. ring.
Qed.

(** Thresholds.  L1: the mask keeps the elements above the strength (which is also the threshold). *)
Theorem C73_l1_threshold :
  forall regims c t name,
  (l1_threshold regims None t name = None) /\
  (dget regims name = None -> l1_threshold regims (Some c) t name = None) /\
  (forall s, dget regims name = Some s -> exists m, l1_threshold regims (Some c) t name = Some m /\ length m = length t /\
     forall i, (i < length t)%nat -> (nth i m 0 == if Qlt_le_dec s (Qabs (nth i t 0)) then 1 else 0)%Q).
Proof.
  intros regims c t name. unfold l1_threshold. split; [reflexivity|]. split; [intros ->; reflexivity|]. intros s ->. eexists. split; [reflexivity|]. unfold create_mask_threshold_criterion. split; [apply map_length|]. intros i Hi.
  rewrite nth_indep with (d' := b2q (Qltb s (Qabs 0))) by (rewrite map_length; auto). rewrite (map_nth (fun x => b2q (Qltb s (Qabs x)))). unfold Qltb. destruct (Qlt_le_dec s (Qabs (nth i t 0%Q))) as [L|L].
  - destruct (Qle_bool (Qabs (nth i t 0%Q)) s) eqn:E; [|reflexivity]. exfalso. apply Qle_bool_iff in E. apply (Qlt_not_le _ _ L E).
  - apply Qle_bool_iff in L. rewrite L. reflexivity.
Qed.
(** Group lasso: the mask removes exactly the groups whose criterion (largest or mean absolute value) is not above the
    strength; no mask without a criterion; criteria other than Max and Mean_Abs are refused by the constructor. *)
Theorem C73_group_threshold :
  forall l2 regims t F C H W name s g crit, conv_shape t F C H W -> dget regims name = Some (s, g) ->
  (forall u, group_ctor crit = Ok u -> crit = None \/ crit = Some "Max"%string \/ crit = Some "Mean_Abs"%string) /\
  group_threshold l2 regims None t name = Ok None /\
  (forall c, In c ["Max"; "Mean_Abs"]%string ->
     let score := crit_score l2 (if String.eqb c "Max" then CMax else CMean_Abs) in
     (g = "Filters"%string \/ g = "3D"%string -> exists m, group_threshold l2 regims (Some c) t name = Ok (Some m) /\ conv_shape m F C H W /\
        forall f ch h w, (f < F)%nat -> (ch < C)%nat -> (h < H)%nat -> (w < W)%nat -> at4 m C H W f ch h w = b2q (Qltb s (score (filter_of t C H W f)))) /\
     (g = "Channels"%string -> exists m, group_threshold l2 regims (Some c) t name = Ok (Some m) /\ conv_shape m F C H W /\
        forall f ch h w, (f < F)%nat -> (ch < C)%nat -> (h < H)%nat -> (w < W)%nat -> at4 m C H W f ch h w = b2q (Qltb s (score (channel_of t F C H W ch)))) /\
     (g = "2D"%string -> exists m, group_threshold l2 regims (Some c) t name = Ok (Some m) /\ conv_shape m F C H W /\
        forall f ch h w, (f < F)%nat -> (ch < C)%nat -> (h < H)%nat -> (w < W)%nat -> at4 m C H W f ch h w = b2q (Qltb s (score (kernel t C H W f ch))))).
Proof.
  intros l2 regims t F C H W name s g crit Hc D. split; [|split].
  - intros u. unfold group_ctor. destruct crit as [c|]; auto. unfold str_in. cbn [existsb]. destruct (String.eqb_spec c "Max") as [->|]; auto. destruct (String.eqb_spec c "Mean_Abs") as [->|]; auto. discriminate.
  - reflexivity.
  - intros c I score.
    assert (K : crit_of c = (if String.eqb c "Max" then CMax else CMean_Abs) /\ crit_of c <> COther) by (destruct I as [<-|[<-|[]]]; split; try reflexivity; discriminate). destruct K as [K K'].
    unfold group_threshold. rewrite D. repeat split.
    + intros Hg. destruct (C18_threshold_filters l2 t F C H W s (crit_of c) (gtype_of g) Hc K') as (m & E & A & B); [destruct Hg as [-> | ->]; [left|right]; reflexivity|]. rewrite E. exists m. split; [reflexivity|]. split; auto. intros f ch h w Hf Hch Hh Hw. rewrite B, K by auto. reflexivity.
    + intros ->. destruct (C18_threshold_channels l2 t F C H W s (crit_of c) Hc K') as (m & E & A & B). change (gtype_of "Channels") with TChannels. rewrite E. exists m. split; [reflexivity|]. split; auto. intros f ch h w Hf Hch Hh Hw. rewrite B, K by auto. reflexivity.
    + intros ->. destruct (C18_threshold_kernels l2 t F C H W s (crit_of c) Hc K') as (m & E & A & B). change (gtype_of "2D") with T2D. rewrite E. exists m. split; [reflexivity|]. split; auto. intros f ch h w Hf Hch Hh Hw. rewrite B, K by auto. reflexivity.
Qed.
(** Finding: groups that the loss accepts have no threshold: AssertionError whatever the weights. *)
Theorem C73_threshold_groups_refuted :
  forall l2 regims t name s g c, dget regims name = Some (s, g) -> In g ["4D"; "Rows+Cols"; "Cols+Rows"]%string ->
  group_threshold l2 regims (Some c) t name = Raise AssertionError.
Proof. intros l2 regims t name s g c D I. unfold group_threshold. rewrite D. cbn in I. decompose [or] I; try contradiction; subst g; reflexivity. Qed.

(** Examples: a convolution of 2 filters, 2 channels and 1x1 kernels; a matrix *)
Open Scope string_scope.
Definition ex_conv := mkND [2; 2; 1; 1]%nat [3; 0; 4; 0]%Q.
Definition ex_mat := mkND [2; 2]%nat [3; 0; 4; 12]%Q.
Example ex_conv_shape : conv_shape ex_conv 2 2 1 1. Proof. repeat split; lia. Qed.
Example ex_mat_shape : mat_shape ex_mat 2 2. Proof. repeat split; lia. Qed.
Lemma sq_sqrt x y : 0 <= y -> x = y * y -> sqrt x = y.
Proof. intros H ->. apply sqrt_square; auto. Qed.
Ltac norms := repeat match goal with |- context [sqrt ?e] => first [rewrite (sq_sqrt e 0) by lra | rewrite (sq_sqrt e 3) by lra | rewrite (sq_sqrt e 4) by lra | rewrite (sq_sqrt e 5) by lra | rewrite (sq_sqrt e 12) by lra] end.
(* filters: 3 + 4; the layer: 5 *)
Example ex_filters : group_loss [("w", (2%Q, "Filters"))] ex_conv "w" 1 = Ok (1 + 14).
Proof.
  destruct (C73_group_lasso_conv [("w", (2%Q, "Filters"))] ex_conv 2 2 1 1 "w" 2%Q "Filters" 1 ex_conv_shape eq_refl) as (_ & A & _). rewrite A by auto. f_equal. f_equal.
  unfold lasso, filters, euclid. cbn. unfold Q2R. cbn. norms. lra.
Qed.
Example ex_layer : group_loss [("w", (2%Q, "4D"))] ex_conv "w" 1 = Ok (1 + 10).
Proof.
  destruct (C73_group_lasso_conv [("w", (2%Q, "4D"))] ex_conv 2 2 1 1 "w" 2%Q "4D" 1 ex_conv_shape eq_refl) as (_ & _ & A). rewrite A by auto. f_equal. f_equal.
  unfold lasso, euclid. cbn. unfold Q2R. cbn. norms. lra.
Qed.
Example ex_cols : group_loss [("w", (2%Q, "Cols"))] ex_mat "w" 0 = Ok (0 + 34).
Proof.
  destruct (C73_group_lasso_matrix [("w", (2%Q, "Cols"))] ex_mat 2 2 "w" 2%Q "Cols" 0 ex_mat_shape eq_refl) as (_ & A & _). rewrite A by auto. f_equal. f_equal.
  unfold lasso, columns, euclid. cbn. unfold Q2R. cbn. norms. lra.
Qed.
(* the two channels have norms about 5 and 0: the variance loss is finite *)
Example ex_variance : exists x y, In x (map eps_norm (channels ex_conv 2 2 1 1)) /\ In y (map eps_norm (channels ex_conv 2 2 1 1)) /\ x <> y.
Proof.
  eexists. eexists. split; [left; reflexivity|]. split; [right; left; reflexivity|]. unfold eps_norm. cbn. unfold Q2R. cbn. intro E. apply sqrt_inj in E; lra.
Qed.
Example ex_threshold : group_threshold (fun _ => 0%Q) [("w", (2%Q, "Channels"))] (Some "Max") ex_conv "w" = Ok (Some (mkND [2; 2; 1; 1]%nat [1; 0; 1; 0]%Q)).
Proof. vm_compute. reflexivity. Qed.
Example ex_l1 : l1_threshold [("w", 3%Q)] (Some "x") (nd_data ex_conv) "w" = Some [0; 0; 1; 0]%Q.
Proof. reflexivity. Qed.

Print Assumptions C73_l1_loss.
Print Assumptions C73_group_lasso_conv.
Print Assumptions C73_group_lasso_matrix.
Print Assumptions C73_group_lasso_channels.
Print Assumptions C73_lasso_meaning.
Print Assumptions C73_group_lasso_errors.
Print Assumptions C73_channels_4d_refuted.
Print Assumptions C73_variance_loss.
Print Assumptions C73_l1_threshold.
Print Assumptions C73_group_threshold.
Print Assumptions C73_threshold_groups_refuted.
