(** C61: activation histograms *)
From Coq Require Import List ZArith QArith Qround Qabs Bool Arith Lia Lqa.
From Verif Require Import Base HistModel.
Import ListNotations.
Open Scope Q_scope.

(* ------------------------------------------------------------------------- *)
(** * Specification *)

(** [n] of the elements of [l] satisfy [P] *)
Inductive counts {A} (P : A -> Prop) : list A -> nat -> Prop :=
| counts_nil : counts P [] 0
| counts_yes x l n : P x -> counts P l n -> counts P (x :: l) (S n)
| counts_no x l n : ~ P x -> counts P l n -> counts P (x :: l) n.
Definition bin_width (nb : nat) (lo hi : Q) : Q := (hi - lo) / inject_Z (Z.of_nat nb).
(** the k-th of [nb] equal half-open intervals of [lo, hi]; the last contains [hi] *)
Definition in_bin (nb : nat) (lo hi : Q) (k : nat) (x : Q) : Prop :=
  lo + inject_Z (Z.of_nat k) * bin_width nb lo hi <= x /\
  (x < lo + inject_Z (Z.of_nat (S k)) * bin_width nb lo hi \/ (S k = nb /\ x == hi)).
Definition nearest_in_range (lo hi x y : Q) : Prop :=
  lo <= y <= hi /\ (lo <= x <= hi -> y == x) /\ (x <= lo -> y == lo) /\ (hi <= x -> y == hi).
Fixpoint nsum (l : list nat) : nat := match l with [] => 0 | x :: r => (x + nsum r)%nat end.
Definition output_all (cs : list (list (list Q) * list Q)) : list Q := concat (map snd cs).
Definition input_all (k : nat) (cs : list (list (list Q) * list Q)) : list Q := concat (map (fun c => nth k (fst c) []) cs).

(* ------------------------------------------------------------------------- *)
(** * Proofs *)
Lemma Zpos_Q n : (0 < n)%nat -> 0 < inject_Z (Z.of_nat n).
Proof. intro H. change 0 with (inject_Z 0). rewrite <- Zlt_Qlt. lia. Qed.

Lemma clampq_nearest lo hi x : lo <= hi -> nearest_in_range lo hi x (clampq lo hi x).
Proof.
  intro H. unfold nearest_in_range, clampq. destruct (Qle_bool lo x) eqn:E1.
  - apply Qle_bool_iff in E1. destruct (Qle_bool x hi) eqn:E2.
    + apply Qle_bool_iff in E2. repeat split; auto; intros; try lra; auto with qarith.
    + assert (~ x <= hi) by (rewrite <- Qle_bool_iff; congruence). repeat split; intros; lra.
  - assert (~ lo <= x) by (rewrite <- Qle_bool_iff; congruence). rewrite (proj2 (Qle_bool_iff lo hi) H). repeat split; intros; lra.
Qed.

Lemma counts_filter {A} (f : A -> bool) (P : A -> Prop) l : (forall x, In x l -> f x = true <-> P x) -> counts P l (length (filter f l)).
Proof.
  induction l as [|x l IH]; intro H; [constructor|]. cbn [filter].
  assert (IH' := IH (fun y Hy => H y (or_intror Hy))). destruct (H x (or_introl eq_refl)) as [H1 H2]. destruct (f x).
  - cbn [length]. constructor; auto.
  - constructor; auto. intro P1. discriminate (H2 P1).
Qed.
Lemma counts_app {A} (P : A -> Prop) a b n m : counts P a n -> counts P b m -> counts P (a ++ b) (n + m).
Proof. induction 1; intro Hb; cbn [app Nat.add]; auto; constructor; auto. Qed.
Lemma counts_map {A B} (g : A -> B) (P : B -> Prop) l n : counts P (map g l) n -> counts (fun x => P (g x)) l n.
Proof.
  revert n. induction l as [|x l IH]; intros n H; inversion H; subst; constructor; auto.
Qed.

Lemma bin_index_spec nb lo hi x k : (0 < nb)%nat -> lo < hi -> lo <= x <= hi ->
  bin_index nb lo hi x = k <-> (k < nb)%nat /\ in_bin nb lo hi k x.
Proof.
  intros Hnb Hlh Hx. unfold bin_index, in_bin, bin_width.
  assert (Pn := Zpos_Q nb Hnb). set (N := inject_Z (Z.of_nat nb)) in *.
  assert (Pd : 0 < hi - lo) by lra. set (q := (x - lo) / (hi - lo) * N).
  assert (Hq0 : 0 <= q).
  { unfold q. apply Qmult_le_0_compat; [|lra]. apply Qle_shift_div_l; lra. }
  assert (Hx' : x == lo + q * ((hi - lo) / N)) by (unfold q; field; lra).
  assert (Hq1 : q <= N).
  { unfold q. setoid_replace N with (1 * N) at 2 by ring. apply Qmult_le_compat_r; [|lra]. apply Qle_shift_div_r; lra. }
  assert (Hhi : hi == lo + N * ((hi - lo) / N)) by (field; lra).
  set (w := (hi - lo) / N) in *. assert (Pw : 0 < w) by (unfold w; apply Qlt_shift_div_l; lra).
  assert (F1 := Qfloor_le q). assert (F2 := Qlt_floor q).
  assert (F0 : (0 <= Qfloor q)%Z) by (change 0%Z with (Qfloor 0); apply Qfloor_resp_le; auto).
  assert (Fn : (Qfloor q <= Z.of_nat nb)%Z) by (rewrite <- (Qfloor_Z (Z.of_nat nb)); apply Qfloor_resp_le; auto).
  set (p := Qfloor q) in *.
  (* comparison of bounds *)
  assert (LE : forall z, lo + inject_Z z * w <= x <-> (z <= p)%Z).
  { intro z. rewrite Hx'. split; intro H.
    - assert (inject_Z z <= q). { apply (Qmult_le_r _ _ w Pw). lra. }
      unfold p. rewrite <- (Qfloor_Z z). apply Qfloor_resp_le; auto.
    - assert (inject_Z z <= q) by (apply Qle_trans with (inject_Z p); auto; rewrite <- Zle_Qle; auto).
      assert (inject_Z z * w <= q * w) by (apply Qmult_le_compat_r; auto; lra). lra. }
  assert (EQ : (p = Z.of_nat nb)%Z <-> x == hi).
  { split; intro H.
    - assert (N <= q) by (unfold N; rewrite <- H; auto). assert (q == N) by lra. rewrite Hx', Hhi, H1. reflexivity.
    - assert (Z.of_nat nb <= p)%Z by (apply LE; fold N; lra). lia. }
  assert (LT : forall z, x < lo + inject_Z z * w <-> (p < z)%Z).
  { intro z. specialize (LE z). split; intro H.
    - destruct (Z_lt_le_dec p z); auto. apply LE in l. lra.
    - destruct (Qlt_le_dec x (lo + inject_Z z * w)); auto. apply LE in q0. lia. }
  destruct (Nat.eqb_spec (Z.to_nat p) nb) as [E|E].
  - assert (Ep : p = Z.of_nat nb) by lia. split.
    + intros <-. split; [lia|]. split; [apply LE; lia|]. right. split; [lia|]. apply EQ; auto.
    + intros (Hk & H1 & [H2|[H2 _]]); [apply LT in H2; lia|lia].
  - assert (Ep : (p < Z.of_nat nb)%Z) by lia. split.
    + intros <-. split; [lia|]. split; [apply LE; lia|]. left. apply LT. lia.
    + intros (Hk & H1 & [H2|[_ H2]]); [apply LE in H1; apply LT in H2; lia|]. apply EQ in H2. lia.
Qed.

Lemma bin_index_lt nb lo hi x : (0 < nb)%nat -> lo < hi -> lo <= x <= hi -> (bin_index nb lo hi x < nb)%nat.
Proof. intros A B C. exact (proj1 (proj1 (bin_index_spec nb lo hi x _ A B C) eq_refl)). Qed.

Lemma filter_all {A} (f : A -> bool) l : (forall x, In x l -> f x = true) -> filter f l = l.
Proof. induction l as [|x l IH]; intro H; [auto|]. cbn [filter]. rewrite H by (left; auto). f_equal. apply IH. intros; apply H; right; auto. Qed.

Lemma nth_map_seq {B} (f : nat -> B) d nb k : (k < nb)%nat -> nth k (map f (seq 0 nb)) d = f k.
Proof.
  intro H. rewrite (nth_indep _ d (f 0%nat)) by (rewrite map_length, seq_length; auto). rewrite map_nth, seq_nth by auto. auto.
Qed.

Lemma get_hist_ok nb lo hi t : (0 < nb)%nat -> lo < hi -> exists h, get_hist nb (lo, hi) t = Ok h /\ length h = nb /\
  forall k, (k < nb)%nat -> counts (fun x => in_bin nb lo hi k (clampq lo hi x)) t (nth k h 0%nat).
Proof.
  intros Hnb Hlh. unfold get_hist, histc. cbn [fst snd]. rewrite (proj2 (Qle_bool_iff lo hi)) by lra.
  destruct (Qeq_bool lo hi) eqn:E; [apply Qeq_bool_iff in E; lra|].
  set (l := map (clampq lo hi) t). assert (Hin : forall x, In x l -> lo <= x <= hi).
  { intros x Hx. unfold l in Hx. apply in_map_iff in Hx. destruct Hx as (y & <- & _). apply (clampq_nearest lo hi y); lra. }
  rewrite filter_all. 2:{ intros x Hx. destruct (Hin x Hx) as [A B]. apply Qle_bool_iff in A, B. rewrite A, B. auto. }
  eexists. split; [reflexivity|]. split; [rewrite map_length, seq_length; auto|]. intros k Hk. rewrite nth_map_seq by auto.
  apply (counts_map (clampq lo hi) (in_bin nb lo hi k)). fold l. apply counts_filter. intros x Hx. rewrite Nat.eqb_eq, (bin_index_spec nb lo hi x k Hnb Hlh (Hin x Hx)). tauto.
Qed.

Lemma hadd_nth a b k : length a = length b -> nth k (hadd a b) 0%nat = (nth k a 0 + nth k b 0)%nat.
Proof.
  unfold hadd. revert b k. induction a as [|x a IH]; intros [|y b] k H; try discriminate; [destruct k; auto|].
  destruct k; cbn; auto.
Qed.
Lemma hadd_length a b : length a = length b -> length (hadd a b) = length a.
Proof. unfold hadd. revert b. induction a as [|x a IH]; intros [|y b] H; try discriminate; cbn; auto. Qed.

(** [h] is the histogram of [l] *)
Definition hist_of (nb : nat) (lo hi : Q) (l : list Q) (h : list nat) : Prop :=
  length h = nb /\ forall k, (k < nb)%nat -> counts (fun x => in_bin nb lo hi k (clampq lo hi x)) l (nth k h 0%nat).
Lemma hist_of_add nb lo hi l h t c : (0 < nb)%nat -> lo < hi -> hist_of nb lo hi l h -> get_hist nb (lo, hi) t = Ok c -> hist_of nb lo hi (l ++ t) (hadd h c).
Proof.
  intros Hnb Hlh (A & B) H. destruct (get_hist_ok nb lo hi t Hnb Hlh) as (c' & H' & C & D). rewrite H in H'. injection H' as <-.
  split; [rewrite hadd_length; lia|]. intros k Hk. rewrite hadd_nth by lia. apply counts_app; auto.
Qed.
Lemma hist_of_zero nb lo hi : hist_of nb lo hi [] (repeat 0%nat nb).
Proof.
  split; [apply repeat_length|]. intros k Hk. assert (E : nth k (repeat 0%nat nb) 0%nat = 0%nat) by (clear; revert k; induction nb; intros [|k]; cbn; auto).
  rewrite E. constructor.
Qed.

Lemma hist_inputs_spec nb ts : forall mms hs r, hist_inputs nb mms hs ts = Ok r ->
  length r = length hs /\ (length ts <= length mms)%nat /\ (length ts <= length hs)%nat /\
  forall k d, (k < length hs)%nat -> ((k < length ts)%nat -> exists c, get_hist nb (nth k mms d) (nth k ts []) = Ok c /\ nth k r [] = hadd (nth k hs []) c) /\
     ((length ts <= k)%nat -> nth k r [] = nth k hs []).
Proof.
  induction ts as [|t ts IH]; intros mms hs r H.
  - assert (r = hs) as -> by (destruct mms, hs; injection H; congruence). repeat split; auto; cbn; try lia; intros; lia.
  - destruct mms as [|mm mms]; [discriminate|]. destruct hs as [|h hs]; [discriminate|]. cbn [hist_inputs] in H. inv_bind H. inv_bind H. injection H as <-.
    destruct (IH _ _ _ H1) as (A & B & C & D). cbn [length]. repeat split; try lia.
    + destruct k; intro K; [exists x; auto|]. cbn. apply (D k d); lia.
    + destruct k; intro K; [lia|]. cbn. apply (D k d); lia.
Qed.

(** C61: a module's histograms after any number of calls.  For each tensor with min < max in the statistics, every bin
    count is exactly the number of values, over all the calls, whose clamped value lies in that bin. *)
Theorem C61_exact : forall nb st mms cs h, (0 < nb)%nat -> st_inputs st = Some mms -> hist_run nb st cs = Ok h ->
  (let (lo, hi) := st_output st in lo < hi -> hist_of nb lo hi (output_all cs) (h_output h)) /\
  length (h_inputs h) = length mms /\
  forall k lo hi, (k < length mms)%nat -> nth k mms (0, 0) = (lo, hi) -> lo < hi -> hist_of nb lo hi (input_all k cs) (nth k (h_inputs h) []).
Proof.
  intros nb st mms cs h Hnb Hst H. unfold hist_run in H. inv_bind H. unfold hist_reset in H0. rewrite Hst in H0. injection H0 as <-.
  assert (G : forall cs h0 h pre prei, foldM (hist_cb nb st) cs h0 = Ok h -> length (h_inputs h0) = length mms ->
    ((fst (st_output st) < snd (st_output st)) -> hist_of nb (fst (st_output st)) (snd (st_output st)) pre (h_output h0)) ->
    (forall k lo hi, (k < length mms)%nat -> nth k mms (0, 0) = (lo, hi) -> lo < hi -> hist_of nb lo hi (prei k) (nth k (h_inputs h0) [])) ->
    ((fst (st_output st) < snd (st_output st)) -> hist_of nb (fst (st_output st)) (snd (st_output st)) (pre ++ output_all cs) (h_output h)) /\
    length (h_inputs h) = length mms /\
    (forall k lo hi, (k < length mms)%nat -> nth k mms (0, 0) = (lo, hi) -> lo < hi -> hist_of nb lo hi (prei k ++ input_all k cs) (nth k (h_inputs h) []))).
  { clear h H cs. induction cs as [|c cs IH]; intros h0 h pre prei H L Ho Hi.
    - injection H as <-. unfold output_all, input_all. cbn. rewrite app_nil_r. repeat split; auto; try apply Ho; auto; try rewrite app_nil_r; eapply Hi; eauto.
    - cbn [foldM] in H. inv_bind H. unfold hist_cb in H0. inv_bind H0. inv_bind H0. injection H0 as <-.
      assert (In0 : length x0 = length (h_inputs h0) /\ forall k lo hi, (k < length mms)%nat -> nth k mms (0,0) = (lo, hi) -> lo < hi ->
                hist_of nb lo hi (prei k ++ nth k (fst c) []) (nth k x0 [])).
      { rewrite Hst in H1. destruct (fst c) as [|t ts] eqn:Ec.
        - injection H1 as <-. split; auto. intros k lo hi Hk Hn Hlh. replace (nth k [] []) with (@nil Q) by (destruct k; auto). rewrite app_nil_r. eauto.
        - destruct (hist_inputs_spec _ _ _ _ _ H1) as (A & B & C & D). split; auto. intros k lo hi Hk Hn Hlh.
          destruct (D k (0,0) ltac:(lia)) as (D1 & D2). destruct (le_lt_dec (length (t :: ts)) k) as [K|K].
          + rewrite (D2 K), (nth_overflow _ _ K), app_nil_r. eauto.
          + destruct (D1 K) as (cc & E1 & E2). rewrite E2. rewrite Hn in E1. eapply hist_of_add; eauto. }
      destruct In0 as (In1 & In2).
      destruct (IH (mkHists x0 (hadd (h_output h0) x1)) h (pre ++ snd c)%list (fun k => prei k ++ nth k (fst c) [])%list H) as (J1 & J2 & J3).
      + cbn. lia.
      + cbn [h_output]. intro Hlh. eapply hist_of_add; eauto.
      + cbn [h_inputs]. auto.
      + unfold output_all, input_all in *. cbn [map concat]. split; [intro; rewrite app_assoc; auto|]. split; auto.
        intros k lo hi Hk Hn Hlh. rewrite app_assoc. eapply J3; eauto. }
  destruct (G cs _ h [] (fun _ => []) H) as (J1 & J2 & J3).
  - cbn. rewrite map_length. auto.
  - intros _. apply hist_of_zero.
  - intros k lo hi Hk _ _. cbn [h_inputs]. rewrite (nth_indep _ [] (repeat 0%nat nb)) by (rewrite map_length; auto).
    rewrite (map_nth (fun _ : Q * Q => repeat 0%nat nb) mms (0, 0)). apply hist_of_zero.
  - split; auto. destruct (st_output st) as (lo, hi). exact J1.
Qed.

(** C61: the counts of a histogram add up to the number of values. *)
Theorem C61_total : forall nb lo hi l h, (0 < nb)%nat -> lo < hi -> hist_of nb lo hi l h -> nsum h = length l.
Proof.
  intros nb lo hi l h Hnb Hlh (L & H).
  assert (G : forall l h, length h = nb -> (forall k, (k < nb)%nat -> counts (fun x => in_bin nb lo hi k (clampq lo hi x)) l (nth k h 0%nat)) -> nsum h = length l).
  { clear L H l h. induction l as [|x l IH]; intros h L H.
    - assert (Z : forall k, (k < nb)%nat -> nth k h 0%nat = 0%nat) by (intros k Hk; specialize (H k Hk); inversion H; auto). clear H.
      subst nb. clear Hnb. induction h as [|a h IHh]; [auto|]. cbn. rewrite IHh; [|intros k Hk; exact (Z (S k) ltac:(cbn; lia))]. rewrite (Z 0%nat ltac:(cbn; lia) : a = 0%nat). auto.
    - pose proof (clampq_nearest lo hi x ltac:(lra)) as (C & _).
      set (k0 := bin_index nb lo hi (clampq lo hi x)).
      assert (K : forall k, (k < nb)%nat -> in_bin nb lo hi k (clampq lo hi x) <-> k = k0).
      { intros k Hk. pose proof (bin_index_spec nb lo hi (clampq lo hi x) k Hnb Hlh C) as S. unfold k0. split; intro; [symmetry; apply S; auto|apply S; auto]. }
      assert (K0 : (k0 < nb)%nat) by (apply bin_index_lt; auto).
      (* remove one from bin k0 *)
      assert (P : exists h', length h' = nb /\ nsum h = S (nsum h') /\ forall k, (k < nb)%nat -> counts (fun x => in_bin nb lo hi k (clampq lo hi x)) l (nth k h' 0%nat)).
      { assert (P0 : exists n, nth k0 h 0%nat = S n).
        { specialize (H k0 K0). inversion H; subst; eauto. exfalso. apply H2. apply K; auto. }
        destruct P0 as (n & En).
        assert (P1 : exists h', length h' = length h /\ nsum h = S (nsum h') /\ forall k, nth k h' 0%nat = if Nat.eqb k k0 then n else nth k h 0%nat).
        { clearbody k0. rewrite <- L in K0. clear - En K0. revert k0 En K0. induction h as [|a h IH]; intros k0 En K0; [cbn in K0; lia|]. destruct k0.
          - cbn in En. subst a. exists (n :: h). repeat split; auto. intros [|k]; auto.
          - destruct (IH k0 En ltac:(cbn in K0; lia)) as (h' & A & B & C). exists (a :: h'). cbn. repeat split; auto; try lia.
            intros [|k]; auto. cbn. apply C. }
        destruct P1 as (h' & A & B & C2). exists h'. split; [lia|]. split; auto. intros k Hk. rewrite C2. specialize (H k Hk).
        destruct (Nat.eqb_spec k k0) as [->|Hne].
        - rewrite En in H. inversion H; subst; auto. exfalso. apply H2. apply K; auto.
        - inversion H as [|? ? ? Px Pl|]; subst; auto. apply K in Px; auto. contradiction. }
      destruct P as (h' & A & B & C'). rewrite B. cbn [length]. f_equal. apply IH; auto. }
  apply G; auto.
Qed.

(** C61: the centroids are the centres of the bins: a counted value is, once clamped, within half a bin of the centroid of
    the bin it is counted in. *)
Theorem C61_centroids : forall nb lo hi k x, (0 < nb)%nat -> lo < hi -> (k < nb)%nat -> in_bin nb lo hi k x -> x <= hi ->
  length (bin_centroids nb (lo, hi)) = nb /\
  Qabs (x - nth k (bin_centroids nb (lo, hi)) 0) <= bin_width nb lo hi / 2.
Proof.
  intros nb lo hi k x Hnb Hlh Hk (H1 & H2) Hx. unfold bin_centroids, linspace. cbn [fst snd].
  split; [rewrite map_length, seq_length; auto|]. rewrite nth_map_seq by auto.
  assert (Pn := Zpos_Q nb Hnb). fold (bin_width nb lo hi). set (w := bin_width nb lo hi) in *.
  assert (Pw : 0 < w) by (unfold w, bin_width; apply Qlt_shift_div_l; lra).
  assert (Hhi : hi == lo + inject_Z (Z.of_nat nb) * w) by (unfold w, bin_width; field; lra).
  assert (C : lo + w / 2 + inject_Z (Z.of_nat k) * ((hi - w / 2 - (lo + w / 2)) / inject_Z (Z.of_nat (nb - 1))) == lo + w / 2 + inject_Z (Z.of_nat k) * w).
  { destruct (Nat.eq_dec nb 1) as [->|N1].
    - assert (k = 0%nat) as -> by lia. change (inject_Z (Z.of_nat 0)) with 0. ring.
    - assert (P1 := Zpos_Q (nb - 1) ltac:(lia)). rewrite Hhi.
      assert (E : inject_Z (Z.of_nat nb) == inject_Z (Z.of_nat (nb - 1)) + 1).
      { change 1 with (inject_Z 1). rewrite <- inject_Z_plus. replace (Z.of_nat nb) with (Z.of_nat (nb - 1) + 1)%Z by lia. reflexivity. }
      rewrite E. field. lra. }
  rewrite C. assert (S' : inject_Z (Z.of_nat (S k)) == inject_Z (Z.of_nat k) + 1).
  { change 1 with (inject_Z 1). rewrite <- inject_Z_plus. replace (Z.of_nat (S k)) with (Z.of_nat k + 1)%Z by lia. reflexivity. }
  assert (U : x <= lo + inject_Z (Z.of_nat (S k)) * w).
  { destruct H2 as [H2|(H2 & H3)]; [lra|]. rewrite H2, <- Hhi. auto. }
  rewrite S' in U. assert (W2 : w == w / 2 + w / 2) by field. set (h := w / 2) in *. assert (Z0 : (inject_Z (Z.of_nat k) + 1) * w == inject_Z (Z.of_nat k) * w + w) by ring. rewrite Z0 in U. apply Qabs_Qle_condition. split; lra.
Qed.

(** C61: on data within the calibrated range nothing is lost: each value is counted in the bin it lies in itself, and a value
    outside is counted as the nearest end of the range. *)
Theorem C61_clamp : forall lo hi x, lo <= hi -> nearest_in_range lo hi x (clampq lo hi x).
Proof. exact clampq_nearest. Qed.

(** C61: collection succeeds whenever every call has at most as many inputs as the statistics and every range is ordered. *)
Theorem C61_succeeds : forall nb st mms cs, (0 < nb)%nat -> st_inputs st = Some mms ->
  Forall (fun mm => fst mm <= snd mm) (st_output st :: mms) -> Forall (fun c => (length (fst c) <= length mms)%nat) cs ->
  exists h, hist_run nb st cs = Ok h.
Proof.
  intros nb st mms cs Hnb Hst Hf Hc. unfold hist_run, hist_reset. rewrite Hst. cbn [bind].
  inversion Hf as [|? ? Ho Hm]; subst.
  assert (T : forall mm t, fst mm <= snd mm -> exists c, get_hist nb mm t = Ok c).
  { intros mm t H. unfold get_hist, histc. rewrite (proj2 (Qle_bool_iff _ _) H). destruct (if Qeq_bool _ _ then _ else _). eexists. reflexivity. }
  set (h0 := mkHists _ _). assert (L : length (h_inputs h0) = length mms) by (cbn; apply map_length). clearbody h0. revert h0 L.
  induction Hc as [|c cs Hc Hcs IH]; intros h0 L; [eexists; reflexivity|]. cbn [foldM]. unfold hist_cb at 1. rewrite Hst.
  assert (I : forall ts mms hs, Forall (fun mm => fst mm <= snd mm) mms -> (length ts <= length mms)%nat -> length hs = length mms ->
            exists r, hist_inputs nb mms hs ts = Ok r /\ length r = length hs).
  { clear - T. induction ts as [|t ts IH]; intros mms hs Hm L1 L2; [exists hs; cbn; destruct mms, hs; auto|].
    destruct mms as [|mm mms]; [cbn in L1; lia|]. destruct hs as [|h hs]; [discriminate|]. inversion Hm; subst. cbn [hist_inputs].
    destruct (T mm t H1) as (c & ->). cbn [bind]. destruct (IH mms hs H2 ltac:(cbn in L1; lia) ltac:(cbn in L2; lia)) as (r & -> & Hr). cbn [bind].
    eexists. split; [reflexivity|]. cbn. lia. }
  destruct (T _ (snd c) Ho) as (o & Eo). rewrite Eo.
  destruct (fst c) as [|t ts] eqn:Ec; [cbn [bind]; apply IH; auto|].
  destruct (I (t :: ts) mms (h_inputs h0) Hm Hc L) as (r & -> & Hr). cbn [bind]. apply IH. cbn. lia.
Qed.

(** C61 finding: when the statistics come from a calibration in which a collected module was never called, they have no
    'inputs' entry for it, and collect_histograms raises KeyError before the model is even run. *)
Theorem C61_never_called_refuted : forall nb st cs, st_inputs st = None -> hist_run nb st cs = Raise KeyError.
Proof. intros nb st cs H. unfold hist_run, hist_reset. rewrite H. reflexivity. Qed.

(** C61 finding: a tensor that was constant during calibration (min = max = v) gets a histogram whose centroids are all v,
    and every value is counted in the middle bin. *)
Theorem C61_constant_refuted : forall nb v t, (0 < nb)%nat ->
  exists h, get_hist nb (v, v) t = Ok h /\ nth (Nat.div nb 2) h 0%nat = length t /\ Forall (fun c => c == v) (bin_centroids nb (v, v)).
Proof.
  intros nb v t Hnb. unfold get_hist, histc. cbn [fst snd]. rewrite (proj2 (Qle_bool_iff v v)) by lra. rewrite (proj2 (Qeq_bool_iff v v)) by reflexivity.
  set (l := map (clampq v v) t). assert (Hl : forall x, In x l -> x == v).
  { intros x Hx. unfold l in Hx. apply in_map_iff in Hx. destruct Hx as (y & <- & _). destruct (clampq_nearest v v y ltac:(lra)) as ([A B] & _). lra. }
  rewrite filter_all. 2:{ intros x Hx. apply Hl in Hx. apply andb_true_intro. split; apply Qle_bool_iff; lra. }
  eexists. split; [reflexivity|]. split.
  - rewrite nth_map_seq by (apply Nat.div_lt_upper_bound; lia). rewrite filter_all; [unfold l; apply map_length|]. intros x Hx. apply Nat.eqb_eq.
    apply bin_index_spec; auto; try lra; [rewrite (Hl x Hx); lra|]. split; [apply Nat.div_lt_upper_bound; lia|].
    unfold in_bin, bin_width. assert (Pn := Zpos_Q nb Hnb). set (N := inject_Z (Z.of_nat nb)) in *.
    pose proof (Nat.div_mod nb 2 ltac:(lia)) as D. pose proof (Nat.mod_upper_bound nb 2 ltac:(lia)) as M. set (k := (nb / 2)%nat) in *.
    assert (A1 : inject_Z (Z.of_nat k) * 2 <= N).
    { change 2 with (inject_Z 2). unfold N. rewrite <- inject_Z_mult, <- Zle_Qle. lia. }
    assert (A2 : N < inject_Z (Z.of_nat (S k)) * 2).
    { change 2 with (inject_Z 2). unfold N. rewrite <- inject_Z_mult, <- Zlt_Qlt. lia. }
    rewrite (Hl x Hx). set (K := inject_Z (Z.of_nat k)) in *. set (K1 := inject_Z (Z.of_nat (S k))) in *.
    assert (E : forall a, a * ((v + 1 - (v - 1)) / N) == a * 2 / N) by (intro; field; lra). rewrite !E. split.
    + assert (K * 2 / N <= 1) by (apply Qle_shift_div_r; lra). lra.
    + left. assert (1 < K1 * 2 / N) by (apply Qlt_shift_div_l; lra). lra.
  - unfold bin_centroids, linspace. cbn [fst snd]. apply Forall_forall. intros c Hc. apply in_map_iff in Hc. destruct Hc as (k & <- & _).
    assert (Pn := Zpos_Q nb Hnb). setoid_replace ((v - v) / inject_Z (Z.of_nat nb)) with 0 by (field; lra).
    setoid_replace (v - 0 / 2 - (v + 0 / 2)) with 0 by field. unfold Qdiv at 2. rewrite Qmult_0_l. field.
Qed.

Example C61_ex : exists h, hist_run 4 (mkStats (Some [(-1, 3)]) (0, 2)) [([[-5; 0; 3]], [0; 1; 2]); ([[1#2]], [7])] = Ok h /\
  h_output h = [1; 0; 1; 2]%nat /\ h_inputs h = [[1; 2; 0; 1]]%nat.
Proof. eexists. split; [reflexivity|]. split; reflexivity. Qed.

Print Assumptions C61_exact.
Print Assumptions C61_total.
Print Assumptions C61_centroids.
Print Assumptions C61_clamp.
Print Assumptions C61_succeeds.
Print Assumptions C61_never_called_refuted.
Print Assumptions C61_constant_refuted.
