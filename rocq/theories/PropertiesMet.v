(** C120: the helpers of the detection example. *)
From Coq Require Import String List Arith Bool Lia ZArith QArith Lqa Permutation Sorted.
From Verif Require Import Base MetModel.
Import ListNotations.
Open Scope list_scope.
Open Scope nat_scope.

(** the sum of a list of rationals, from the right, as a specification *)
Definition Qtotal (l : list Q) : Q := fold_right Qplus 0%Q l.
Lemma qsum_acc l : forall a, (fold_left Qplus l a == a + Qtotal l)%Q.
Proof. induction l as [|x l IH]; intro a; cbn [fold_left Qtotal fold_right]; [ring|]. rewrite IH. unfold Qtotal. ring. Qed.
Lemma qsum_total l : (qsum l == Qtotal l)%Q.
Proof. unfold qsum. rewrite qsum_acc. ring. Qed.
Lemma Qtotal_cons x l : Qtotal (x :: l) = (x + Qtotal l)%Q.
Proof. reflexivity. Qed.
Lemma Qtotal_app a b : (Qtotal (a ++ b) == Qtotal a + Qtotal b)%Q.
Proof. induction a as [|x a IH]; cbn [app]; [change (Qtotal []) with 0%Q; ring|]. rewrite !Qtotal_cons, IH. ring. Qed.
Definition qn (n : nat) : Q := inject_Z (Z.of_nat n).
Lemma qn_add a b : (qn (a + b) == qn a + qn b)%Q.
Proof. unfold qn. rewrite Nat2Z.inj_add, inject_Z_plus. reflexivity. Qed.
Lemma qn_pos n : 0 < n -> ~ (qn n == 0)%Q.
Proof. intros H E. unfold Qeq, qn, inject_Z in E. cbn [Qnum Qden] in E. lia. Qed.

Definition weighted (h : list (Q * nat)) : Q := Qtotal (map (fun vn => fst vn * qn (snd vn))%Q h).
Definition weights (h : list (Q * nat)) : nat := list_sum (map snd h).
Definition last_n {A} (n : nat) (l : list A) : list A := skipn (length l - n) l.
Lemma last_n_app {A} n (l : list A) x : last_n n (last_n n l ++ [x]) = last_n n (l ++ [x]).
Proof.
  unfold last_n. rewrite !app_length, skipn_length. cbn [length]. rewrite !skipn_app, skipn_length.
  destruct (Nat.le_gt_cases (length l) n) as [L|L].
  - replace (length l - n) with 0 by lia. cbn [skipn]. replace (length l - 0 + 1) with (length l + 1) by lia. rewrite Nat.sub_0_r. reflexivity.
  - destruct n as [|n].
    + rewrite !Nat.sub_0_r, Nat.sub_diag. rewrite skipn_all. cbn [Nat.add Nat.sub skipn app].
      rewrite skipn_all2 by lia. replace (length l + 1 - length l) with 1 by lia. reflexivity.
    + replace (length l - (length l - S n) + 1 - S n) with 1 by lia. replace (1 - (length l - (length l - S n))) with 0 by lia.
      replace (length l + 1 - S n - length l) with 0 by lia. cbn [skipn]. f_equal.
      replace (length l + 1 - S n) with (S (length l - S n)) by lia. clear. generalize (length l - S n). intro k. revert l.
      induction k as [|k IH]; intro l; [destruct l; reflexivity|]. destruct l as [|y l]; [reflexivity|]. change (skipn (S k) (y :: l)) with (skipn k l). rewrite IH. reflexivity.
Qed.
(** after any history of updates: the window has the last [w] values, the global average is that of all values with their
    weights; a history without weight has none *)
Theorem C120_smoothed : forall w h, let s := fold_left sm_update h (smoothed0 w) in
  s_deque s = last_n w (map fst h) /\ s_count s = weights h /\ (s_total s == weighted h)%Q /\
  (weights h = 0 -> sm_global_avg s = Raise ZeroDivisionError) /\
  (0 < weights h -> exists g, sm_global_avg s = Ok g /\ (g * qn (weights h) == weighted h)%Q).
Proof.
  intros w h. cbn zeta. assert (G : let s := fold_left sm_update h (smoothed0 w) in s_window s = w /\ s_deque s = last_n w (map fst h) /\ s_count s = weights h /\ (s_total s == weighted h)%Q).
  { cbn zeta. induction h as [|[v n] h IH] using rev_ind; [unfold weights, weighted, last_n; cbn; rewrite ?skipn_nil; repeat split; reflexivity|].
    rewrite fold_left_app. cbn [fold_left]. destruct IH as (A & B & C & D). unfold sm_update at 1. cbn [s_window s_deque s_count s_total]. 
    unfold weights, weighted. rewrite !map_app. cbn [map fst snd]. rewrite list_sum_app, Qtotal_app. fold (weights h). fold (weighted h). repeat split.
    - exact A.
    - change (fold_left sm_update h (smoothed0 w)) with (fold_left sm_update h (smoothed0 w)). cbn. rewrite A, B. apply last_n_app.
    - cbn. rewrite C. lia.
    - cbn [Qtotal fold_right]. cbn. rewrite D. unfold qn. ring. }
  destruct G as (_ & A & B & C). split; [exact A|]. split; [exact B|]. split; [exact C|]. unfold sm_global_avg. rewrite B. split.
  - intros ->. reflexivity.
  - intro P. destruct (Nat.eqb_spec (weights h) 0); [lia|]. eexists. split; [reflexivity|]. fold (qn (weights h)). rewrite C. field. apply qn_pos. exact P.
Qed.
(** the window's average does not see the weights: only when each is 1 and the window holds all is it the global one *)
Theorem C120_window_average : forall w h, h <> [] -> length h <= w -> Forall (fun vn => snd vn = 1) h ->
  exists a g, sm_avg (fold_left sm_update h (smoothed0 w)) = Some a /\ sm_global_avg (fold_left sm_update h (smoothed0 w)) = Ok g /\ (a == g)%Q.
Proof.
  intros w h Ne L F. destruct (C120_smoothed w h) as (D & C & T & _ & G).
  assert (W : weights h = length h).
  { clear - F. unfold weights. induction F as [|x h A F IH]; [reflexivity|]. cbn [map]. change (list_sum (?a :: ?l)) with (a + list_sum l). rewrite A, IH. reflexivity. }
  assert (V : (weighted h == Qtotal (map fst h))%Q).
  { clear - F. unfold weighted. induction F as [|x h A F IH]; [reflexivity|]. cbn [map]. rewrite !Qtotal_cons, IH, A. unfold qn. cbn. ring. }
  assert (P : 0 < length h) by (destruct h; [congruence|cbn; lia]).
  destruct G as (g & Eg & Gg); [lia|]. unfold sm_avg. rewrite D. unfold last_n. rewrite map_length. replace (length h - w) with 0 by lia. cbn [skipn].
  destruct (map fst h) as [|q l] eqn:M; [apply map_eq_nil in M; congruence|]. rewrite <- M in *. eexists. exists g. split; [reflexivity|]. split; [exact Eg|].
  rewrite qsum_total, map_length. fold (qn (length h)). rewrite <- V, <- Gg, W. field. apply qn_pos. exact P.
Qed.
Theorem C120_weights_in_window_refuted : exists w h a g, sm_avg (fold_left sm_update h (smoothed0 w)) = Some a /\ sm_global_avg (fold_left sm_update h (smoothed0 w)) = Ok g /\
  (a == 1 # 2)%Q /\ (g == 3 # 4)%Q.
Proof. exists 20, [(0%Q, 1); (1%Q, 3)]. do 2 eexists. repeat split; vm_compute; reflexivity. Qed.
(** value is the latest, max the largest of the window *)
Theorem C120_value_max : forall w h v n, 0 < w -> let s := fold_left sm_update (h ++ [(v, n)]) (smoothed0 w) in
  sm_value s = Ok v /\ exists m, sm_max s = Ok m /\ In m (last_n w (map fst (h ++ [(v, n)]))) /\ forall x, In x (last_n w (map fst (h ++ [(v, n)]))) -> (x <= m)%Q.
Proof.
  intros w h v n Hw. cbn zeta. destruct (C120_smoothed w (h ++ [(v, n)])) as (D & _). unfold sm_value, sm_max. rewrite D, map_app. cbn [map fst].
  assert (E : exists d, last_n w (map fst h ++ [v]) = d ++ [v]).
  { unfold last_n. rewrite skipn_app, app_length. cbn [length]. replace (length (map fst h) + 1 - w - length (map fst h)) with 0 by lia. eexists. reflexivity. }
  destruct E as (d & ->). rewrite rev_app_distr. split; [reflexivity|].
  assert (G : forall l x, exists m, fold_left (fun a b => if Qle_bool b a then a else b) l x = m /\ In m (x :: l) /\ forall y, In y (x :: l) -> (y <= m)%Q).
  { induction l as [|b l IH]; intro x; cbn [fold_left].
    - exists x. split; [reflexivity|]. split; [left; auto|]. intros y [->|[]]. apply Qle_refl.
    - destruct (Qle_bool b x) eqn:Q.
      + apply Qle_bool_iff in Q. destruct (IH x) as (m & A & B & C). exists m. split; [exact A|]. split; [destruct B; [left|right; right]; auto|].
        intros y [->|[->|I]]; [apply C; left; auto| |apply C; right; auto]. eapply Qle_trans; [exact Q|apply C; left; auto].
      + assert (Q' : (x <= b)%Q). { apply Qnot_lt_le. intro X. apply Qlt_le_weak, Qle_bool_iff in X. congruence. }
        destruct (IH b) as (m & A & B & C). exists m. split; [exact A|]. split; [destruct B; [right; left|right; right]; auto|].
        intros y [->|[->|I]]; [|apply C; left; auto|apply C; right; auto]. eapply Qle_trans; [exact Q'|apply C; left; auto]. }
  destruct (d ++ [v]) as [|x l] eqn:Ed; [destruct d; discriminate|]. destruct (G l x) as (m & A & B & C). exists m. rewrite A. auto.
Qed.

Lemma insert_q_perm x l : Permutation (insert_q x l) (x :: l).
Proof. induction l as [|h r IH]; [reflexivity|]. cbn [insert_q]. destruct (Qle_bool x h); [reflexivity|]. rewrite IH. apply perm_swap. Qed.
Lemma sort_q_perm l : Permutation (fold_right insert_q [] l) l.
Proof. induction l as [|x l IH]; [reflexivity|]. cbn [fold_right]. rewrite insert_q_perm. apply perm_skip. exact IH. Qed.
Lemma sort_q_sorted l : StronglySorted Qle (fold_right insert_q [] l).
Proof.
  induction l as [|x l IH]; [constructor|]. cbn [fold_right]. revert IH. generalize (fold_right insert_q [] l). clear. intros l H.
  induction H as [|h l H IH F]; cbn [insert_q]; [repeat constructor|]. destruct (Qle_bool x h) eqn:E.
  - apply Qle_bool_iff in E. constructor; [constructor; auto|]. constructor; [exact E|]. eapply Forall_impl; [|exact F]. cbn. intros. eapply Qle_trans; eauto.
  - constructor; [exact IH|]. rewrite insert_q_perm. constructor; [|exact F]. apply Qnot_lt_le. intro X. apply Qlt_le_weak, Qle_bool_iff in X. congruence.
Qed.
Lemma sorted_split (l : list Q) : StronglySorted Qle l -> forall k, k < length l ->
  Forall (fun x => (x <= nth k l 0)%Q) (firstn (S k) l) /\ Forall (fun x => (nth k l 0 <= x)%Q) (skipn k l).
Proof.
  induction 1 as [|x l H IH F]; intros k Hk; [cbn in Hk; lia|]. destruct k as [|k].
  - cbn [firstn skipn nth]. split; [constructor; [apply Qle_refl|constructor]|]. constructor; [apply Qle_refl|]. exact F.
  - cbn [length] in Hk. destruct (IH k) as [A B]; [lia|]. change (firstn (S (S k)) (x :: l)) with (x :: firstn (S k) l). cbn [nth]. split; [|exact B].
    constructor; [|exact A]. rewrite Forall_forall in F. apply F, nth_In. lia.
Qed.
Lemma filter_all {A} (p : A -> bool) l : Forall (fun x => p x = true) l -> filter p l = l.
Proof. induction 1 as [|x l E F IH]; [reflexivity|]. cbn [filter]. rewrite E, IH. reflexivity. Qed.
Lemma filter_perm_len {A} (p : A -> bool) a b : Permutation a b -> length (filter p a) = length (filter p b).
Proof. induction 1 as [|x a b P IH|x y a|a b c P1 I1 P2 I2]; cbn [filter]; [reflexivity|destruct (p x); cbn [length]; lia|destruct (p x), (p y); reflexivity|lia]. Qed.
(** the median is a value of the window; at least half of the window is at most it, and more than half at least it *)
Theorem C120_median : forall w h, 0 < w -> h <> [] -> let d := last_n w (map fst h) in
  exists m, sm_median (fold_left sm_update h (smoothed0 w)) = Ok m /\ In m d /\
    length d <= 2 * length (filter (fun x => Qle_bool x m) d) /\ length d < 2 * length (filter (fun x => Qle_bool m x) d).
Proof.
  intros w h Hw Ne. cbn zeta. destruct (C120_smoothed w h) as (D & _). unfold sm_median. rewrite D.
  assert (P : 0 < length (last_n w (map fst h))) by (unfold last_n; rewrite skipn_length, map_length; destruct h; [congruence|cbn [length]; lia]).
  destruct (last_n w (map fst h)) as [|q l] eqn:E; [cbn in P; lia|]. rewrite <- E in *. set (d := last_n w (map fst h)) in *. clearbody d. clear E q l D.
  eexists. split; [reflexivity|]. set (k := (length d - 1) / 2). set (s := fold_right insert_q [] d).
  assert (Pm : Permutation s d) by apply sort_q_perm.
  assert (K1 : 2 * k <= length d - 1) by (apply Nat.mul_div_le; lia).
  assert (K2 : length d - 1 < 2 * S k) by (apply Nat.mul_succ_div_gt; lia).
  assert (Ls : length s = length d) by (apply Permutation_length; exact Pm).
  destruct (sorted_split s (sort_q_sorted d) k) as [A B]; [lia|].
  fold s. assert (Im : In (nth k s 0%Q) d) by (eapply Permutation_in; [exact Pm|apply nth_In; lia]). revert A B Im. generalize (nth k s 0%Q). intros m A B Im.
  split; [exact Im|]. rewrite <- !(filter_perm_len _ _ _ Pm). split.
  - assert (A' : Forall (fun x => Qle_bool x m = true) (firstn (S k) s)) by (eapply Forall_impl; [|exact A]; cbn; intros x X; apply Qle_bool_iff; exact X).
    rewrite <- (firstn_skipn (S k) s) at 1. rewrite filter_app, app_length, (filter_all _ _ A'), firstn_length, Nat.min_l by lia. lia.
  - assert (B' : Forall (fun x => Qle_bool m x = true) (skipn k s)) by (eapply Forall_impl; [|exact B]; cbn; intros x X; apply Qle_bool_iff; exact X).
    rewrite <- (firstn_skipn k s) at 1. rewrite filter_app, app_length, (filter_all (fun x => Qle_bool m x) _ B'), skipn_length. lia.
Qed.
Example C120_median_case : sm_median (fold_left sm_update [(9%Q, 1); (5%Q, 1); (1%Q, 1); (3%Q, 1); (2%Q, 1)] (smoothed0 4)) = Ok 2%Q.
Proof. reflexivity. Qed.

(** after synchronizing, each rank has the average of the values of all ranks, and its own window *)
Theorem C120_synchronize : forall w (hs : list (list (Q * nat))) r h, nth_error hs r = Some h ->
  let ranks := map (fun h => fold_left sm_update h (smoothed0 w)) hs in
  exists s, nth_error (sm_synchronize ranks) r = Some s /\ s_deque s = last_n w (map fst h) /\ s_count s = weights (concat hs) /\ (s_total s == weighted (concat hs))%Q.
Proof.
  intros w hs r h Hr. cbn zeta. unfold sm_synchronize. rewrite !map_map, !nth_error_map, Hr. cbn [option_map]. eexists. split; [reflexivity|]. cbn [s_deque s_count s_total].
  split; [apply C120_smoothed|]. split.
  - clear. unfold weights. induction hs as [|h hs IH]; [reflexivity|]. cbn [map concat]. rewrite map_app, list_sum_app. change (list_sum (?a :: ?l)) with (a + list_sum l).
    rewrite IH. f_equal. apply C120_smoothed.
  - rewrite qsum_total. clear. unfold weighted. induction hs as [|h hs IH]; [reflexivity|]. cbn [map concat]. rewrite map_app, Qtotal_app, Qtotal_cons.
    rewrite IH. apply Qplus_comp; [|reflexivity]. apply C120_smoothed.
Qed.
(** synchronizing again multiplies the weight of what was there by the number of ranks *)
Theorem C120_synchronize_twice_refuted : forall ranks r s, nth_error (sm_synchronize ranks) r = Some s ->
  exists s', nth_error (sm_synchronize (sm_synchronize ranks)) r = Some s' /\ s_count s' = length ranks * s_count s /\ (s_total s' == qn (length ranks) * s_total s)%Q.
Proof.
  intros ranks r s Hs. unfold sm_synchronize at 1. rewrite nth_error_map, Hs. cbn [option_map]. eexists. split; [reflexivity|]. cbn [s_count s_total].
  assert (A : forall x, In x (sm_synchronize ranks) -> s_count x = s_count s /\ s_total x = s_total s).
  { apply nth_error_In in Hs. unfold sm_synchronize in *. intros x Hx. apply in_map_iff in Hs, Hx. destruct Hs as (? & <- & _), Hx as (? & <- & _). auto. }
  assert (L : length (sm_synchronize ranks) = length ranks) by (unfold sm_synchronize; apply map_length).
  rewrite <- L. rewrite qsum_total. revert A. generalize (sm_synchronize ranks). clear. induction l as [|x l IH]; intro A; [split; [reflexivity|cbn; unfold qn; cbn; ring]|].
  destruct IH as [I1 I2]; [intros; apply A; right; auto|]. destruct (A x) as [B1 B2]; [left; auto|]. cbn [map length]. split.
  - change (list_sum (?a :: ?l)) with (a + list_sum l). rewrite I1, B1. lia.
  - rewrite Qtotal_cons, I2, B2. replace (S (length l)) with (1 + length l) by lia. rewrite qn_add. unfold qn at 2. cbn. ring.
Qed.

(** all_gather: every rank gets the data of all ranks, in the order of the ranks, whatever the sizes and the padding *)
Theorem C120_all_gather : forall (T : Type) (dumps : T -> list nat) loads empty datas,
  (forall x, In x datas -> loads (dumps x) = Ok x) -> (forall r n, n <= length (empty r n)) ->
  all_gather dumps loads empty datas = Ok (map (fun _ => datas) datas).
Proof.
  intros T dumps loads empty datas Hl He. unfold all_gather. destruct datas as [|a [|b datas]]; [reflexivity|reflexivity|].
  set (ds := a :: b :: datas) in *. set (M := list_max (map (@length nat) (map dumps ds))).
  assert (G : forall l k, (forall x, In x l -> In x ds) -> loads_all loads (map (@length nat) (map dumps l))
    (map (fun rb => let '(r, b0) := rb in if Nat.eqb (length b0) M then b0 else b0 ++ firstn (M - length b0) (empty r (M - length b0))) (combine (seq k (length (map dumps l))) (map dumps l))) = Ok l).
  { induction l as [|x l IH]; intros k I; [reflexivity|]. cbn [map length seq combine loads_all].
    assert (E : firstn (length (dumps x)) (if Nat.eqb (length (dumps x)) M then dumps x else dumps x ++ firstn (M - length (dumps x)) (empty k (M - length (dumps x)))) = dumps x).
    { destruct (Nat.eqb (length (dumps x)) M); [apply firstn_all|]. rewrite firstn_app, Nat.sub_diag, firstn_all, app_nil_r. reflexivity. }
    rewrite E, Hl by (apply I; left; reflexivity). cbn [bind]. rewrite IH by (intros; apply I; right; assumption). reflexivity. }
  rewrite (G ds 0) by auto. rewrite (proj2 (forallb_forall _ _)); [reflexivity|]. intros t I. apply in_map_iff in I. destruct I as ([r b0] & <- & I).
  apply in_combine_r in I. apply Nat.eqb_eq. destruct (Nat.eqb_spec (length b0) M) as [E|E]; [exact E|].
  assert (L : length b0 <= M).
  { unfold M. assert (X : list_max (map (@length nat) (map dumps ds)) <= list_max (map (@length nat) (map dumps ds))) by auto. apply list_max_le in X.
    rewrite Forall_forall in X. apply X. apply in_map. exact I. }
  rewrite app_length, firstn_length, Nat.min_l by apply He. lia.
Qed.

(** the average of a name over all ranks *)
Definition lookup (d : qdict) (k : nat) : Q := match find (fun kv => Nat.eqb (fst kv) k) d with Some (_, v) => v | None => 0%Q end.
Lemma insert_key_perm x l : Permutation (insert_key x l) (x :: l).
Proof.
  induction l as [|h r IH]; [reflexivity|]. cbn [insert_key]. destruct (Nat.leb (fst x) (fst h)); [reflexivity|].
  eapply Permutation_trans; [apply perm_skip; exact IH|apply perm_swap].
Qed.
Lemma sort_keys_perm d : Permutation (sort_keys d) d.
Proof. unfold sort_keys. induction d as [|x d IH]; [reflexivity|]. cbn [fold_right]. rewrite insert_key_perm. apply perm_skip. exact IH. Qed.
Lemma sort_keys_sorted d : StronglySorted (fun a b => fst a <= fst b) (sort_keys d).
Proof.
  unfold sort_keys. induction d as [|x d IH]; [constructor|]. cbn [fold_right]. revert IH. generalize (fold_right insert_key [] d). clear. intros l H.
  induction H as [|h l H IH F]; cbn [insert_key]; [repeat constructor|]. destruct (Nat.leb (fst x) (fst h)) eqn:E.
  - apply Nat.leb_le in E. constructor; [constructor; auto|]. constructor; [exact E|]. eapply Forall_impl; [|exact F]. cbn. intros; lia.
  - apply Nat.leb_gt in E. constructor; [exact IH|]. rewrite insert_key_perm. constructor; [lia|exact F].
Qed.
Lemma sorted_unique a : forall b, StronglySorted le a -> StronglySorted le b -> Permutation a b -> a = b.
Proof.
  induction a as [|x a IH]; intros b Sa Sb P; [apply Permutation_nil in P; auto|]. destruct b as [|y b]; [apply Permutation_sym, Permutation_nil in P; discriminate|].
  inversion Sa as [|? ? A1 A2]; inversion Sb as [|? ? B1 B2]; subst. rewrite Forall_forall in A2, B2.
  assert (x = y).
  { assert (Ix : In x (y :: b)) by (eapply Permutation_in; [exact P|left; auto]). assert (Iy : In y (x :: a)) by (eapply Permutation_in; [apply Permutation_sym; exact P|left; auto]).
    destruct Ix as [->|Ix]; [auto|]. destruct Iy as [->|Iy]; [auto|]. apply A2 in Iy. apply B2 in Ix. lia. }
  subst. f_equal. apply IH; auto. eapply Permutation_cons_inv. exact P.
Qed.
Lemma sorted_map (d : qdict) : StronglySorted (fun a b => fst a <= fst b) d -> StronglySorted le (map fst d).
Proof. induction 1 as [|x d H IH F]; [constructor|]. cbn [map]. constructor; [exact IH|]. rewrite Forall_forall in *. intros y I. apply in_map_iff in I. destruct I as (z & <- & I). auto. Qed.
Lemma lookup_perm a b : NoDup (map fst a) -> Permutation a b -> forall k, lookup a k = lookup b k.
Proof.
  intros N P k. assert (C : forall d, NoDup (map fst d) -> forall v, In (k, v) d -> lookup d k = v).
  { clear. induction d as [|[k' v'] d IH]; intros N v I; [destruct I|]. cbn [map fst] in N. inversion N as [|? ? N1 N2]; subst. unfold lookup. cbn [find fst].
    destruct I as [I|I]; [injection I as -> ->; rewrite Nat.eqb_refl; reflexivity|]. destruct (Nat.eqb_spec k' k) as [->|X]; [exfalso; apply N1; apply (in_map fst) in I; exact I|].
    apply IH; auto. }
  assert (Z : forall d, ~ In k (map fst d) -> lookup d k = 0%Q).
  { clear. induction d as [|[k' v'] d IH]; intro N; [reflexivity|]. unfold lookup. cbn [find fst]. destruct (Nat.eqb_spec k' k) as [->|X]; [exfalso; apply N; left; reflexivity|].
    apply IH. intro I. apply N. right. exact I. }
  assert (Nb : NoDup (map fst b)) by (eapply Permutation_NoDup; [apply Permutation_map; exact P|exact N]).
  destruct (in_dec Nat.eq_dec k (map fst a)) as [I|I].
  - apply in_map_iff in I. destruct I as ([k' v] & E & I). cbn in E. subst. rewrite (C a N v I). symmetry. apply C; [exact Nb|]. eapply Permutation_in; eauto.
  - rewrite Z by exact I. symmetry. apply Z. intro J. apply I. eapply Permutation_in; [apply Permutation_sym, Permutation_map; exact P|exact J].
Qed.
Lemma lookup_nth (d : qdict) : NoDup (map fst d) -> forall j, lookup d (nth j (map fst d) 0) = nth j (map snd d) 0%Q \/ length d <= j.
Proof.
  induction d as [|[k v] d IH]; intros N j; [right; cbn; lia|]. cbn [map fst] in N. inversion N as [|? ? N1 N2]; subst. destruct j as [|j].
  - left. unfold lookup. cbn [map fst find nth snd]. rewrite Nat.eqb_refl. reflexivity.
  - destruct (IH N2 j) as [E|E]; [|right; cbn; lia]. destruct (Nat.le_gt_cases (length d) j) as [L|L]; [right; cbn; lia|]. left. cbn [map fst snd nth]. rewrite <- E. unfold lookup. cbn [find fst].
    destruct (Nat.eqb_spec k (nth j (map fst d) 0)) as [X|X]; [|reflexivity]. exfalso. apply N1. rewrite X. apply nth_In. rewrite map_length. exact L.
Qed.
(** reduce_dict with the same names on all ranks, in any order: every rank gets, for every name, the sum or the mean over the
    ranks of the values of that name *)
Theorem C120_reduce_dict : forall average (ranks : list qdict) (K : list nat), 2 <= length ranks -> K <> [] -> NoDup K -> Forall (fun d : qdict => Permutation (map fst d) K) ranks ->
  exists out, reduce_dict average ranks = Ok out /\ length out = length ranks /\
    forall r, In r out -> Permutation (map fst r) K /\ StronglySorted le (map fst r) /\
      forall k, In k K -> lookup r k = let t := qsum (map (fun d => lookup d k) ranks) in if average then (t / qn (length ranks))%Q else t.
Proof.
  intros average ranks K L2 Kn Kd F. unfold reduce_dict. destruct (Nat.ltb_spec (length ranks) 2) as [X|_]; [lia|].
  set (sorted := map sort_keys ranks).
  assert (SK : exists ks, Permutation ks K /\ StronglySorted le ks /\ Forall (fun d => map fst (sort_keys d) = ks) ranks).
  { destruct ranks as [|d0 ranks]; [cbn in L2; lia|]. exists (map fst (sort_keys d0)). rewrite Forall_forall in F.
    assert (P : forall d, In d (d0 :: ranks) -> Permutation (map fst (sort_keys d)) K) by (intros d I; rewrite (sort_keys_perm d); apply F; exact I).
    split; [apply P; left; auto|]. split; [apply sorted_map, sort_keys_sorted|]. apply Forall_forall. intros d I.
    apply sorted_unique; try (apply sorted_map, sort_keys_sorted). rewrite (P d I). apply Permutation_sym, P. left. auto. }
  destruct SK as (ks & Pk & Sk & Fk). rewrite Forall_forall in Fk.
  assert (Dk : NoDup ks) by (eapply Permutation_NoDup; [apply Permutation_sym; exact Pk|exact Kd]).
  assert (Ln : forall v, In v (map (map snd) sorted) -> length v = length ks).
  { intros v I. apply in_map_iff in I. destruct I as (s & <- & I). unfold sorted in I. apply in_map_iff in I. destruct I as (d & <- & I). rewrite map_length, <- (map_length fst), (Fk d I). reflexivity. }
  assert (Lk : 0 < length ks) by (rewrite (Permutation_length Pk); destruct K; [congruence|cbn; lia]).
  assert (AR : all_reduce (map (map snd) sorted) = Ok (map (fun j => qsum (map (fun v => nth j v 0%Q) (map (map snd) sorted))) (seq 0 (length ks)))).
  { unfold all_reduce. assert (H0 : length (hd [] (map (map snd) sorted)) = length ks).
    { destruct (map (map snd) sorted) as [|v l] eqn:E; [|apply Ln; left; reflexivity]. unfold sorted in E. rewrite map_map in E. apply map_eq_nil in E. subst. cbn in L2. lia. }
    rewrite H0. destruct (Nat.eqb_spec (length ks) 0); [lia|]. rewrite (proj2 (forallb_forall _ _)); [reflexivity|]. intros v I. apply Nat.eqb_eq. auto. }
  rewrite AR. cbn [bind]. clear AR. set (vals := map _ (seq 0 (length ks))).
  set (vs := if average then map (fun v => (v / inject_Z (Z.of_nat (length ranks)))%Q) vals else vals).
  eexists. split; [reflexivity|]. split; [unfold sorted; rewrite !map_length; reflexivity|].
  assert (Lv : length vs = length ks) by (unfold vs, vals; destruct average; rewrite !map_length, ?seq_length; reflexivity).
  intros r I. apply in_map_iff in I. destruct I as (s & <- & I). unfold sorted in I. apply in_map_iff in I. destruct I as (d & <- & I). rewrite (Fk d I).
  assert (Kf : map fst (combine ks vs) = ks /\ map snd (combine ks vs) = vs).
  { clear - Lv. clearbody vs. clear vals. revert vs Lv. induction ks as [|k ks IH]; intros [|v vs] L; try discriminate; [auto|]. cbn. destruct (IH vs) as [A B]; [injection L; auto|]. rewrite A, B. auto. }
  destruct Kf as [Kf Kv]. rewrite Kf. split; [exact Pk|]. split; [exact Sk|]. intros k Ik.
  assert (Ij : In k ks) by (eapply Permutation_in; [apply Permutation_sym; exact Pk|exact Ik]). apply (In_nth _ _ 0) in Ij. destruct Ij as (j & Hj & Ej).
  assert (NK : NoDup (map fst (combine ks vs))) by (rewrite Kf; exact Dk).
  destruct (lookup_nth _ NK j) as [E|E]; [|rewrite combine_length in E; lia]. rewrite Kf, Kv, Ej in E. rewrite E. cbn zeta.
  assert (V : nth j vals 0%Q = qsum (map (fun d => lookup d k) ranks)).
  { unfold vals. erewrite nth_indep by (rewrite map_length, seq_length; exact Hj). rewrite (map_nth (fun j => qsum (map (fun v => nth j v 0%Q) (map (map snd) sorted))) (seq 0 (length ks)) 0).
    rewrite seq_nth by exact Hj. cbn [Nat.add]. f_equal. unfold sorted. rewrite !map_map. apply map_ext_in. intros d' I'.
    assert (Nd : NoDup (map fst (sort_keys d'))) by (rewrite (Fk d' I'); exact Dk).
    rewrite (lookup_perm d' (sort_keys d')); [|rewrite (sort_keys_perm d') in Nd; exact Nd|apply Permutation_sym, sort_keys_perm].
    destruct (lookup_nth _ Nd j) as [E'|E']; [|rewrite <- (map_length fst), (Fk d' I') in E'; lia]. rewrite (Fk d' I'), Ej in E'. symmetry. exact E'. }
  unfold vs. destruct average; [|exact V]. rewrite <- V. fold (qn (length ranks)).
  erewrite nth_indep by (rewrite map_length; unfold vals; rewrite map_length, seq_length; exact Hj). rewrite (map_nth (fun v => (v / qn (length ranks))%Q) vals 0%Q). reflexivity.
Qed.
(** one rank: the dictionary stays; no names: stack fails *)
Theorem C120_reduce_edges : forall average (d : qdict) (ranks : list qdict), reduce_dict average [d] = Ok [d] /\
  (2 <= length ranks -> Forall (fun d : qdict => d = []) ranks -> reduce_dict average ranks = Raise RuntimeError).
Proof.
  intros average d ranks. split; [reflexivity|]. intros L F. unfold reduce_dict. destruct (Nat.ltb_spec (length ranks) 2); [lia|].
  destruct F as [|d0 l A F]; [cbn in L; lia|]. subst. reflexivity.
Qed.
(** with as many, but not the same, names on the ranks the values of different names are mixed without an error *)
Theorem C120_reduce_other_names_refuted : exists ranks out, reduce_dict true ranks = Ok out /\
  ranks = [[(0, 2%Q); (1, 10%Q)]; [(0, 4%Q); (2, 30%Q)]] /\
  exists a b, nth_error out 0 = Some a /\ nth_error out 1 = Some b /\ (lookup a 1 == 20)%Q /\ (lookup b 2 == 20)%Q.
Proof. eexists. eexists. split; [|split; [reflexivity|]]; [reflexivity|]. do 2 eexists. repeat split; reflexivity. Qed.

(** log_every gives the objects in their order and prints at the multiples of print_freq and at the last *)
Theorem C120_log_every : forall (A : Type) (l : list A) f, l <> [] -> 0 < f ->
  log_every l f = Ok (l, filter (fun i => Nat.eqb (i mod f) 0 || Nat.eqb i (length l - 1)) (seq 0 (length l))).
Proof.
  intros A l f Ne Hf. unfold log_every.
  assert (G : forall r k n g p, foldM (fun s (io : nat * A) => let '(given, printed) := s in let '(i, obj) := io in
                     let given := given ++ [obj] in
                     if Nat.eqb f 0 then Raise ZeroDivisionError
                     else if Nat.eqb (i mod f) 0 || Nat.eqb i (n - 1) then Ok (given, printed ++ [i]) else Ok (given, printed))
                  (combine (seq k (length r)) r) (g, p) = Ok (g ++ r, p ++ filter (fun i => Nat.eqb (i mod f) 0 || Nat.eqb i (n - 1)) (seq k (length r)))).
  { induction r as [|x r IH]; intros k n g p; [cbn; rewrite !app_nil_r; reflexivity|]. cbn [length seq combine foldM filter]. destruct (Nat.eqb_spec f 0); [lia|].
    destruct (Nat.eqb (k mod f) 0 || Nat.eqb k (n - 1)); cbn [bind]; rewrite IH, <- !app_assoc; reflexivity. }
  rewrite G. cbn [bind app]. destruct (Nat.eqb_spec (length l) 0); [destruct l; [congruence|discriminate]|]. reflexivity.
Qed.
(** the failures: nothing to iterate, or print_freq 0 *)
Theorem C120_log_every_fails : forall (A : Type) (l : list A) f, l = [] \/ f = 0 -> log_every l f = Raise ZeroDivisionError.
Proof. intros A l f [E|E]; subst; [reflexivity|]. unfold log_every. destruct l; reflexivity. Qed.

(** collate_fn: part j of the batch has part j of every sample; there are as many parts as the sample with the fewest has *)
Theorem C120_collate_fn : forall (A : Type) (batch : list (list A)) d, batch <> [] ->
  (forall n, n <= length (collate_fn batch d) <-> Forall (fun s => n <= length s) batch) /\
  forall j, j < length (collate_fn batch d) -> exists part, nth_error (collate_fn batch d) j = Some part /\ length part = length batch /\
    forall i s, nth_error batch i = Some s -> nth_error part i = nth_error s j.
Proof.
  intros A batch d Ne. assert (G : forall n, n <= length (collate_fn batch d) <-> Forall (fun s => n <= length s) batch).
  { intro n. unfold collate_fn. destruct batch as [|s0 r]; [congruence|]. rewrite map_length, seq_length.
    assert (M : forall (r : list (list A)) a, n <= fold_left Nat.min (map (@length A) r) a <-> n <= a /\ Forall (fun s => n <= length s) r).
    { clear. induction r as [|s r IH]; intro a; cbn [map fold_left]; [split; [auto|tauto]|]. rewrite IH. split.
      - intros [X Y]. split; [lia|]. constructor; [lia|exact Y].
      - intros [X Y]. inversion Y; subst. split; [lia|assumption]. }
    rewrite M. split; [intros [X Y]; constructor; assumption|intro X; inversion X; subst; auto]. }
  split; [exact G|]. intros j Hj. pose proof (proj1 (G (S j)) Hj) as F. revert Hj. unfold collate_fn. destruct batch as [|s0 r]; [congruence|]. set (b := s0 :: r) in *.
  rewrite map_length, seq_length. intro Hj. rewrite nth_error_map, (nth_error_nth' _ 0) by (rewrite seq_length; exact Hj). rewrite seq_nth by exact Hj. cbn [option_map Nat.add].
  eexists. split; [reflexivity|]. split; [apply map_length|]. intros i s Hs. rewrite nth_error_map, Hs. cbn [option_map]. symmetry. apply nth_error_nth'.
  rewrite Forall_forall in F. apply nth_error_In in Hs. apply (F s Hs).
Qed.

(** the warm-up factor: the given one at the start, 1 from warmup_iters on, on the straight line in between; between the
    two and never falling when the given factor is at most 1 *)
Lemma qn_le a b : a <= b -> (qn a <= qn b)%Q.
Proof. intro H. unfold qn. rewrite <- Zle_Qle. lia. Qed.
Theorem C120_warmup : forall n f, (0 < n -> (warmup n f 0 == f)%Q) /\ (forall x, n <= x -> warmup n f x = 1%Q) /\
  (forall x, x < n -> (warmup n f x == f + (1 - f) * (qn x / qn n))%Q) /\
  ((f <= 1)%Q -> forall x y, x <= y -> (warmup n f x <= warmup n f y)%Q) /\
  ((f <= 1)%Q -> forall x, (f <= warmup n f x)%Q /\ (warmup n f x <= 1)%Q).
Proof.
  intros n f.
  assert (E1 : forall x, n <= x -> warmup n f x = 1%Q) by (intros x L; unfold warmup; rewrite (proj2 (Nat.leb_le _ _) L); reflexivity).
  assert (E2 : forall x, x < n -> (warmup n f x == f + (1 - f) * (qn x / qn n))%Q).
  { intros x L. unfold warmup. destruct (Nat.leb_spec n x); [lia|]. fold (qn x) (qn n). cbn zeta. field. apply qn_pos. lia. }
  assert (P : forall m, 0 < m -> (0 < qn m)%Q) by (intros m L; unfold qn; change 0%Q with (inject_Z 0); rewrite <- Zlt_Qlt; lia).
  assert (M : (f <= 1)%Q -> forall x y, x <= y -> (warmup n f x <= warmup n f y)%Q).
  { intros Hf x y L. destruct (Nat.le_gt_cases n y) as [Ly|Ly].
    - rewrite (E1 y Ly). destruct (Nat.le_gt_cases n x) as [Lx|Lx]; [rewrite (E1 x Lx); apply Qle_refl|]. rewrite (E2 x Lx).
      assert (R : (qn x / qn n <= 1)%Q). { apply Qle_shift_div_r; [apply P; lia|]. rewrite Qmult_1_l. apply qn_le. lia. }
      assert (0 <= 1 - f)%Q by lra. assert (A : ((1 - f) * (qn x / qn n) <= (1 - f) * 1)%Q).
      { rewrite (Qmult_comm (1 - f) (qn x / qn n)), (Qmult_comm (1 - f) 1). apply Qmult_le_compat_r; assumption. }
      lra.
    - rewrite (E2 x), (E2 y) by lia. apply Qplus_le_compat; [apply Qle_refl|]. rewrite !(Qmult_comm (1 - f)). apply Qmult_le_compat_r; [|lra].
      unfold Qdiv. apply Qmult_le_compat_r; [apply qn_le; exact L|]. apply Qlt_le_weak, Qinv_lt_0_compat, P. lia. }
  split; [|split; [exact E1|split; [exact E2|split; [exact M|]]]].
  - intro L. rewrite (E2 0 L). unfold qn at 1. cbn [Z.of_nat]. unfold Qdiv. change (inject_Z 0) with 0%Q. ring.
  - intros Hf x. split.
    + destruct (Nat.eq_dec n 0) as [->|N]; [rewrite E1 by lia; exact Hf|]. eapply Qle_trans; [|apply (M Hf 0 x); lia].
      rewrite (E2 0) by lia. unfold qn at 1. cbn [Z.of_nat]. unfold Qdiv. change (inject_Z 0) with 0%Q. lra.
    + rewrite <- (E1 (n + x)) by lia. apply (M Hf). lia.
Qed.

Example C120_cases :
  s_deque (fold_left sm_update [(1%Q, 1); (2%Q, 2); (4%Q, 1)] (smoothed0 2)) = [2%Q; 4%Q] /\
  s_count (fold_left sm_update [(1%Q, 1); (2%Q, 2); (4%Q, 1)] (smoothed0 2)) = 4 /\
  all_gather (fun x => x) (fun x => Ok x) (fun _ n => repeat 9 n) [[1; 2]; []; [3]] = Ok [[[1; 2]; []; [3]]; [[1; 2]; []; [3]]; [[1; 2]; []; [3]]] /\
  reduce_dict false [[(1, 1%Q); (0, 2%Q)]; [(0, 3%Q); (1, 4%Q)]] = Ok [[(0, 5%Q); (1, 5%Q)]; [(0, 5%Q); (1, 5%Q)]] /\
  log_every [7; 8; 9; 7; 8; 9] 2 = Ok ([7; 8; 9; 7; 8; 9], [0; 2; 4; 5]) /\ collate_fn [[1; 2]; [3; 4]] 0 = [[1; 3]; [2; 4]] /\
  (warmup 4 (1 # 2) 2 == 3 # 4)%Q.
Proof. repeat split; vm_compute; reflexivity. Qed.
Print Assumptions C120_smoothed.
Print Assumptions C120_window_average.
Print Assumptions C120_weights_in_window_refuted.
Print Assumptions C120_value_max.
Print Assumptions C120_median.
Print Assumptions C120_synchronize.
Print Assumptions C120_synchronize_twice_refuted.
Print Assumptions C120_all_gather.
Print Assumptions C120_reduce_dict.
Print Assumptions C120_reduce_edges.
Print Assumptions C120_reduce_other_names_refuted.
Print Assumptions C120_log_every.
Print Assumptions C120_log_every_fails.
Print Assumptions C120_collate_fn.
Print Assumptions C120_warmup.
