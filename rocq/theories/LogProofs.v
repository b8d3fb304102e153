From Coq Require Import String Ascii List ZArith Bool Arith Lia Sorted.
From Verif Require Import Base LogModel LogSpec.
Import ListNotations.
Open Scope list_scope.
Open Scope nat_scope.

Lemma append_inj_l p a b : String.append p a = String.append p b -> a = b.
Proof. induction p as [|c p IH]; cbn; intro H; [exact H|]. injection H as H. auto. Qed.
Lemma length_append a b : String.length (String.append a b) = String.length a + String.length b.
Proof. induction a as [|c a IH]; cbn; [reflexivity|]. rewrite IH. reflexivity. Qed.
Lemma append_inj_r a b s : String.append a s = String.append b s -> a = b.
Proof.
  revert b. induction a as [|c a IH]; intros [|d b] H.
  - reflexivity.
  - apply (f_equal String.length) in H. cbn in H. rewrite length_append in H. lia.
  - apply (f_equal String.length) in H. cbn in H. rewrite length_append in H. lia.
  - cbn in H. injection H as -> H. f_equal. auto.
Qed.
Lemma fname_inj p a b : fname p a = fname p b -> a = b.
Proof.
  unfold fname. destruct (String.eqb p ""); intro H.
  - eapply append_inj_r; exact H.
  - apply append_inj_l in H. apply append_inj_l in H. eapply append_inj_r; exact H.
Qed.

Section P.
Variable V : Type.
Implicit Types stats : nat -> nat -> list (string * V).

Lemma logged_steps_In total freq c : 0 < freq -> (In c (logged_steps total freq) <-> 1 <= c <= total /\ Nat.divide freq c).
Proof.
  intro Hf. unfold logged_steps. rewrite filter_In, in_seq, Nat.eqb_eq.
  split; intros [H1 H2]; split; try lia.
  - apply Nat.mod_divide; [lia|exact H2].
  - apply Nat.mod_divide in H2; [exact H2|lia].
Qed.

Lemma training_In summary prefix stats e0 epochs total freq r : 0 < freq ->
  (In r (training_log summary prefix stats (fun _ _ => None) e0 epochs total freq) <->
   exists e c t v, logged stats e0 epochs total freq e c t v /\
     r = mkRec 0 (String.append prefix t) v (Z.of_nat total * Z.of_nat e + Z.of_nat c)%Z).
Proof.
  intro Hf. unfold training_log, logged. rewrite in_flat_map. split.
  - intros (e & He & H). rewrite in_flat_map in H. destruct H as (c & Hc & H).
    apply in_seq in He. apply logged_steps_In in Hc; [|exact Hf].
    cbn [log_training_progress hd] in H. rewrite app_nil_r in H. unfold tb_training in H.
    apply in_map_iff in H. destruct H as ([t v] & E & Ht). exists e, c, t, v. cbn in E. symmetry in E. intuition lia.
  - intros (e & c & t & v & (He & Hc & Hd & Ht) & E). exists e. split; [apply in_seq; lia|].
    rewrite in_flat_map. exists c. split; [apply logged_steps_In; auto|].
    cbn [log_training_progress hd]. rewrite app_nil_r. unfold tb_training. apply in_map_iff. exists (t, v). cbn. auto.
Qed.

Lemma step_inj total e1 c1 e2 c2 : 1 <= c1 <= total -> 1 <= c2 <= total ->
  (Z.of_nat total * Z.of_nat e1 + Z.of_nat c1 = Z.of_nat total * Z.of_nat e2 + Z.of_nat c2)%Z -> e1 = e2 /\ c1 = c2.
Proof.
  intros H1 H2 H.
  assert (e1 = e2).
  { destruct (Nat.lt_trichotomy e1 e2) as [L|[E|L]]; [exfalso|exact E|exfalso]; nia. }
  subst. split; [reflexivity|lia].
Qed.

Lemma training_one_value summary prefix stats e0 epochs total freq : 0 < freq ->
  (forall e c, NoDup (map fst (stats e c))) ->
  one_value_per_step (training_log summary prefix stats (fun _ _ => None) e0 epochs total freq).
Proof.
  intros Hf Hn r1 r2 H1 H2 _ Ht Hs.
  apply training_In in H1; [|exact Hf]. apply training_In in H2; [|exact Hf].
  destruct H1 as (e1 & c1 & t1 & v1 & (_ & Hc1 & _ & I1) & ->).
  destruct H2 as (e2 & c2 & t2 & v2 & (_ & Hc2 & _ & I2) & ->).
  cbn in Ht, Hs. apply append_inj_l in Ht. apply step_inj in Hs; try assumption. destruct Hs as [-> ->]. subst t2.
  assert (v1 = v2); [|congruence].
  specialize (Hn e2 c2). revert Hn I1 I2. generalize (stats e2 c2) as l. induction l as [|[a b] l IH]; cbn; intros Hn I1 I2; [easy|].
  inversion Hn; subst.
  destruct I1 as [E1|I1], I2 as [E2|I2].
  - congruence.
  - injection E1 as -> ->. exfalso. apply H1. apply (in_map fst) in I2. exact I2.
  - injection E2 as -> ->. exfalso. apply H1. apply (in_map fst) in I1. exact I1.
  - auto.
Qed.

(** order *)
Definition le_step (r1 r2 : record V) := (step r1 <= step r2)%Z.
Lemma StronglySorted_app_intro {A} (R : A -> A -> Prop) l1 l2 :
  StronglySorted R l1 -> StronglySorted R l2 -> (forall a b, In a l1 -> In b l2 -> R a b) -> StronglySorted R (l1 ++ l2).
Proof.
  induction l1 as [|a l1 IH]; cbn; intros S1 S2 H; [exact S2|].
  inversion S1; subst. constructor.
  - apply IH; auto.
  - apply Forall_forall. intros b Hb. apply in_app_iff in Hb. destruct Hb as [Hb|Hb].
    + rewrite Forall_forall in H3. auto.
    + auto.
Qed.
Lemma StronglySorted_flat_map {A B} (R : B -> B -> Prop) (Q : A -> A -> Prop) (f : A -> list B) l :
  StronglySorted Q l -> (forall a, In a l -> StronglySorted R (f a)) ->
  (forall a b x y, In a l -> In b l -> Q a b -> In x (f a) -> In y (f b) -> R x y) -> StronglySorted R (flat_map f l).
Proof.
  induction l as [|a l IH]; cbn; intros S H1 H2; [constructor|].
  inversion S; subst. apply StronglySorted_app_intro.
  - auto.
  - apply IH; auto. intros a0 b x y Ia Ib Hq Hx Hy. apply (H2 a0 b x y); auto.
  - intros x y Hx Hy. apply in_flat_map in Hy. destruct Hy as (b & Hb & Hy). rewrite Forall_forall in H4. apply (H2 a b x y); auto.
Qed.
Lemma StronglySorted_seq a n : StronglySorted lt (seq a n).
Proof.
  revert a. induction n as [|n IH]; intro a; cbn; constructor; [apply IH|].
  apply Forall_forall. intros x Hx. apply in_seq in Hx. lia.
Qed.
Lemma StronglySorted_filter {A} (R : A -> A -> Prop) f l : StronglySorted R l -> StronglySorted R (filter f l).
Proof.
  induction 1 as [|a l S IH F]; cbn; [constructor|]. destruct (f a); [|exact IH].
  constructor; [exact IH|]. rewrite Forall_forall in *. intros x Hx. apply filter_In in Hx. apply F, Hx.
Qed.
Lemma sorted_in_order (log : list (record V)) : StronglySorted le_step log -> in_order log.
Proof.
  intros S l1 r1 l2 r2 l3 ->. induction l1 as [|a l1 IH]; cbn in S; inversion S; subst.
  - rewrite Forall_forall in H2. apply H2. apply in_app_iff. right. left. reflexivity.
  - auto.
Qed.
Lemma tb_training_steps prefix (st : list (string * V)) e c t r : In r (tb_training prefix st e c t) -> step r = (t * e + c)%Z.
Proof. intro H. apply in_map_iff in H. destruct H as (p & <- & _). reflexivity. Qed.
Lemma training_sorted summary prefix stats e0 epochs total freq : 0 < freq ->
  in_order (training_log summary prefix stats (fun _ _ => None) e0 epochs total freq).
Proof.
  intro Hf. apply sorted_in_order. unfold training_log.
  apply StronglySorted_flat_map with (Q := lt).
  - apply StronglySorted_seq.
  - intros e _. apply StronglySorted_flat_map with (Q := lt).
    + apply StronglySorted_filter, StronglySorted_seq.
    + intros c _. cbn [log_training_progress hd]. rewrite app_nil_r.
      unfold tb_training. generalize (stats e c) as l. induction l as [|p l IH]; cbn; constructor; [exact IH|].
      apply Forall_forall. intros x Hx. apply in_map_iff in Hx. destruct Hx as (q & <- & _). unfold le_step. cbn. lia.
    + intros a b x y _ _ Hab Hx Hy. cbn [log_training_progress hd] in Hx, Hy. rewrite app_nil_r in Hx, Hy.
      apply tb_training_steps in Hx. apply tb_training_steps in Hy. unfold le_step. lia.
  - intros a b x y _ _ Hab Hx Hy. apply in_flat_map in Hx. apply in_flat_map in Hy.
    destruct Hx as (c & Hc & Hx), Hy as (d & Hd & Hy).
    apply logged_steps_In in Hc; [|exact Hf]. apply logged_steps_In in Hd; [|exact Hf].
    cbn [log_training_progress hd] in Hx, Hy. rewrite app_nil_r in Hx, Hy.
    apply tb_training_steps in Hx. apply tb_training_steps in Hy. unfold le_step. nia.
Qed.

Lemma training_resume summary prefix stats params e0 n1 n2 total freq :
  training_log summary prefix stats params e0 n1 total freq ++ training_log summary prefix stats params (e0 + n1) n2 total freq
  = training_log summary prefix stats params e0 (n1 + n2) total freq.
Proof. unfold training_log. rewrite seq_app, flat_map_app. reflexivity. Qed.

(** histograms *)
Lemma histogram_of_epoch summary prefix stats params e0 epochs total freq e c ps t (w : V) : 0 < freq ->
  e0 <= e < e0 + epochs -> 1 <= c <= total -> Nat.divide freq c -> params e c = Some ps -> In (t, w) ps -> contains "weight" (slashes t) = true ->
  In (mkRec 0 (slashes t) (summary w) (Z.of_nat c)) (training_log summary prefix stats params e0 epochs total freq).
Proof.
  intros Hf He Hc Hd Hp Ht Hw. unfold training_log. apply in_flat_map. exists e. split; [apply in_seq; lia|].
  apply in_flat_map. exists c. split; [apply logged_steps_In; auto|].
  cbn [log_training_progress hd]. rewrite Hp. apply in_app_iff. right.
  unfold tb_weights. apply in_map_iff. exists (t, w). split; [reflexivity|]. apply filter_In. auto.
Qed.

(** several loggers *)
Lemma several_nth summary prefix (st : list (string * V)) ps e c t loggers k :
  nth_error loggers k = Some TensorBoard ->
  nth_error (log_training_progress summary prefix st ps e c t loggers) k
  = Some (tb_training prefix st e c t ++
          match ps with Some l => if existsb (fun lg => match lg with TensorBoard => true | _ => false end) (firstn k loggers) then [] else tb_weights summary l c | None => [] end).
Proof.
  revert ps k. induction loggers as [|lg rest IH]; intros ps [|k] H; cbn in H |- *; try discriminate.
  - injection H as ->. cbn. reflexivity.
  - destruct lg; cbn.
    + rewrite (IH _ _ H). destruct ps as [l|]; [|reflexivity]. destruct existsb; reflexivity.
    + rewrite (IH _ _ H). reflexivity.
Qed.

(** lists of values *)
Lemma list_summary_multi_nth t (values : list V) s i v : nth_error values i = Some v -> In (mkRec i t v s) (list_summary t values s true).
Proof.
  intro H. unfold list_summary. apply in_map_iff. exists (i, v). split; [reflexivity|].
  assert (G : forall a, In (a + i, v) (combine (seq a (length values)) values)).
  { revert i H. induction values as [|x l IH]; intros [|i] H a; cbn in *; try discriminate.
    - injection H as ->. left. f_equal. lia.
    - right. replace (a + S i) with (S a + i) by lia. auto. }
  apply (G 0).
Qed.
Lemma list_summary_In t (values : list V) s multi r : In r (list_summary t values s multi) ->
  exists i v, nth_error values i = Some v /\ r = mkRec (if multi then i else 0) t v s.
Proof.
  unfold list_summary. intro H. apply in_map_iff in H. destruct H as ([i v] & <- & H). exists i, v. split; [|reflexivity].
  assert (G : forall a j, In (j, v) (combine (seq a (length values)) values) -> a <= j /\ nth_error values (j - a) = Some v).
  { clear. induction values as [|x l IH]; intros a j H; cbn in *; [easy|].
    destruct H as [H|H].
    - injection H as -> ->. split; [lia|]. rewrite Nat.sub_diag. reflexivity.
    - apply IH in H. destruct H as [L E]. split; [lia|]. replace (j - a) with (S (j - S a)) by lia. exact E. }
  apply G in H. rewrite Nat.sub_0_r in H. apply H.
Qed.
Definition values_of (names : list string) (m : modl V) : list V :=
  flat_map (fun n => match dget (state m) n with Some v => v | None => [] end) names.
Lemma tb_module_In names p s (m : modl V) r :
  In r (tb_module names p s m) <->
  has_children m = false /\ exists i v, nth_error (values_of names m) i = Some v /\ r = mkRec i (String.append p (String.append "/" (mname m))) v s.
Proof.
  unfold tb_module, values_of. destruct (has_children m).
  { split; [easy|]. intros [E _]. discriminate. }
  set (vs := flat_map _ names). split.
  - intro H. split; [reflexivity|]. destruct vs as [|v0 vs0] eqn:E; [easy|].
    apply list_summary_In in H. destruct H as (i & v & Hi & ->). exists i, v. split; [exact Hi|].
    destruct (Nat.ltb_spec 1 (length (v0 :: vs0))) as [L|L]; [reflexivity|].
    assert (i < length (v0 :: vs0)) by (apply nth_error_Some; congruence).
    destruct i; [reflexivity|]. cbn [length] in *. lia.
  - intros [_ (i & v & Hi & ->)]. destruct vs as [|v0 vs0] eqn:E; [destruct i; discriminate|].
    destruct (Nat.ltb_spec 1 (length (v0 :: vs0))) as [L|L].
    + apply list_summary_multi_nth. exact Hi.
    + assert (i < length (v0 :: vs0)) by (apply nth_error_Some; congruence).
      cbn [length] in *. destruct i; [|lia]. destruct vs0; [|cbn in L; lia]. cbn in Hi. injection Hi as ->. left. reflexivity.
Qed.
Lemma tb_buffers_In names p e c t (ms : list (modl V)) r :
  In r (tb_buffers names p e c t ms) <->
  exists m i v, In m ms /\ has_children m = false /\ nth_error (values_of names m) i = Some v /\
    r = mkRec i (String.append p (String.append "/" (mname m))) v (t * e + c)%Z.
Proof.
  unfold tb_buffers. rewrite in_flat_map. split.
  - intros (m & Hm & H). apply tb_module_In in H. destruct H as (Hh & i & v & Hv & E). exists m, i, v. auto.
  - intros (m & i & v & Hm & Hh & Hv & E). exists m. split; [exact Hm|]. apply tb_module_In. split; [exact Hh|]. exists i, v. auto.
Qed.
Lemma tb_buffers_one names p e c t (ms : list (modl V)) : NoDup (map mname ms) -> one_value_per_step (tb_buffers names p e c t ms).
Proof.
  intros Hn r1 r2 H1 H2 Hw Ht Hs. apply tb_buffers_In in H1. apply tb_buffers_In in H2.
  destruct H1 as (m1 & i1 & v1 & Hm1 & _ & E1 & ->), H2 as (m2 & i2 & v2 & Hm2 & _ & E2 & ->).
  cbn in Hw, Ht. subst i2. apply append_inj_l in Ht. injection Ht as Ht.
  assert (m1 = m2).
  { clear -Hn Hm1 Hm2 Ht. induction ms as [|m l IH]; cbn in *; [easy|]. inversion Hn; subst.
    destruct Hm1 as [->|I1], Hm2 as [->|I2].
    - reflexivity.
    - exfalso. apply H1. rewrite Ht. apply in_map. exact I2.
    - exfalso. apply H1. rewrite <- Ht. apply in_map. exact I1.
    - auto. }
  subst m2. assert (v1 = v2) by congruence. subst. reflexivity.
Qed.

(** CSV *)
Lemma csv_open_fold_get p names (fs : files V) n :
  dget (fold_left (csv_open p) names fs) (fname p n)
  = if existsb (String.eqb n) names then Some (match dget fs (fname p n) with Some l => l | None => [Header] end) else dget fs (fname p n).
Proof.
  revert fs. induction names as [|a names IH]; intro fs; cbn [fold_left existsb]; [reflexivity|].
  rewrite IH. unfold csv_open at 1 2.
  destruct (String.eqb_spec n a) as [->|N]; cbn [orb].
  - destruct (dget fs (fname p a)) as [l|] eqn:E.
    + rewrite E. destruct existsb; reflexivity.
    + rewrite dget_dset_same. destruct existsb; reflexivity.
  - assert (F : fname p a <> fname p n) by (intro E; apply fname_inj in E; congruence).
    destruct (dget fs (fname p a)); [reflexivity|]. rewrite (dget_dset_other _ _ _ _ F). reflexivity.
Qed.
Lemma csv_open_fold_other p names (fs : files V) f : (forall n, In n names -> fname p n <> f) ->
  dget (fold_left (csv_open p) names fs) f = dget fs f.
Proof.
  revert fs. induction names as [|a names IH]; intros fs H; cbn [fold_left]; [reflexivity|].
  rewrite IH by (intros; apply H; right; assumption).
  unfold csv_open. destruct (dget fs (fname p a)); [reflexivity|]. apply dget_dset_other. apply H. left. reflexivity.
Qed.
Definition mrow (name : string) e c t (m : modl V) : list (line V) :=
  match dget (attrs m) name with Some v => [Row (String.append (mname m) (String.append "." name)) e c t v] | None => [] end.
Lemma csv_row_fold_get p e c t m names (fs : files V) n l : NoDup names -> dget fs (fname p n) = Some l ->
  dget (fold_left (csv_row p e c t m) names fs) (fname p n)
  = Some (l ++ if existsb (String.eqb n) names then mrow n e c t m else []).
Proof.
  revert fs l. induction names as [|a names IH]; intros fs l Hn H; cbn [fold_left existsb].
  { rewrite app_nil_r. exact H. }
  inversion Hn; subst. unfold mrow in *.
  destruct (String.eqb_spec n a) as [->|N]; cbn [orb].
  - assert (X : existsb (String.eqb a) names = false).
    { destruct (existsb (String.eqb a) names) eqn:X; [|reflexivity]. apply existsb_exists in X. destruct X as (b & Hb & E).
      apply String.eqb_eq in E. subst. contradiction. }
    unfold csv_row at 2. destruct (dget (attrs m) a) as [v|] eqn:D.
    + erewrite IH; [|assumption|]. 2:{ unfold append_line. rewrite H, dget_dset_same. reflexivity. }
      rewrite X, app_nil_r. reflexivity.
    + erewrite IH; [|assumption|exact H]. rewrite X. reflexivity.
  - assert (F : fname p a <> fname p n) by (intro E; apply fname_inj in E; congruence).
    unfold csv_row at 2. destruct (dget (attrs m) a) as [v|] eqn:D.
    + apply IH; [assumption|]. unfold append_line. rewrite dget_dset_other by exact F. exact H.
    + apply IH; assumption.
Qed.
Lemma csv_row_fold_other p e c t m names (fs : files V) f : (forall n, In n names -> fname p n <> f) ->
  dget (fold_left (csv_row p e c t m) names fs) f = dget fs f.
Proof.
  revert fs. induction names as [|a names IH]; intros fs H; cbn [fold_left]; [reflexivity|].
  rewrite IH by (intros; apply H; right; assumption).
  unfold csv_row. destruct (dget (attrs m) a); [|reflexivity]. unfold append_line. apply dget_dset_other. apply H. left. reflexivity.
Qed.
Lemma csv_mods_get p e c t names (ms : list (modl V)) (fs : files V) n l : NoDup names -> dget fs (fname p n) = Some l ->
  dget (fold_left (fun fs m => fold_left (csv_row p e c t m) names fs) ms fs) (fname p n)
  = Some (l ++ if existsb (String.eqb n) names then flat_map (mrow n e c t) ms else []).
Proof.
  revert fs l. induction ms as [|m ms IH]; intros fs l Hn H; cbn [fold_left flat_map].
  { rewrite H. destruct existsb; rewrite app_nil_r; reflexivity. }
  erewrite IH; [|assumption|apply csv_row_fold_get; eassumption].
  destruct existsb; rewrite <- app_assoc; reflexivity.
Qed.
Lemma csv_mods_other p e c t names (ms : list (modl V)) (fs : files V) f : (forall n, In n names -> fname p n <> f) ->
  dget (fold_left (fun fs m => fold_left (csv_row p e c t m) names fs) ms fs) f = dget fs f.
Proof.
  revert fs. induction ms as [|m ms IH]; intros fs H; cbn [fold_left]; [reflexivity|].
  rewrite IH by exact H. apply csv_row_fold_other. exact H.
Qed.
Definition do_call (p : string) (fs : files V) (c : call V) : files V :=
  csv_buffers p (c_names c) (c_epoch c) (c_completed c) (c_total c) (c_mods c) fs.
Lemma do_call_other p c (fs : files V) f : (forall n, In n (c_names c) -> fname p n <> f) -> dget (do_call p fs c) f = dget fs f.
Proof. intro H. unfold do_call, csv_buffers. rewrite csv_mods_other by exact H. apply csv_open_fold_other. exact H. Qed.
Lemma do_call_get p c (fs : files V) n : NoDup (c_names c) -> existsb (String.eqb n) (c_names c) = true ->
  dget (do_call p fs c) (fname p n) = Some (match dget fs (fname p n) with Some l => l | None => [Header] end ++ rows n c).
Proof.
  intros Hn X. unfold do_call, csv_buffers. erewrite csv_mods_get; [|exact Hn|].
  2:{ rewrite csv_open_fold_get, X. reflexivity. }
  rewrite X. reflexivity.
Qed.
Lemma calls_other p calls (fs : files V) f : (forall c n, In c calls -> In n (c_names c) -> fname p n <> f) ->
  dget (fold_left (do_call p) calls fs) f = dget fs f.
Proof.
  revert fs. induction calls as [|c calls IH]; intros fs H; cbn [fold_left]; [reflexivity|].
  rewrite IH by (intros; eapply H; [right; eassumption|assumption]).
  apply do_call_other. intros n. apply H. left. reflexivity.
Qed.
Lemma calls_get p calls (fs : files V) n : Forall (fun c => NoDup (c_names c)) calls ->
  dget (fold_left (do_call p) calls fs) (fname p n) = csv_file n (dget fs (fname p n)) calls.
Proof.
  revert fs. induction calls as [|c calls IH]; intros fs H; cbn [fold_left]; [reflexivity|].
  inversion H; subst. rewrite IH by assumption. unfold csv_file. cbn [filter].
  destruct (existsb (String.eqb n) (c_names c)) eqn:X.
  - rewrite do_call_get by assumption. cbn [flat_map].
    destruct (filter _ calls) as [|c1 cs]; cbn [flat_map].
    + rewrite app_nil_r. reflexivity.
    + rewrite <- app_assoc. reflexivity.
  - assert (E : dget (do_call p fs c) (fname p n) = dget fs (fname p n)).
    { apply do_call_other. intros a Ha E. apply fname_inj in E. subst a.
      assert (existsb (String.eqb n) (c_names c) = true); [|congruence].
      apply existsb_exists. exists n. split; [exact Ha|apply String.eqb_refl]. }
    rewrite E. reflexivity.
Qed.
End P.
