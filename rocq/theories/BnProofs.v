(** Proofs about batch-norm folding (C34, C49, C50). *)
From Coq Require Import String List ZArith QArith Qabs Bool Arith Lia Lqa Setoid.
From Verif Require Import Base Lists QuantModel RangeModel RangeWrapProofs BnModel BnSpec.
Import ListNotations.
Open Scope Q_scope.

(** ** Linearity of a layer *)
Lemma mapi_nth_rows (f : nat -> list Q -> list Q) c0 W c : (forall k, f k [] = []) -> nth c (mapi f c0 W) [] = f (c0 + c)%nat (nth c W []).
Proof.
  intro Hf. revert c0 c. induction W as [|r W IH]; intros c0 c; simpl; [destruct c; symmetry; apply Hf|].
  destruct c; [rewrite Nat.add_0_r; reflexivity|]. rewrite IH. f_equal. lia.
Qed.
Lemma scale_rows_nth f W c : nth c (scale_rows f W) [] = map (fun w => w * f c) (nth c W []).
Proof. unfold scale_rows. rewrite (mapi_nth_rows (fun c r => map (fun w => w * f c) r)); [reflexivity|reflexivity]. Qed.
Lemma dot_scale k a b : dot (map (fun w => w * k) a) b == k * dot a b.
Proof.
  unfold dot. revert b. induction a as [|x a IH]; destruct b as [|y b]; simpl; try ring.
  unfold qsum in *. simpl. rewrite IH. ring.
Qed.
Lemma layer_at_bia W b x p : layer_at W b x p = dot (nth (fst p) W []) (gather x (snd p)) + bia b (fst p).
Proof. unfold layer_at, bia. destruct b; reflexivity. Qed.
Lemma map2_map_r {A B C} (f : A -> B -> C) (h : A -> B) l : map2 f l (map h l) = map (fun p => f p (h p)) l.
Proof. induction l; simpl; congruence. Qed.
Lemma teq_map {A} (f h : A -> Q) l : (forall p, In p l -> f p == h p) -> teq (map f l) (map h l).
Proof. intro H. apply F2_map_same. exact H. Qed.
Lemma nth_map_seq {A} (f : nat -> A) n c d : (c < n)%nat -> nth c (map f (seq 0 n)) d = f c.
Proof. intro H. rewrite (nth_indep _ d (f 0%nat)) by (rewrite map_length, seq_length; exact H). rewrite map_nth, seq_nth; auto. Qed.

Lemma layer_map2 {C} (f : nat * list (option nat) -> Q -> C) g W b x : map2 f g (layer g W b x) = map (fun p => f p (layer_at W b x p)) g.
Proof. apply map2_map_r. Qed.

(** ** Evaluation mode and freezing *)
Lemma eval_fold rsq g W b x n : (forall p, In p g -> (fst p < feats n)%nat) ->
  teq (layer g (scale_rows (fold_factor rsq n) W) (Some (fold_bias rsq n b)) x) (bn_eval rsq g n (layer g W b x)).
Proof.
  intro Hg. unfold bn_eval, layer. rewrite map2_map_r. apply teq_map. intros p Hp.
  rewrite !layer_at_bia, scale_rows_nth, dot_scale. unfold bia at 1. unfold fold_bias.
  rewrite nth_map_seq by (apply Hg; exact Hp). unfold fold_factor. ring.
Qed.

(** ** Training mode *)
Lemma chan_of g y c : chan g y c = of_chan c g y.
Proof.
  unfold chan. revert y. induction g as [|p g IH]; destruct y as [|v y]; simpl; auto.
  rewrite <- IH. destruct (Nat.eqb (fst p) c); reflexivity.
Qed.
Lemma of_chan_map c (h : nat * list (option nat) -> Q) g : of_chan c g (map h g) = map h (filter (fun p => Nat.eqb (fst p) c) g).
Proof. induction g as [|p g IH]; simpl; auto. destruct (Nat.eqb (fst p) c); simpl; rewrite IH; reflexivity. Qed.
Lemma of_chan_len c g y : length g = length y -> length (of_chan c g y) = length (filter (fun p => Nat.eqb (fst p) c) g).
Proof.
  revert y. induction g as [|p g IH]; destruct y as [|v y]; simpl; intro H; try lia.
  destruct (Nat.eqb (fst p) c); simpl; rewrite IH by lia; reflexivity.
Qed.
Lemma average_mean l : average l = mean l.
Proof. reflexivity. Qed.

Lemma qsum_shift l k : qsum (map (fun v => v + k) l) == qsum l + Zq (Z.of_nat (length l)) * k.
Proof.
  induction l as [|v l IH]; [simpl; change (Zq 0) with 0; ring|].
  unfold qsum in *. cbn [map fold_right length]. rewrite IH. rewrite Nat2Z.inj_succ. unfold Z.succ. rewrite Zq_plus. change (Zq 1) with 1. ring.
Qed.
Lemma count_pos l : l <> [] -> 0 < count l.
Proof. intro H. apply Zq_pos. destruct l; [congruence|simpl; lia]. Qed.
Lemma qsum_teq a b : teq a b -> qsum a == qsum b.
Proof. induction 1; [reflexivity|]. unfold qsum in *. simpl. rewrite H, IHForall2. reflexivity. Qed.
Lemma average_teq a b : teq a b -> average a == average b.
Proof. intro H. unfold average, count. rewrite (teq_length _ _ H), (qsum_teq _ _ H). reflexivity. Qed.
Lemma average_shift l k : l <> [] -> average (map (fun v => v + k) l) == average l + k.
Proof.
  intro H. unfold average. rewrite qsum_shift. unfold count. rewrite map_length. fold (count l).
  pose proof (count_pos l H). field. lra.
Qed.
Lemma sqdev_teq a b : teq a b -> sqdev a == sqdev b.
Proof.
  intro H. unfold sqdev. apply qsum_teq. pose proof (average_teq _ _ H) as Ha. revert Ha. generalize (average a) (average b).
  intros ma mb Hm. induction H; simpl; constructor; auto. cbv beta. rewrite H, Hm. reflexivity.
Qed.
Lemma sqdev_shift l k : l <> [] -> sqdev (map (fun v => v + k) l) == sqdev l.
Proof.
  intro H. unfold sqdev. pose proof (average_shift l k H) as Ha. rewrite map_map. apply qsum_teq.
  revert Ha. generalize (average (map (fun v => v + k) l)) (average l). intros m m0 Hm.
  apply F2_map_same. intros v _. rewrite Hm. ring.
Qed.
Lemma sqdev_nonneg l : 0 <= sqdev l.
Proof.
  unfold sqdev. generalize (average l). intro m. induction l as [|v l IH]; [simpl; lra|]. unfold qsum in *. simpl.
  assert (0 <= (v - m) * (v - m)) by (destruct (Qlt_le_dec (v - m) 0); [setoid_replace ((v-m)*(v-m)) with ((-(v-m))*(-(v-m))) by ring|]; apply Qmult_le_0_compat; lra).
  lra.
Qed.

(** the values of a channel with the bias are those without, shifted by the channel's bias *)
Lemma chan_bias g W b x c : teq (of_chan c g (layer g W b x)) (map (fun v => v + bia b c) (of_chan c g (layer g W None x))).
Proof.
  unfold layer. rewrite !of_chan_map, map_map. apply teq_map. intros p Hp. apply filter_In in Hp. destruct Hp as [_ Hp].
  apply Nat.eqb_eq in Hp. rewrite !layer_at_bia. unfold bia at 2. rewrite Hp. ring.
Qed.

Lemma filter_len_layer g W b x c C k : per_channel C k g -> (c < C)%nat -> length (of_chan c g (layer g W b x)) = k.
Proof. intros (_ & H & _) Hc. rewrite of_chan_len; [apply H; exact Hc|unfold layer; rewrite map_length; reflexivity]. Qed.

Definition sim (s : sfb) (r : pair) : Prop :=
  s_w s = r_w r /\ s_b s = r_b r /\ bn_eqv (s_bn s) (r_bn r) /\ s_frozen s = false.

Lemma teq_nth a b c : teq a b -> nth c a 0 == nth c b 0.
Proof.
  intro H. revert c. induction H; intro c; [destruct c; reflexivity|]. destruct c; simpl; auto.
Qed.

Lemma cnt_k g W b x n k : per_channel (feats n) k g -> (0 < feats n)%nat ->
  Zq (Z.of_nat (length (layer g W b x))) / Zq (Z.of_nat (feats n)) == Zq (Z.of_nat k).
Proof.
  intros (_ & _ & HL) HC. unfold layer. rewrite map_length, HL. rewrite Nat2Z.inj_mul, Zq_mult.
  assert (0 < Zq (Z.of_nat (feats n))) by (apply Zq_pos; lia). field. lra.
Qed.

Lemma Forall_nth_nonneg l c : Forall (fun v => 0 <= v) l -> 0 <= nth c l 0.
Proof. intro H. revert c. induction H; intro c; destruct c; simpl; auto; lra. Qed.

Section Train.
Variables (sq rsq : Q -> Q) (g : geom) (k : nat).
Hypothesis Hroots : roots_ok sq rsq.

(** one training forward of the wrapper against the reference, before the delay *)
Lemma train_sim s r x :
  sim s r -> bn_ok (s_bn s) -> per_channel (feats (s_bn s)) k g -> (0 < feats (s_bn s))%nat -> (2 <= k)%nat ->
  (bn_batches (s_bn s) + 1 <= s_delay s)%Z ->
  exists s' y r' y', forward sq rsq idw idb g true x s = Ok (s', y) /\ rstep rsq g (STrain x) r = Ok (r', y') /\
    sim s' r' /\ teq y y' /\ bn_ok (s_bn s') /\ feats (s_bn s') = feats (s_bn s) /\ s_delay s' = s_delay s /\
    bn_batches (s_bn s') = (bn_batches (s_bn s) + 1)%Z.
Proof using Hroots.
  intros (HW & Hb & He & Hf) Hok HP HC Hk Hdel.
  destruct s as [W b n dl fr]; destruct r as [W' b' n']; simpl in *. subst W' b' fr.
  destruct He as (E1 & E2 & E3 & E4 & E5 & E6 & E7 & E8).
  destruct Hok as (K1 & K2 & K3 & K4 & K5).
  pose proof (cnt_k g W None x n k HP HC) as Hcnt.
  assert (Hk2 : 1 < Zq (Z.of_nat k)) by (change 1 with (Zq 1); apply (proj1 (Zq_lt _ _)); lia).
  assert (HfC : length (bn_mean n') = feats n) by (unfold feats; symmetry; apply (teq_length _ _ E4)).
  (* channel facts *)
  assert (Hlen : forall bb c, (c < feats n)%nat -> length (of_chan c g (layer g W bb x)) = k)
    by (intros bb c Hc; apply (filter_len_layer g W bb x c _ k HP Hc)).
  assert (Hne : forall c, (c < feats n)%nat -> of_chan c g (layer g W None x) <> []).
  { intros c Hc E. pose proof (Hlen None c Hc) as HL. rewrite E in HL. simpl in HL. lia. }
  assert (Hcount : forall bb c, (c < feats n)%nat -> count (of_chan c g (layer g W bb x)) = Zq (Z.of_nat k))
    by (intros bb c Hc; unfold count; rewrite Hlen by exact Hc; reflexivity).
  assert (Hav : forall c, (c < feats n)%nat -> average (of_chan c g (layer g W b x)) == average (of_chan c g (layer g W None x)) + bia b c).
  { intros c Hc. rewrite (average_teq _ _ (chan_bias g W b x c)). apply average_shift. apply Hne; exact Hc. }
  assert (Hsd : forall c, (c < feats n)%nat -> sqdev (of_chan c g (layer g W b x)) == sqdev (of_chan c g (layer g W None x))).
  { intros c Hc. rewrite (sqdev_teq _ _ (chan_bias g W b x c)). apply sqdev_shift. apply Hne; exact Hc. }
  assert (Hvb : forall c, (c < feats n)%nat -> var_b (of_chan c g (layer g W None x)) == sqdev (of_chan c g (layer g W None x)) / Zq (Z.of_nat k)).
  { intros c Hc. unfold var_b, mean at 1. rewrite map_length, Hlen by exact Hc. reflexivity. }
  set (m := match bn_mom n with Some m => m | None => 1 / Zq (bn_batches n + 1) end).
  assert (Hm : 0 <= m <= 1).
  { unfold m. destruct (bn_mom n) as [mm|]; [exact K4|].
    assert (1 <= Zq (bn_batches n + 1)) by (change 1 with (Zq 1); apply (proj1 (Zq_le _ _)); lia).
    split; [apply Qle_shift_div_l; lra|apply Qle_shift_div_r; lra]. }
  unfold forward. cbn [s_frozen s_w s_b s_bn]. unfold batch_stats. cbn [s_frozen s_w s_b s_bn s_delay].
  destruct (Qeq_bool (Zq (Z.of_nat (length (layer g W None x))) / Zq (Z.of_nat (feats n))) 1) eqn:Eq1.
  { apply Qeq_bool_iff in Eq1. rewrite Hcnt in Eq1. lra. }
  replace (dl <? bn_batches n + 1)%Z with false by (symmetry; apply Z.ltb_ge; exact Hdel).
  cbn [bind s_w s_b s_bn bn_eps bn_affine bn_mean bn_var bn_gamma bn_beta]. fold m.
  unfold bn_train_ref. cbn [r_w r_b r_bn]. rewrite HfC.
  destruct (existsb (fun c => (length (of_chan c g (layer g W b x)) <=? 1)%nat) (seq 0 (feats n))) eqn:Ex.
  { apply existsb_exists in Ex. destruct Ex as (c & Hc & Hl). apply in_seq in Hc. rewrite Hlen in Hl by lia. apply Nat.leb_le in Hl. lia. }
  cbn [bind fst snd]. rewrite <- E7, <- E8. fold m.
  set (rv := map (fun c => nth c (bn_var n) 0 * (1 - m) + m * (var_b (chan g (layer g W None x) c) *
     (Zq (Z.of_nat (length (layer g W None x))) / Zq (Z.of_nat (feats n)) / (Zq (Z.of_nat (length (layer g W None x))) / Zq (Z.of_nat (feats n)) - 1)))) (seq 0 (feats n))).
  assert (Hrv : forall c, (c < feats n)%nat -> nth c rv 0 == nth c (bn_var n) 0 * (1 - m) + m * (sqdev (of_chan c g (layer g W None x)) / (Zq (Z.of_nat k) - 1))).
  { intros c Hc. unfold rv. rewrite nth_map_seq by exact Hc. rewrite chan_of, Hvb by exact Hc. rewrite Hcnt. field. split; lra. }
  assert (Hrv0 : forall c, (c < feats n)%nat -> 0 <= nth c rv 0).
  { intros c Hc. rewrite Hrv by exact Hc. pose proof (Forall_nth_nonneg _ c K3). pose proof (sqdev_nonneg (of_chan c g (layer g W None x))) as Hs.
    assert (0 <= sqdev (of_chan c g (layer g W None x)) / (Zq (Z.of_nat k) - 1)) by (apply Qle_shift_div_l; lra).
    assert (0 <= nth c (bn_var n) 0 * (1 - m)) by (apply Qmult_le_0_compat; lra).
    assert (0 <= m * (sqdev (of_chan c g (layer g W None x)) / (Zq (Z.of_nat k) - 1))) by (apply Qmult_le_0_compat; lra). lra. }
  eexists _, _, _, _. split; [reflexivity|]. split; [reflexivity|].
  split; [|split; [|split; [|split; [|split]]]]; cbn [s_bn s_delay bn_batches bn_mean bn_var feats].
  - split; [reflexivity|]. split; [reflexivity|]. split; [|reflexivity].
    unfold bn_eqv; cbn [s_bn r_bn bn_affine bn_gamma bn_beta bn_mean bn_var bn_eps bn_mom bn_batches].
    split; [exact E1|]. split; [exact E2|]. split; [exact E3|]. split; [|split; [|split; [exact E6|split; [first [exact E7|reflexivity]|reflexivity]]]].
    + apply teq_map. intros c Hc. apply in_seq in Hc. cbv zeta beta. rewrite chan_of, Hav by lia. rewrite (teq_nth _ _ c E4). change mean with average. ring.
    + unfold rv. apply teq_map. intros c Hc. apply in_seq in Hc.
      assert (Hc' : (c < feats n)%nat) by lia. pose proof (Hrv c Hc') as Hx. unfold rv in Hx. rewrite nth_map_seq in Hx by exact Hc'.
      rewrite Hx. rewrite Hcount, Hsd by exact Hc'. rewrite (teq_nth _ _ c E5). ring.
  - match goal with |- context[feats (mkBn ?a1 ?a2 ?a3 ?a4 ?a5 ?a6 ?a7 ?a8)] =>
      replace (feats (mkBn a1 a2 a3 a4 a5 a6 a7 a8)) with (feats n) by (unfold feats; cbn [bn_mean]; rewrite map_length, seq_length; reflexivity) end.
    rewrite !layer_map2. apply teq_map. intros p Hp.
    assert (Hc : (fst p < feats n)%nat) by (apply HP; exact Hp).
    unfold idb at 1. rewrite nth_map_seq by exact Hc.
    unfold idw. rewrite !layer_at_bia, scale_rows_nth, dot_scale. unfold gam, bet. cbn [bn_affine bn_gamma bn_beta bn_eps].
    rewrite <- E1, <- E2, <- E3, <- E6. fold (gam n (fst p)). fold (bet n (fst p)).
    rewrite Hav by exact Hc. rewrite Hcount by exact Hc.
    assert (Hroot : rsq (sqdev (of_chan (fst p) g (layer g W b x)) / Zq (Z.of_nat k) + bn_eps n) == rsq (var_b (chan g (layer g W None x) (fst p)) + bn_eps n)).
    { apply Hroots. rewrite chan_of, Hsd, Hvb by exact Hc. reflexivity. }
    rewrite Hroot. rewrite chan_of. change mean with average.
    assert (Hs : ~ sq (nth (fst p) rv 0 + bn_eps n) == 0) by (apply Hroots; pose proof (Hrv0 _ Hc); lra).
    unfold bia at 1. field. exact Hs.
  - split; [exact K1|]. split; [cbn [bn_var bn_mean]; unfold rv; rewrite !map_length; reflexivity|]. split; [|split; [exact K4|cbn [bn_batches]; lia]].
    cbn [bn_var]. apply Forall_forall. intros v Hv. apply (In_nth _ _ 0) in Hv. destruct Hv as (c & Hc & <-).
    apply Hrv0. unfold rv in Hc. rewrite map_length, seq_length in Hc. exact Hc.
  - unfold feats at 1; cbn [bn_mean]. rewrite map_length, seq_length. reflexivity.
  - reflexivity.
  - reflexivity.
Qed.
End Train.

Lemma teq_map2_g (f h : nat * list (option nat) -> Q -> Q) g y y' : teq y y' -> (forall p v w, In p g -> v == w -> f p v == h p w) -> teq (map2 f g y) (map2 h g y').
Proof.
  intro H. revert g. induction H; intros g Hf; [destruct g; constructor|].
  destruct g; simpl; [constructor|]. constructor; [apply Hf; [left; reflexivity|exact H]|]. apply IHForall2. intros; apply Hf; [right; assumption|assumption].
Qed.
Lemma bn_eval_eqv sq rsq g n n' y y' : roots_ok sq rsq -> bn_eqv n n' -> teq y y' -> teq (bn_eval rsq g n y) (bn_eval rsq g n' y').
Proof.
  intros [Hr _] (E1 & E2 & E3 & E4 & E5 & E6 & _) Hy. unfold bn_eval. apply teq_map2_g; [exact Hy|]. intros p v w _ Hv.
  unfold gam, bet, rs_run. rewrite <- E1, <- E2, <- E3, <- E6.
  assert (HR : rsq (nth (fst p) (bn_var n) 0 + bn_eps n) == rsq (nth (fst p) (bn_var n') 0 + bn_eps n)).
  { apply Hr. rewrite (teq_nth _ _ (fst p) E5). reflexivity. }
  rewrite HR, Hv, (teq_nth _ _ (fst p) E4). reflexivity.
Qed.

Lemma eval_sim sq rsq g s r x : roots_ok sq rsq -> sim s r -> (forall p, In p g -> (fst p < feats (s_bn s))%nat) ->
  exists y y', forward sq rsq idw idb g false x s = Ok (s, y) /\ rstep rsq g (SEval x) r = Ok (r, y') /\ teq y y'.
Proof.
  intros Hr (HW & Hb & He & Hf) Hg. unfold forward. rewrite Hf. eexists _, _. split; [reflexivity|]. split; [reflexivity|].
  rewrite <- HW, <- Hb. eapply teq_trans; [apply eval_fold; exact Hg|]. apply (bn_eval_eqv sq); [exact Hr|exact He|apply teq_refl].
Qed.

Lemma sim_history sq rsq g k ops : roots_ok sq rsq -> (2 <= k)%nat -> forall s r,
  sim s r -> bn_ok (s_bn s) -> per_channel (feats (s_bn s)) k g -> (0 < feats (s_bn s))%nat ->
  (bn_batches (s_bn s) + trains ops <= s_delay s)%Z ->
  exists s' ys r' ys', srun sq rsq g ops s = Ok (s', ys) /\ rrun rsq g ops r = Ok (r', ys') /\
    sim s' r' /\ Forall2 teq ys ys' /\ bn_ok (s_bn s') /\ feats (s_bn s') = feats (s_bn s) /\ s_delay s' = s_delay s /\
    bn_batches (s_bn s') = (bn_batches (s_bn s) + trains ops)%Z.
Proof.
  intros Hr Hk. induction ops as [|o ops IH]; intros s r Hs Hok HP HC Hd.
  - exists s, [], r, []. simpl. repeat (split; [solve [auto]|]). change (trains []) with 0%Z. lia.
  - assert (Hstep : exists s1 y r1 y1, sstep sq rsq g o s = Ok (s1, y) /\ rstep rsq g o r = Ok (r1, y1) /\ sim s1 r1 /\ teq y y1 /\
       bn_ok (s_bn s1) /\ feats (s_bn s1) = feats (s_bn s) /\ s_delay s1 = s_delay s /\ (bn_batches (s_bn s1) + trains ops = bn_batches (s_bn s) + trains (o :: ops))%Z).
    { destruct o as [x|x|W b ga be].
      - assert (Ht : trains (STrain x :: ops) = (1 + trains ops)%Z) by (unfold trains; cbn [filter length]; lia).
        destruct (train_sim sq rsq g k Hr s r x Hs Hok HP HC Hk) as (s1 & y & r1 & y1 & A1 & A2 & A3 & A4 & A5 & A6 & A7 & A8);
          [unfold trains in *; lia|].
        exists s1, y, r1, y1. repeat (split; [assumption|]). lia.
      - destruct (eval_sim sq rsq g s r x Hr Hs) as (y & y1 & A1 & A2 & A3); [intros p Hp; apply HP; exact Hp|].
        exists s, y, r, y1. repeat (split; [solve [assumption|reflexivity]|]). reflexivity.
      - destruct Hs as (HW & Hb & He & Hf). destruct He as (E1 & E2 & E3 & E4 & E5 & E6 & E7 & E8).
        eexists _, [], _, []. split; [reflexivity|]. split; [reflexivity|].
        split; [unfold sim, supd; cbn; split; [reflexivity|]; split; [reflexivity|]; split; [|exact Hf]; unfold bn_eqv; cbn; repeat (split; [solve [assumption|reflexivity]|]); assumption|].
        split; [constructor|]. destruct Hok as (K1 & K2 & K3 & K4 & K5). split; [unfold supd, bn_ok; cbn; repeat (split; [assumption|]); assumption|].
        repeat (split; [reflexivity|]). reflexivity. }
    destruct Hstep as (s1 & y & r1 & y1 & A1 & A2 & A3 & A4 & A5 & A6 & A7 & A8).
    destruct (IH s1 r1 A3 A5) as (s' & ys & r' & ys' & B1 & B2 & B3 & B4 & B5 & B6 & B7 & B8); [rewrite A6; exact HP|rewrite A6; exact HC|rewrite A7, A8; exact Hd|].
    exists s', (y :: ys), r', (y1 :: ys'). cbn [srun rrun]. rewrite A1, A2. cbn [bind fst snd]. rewrite B1, B2. cbn [bind fst snd].
    split; [reflexivity|]. split; [reflexivity|]. split; [exact B3|]. split; [constructor; assumption|]. split; [exact B5|].
    split; [congruence|]. split; [congruence|]. lia.
Qed.

(** freezing and what follows *)
Lemma frozen_forward sq rsq g tr x s : s_frozen s = true -> forward sq rsq idw idb g tr x s = Ok (s, layer g (s_w s) (s_b s) x).
Proof. intro H. unfold forward. rewrite H. unfold idw, idb. destruct (s_b s); reflexivity. Qed.

Lemma freeze_out sq rsq g tr x s : (forall p, In p g -> (fst p < feats (s_bn s))%nat) ->
  exists y, forward sq rsq idw idb g tr x (freeze rsq s) = Ok (freeze rsq s, y) /\ teq y (bn_eval rsq g (s_bn s) (layer g (s_w s) (s_b s) x)).
Proof.
  intro Hg. rewrite frozen_forward by reflexivity. eexists. split; [reflexivity|]. cbn [freeze s_w s_b]. apply eval_fold. exact Hg.
Qed.

(** ** fuse_modules *)
Lemma fused_inv {T} (typ : string -> option T) tseq : tseq <> [] -> forall rest done cur out,
  (exists pre, done = pre ++ cur) -> (length cur < length tseq)%nat ->
  (forall i, (i < length cur)%nat -> exists t, typ (fst (nth i cur (EmptyString, []))) = Some t /\ nth i tseq (fun _ => false) t = true) ->
  (forall sg, In sg out -> exists pre seg post, done ++ rest = pre ++ seg ++ post /\ map fst seg = sg /\ length seg = length tseq /\
     forall i, (i < length tseq)%nat -> exists t, typ (fst (nth i seg (EmptyString, []))) = Some t /\ nth i tseq (fun _ => false) t = true) ->
  forall sg, In sg (snd (fold_left (fuse_step typ tseq) rest (map fst cur, out))) ->
  exists pre seg post, done ++ rest = pre ++ seg ++ post /\ map fst seg = sg /\ length seg = length tseq /\
     forall i, (i < length tseq)%nat -> exists t, typ (fst (nth i seg (EmptyString, []))) = Some t /\ nth i tseq (fun _ => false) t = true.
Proof.
  intro Hts. induction rest as [|e rest IH]; intros done cur out (pre & Hpre) Hlt Hcur Hout sg Hin; [cbn in Hin; apply Hout; exact Hin|].
  cbn [fold_left] in Hin. unfold fuse_step at 2 in Hin.
  assert (Hl0 : (0 < length tseq)%nat) by (destruct tseq; [congruence|simpl; lia]).
  assert (Ereset : forall o, (forall sg, In sg o -> exists pre seg post, done ++ e :: rest = pre ++ seg ++ post /\ map fst seg = sg /\ length seg = length tseq /\
     forall i, (i < length tseq)%nat -> exists t, typ (fst (nth i seg (EmptyString, []))) = Some t /\ nth i tseq (fun _ => false) t = true) ->
     In sg (snd (fold_left (fuse_step typ tseq) rest ([], o))) ->
     exists pre seg post, done ++ e :: rest = pre ++ seg ++ post /\ map fst seg = sg /\ length seg = length tseq /\
     forall i, (i < length tseq)%nat -> exists t, typ (fst (nth i seg (EmptyString, []))) = Some t /\ nth i tseq (fun _ => false) t = true).
  { intros o Ho Hi. change (done ++ e :: rest) with (done ++ [e] ++ rest) in *. rewrite app_assoc in *.
    apply (IH (done ++ [e]) [] o); [exists (done ++ [e]); rewrite app_nil_r; reflexivity|exact Hl0|intros i Hi0; simpl in Hi0; lia|exact Ho|exact Hi]. }
  destruct (typ (fst e)) as [t|] eqn:Et; [|apply (Ereset out); assumption].
  rewrite map_length in Hin.
  destruct (nth (length cur) tseq (fun _ => false) t) eqn:Em.
  - assert (Hcur' : forall i, (i < length (cur ++ [e]))%nat -> exists t, typ (fst (nth i (cur ++ [e]) (EmptyString, []))) = Some t /\ nth i tseq (fun _ => false) t = true).
    { intros i Hi. rewrite app_length in Hi. simpl in Hi. destruct (Nat.eq_dec i (length cur)) as [->|Hne].
      - rewrite nth_middle. exists t; auto.
      - rewrite app_nth1 by lia. apply Hcur. lia. }
    replace (map fst cur ++ [fst e]) with (map fst (cur ++ [e])) in Hin by (rewrite map_app; reflexivity). rewrite map_length in Hin.
    destruct (Nat.eqb_spec (length (cur ++ [e])) (length tseq)) as [El|El].
    + apply (Ereset (out ++ [map fst (cur ++ [e])])); [|exact Hin]. intros sg' Hsg. apply in_app_or in Hsg. destruct Hsg as [Hsg|[<-|[]]]; [apply Hout; exact Hsg|].
      exists pre, (cur ++ [e]), rest. split; [rewrite Hpre, <- !app_assoc; reflexivity|]. split; [reflexivity|]. split; [exact El|]. rewrite <- El. exact Hcur'.
    + destruct (1 <? length (snd e))%nat; [apply (Ereset out); assumption|].
      change (done ++ e :: rest) with (done ++ [e] ++ rest) in *. rewrite app_assoc in *.
      apply (IH (done ++ [e]) (cur ++ [e]) out); [exists pre; rewrite Hpre, <- app_assoc; reflexivity| |exact Hcur'|exact Hout|exact Hin].
      rewrite app_length in *. simpl in *. lia.
  - destruct (nth 0 tseq (fun _ => false) t) eqn:E0; [|apply (Ereset out); assumption].
    assert (Hl1 : (1 < length tseq)%nat).
    { destruct cur; simpl in *; [congruence|lia]. }
    change (done ++ e :: rest) with (done ++ [e] ++ rest) in *. rewrite app_assoc in *.
    apply (IH (done ++ [e]) [e] out); [exists done; reflexivity|exact Hl1| |exact Hout|exact Hin].
    intros i Hi. simpl in Hi. replace i with 0%nat by lia. exists t. auto.
Qed.

Section Pairs.
Context {T : Type} (typ : string -> option T) (p0 p1 : T -> bool).
Definition has (p : T -> bool) (e : string * list string) : Prop := exists t, typ (fst e) = Some t /\ p t = true.
Definition startable (pre : adjmap) (e : string * list string) : Prop :=
  has p0 e /\ ((length (snd e) <= 1)%nat \/ exists pre' z, pre = pre' ++ [z] /\ has p0 z).
Definition good_pair (adj : adjmap) (sg : list string) : Prop :=
  exists pre a b post, adj = pre ++ a :: b :: post /\ sg = [fst a; fst b] /\ startable pre a /\ has p1 b.

Lemma pair_sound rest : forall done cur out,
  (cur = [] \/ exists pre e, cur = [fst e] /\ done = pre ++ [e] /\ startable pre e) ->
  (forall sg, In sg out -> good_pair (done ++ rest) sg) ->
  forall sg, In sg (snd (fold_left (fuse_step typ [p0; p1]) rest (cur, out))) -> good_pair (done ++ rest) sg.
Proof.
  induction rest as [|e rest IH]; intros done cur out Hc Ho sg Hin; [apply Ho; exact Hin|].
  cbn [fold_left] in Hin. unfold fuse_step at 2 in Hin.
  change (done ++ e :: rest) with (done ++ [e] ++ rest) in *. rewrite app_assoc in *.
  assert (Hreset : forall o, (forall sg, In sg o -> good_pair ((done ++ [e]) ++ rest) sg) ->
     In sg (snd (fold_left (fuse_step typ [p0; p1]) rest ([], o))) -> good_pair ((done ++ [e]) ++ rest) sg)
    by (intros o HO Hi; eapply IH; [left; reflexivity|exact HO|exact Hi]).
  destruct (typ (fst e)) as [t|] eqn:Et; [|apply (Hreset out); assumption].
  destruct Hc as [->|(pre & e0 & -> & Hd & Hs)]; cbn [length nth app] in Hin.
  - destruct (p0 t) eqn:E0; [|apply (Hreset out); assumption].
    cbn [Nat.eqb length] in Hin. destruct (Nat.ltb_spec 1 (length (snd e))) as [Hl|Hl]; [apply (Hreset out); assumption|].
    apply (IH (done ++ [e]) [fst e] out); [right|exact Ho|exact Hin].
    exists done, e. split; [reflexivity|]. split; [reflexivity|]. split; [exists t; auto|left; lia].
  - destruct (p1 t) eqn:E1.
    + cbn [Nat.eqb length] in Hin. apply (Hreset (out ++ [[fst e0; fst e]])); [|exact Hin].
      intros sg' Hi. apply in_app_or in Hi. destruct Hi as [Hi|[<-|[]]]; [apply Ho; exact Hi|].
      exists pre, e0, e, rest. split; [rewrite Hd, <- !app_assoc; reflexivity|]. split; [reflexivity|]. split; [exact Hs|]. exists t; auto.
    + destruct (p0 t) eqn:E0; [|apply (Hreset out); assumption].
      apply (IH (done ++ [e]) [fst e] out); [right|exact Ho|exact Hin].
      exists done, e. split; [reflexivity|]. split; [reflexivity|]. split; [exists t; auto|]. right. exists pre, e0. split; [exact Hd|apply Hs].
Qed.

Lemma fuse_step_len st e : (length (fst st) <= 1)%nat -> (length (fst (fuse_step typ [p0; p1] st e)) <= 1)%nat.
Proof.
  destruct st as [cur out]. cbn [fst]. intro H. unfold fuse_step. destruct (typ (fst e)) as [t|]; [|simpl; lia].
  destruct (nth (length cur) [p0; p1] (fun _ => false) t).
  - destruct (Nat.eqb_spec (length (cur ++ [fst e])) (length [p0; p1])) as [E|E]; [simpl; lia|]. destruct (1 <? length (snd e))%nat; [simpl; lia|].
    rewrite app_length in E. simpl in E. cbn [fst]. rewrite app_length. simpl. lia.
  - destruct (nth 0 [p0; p1] (fun _ => false) t); simpl; lia.
Qed.
Lemma fold_len l : forall st, (length (fst st) <= 1)%nat -> (length (fst (fold_left (fuse_step typ [p0; p1]) l st)) <= 1)%nat.
Proof. induction l as [|e l IH]; intros st H; [exact H|]. cbn [fold_left]. apply IH, fuse_step_len, H. Qed.
Lemma fold_keeps tseq l : forall st sg, In sg (snd st) -> In sg (snd (fold_left (@fuse_step T typ tseq) l st)).
Proof.
  induction l as [|e l IH]; intros [cur out] sg H; [exact H|]. cbn [fold_left]. apply IH. unfold fuse_step. destruct (typ (fst e)) as [t|]; [|exact H].
  destruct (nth (length cur) tseq (fun _ => false) t); [|destruct (nth 0 tseq (fun _ => false) t); exact H].
  destruct (length (cur ++ [fst e]) =? length tseq)%nat; [cbn [snd]; apply in_or_app; left; exact H|]. destruct (1 <? length (snd e))%nat; exact H.
Qed.

Lemma pair_complete adj pre a b post : (forall t, p0 t = true -> p1 t = false) ->
  adj = pre ++ a :: b :: post -> has p0 a -> has p1 b -> (length (snd a) <= 1)%nat ->
  In [fst a; fst b] (fused_sequences typ [p0; p1] adj).
Proof.
  intros Hdis -> (ta & Ha & Ha') (tb & Hb & Hb') Hl. unfold fused_sequences. rewrite fold_left_app. cbn [fold_left].
  pose proof (fold_len pre ([], []) (Nat.le_0_l 1)) as Hlen. destruct (fold_left (fuse_step typ [p0; p1]) pre ([], [])) as [cur out]. cbn [fst] in Hlen.
  assert (E : exists o, fuse_step typ [p0; p1] (cur, out) a = ([fst a], o)).
  { unfold fuse_step. rewrite Ha. destruct cur as [|x [|y cur]]; [| |simpl in Hlen; lia]; cbn [length nth app Nat.eqb].
    - rewrite Ha'. replace (1 <? length (snd a))%nat with false by (symmetry; apply Nat.ltb_ge; exact Hl). eexists; reflexivity.
    - rewrite (Hdis _ Ha'), Ha'. eexists; reflexivity. }
  destruct E as [o ->]. apply fold_keeps. unfold fuse_step. rewrite Hb. cbn [length nth app Nat.eqb]. rewrite Hb'. cbn [snd]. apply in_or_app. right. left. reflexivity.
Qed.
End Pairs.

(** ** Graph evaluation *)
Definition agree (K : list string) (e1 e2 : env) : Prop := forall k, ~ In k K -> teq (eget e1 k) (eget e2 k).

Lemma eget_dset_same e k v : eget (dset e k v) k = v.
Proof. unfold eget. rewrite dget_dset_same. reflexivity. Qed.
Lemma eget_dset_other e k k' v : k <> k' -> eget (dset e k v) k' = eget e k'.
Proof. intro H. unfold eget. rewrite dget_dset_other by exact H. reflexivity. Qed.

Lemma teq_gather a b w : teq a b -> teq (gather a w) (gather b w).
Proof. intro H. unfold gather. apply teq_map. intros [i|] _; [apply teq_nth; exact H|reflexivity]. Qed.
Lemma dot_teq r a b : teq a b -> dot r a == dot r b.
Proof.
  intro H. unfold dot. apply qsum_teq. revert r. induction H; intro r; destruct r; simpl; constructor; auto; [cbv beta; rewrite H; reflexivity|apply IHForall2].
Qed.
Lemma layer_teq g W b x y : teq x y -> teq (layer g W b x) (layer g W b y).
Proof. intro H. unfold layer. apply teq_map. intros p _. rewrite !layer_at_bia. rewrite (dot_teq _ _ _ (teq_gather _ _ (snd p) H)). reflexivity. Qed.
Lemma hd_teq a b : Forall2 teq a b -> teq (nth 0 a []) (nth 0 b []).
Proof. intro H. destruct H; [apply teq_refl|exact H]. Qed.
Lemma bn_eqv_refl n : bn_eqv n n.
Proof. unfold bn_eqv. repeat (split; [solve [reflexivity|apply teq_refl]|]). reflexivity. Qed.

Lemma forward_eval_teq sq rsq g s x y : teq x y ->
  teq (match forward sq rsq idw idb g false x s with Ok r => snd r | Raise _ => [] end) (match forward sq rsq idw idb g false y s with Ok r => snd r | Raise _ => [] end).
Proof. intro H. unfold forward. destruct (s_frozen s); cbn; apply layer_teq; exact H. Qed.

Lemma eval_node_teq sq rsq o a b : roots_ok sq rsq -> (forall f, o = NOther f -> forall a b, Forall2 teq a b -> teq (f a) (f b)) ->
  Forall2 teq a b -> teq (eval_node sq rsq o a) (eval_node sq rsq o b).
Proof.
  intros Hr Hf H. pose proof (hd_teq _ _ H) as H0. destruct o; cbn [eval_node].
  - apply layer_teq; exact H0.
  - apply (bn_eval_eqv sq); [exact Hr|apply bn_eqv_refl|exact H0].
  - exact H0.
  - apply forward_eval_teq; exact H0.
  - apply (Hf f eq_refl); exact H.
Qed.

Definition proper_node (nd : node) : Prop := forall f, nd_op nd = NOther f -> forall a b, Forall2 teq a b -> teq (f a) (f b).

Lemma eval_agree sq rsq K gr : roots_ok sq rsq -> Forall proper_node gr -> (forall nd k, In nd gr -> In k (nd_ins nd) -> ~ In k K) ->
  forall e1 e2, agree K e1 e2 -> agree K (eval_graph sq rsq gr e1) (eval_graph sq rsq gr e2).
Proof.
  intros Hr Hp. induction Hp as [|nd gr Hnd Hp IH]; intros Hr0 e1 e2 H; [exact H|].
  cbn [eval_graph]. apply IH; [intros n k Hn; apply Hr0; right; exact Hn|]. intros k Hk.
  destruct (string_dec (nd_name nd) k) as [E|E].
  - subst k. rewrite !eget_dset_same. apply eval_node_teq; [exact Hr|exact Hnd|].
    assert (Hi : forall k, In k (nd_ins nd) -> ~ In k K) by (intros k; apply Hr0; left; reflexivity).
    clear - H Hi. induction (nd_ins nd) as [|k l IHl]; simpl; constructor; [apply H, Hi; left; reflexivity|apply IHl; intros k' Hk'; apply Hi; right; exact Hk'].
  - rewrite !eget_dset_other by exact E. apply H; exact Hk.
Qed.

Lemma eval_graph_app sq rsq a b e : eval_graph sq rsq (a ++ b) e = eval_graph sq rsq b (eval_graph sq rsq a e).
Proof. revert e. induction a as [|n a IH]; intro e; simpl; auto. Qed.
