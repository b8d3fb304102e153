(** Proofs about the element-wise modules (C106). *)
From Coq Require Import String List ZArith Arith Bool Lia.
From Verif Require Import Base EltModel EltSpec.
Import ListNotations.
Open Scope list_scope.
Open Scope nat_scope.
Arguments dims {V}. Arguments el {V}. Arguments leaf_grad {V}. Arguments mkTn {V}.

Lemma pick_place : forall s i, pick s i = place s i.
Proof. induction s; intros [|k i]; cbn; try reflexivity. Qed.

Lemma place_place : forall s b, fits s b -> forall i, place s (place b i) = place s i.
Proof.
  induction 1 as [|d s e b Hd Hf IH]; intro i; [reflexivity|]. destruct i as [|k i]; [reflexivity|]. cbn. rewrite IH. f_equal.
  destruct (Nat.eqb_spec d 1) as [|N]; [reflexivity|]. destruct (Nat.eqb_spec e 1); [destruct Hd; lia|reflexivity].
Qed.

Lemma place_id : forall i s, inside i s -> place s i = i.
Proof. induction 1 as [|k d i s H HF IH]; [reflexivity|]. cbn. rewrite IH. f_equal. destruct (Nat.eqb_spec d 1); lia. Qed.

Lemma place_inside : forall s b, fits s b -> forall i, inside i b -> inside (place s i) s.
Proof.
  induction 1 as [|d s e b Hd Hf IH]; intros i Hi; [constructor|]. inversion Hi as [|k e' i' b' Hk HF]; subst. cbn. constructor; [|now apply IH].
  destruct (Nat.eqb_spec d 1); destruct Hd; lia.
Qed.

Lemma fits_refl : forall s, fits s s. Proof. induction s; constructor; auto. Qed.
Lemma fits_trans : forall a b, fits a b -> forall c, fits b c -> fits a c.
Proof. induction 1 as [|d s e b Hd Hf IH]; intros c Hc; [constructor|]. inversion Hc as [|? ? e' c' He Hf']; subst. constructor; [lia|now apply IH]. Qed.
Lemma fits_length : forall a b, fits a b -> length a <= length b. Proof. induction 1; cbn; lia. Qed.

Lemma broadcast_ok : forall a b c, broadcast a b = Ok c ->
  fits a c /\ fits b c /\ length c = Nat.max (length a) (length b) /\
  (forall k e, nth_error c k = Some e -> e <> 1 -> nth_error a k = Some e \/ nth_error b k = Some e).
Proof.
  induction a as [|x a IH]; intros b c H.
  - cbn in H. injection H as <-. repeat split; [constructor|apply fits_refl|auto].
  - destruct b as [|y b].
    + cbn in H. injection H as <-. repeat split; [apply fits_refl|constructor|auto].
    + cbn [broadcast] in H. destruct (broadcast a b) as [r|] eqn:E; cbn [bind] in H; [|discriminate H].
      destruct (IH b r E) as (F1 & F2 & F3 & F4).
      assert (HC : exists z, c = z :: r /\ (x = z \/ x = 1) /\ (y = z \/ y = 1) /\ (z = x \/ z = y)).
      { destruct (Nat.eqb_spec x y); [injection H as <-; exists x; auto|]. destruct (Nat.eqb_spec x 1); [injection H as <-; exists y; auto|].
        destruct (Nat.eqb_spec y 1); [injection H as <-; exists x; auto|discriminate H]. }
      destruct HC as (z & -> & Hx & Hy & Hz). repeat split; [now constructor|now constructor|cbn; lia|].
      intros [|k] e He; [|now apply F4]. cbn in He. injection He as <-. intros _. cbn. destruct Hz as [->| ->]; auto.
Qed.

Lemma broadcast_complete : forall a b c, fits a c -> fits b c -> exists d, broadcast a b = Ok d /\ fits d c.
Proof.
  induction a as [|x a IH]; intros b c Ha Hb.
  - exists b. split; [reflexivity|exact Hb].
  - destruct b as [|y b]; [exists (x :: a); split; [reflexivity|exact Ha]|].
    inversion Ha as [|? ? z c' Hx Ha']; subst. inversion Hb as [|? ? ? ? Hyy Hb']; subst.
    destruct (IH b c' Ha' Hb') as (d & E & Hd). cbn [broadcast]. rewrite E. cbn [bind].
    destruct (Nat.eqb_spec x y); [eexists; split; [reflexivity|constructor; auto]|].
    destruct (Nat.eqb_spec x 1); [eexists; split; [reflexivity|constructor; auto]|].
    destruct (Nat.eqb_spec y 1); [eexists; split; [reflexivity|constructor; auto]|]. destruct Hx, Hyy; lia.
Qed.

Lemma common_one : forall s, common [s] s.
Proof. intro s. repeat split; [intros x [<-|[]]; apply fits_refl|intros c H; apply fits_length, H; now left|intros k e H _; exists s; split; [now left|exact H]]. Qed.

Lemma common_snoc : forall l b s c, common l b -> broadcast b s = Ok c -> common (l ++ [s]) c.
Proof.
  intros l b s c (C1 & C2 & C3) H. destruct (broadcast_ok b s c H) as (F1 & F2 & F3 & F4). repeat split.
  - intros x Hx. apply in_app_or in Hx. destruct Hx as [Hx|[<-|[]]]; [|exact F2]. eapply fits_trans; [now apply C1|exact F1].
  - intros c' Hc'. rewrite F3. apply Nat.max_lub; [apply C2; intros; apply Hc', in_or_app; now left|apply fits_length, Hc', in_or_app; right; now left].
  - intros k e Hk He. destruct (F4 k e Hk He) as [Hb|Hs].
    + destruct (C3 k e Hb He) as (x & Hx & Hn). exists x. split; [apply in_or_app; now left|exact Hn].
    + exists s. split; [apply in_or_app; right; now left|exact Hs].
Qed.

(** the common shape fits in every shape all others fit in *)
Lemma common_least : forall l b c, common l b -> (forall s, In s l -> fits s c) -> fits b c.
Proof.
  intros l b c (C1 & C2 & C3) H. specialize (C2 c H).
  assert (HK : forall k e, nth_error b k = Some e -> e <> 1 -> nth_error c k = Some e).
  { intros k e Hk He. destruct (C3 k e Hk He) as (s & Hs & Hn). clear -H Hs Hn He. specialize (H s Hs). clear Hs. revert k Hn.
    induction H as [|d s e' b Hd Hf IH]; intros k Hn; [destruct k; discriminate Hn|]. destruct k as [|k]; [cbn in *; injection Hn as ->; destruct Hd; [now subst|contradiction]|now apply IH]. }
  clear -C2 HK. revert c C2 HK. induction b as [|e b IH]; intros c HL HK; [constructor|]. destruct c as [|z c]; [cbn in HL; lia|]. constructor.
  - destruct (Nat.eq_dec e 1); [now right|left]. specialize (HK 0 e eq_refl n). cbn in HK. now injection HK as ->.
  - apply IH; [cbn in HL; lia|]. intros k e' Hk. apply (HK (S k) e' Hk).
Qed.

Section Elt.
Variable V : Type.
Notation tns := (tensor V).
Notation mem := (memory V).

Definition value (f : V -> V -> V) (t0 : tns) (l : list tns) (i : list nat) : V :=
  chain f (el t0 (place (dims t0) i)) (map (fun u => el u (place (dims u) i)) l).

(** [t] holds the result of combining t0 and l *)
Definition holds (f : V -> V -> V) (t0 : tns) (l : list tns) (t : tns) : Prop :=
  common (map dims (t0 :: l)) (dims t) /\ forall i, inside i (dims t) -> el t i = value f t0 l i.

Lemma holds_one : forall f t, holds f t [] t.
Proof. intros f t. split; [apply common_one|]. intros i Hi. unfold value. cbn. now rewrite place_id. Qed.

Lemma holds_snoc : forall f t0 l t u s g, holds f t0 l t -> broadcast (dims t) (dims u) = Ok s -> holds f t0 (l ++ [u]) (combine V f s g t u).
Proof.
  intros f t0 l t u s g [HC HE] HB. split.
  - change (t0 :: l ++ [u]) with ((t0 :: l) ++ [u]). rewrite map_app. cbn [map dims combine]. eapply common_snoc; eassumption.
  - intros i Hi. cbn [el combine dims] in *. destruct (broadcast_ok _ _ _ HB) as (F1 & F2 & _). rewrite !pick_place.
    rewrite HE by (eapply place_inside; eassumption). unfold value, chain. rewrite map_app, fold_left_app. cbn [map fold_left]. f_equal.
    destruct HC as (C1 & _). rewrite place_place by (apply C1; now left). f_equal. apply map_ext_in. intros x Hx. rewrite place_place; [reflexivity|]. apply C1. right. now apply in_map.
Qed.

Definition at_refs (m : mem) (refs : list nat) (ts : list tns) : Prop := Forall2 (fun r t => nth_error m r = Some t) refs ts.

Lemma load_some : forall (m : mem) r t, nth_error m r = Some t -> load V m r = Ok t.
Proof. intros m r t H. unfold load. now rewrite H. Qed.

Lemma at_refs_app : forall m x refs ts, at_refs m refs ts -> at_refs (m ++ [x]) refs ts.
Proof.
  intros m x refs ts H. induction H as [|r t refs ts Hr HF IH]; constructor; [|exact IH]. rewrite nth_error_app1; [exact Hr|]. apply nth_error_Some. congruence.
Qed.

(** the loop that makes new tensors *)
Lemma loop_new : forall f l m r t0 done t ts, nth_error m r = Some t -> holds f t0 done t -> at_refs m l ts ->
  (forall m' r', loop V (op_new V f) m r l = (m', Ok r') -> exists news t', m' = m ++ news /\ nth_error m' r' = Some t' /\ holds f t0 (done ++ ts) t' /\ (l = [] -> news = [] /\ r' = r) /\ (l <> [] -> length m <= r')) /\
  (forall m' e, loop V (op_new V f) m r l = (m', Raise e) -> e = RuntimeError /\ (exists news, m' = m ++ news) /\ ~ exists c, forall s, In s (map dims (t0 :: done ++ ts)) -> fits s c).
Proof.
  intros f l. induction l as [|a l IH]; intros m r t0 done t ts Hr HH HT.
  - inversion HT; subst. split; intros m' x E; cbn in E; [|discriminate E]. injection E as <- <-. exists [], t. rewrite !app_nil_r. repeat split; auto; try apply HH. intro; contradiction.
  - inversion HT as [|? u ? ts' Hu HT']; subst. cbn [loop]. unfold op_new. rewrite (load_some _ _ _ Hr), (load_some _ _ _ Hu). cbn [bind].
    destruct (broadcast (dims t) (dims u)) as [s|e] eqn:EB; cbn [bind].
    + assert (Hn : nth_error (m ++ [combine V f s false t u]) (length m) = Some (combine V f s false t u)) by (rewrite nth_error_app2, Nat.sub_diag by lia; reflexivity).
      destruct (IH (m ++ [combine V f s false t u]) (length m) t0 (done ++ [u]) _ ts' Hn (holds_snoc f t0 done t u s false HH EB) (at_refs_app _ _ _ _ HT')) as [I1 I2].
      rewrite <- app_assoc in I1, I2. cbn [app] in I1, I2. fold (op_new V f). split; intros m' x E.
      * destruct (I1 m' x E) as (news & t' & -> & Ht' & HH' & J1 & J2). exists (combine V f s false t u :: news), t'. rewrite <- app_assoc in *. cbn [app] in *. repeat split; auto; try apply HH'; [discriminate|discriminate|].
        intros _. destruct l; [destruct (J1 eq_refl) as [_ ->]; lia|]. assert (HL := J2 ltac:(discriminate)). rewrite app_length in HL. cbn in HL. lia.
      * destruct (I2 m' x E) as (-> & (news & ->) & HN). repeat split; [|exact HN]. exists (combine V f s false t u :: news). now rewrite <- app_assoc.
    + split; intros m' x E; [discriminate E|]. injection E as <- <-. repeat split; [|exists []; now rewrite app_nil_r|].
      * clear - EB. revert e EB. generalize (dims u). induction (dims t) as [|x a IH]; intros b e H; [discriminate H|]. destruct b as [|y b]; [discriminate H|]. cbn [broadcast] in H.
        destruct (broadcast a b) eqn:E; cbn [bind] in H; [|injection H as ->; eapply IH; exact E]. destruct (x =? y); [discriminate H|]. destruct (x =? 1); [discriminate H|]. destruct (y =? 1); [discriminate H|]. now injection H as <-.
      * intros (c & Hc). destruct (broadcast_complete (dims t) (dims u) c) as (d & Ed & _); [|apply Hc; right; rewrite map_app; apply in_or_app; right; now left|rewrite EB in Ed; discriminate Ed].
        eapply common_least; [apply HH|]. intros s Hs. apply Hc. cbn [map] in Hs. destruct Hs as [<-|Hs]; [now left|right]. rewrite map_app. apply in_or_app. now left.
Qed.

(* in place *)
Lemma store_same : forall (m : mem) r t x, nth_error m r = Some x -> nth_error (store V m r t) r = Some t.
Proof. induction m as [|y m IH]; intros [|r] t x H; cbn in *; try discriminate H; [reflexivity|]. eapply IH; eassumption. Qed.
Lemma store_other : forall (m : mem) r t k, k <> r -> nth_error (store V m r t) k = nth_error m k.
Proof. induction m as [|y m IH]; intros [|r] t [|k] H; cbn; try reflexivity; try contradiction. apply IH. lia. Qed.
Lemma store_length : forall (m : mem) r t, length (store V m r t) = length m.
Proof. induction m as [|y m IH]; intros [|r] t; cbn; auto. Qed.

Lemma at_refs_store : forall m r x refs ts, ~ In r refs -> at_refs m refs ts -> at_refs (store V m r x) refs ts.
Proof.
  intros m r x refs ts HN H. induction H as [|k t refs ts Hr HF IH]; constructor; [|apply IH; intro; apply HN; now right]. rewrite store_other; [exact Hr|]. intro; subst; apply HN; now left.
Qed.

Lemma fits_same : forall a b, fits b a -> broadcast a b = Ok a.
Proof.
  induction a as [|x a IH]; intros b H; [inversion H; reflexivity|]. destruct b as [|y b]; [reflexivity|]. inversion H as [|? ? ? ? Hyy HF]; subst. cbn [broadcast]. rewrite (IH b HF). cbn [bind].
  destruct (Nat.eqb_spec x y); [reflexivity|]. destruct (Nat.eqb_spec x 1); [destruct Hyy; lia|]. destruct (Nat.eqb_spec y 1); [reflexivity|destruct Hyy; lia].
Qed.

Lemma loop_inplace : forall g f l m r t0 done t ts, nth_error m r = Some t -> holds f t0 done t -> dims t = dims t0 -> leaf_grad t = leaf_grad t0 -> at_refs m l ts -> ~ In r l ->
  let m' := fst (loop V (op_inplace V g f) m r l) in
  (forall k, k <> r -> nth_error m' k = nth_error m k) /\ length m' = length m /\
  match snd (loop V (op_inplace V g f) m r l) with
  | Ok r' => r' = r /\ (exists t', nth_error m' r = Some t' /\ dims t' = dims t0 /\ leaf_grad t' = leaf_grad t0 /\ holds f t0 (done ++ ts) t') /\ (l <> [] -> g && leaf_grad t0 = false) /\ Forall (fun u => fits (dims u) (dims t0)) ts
  | Raise e => e = RuntimeError /\ (g && leaf_grad t0 = true \/ ~ Forall (fun u => fits (dims u) (dims t0)) ts)
  end.
Proof.
  intros g f l. induction l as [|a l IH]; intros m r t0 done t ts Hr HH HD HG HT HN; cbv zeta.
  - inversion HT; subst. cbn. rewrite app_nil_r. repeat split; auto. exists t. auto. intro; contradiction.
  - inversion HT as [|? u ? ts' Hu HT']; subst. cbn [loop].
    assert (HS : op_inplace V g f m r a = (if g && leaf_grad t0 then Raise RuntimeError else do s <- broadcast (dims t) (dims u); if list_eq_dec Nat.eq_dec s (dims t) then Ok (store V m r (combine V f s (leaf_grad t) t u), r) else Raise RuntimeError)).
    { unfold op_inplace. rewrite (load_some _ _ _ Hr), (load_some _ _ _ Hu). cbn [bind]. now rewrite HG. }
    rewrite HS. destruct (g && leaf_grad t0) eqn:EG; [cbn; auto|].
    destruct (broadcast (dims t) (dims u)) as [s|e] eqn:EB; cbn [bind].
    + destruct (list_eq_dec Nat.eq_dec s (dims t)) as [Es|Es].
      * assert (HN' : ~ In r l) by (intro; apply HN; now right). assert (Ha : a <> r) by (intro; apply HN; now left).
        assert (F2 : fits (dims u) (dims t0)) by (destruct (broadcast_ok _ _ _ EB) as (_ & F2 & _); rewrite Es, HD in F2; exact F2).
        destruct (IH (store V m r (combine V f s (leaf_grad t) t u)) r t0 (done ++ [u]) (combine V f s (leaf_grad t) t u) ts' (store_same _ _ _ _ Hr) (holds_snoc f t0 done t u s _ HH EB) (eq_trans Es HD) HG (at_refs_store _ _ _ _ _ HN' HT') HN') as (J1 & J2 & J3).
        split; [|split].
        -- intros k Hk. rewrite J1 by exact Hk. now apply store_other.
        -- rewrite J2. apply store_length.
        -- rewrite <- app_assoc in J3. cbn [app] in J3. destruct (snd (loop V (op_inplace V g f) _ r l)).
           ++ destruct J3 as (K1 & K2 & K3 & K4). repeat split; auto.
           ++ destruct J3 as (K1 & K2). split; [exact K1|]. right. intro HF. inversion HF; subst. destruct K2 as [K2|K2]; [rewrite EG in K2; discriminate K2|contradiction].
      * cbn. repeat split; auto. right. intro HF. inversion HF; subst. rewrite HD in *. rewrite fits_same in EB by assumption. injection EB as <-. now apply Es.
    + cbn. repeat split; auto.
      * clear - EB. revert e EB. generalize (dims u). induction (dims t) as [|x a IH]; intros b e H; [discriminate H|]. destruct b as [|y b]; [discriminate H|]. cbn [broadcast] in H.
        destruct (broadcast a b) eqn:E; cbn [bind] in H; [|injection H as ->; eapply IH; exact E]. destruct (x =? y); [discriminate H|]. destruct (x =? 1); [discriminate H|]. destruct (y =? 1); [discriminate H|]. now injection H as <-.
      * right. intro HF. inversion HF; subst. rewrite HD in *. rewrite fits_same in EB by assumption. discriminate EB.
Qed.
End Elt.
