(** Proofs about the NCF example. *)
From Coq Require Import List Arith Bool Lia QArith Lqa Permutation Sorted.
From Verif Require Import Base NcfModel NcfSpec.
Import ListNotations.
Open Scope list_scope.
Open Scope nat_scope.

(** ** predictions *)
Lemma slices_concat {A} bs : 0 < bs -> forall f (l : list A), length l <= f -> concat (slices f bs l) = l.
Proof.
  intros Hb. induction f as [|f IH]; intros l H; [destruct l; [reflexivity|cbn in H; lia]|]. destruct l as [|x l]; [reflexivity|].
  cbn [slices concat]. rewrite IH; [apply firstn_skipn|]. rewrite skipn_length. cbn [length] in *. lia.
Qed.
Lemma combine_split_map {A B} (l : list (A * B)) : combine (map fst l) (map snd l) = l.
Proof. induction l as [|(a, b) l IH]; [reflexivity|]. cbn. f_equal. exact IH. Qed.
Lemma predict_map score net bs us is : pointwise score net -> 0 < bs -> length us = length is ->
  predict net us is bs = map (fun p => score (fst p) (snd p)) (combine us is).
Proof.
  intros Hn Hb Hl. unfold predict. assert (forall bl, flat_map (fun b => net (map fst b) (map snd b)) bl = map (fun p => score (fst p) (snd p)) (concat bl)) as ->.
  { induction bl as [|b bl IH]; [reflexivity|]. cbn [flat_map concat]. rewrite map_app, IH, Hn by (rewrite !map_length; reflexivity). rewrite combine_split_map. reflexivity. }
  rewrite slices_concat; auto. rewrite combine_length. lia.
Qed.

(** ** the dictionary of scores *)
Lemma sset_same (f : nat -> Q) d k : In k (map fst d) -> (forall p, In p d -> snd p = f (fst p)) -> sset d k (f k) = d.
Proof.
  induction d as [|(j, v) d IH]; intros I H; [destruct I|]. cbn [sset]. pose proof (H (j, v) (or_introl eq_refl)) as E. cbn in E.
  destruct (Nat.eqb_spec k j) as [->|N]; [rewrite E; reflexivity|]. destruct I as [I|I]; [cbn in I; congruence|]. f_equal. apply IH; auto. intros; apply H; right; auto.
Qed.
Lemma sset_new d k v : ~ In k (map fst d) -> sset d k v = d ++ [(k, v)].
Proof.
  induction d as [|(j, u) d IH]; intro H; [reflexivity|]. cbn [sset]. destruct (Nat.eqb_spec k j) as [->|N]; [exfalso; apply H; left; auto|].
  cbn. f_equal. apply IH. intro I. apply H. right. auto.
Qed.
(** first occurrences *)
Fixpoint firsts (seen l : list nat) : list nat :=
  match l with [] => [] | x :: r => if in_dec Nat.eq_dec x seen then firsts seen r else x :: firsts (seen ++ [x]) r end.
Lemma item_score_gen (f : nat -> Q) : forall items d, (forall p, In p d -> snd p = f (fst p)) ->
  fold_left (fun d ip => sset d (fst ip) (snd ip)) (combine items (map f items)) d = d ++ map (fun i => (i, f i)) (firsts (map fst d) items).
Proof.
  induction items as [|x items IH]; intros d H; cbn [map combine fold_left firsts fst snd]; [rewrite app_nil_r; reflexivity|].
  destruct (in_dec Nat.eq_dec x (map fst d)) as [I|I].
  - rewrite sset_same by auto. apply IH. auto.
  - rewrite sset_new by auto. rewrite IH.
    + rewrite map_app. cbn [map fst]. rewrite <- app_assoc. reflexivity.
    + intros p Hp. apply in_app_or in Hp. destruct Hp as [Hp|[<-|[]]]; [auto|reflexivity].
Qed.
Lemma item_score_firsts f items : item_score items (map f items) = map (fun i => (i, f i)) (firsts [] items).
Proof. unfold item_score. rewrite (item_score_gen f items []); [reflexivity|intros ? []]. Qed.
Lemma firsts_spec : forall l seen, NoDup (firsts seen l) /\ forall x, In x (firsts seen l) <-> In x l /\ ~ In x seen.
Proof.
  induction l as [|x l IH]; intro seen; cbn [firsts]; [split; [constructor|cbn; tauto]|].
  destruct (in_dec Nat.eq_dec x seen) as [I|I].
  - destruct (IH seen) as [N H]. split; [exact N|]. intro y. rewrite H. cbn [In]. split; [tauto|]. intros [[->|Hy] Hn]; [contradiction|tauto].
  - destruct (IH (seen ++ [x])) as [N H]. split.
    + constructor; [|exact N]. rewrite H. intros [_ X]. apply X, in_or_app. right. left. auto.
    + intro y. cbn [In]. rewrite H. split.
      * intros [->|[A B]]; [tauto|]. split; [tauto|]. intro C. apply B, in_or_app. auto.
      * intros [[->|A] B]; [tauto|]. destruct (Nat.eq_dec x y) as [->|Ne]; [tauto|]. right. split; [auto|]. intro C. apply in_app_or in C. destruct C as [C|[C|[]]]; auto.
Qed.
Lemma firsts_app : forall l seen l', firsts seen (l ++ l') = firsts seen l ++ firsts (seen ++ firsts seen l) l'.
Proof.
  induction l as [|x l IH]; intros seen l'; cbn [firsts app]; [rewrite app_nil_r; reflexivity|].
  destruct (in_dec Nat.eq_dec x seen) as [I|I]; [apply IH|]. rewrite IH. rewrite <- app_assoc. reflexivity.
Qed.
Lemma firsts_seen : forall l seen, (forall x, In x l -> In x seen) -> firsts seen l = [].
Proof.
  induction l as [|x l IH]; intros seen H; [reflexivity|]. cbn [firsts]. destruct (in_dec Nat.eq_dec x seen) as [I|I]; [|exfalso; apply I, H; left; auto].
  apply IH. intros; apply H; right; auto.
Qed.
Lemma firsts_fresh : forall l seen, NoDup l -> (forall x, In x l -> ~ In x seen) -> firsts seen l = l.
Proof.
  induction l as [|x l IH]; intros seen N H; [reflexivity|]. cbn [firsts]. inversion N as [|? ? Hx Hl]; subst.
  destruct (in_dec Nat.eq_dec x seen) as [I|I]; [exfalso; apply (H x); [left; auto|auto]|]. f_equal. apply IH; auto. intros y Hy C. apply in_app_or in C.
  destruct C as [C|[->|[]]]; [apply (H y); [right; auto|auto]|contradiction].
Qed.

(** ** ranking: the last item of the list comes behind all that score at least as much *)
Section Rank.
Variable f : nat -> Q.
Definition pr (i : nat) : nat * Q := (i, f i).
Definition sorted_items (l : list nat) : list nat := map fst (fold_right insert_score [] (map pr l)).
Fixpoint insert_item (x : nat) (l : list nat) : list nat :=
  match l with [] => [x] | h :: r => if Qle_bool (f h) (f x) then x :: h :: r else h :: insert_item x r end.
Lemma sorted_items_fold l : sorted_items l = fold_right insert_item [] l /\ fold_right insert_score [] (map pr l) = map pr (fold_right insert_item [] l).
Proof.
  assert (I : forall x l, insert_score (pr x) (map pr l) = map pr (insert_item x l)).
  { intros x. induction l0 as [|h r IH]; [reflexivity|]. cbn [map insert_score insert_item pr snd]. fold (pr h). fold (pr x). destruct (Qle_bool (f h) (f x)); [reflexivity|]. rewrite IH. reflexivity. }
  assert (E : fold_right insert_score [] (map pr l) = map pr (fold_right insert_item [] l)).
  { induction l as [|x l IH]; [reflexivity|]. cbn [map fold_right]. rewrite IH. apply I. }
  split; [|exact E]. unfold sorted_items. rewrite E, map_map. cbn. rewrite map_id. reflexivity.
Qed.
Lemma insert_item_perm x l : Permutation (insert_item x l) (x :: l).
Proof. induction l as [|h l IH]; cbn [insert_item]; [reflexivity|]. destruct (Qle_bool _ _); [reflexivity|]. rewrite IH. apply perm_swap. Qed.
Lemma sorted_items_perm l : Permutation (sorted_items l) l.
Proof. rewrite (proj1 (sorted_items_fold l)). induction l as [|a b IH]; [constructor|]. cbn [fold_right]. rewrite insert_item_perm. constructor. exact IH. Qed.
(** split where [t] is *)
Lemma insert_item_split x t : forall a b, x <> t -> ~ In t a -> (forall j, In j a -> (f t <= f j)%Q) -> StronglySorted (fun i j => (f j <= f i)%Q) (a ++ t :: b) ->
  exists a' b', insert_item x (a ++ t :: b) = a' ++ t :: b' /\ ~ In t a' /\ (forall j, In j a' -> (f t <= f j)%Q) /\
    length a' = length a + (if Qle_bool (f t) (f x) then 1 else 0).
Proof.
  induction a as [|h a IH]; intros b Hx Ht Ha Hs; cbn [app insert_item].
  - destruct (Qle_bool (f t) (f x)) eqn:E.
    + exists [x], b. split; [reflexivity|]. split; [intros [->|[]]; congruence|]. split; [intros j [<-|[]]; apply Qle_bool_iff; auto|reflexivity].
    + exists [], (insert_item x b). repeat split; auto.
  - cbn in Hs. inversion Hs as [|? ? Hs' Hh]; subst. destruct (Qle_bool (f h) (f x)) eqn:E.
    + apply Qle_bool_iff in E. assert (f t <= f x)%Q as Hle by (eapply Qle_trans; [apply Ha; left; auto|exact E]).
      exists (x :: h :: a), b. split; [reflexivity|]. split; [intros [X|X]; [congruence|auto]|]. split.
      * intros j [<-|Hj]; auto.
      * apply Qle_bool_iff in Hle. rewrite Hle. cbn [length]. lia.
    + destruct (IH b Hx) as (a' & b' & -> & A & B & C).
      * intro; apply Ht; right; auto.
      * intros; apply Ha; right; auto.
      * exact Hs'.
      * exists (h :: a'), b'. split; [reflexivity|]. split; [intros [X|X]; [apply Ht; left; auto|auto]|]. split; [intros j [<-|Hj]; [apply Ha; left; auto|auto]|cbn [length]; lia].
Qed.
Lemma insert_item_sorted g l : StronglySorted (fun i j => (f j <= f i)%Q) l -> StronglySorted (fun i j => (f j <= f i)%Q) (insert_item g l).
Proof.
  induction l as [|h l IH]; intro H; cbn [insert_item]; [repeat constructor|]. inversion H as [|? ? Hl Hh]; subst.
  destruct (Qle_bool _ _) eqn:E.
  - apply Qle_bool_iff in E. constructor; [auto|]. constructor; [exact E|]. eapply Forall_impl; [|exact Hh]. cbn. intros. eapply Qle_trans; eauto.
  - assert (f g <= f h)%Q as L. { destruct (Qlt_le_dec (f h) (f g)) as [X|X]; [|exact X]. apply Qlt_le_weak, Qle_bool_iff in X. congruence. }
    constructor; [auto|]. rewrite insert_item_perm. constructor; [exact L|exact Hh].
Qed.
Lemma fold_sorted l : StronglySorted (fun i j => (f j <= f i)%Q) (fold_right insert_item [] l).
Proof. induction l; [constructor|]. cbn [fold_right]. apply insert_item_sorted. auto. Qed.
Lemma last_rank l t : ~ In t l -> exists a b, sorted_items (l ++ [t]) = a ++ t :: b /\ ~ In t a /\ length a = rivals f t l.
Proof.
  intro H. rewrite (proj1 (sorted_items_fold _)).
  assert (G : exists a b, fold_right insert_item [] (l ++ [t]) = a ++ t :: b /\ ~ In t a /\ (forall j, In j a -> (f t <= f j)%Q) /\ length a = rivals f t l).
  { induction l as [|x l IH]; [exists [], []; cbn; repeat split; auto; tauto|]. destruct IH as (a & b & E & A & B & C); [intro; apply H; right; auto|].
    pose proof (fold_sorted (l ++ [t])) as So. cbn [app fold_right]. rewrite E in *.
    destruct (insert_item_split x t a b) as (a' & b' & E' & A' & B' & C'); auto; [intro; apply H; left; auto|].
    exists a', b'. split; [exact E'|]. split; [auto|]. split; [auto|]. rewrite C', C. unfold rivals. cbn [filter]. destruct (Qle_bool (f t) (f x)); cbn [length]; lia. }
  destruct G as (a & b & E & A & _ & C). eauto.
Qed.
End Rank.
Lemma hit_of_split a t b K : ~ In t a -> calculate_hit (firstn K (a ++ t :: b)) t = (if Nat.ltb (length a) K then 1 else 0) /\
  calculate_ndcg (firstn K (a ++ t :: b)) t = (if Nat.ltb (length a) K then Some (length a) else None).
Proof.
  unfold calculate_hit. revert K. induction a as [|x a IH]; intros K H.
  - destruct K as [|K]; [split; reflexivity|]. cbn [app firstn existsb calculate_ndcg length]. rewrite Nat.eqb_refl. split; reflexivity.
  - destruct K as [|K]; [split; reflexivity|]. cbn [app firstn existsb calculate_ndcg length].
    assert (x <> t) as N by (intro; apply H; left; auto). destruct (Nat.eqb_spec t x); [congruence|]. destruct (Nat.eqb_spec x t); [congruence|]. cbn [orb].
    destruct (IH K) as [A B]; [intro; apply H; right; auto|]. rewrite A, B. change (S (length a) <? S K) with (length a <? K). destruct (length a <? K); split; reflexivity.
Qed.
Lemma rivals_perm f t a b : Permutation a b -> rivals f t a = rivals f t b.
Proof.
  intro H. unfold rivals. induction H; cbn [filter]; auto; try congruence.
  - destruct (Qle_bool _ _); cbn; congruence.
  - destruct (Qle_bool (f t) (f x)), (Qle_bool (f t) (f y)); reflexivity.
Qed.
