(** Proofs about the samplers and the collation of sentences. *)
From Coq Require Import String List Arith Bool Lia Permutation Sorted.
From Verif Require Import Base SmpModel SmpSpec.
Import ListNotations.
Open Scope list_scope.
Open Scope nat_scope.

Lemma skipn_more {A} (l : list A) : forall a b, skipn a (skipn b l) = skipn (b + a) l.
Proof. induction l as [|x l IH]; intros a [|b]; cbn [skipn Nat.add]; auto. destruct a; reflexivity. Qed.
Lemma In_firstn_in {A} n (l : list A) x : In x (firstn n l) -> In x l.
Proof. intro H. rewrite <- (firstn_skipn n l). apply in_or_app. auto. Qed.
(** ** buffers *)
Lemma bget_badd b g x g' : bget (badd b g x) g' = if Nat.eqb g' g then bget b g ++ [x] else bget b g'.
Proof.
  induction b as [|(k, l) b IH]; cbn [badd bget].
  - destruct (Nat.eqb g' g); reflexivity.
  - destruct (Nat.eqb_spec g k) as [->|N]; cbn [bget].
    + destruct (Nat.eqb g' k); reflexivity.
    + rewrite IH. destruct (Nat.eqb_spec g' k) as [->|N']; [|reflexivity].
      destruct (Nat.eqb_spec k g); [congruence|reflexivity].
Qed.
Lemma bget_bdel b g g' : bget (bdel b g) g' = if Nat.eqb g' g then [] else bget b g'.
Proof.
  induction b as [|(k, l) b IH]; cbn [bdel filter bget fst]; [destruct (Nat.eqb g' g); reflexivity|].
  destruct (Nat.eqb_spec g k) as [->|N]; cbn [negb bget].
  - unfold bdel in IH. rewrite IH. destruct (Nat.eqb g' k); reflexivity.
  - fold (bdel b g). rewrite IH. destruct (Nat.eqb_spec g' k) as [->|N']; [|reflexivity]. destruct (Nat.eqb_spec k g); [congruence|reflexivity].
Qed.
Lemma bget_btouch b g g' : bget (btouch b g) g' = bget b g'.
Proof.
  unfold btouch. destruct (existsb _ b) eqn:E; [reflexivity|]. clear E. induction b as [|(k, l) b IH]; cbn [app bget].
  - destruct (Nat.eqb g' g); reflexivity.
  - destruct (Nat.eqb g' k); auto.
Qed.
Lemma badd_keys b g x : map fst (badd b g x) = if existsb (Nat.eqb g) (map fst b) then map fst b else map fst b ++ [g].
Proof.
  induction b as [|(k, l) b IH]; [reflexivity|]. cbn [badd map fst existsb]. destruct (Nat.eqb g k); cbn [orb map fst]; [reflexivity|].
  rewrite IH. destruct (existsb (Nat.eqb g) (map fst b)); reflexivity.
Qed.
Lemma nodup_snoc (l : list nat) g : NoDup l -> (existsb (Nat.eqb g) l) = false -> NoDup (l ++ [g]).
Proof.
  intros H E. apply (NoDup_Add (Add_app g l [])). rewrite app_nil_r. split; auto. intro I.
  assert (existsb (Nat.eqb g) l = true) by (apply existsb_exists; exists g; split; [auto|apply Nat.eqb_refl]). congruence.
Qed.
Lemma badd_nodup b g x : NoDup (map fst b) -> NoDup (map fst (badd b g x)).
Proof. intro H. rewrite badd_keys. destruct (existsb _ _) eqn:E; auto. apply nodup_snoc; auto. Qed.
Lemma bdel_nodup b g : NoDup (map fst b) -> NoDup (map fst (bdel b g)).
Proof.
  induction b as [|(k, l) b IH]; intro H; [constructor|]. inversion H as [|? ? Hk Hn]; subst. cbn [bdel filter fst].
  destruct (negb (Nat.eqb g k)); [|apply IH; auto]. cbn [map fst]. constructor; [|apply IH; auto].
  intro I. apply Hk. apply in_map_iff in I. destruct I as (x & E & I). apply filter_In in I. apply in_map_iff. exists x. tauto.
Qed.
Lemma btouch_nodup b g : NoDup (map fst b) -> NoDup (map fst (btouch b g)).
Proof.
  intro H. unfold btouch. destruct (existsb _ b) eqn:E; auto. rewrite map_app. apply nodup_snoc; auto.
  rewrite <- E. clear. induction b as [|a b IH]; [reflexivity|]. cbn [map existsb]. f_equal. exact IH.
Qed.

Definition total (b : buffers) : nat := list_sum (map (fun gl => length (snd gl)) b).
Lemma total_badd b g x : total (badd b g x) = S (total b).
Proof.
  unfold total, list_sum. induction b as [|(k, l) b IH]; [reflexivity|]. cbn [badd]. destruct (Nat.eqb g k); cbn [map fold_right snd].
  - rewrite app_length. cbn [length]. lia.
  - rewrite IH. lia.
Qed.
Lemma total_bdel b g : NoDup (map fst b) -> total (bdel b g) + length (bget b g) = total b.
Proof.
  unfold total, list_sum. induction b as [|(k, l) b IH]; intro H; [reflexivity|]. inversion H as [|? ? Hk Hn]; subst.
  cbn [bdel filter fst bget]. destruct (Nat.eqb_spec g k) as [->|N]; cbn [negb map fold_right snd].
  - assert (filter (fun gl => negb (Nat.eqb k (fst gl))) b = b) as ->; [|lia].
    clear IH. induction b as [|(j, m) b IH]; [reflexivity|]. cbn [filter fst]. cbn in Hk. destruct (Nat.eqb_spec k j); [subst; tauto|]. cbn [negb].
    f_equal. apply IH; [inversion H; subst; constructor; [tauto|inversion Hn; auto]|tauto|inversion Hn; auto].
  - specialize (IH Hn). unfold bdel in IH. lia.
Qed.
Lemma total_btouch b g : total (btouch b g) = total b.
Proof. unfold btouch, total, list_sum. destruct (existsb _ b); auto. rewrite map_app, fold_right_app. cbn. reflexivity. Qed.

(** ** the loop *)
Record ginv (gid : nat -> nat) (bs : nat) (done : list nat) (s : gstate) : Prop := {
  gi_nodup : NoDup (map fst (fst (fst s)));
  gi_seen : forall g, bget (snd (fst s)) g = of_group gid g done;
  gi_short : forall g, length (bget (fst (fst s)) g) < bs;
  gi_parts : forall g, concat (filter (fun b => Nat.eqb (gid (hd 0 b)) g) (snd s)) ++ bget (fst (fst s)) g = of_group gid g done;
  gi_batch : forall b, In b (snd s) -> length b = bs /\ forall i, In i b -> gid i = gid (hd 0 b);
  gi_total : length done = bs * length (snd s) + total (fst (fst s)) }.

Lemma ginv0 gid bs : 0 < bs -> ginv gid bs [] ([], [], []).
Proof. intro H. constructor; cbn; auto; try constructor; try tauto. unfold total. cbn. lia. Qed.
Lemma of_group_snoc gid g l x : of_group gid g (l ++ [x]) = of_group gid g l ++ (if Nat.eqb g (gid x) then [x] else []).
Proof. unfold of_group. rewrite filter_app. cbn [filter]. rewrite (Nat.eqb_sym g). destruct (Nat.eqb (gid x) g); reflexivity. Qed.
Lemma gstep_inv gid bs done s x : 0 < bs -> ginv gid bs done s ->
  exists s', gstep gid bs s x = Ok s' /\ ginv gid bs (done ++ [x]) s'.
Proof.
  intros Hbs H. destruct s as [[buf seen] out]. destruct H as [Hn Hseen Hshort Hparts Hbatch Htot]. cbn [fst snd] in *.
  unfold gstep. set (g := gid x).
  assert (Egx : bget (badd buf g x) g = bget buf g ++ [x]) by (rewrite bget_badd, Nat.eqb_refl; reflexivity).
  assert (Hseen' : forall g', bget (badd seen g x) g' = of_group gid g' (done ++ [x])).
  { intro g'. rewrite bget_badd, of_group_snoc, !Hseen. fold g. destruct (Nat.eqb_spec g' g) as [->|]; [reflexivity|rewrite app_nil_r; reflexivity]. }
  destruct (Nat.eqb (length (bget (badd buf g x) g)) bs) eqn:E.
  - apply Nat.eqb_eq in E. rewrite bget_bdel, Nat.eqb_refl. cbn [length]. rewrite (proj2 (Nat.ltb_lt 0 bs) Hbs). eexists. split; [reflexivity|].
    assert (Hg : forall i, In i (bget buf g ++ [x]) -> gid i = g).
    { intros i Hi. apply in_app_or in Hi. destruct Hi as [Hi|[<-|[]]]; [|reflexivity].
      assert (In i (of_group gid g done)) as I by (rewrite <- Hparts; apply in_or_app; auto). apply filter_In in I. destruct I as [_ I].
      apply Nat.eqb_eq in I. auto. }
    assert (Hhd : gid (hd 0 (bget buf g ++ [x])) = g).
    { apply Hg. destruct (bget buf g ++ [x]) eqn:Y; [destruct (bget buf g); discriminate|]. left. reflexivity. }
    constructor; cbn [fst snd].
    + apply btouch_nodup, bdel_nodup, badd_nodup. auto.
    + exact Hseen'.
    + intro g'. rewrite bget_btouch, bget_bdel. destruct (Nat.eqb_spec g' g) as [->|N]; [exact Hbs|]. rewrite bget_badd.
      apply Nat.eqb_neq in N. rewrite N. apply Hshort.
    + intro g'. rewrite Egx, filter_app, concat_app. cbn [filter]. rewrite Hhd, bget_btouch, bget_bdel, bget_badd, of_group_snoc, <- Hparts.
      fold g. rewrite (Nat.eqb_sym g g'). destruct (Nat.eqb_spec g' g) as [->|N]; cbn [concat]; rewrite ?app_nil_r; [rewrite <- app_assoc|]; reflexivity.
    + intros b Hb. apply in_app_or in Hb. destruct Hb as [Hb|[<-|[]]]; [auto|]. rewrite Egx in *. split; [exact E|]. intros i Hi. rewrite Hhd. auto.
    + rewrite total_btouch. pose proof (total_bdel (badd buf g x) g (badd_nodup _ _ _ Hn)) as T. rewrite total_badd in T.
      rewrite !app_length. cbn [length]. nia.
  - apply Nat.eqb_neq in E. assert (L : length (bget (badd buf g x) g) < bs).
    { rewrite Egx in *. rewrite app_length in *. cbn [length] in *. specialize (Hshort g). lia. }
    rewrite (proj2 (Nat.ltb_lt _ _) L). eexists. split; [reflexivity|]. constructor; cbn [fst snd].
    + apply btouch_nodup, badd_nodup. auto.
    + exact Hseen'.
    + intro g'. rewrite bget_btouch. destruct (Nat.eq_dec g' g) as [->|N]; [exact L|]. rewrite bget_badd. apply Nat.eqb_neq in N. rewrite N. apply Hshort.
    + intro g'. rewrite bget_btouch, bget_badd, of_group_snoc, <- Hparts. fold g.
      destruct (Nat.eqb_spec g' g) as [->|N]; [rewrite <- app_assoc|rewrite app_nil_r]; reflexivity.
    + exact Hbatch.
    + rewrite total_btouch, total_badd, app_length. cbn [length]. lia.
Qed.
Lemma gloop_inv gid bs : 0 < bs -> forall l done s, ginv gid bs done s ->
  exists s', foldM (gstep gid bs) l s = Ok s' /\ ginv gid bs (done ++ l) s'.
Proof.
  intro Hbs. induction l as [|x l IH]; intros done s H; cbn [foldM].
  - exists s. rewrite app_nil_r. auto.
  - destruct (gstep_inv gid bs done s x Hbs H) as (s1 & -> & H1). cbn [bind].
    destruct (IH _ _ H1) as (s2 & E & H2). exists s2. split; auto. rewrite <- app_assoc in H2. exact H2.
Qed.

(** ** the order of the remaining buffers *)
Lemma insert_by_perm g l : Permutation (insert_by g l) (g :: l).
Proof.
  induction l as [|h l IH]; cbn [insert_by]; [reflexivity|]. destruct (Nat.leb _ _); [reflexivity|].
  rewrite IH. apply perm_swap.
Qed.
Lemma sort_desc_perm b : Permutation (sort_desc b) b.
Proof. induction b as [|a b IH]; cbn [sort_desc fold_right]; [reflexivity|]. rewrite insert_by_perm. constructor. exact IH. Qed.
Definition longer (a b : nat * list nat) : Prop := length (snd b) <= length (snd a).
Lemma insert_by_sorted g l : StronglySorted longer l -> StronglySorted longer (insert_by g l).
Proof.
  induction l as [|h l IH]; intro H; cbn [insert_by]; [repeat constructor|]. inversion H as [|? ? Hl Hh]; subst.
  destruct (Nat.leb _ _) eqn:E.
  - apply Nat.leb_le in E. constructor; [auto|]. constructor; [exact E|]. eapply Forall_impl; [|exact Hh]. unfold longer. intros; lia.
  - apply Nat.leb_gt in E. constructor; [auto|]. rewrite insert_by_perm. constructor; [unfold longer; lia|exact Hh].
Qed.
Lemma sort_desc_sorted b : StronglySorted longer (sort_desc b).
Proof. induction b; [constructor|]. cbn. apply insert_by_sorted. auto. Qed.
Lemma total_perm a b : Permutation a b -> total a = total b.
Proof. unfold total, list_sum. intro H. induction H; cbn [map fold_right]; lia. Qed.

Definition fill (bs : nat) (seen : buffers) (gk : nat * list nat) : list nat :=
  snd gk ++ firstn (bs - length (snd gk)) (bget seen (fst gk)).
Lemma refill_spec bs seen : 0 < bs -> forall l n, 0 < n -> (forall g b, In (g, b) l -> length b < bs) ->
  StronglySorted longer l -> n * bs <= total l ->
  (refill bs seen l n = Ok (map (fill bs seen) (firstn n l), 0) /\ n <= length l /\ forall gk, In gk (firstn n l) -> snd gk <> [] /\ length (fill bs seen gk) = bs) \/
  (refill bs seen l n = Raise AssertionError /\ exists g k, In (g, k) l /\ k <> [] /\ length k + length (bget seen g) < bs).
Proof.
  intro Hbs. induction l as [|(g, b) l IH]; intros n Hn Hs Hso Ht.
  - unfold total in Ht. cbn in Ht. nia.
  - assert (Lb : length b < bs) by (apply (Hs g); left; reflexivity).
    assert (Hb : b <> []).
    { intros ->. inversion Hso as [|? ? _ Hf]; subst. assert (total l = 0).
      { unfold total, list_sum. clear - Hf. induction Hf as [|x l H Hf IH]; cbn [map fold_right]; [reflexivity|]. unfold longer in H. cbn in H. lia. }
      unfold total, list_sum in *. cbn [map fold_right snd length] in Ht. nia. }
    cbn [refill]. destruct (Nat.eqb _ bs) eqn:E.
    + apply Nat.eqb_eq in E. destruct (n - 1) as [|n'] eqn:En.
      * left. replace n with 1 by lia. cbn [firstn map length]. split; [reflexivity|]. split; [lia|].
        intros x [<-|[]]. split; [exact Hb|exact E].
      * inversion Hso as [|? ? Hso' _]; subst. destruct (IH (S n')) as [(Er & Lr & Hr)|(Er & g' & k & I & J)]; auto; try lia.
        { intros g' b' I. apply (Hs g'). right; auto. }
        { unfold total, list_sum in *. cbn [map fold_right snd] in Ht. nia. }
        { left. rewrite Er. cbn [bind fst snd]. replace n with (S (S n')) by lia. rewrite firstn_cons. cbn [length].
          split; [reflexivity|]. split; [lia|].
          intros x [<-|Hx]; [split; [exact Hb|exact E]|auto]. }
        { right. rewrite Er. split; [reflexivity|]. exists g', k. split; [right; auto|auto]. }
    + right. split; [reflexivity|]. exists g, b. split; [left; reflexivity|]. split; auto.
      apply Nat.eqb_neq in E. rewrite app_length, firstn_length in E. lia.
Qed.
Lemma bget_in b g k : NoDup (map fst b) -> In (g, k) b -> bget b g = k.
Proof.
  induction b as [|(j, l) b IH]; intros H I; [destruct I|]. inversion H as [|? ? Hj Hn]; subst. cbn [bget]. destruct I as [I|I].
  - injection I as -> ->. rewrite Nat.eqb_refl. reflexivity.
  - destruct (Nat.eqb_spec g j) as [->|]; [|auto]. exfalso. apply Hj. apply in_map_iff. exists (j, k). auto.
Qed.

(** ** pieces of a list *)
Lemma chunk_fuel_enough k : 0 < k -> forall f l, length l <= f -> chunk_fuel f k l = chunks k l.
Proof.
  intros Hk. unfold chunks. assert (G : forall n l f f', length l <= n -> length l <= f -> length l <= f' -> chunk_fuel f k l = chunk_fuel f' k l).
  { induction n as [|n IH]; intros l f f' Hn Hf Hf'.
    - destruct l; [|cbn in Hn; lia]. destruct f, f'; reflexivity.
    - destruct l as [|x l]; [destruct f, f'; reflexivity|]. destruct f as [|f]; [cbn in Hf; lia|]. destruct f' as [|f']; [cbn in Hf'; lia|].
      cbn [chunk_fuel]. f_equal. assert (L : length (skipn k (x :: l)) <= length l) by (rewrite skipn_length; cbn [length]; lia).
      cbn [length] in *. apply IH; lia. }
  intros f l H. apply (G (length l)); lia.
Qed.
Lemma chunks_cons k a l : 0 < k -> length a = k -> chunks k (a ++ l) = a :: chunks k l.
Proof.
  intros Hk Ha. unfold chunks at 1. destruct (a ++ l) as [|x r] eqn:E; [destruct a; [cbn in Ha; lia|discriminate]|]. cbn [length chunk_fuel].
  assert (firstn k (x :: r) = a /\ skipn k (x :: r) = l) as [-> ->].
  { rewrite <- E, <- Ha. rewrite firstn_app, Nat.sub_diag, firstn_all, skipn_app, Nat.sub_diag, skipn_all. cbn. rewrite app_nil_r. auto. }
  f_equal. apply chunk_fuel_enough; auto. apply (f_equal (@length nat)) in E. rewrite app_length in E. cbn [length] in E. lia.
Qed.
Lemma chunks_concat k rows : 0 < k -> (forall r, In r rows -> length r = k) -> chunks k (concat rows) = rows.
Proof.
  intros Hk. induction rows as [|r rows IH]; intro H; [reflexivity|]. cbn [concat]. rewrite chunks_cons; auto; [|apply H; left; auto].
  f_equal. apply IH. intros; apply H; right; auto.
Qed.
Lemma chunks_exact k q l : 0 < k -> length l = k * q -> concat (chunks k l) = l /\ length (chunks k l) = q /\ forall r, In r (chunks k l) -> length r = k.
Proof.
  intro Hk. revert l. induction q as [|q IH]; intros l Hl.
  - destruct l; [|cbn in Hl; lia]. cbn. repeat split; auto. tauto.
  - rewrite <- (firstn_skipn k l). rewrite chunks_cons; [|auto|rewrite firstn_length; nia].
    destruct (IH (skipn k l)) as (A & B & C); [rewrite skipn_length; nia|]. cbn [concat length]. rewrite A, B. repeat split.
    intros r [<-|Hr]; [rewrite firstn_length; nia|auto].
Qed.
Lemma chunks_all k l : 0 < k -> concat (chunks k l) = l.
Proof.
  intro Hk. unfold chunks. assert (G : forall n l, length l <= n -> concat (chunk_fuel n k l) = l).
  { induction n as [|n IH]; intros m H; [destruct m; [reflexivity|cbn in H; lia]|]. destruct m as [|x m]; [reflexivity|]. cbn [chunk_fuel concat].
    rewrite IH; [apply firstn_skipn|]. rewrite skipn_length. cbn [length] in *. lia. }
  apply G. auto.
Qed.

(** ** every world-th row *)
Definition strided_from {A} (s r k : nat) (l : list A) : list A :=
  flat_map (fun ir => if Nat.eqb (fst ir mod k) r then [snd ir] else []) (combine (seq s (length l)) l).
Lemma strided_app {A} (s r k : nat) (a b : list A) : strided_from s r k (a ++ b) = strided_from s r k a ++ strided_from (s + length a) r k b.
Proof.
  revert s. induction a as [|x a IH]; intro s; cbn [app length].
  - rewrite Nat.add_0_r. reflexivity.
  - unfold strided_from in *. cbn [length seq combine flat_map]. rewrite IH, <- app_assoc. f_equal. f_equal. f_equal. f_equal. f_equal. lia.
Qed.
Lemma strided_block {A} (d : A) r k : forall a m j, j + length a <= k -> strided_from (m * k + j) r k a = if Nat.leb j r && Nat.ltb r (j + length a) then [nth (r - j) a d] else [].
Proof.
  induction a as [|x a IH]; intros m j H.
  - cbn [length] in *. replace (Nat.leb j r && Nat.ltb r (j + 0)) with false; [reflexivity|]. symmetry. apply andb_false_iff.
    destruct (Nat.leb_spec j r); auto. right. apply Nat.ltb_ge. lia.
  - unfold strided_from in *. cbn [length seq combine flat_map fst snd] in *. rewrite <- Nat.add_succ_r. rewrite IH by lia.
    assert (Hm : (m * k + j) mod k = j).
    { rewrite Nat.add_comm, Nat.mod_add by lia. apply Nat.mod_small. lia. }
    rewrite Hm. destruct (Nat.eqb_spec j r) as [->|N].
    + rewrite Nat.leb_refl, Nat.sub_diag. assert (Nat.ltb r (r + S (length a)) = true) as -> by (apply Nat.ltb_lt; lia).
      assert (Nat.leb (S r) r = false) as -> by (apply Nat.leb_gt; lia). reflexivity.
    + cbn [app]. destruct (Nat.leb_spec (S j) r), (Nat.leb_spec j r); try lia; cbn [andb]; auto.
      replace (S j + length a) with (j + S (length a)) by lia. destruct (Nat.ltb r (j + S (length a))); auto.
      replace (r - j) with (S (r - S j)) by lia. reflexivity.
Qed.
Lemma strided_blocks {A} (d : A) r k : r < k -> forall blocks m, (forall b, In b blocks -> length b = k) ->
  strided_from (m * k) r k (concat blocks) = map (fun b => nth r b d) blocks.
Proof.
  intros Hr. induction blocks as [|b blocks IH]; intros m H; [reflexivity|]. cbn [concat map]. rewrite strided_app.
  assert (Lb : length b = k) by (apply H; left; auto).
  pose proof (strided_block d r k b m 0 ltac:(lia)) as E. rewrite Nat.add_0_r in E. rewrite E, Lb. cbn [Nat.leb Nat.add].
  rewrite (proj2 (Nat.ltb_lt _ _) Hr), Nat.sub_0_r. cbn [andb app]. f_equal.
  replace (m * k + k) with (S m * k) by lia. apply IH. intros; apply H; right; auto.
Qed.
(** dealing rows out is a permutation *)
Lemma deal_perm {A} (d : A) k : forall blocks, (forall b, In b blocks -> length b = k) ->
  Permutation (flat_map (fun r => map (fun b => nth r b d) blocks) (seq 0 k)) (concat blocks).
Proof.
  assert (Hmap : forall b : list A, map (fun r => nth r b d) (seq 0 (length b)) = b).
  { induction b as [|x b IH]; [reflexivity|]. cbn [length seq map nth]. f_equal. rewrite <- seq_shift, map_map. exact IH. }
  assert (Hsplit : forall (f : nat -> A) (g : nat -> list A) l, Permutation (flat_map (fun r => f r :: g r) l) (map f l ++ flat_map g l)).
  { intros f g. induction l as [|x l IH]; [reflexivity|]. cbn. constructor. rewrite IH. rewrite !app_assoc. apply Permutation_app_tail. apply Permutation_app_comm. }
  induction blocks as [|b blocks IH]; intro H.
  - cbn [map concat]. clear. induction (seq 0 k); cbn; auto.
  - cbn [map concat]. rewrite Hsplit. rewrite <- (H b) at 1 by (left; auto). rewrite Hmap. apply Permutation_app_head. apply IH. intros; apply H; right; auto.
Qed.
Lemma concat_perm {A} (a b : list (list A)) : Permutation a b -> Permutation (concat a) (concat b).
Proof.
  induction 1; cbn; auto; [apply Permutation_app_head; auto|rewrite !app_assoc; apply Permutation_app_tail, Permutation_app_comm|etransitivity; eauto].
Qed.
Lemma take_perm sh idx : Permutation idx (seq 0 (length sh)) -> Permutation (take sh idx) sh.
Proof.
  intro H. unfold take. rewrite (Permutation_map _ H). clear.
  assert (E : map (fun i => nth i sh 0) (seq 0 (length sh)) = sh); [|rewrite E; reflexivity].
  induction sh as [|x b IH]; [reflexivity|]. cbn [length seq map nth]. f_equal. rewrite <- seq_shift, map_map. exact IH.
Qed.
