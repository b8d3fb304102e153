(** List utilities shared by the pruning models: tabulation, chunking, sorting of
    rationals, counting.  Semantics of torch.topk / argsort are fixed here. *)
From Coq Require Import List ZArith QArith Qabs Bool Arith Lia Lqa Permutation Sorted.
From Verif Require Import Base.
Import ListNotations.

(** [tab n f] = [[f 0; ...; f (n-1)]] *)
Definition tab {A} (n : nat) (f : nat -> A) : list A := map f (seq 0 n).

Lemma tab_length {A} n (f : nat -> A) : length (tab n f) = n.
Proof. unfold tab. rewrite map_length, seq_length. auto. Qed.

Lemma tab_nth {A} n (f : nat -> A) i d : (i < n)%nat -> nth i (tab n f) d = f i.
Proof.
  intro H. unfold tab. rewrite nth_indep with (d' := f 0%nat) by (rewrite map_length, seq_length; auto).
  rewrite map_nth, seq_nth; auto.
Qed.

Lemma tab_ext {A} n (f g : nat -> A) : (forall i, (i < n)%nat -> f i = g i) -> tab n f = tab n g.
Proof. intro H. unfold tab. apply map_ext_in. intros i Hi. apply in_seq in Hi. apply H. lia. Qed.

Lemma list_eq_nth {A} (d : A) l l' :
  length l = length l' -> (forall i, (i < length l)%nat -> nth i l d = nth i l' d) -> l = l'.
Proof. intros H1 H2. eapply nth_ext; eauto. Qed.

Lemma tab_of_list {A} (d : A) l : tab (length l) (fun i => nth i l d) = l.
Proof.
  apply (list_eq_nth d); rewrite tab_length; auto. intros i Hi. rewrite tab_nth; auto.
Qed.

(** Consecutive rows of [g] elements ([view(-1, g)]). *)
Fixpoint chunks_fuel {A} (fuel g : nat) (l : list A) : list (list A) :=
  match fuel with
  | O => []
  | S f => match l with [] => [] | _ => firstn g l :: chunks_fuel f g (skipn g l) end
  end.
Definition chunks {A} (g : nat) (l : list A) : list (list A) := chunks_fuel (length l) g l.

Lemma skipn_skipn' {A} a b (l : list A) : skipn a (skipn b l) = skipn (b + a) l.
Proof. revert l; induction b; intro l; simpl; auto. destruct l; auto. destruct a; auto. Qed.

Lemma chunks_fuel_nth {A} g fuel n (l : list A) i :
  (0 < g)%nat -> length l = (n * g)%nat -> (n <= fuel)%nat -> (i < n)%nat ->
  nth i (chunks_fuel fuel g l) [] = firstn g (skipn (i * g) l) /\
  length (chunks_fuel fuel g l) = n.
Proof.
  intros Hg. revert fuel l i; induction n as [|n IH]; intros fuel l i Hl Hf Hi; [lia|].
  destruct fuel as [|fuel]; [lia|]. simpl in *.
  destruct l as [|a l']; [simpl in Hl; lia|]. remember (a :: l') as l eqn:El.
  assert (length (skipn g l) = (n * g)%nat) as Hs by (rewrite skipn_length; lia).
  destruct n as [|n].
  - assert (i = 0%nat) as -> by lia. simpl. split; auto.
    assert (skipn g l = []) as ->; [|destruct fuel; auto].
    destruct (skipn g l); auto; simpl in Hs; lia.
  - destruct i as [|i].
    + simpl. split; auto. f_equal. destruct (IH fuel (skipn g l) 0%nat Hs) as [_ E]; lia.
    + destruct (IH fuel (skipn g l) i Hs) as [E1 E2]; [lia|lia|]. simpl. rewrite E1, E2. split; auto.
      f_equal. rewrite skipn_skipn'. f_equal.
Qed.

Lemma chunks_nth {A} g n (l : list A) i :
  (0 < g)%nat -> length l = (n * g)%nat -> (i < n)%nat ->
  nth i (chunks g l) [] = firstn g (skipn (i * g) l).
Proof.
  intros Hg Hl Hi. unfold chunks. apply (chunks_fuel_nth g (length l) n l i); auto. nia.
Qed.

Lemma chunks_length {A} g n (l : list A) :
  (0 < g)%nat -> length l = (n * g)%nat -> length (chunks g l) = n.
Proof.
  intros Hg Hl. destruct n as [|n].
  - destruct l; [reflexivity|simpl in Hl; lia].
  - unfold chunks. apply (chunks_fuel_nth g (length l) (S n) l 0); auto; nia.
Qed.

Lemma nth_firstn {A} (d : A) g l i : (i < g)%nat -> nth i (firstn g l) d = nth i l d.
Proof.
  revert l i; induction g; intros l i H; [lia|]. destruct l; simpl; auto. destruct i; auto. apply IHg. lia.
Qed.

Lemma nth_skipn {A} (d : A) k l i : nth i (skipn k l) d = nth (k + i) l d.
Proof. revert l; induction k; intros l; simpl; auto. destruct l; simpl; auto. destruct i; auto. Qed.

Lemma row_tab {A} (d : A) g (l : list A) i n :
  length l = (n * g)%nat -> (i < n)%nat ->
  firstn g (skipn (i * g) l) = tab g (fun j => nth (i * g + j) l d).
Proof.
  intros Hl Hi. apply (list_eq_nth d).
  - rewrite tab_length, firstn_length, skipn_length. nia.
  - intros j Hj. rewrite firstn_length, skipn_length in Hj.
    rewrite tab_nth by nia. rewrite nth_firstn by nia. apply nth_skipn.
Qed.

(* ------------------------------------------------------------------------- *)
(** ** Counting *)
Definition countb {A} (f : A -> bool) (l : list A) : nat := length (filter f l).

Lemma countb_perm {A} (f : A -> bool) l l' : Permutation l l' -> countb f l = countb f l'.
Proof.
  unfold countb. induction 1; simpl; auto; try congruence.
  - destruct (f x); simpl; auto.
  - destruct (f x), (f y); simpl; auto.
Qed.

Lemma countb_app {A} (f : A -> bool) l l' : countb f (l ++ l') = (countb f l + countb f l')%nat.
Proof. unfold countb. rewrite filter_app, app_length. auto. Qed.

Lemma countb_all {A} (f : A -> bool) l : (forall x, In x l -> f x = true) -> countb f l = length l.
Proof.
  unfold countb. induction l as [|a l IH]; simpl; auto. intro H. rewrite (H a) by auto. simpl. rewrite IH; auto.
Qed.

Lemma countb_none {A} (f : A -> bool) l : (forall x, In x l -> f x = false) -> countb f l = 0%nat.
Proof.
  unfold countb. induction l as [|a l IH]; simpl; auto. intro H. rewrite (H a) by auto. auto.
Qed.

Lemma countb_le {A} (f : A -> bool) l : (countb f l <= length l)%nat.
Proof. unfold countb. induction l as [|a l IH]; simpl; auto. destruct (f a); simpl; lia. Qed.

Lemma countb_map {A B} (f : B -> bool) (g : A -> B) l : countb f (map g l) = countb (fun x => f (g x)) l.
Proof. unfold countb. induction l as [|a l IH]; simpl; auto. destruct (f (g a)); simpl; auto. Qed.

Lemma countb_ext {A} (f g : A -> bool) l : (forall x, In x l -> f x = g x) -> countb f l = countb g l.
Proof.
  unfold countb. induction l as [|a l IH]; simpl; auto. intro H. rewrite (H a) by auto.
  destruct (g a); simpl; rewrite IH; auto.
Qed.

Lemma countb_mono {A} (f g : A -> bool) l :
  (forall x, In x l -> f x = true -> g x = true) -> (countb f l <= countb g l)%nat.
Proof.
  unfold countb. induction l as [|a l IH]; simpl; auto. intro H.
  assert (length (filter f l) <= length (filter g l))%nat by (apply IH; auto).
  destruct (f a) eqn:E; [rewrite (H a); auto; simpl; lia|]. destruct (g a); simpl; lia.
Qed.

Lemma countb_negb {A} (f : A -> bool) l : (countb f l + countb (fun x => negb (f x)) l)%nat = length l.
Proof. unfold countb. induction l as [|a l IH]; simpl; auto. destruct (f a); simpl; lia. Qed.

(* ------------------------------------------------------------------------- *)
(** ** Sorting rationals: the k smallest elements in increasing order
    (torch.topk(largest=False, sorted=True)) *)
Fixpoint qinsert (x : Q) (l : list Q) : list Q :=
  match l with
  | [] => [x]
  | y :: l' => if Qle_bool x y then x :: l else y :: qinsert x l'
  end.
Definition qsort (l : list Q) : list Q := fold_right qinsert [] l.

Lemma qinsert_perm x l : Permutation (qinsert x l) (x :: l).
Proof.
  induction l as [|y l IH]; simpl; auto. destruct (Qle_bool x y); auto.
  rewrite IH. apply perm_swap.
Qed.

Lemma qsort_perm l : Permutation (qsort l) l.
Proof. induction l as [|x l IH]; simpl; auto. rewrite qinsert_perm, IH. auto. Qed.

Lemma qsort_length l : length (qsort l) = length l.
Proof. apply Permutation_length. apply qsort_perm. Qed.

Lemma qinsert_sorted x l : StronglySorted Qle l -> StronglySorted Qle (qinsert x l).
Proof.
  induction 1 as [|y l Hs IH Hf]; simpl.
  - repeat constructor.
  - destruct (Qle_bool x y) eqn:E.
    + apply Qle_bool_iff in E. constructor; [constructor; auto|]. constructor; auto.
      eapply Forall_impl; [|exact Hf]. intros; simpl in *; lra.
    + apply Qle_bool_ngt in E. constructor; auto.
      eapply Permutation_Forall; [symmetry; apply qinsert_perm|]. constructor; auto; lra.
Qed.

Lemma qsort_sorted l : StronglySorted Qle (qsort l).
Proof. induction l; simpl; [constructor|]. apply qinsert_sorted; auto. Qed.

Lemma sorted_nth_le l i j : StronglySorted Qle l -> (i <= j)%nat -> (j < length l)%nat ->
  nth i l 0 <= nth j l 0.
Proof.
  intro H. revert i j; induction H as [|a l Hs IH Hf]; intros i j Hij Hj; simpl in *; [lia|].
  destruct i, j; try lia; try lra.
  - rewrite Forall_forall in Hf. apply Hf. apply nth_In. lia.
  - apply IH; lia.
Qed.

(** The elements not above the k-th smallest: at least k of them... *)
Lemma kth_count_ge l k : (1 <= k <= length l)%nat ->
  (k <= countb (fun x => Qle_bool x (nth (k - 1) (qsort l) 0%Q)) l)%nat.
Proof.
  intro Hk. rewrite <- (countb_perm _ _ _ (qsort_perm l)).
  set (s := qsort l). assert (length s = length l) as Hl by apply qsort_length.
  pose proof (qsort_sorted l) as Hs. fold s in Hs.
  match goal with |- context [countb ?F s] => replace (countb F s) with (countb F (firstn k s ++ skipn k s)) by (rewrite firstn_skipn; auto) end. rewrite countb_app.
  rewrite (countb_all _ (firstn k s)).
  - rewrite firstn_length. lia.
  - intros x Hx. apply Qle_bool_iff. apply (In_nth _ _ 0) in Hx. destruct Hx as (i & Hi & <-).
    rewrite firstn_length in Hi. rewrite nth_firstn by lia. apply sorted_nth_le; auto; lia.
Qed.

(** ... exactly k of them when the next one is strictly larger. *)
Lemma kth_count_eq l k : (1 <= k <= length l)%nat ->
  (k = length l \/ nth (k - 1) (qsort l) 0 < nth k (qsort l) 0) ->
  countb (fun x => Qle_bool x (nth (k - 1) (qsort l) 0%Q)) l = k.
Proof.
  intros Hk Hlt. pose proof (kth_count_ge l k Hk) as Hge.
  destruct Hlt as [E|Hlt].
  - pose proof (countb_le (fun x => Qle_bool x (nth (k - 1) (qsort l) 0%Q)) l). lia.
  - revert Hge. rewrite <- (countb_perm _ _ _ (qsort_perm l)).
    set (s := qsort l) in *. assert (length s = length l) as Hl by apply qsort_length.
    pose proof (qsort_sorted l) as Hs. fold s in Hs. intros _.
    match goal with |- context [countb ?F s] => replace (countb F s) with (countb F (firstn k s ++ skipn k s)) by (rewrite firstn_skipn; auto) end. rewrite countb_app.
    rewrite (countb_all _ (firstn k s)), (countb_none _ (skipn k s)).
    + rewrite firstn_length. lia.
    + intros x Hx. apply Qle_bool_ngt. apply (In_nth _ _ 0) in Hx. destruct Hx as (i & Hi & <-).
      rewrite skipn_length in Hi. rewrite nth_skipn.
      pose proof (sorted_nth_le s k (k + i) Hs). lra || (assert (nth k s 0 <= nth (k + i) s 0) by (apply H; lia); lra).
    + intros x Hx. apply Qle_bool_iff. apply (In_nth _ _ 0) in Hx. destruct Hx as (i & Hi & <-).
      rewrite firstn_length in Hi. rewrite nth_firstn by lia. apply sorted_nth_le; auto; lia.
Qed.

(** Fewer than k elements lie strictly below the k-th smallest. *)
Lemma kth_count_lt l k : (1 <= k <= length l)%nat ->
  (countb (fun x => Qltb x (nth (k - 1) (qsort l) 0%Q)) l < k)%nat.
Proof.
  intro Hk. rewrite <- (countb_perm _ _ _ (qsort_perm l)).
  set (s := qsort l). assert (length s = length l) as Hl by apply qsort_length.
  pose proof (qsort_sorted l) as Hs. fold s in Hs.
  match goal with |- context [countb ?F s] => replace (countb F s) with (countb F (firstn (k - 1) s ++ skipn (k - 1) s)) by (rewrite firstn_skipn; auto) end. rewrite countb_app.
  rewrite (countb_none _ (skipn (k - 1) s)).
  - pose proof (countb_le (fun x => Qltb x (nth (k - 1) s 0%Q)) (firstn (k - 1) s)) as H.
    rewrite firstn_length in H. lia.
  - intros x Hx. apply Qltb_ge. apply (In_nth _ _ 0) in Hx. destruct Hx as (i & Hi & <-).
    rewrite skipn_length in Hi. rewrite nth_skipn. apply sorted_nth_le; auto; lia.
Qed.

Lemma qsort_nth_In l k : (k < length l)%nat -> In (nth k (qsort l) 0) l.
Proof.
  intro H. eapply Permutation_in; [apply qsort_perm|]. apply nth_In. rewrite qsort_length; auto.
Qed.

Lemma kth_mono l k k' : (1 <= k <= k')%nat -> (k' <= length l)%nat ->
  nth (k - 1) (qsort l) 0 <= nth (k' - 1) (qsort l) 0.
Proof.
  intros H1 H2. apply sorted_nth_le; [apply qsort_sorted|lia|rewrite qsort_length; lia].
Qed.
