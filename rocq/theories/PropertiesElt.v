(** C106: element-wise modules. *)
From Coq Require Import String List ZArith Arith Bool Lia.
From Verif Require Import Base EltModel EltSpec EltProofs.
Import ListNotations.
Open Scope list_scope.
Open Scope nat_scope.

(** Not in place: the result has the common shape of the inputs, its elements are those of the inputs combined from
    left to right, and no tensor there was is changed. *)
Theorem C106_values : forall V grad (f : V -> V -> V) m r l t0 ts m' r', nth_error m r = Some t0 -> at_refs V m l ts ->
  forward V false grad f m (r :: l) = (m', Ok r') ->
  (forall k, k < length m -> nth_error m' k = nth_error m k)
  /\ exists t, nth_error m' r' = Some t /\ common (map dims (t0 :: ts)) (dims t)
     /\ forall i, inside i (dims t) -> el t i = chain f (el t0 (place (dims t0) i)) (map (fun u => el u (place (dims u) i)) ts).
Proof.
  intros V grad f m r l t0 ts m' r' Hr HT E. cbn in E.
  destruct (loop_new V f l m r t0 [] t0 ts Hr (holds_one V f t0) HT) as [H _]. destruct (H m' r' E) as (news & t & -> & Ht & (HC & HE) & _). cbn [app] in *. split.
  - intros k Hk. now rewrite nth_error_app1.
  - exists t. repeat split; try apply HC; try assumption.
Qed.

(** It succeeds exactly if there is a common shape; a failure too leaves every tensor as it was. *)
Theorem C106_succeeds : forall V grad (f : V -> V -> V) m r l t0 ts, nth_error m r = Some t0 -> at_refs V m l ts ->
  ((exists m' r', forward V false grad f m (r :: l) = (m', Ok r')) <-> exists c, forall s, In s (map dims (t0 :: ts)) -> fits s c)
  /\ forall m' e, forward V false grad f m (r :: l) = (m', Raise e) -> e = RuntimeError /\ forall k, k < length m -> nth_error m' k = nth_error m k.
Proof.
  intros V grad f m r l t0 ts Hr HT. cbn [forward].
  destruct (loop_new V f l m r t0 [] t0 ts Hr (holds_one V f t0) HT) as [H1 H2]. cbn [app] in *. split; [split|].
  - intros (m' & r' & E). destruct (H1 m' r' E) as (news & t & _ & _ & ((C1 & _) & _) & _). exists (dims t). exact C1.
  - intros HC. destruct (loop V (op_new V f) m r l) as [m' [r'|e]] eqn:E; [now exists m', r'|]. destruct (H2 m' e eq_refl) as (_ & _ & HN). contradiction.
  - intros m' e E. destruct (H2 m' e E) as (-> & (news & ->) & _). split; [reflexivity|]. intros k Hk. now rewrite nth_error_app1.
Qed.

(** The result is a new tensor, except that a single input is handed back itself. *)
Theorem C106_fresh : forall V grad (f : V -> V -> V) m r l t0 ts m' r', nth_error m r = Some t0 -> at_refs V m l ts ->
  forward V false grad f m (r :: l) = (m', Ok r') -> if match l with [] => true | _ => false end then r' = r /\ m' = m else length m <= r'.
Proof.
  intros V grad f m r l t0 ts m' r' Hr HT E. cbn in E.
  destruct (loop_new V f l m r t0 [] t0 ts Hr (holds_one V f t0) HT) as [H _]. destruct (H m' r' E) as (news & t & -> & _ & _ & J1 & J2).
  destruct l; [destruct (J1 eq_refl) as [-> ->]; now rewrite app_nil_r|apply J2; discriminate].
Qed.

(** In place, and the first input not among the others: the first input holds the result, with its shape unchanged;
    all other tensors are unchanged.  It succeeds exactly if the others fit into the first input's shape and it is not
    a leaf being differentiated. *)
Theorem C106_inplace : forall V grad (f : V -> V -> V) m r l t0 ts, nth_error m r = Some t0 -> at_refs V m l ts -> ~ In r l ->
  let out := forward V true grad f m (r :: l) in
  (forall k, k <> r -> nth_error (fst out) k = nth_error m k) /\ length (fst out) = length m /\
  match snd out with
  | Ok r' => r' = r /\ exists t, nth_error (fst out) r = Some t /\ dims t = dims t0
             /\ forall i, inside i (dims t) -> el t i = chain f (el t0 (place (dims t0) i)) (map (fun u => el u (place (dims u) i)) ts)
  | Raise e => e = RuntimeError
  end.
Proof.
  intros V grad f m r l t0 ts Hr HT HN. cbn [forward].
  pose proof (loop_inplace V grad f l m r t0 [] t0 ts Hr (holds_one V f t0) eq_refl eq_refl HT HN) as H. cbv zeta in *. destruct H as (H1 & H2 & H3). split; [exact H1|]. split; [exact H2|].
  destruct (snd (loop V (op_inplace V grad f) m r l)); [|apply H3]. destruct H3 as (-> & (t & K1 & K2 & _ & (_ & K3)) & _). split; [reflexivity|]. exists t. auto.
Qed.

Theorem C106_inplace_succeeds : forall V grad (f : V -> V -> V) m r l t0 ts, nth_error m r = Some t0 -> at_refs V m l ts -> ~ In r l ->
  ((exists r', snd (forward V true grad f m (r :: l)) = Ok r') <-> (l <> [] -> grad && leaf_grad t0 = false) /\ Forall (fun u => fits (dims u) (dims t0)) ts).
Proof.
  intros V grad f m r l t0 ts Hr HT HN. cbn [forward].
  pose proof (loop_inplace V grad f l m r t0 [] t0 ts Hr (holds_one V f t0) eq_refl eq_refl HT HN) as H. cbv zeta in *. destruct H as (_ & _ & H3). split.
  - intros (r' & E). rewrite E in H3. destruct H3 as (_ & _ & K1 & K2). auto.
  - intros [HG HF]. destruct l as [|a l]; [exists r; reflexivity|]. specialize (HG ltac:(discriminate)).
    destruct (snd (loop V (op_inplace V grad f) m r (a :: l))) eqn:E; [eexists; reflexivity|]. destruct H3 as (_ & [K|K]); [congruence|contradiction].
Qed.

(** In place with the first input given again, the already changed elements are used: x op x op x becomes
    (x op x) op (x op x). *)
Theorem C106_alias_refuted : forall V (f : V -> V -> V) m r t0, nth_error m r = Some t0 ->
  exists m1 r1 t1 m2 r2 t2,
    forward V false false f m [r; r; r] = (m1, Ok r1) /\ nth_error m1 r1 = Some t1 /\ (forall i, inside i (dims t0) -> el t1 i = f (f (el t0 i) (el t0 i)) (el t0 i)) /\
    forward V true false f m [r; r; r] = (m2, Ok r2) /\ nth_error m2 r2 = Some t2 /\ (forall i, inside i (dims t0) -> el t2 i = f (f (el t0 i) (el t0 i)) (f (el t0 i) (el t0 i))).
Proof.
  intros V f m r t0 Hr.
  assert (HT : at_refs V m [r; r] [t0; t0]) by (repeat constructor; exact Hr).
  destruct (proj1 (C106_succeeds V false f m r [r; r] t0 [t0; t0] Hr HT)) as [_ HS].
  destruct HS as (m1 & r1 & E1). { exists (dims t0). intros s Hs. cbn in Hs. destruct Hs as [<-|[<-|[<-|[]]]]; apply fits_refl. }
  destruct (C106_values V false f m r [r; r] t0 [t0; t0] m1 r1 Hr HT E1) as (_ & t1 & Ht1 & (HC1 & HC2 & HC3) & He1).
  assert (Hd : dims t1 = dims t0).
  { assert (F1 : fits (dims t0) (dims t1)) by (apply HC1; now left).
    assert (F2 : fits (dims t1) (dims t0)). { eapply common_least; [split; [exact HC1|split; [exact HC2|exact HC3]]|]. intros s Hs. cbn in Hs. destruct Hs as [<-|[<-|[<-|[]]]]; apply fits_refl. }
    clear - F1 F2. revert F2. induction F1 as [b|d s e b Hd F1 IH]; intro F2; [inversion F2; reflexivity|]. inversion F2; subst. f_equal; [lia|now apply IH]. }
  exists m1, r1, t1. cbn [forward loop].
  assert (ES : forall (m : memory V) t, nth_error m r = Some t -> op_inplace V false f m r r = Ok (store V m r (combine V f (dims t) (leaf_grad t) t t), r)).
  { intros m0 t Ht. unfold op_inplace. rewrite (load_some V _ _ _ Ht). cbn [bind andb]. rewrite (fits_same (dims t) (dims t) (fits_refl _)). cbn [bind]. destruct (list_eq_dec Nat.eq_dec (dims t) (dims t)); [reflexivity|contradiction]. }
  cbn [loop]. rewrite (ES m t0 Hr).
  set (ta := combine V f (dims t0) (leaf_grad t0) t0 t0). assert (Ha : nth_error (store V m r ta) r = Some ta) by (eapply store_same; exact Hr).
  rewrite (ES _ ta Ha). set (tb := combine V f (dims ta) (leaf_grad ta) ta ta).
  exists (store V (store V m r ta) r tb), r, tb. split; [exact E1|]. split; [exact Ht1|]. split; [|split; [reflexivity|split; [eapply store_same; exact Ha|]]].
  - intros i Hi. rewrite He1 by (rewrite Hd; exact Hi). cbn. now rewrite place_id.
  - intros i Hi. unfold tb, ta. cbn [el combine dims]. rewrite !(pick_place (dims t0) i), !pick_place, !(place_id i (dims t0) Hi). reflexivity.
Qed.

(** A failure in place can come after the first input has been overwritten. *)
Definition one_ (n : nat) (v : Z) : tensor Z := mkTn [n] (fun _ => v) false.
Theorem C106_failure_refuted : exists m l m' t t', forward Z true false Z.add m l = (m', Raise RuntimeError)
  /\ nth_error m (hd 0 l) = Some t /\ nth_error m' (hd 0 l) = Some t' /\ el t [0] = 1%Z /\ el t' [0] = 3%Z.
Proof. exists [one_ 4 1; one_ 4 2; one_ 3 5], [0; 1; 2]. eexists. eexists. eexists. repeat split; reflexivity. Qed.

(** Division: the same with exactly two arguments. *)
Theorem C106_div : forall V inplace grad (f : V -> V -> V) m x y t0 u, nth_error m x = Some t0 -> nth_error m y = Some u ->
  forward_div V inplace grad f m x y = forward V inplace grad f m [x; y].
Proof. intros. unfold forward_div, forward. cbn [loop]. destruct inplace; [destruct (op_inplace V grad f m x y) as [[? ?]|]|destruct (op_new V f m x y) as [[? ?]|]]; reflexivity. Qed.

(** Without inputs: IndexError. *)
Theorem C106_empty : forall V inplace grad f m, forward V inplace grad f m [] = (m, Raise IndexError).
Proof. reflexivity. Qed.

(* ------------------------------------------------------------------ a case: shapes (2, 1), (3,), added *)
Definition colv : tensor Z := mkTn [1; 2] (fun i => match i with [_; k] => Z.of_nat k | _ => 0%Z end) false.
Definition rowv : tensor Z := mkTn [3] (fun i => match i with [k] => (10 * Z.of_nat k)%Z | _ => 0%Z end) false.
Example C106_case : exists m' t, forward Z false true Z.add [colv; rowv] [0; 1] = (m', Ok 2) /\ nth_error m' 2 = Some t /\ dims t = [3; 2] /\ el t [2; 1] = 21%Z.
Proof. eexists. eexists. repeat split; reflexivity. Qed.
Example C106_case_inplace : snd (forward Z true true Z.add [colv; rowv] [0; 1]) = Raise RuntimeError
  /\ exists m', forward Z true true Z.add [mkTn [3; 2] (fun _ => 1%Z) false; rowv] [0; 1] = (m', Ok 0).
Proof. split; [reflexivity|]. eexists. reflexivity. Qed.
Example C106_four : exists m' t, forward Z true true Z.add [one_ 4 1] [0; 0; 0] = (m', Ok 0) /\ nth_error m' 0 = Some t /\ el t [0] = 4%Z.
Proof. eexists. eexists. repeat split; reflexivity. Qed.

Print Assumptions C106_values.
Print Assumptions C106_succeeds.
Print Assumptions C106_fresh.
Print Assumptions C106_inplace.
Print Assumptions C106_inplace_succeeds.
Print Assumptions C106_alias_refuted.
Print Assumptions C106_failure_refuted.
Print Assumptions C106_div.
Print Assumptions C106_empty.
