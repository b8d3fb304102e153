(** C51: early exit (image_classifier.py: earlyexit_loss, earlyexit_validate_loss,
    earlyexit_validate_stats). *)
From Coq Require Import List ZArith QArith Bool Arith Lia Lqa.
From Verif Require Import Base Lists AppModel AppSpec.
Import ListNotations.
Open Scope Q_scope.

(** ** Vocabulary *)
(** the sample leaves the network at exit [i]: all earlier exits have a loss that is not below their
    threshold, and the loss at exit [i] is below its threshold unless [i] is the final exit *)
Definition leaves_at (thresholds : list Q) (s : sample) (i : nat) : Prop :=
  (i <= length (sm_loss s))%nat /\
  (forall j, (j < i)%nat -> nth j thresholds 0 <= nth j (sm_loss s) 0) /\
  ((i < length (sm_loss s))%nat -> nth i (sm_loss s) 0 < nth i thresholds 0).
Definition correct_at (s : sample) (i : nat) : Prop := nth i (sm_ok s) false = true.

Lemma leaves_unique th s i j : leaves_at th s i -> leaves_at th s j -> i = j.
Proof.
  intros (A1 & A2 & A3) (B1 & B2 & B3). destruct (Nat.lt_trichotomy i j) as [H|[H|H]]; auto; exfalso.
  - specialize (B2 i H). specialize (A3 ltac:(lia)). lra.
  - specialize (A2 j H). specialize (B3 ltac:(lia)). lra.
Qed.

Lemma take_exit_spec : forall losses th k,
  (length losses <= length th)%nat ->
  exists i, take_exit k losses th = Ok (k + i)%nat /\ (i <= length losses)%nat /\
    (forall j, (j < i)%nat -> nth j th 0 <= nth j losses 0) /\
    ((i < length losses)%nat -> nth i losses 0 < nth i th 0).
Proof.
  induction losses as [|l ls IH]; intros th k Hl.
  - exists 0%nat. simpl. rewrite Nat.add_0_r. repeat split; auto; lia.
  - destruct th as [|t ts]; [simpl in Hl; lia|]. simpl. destruct (Qltb l t) eqn:E.
    + exists 0%nat. rewrite Nat.add_0_r. apply Qltb_lt in E. repeat split; auto; lia.
    + apply Qltb_ge in E. destruct (IH ts (S k)) as (i & H1 & H2 & H3 & H4); [simpl in Hl; lia|].
      exists (S i). rewrite H1. split; [f_equal; lia|]. split; [lia|]. split.
      * intros [|j] Hj; auto. apply H3. lia.
      * intro Hi. apply H4. lia.
Qed.

(** C51: the exit of a sample: with a threshold for every early exit, exactly one exit is taken,
    and it is the first one whose loss is below its threshold, or the final one. *)
Theorem C51_exit_choice : forall thresholds s,
  (length (sm_loss s) <= length thresholds)%nat ->
  exists i, take_exit 0 (sm_loss s) thresholds = Ok i /\ leaves_at thresholds s i /\
            forall j, leaves_at thresholds s j -> j = i.
Proof.
  intros th s Hl. destruct (take_exit_spec (sm_loss s) th 0 Hl) as (i & H1 & H2 & H3 & H4).
  assert (L : leaves_at th s i) by (split; auto).
  exists i. split; auto. split; auto. intros j Hj. eapply leaves_unique; eauto.
Qed.

Lemma meter_add_length i ok m : length (meter_add i ok m) = length m.
Proof. revert i; induction m as [|(n, k) m IH]; intros [|i]; simpl; auto. Qed.
Lemma meter_add_nth i ok m j : (i < length m)%nat ->
  nth j (meter_add i ok m) (0, 0)%nat =
  if Nat.eqb i j then (S (fst (nth j m (0, 0)%nat)), (if ok then S else id) (snd (nth j m (0, 0)%nat)))
  else nth j m (0, 0)%nat.
Proof.
  revert i j; induction m as [|(n, k) m IH]; intros [|i] j Hi; simpl in *; try lia.
  - destruct j; simpl; auto. destruct ok; auto.
  - destruct j; simpl; auto. apply IH. lia.
Qed.

(** the samples of [l] that leave at exit [i], given the exit of each sample *)
Definition at_exit (exit_of : sample -> nat) (i : nat) (l : list sample) : list sample :=
  filter (fun s => Nat.eqb (exit_of s) i) l.

Lemma validate_batch_spec th n exit_of b : forall m,
  Forall (fun s => take_exit 0 (sm_loss s) th = Ok (exit_of s) /\ (exit_of s < n)%nat) b -> length m = n ->
  exists m', validate_batch th b m = Ok m' /\ length m' = n /\
    forall i, (i < n)%nat ->
      nth i m' (0, 0)%nat = ((fst (nth i m (0, 0)%nat) + length (at_exit exit_of i b))%nat,
                        (snd (nth i m (0, 0)%nat) + countb (fun s => nth i (sm_ok s) false) (at_exit exit_of i b))%nat).
Proof.
  unfold validate_batch. induction b as [|s b IH]; intros m Hf Hm.
  - exists m. simpl. repeat split; auto. intros i Hi. rewrite !Nat.add_0_r. destruct (nth i m (0, 0)%nat); auto.
  - inversion Hf as [|? ? (Hs1 & Hs2) Hf']; subst. cbn [foldM]. rewrite Hs1. cbn [bind].
    destruct (IH (meter_add (exit_of s) (nth (exit_of s) (sm_ok s) false) m) Hf') as (m' & M1 & M2 & M3).
    { apply meter_add_length. }
    exists m'. split; auto. split; auto. intros i Hi. rewrite (M3 i Hi), meter_add_nth by auto.
    change (at_exit exit_of i (s :: b)) with (if Nat.eqb (exit_of s) i then s :: at_exit exit_of i b else at_exit exit_of i b). destruct (Nat.eqb_spec (exit_of s) i) as [E|E].
    + subst i. simpl. unfold countb. simpl. destruct (nth (exit_of s) (sm_ok s) false); simpl; f_equal; unfold id, at_exit; lia.
    + reflexivity.
Qed.

Lemma validate_all_concat n th bs : validate_all n th bs = validate_batch th (concat bs) (repeat (0, 0)%nat n).
Proof.
  unfold validate_all. generalize (repeat (0, 0)%nat n) as m. induction bs as [|b bs IH]; intro m; simpl; auto.
  assert (E : validate_batch th (b ++ concat bs) m = do m' <- validate_batch th b m; validate_batch th (concat bs) m') by apply foldM_app.
  rewrite E. destruct (validate_batch th b m); cbn [bind]; auto.
Qed.

(** a validation set for a network with [num_exits] exits *)
Definition well_formed (num_exits : nat) (thresholds : list Q) (samples : list sample) : Prop :=
  (1 <= num_exits)%nat /\ (num_exits - 1 <= length thresholds)%nat /\
  Forall (fun s => length (sm_loss s) = (num_exits - 1)%nat) samples.

Lemma part_count (g : sample -> nat) (P : sample -> bool) k l :
  countb P (filter (fun s => Nat.leb k (g s)) l) =
  (countb P (filter (fun s => Nat.eqb (g s) k) l) + countb P (filter (fun s => Nat.leb (S k) (g s)) l))%nat.
Proof.
  induction l as [|s l IH]; auto. cbn [filter].
  destruct (Nat.leb_spec k (g s)), (Nat.eqb_spec (g s) k), (Nat.leb_spec (S k) (g s)); try lia;
    unfold countb in *; cbn [filter]; destruct (P s); cbn [length]; lia.
Qed.

(** C51: validation over any batches: the exits' counters are the numbers of samples that leave
    there and, of those, the ones classified correctly at that exit; every sample is counted at
    exactly one exit. *)
Theorem C51_every_sample_counted_once : forall num_exits thresholds bs,
  well_formed num_exits thresholds (concat bs) ->
  exists m exit_of, validate_all num_exits thresholds bs = Ok m /\ length m = num_exits /\
    Forall (fun s => leaves_at thresholds s (exit_of s)) (concat bs) /\
    (forall i, (i < num_exits)%nat ->
       fst (nth i m (0, 0)%nat) = length (at_exit exit_of i (concat bs)) /\
       snd (nth i m (0, 0)%nat) = countb (fun s => nth i (sm_ok s) false) (at_exit exit_of i (concat bs))) /\
    fold_right (fun x a => fst x + a)%nat 0%nat m = length (concat bs) /\
    fold_right (fun x a => snd x + a)%nat 0%nat m = countb (fun s => nth (exit_of s) (sm_ok s) false) (concat bs).
Proof.
  intros n th bs (Hn & Hth & Hf). set (l := concat bs) in *.
  set (exit_of := fun s => match take_exit 0 (sm_loss s) th with Ok i => i | Raise _ => 0%nat end).
  assert (He : Forall (fun s => (take_exit 0 (sm_loss s) th = Ok (exit_of s) /\ (exit_of s < n)%nat) /\ leaves_at th s (exit_of s)) l).
  { revert Hf. apply Forall_impl. intros s Hs. destruct (C51_exit_choice th s) as (i & H1 & H2 & _); [lia|].
    unfold exit_of. rewrite H1. split; auto. split; auto. destruct H2 as (H2 & _). lia. }
  destruct (validate_batch_spec th n exit_of l (repeat (0, 0)%nat n)) as (m & M1 & M2 & M3).
  { revert He. apply Forall_impl. tauto. }
  { apply repeat_length. }
  exists m, exit_of. rewrite validate_all_concat. fold l. split; auto. split; auto.
  split; [revert He; apply Forall_impl; tauto|].
  assert (M4 : forall i, (i < n)%nat ->
       fst (nth i m (0, 0)%nat) = length (at_exit exit_of i l) /\
       snd (nth i m (0, 0)%nat) = countb (fun s => nth i (sm_ok s) false) (at_exit exit_of i l)).
  { intros i Hi. rewrite (M3 i Hi), nth_repeat. auto. }
  split; auto.
  assert (Em : m = map (fun i => (length (at_exit exit_of i l), countb (fun s => nth i (sm_ok s) false) (at_exit exit_of i l))) (seq 0 n)).
  { set (f := fun i => (length (at_exit exit_of i l), countb (fun s => nth i (sm_ok s) false) (at_exit exit_of i l))).
    apply (nth_ext _ _ (0, 0)%nat (f 0%nat)).
    { rewrite map_length, seq_length. auto. }
    intros i Hi. rewrite (map_nth f (seq 0 n) 0%nat i), seq_nth by lia. destruct (M4 i ltac:(lia)) as (E1 & E2). unfold f. simpl.
    destruct (nth i m (0, 0)%nat). simpl in *. congruence. }
  assert (Hlt : Forall (fun s => (exit_of s < n)%nat) l) by (revert He; apply Forall_impl; tauto).
  rewrite Em. clear - Hlt.
  assert (G1 : forall k j, (forall s, In s l -> (exit_of s < k + j)%nat) ->
     fold_right (fun x a => fst x + a)%nat 0%nat (map (fun i => (length (at_exit exit_of i l), countb (fun s => nth i (sm_ok s) false) (at_exit exit_of i l))) (seq k j)) =
       length (filter (fun s => Nat.leb k (exit_of s)) l) /\
     fold_right (fun x a => snd x + a)%nat 0%nat (map (fun i => (length (at_exit exit_of i l), countb (fun s => nth i (sm_ok s) false) (at_exit exit_of i l))) (seq k j)) =
       countb (fun s => nth (exit_of s) (sm_ok s) false) (filter (fun s => Nat.leb k (exit_of s)) l)).
  { intros k j. revert k. induction j as [|j IH]; intros k Hk.
    - simpl. assert (E : filter (fun s => Nat.leb k (exit_of s)) l = []).
      { clear - Hk. induction l as [|s l' IH]; auto. simpl. destruct (Nat.leb_spec k (exit_of s)).
        - specialize (Hk s (or_introl eq_refl)). lia.
        - apply IH. intros; apply Hk; right; auto. }
      rewrite E. auto.
    - cbn [seq map fold_right fst snd]. destruct (IH (S k)) as (I1 & I2). { intros s Hs. specialize (Hk s Hs). lia. }
      rewrite I1, I2. split.
      + pose proof (part_count exit_of (fun _ => true) k l) as E. rewrite !(countb_all (fun _ => true)) in E by auto.
        unfold at_exit. lia.
      + rewrite (part_count exit_of (fun s => nth (exit_of s) (sm_ok s) false) k l). f_equal.
        apply countb_ext. intros s Hs. apply filter_In in Hs. destruct Hs as (_ & Hs). apply Nat.eqb_eq in Hs. rewrite Hs. auto. }
  rewrite Forall_forall in Hlt. destruct (G1 0%nat n) as (A & B); [exact Hlt|].
  assert (E : filter (fun s => Nat.leb 0 (exit_of s)) l = l) by (clear; induction l as [|s0 l0 IH0]; simpl; auto; f_equal; exact IH0).
  rewrite A, B, E. auto.
Qed.

(** C51: the reported total accuracy is the percentage of all samples that were classified
    correctly at the exit they left the network; without samples the division by the total raises. *)
Theorem C51_total_accuracy : forall num_exits thresholds bs m,
  well_formed num_exits thresholds (concat bs) -> validate_all num_exits thresholds bs = Ok m ->
  (concat bs = [] -> validate_stats m = Raise ZeroDivisionError) /\
  (concat bs <> [] -> exists exit_of top1,
     Forall (fun s => leaves_at thresholds s (exit_of s)) (concat bs) /\
     validate_stats m = Ok top1 /\
     top1 == 100 * Zq (Z.of_nat (countb (fun s => nth (exit_of s) (sm_ok s) false) (concat bs))) / Zq (Z.of_nat (length (concat bs)))).
Proof.
  intros n th bs m Hw Hm. destruct (C51_every_sample_counted_once n th bs Hw) as (m' & ex & M1 & M2 & M3 & M4 & M5 & M6).
  rewrite Hm in M1. injection M1 as <-. destruct Hw as (Hn & _).
  assert (T : fold_right (fun x a => Z.of_nat (fst x) + a)%Z 0%Z m = Z.of_nat (length (concat bs))).
  { rewrite <- M5. clear. induction m as [|x m IH]; auto. simpl. rewrite IH. lia. }
  unfold validate_stats. rewrite T. split.
  - intros ->. simpl. destruct m; [simpl in M2; lia|]. reflexivity.
  - intro Hne. set (N := length (concat bs)) in *.
    assert (HN : (0 < Z.of_nat N)%Z) by (unfold N; destruct (concat bs); [congruence|simpl; lia]).
    rewrite (proj2 (Z.eqb_neq _ _)) by lia. simpl. exists ex. eexists. split; auto. split; [reflexivity|].
    assert (Hok : Forall (fun x : nat * nat => fst x = 0%nat -> snd x = 0%nat) m).
    { rewrite Forall_forall. intros x Hx. destruct (In_nth _ _ (0, 0)%nat Hx) as (i & Hi & <-).
      destruct (M4 i ltac:(lia)) as (-> & ->). intro E. pose proof (countb_le (fun s => nth i (sm_ok s) false) (at_exit ex i (concat bs))). lia. }
    rewrite <- M6. clear - HN Hok. pose proof (Zq_pos _ HN) as HNq.
    assert (Hz : forall x : nat * nat, (fst x = 0%nat -> snd x = 0%nat) ->
       (if Nat.eqb (fst x) 0 then 0 else meter_value x) * (Zq (Z.of_nat (fst x)) / Zq (Z.of_nat N)) == 100 * Zq (Z.of_nat (snd x)) / Zq (Z.of_nat N)).
    { intros (a, k) Ha. simpl in *. destruct (Nat.eqb_spec a 0) as [E|E].
      - rewrite (Ha E). change (Zq (Z.of_nat 0)) with 0. field. lra.
      - unfold meter_value. simpl. pose proof (Zq_pos (Z.of_nat a) ltac:(lia)). field. lra. }
    induction Hok as [|x m Hx Hok IH]; simpl.
    + change (Zq 0) with 0. field. lra.
    + rewrite IH, (Hz x Hx). rewrite Nat2Z.inj_add, Zq_plus. field. lra.
Qed.

(** C51: fewer thresholds than early exits: the first sample that gets past the last threshold
    raises IndexError. *)
Theorem C51_missing_threshold : forall thresholds s,
  (length thresholds < length (sm_loss s))%nat ->
  (forall j, (j < length thresholds)%nat -> nth j thresholds 0 <= nth j (sm_loss s) 0) ->
  forall m b, validate_batch thresholds (s :: b) m = Raise IndexError.
Proof.
  intros th s Hl Hth m b. unfold validate_batch. cbn [foldM].
  cut (take_exit 0 (sm_loss s) th = Raise IndexError); [intros ->; reflexivity|].
  generalize 0%nat as k. revert Hl Hth. generalize (sm_loss s) as ls. clear.
  induction th as [|t th IH]; intros [|l ls] Hl Hth k; simpl in *; try lia; auto.
  pose proof (Hth 0%nat ltac:(lia)) as H0. simpl in H0. rewrite (proj2 (Qltb_ge l t) H0). apply IH; [lia|].
  intros j Hj. apply (Hth (S j)). lia.
Qed.

(* ------------------------------------------------------------------------- *)
(** ** The training loss *)
(** the weighted losses of the early exits that were traversed *)
Definition traversed (weights : list Q) (exits : list (option Q)) : list Q :=
  flat_map (fun we => match snd we with Some l => [fst we * l] | None => [] end) (combine weights exits).

Lemma earlyexit_fold ws : forall es k pre acc, length pre = k -> (length es <= length ws)%nat ->
  exists acc', foldM (fun acc ie => match snd ie with
                         | None => Ok acc
                         | Some l => match nth_error (pre ++ ws) (fst ie) with Some w => Ok (acc + w * l) | None => Raise IndexError end
                         end) (combine (seq k (length es)) es) acc = Ok acc' /\
    acc' == acc + qsum (traversed ws es).
Proof.
  induction ws as [|w ws IH]; intros es k pre acc Hk Hl; destruct es as [|e es]; try (simpl in Hl; lia).
  - exists acc. simpl. split; auto. ring.
  - exists acc. simpl. split; auto. ring.
  - cbn [length seq combine foldM fst snd].
    assert (Hn : nth_error (pre ++ w :: ws) k = Some w).
    { rewrite nth_error_app2 by lia. replace (k - length pre)%nat with 0%nat by lia. reflexivity. }
    assert (Happ : pre ++ w :: ws = (pre ++ [w]) ++ ws) by (rewrite <- app_assoc; reflexivity).
    rewrite Hn. destruct e as [l|]; cbn [bind].
    + rewrite Happ. destruct (IH es (S k) (pre ++ [w]) (acc + w * l)) as (acc' & H1 & H2).
      { rewrite app_length. simpl. lia. } { simpl in Hl. lia. }
      exists acc'. split; auto. rewrite H2. unfold traversed. simpl. ring.
    + rewrite Happ. destruct (IH es (S k) (pre ++ [w]) acc) as (acc' & H1 & H2).
      { rewrite app_length. simpl. lia. } { simpl in Hl. lia. }
      exists acc'. split; auto.
Qed.

(** C51: the training loss is the weighted sum of the losses of the traversed exits, where the final
    exit gets the rest of the weight; weights that sum to 1 or more raise AssertionError. *)
Theorem C51_training_loss : forall weights exits final,
  (length exits <= length weights)%nat ->
  (qsum weights < 1 -> exists loss, earlyexit_loss weights exits final = Ok loss /\
     loss == qsum (traversed weights exits) + (1 - qsum weights) * final) /\
  (1 <= qsum weights -> earlyexit_loss weights exits final = Raise AssertionError).
Proof.
  intros ws es fin Hl. unfold earlyexit_loss. split; intro H.
  - rewrite (proj2 (Qle_bool_ngt 1 (qsum ws)) H).
    destruct (earlyexit_fold ws es 0 [] 0 eq_refl Hl) as (acc & H1 & H2). simpl app in H1. rewrite H1. cbn [bind].
    eexists; split; [reflexivity|]. rewrite H2. ring.
  - rewrite (proj2 (Qle_bool_iff 1 (qsum ws)) H). auto.
Qed.

(** C51: when every exit is traversed it is a weighted mean: between the smallest and the largest
    exit loss (for non-negative weights). *)
Theorem C51_training_loss_is_a_mean : forall weights losses final lo hi loss,
  length losses = length weights -> Forall (fun w => 0 <= w) weights -> qsum weights < 1 ->
  Forall (fun l => lo <= l <= hi) losses -> lo <= final <= hi ->
  earlyexit_loss weights (map Some losses) final = Ok loss -> lo <= loss <= hi.
Proof.
  intros ws ls fin lo hi loss Hl Hw Hs Hr Hf H.
  destruct (C51_training_loss ws (map Some ls) fin) as (K & _); [rewrite map_length; lia|].
  destruct (K Hs) as (loss' & H1 & H2). rewrite H in H1. injection H1 as <-. rewrite H2. clear K H2 H.
  assert (B : qsum ws * lo <= qsum (traversed ws (map Some ls)) <= qsum ws * hi).
  { clear Hs Hf. revert ls Hl Hr. induction Hw as [|w ws Hw0 Hw IH]; intros [|l ls] Hl Hr; try discriminate; simpl.
    - lra.
    - inversion Hr as [|? ? Hr0 Hr']; subst. destruct (IH ls) as (B1 & B2); auto.
      unfold traversed in *. simpl. change (fold_right Qplus 0) with qsum in *. nra. }
  nra.
Qed.

(** C51 (finding): the weight of an exit that is not traversed is not given to the others: with an
    untraversed exit of positive weight and positive losses, the loss is strictly smaller than the
    weighted mean, e.g. equal losses c give a training loss below c. *)
Theorem C51_untraversed_exit_refuted : forall w c,
  0 < w -> w < 1 -> 0 < c ->
  exists loss, earlyexit_loss [w] [None] c = Ok loss /\ loss < c.
Proof.
  intros w c Hw Hw1 Hc. destruct (C51_training_loss [w] [None] c) as (K & _); [simpl; lia|].
  destruct K as (loss & H1 & H2); [simpl; lra|]. exists loss. split; auto. rewrite H2. simpl. nra.
Qed.

Example exit_case :
  let bs := [[mkSample [1#2; 3] [true; false; true]; mkSample [2; 1#4] [true; true; false]];
             [mkSample [2; 2] [true; true; false]]] in
  validate_all 3 [1; 1] bs = Ok [(1, 1); (1, 1); (1, 0)]%nat /\ well_formed 3 [1; 1] (concat bs).
Proof. split; [reflexivity|]. repeat split; simpl; try lia. repeat constructor. Qed.
Example exit_stats_case : exists q, validate_stats [(1, 1); (1, 1); (1, 0)]%nat = Ok q /\ q == 200 # 3.
Proof. eexists; split; [reflexivity|]. vm_compute. reflexivity. Qed.
Example exit_loss_case : exists q, earlyexit_loss [1#4; 1#4] [Some 4; Some 8] 2 = Ok q /\ q == 4.
Proof. eexists; split; [reflexivity|]. vm_compute. reflexivity. Qed.

Print Assumptions C51_exit_choice.
Print Assumptions C51_every_sample_counted_once.
Print Assumptions C51_total_accuracy.
Print Assumptions C51_missing_threshold.
Print Assumptions C51_training_loss.
Print Assumptions C51_training_loss_is_a_mean.
Print Assumptions C51_untraversed_exit_refuted.
