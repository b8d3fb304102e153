(** C110: the replay memory from which the AMC agent learns. *)
From Coq Require Import String List ZArith Bool Arith Lia.
From Verif Require Import Base MemModel MemSpec MemProofs.
Import ListNotations.
Open Scope list_scope.
Open Scope nat_scope.

(** A ring buffer holds the last [limit] of all the values ever appended, oldest first; every other index is a KeyError. *)
Theorem C110_ring : forall A limit (values : list A), 0 < limit ->
  exists r, foldM ring_append values (ring_new limit) = Ok r /\ len r = held (length values) limit /\
    (forall i v, nth_error (skipn (oldest (length values) limit) values) i = Some v -> ring_get r (Z.of_nat i) = Ok v) /\
    (forall i, (i < 0 \/ Z.of_nat (held (length values) limit) <= i)%Z -> ring_get r i = Raise KeyError).
Proof.
  intros A limit values HL.
  assert (G : forall (l2 l1 : list A) r, rep limit r l1 -> exists r', foldM ring_append l2 r = Ok r' /\ rep limit r' (l1 ++ l2)).
  { induction l2 as [|v l2 IH]; intros l1 r HR; [exists r; rewrite app_nil_r; now split|]. destruct (rep_append A limit r l1 v HL HR) as (r1 & E & HR1). cbn [foldM]. rewrite E. cbn [bind].
    destruct (IH _ _ HR1) as (r' & E' & HR'). exists r'. split; [exact E'|]. now rewrite <- app_assoc in HR'. }
  destruct (G values [] _ (rep_new A limit HL)) as (r & E & HR). cbn [app] in HR. exists r. split; [exact E|]. split; [apply HR|]. split.
  - intros i v Hv. assert (Hi : i < length (skipn (oldest (length values) limit) values)) by (apply nth_error_Some; congruence). rewrite skipn_length in Hi. unfold oldest in Hi.
    destruct (rep_get A limit r values HL HR (Z.of_nat i)) as [K _]. destruct K as (w & Ew & ->); [unfold held in *; lia|].
    rewrite Nat2Z.id in Ew. f_equal. assert (EQ : nth_error (skipn (oldest (length values) limit) values) i = nth_error values (oldest (length values) limit + i)).
    { clear. generalize (oldest (length values) limit) as k. intro k. revert values. induction k as [|k IH]; intros [|x l]; cbn; auto. destruct i; reflexivity. }
    congruence.
  - intros i Hi. destruct (rep_get A limit r values HL HR i) as [_ K]. apply K. lia.
Qed.
(** A memory of size 0 refuses the first entry. *)
Theorem C110_no_room : forall A (v : A), ring_append (ring_new 0) v = Raise ZeroDivisionError.
Proof. reflexivity. Qed.

Section S.
Variables Obs Act Rew : Type.
Variable zeroed : Obs -> Obs.

(** What the agent is handed: for every history of episodes (observed up to any point), every size of the memory with at least
    two entries held, and whatever indices are drawn: sampling either is still looking for an index, or gives as many
    experiences as asked for, and each is a step of one of the episodes, as it was made: its observation and action, the final
    reward of its episode, whether it was the last step (the mask is 0 then) and, if not, the next observation of the same
    episode. *)
Theorem C110_sample : forall (episodes : list (list (Obs * Act * Rew))) seen unseen limit m batch draws, 
  flat_map episode_entries episodes = seen ++ unseen -> 0 < limit -> foldM mem_append seen (mem_new limit) = Ok m ->
  batch <> [] -> Forall (fun i => (0 <= i < nb_entries m - 1)%Z) batch -> Forall (fun i => (1 <= i < nb_entries m)%Z) draws ->
  sample zeroed m 1 false batch draws = Ok None \/
  exists l, sample zeroed m 1 false batch draws = Ok (Some l) /\ length l = length batch /\
    Forall (fun x => exists ep t o, In ep episodes /\ is_step ep t o (action x) /\ state0 x = [o] /\ final_reward ep (reward x) /\
      (terminal1 x = true <-> is_last ep t) /\ mask x = (if terminal1 x then 0%Z else 1%Z) /\
      (~ is_last ep t -> exists o' a', is_step ep (S t) o' a' /\ state1 x = [o'])) l.
Proof.
  intros episodes seen unseen limit m batch draws HE HL Hm Hb HI HD.
  destruct (mrep_all Obs Act Rew limit seen (mem_new limit) [] HL (mrep_new _ _ _ limit HL)) as (m' & Em & HM). assert (m' = m) by congruence. subst m'. cbn [app] in HM.
  rewrite (nb_ok Obs Act Rew limit m seen HM) in HI, HD.
  destruct (sample_ok Obs Act Rew zeroed limit m seen HL HM false batch draws Hb HI HD) as [E|(l & E & Hl & HG)]; [now left|right]. exists l. split; [exact E|]. split; [exact Hl|].
  eapply Forall_impl; [|exact HG]. intros x (i & e & e1 & Hk & Ee & Ee1 & -> & _). cbn [action state0 reward terminal1 state1].
  assert (Fe : nth_error (flat_map episode_entries episodes) i = Some e) by (rewrite HE; rewrite nth_error_app1; [exact Ee|apply nth_error_Some; congruence]).
  assert (Fe1 : nth_error (flat_map episode_entries episodes) (S i) = Some e1) by (rewrite HE; rewrite nth_error_app1; [exact Ee1|apply nth_error_Some; congruence]).
  destruct (locate Obs Act Rew episodes i e Fe) as (pre & ep & post & t & -> & Ei & Et). destruct (entries_nth Obs Act Rew ep t e Et) as (S1 & S2 & S3).
  assert (Ht : t < length ep) by (rewrite <- entries_len; apply nth_error_Some; congruence).
  exists ep, t, (eo _ _ _ e). split; [apply in_or_app; right; now left|]. split; [exact S1|]. split; [reflexivity|]. split; [exact S2|]. split; [exact S3|]. split; [reflexivity|].
  intro NL. unfold is_last in NL. rewrite Ei in Fe1. replace (S (length (flat_map episode_entries pre) + t)) with (length (flat_map episode_entries pre) + S t) in Fe1 by lia.
  apply (at_pos _ _ _ pre ep post (S t) e1 []) in Fe1; [|lia]. destruct (entries_nth Obs Act Rew ep (S t) e1 Fe1) as (S4 & _ & _). exists (eo _ _ _ e1), (ea _ _ _ e1). split; [exact S4|reflexivity].
Qed.

(** It does not look forever if index 1 keeps being drawn. *)
Theorem C110_ends : forall seen limit (m : memory Obs Act Rew) batch draws, 
  0 < limit -> foldM mem_append seen (mem_new limit) = Ok m ->
  batch <> [] -> Forall (fun i => (0 <= i < nb_entries m - 1)%Z) batch -> Forall (fun i => (1 <= i < nb_entries m)%Z) draws ->
  length batch <= count_occ Z.eq_dec draws 1%Z -> exists l, sample zeroed m 1 false batch draws = Ok (Some l).
Proof.
  intros seen limit m batch draws HL Hm Hb HI HD HC.
  destruct (mrep_all Obs Act Rew limit seen (mem_new limit) [] HL (mrep_new _ _ _ limit HL)) as (m' & Em & HM). assert (m' = m) by congruence. subst m'. cbn [app] in HM.
  rewrite (nb_ok Obs Act Rew limit m seen HM) in HI, HD. exact (sample_ends Obs Act Rew zeroed limit m seen HL HM false batch draws Hb HI HD HC).
Qed.

(** What sample_batch_indexes may return fits, so a batch drawn from a memory with at least two entries is accepted; its
    indices are all different if there are enough.  From fewer than two entries nothing can be drawn. *)
Theorem C110_batch : forall n size l, may_draw 0 (n - 1) size l -> 0 < size ->
  l <> [] /\ length l = size /\ Forall (fun i => (0 <= i < n - 1)%Z) l /\ ((Z.of_nat size <= n - 1)%Z -> NoDup l) /\ (2 <= n)%Z.
Proof.
  intros n size l (A & B & C) Hs. split; [destruct l; [cbn in A; lia|discriminate]|]. split; [exact A|]. split; [exact B|]. split; [intro H; apply C; lia|].
  destruct l as [|i l]; [cbn in A; lia|]. inversion B; subst. lia.
Qed.

(** Finding: the step after a last step, i.e. the first one of an episode, is never used, unless it is the oldest entry in the
    memory: each experience is either the oldest entry or one whose predecessor was not the last step of its episode.  Nor is
    the newest entry. *)
Theorem C110_first_step_refuted : forall seen limit (m : memory Obs Act Rew) batch draws l,
  0 < limit -> foldM mem_append seen (mem_new limit) = Ok m ->
  Forall (fun i => (0 <= i < nb_entries m - 1)%Z) batch -> Forall (fun i => (1 <= i < nb_entries m)%Z) draws ->
  sample zeroed m 1 false batch draws = Ok (Some l) ->
  Forall (fun x => exists i o, oldest (length seen) limit <= i /\ S i < length seen /\ state0 x = [o] /\
    nth_error seen i = Some (o, action x, reward x, terminal1 x) /\
    (i = oldest (length seen) limit \/ exists o0 a0 r0, nth_error seen (i - 1) = Some (o0, a0, r0, false))) l.
Proof.
  intros seen limit m batch draws l HL Hm HI HD HS.
  destruct (mrep_all Obs Act Rew limit seen (mem_new limit) [] HL (mrep_new _ _ _ limit HL)) as (m' & Em & HM). assert (m' = m) by congruence. subst m'. cbn [app] in HM.
  rewrite (nb_ok Obs Act Rew limit m seen HM) in HI, HD. assert (Hb : batch <> []) by (intros ->; discriminate HS).
  destruct (sample_ok Obs Act Rew zeroed limit m seen HL HM false batch draws Hb HI HD) as [E|(l' & E & Hl & HG)]; [congruence|]. assert (l' = l) by congruence. subst l'.
  eapply Forall_impl; [|exact HG]. intros x (i & e & e1 & Hk & Ee & Ee1 & -> & HF). cbn [action state0 reward terminal1 state1]. exists i, (eo _ _ _ e). split; [exact Hk|]. split; [apply nth_error_Some; congruence|]. split; [reflexivity|].
  split; [destruct e as [[[o a] r] t]; exact Ee|]. destruct HF as [->|([[[o a] r] t] & E0 & T)]; [now left|right]. exists o, a, r. cbn in T. now subst t.
Qed.
(** So with episodes of one step (one layer) the agent learns from the oldest entry only. *)
Theorem C110_one_step_refuted : forall seen limit (m : memory Obs Act Rew) batch draws l,
  0 < limit -> foldM mem_append seen (mem_new limit) = Ok m -> Forall (fun e => snd e = true) seen ->
  Forall (fun i => (0 <= i < nb_entries m - 1)%Z) batch -> Forall (fun i => (1 <= i < nb_entries m)%Z) draws ->
  sample zeroed m 1 false batch draws = Ok (Some l) ->
  Forall (fun x => exists o, nth_error seen (oldest (length seen) limit) = Some (o, action x, reward x, true) /\ state0 x = [o]) l.
Proof.
  intros seen limit m batch draws l HL Hm HT HI HD HS. pose proof (C110_first_step_refuted seen limit m batch draws l HL Hm HI HD HS) as H.
  eapply Forall_impl; [|exact H]. intros x (i & o & Hk & _ & E0 & E & HF). rewrite Forall_forall in HT.
  assert (Et : terminal1 x = true) by (pose proof (HT _ (nth_error_In _ _ E)) as T; exact T). destruct HF as [->|(o0 & a0 & r0 & E1)].
  - exists o. rewrite Et in E. now split.
  - pose proof (HT _ (nth_error_In _ _ E1)) as T. discriminate T.
Qed.
End S.

(** Finding: longer windows (the agent of distiller uses windows of one) do not show the last observations of an episode:
    with windows of two the observation before 21 in its episode, 20, is replaced by zeros; with windows of three the state
    of the second episode begins with an observation of the first. *)
Theorem C110_window_refuted :
  (exists m x, foldM mem_append (flat_map episode_entries [[(10, tt, tt); (11, tt, tt)]; [(20, tt, tt); (21, tt, tt); (22, tt, tt)]]) (mem_new 8) = Ok m /\
    sample (fun _ => 0) m 2 false [3]%Z [] = Ok (Some [x]) /\ state0 x = [0; 21]) /\
  (exists m x, foldM mem_append (flat_map episode_entries [[(9, tt, tt)]; [(10, tt, tt); (11, tt, tt); (12, tt, tt)]]) (mem_new 8) = Ok m /\
    sample (fun _ => 0) m 3 false [2]%Z [] = Ok (Some [x]) /\ state0 x = [9; 10; 11]).
Proof.
  split; eexists; eexists; (split; [vm_compute; reflexivity|]); (split; [vm_compute; reflexivity|]); reflexivity.
Qed.

Example C110_ex : exists m, foldM mem_append (flat_map episode_entries [[(10, 1, 5); (11, 2, 7)]; [(20, 3, 8); (21, 4, 9); (22, 5, 6)]]) (mem_new 4) = Ok m /\ nb_entries m = 4%Z /\
  sample (fun _ => 0) m 1 false [0; 1; 2]%Z [3; 2; 1]%Z = Ok (Some [mkExp [11] 2 7 [20] true; mkExp [21] 4 6 [22] false; mkExp [21] 4 6 [22] false]).
Proof. eexists. split; [vm_compute; reflexivity|]. split; [reflexivity|]. vm_compute. reflexivity. Qed.
Example C110_ex_may_draw : may_draw 0 4 3 [2; 0; 3]%Z.
Proof. split; [reflexivity|]. split; [repeat constructor; lia|]. intros _. repeat constructor; cbn; lia. Qed.

Print Assumptions C110_ring.
Print Assumptions C110_no_room.
Print Assumptions C110_sample.
Print Assumptions C110_ends.
Print Assumptions C110_batch.
Print Assumptions C110_first_step_refuted.
Print Assumptions C110_one_step_refuted.
Print Assumptions C110_window_refuted.
