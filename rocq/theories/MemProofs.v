(** Proofs about the replay memory (C110). *)
From Coq Require Import String List ZArith Bool Arith Lia.
From Verif Require Import Base MemModel MemSpec.
Import ListNotations.
Open Scope list_scope.
Open Scope nat_scope.

Lemma put_len : forall A (l : list A) i x, length (put l i x) = length l.
Proof. induction l as [|y l IH]; intros [|i] x; cbn; auto. Qed.
Lemma put_nth : forall A (l : list A) i x j, i < length l -> nth_error (put l i x) j = if Nat.eqb i j then Some x else nth_error l j.
Proof.
  induction l as [|y l IH]; intros i x j H; [cbn in H; lia|]. destruct i as [|i], j as [|j]; cbn; try reflexivity. apply IH. cbn in H. lia.
Qed.
Lemma mod_neq : forall L n j, 0 < L -> j < n -> n - j < L -> j mod L <> n mod L.
Proof.
  intros L n j HL Hj Hn E. pose proof (Nat.div_mod n L ltac:(lia)) as A. pose proof (Nat.div_mod j L ltac:(lia)) as B. rewrite E in B.
  assert (n - j = L * (n / L - j / L)) by nia. destruct (n / L - j / L); nia.
Qed.

Definition rep {A} (L : nat) (r : ring A) (H : list A) : Prop :=
  maxlen r = L /\ len r = held (length H) L /\ length (data r) = L /\ start r = oldest (length H) L mod L /\
  forall j v, oldest (length H) L <= j -> nth_error H j = Some v -> nth_error (data r) (j mod L) = Some (Some v).

Lemma rep_new : forall A L, 0 < L -> rep L (@ring_new A L) [].
Proof.
  intros A L HL. unfold rep, ring_new, held, oldest. cbn [maxlen len data start length]. rewrite Nat.min_0_l, repeat_length. repeat split; auto.
  - now rewrite Nat.mod_0_l by lia.
  - intros j v _ H. destruct j; discriminate H.
Qed.

Lemma rep_append : forall A L (r : ring A) H v, 0 < L -> rep L r H -> exists r', ring_append r v = Ok r' /\ rep L r' (H ++ [v]).
Proof.
  intros A L r H v HL (R1 & R2 & R3 & R4 & R5). unfold ring_append. rewrite R1, R2. unfold oldest, held in *. destruct (Nat.eqb_spec L 0) as [E0|_]; [lia|].
  assert (NE : forall j w, nth_error (H ++ [v]) j = Some w -> (j < length H /\ nth_error H j = Some w) \/ (j = length H /\ w = v)).
  { intros j w E. destruct (Nat.lt_ge_cases j (length H)) as [Hj|Hj]; [left; rewrite nth_error_app1 in E by exact Hj; now split|].
    right. assert (j < length (H ++ [v])) by (apply nth_error_Some; congruence). rewrite app_length in *. cbn in *. assert (j = length H) by lia. subst j. rewrite nth_error_app2, Nat.sub_diag in E by lia. cbn in E. split; congruence. }
  destruct (Nat.ltb_spec (Nat.min (length H) L) L) as [Hlt|Hge].
  - eexists. split; [reflexivity|]. assert (Hn : length H < L) by lia. rewrite Nat.min_l in * by lia. replace (length H - length H) with 0 in * by lia. rewrite Nat.mod_0_l in R4 by lia. rewrite R4.
    unfold rep. cbn [maxlen len data start]. rewrite put_len, app_length. cbn [length]. unfold oldest, held. rewrite Nat.min_l by lia. rewrite Nat.sub_diag, Nat.mod_0_l by lia. repeat split; [lia|exact R3|].
    intros j w _ E. replace (0 + S (length H) - 1) with (length H) by lia. rewrite put_nth by (rewrite R3; apply Nat.mod_upper_bound; lia).
    destruct (NE j w E) as [[Hj Ej]|[-> ->]]; [|now rewrite Nat.eqb_refl]. destruct (Nat.eqb_spec (length H mod L) (j mod L)) as [Em|_]; [|apply R5; [lia|exact Ej]].
    rewrite !Nat.mod_small in Em by lia. lia.
  - assert (Hn : L <= length H) by lia. rewrite Nat.min_r in * by lia. rewrite Nat.eqb_refl. eexists. split; [reflexivity|].
    assert (ES : (start r + 1) mod L = (length H + 1 - L) mod L). { rewrite R4, Nat.add_mod_idemp_l by lia. f_equal. lia. }
    unfold rep. cbn [maxlen len data start]. rewrite put_len, app_length, ES. cbn [length]. unfold oldest, held. rewrite Nat.min_r by lia. repeat split; [exact R3|].
    intros j w Hj E. assert (EP : ((length H + 1 - L) mod L + L - 1) mod L = length H mod L).
    { replace ((length H + 1 - L) mod L + L - 1) with ((length H + 1 - L) mod L + (L - 1)) by lia. rewrite Nat.add_mod_idemp_l by lia. f_equal. lia. }
    rewrite EP, put_nth by (rewrite R3; apply Nat.mod_upper_bound; lia).
    destruct (NE j w E) as [[Hj' Ej]|[-> ->]]; [|now rewrite Nat.eqb_refl]. destruct (Nat.eqb_spec (length H mod L) (j mod L)) as [Em|_]; [|apply R5; [lia|exact Ej]].
    exfalso. apply (mod_neq L (length H) j); [lia|lia|lia|now symmetry].
Qed.

Lemma rep_get : forall A L (r : ring A) H, 0 < L -> rep L r H -> forall i,
  ((0 <= i < Z.of_nat (held (length H) L))%Z -> exists v, nth_error H (oldest (length H) L + Z.to_nat i) = Some v /\ ring_get r i = Ok v) /\
  (~ (0 <= i < Z.of_nat (held (length H) L))%Z -> ring_get r i = Raise KeyError).
Proof.
  intros A L r H HL (R1 & R2 & R3 & R4 & R5) i. unfold ring_get. rewrite R2. split; intro Hi.
  - replace ((i <? 0)%Z || (Z.of_nat (held (length H) L) <=? i)%Z) with false by (symmetry; apply orb_false_iff; split; [apply Z.ltb_ge|apply Z.leb_gt]; lia).
    set (k := oldest (length H) L) in *. assert (Hk : k + Z.to_nat i < length H) by (unfold k, oldest, held in *; lia).
    destruct (nth_error H (k + Z.to_nat i)) as [v|] eqn:E; [|apply nth_error_None in E; lia]. exists v. split; [reflexivity|].
    rewrite R1, R4, Nat.add_mod_idemp_l by lia. now rewrite (R5 _ v) by (lia || exact E).
  - destruct ((i <? 0)%Z || (Z.of_nat (held (length H) L) <=? i)%Z) eqn:E; [reflexivity|]. exfalso. apply orb_false_iff in E as [A1 A2]. apply Z.ltb_ge in A1. apply Z.leb_gt in A2. lia.
Qed.

Section M.
Variables Obs Act Rew : Type.
Variable zeroed : Obs -> Obs.
Notation entry := (Obs * Act * Rew * bool)%type.
Definition eo (e : entry) : Obs := fst (fst (fst e)).
Definition ea (e : entry) : Act := snd (fst (fst e)).
Definition er (e : entry) : Rew := snd (fst e).
Definition et (e : entry) : bool := snd e.

Definition mrep (L : nat) (m : memory Obs Act Rew) (H : list entry) : Prop :=
  rep L (observations m) (map eo H) /\ rep L (actions m) (map ea H) /\ rep L (rewards m) (map er H) /\ rep L (terminals m) (map et H).

Lemma mrep_new : forall L, 0 < L -> mrep L (mem_new L) [].
Proof. intros L HL. repeat split; apply rep_new; exact HL. Qed.
Lemma mrep_append : forall L m H e, 0 < L -> mrep L m H -> exists m', mem_append m e = Ok m' /\ mrep L m' (H ++ [e]).
Proof.
  intros L m H [[[o a] r] t] HL (A & B & C & D). unfold mem_append.
  destruct (rep_append _ L _ _ o HL A) as (x & -> & A'). destruct (rep_append _ L _ _ a HL B) as (y & -> & B'). destruct (rep_append _ L _ _ r HL C) as (z & -> & C'). destruct (rep_append _ L _ _ t HL D) as (w & -> & D').
  cbn [bind]. eexists. split; [reflexivity|]. unfold mrep. cbn [observations actions rewards terminals]. rewrite !map_app. cbn [map]. repeat split; assumption || apply A' || apply B' || apply C' || apply D'.
Qed.
Lemma mrep_all : forall L H2 m H, 0 < L -> mrep L m H -> exists m', foldM mem_append H2 m = Ok m' /\ mrep L m' (H ++ H2).
Proof.
  intros L. induction H2 as [|e H2 IH]; intros m H HL HM; [exists m; rewrite app_nil_r; now split|].
  destruct (mrep_append L m H e HL HM) as (m1 & E & HM1). cbn [foldM]. rewrite E. cbn [bind]. destruct (IH m1 _ HL HM1) as (m' & E' & HM'). exists m'. split; [exact E'|]. now rewrite <- app_assoc in HM'.
Qed.

Section R.
Variable L : nat.
Variable m : memory Obs Act Rew.
Variable H : list entry.
Hypothesis HL : 0 < L.
Hypothesis HM : mrep L m H.
Let n := Z.of_nat (held (length H) L).
Let k := oldest (length H) L.

Lemma nb_ok : nb_entries m = n.
Proof. unfold nb_entries, n. destruct HM as [(_ & A & _) _]. now rewrite A, map_length. Qed.

(** reading any field of an entry that is held *)
Lemma read : forall A (f : entry -> A) (r : ring A), rep L r (map f H) -> forall i, (0 <= i < n)%Z ->
  exists e, nth_error H (k + Z.to_nat i) = Some e /\ ring_get r i = Ok (f e).
Proof.
  intros A f r HR i Hi. destruct (rep_get _ L r _ HL HR i) as [G _]. rewrite !map_length in G. destruct (G Hi) as (v & E & EG). fold k in E.
  rewrite nth_error_map in E. destruct (nth_error H (k + Z.to_nat i)) as [e|]; [|discriminate]. exists e. split; [reflexivity|]. cbn in E. congruence.
Qed.

(** the index the loop settles on *)
Lemma find_ok : forall draws idx, (1 <= idx < n)%Z -> Forall (fun d => (1 <= d < n)%Z) draws ->
  find_idx m draws idx = Ok None \/
  exists i rest, find_idx m draws idx = Ok (Some (i, rest)) /\ (1 <= i < n)%Z /\ Forall (fun d => (1 <= d < n)%Z) rest /\
    (i = 1%Z \/ exists e, nth_error H (k + Z.to_nat (i - 2)) = Some e /\ et e = false).
Proof.
  induction draws as [|d draws IH]; intros idx Hi HF.
  - unfold find_idx. destruct (Z.leb_spec 2 idx) as [H2|H2].
    + destruct HM as (_ & _ & _ & D). destruct (read _ et _ D (idx - 2)) as (e & E & ->); [lia|]. cbn [bind]. destruct (et e) eqn:Et; [now left|right]. exists idx, []. repeat split; auto; try lia. right. exists e. now split.
    + cbn [bind]. right. exists idx, []. repeat split; auto; try lia.
  - inversion HF; subst. cbn [find_idx]. destruct (Z.leb_spec 2 idx) as [H2'|H2'].
    + destruct HM as (_ & _ & _ & D). destruct (read _ et _ D (idx - 2)) as (e & E & ->); [lia|]. cbn [bind]. destruct (et e) eqn:Et; [now apply IH|right]. exists idx, (d :: draws). repeat split; auto; try lia. right. exists e. now split.
    + cbn [bind]. right. exists idx, (d :: draws). repeat split; auto; try lia.
Qed.

(** one experience, window length 1 *)
Lemma exp_ok : forall ignore idx, (1 <= idx < n)%Z ->
  exists e e1, nth_error H (k + Z.to_nat (idx - 1)) = Some e /\ nth_error H (k + Z.to_nat idx) = Some e1 /\
    experience_at zeroed m 1 ignore idx = Ok (mkExp [eo e] (ea e) (er e) [eo e1] (et e)).
Proof.
  intros ignore idx Hi. unfold experience_at. rewrite nb_ok. replace ((1 <=? idx)%Z && (idx <? n)%Z) with true by (symmetry; apply andb_true_intro; split; [apply Z.leb_le|apply Z.ltb_lt]; lia). cbn [negb].
  destruct HM as (A & B & C & D). destruct (read _ eo _ A (idx - 1)) as (e & E & ->); [lia|]. destruct (read _ ea _ B (idx - 1)) as (e2 & E2 & ->); [lia|]. destruct (read _ er _ C (idx - 1)) as (e3 & E3 & ->); [lia|].
  destruct (read _ et _ D (idx - 1)) as (e4 & E4 & ->); [lia|]. destruct (read _ eo _ A idx) as (e5 & E5 & ->); [lia|]. exists e, e5. split; [exact E|]. split; [exact E5|].
  assert (e2 = e) by congruence. assert (e3 = e) by congruence. assert (e4 = e) by congruence. subst. reflexivity.
Qed.

(** what an experience must be *)
Definition good (x : experience Obs Act Rew) : Prop :=
  exists i e e1, k <= i /\ nth_error H i = Some e /\ nth_error H (S i) = Some e1 /\
    x = mkExp [eo e] (ea e) (er e) [eo e1] (et e) /\
    (i = k \/ exists e0, nth_error H (i - 1) = Some e0 /\ et e0 = false).

Lemma exps_ok : forall ignore idxs draws, Forall (fun d => (1 <= d < n)%Z) idxs -> Forall (fun d => (1 <= d < n)%Z) draws ->
  experiences zeroed m 1 ignore idxs draws = Ok None \/
  exists l, experiences zeroed m 1 ignore idxs draws = Ok (Some l) /\ length l = length idxs /\ Forall good l.
Proof.
  intros ignore. induction idxs as [|idx idxs IH]; intros draws HI HD; [right; exists []; repeat split; constructor|].
  inversion HI; subst. cbn [experiences]. destruct (find_ok draws idx) as [->|(i & rest & -> & Hi & HR & HG)]; [assumption|assumption|now left|]. cbn [bind].
  destruct (exp_ok ignore i Hi) as (e & e1 & E & E1 & ->). cbn [bind]. destruct (IH rest) as [->|(l & -> & Hl & HF)]; [assumption|assumption|now left|]. cbn [bind]. right. eexists. split; [reflexivity|]. split; [cbn [length]; lia|].
  constructor; [|exact HF]. exists (k + Z.to_nat (i - 1)), e, e1. split; [lia|]. split; [exact E|]. split; [replace (S (k + Z.to_nat (i - 1))) with (k + Z.to_nat i) by lia; exact E1|]. split; [reflexivity|].
  destruct HG as [->|(e0 & E0 & T)]; [left; cbn; lia|]. destruct (Z.eq_dec i 1) as [->|N1]; [left; cbn; lia|]. right. exists e0. split; [|exact T]. replace (k + Z.to_nat (i - 1) - 1) with (k + Z.to_nat (i - 2)) by lia. exact E0.
Qed.

Lemma sample_ok : forall ignore b draws, b <> [] -> Forall (fun d => (0 <= d < n - 1)%Z) b -> Forall (fun d => (1 <= d < n)%Z) draws ->
  sample zeroed m 1 ignore b draws = Ok None \/
  exists l, sample zeroed m 1 ignore b draws = Ok (Some l) /\ length l = length b /\ Forall good l.
Proof.
  intros ignore b draws Hb HI HD. unfold sample. rewrite nb_ok. set (idxs := map (fun i => (i + 1)%Z) b).
  assert (HF : Forall (fun d => (1 <= d < n)%Z) idxs). { apply Forall_forall. intros x Hx. apply in_map_iff in Hx as (y & <- & Hy). rewrite Forall_forall in HI. specialize (HI y Hy). lia. }
  destruct idxs as [|i0 is] eqn:EI; [destruct b; [congruence|discriminate EI]|]. rewrite <- EI in *.
  replace (forallb (fun i => (1 <=? i)%Z) idxs) with true by (symmetry; apply forallb_forall; intros x Hx; rewrite Forall_forall in HF; specialize (HF x Hx); apply Z.leb_le; lia).
  replace (forallb (fun i => (i <? n)%Z) idxs) with true by (symmetry; apply forallb_forall; intros x Hx; rewrite Forall_forall in HF; specialize (HF x Hx); apply Z.ltb_lt; lia). cbn [andb].
  destruct (exps_ok ignore idxs draws HF HD) as [E|(l & E & A & B)]; [now left|right]. exists l. split; [exact E|]. split; [unfold idxs in A; now rewrite map_length in A|exact B].
Qed.

(** with enough draws of index 1 the sampling ends *)
Lemma find_ends : forall draws idx, (1 <= idx < n)%Z -> Forall (fun d => (1 <= d < n)%Z) draws -> In 1%Z draws ->
  exists i rest, find_idx m draws idx = Ok (Some (i, rest)) /\ count_occ Z.eq_dec draws 1%Z <= S (count_occ Z.eq_dec rest 1%Z).
Proof.
  induction draws as [|d draws IH]; intros idx Hi HF HI; [destruct HI|]. inversion HF; subst. cbn [find_idx].
  assert (HT : exists t, (if (2 <=? idx)%Z then ring_get (terminals m) (idx - 2) else Ok false) = Ok t).
  { destruct (Z.leb_spec 2 idx); [|now exists false]. destruct HM as (_ & _ & _ & D). destruct (read _ et _ D (idx - 2)) as (e & E & ->); [lia|]. now exists (et e). }
  destruct HT as [t ->]. cbn [bind]. destruct t; [|exists idx, (d :: draws); split; [reflexivity|lia]].
  destruct (Z.eq_dec d 1) as [->|Nd].
  - exists 1%Z, draws. split; [destruct draws; reflexivity|]. rewrite count_occ_cons_eq by reflexivity. lia.
  - destruct HI as [HI|HI]; [congruence|]. destruct (IH d) as (i & rest & E & C); [assumption|assumption|assumption|]. exists i, rest. split; [exact E|]. rewrite count_occ_cons_neq by exact Nd. exact C.
Qed.

Lemma exps_end : forall ignore idxs draws, Forall (fun d => (1 <= d < n)%Z) idxs -> Forall (fun d => (1 <= d < n)%Z) draws ->
  length idxs <= count_occ Z.eq_dec draws 1%Z -> exists l, experiences zeroed m 1 ignore idxs draws = Ok (Some l).
Proof.
  intros ignore. induction idxs as [|idx idxs IH]; intros draws HI HD HC; [exists []; reflexivity|]. inversion HI; subst. cbn [length] in HC.
  destruct (find_ends draws idx) as (i & rest & E & C); [assumption|assumption|apply (count_occ_In Z.eq_dec); lia|].
  destruct (find_ok draws idx) as [E'|(i' & rest' & E' & Hi & HR & _)]; [assumption|assumption|rewrite E in E'; discriminate E'|]. rewrite E in E'. injection E' as <- <-.
  cbn [experiences]. rewrite E. cbn [bind]. destruct (exp_ok ignore i Hi) as (e & e1 & _ & _ & ->). cbn [bind]. destruct (IH rest) as [l ->]; [assumption|assumption|lia|]. cbn [bind]. eexists. reflexivity.
Qed.

Lemma sample_ends : forall ignore b draws, b <> [] -> Forall (fun d => (0 <= d < n - 1)%Z) b -> Forall (fun d => (1 <= d < n)%Z) draws ->
  length b <= count_occ Z.eq_dec draws 1%Z -> exists l, sample zeroed m 1 ignore b draws = Ok (Some l).
Proof.
  intros ignore b draws Hb HI HD HC. destruct (sample_ok ignore b draws Hb HI HD) as [E|(l & E & _)]; [|now exists l]. exfalso.
  unfold sample in E. set (idxs := map (fun i => (i + 1)%Z) b) in *.
  assert (HF : Forall (fun d => (1 <= d < n)%Z) idxs). { apply Forall_forall. intros x Hx. apply in_map_iff in Hx as (y & <- & Hy). rewrite Forall_forall in HI. specialize (HI y Hy). lia. }
  destruct (exps_end ignore idxs draws HF HD) as [l El]; [unfold idxs; rewrite map_length; exact HC|]. destruct idxs as [|i0 is]; [discriminate|]. destruct (_ && _); [rewrite El in E|]; discriminate.
Qed.
End R.

(* ------------------------------------------------------------------ episodes *)
Lemma with_done_nth : forall (final : Rew) (T : list (Obs * Act * Rew)) t o a r, nth_error T t = Some (o, a, r) -> nth_error (with_done final T) t = Some (o, a, final, Nat.eqb (S t) (length T)).
Proof.
  intros final. induction T as [|[[o' a'] r'] T IH]; intros [|t] o a r H; try discriminate H.
  - cbn in H. injection H as -> -> ->. cbn [with_done nth_error length]. destruct T; reflexivity.
  - cbn [nth_error] in H. cbn [with_done nth_error length]. rewrite (IH t o a r H). reflexivity.
Qed.
Lemma with_done_len : forall (final : Rew) (T : list (Obs * Act * Rew)), length (with_done final T) = length T.
Proof. intros final. induction T as [|[[o a] r] T IH]; cbn [with_done length]; auto. Qed.
Lemma entries_len : forall T : list (Obs * Act * Rew), length (episode_entries T) = length T.
Proof.
  intro T. unfold episode_entries. destruct (rev T) as [|[[o a] r] R] eqn:E; [|apply with_done_len]. apply (f_equal (@length _)) in E. rewrite rev_length in E. cbn in *. lia.
Qed.
Lemma entries_nth : forall (T : list (Obs * Act * Rew)) t e, nth_error (episode_entries T) t = Some e ->
  is_step T t (eo e) (ea e) /\ final_reward T (er e) /\ (et e = true <-> is_last T t).
Proof.
  intros T t e H. assert (Ht : t < length T) by (rewrite <- entries_len; apply nth_error_Some; congruence).
  unfold episode_entries in H. destruct (rev T) as [|[[fo fa] fr] R] eqn:E; [destruct t; discriminate H|].
  destruct (nth_error T t) as [[[o a] r]|] eqn:ET; [|apply nth_error_None in ET; lia]. rewrite (with_done_nth fr T t o a r ET) in H. injection H as <-. cbn [eo ea er et fst snd].
  split; [exists r; exact ET|]. split.
  - exists fo, fa. assert (EH : T = rev R ++ [(fo, fa, fr)]) by (rewrite <- (rev_involutive T), E; reflexivity). rewrite EH, app_length. cbn [length]. replace (length (rev R) + 1 - 1) with (length (rev R)) by lia. rewrite nth_error_app2, Nat.sub_diag by lia. reflexivity.
  - unfold is_last. exact (Nat.eqb_eq (S t) (length T)).
Qed.

(** position i of the entries of a list of episodes *)
Lemma locate : forall (eps : list (list (Obs * Act * Rew))) i (e : entry), nth_error (flat_map episode_entries eps) i = Some e ->
  exists pre ep post t, eps = pre ++ ep :: post /\ i = length (flat_map episode_entries pre) + t /\ nth_error (episode_entries ep) t = Some e.
Proof.
  induction eps as [|ep eps IH]; intros i e H; [destruct i; discriminate H|]. cbn [flat_map] in H.
  destruct (Nat.lt_ge_cases i (length (episode_entries ep))) as [Hi|Hi].
  - rewrite nth_error_app1 in H by exact Hi. exists [], ep, eps, i. split; [reflexivity|]. now split.
  - rewrite nth_error_app2 in H by exact Hi. destruct (IH _ _ H) as (pre & ep' & post & t & -> & E & N). exists (ep :: pre), ep', post, t. split; [reflexivity|]. split; [cbn [flat_map]; rewrite app_length; lia|exact N].
Qed.
Lemma at_pos : forall (pre : list (list (Obs * Act * Rew))) ep post t e (rest : list entry), nth_error (flat_map episode_entries (pre ++ ep :: post)) (length (flat_map episode_entries pre) + t) = Some e -> t < length ep -> nth_error (episode_entries ep) t = Some e.
Proof.
  intros pre ep post t e _ H Ht. rewrite flat_map_app in H. cbn [flat_map] in H. rewrite nth_error_app2 in H by lia. replace (length (flat_map episode_entries pre) + t - length (flat_map episode_entries pre)) with t in H by lia.
  rewrite nth_error_app1 in H by (rewrite entries_len; exact Ht). exact H.
Qed.
End M.
