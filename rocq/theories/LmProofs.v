From Coq Require Import String List ZArith QArith Bool Arith Lia Lqa Permutation.
From Verif Require Import Base LmModel LmSpec.
Import ListNotations.
Open Scope list_scope.
Open Scope nat_scope.

(** ---------------------------------------------------------------- dictionary *)
Definition dict_ok (d : dictionary) : Prop :=
  NoDup (idx2word d) /\ (forall w i, dget (word2idx d) w = Some i <-> nth_error (idx2word d) i = Some w).
Lemma nth_error_last {A} (l : list A) x : nth_error (l ++ [x]) (length l) = Some x.
Proof. induction l as [|a l IH]; cbn; auto. Qed.
Lemma nth_error_snoc {A} (l : list A) x i y : nth_error (l ++ [x]) i = Some y <-> nth_error l i = Some y \/ (i = length l /\ y = x).
Proof.
  destruct (Nat.lt_ge_cases i (length l)) as [L|L].
  - rewrite nth_error_app1 by exact L. split; [auto|]. intros [H|[-> _]]; [exact H|lia].
  - rewrite nth_error_app2 by exact L. assert (E : nth_error l i = None) by (apply nth_error_None; exact L). rewrite E.
    destruct (i - length l) as [|k] eqn:K; cbn.
    + split.
      * intro H. right. split; [lia|congruence].
      * intros [H|[_ ->]]; [discriminate|reflexivity].
    + split.
      * destruct k; discriminate.
      * intros [H|[-> _]]; [discriminate|lia].
Qed.
Lemma add_word_ok d w : dict_ok d -> dict_ok (add_word d w).
Proof.
  intros [N H]. unfold add_word, dmem. destruct (dget (word2idx d) w) as [i|] eqn:E; [split; assumption|].
  assert (W : ~ In w (idx2word d)).
  { intro I. apply In_nth_error in I. destruct I as [i I]. apply H in I. congruence. }
  split; cbn [idx2word word2idx].
  - apply Permutation_NoDup with (l := w :: idx2word d); [apply Permutation_cons_append|]. constructor; assumption.
  - intros v i. rewrite app_length. cbn [length]. replace (length (idx2word d) + 1 - 1) with (length (idx2word d)) by lia.
    rewrite nth_error_snoc. destruct (String.eqb_spec w v) as [->|Nw].
    + rewrite dget_dset_same. split.
      * intro X. injection X as <-. auto.
      * intros [X|[-> _]]; [|reflexivity]. apply nth_error_In in X. contradiction.
    + rewrite dget_dset_other by exact Nw. rewrite H. split; [auto|]. intros [X|[_ X]]; [exact X|congruence].
Qed.
Lemma add_word_grows d w : exists l, idx2word (add_word d w) = idx2word d ++ l.
Proof. unfold add_word. destruct dmem; [exists []; rewrite app_nil_r; reflexivity|]. eexists. reflexivity. Qed.
Lemma add_words_ok ws d : dict_ok d -> dict_ok (fold_left add_word ws d).
Proof. revert d. induction ws as [|w ws IH]; cbn; intros d H; [exact H|]. apply IH, add_word_ok, H. Qed.
Lemma add_words_grows ws d : exists l, idx2word (fold_left add_word ws d) = idx2word d ++ l.
Proof.
  revert d. induction ws as [|w ws IH]; cbn; intro d; [exists []; rewrite app_nil_r; reflexivity|].
  destruct (IH (add_word d w)) as [l E]. destruct (add_word_grows d w) as [l' E']. exists (l' ++ l). rewrite E, E', app_assoc. reflexivity.
Qed.
Lemma add_word_In d w : dict_ok d -> In w (idx2word (add_word d w)).
Proof.
  intros [N H]. unfold add_word, dmem. destruct (dget (word2idx d) w) as [i|] eqn:E.
  - apply H in E. eapply nth_error_In; exact E.
  - cbn. apply in_app_iff. right. left. reflexivity.
Qed.
Lemma add_words_In ws d w : dict_ok d -> In w ws -> In w (idx2word (fold_left add_word ws d)).
Proof.
  revert d. induction ws as [|a ws IH]; cbn; intros d H I; [easy|]. destruct I as [->|I].
  - destruct (add_words_grows ws (add_word d w)) as [l E]. rewrite E. apply in_app_iff. left. apply add_word_In, H.
  - apply IH; [apply add_word_ok, H|exact I].
Qed.
Lemma add_words_only ws d w : In w (idx2word (fold_left add_word ws d)) -> In w (idx2word d) \/ In w ws.
Proof.
  revert d. induction ws as [|a ws IH]; cbn; intros d H; [auto|].
  apply IH in H. destruct H as [H|H]; [|auto]. unfold add_word in H. destruct dmem; [auto|]. cbn in H. apply in_app_iff in H. destruct H as [H|[H|[]]]; auto.
Qed.
Lemma lookup_all d ws acc : dict_ok d -> (forall w, In w ws -> In w (idx2word d)) ->
  exists ids, foldM (fun acc w => match dget (word2idx d) w with Some i => Ok (acc ++ [i]) | None => Raise KeyError end) ws acc = Ok (acc ++ ids)
    /\ map (nth_error (idx2word d)) ids = map Some ws.
Proof.
  intros [N H]. revert acc. induction ws as [|w ws IH]; intros acc I; cbn [foldM].
  - exists []. rewrite app_nil_r. auto.
  - assert (J : In w (idx2word d)) by (apply I; left; reflexivity). apply In_nth_error in J. destruct J as [i J].
    assert (D := J). apply H in D. rewrite D. cbn [bind].
    destruct (IH (acc ++ [i])) as (ids & E & F); [intros; apply I; right; assumption|].
    exists (i :: ids). rewrite E, <- app_assoc. cbn. rewrite J, F. auto.
Qed.
Lemma tokenize_ok d file : dict_ok d -> exists d' ids, tokenize d file = Ok (d', ids) /\ dict_ok d' /\
  map (nth_error (idx2word d')) ids = map Some (text file) /\ (exists l, idx2word d' = idx2word d ++ l) /\
  (forall w, In w (idx2word d') -> In w (idx2word d) \/ In w (text file)).
Proof.
  intro H. unfold tokenize. set (d' := fold_left add_word (flat_map words file) d).
  assert (H' : dict_ok d') by (apply add_words_ok, H).
  destruct (lookup_all d' (flat_map words file) [] H') as (ids & E & F).
  { intros w I. apply add_words_In; assumption. }
  rewrite E. cbn. exists d', ids. repeat split; try apply H'; try exact F.
  - apply add_words_grows.
  - intros w I. apply add_words_only in I. exact I.
Qed.
Lemma map_nth_error_app {A} (l l' : list A) ids ws : map (nth_error l) ids = map Some ws -> map (nth_error (l ++ l')) ids = map Some ws.
Proof.
  revert ws. induction ids as [|i ids IH]; intros [|w ws] H; cbn in H; try discriminate; [reflexivity|].
  injection H as H1 H2. cbn. rewrite IH with (ws := ws) by exact H2. rewrite nth_error_app1; [rewrite H1; reflexivity|].
  apply nth_error_Some. congruence.
Qed.

(** ---------------------------------------------------------------- chunks *)
Lemma ceil_mul n b : 0 < b -> n <= (n + b - 1) / b * b < n + b.
Proof.
  intro Hb. pose proof (Nat.div_mod (n + b - 1) b ltac:(lia)). pose proof (Nat.mod_upper_bound (n + b - 1) b ltac:(lia)). nia.
Qed.
Lemma concat_chunks {A} (l : list A) b m K : m <= length l ->
  concat (map (fun k => firstn (Nat.min b (m - k * b)) (skipn (k * b) l)) (seq 0 K)) = firstn (Nat.min m (K * b)) l.
Proof.
  intro Hm. induction K as [|K IH].
  - cbn. rewrite Nat.min_0_r. reflexivity.
  - rewrite seq_S, map_app, concat_app, IH. cbn [map concat plus]. rewrite app_nil_r.
    destruct (Nat.le_gt_cases (K * b) m) as [L|G].
    + rewrite Nat.min_r by exact L.
      replace (Nat.min m (S K * b)) with (K * b + Nat.min b (m - K * b)) by (cbn [Nat.mul]; lia).
      rewrite <- (firstn_skipn (K * b) l) at 3.
      rewrite firstn_app. rewrite firstn_length_le by lia.
      replace (K * b + Nat.min b (m - K * b) - K * b) with (Nat.min b (m - K * b)) by lia.
      f_equal. rewrite firstn_firstn. f_equal. lia.
    + replace (m - K * b) with 0 by lia. rewrite Nat.min_0_r. cbn [firstn]. rewrite app_nil_r. f_equal. cbn [Nat.mul]. lia.
Qed.
Lemma skipn_skipn {A} a b (l : list A) : skipn a (skipn b l) = skipn (a + b) l.
Proof.
  revert l. induction b as [|b IH]; intro l; [rewrite Nat.add_0_r; reflexivity|].
  rewrite Nat.add_succ_r. destruct l as [|x l]; [destruct a; reflexivity|]. cbn. apply IH.
Qed.
Lemma concat_concat {A} (l : list (list (list A))) : concat (concat l) = concat (map (@concat A) l).
Proof. induction l as [|a l IH]; cbn; [reflexivity|]. rewrite concat_app, IH. reflexivity. Qed.

Section Batches.
Variable bptt : nat.
Hypothesis bptt_pos : 0 < bptt.
Variable source : list (list nat).
Let n := length source.
Let K := (n + bptt - 1) / bptt.

Definition datas := map fst (map (get_batch bptt source) (starts n bptt)).
Definition tgts := map snd (map (get_batch bptt source) (starts n bptt)).
Lemma starts_length : length (starts n bptt) = K.
Proof. unfold starts. rewrite map_length, seq_length. reflexivity. Qed.
Lemma datas_concat : concat datas = firstn (n - 1) source.
Proof.
  unfold datas, starts. rewrite !map_map. cbn [get_batch fst].
  fold n. fold K. pose proof (concat_chunks source bptt (n - 1) K ltac:(unfold n; lia)) as C.
  pose proof (ceil_mul n bptt bptt_pos) as H. fold K in H. rewrite Nat.min_l in C by lia. exact C.
Qed.
Lemma tgts_concat : concat tgts = concat (skipn 1 source).
Proof.
  unfold tgts, starts. rewrite !map_map. cbn [get_batch snd].
  rewrite <- (map_map (fun k => firstn (Nat.min bptt (length source - 1 - k * bptt)) (skipn (k * bptt + 1) source)) (@concat nat)).
  rewrite <- concat_concat. f_equal. fold n. fold K.
  transitivity (concat (map (fun k => firstn (Nat.min bptt (n - 1 - k * bptt)) (skipn (k * bptt) (skipn 1 source))) (seq 0 K))).
  - f_equal. apply map_ext. intro k. f_equal. rewrite skipn_skipn. reflexivity.
  - rewrite concat_chunks by (rewrite skipn_length; unfold n; lia).
    pose proof (ceil_mul n bptt bptt_pos). fold K in H. rewrite Nat.min_l by lia.
    apply firstn_all2. rewrite skipn_length. unfold n. lia.
Qed.
(** the lengths of the chunks *)
Lemma batch_nth k : k < K -> nth_error (map (get_batch bptt source) (starts n bptt)) k = Some (get_batch bptt source (k * bptt)).
Proof.
  intro H. unfold starts. rewrite map_map. fold K.
  rewrite nth_error_map. assert (E : nth_error (seq 0 K) k = Some k).
  { rewrite (nth_error_nth' (seq 0 K) 0) by (rewrite seq_length; exact H). rewrite seq_nth by exact H. reflexivity. }
  rewrite E. reflexivity.
Qed.
Lemma batch_length i : length (fst (get_batch bptt source i)) = Nat.min bptt (n - 1 - i).
Proof. unfold get_batch. cbn [fst]. rewrite firstn_length, skipn_length. fold n. lia. Qed.
Lemma empty_batch_iff : 0 < n -> ((exists b, In b (map (get_batch bptt source) (starts n bptt)) /\ fst b = []) <-> Nat.divide bptt (n - 1)).
Proof.
  intro Hn. pose proof (ceil_mul n bptt bptt_pos) as C. fold K in C. split.
  - intros (b & Hb & E). apply In_nth_error in Hb. destruct Hb as [k Hk].
    assert (L : k < K). { rewrite <- starts_length, <- (map_length (get_batch bptt source)). apply nth_error_Some. congruence. }
    rewrite batch_nth in Hk by exact L. injection Hk as <-.
    apply (f_equal (@length _)) in E. rewrite batch_length in E. cbn in E.
    exists k. assert (k * bptt <= (K - 1) * bptt) by (apply Nat.mul_le_mono_r; lia). nia.
  - intros [q Hq]. exists (get_batch bptt source (q * bptt)). split.
    + apply nth_error_In with (n := q). apply batch_nth. nia.
    + apply length_zero_iff_nil. rewrite batch_length. lia.
Qed.
End Batches.

(** ---------------------------------------------------------------- batchify *)
Lemma batchify_shape data bsz rows : batchify data bsz = Ok rows -> length rows = length data / bsz /\ Forall (fun r => length r = bsz) rows.
Proof.
  unfold batchify. destruct (bsz =? 0); [discriminate|]. intro H. injection H as <-. split.
  - rewrite map_length, seq_length. reflexivity.
  - apply Forall_forall. intros r Hr. apply in_map_iff in Hr. destruct Hr as (k & <- & _). rewrite map_length, seq_length. reflexivity.
Qed.
Lemma nth_error_firstn_lt {A} k (l : list A) i : i < k -> nth_error (firstn k l) i = nth_error l i.
Proof. revert l i. induction k as [|k IH]; intros [|a l] [|i] H; cbn; try lia; auto. apply IH. lia. Qed.
Lemma batchify_elem data bsz rows r c : batchify data bsz = Ok rows -> r < length data / bsz -> c < bsz ->
  exists row t, nth_error rows r = Some row /\ nth_error row c = Some t /\ nth_error data (c * (length data / bsz) + r) = Some t.
Proof.
  unfold batchify. destruct (Nat.eqb_spec bsz 0) as [->|Nb]; [discriminate|]. intros H Hr Hc. injection H as <-.
  set (nb := length data / bsz) in *.
  assert (D : nb * bsz <= length data).
  { pose proof (Nat.mul_div_le (length data) bsz Nb). fold nb in H. lia. }
  assert (I : c * nb + r < nb * bsz) by nia.
  eexists. exists (nth (c * nb + r) (firstn (nb * bsz) data) 0). split; [|split].
  - rewrite nth_error_map. assert (E : nth_error (seq 0 nb) r = Some r).
    { rewrite (nth_error_nth' (seq 0 nb) 0) by (rewrite seq_length; exact Hr). rewrite seq_nth by exact Hr. reflexivity. }
    rewrite E. reflexivity.
  - rewrite nth_error_map. assert (E : nth_error (seq 0 bsz) c = Some c).
    { rewrite (nth_error_nth' (seq 0 bsz) 0) by (rewrite seq_length; exact Hc). rewrite seq_nth by exact Hc. reflexivity. }
    rewrite E. reflexivity.
  - rewrite <- nth_error_firstn_lt with (k := nb * bsz) by exact I. apply nth_error_nth'. rewrite firstn_length. lia.
Qed.

(** ---------------------------------------------------------------- evaluation *)
Lemma qsum_app a b : (qsum (a ++ b) == qsum a + qsum b)%Q.
Proof. unfold qsum. induction a as [|x a IH]; cbn [app fold_right]; [ring|]. rewrite IH. ring. Qed.

Lemma inject_mul a b : (inject_Z (Z.of_nat (a * b)) == inject_Z (Z.of_nat a) * inject_Z (Z.of_nat b))%Q.
Proof. rewrite Nat2Z.inj_mul, inject_Z_mult. reflexivity. Qed.
Lemma inject_pos a : 0 < a -> ~ (inject_Z (Z.of_nat a) == 0)%Q.
Proof. intros H E. unfold Qeq, inject_Z in E. cbn in E. lia. Qed.
Lemma map2_app_eq {A B C} (f : A -> B -> C) a1 b1 a2 b2 : length a1 = length b1 -> map2 f (a1 ++ a2) (b1 ++ b2) = map2 f a1 b1 ++ map2 f a2 b2.
Proof. revert b1. induction a1 as [|x a1 IH]; intros [|y b1] H; cbn in *; try discriminate; [reflexivity|]. f_equal. apply IH. lia. Qed.

Section Net.
Variables St Out : Type.
Variable net : St -> list nat -> list Out * St.
Variable loss : Out -> nat -> Q.
Variable bsz : nat.
Hypothesis bsz_pos : 0 < bsz.
Hypothesis net_width : forall h r, length r = bsz -> length (fst (net h r)) = bsz.

(** the losses of rows against rows *)
Fixpoint pair_loss (h : St) (rows tgts : list (list nat)) : Q :=
  match rows, tgts with
  | r :: rows', t :: tgts' => (qsum (map2 loss (fst (net h r)) t) + pair_loss (snd (net h r)) rows' tgts')%Q
  | _, _ => 0%Q
  end.
Definition after (h : St) (rows : list (list nat)) : St := snd (run net h rows).
Lemma run_cons h r rows : run net h (r :: rows) = (fst (net h r) :: fst (run net (snd (net h r)) rows), snd (run net (snd (net h r)) rows)).
Proof. cbn [run]. destruct (net h r) as [o h1]. cbn. destruct (run net h1 rows). reflexivity. Qed.
Lemma run_loss h rows tgts : Forall (fun r => length r = bsz) rows -> Forall (fun r => length r = bsz) tgts -> length rows = length tgts ->
  (qsum (map2 loss (concat (fst (run net h rows))) (concat tgts)) == pair_loss h rows tgts)%Q.
Proof.
  revert h tgts. induction rows as [|r rows IH]; intros h [|t tgts] F G L; cbn in L; try discriminate; [reflexivity|].
  pose proof (Forall_inv F) as F1. pose proof (Forall_inv_tail F) as F2. pose proof (Forall_inv G) as G1. pose proof (Forall_inv_tail G) as G2. cbn beta in F1, G1.
  rewrite run_cons. cbn [fst concat pair_loss].
  rewrite map2_app_eq by (rewrite net_width; congruence). rewrite qsum_app, IH by (assumption || lia). reflexivity.
Qed.
Lemma pair_loss_app h r1 t1 r2 t2 : length r1 = length t1 -> (pair_loss h (r1 ++ r2) (t1 ++ t2) == pair_loss h r1 t1 + pair_loss (after h r1) r2 t2)%Q.
Proof.
  revert h t1. induction r1 as [|r r1 IH]; intros h [|t t1] L; cbn in L; try discriminate.
  - cbn. ring.
  - cbn [app pair_loss]. rewrite IH by lia. unfold after. rewrite run_cons. cbn [snd]. ring.
Qed.
Lemma pair_loss_total h rows : (pair_loss h (firstn (length rows - 1) rows) (skipn 1 rows) == total_loss net loss h rows)%Q.
Proof.
  revert h. induction rows as [|r [|r' rows] IH]; intro h; [reflexivity|reflexivity|].
  replace (length (r :: r' :: rows) - 1) with (S (length (r' :: rows) - 1)) by (cbn; lia).
  cbn [firstn skipn pair_loss]. cbn [skipn] in IH. cbn [total_loss].
  specialize (IH (snd (net h r))). cbn [skipn] in IH. rewrite <- IH. reflexivity.
Qed.
Lemma concat_length_const (l : list (list nat)) : Forall (fun r => length r = bsz) l -> length (concat l) = length l * bsz.
Proof. induction 1 as [|r l E F IH]; cbn; [reflexivity|]. rewrite app_length, E, IH. reflexivity. Qed.

(** one chunk (rows of targets) *)
Lemma chunk_total h data tg : data <> [] -> Forall (fun r => length r = bsz) data -> Forall (fun r => length r = bsz) tg -> length data = length tg ->
  (inject_Z (Z.of_nat (length data)) * criterion loss (concat (fst (run net h data))) (concat tg) == pair_loss h data tg / inject_Z (Z.of_nat bsz))%Q.
Proof.
  intros Ne F G L. unfold criterion. rewrite run_loss by assumption. rewrite concat_length_const by exact G. rewrite inject_mul.
  rewrite L. field. split; apply inject_pos; [exact bsz_pos|]. destruct tg; [destruct data; [congruence|discriminate]|cbn; lia].
Qed.
(** chunks given by rows *)
Lemma eval_chunks (chunks : list (list (list nat) * list (list nat))) : forall h total,
  Forall (fun p => fst p <> [] /\ Forall (fun r => length r = bsz) (fst p) /\ Forall (fun r => length r = bsz) (snd p) /\ length (fst p) = length (snd p)) chunks ->
  exists v, eval_loop net loss (map (fun p => (fst p, concat (snd p))) chunks) h total = Ok v /\
    (v == total + pair_loss h (concat (map fst chunks)) (concat (map snd chunks)) / inject_Z (Z.of_nat bsz))%Q.
Proof.
  induction chunks as [|[d t] chunks IH]; intros h total H.
  - exists total. split; [reflexivity|]. cbn. field. apply inject_pos. exact bsz_pos.
  - inversion H as [|? ? (Ne & F & G & L) H']; subst. cbn [fst snd] in *. cbn [map eval_loop fst snd concat].
    destruct d as [|r0 d0] eqn:Ed; [congruence|]. rewrite <- Ed in *.
    assert (E : model_call net d h = Ok (run net h d)) by (rewrite Ed; reflexivity).
    rewrite E. cbn [bind]. destruct (run net h d) as [o h'] eqn:R.
    destruct (IH h' (total + inject_Z (Z.of_nat (length d)) * criterion loss (concat o) (concat t))%Q H') as (v & Ev & Hv).
    exists v. split; [exact Ev|]. rewrite Hv. rewrite pair_loss_app by exact L.
    assert (X := chunk_total h d t ltac:(congruence) F G L). rewrite R in X. cbn [fst] in X. rewrite X.
    unfold after. rewrite R. cbn [snd]. field. apply inject_pos. exact bsz_pos.
Qed.
Lemma eval_loop_empty batches h total : (exists b, In b batches /\ fst b = []) -> eval_loop net loss batches h total = Raise RuntimeError.
Proof.
  revert h total. induction batches as [|[d t] batches IH]; intros h total (b & Hb & E); [easy|].
  cbn [eval_loop]. destruct d as [|r d]; [reflexivity|]. unfold model_call. cbn [bind].
  destruct (run net h (r :: d)) as [o h']. apply IH. destruct Hb as [<-|Hb]; [discriminate|]. exists b. auto.
Qed.

Lemma evaluate_empty init bptt source : 0 < bptt -> source <> [] -> Nat.divide bptt (length source - 1) ->
  evaluate net loss init bptt source = Raise RuntimeError.
Proof.
  clear net_width bsz_pos. intros Hb Hs Hd. unfold evaluate. destruct (Nat.eqb_spec bptt 0) as [|Nb0]; [lia|].
  rewrite eval_loop_empty; [reflexivity|]. apply empty_batch_iff; [exact Hb| |exact Hd]. destruct source; [congruence|cbn; lia].
Qed.
Lemma Forall_firstn' {A} (P : A -> Prop) k l : Forall P l -> Forall P (firstn k l).
Proof. intro H. apply Forall_forall. intros x Hx. rewrite Forall_forall in H. apply H. rewrite <- (firstn_skipn k l). apply in_app_iff. auto. Qed.
Lemma Forall_skipn' {A} (P : A -> Prop) k l : Forall P l -> Forall P (skipn k l).
Proof. intro H. apply Forall_forall. intros x Hx. rewrite Forall_forall in H. apply H. rewrite <- (firstn_skipn k l). apply in_app_iff. auto. Qed.
Lemma evaluate_value init bptt source : 0 < bptt -> source <> [] -> Forall (fun r => length r = bsz) source -> ~ Nat.divide bptt (length source - 1) ->
  exists v, evaluate net loss init bptt source = Ok v /\
    (v == total_loss net loss init source / (inject_Z (Z.of_nat bsz) * inject_Z (Z.of_nat (length source))))%Q.
Proof.
  intros Hb Hs Hw Hd. unfold evaluate. destruct (Nat.eqb_spec bptt 0) as [|Nb0]; [lia|].
  set (n := length source) in *. assert (Hn : 0 < n) by (unfold n; destruct source; [congruence|cbn; lia]).
  set (chunk := fun i => (firstn (Nat.min bptt (n - 1 - i)) (skipn i source), firstn (Nat.min bptt (n - 1 - i)) (skipn (i + 1) source))).
  assert (E : map (get_batch bptt source) (starts n bptt) = map (fun p => (fst p, concat (snd p))) (map chunk (starts n bptt))).
  { rewrite map_map. apply map_ext. intro i. reflexivity. }
  destruct (eval_chunks (map chunk (starts n bptt)) init 0%Q) as (v & Ev & Hv).
  { apply Forall_forall. intros p Hp. split; [|split; [|split]].
    - intro X. apply Hd. apply (empty_batch_iff bptt Hb source); [exact Hn|]. fold n. exists (fst p, concat (snd p)). split; [|exact X].
      rewrite E. apply in_map_iff. exists p. auto.
    - apply in_map_iff in Hp. destruct Hp as (i & <- & _). apply Forall_firstn', Forall_skipn', Hw.
    - apply in_map_iff in Hp. destruct Hp as (i & <- & _). apply Forall_firstn', Forall_skipn', Hw.
    - apply in_map_iff in Hp. destruct Hp as (i & <- & _). unfold chunk. cbn [fst snd]. rewrite !firstn_length, !skipn_length. fold n. lia. }
  assert (D : concat (map fst (map chunk (starts n bptt))) = firstn (n - 1) source).
  { unfold n. rewrite <- (datas_concat bptt Hb source). unfold datas. fold n. rewrite !map_map. reflexivity. }
  assert (T : concat (map snd (map chunk (starts n bptt))) = skipn 1 source).
  { unfold starts. rewrite !map_map. cbn [snd chunk].
    transitivity (concat (map (fun k => firstn (Nat.min bptt (n - 1 - k * bptt)) (skipn (k * bptt) (skipn 1 source))) (seq 0 ((n + bptt - 1) / bptt)))).
    - f_equal. apply map_ext. intro k. rewrite skipn_skipn. reflexivity.
    - rewrite concat_chunks by (rewrite skipn_length; fold n; lia).
      pose proof (ceil_mul n bptt Hb). rewrite Nat.min_l by lia. apply firstn_all2. rewrite skipn_length. fold n. lia. }
  rewrite E, Ev. cbn [bind]. rewrite D, T in Hv. unfold n in Hv at 1. rewrite pair_loss_total in Hv.
  exists (v / inject_Z (Z.of_nat n))%Q. split; [unfold n; destruct source; [congruence|reflexivity]|].
  rewrite Hv. field. split; apply inject_pos; lia.
Qed.
End Net.

(** ---------------------------------------------------------------- reports *)
Lemma mod_dist m q r : 0 < m -> r < m -> (q * m + r) mod m = r.
Proof. intros Hm Hr. rewrite Nat.add_comm, Nat.mod_add by lia. apply Nat.mod_small. exact Hr. Qed.
Lemma report_window m : 0 < m -> forall r losses q total, r < m ->
  (r < length losses -> exists v, report m (q * m + (m - r)) total losses = ((q + 1) * m, v) :: report m ((q + 1) * m + 1) 0%Q (skipn (r + 1) losses) /\
      (v == (total + qsum (firstn (r + 1) losses)) / inject_Z (Z.of_nat m))%Q) /\
  (length losses <= r -> report m (q * m + (m - r)) total losses = []).
Proof.
  intro Hm. induction r as [|r IH]; intros losses q total Hr.
  - replace (q * m + (m - 0)) with ((q + 1) * m) by lia. split.
    + destruct losses as [|l rest]; cbn [length]; [lia|]. intros _. cbn [report].
      rewrite Nat.mod_mul by lia. destruct (Nat.ltb_spec 0 ((q + 1) * m)) as [_|L]; [|nia]. cbn [Nat.eqb andb].
      replace (S ((q + 1) * m)) with ((q + 1) * m + 1) by lia. eexists. split; [reflexivity|]. cbn. unfold Qdiv. ring.
    + destruct losses; cbn [length]; [reflexivity|lia].
  - destruct losses as [|l rest]; cbn [length].
    { split; [lia|reflexivity]. }
    cbn [report].
    replace (q * m + (m - S r)) with (q * m + (m - S r)) by reflexivity.
    assert (E : (q * m + (m - S r)) mod m = m - S r) by (apply mod_dist; lia).
    rewrite E. destruct (Nat.eqb_spec (m - S r) 0) as [X|_]; [lia|]. cbn [andb].
    replace (S (q * m + (m - S r))) with (q * m + (m - r)) by lia.
    destruct (IH rest q (total + l)%Q ltac:(lia)) as [I1 I2]. split.
    + intro L. destruct (I1 ltac:(lia)) as (v & Ev & Hv). exists v. split.
      * rewrite Ev. reflexivity.
      * rewrite Hv. replace (S r + 1) with (S (r + 1)) by lia. cbn [firstn qsum fold_right]. unfold qsum. field. apply inject_pos. exact Hm.
    + intro L. apply I2. lia.
Qed.
Lemma report_entries m : 0 < m -> forall N losses q total, length losses <= N ->
  length (report m (q * m + 1) total losses) = length losses / m /\
  forall j b v, nth_error (report m (q * m + 1) total losses) j = Some (b, v) ->
    b = (q + 1 + j) * m /\
    (v == ((if j =? 0 then total else 0) + qsum (firstn m (skipn (j * m) losses))) / inject_Z (Z.of_nat m))%Q.
Proof.
  intro Hm. induction N as [|N IH]; intros losses q total L.
  { destruct losses; cbn in L; [|lia]. cbn. rewrite Nat.div_0_l by lia. split; [reflexivity|]. intros [|j]; discriminate. }
  destruct (report_window m Hm (m - 1) losses q total ltac:(lia)) as [I1 I2].
  replace (q * m + (m - (m - 1))) with (q * m + 1) in I1, I2 by lia. replace (m - 1 + 1) with m in I1 by lia.
  destruct (Nat.lt_ge_cases (m - 1) (length losses)) as [G|G].
  - destruct (I1 G) as (v & Ev & Hv). rewrite Ev.
    destruct (IH (skipn m losses) (q + 1) 0%Q) as [J1 J2]. { rewrite skipn_length. lia. }
    split.
    + cbn [length]. rewrite J1, skipn_length. replace (length losses) with (length losses - m + 1 * m) at 2 by lia. rewrite Nat.div_add by lia. lia.
    + intros [|j] b v' H; cbn [nth_error] in H.
      * injection H as <- <-. split; [lia|]. cbn [Nat.eqb Nat.mul skipn]. exact Hv.
      * apply J2 in H. destruct H as [Hb Hv']. split; [lia|]. rewrite Hv'. rewrite skipn_skipn. cbn [Nat.eqb].
        replace (j * m + m) with (S j * m) by lia. destruct (j =? 0); reflexivity.
  - rewrite (I2 G). split.
    + rewrite Nat.div_small by lia. reflexivity.
    + intros [|j]; discriminate.
Qed.
Lemma train_report_spec m losses entries : 0 < m -> train_report m losses = Ok entries ->
  length entries = (length losses - 1) / m /\
  forall j b v, nth_error entries j = Some (b, v) ->
    b = (j + 1) * m /\
    (v == if j =? 0 then qsum (firstn (m + 1) losses) / inject_Z (Z.of_nat m) else mean_of losses (j * m + 1) m)%Q.
Proof.
  intros Hm H. unfold train_report in H. destruct losses as [|l losses].
  - injection H as <-. cbn. rewrite Nat.div_0_l by lia. split; [reflexivity|]. intros [|j]; discriminate.
  - destruct (Nat.eqb_spec m 0); [lia|]. cbn [report] in H. rewrite Nat.mod_0_l in H by lia. cbn [Nat.eqb Nat.ltb Nat.leb andb] in H. injection H as <-.
    destruct (report_entries m Hm (length losses) losses 0 (0 + l)%Q ltac:(lia)) as [H1 H2]. cbn [Nat.mul plus] in H1, H2.
    split; [rewrite H1; cbn [length]; f_equal; lia|].
    intros j b v Hj. apply H2 in Hj. destruct Hj as [Hb Hv]. split; [lia|]. rewrite Hv.
    destruct j as [|j]; cbn [Nat.eqb].
    + rewrite (Nat.add_comm m 1). cbn [plus Nat.mul skipn firstn qsum fold_right]. unfold qsum. field. apply inject_pos. exact Hm.
    + unfold mean_of. rewrite (Nat.add_comm (S j * m) 1). cbn [plus skipn]. field. apply inject_pos. exact Hm.
Qed.

(** ---------------------------------------------------------------- files *)
Section Files.
Variable M : Type.
Implicit Types epochs : list (M * option Q).
Lemma training_app (s : fsys M) a b : training s (a ++ b) = training (training s a) b.
Proof. apply fold_left_app. Qed.
Definition is_save (a : action M) : bool := match a with SaveLast _ => true | _ => false end.
Lemma prefix_cases epochs : forall b (s : fsys M) p rest, actions epochs b = p ++ rest ->
  p = [] \/ (exists q, p = q ++ [OpenLast]) \/
  (exists k m v, nth_error epochs k = Some (m, v) /\ last (training s p) = Some (Saved m) /\ length (filter is_save p) = S k).
Proof.
  induction epochs as [|[m v] epochs IH]; intros b s p rest H.
  { cbn in H. symmetry in H. apply app_eq_nil in H. left. apply H. }
  destruct p as [|a1 p]; [left; reflexivity|right].
  cbn [actions] in H. destruct (better v b).
  - cbn [app] in H. assert (a1 = OpenLast) by congruence. subst a1. apply (f_equal (@tl _)) in H. cbn [tl app] in H.
    destruct p as [|a2 p]; [left; exists []; reflexivity|]. cbn [app] in H. assert (a2 = SaveLast m) by congruence. subst a2.
    apply (f_equal (@tl _)) in H. cbn [tl] in H.
    destruct p as [|a3 p]; [right; exists 0, m, v; auto|]. cbn [app] in H. assert (a3 = OpenBest) by congruence. subst a3.
    apply (f_equal (@tl _)) in H. cbn [tl] in H.
    destruct p as [|a4 p]; [right; exists 0, m, v; auto|]. cbn [app] in H. assert (a4 = SaveBest m) by congruence. subst a4.
    apply (f_equal (@tl _)) in H. cbn [tl] in H.
    destruct (IH v (training s [OpenLast; SaveLast m; OpenBest; SaveBest m]) p rest H) as [->|[[q ->]|(k & m' & v' & E1 & E2 & E3)]].
    + right. exists 0, m, v. auto.
    + left. exists ([OpenLast; SaveLast m; OpenBest; SaveBest m] ++ q). reflexivity.
    + right. exists (S k), m', v'. split; [exact E1|]. split; [exact E2|]. cbn [filter is_save length]. rewrite E3. reflexivity.
  - cbn [app] in H. assert (a1 = OpenLast) by congruence. subst a1. apply (f_equal (@tl _)) in H. cbn [tl app] in H.
    destruct p as [|a2 p]; [left; exists []; reflexivity|]. cbn [app] in H. assert (a2 = SaveLast m) by congruence. subst a2.
    apply (f_equal (@tl _)) in H. cbn [tl] in H.
    destruct (IH b (training s [OpenLast; SaveLast m]) p rest H) as [->|[[q ->]|(k & m' & v' & E1 & E2 & E3)]].
    + right. exists 0, m, v. auto.
    + left. exists ([OpenLast; SaveLast m] ++ q). reflexivity.
    + right. exists (S k), m', v'. split; [exact E1|]. split; [exact E2|]. cbn [filter is_save length]. rewrite E3. reflexivity.
Qed.
Lemma last_of_all epochs : forall b (s : fsys M) m v, nth_error epochs (length epochs - 1) = Some (m, v) -> last (training s (actions epochs b)) = Some (Saved m).
Proof.
  induction epochs as [|[m0 v0] epochs IH]; intros b s m v H; [discriminate|].
  destruct epochs as [|e epochs].
  - cbn in H. injection H as <- <-. cbn. destruct better; reflexivity.
  - replace (length ((m0, v0) :: e :: epochs) - 1) with (S (length (e :: epochs) - 1)) in H by (cbn; lia). cbn [nth_error] in H.
    change (actions ((m0, v0) :: e :: epochs) b) with
      (if better v0 b then [OpenLast; SaveLast m0; OpenBest; SaveBest m0] ++ actions (e :: epochs) v0 else [OpenLast; SaveLast m0] ++ actions (e :: epochs) b).
    destruct (better v0 b); rewrite training_app; eapply IH; exact H.
Qed.
Lemma best_of_all epochs : forall b (s : fsys M),
  (best (training s (actions epochs b)) = best s /\ forall i m v, nth_error epochs i = Some (m, v) -> better v b = false) \/
  (exists k m x, nth_error epochs k = Some (m, Some x) /\ best (training s (actions epochs b)) = Some (Saved m) /\ better (Some x) b = true /\
     (forall i m' y, i < k -> nth_error epochs i = Some (m', Some y) -> (x < y)%Q) /\
     (forall i m' y, nth_error epochs i = Some (m', Some y) -> (x <= y)%Q)).
Proof.
  induction epochs as [|[m v] epochs IH]; intros b s.
  { left. split; [reflexivity|]. intros [|i]; discriminate. }
  cbn [actions]. destruct (better v b) eqn:B.
  - right. destruct v as [x|]; [|discriminate]. rewrite training_app.
    set (s1 := training s [OpenLast; SaveLast m; OpenBest; SaveBest m]).
    destruct (IH (Some x) s1) as [[E N]|(k & m' & y & E1 & E2 & E3 & E4 & E5)].
    + exists 0, m, x. split; [reflexivity|]. split; [rewrite E; reflexivity|]. split; [exact B|]. split; [intros; lia|].
      intros [|i] m' y H; cbn in H.
      * injection H as <- <-. apply Qle_refl.
      * specialize (N i m' (Some y) H). cbn in N. apply negb_false_iff, Qle_bool_iff in N. exact N.
    + exists (S k), m', y. cbn in E3. apply negb_true_iff in E3.
      assert (L : (y < x)%Q). { apply Qnot_le_lt. intro C. apply Qle_bool_iff in C. congruence. }
      split; [exact E1|]. split; [exact E2|]. split; [|split].
      * cbn. destruct b as [z|]; [|reflexivity]. cbn in B. apply negb_true_iff. apply negb_true_iff in B.
        destruct (Qle_bool z y) eqn:Z; [|reflexivity]. apply Qle_bool_iff in Z.
        assert (X : Qle_bool z x = true) by (apply Qle_bool_iff; eapply Qle_trans; [exact Z|apply Qlt_le_weak; exact L]). congruence.
      * intros [|i] m2 z Hi H; cbn in H; [injection H as <- <-; exact L|]. eapply E4; [|exact H]. lia.
      * intros [|i] m2 z H; cbn in H; [injection H as <- <-; apply Qlt_le_weak; exact L|]. eapply E5; exact H.
  - rewrite training_app. set (s1 := training s [OpenLast; SaveLast m]).
    destruct (IH b s1) as [[E N]|(k & m' & y & E1 & E2 & E3 & E4 & E5)].
    + left. split; [rewrite E; reflexivity|]. intros [|i] m' w H; cbn in H; [congruence|]. eapply N; exact H.
    + right. exists (S k), m', y. split; [exact E1|]. split; [exact E2|]. split; [exact E3|].
      assert (F : forall z, v = Some z -> (y < z)%Q).
      { intros z ->. cbn in B, E3. destruct b as [u|]; [|discriminate]. apply negb_false_iff, Qle_bool_iff in B. apply negb_true_iff in E3.
        apply Qlt_le_trans with u; [|exact B]. apply Qnot_le_lt. intro C. apply Qle_bool_iff in C. congruence. }
      split.
      * intros [|i] m2 z Hi H; cbn in H; [injection H as _ H; apply F; exact H|]. eapply E4; [|exact H]. lia.
      * intros [|i] m2 z H; cbn in H; [injection H as _ H; apply Qlt_le_weak, F; exact H|]. eapply E5; exact H.
Qed.
End Files.
