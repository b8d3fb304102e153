(** C119: translating a batch of sentences (examples/GNMT, greedy search). *)
From Coq Require Import String List Arith Bool Lia Permutation Sorted.
From Verif Require Import Base SmpModel SmpSpec SmpProofs PropertiesSmp GenModel GenSpec GenProofs.
Import ListNotations.
Open Scope list_scope.
Open Scope nat_scope.

Lemma list_ext {A} (a : list A) : forall b, (forall i, nth_error a i = nth_error b i) -> a = b.
Proof.
  induction a as [|x a IH]; intros [|y b] F; [reflexivity|specialize (F 0); discriminate|specialize (F 0); discriminate|].
  pose proof (F 0) as F0. cbn in F0. injection F0 as ->. f_equal. apply IH. intro i. exact (F (S i)).
Qed.
(** greedy_search over a batch does to every sentence what it does to it alone: row i is BOS, the words of sentence i and
    zeros; its length counts BOS and the words (EOS too); the loop turns as often as the longest needs *)
Theorem C119_greedy : forall (E H : Type) (step : E -> nat -> option H -> nat -> nat * H) generate m rows hid, independent step generate -> 0 < m -> hiddens rows hid ->
  exists tr lens, greedy_search generate m (length rows) (map r_word rows) (map r_enc rows, map r_len rows, hid) =
      Ok (tr, lens, list_max (map (fun r => length (decode step (m - 1) (r_enc r) (r_len r) (r_hid r) (r_word r))) rows)) /\
    length tr = length rows /\ length lens = length rows /\
    forall i r, nth_error rows i = Some r -> let ws := decode step (m - 1) (r_enc r) (r_len r) (r_hid r) (r_word r) in
      nth_error tr i = Some (BOS :: ws ++ repeat 0 (m - 1 - length ws)) /\ nth_error lens i = Some (1 + length ws).
Proof.
  intros E H step generate m rows hid Hi Hm Hh. unfold greedy_search. destruct (Nat.eqb_spec m 0) as [Z|_]; [lia|].
  set (st := combine (seq 0 (length rows)) rows).
  assert (Gs : forall (l : list (@srow E H)) k, map snd (combine (seq k (length l)) l) = l /\ map fst (combine (seq k (length l)) l) = seq k (length l)).
  { induction l as [|x l IH]; intro k; [auto|]. cbn [length seq combine map fst snd]. destruct (IH (S k)) as [A B]. rewrite A, B. auto. }
  destruct (Gs rows 0) as [Es Ef]. fold st in Es, Ef.
  set (s0 := mkGs _ _ _ _ _ _ _ _).
  assert (R0 : repr st s0) by (unfold repr, s0; cbn [g_active g_words g_enc g_elen g_hid]; rewrite Es, Ef; repeat split; exact Hh).
  assert (Ls : length st = length rows) by (rewrite <- (map_length snd), Es; reflexivity).
  destruct (loop_ok step generate Hi (length rows) (m - 1) 1 st s0 R0) as (s1 & E1 & LT & LL & _ & P & C); [lia|rewrite Ef; apply seq_NoDup|].
  rewrite E1. cbn [bind]. exists (g_tr s1), (g_len s1).
  assert (D : forall ir, dec step (m - 1) ir = decode step (m - 1) (r_enc (snd ir)) (r_len (snd ir)) (r_hid (snd ir)) (r_word (snd ir))) by (intros (i & ((e & l) & h) & w); reflexivity).
  split; [|split; [rewrite LT; cbn; apply repeat_length|split; [rewrite LL; cbn; apply repeat_length|]]].
  - rewrite C. cbn [g_counter s0 Nat.add]. do 2 f_equal. transitivity (list_max (map (fun r => length (decode step (m - 1) (r_enc r) (r_len r) (r_hid r) (r_word r))) (map snd st))); [|rewrite Es; reflexivity]. rewrite map_map. f_equal. apply map_ext. intro ir. rewrite D. reflexivity.
  - intros i r Hr. cbn zeta.
    assert (I : In (i, r) st).
    { unfold st. assert (G : forall (l : list (@srow E H)) k j, nth_error l j = Some r -> In (k + j, r) (combine (seq k (length l)) l)).
      { induction l as [|x l IH]; intros k j Hj; [destruct j; discriminate|]. destruct j as [|j]; cbn [length seq combine]; cbn in Hj.
        - injection Hj as ->. left. rewrite Nat.add_0_r. reflexivity.
        - right. replace (k + S j) with (S k + j) by lia. apply IH. exact Hj. }
      exact (G rows 0 i Hr). }
    destruct (P _ I) as [A B]. cbn [fst] in A, B. rewrite D in A, B. cbn [snd] in A, B. rewrite A, B. cbn [g_tr g_len s0].
    assert (Hl : i < length rows) by (apply nth_error_Some; congruence).
    rewrite !nth_error_repeat by exact Hl. cbn [option_map]. split; [|reflexivity]. f_equal.
    destruct m as [|m]; [lia|]. cbn [repeat upd]. replace (S m - 1) with m by lia.
    exact (writes_zeros (decode step m (r_enc r) (r_len r) (r_hid r) (r_word r)) [BOS] m (decode_length step m _ _ _ _)).
Qed.

(** the batch of the sentences: longest first, padded, with the order *)
Theorem C119_padded : forall seqs, seqs <> [] -> exists rows indices,
  batch_padded seqs = Ok (rows, map (fun i => length (nth i seqs [])) indices, indices) /\
  Permutation indices (seq 0 (length seqs)) /\ StronglySorted (fun i j => length (nth j seqs []) <= length (nth i seqs [])) indices /\
  forall k i, nth_error indices k = Some i ->
    column k PAD rows = nth i seqs [] ++ repeat PAD (list_max (map (@length nat) seqs) - length (nth i seqs [])).
Proof.
  intros seqs Ne. destruct (batch_padded_ok seqs Ne) as (rows & indices & B & P & C & S). exists rows, indices. repeat split; auto.
  intros k i Hk. assert (X : map (fun i => nth i seqs []) indices <> []) by (intro X; apply map_eq_nil in X; subst; destruct k; discriminate).
  destruct (C117_collate_seq _ X) as (rows' & C' & F). rewrite C in C'. injection C' as <- _. specialize (F k). rewrite map_length in F.
  rewrite F by (apply nth_error_Some; congruence).
  assert (N : nth k (map (fun i => nth i seqs []) indices) [] = nth i seqs []).
  { apply nth_error_nth. rewrite nth_error_map, Hk. reflexivity. }
  rewrite N. do 3 f_equal.
  assert (M : forall a b, Permutation a b -> list_max a = list_max b) by (unfold list_max; induction 1; cbn [fold_right]; lia).
  apply M, Permutation_map. eapply Permutation_trans; [apply Permutation_map; exact P|].
  assert (Id : forall (l : list (list nat)), map (fun i => nth i l []) (seq 0 (length l)) = l).
  { induction l as [|x l IH]; [reflexivity|]. cbn [length seq map nth]. f_equal. rewrite <- seq_shift, map_map. exact IH. }
  rewrite Id. apply Permutation_refl.
Qed.

(** the words that the network gives for a sentence of the numbers [s] alone *)
Definition alone {E H} (step : E -> nat -> option H -> nat -> nat * H) (enc1 : list nat -> E) (m : nat) (s : list nat) : list nat :=
  decode step (m - 1) (enc1 s) (length s) None BOS.
(** translating: the i-th translation is that of the i-th sentence, and it is what the network gives for it alone, without
    the last word; the statistics *)
Theorem C119_translate : forall (E H T : Type) (step : E -> nat -> option H -> nat -> nat * H) generate encode enc1 (detok : list nat -> T) m sents,
  independent step generate -> encodes encode enc1 -> 0 < m -> sents <> [] ->
  translate generate encode detok m sents =
    Ok (map (fun s => detok (removelast (alone step enc1 m s))) sents,
        (list_max (map (fun s => length (alone step enc1 m s)) sents), list_sum (map (@length nat) sents),
         list_sum (map (fun s => 1 + length (alone step enc1 m s)) sents))).
Proof.
  intros E H T step generate encode enc1 detok m sents Hi He Hm Ne. unfold translate.
  destruct (batch_padded_ok sents Ne) as (rows & indices & B & P & C & _). rewrite B. cbn [bind]. clear B.
  rewrite (He _ _ _ C). set (ss := map (fun i => nth i sents []) indices). fold ss in C.
  set (rs := @map (list nat) (@srow E H) (fun s => (enc1 s, length s, @None H, BOS)) ss).
  assert (Ps : Permutation ss sents).
  { unfold ss. eapply Permutation_trans; [apply Permutation_map; exact P|].
    assert (Id : forall (l : list (list nat)), map (fun i => nth i l []) (seq 0 (length l)) = l).
    { induction l as [|x l IH]; [reflexivity|]. cbn [length seq map nth]. f_equal. rewrite <- seq_shift, map_map. exact IH. }
    rewrite Id. apply Permutation_refl. }
  assert (Lr : length rs = length sents) by (unfold rs; rewrite map_length; apply Permutation_length; exact Ps).
  destruct (C119_greedy E H step generate m rs None Hi Hm) as (tr & lens & G & Lt & Ll & F).
  { constructor. unfold rs. apply Forall_forall. intros r I. apply in_map_iff in I. destruct I as (s & <- & _). reflexivity. }
  assert (Q1 : map r_word rs = repeat BOS (length sents)).
  { rewrite <- Lr. unfold rs. rewrite map_map, map_length. cbn. generalize ss. clear. induction ss as [|x l IH]; [reflexivity|]. cbn. f_equal. exact IH. }
  assert (Q2 : map r_enc rs = map enc1 ss) by (unfold rs; rewrite map_map; reflexivity).
  assert (Q3 : map r_len rs = map (fun i => length (nth i sents [])) indices) by (unfold rs, ss; rewrite !map_map; reflexivity).
  rewrite Q1, Q2, Q3, Lr in G. rewrite G. cbn [bind]. clear G.
  assert (Eo : map (fun pl => detok (cut_pred (fst pl) (snd pl))) (combine tr lens) = map (fun s => detok (removelast (alone step enc1 m s))) ss /\
               lens = map (fun s => 1 + length (alone step enc1 m s)) ss).
  { assert (F' : forall i s, nth_error ss i = Some s -> let ws := alone step enc1 m s in
      nth_error tr i = Some (BOS :: ws ++ repeat 0 (m - 1 - length ws)) /\ nth_error lens i = Some (1 + length ws)).
    { intros i s Hs. apply (F i (enc1 s, length s, None, BOS)). unfold rs. rewrite nth_error_map, Hs. reflexivity. }
    rewrite Lr, <- (Permutation_length Ps) in Lt, Ll. clear - F' Lt Ll. revert tr lens Lt Ll F'.
    induction ss as [|s l IH]; intros [|t tr] [|n lens] Lt Ll F'; try discriminate; [auto|].
    destruct (F' 0 s eq_refl) as [A B]. cbn [nth_error] in A, B. injection A as ->. injection B as ->.
    destruct (IH tr lens) as [I1 I2]; [injection Lt; auto|injection Ll; auto|intros i s' Hs; apply (F' (S i)); exact Hs|].
    cbn [combine map fst snd]. rewrite I1, <- I2. split; [|reflexivity]. f_equal. f_equal. unfold cut_pred. cbn [Nat.sub].
    generalize (alone step enc1 m s) (m - 1 - length (alone step enc1 m s)). clear. intros ws k. rewrite Nat.sub_0_r.
    destruct ws as [|w ws _] using rev_ind; [reflexivity|]. rewrite removelast_last, app_length, Nat.add_1_r. cbn [firstn skipn].
    rewrite <- app_assoc, firstn_app, Nat.sub_diag, firstn_all, app_nil_r. reflexivity. }
  destruct Eo as [Eo El]. rewrite Eo. 
  assert (Lo : length (map (fun s => detok (removelast (alone step enc1 m s))) ss) = length sents) by (rewrite map_length; apply Permutation_length; exact Ps).
  destruct (C117_unsort T indices (map (fun s => detok (removelast (alone step enc1 m s))) ss)) as (out & U & Lu & Fu); [rewrite Lo; exact P|].
  rewrite U. cbn [bind]. f_equal. f_equal; [|f_equal; [f_equal|]].
  - apply list_ext. intro i. rewrite nth_error_map. destruct (nth_error sents i) as [s|] eqn:Es.
    + assert (I : In i indices).
      { eapply Permutation_in; [apply Permutation_sym; exact P|]. apply in_seq. split; [lia|]. apply nth_error_Some. congruence. }
      apply In_nth_error in I. destruct I as (k & Hk). rewrite (Fu k i Hk). unfold ss. rewrite !nth_error_map, Hk. cbn [option_map].
      rewrite (nth_error_nth _ _ _ Es). reflexivity.
    + apply nth_error_None in Es. apply nth_error_None. lia.
  - unfold rs. rewrite map_map. cbn. fold (alone step enc1 m).
    assert (M : forall a b, Permutation a b -> list_max a = list_max b) by (unfold list_max; induction 1; cbn [fold_right]; lia).
    apply (M (map (fun s => length (alone step enc1 m s)) ss)), Permutation_map. exact Ps.
  - assert (M : forall a b, Permutation a b -> list_sum a = list_sum b) by (unfold list_sum; induction 1; cbn [fold_right]; lia).
    rewrite <- Q3. unfold rs. rewrite map_map. apply (M (map (@length nat) ss)), Permutation_map. exact Ps.
  - assert (M : forall a b, Permutation a b -> list_sum a = list_sum b) by (unfold list_sum; induction 1; cbn [fold_right]; lia).
    rewrite El. apply M, Permutation_map. exact Ps.
Qed.
(** so a sentence in a batch is translated as it is alone *)
Theorem C119_batch_independent : forall (E H T : Type) (step : E -> nat -> option H -> nat -> nat * H) generate encode enc1 (detok : list nat -> T) m sents i s,
  independent step generate -> encodes encode enc1 -> 0 < m -> nth_error sents i = Some s ->
  exists out st t st', translate generate encode detok m sents = Ok (out, st) /\ translate generate encode detok m [s] = Ok ([t], st') /\ nth_error out i = Some t.
Proof.
  intros E H T step generate encode enc1 detok m sents i s Hi He Hm Hs.
  assert (Ne : sents <> []) by (intro X; subst; destruct i; discriminate).
  pose proof (C119_translate E H T step generate encode enc1 detok m [s] Hi He Hm ltac:(discriminate)) as T1.
  do 4 eexists. split; [apply (C119_translate E H T step generate encode enc1); assumption|]. split; [exact T1|].
  rewrite nth_error_map, Hs. reflexivity.
Qed.
(** the words of a sentence: at most max_seq_len - 1, EOS only as the last one, and when there are fewer EOS is the last *)
Theorem C119_words : forall (E H : Type) (step : E -> nat -> option H -> nat -> nat * H) enc1 m s,
  length (alone step enc1 m s) <= m - 1 /\ ~ In EOS (removelast (alone step enc1 m s)) /\
  (length (alone step enc1 m s) < m - 1 -> exists ws, alone step enc1 m s = ws ++ [EOS]).
Proof.
  intros E H step enc1 m s. unfold alone. split; [apply decode_length|]. generalize (m - 1) (enc1 s) (length s) (@None H) BOS. clear.
  induction n as [|n IH]; intros e l h w; cbn [decode]; [cbn; split; [auto|lia]|]. destruct (step e l h w) as [w' h']. destruct (Nat.eqb_spec w' EOS) as [->|N].
  - cbn [removelast length In]. split; [auto|]. intros _. exists []. reflexivity.
  - destruct (IH e l (Some h') w') as [A B]. split.
    + destruct (decode step n e l (Some h') w') as [|x r] eqn:D; [cbn; auto|]. change (removelast (w' :: x :: r)) with (w' :: removelast (x :: r)). intros [X|X]; auto.
    + cbn [length]. intro L. destruct B as (ws & ->); [lia|]. exists (w' :: ws). reflexivity.
Qed.
(** a sentence whose EOS comes in time is translated by all its words; one that is cut loses one more word, which the
    network gave and which is not EOS *)
Theorem C119_complete : forall (E H : Type) (step : E -> nat -> option H -> nat -> nat * H) enc1 m s ws, alone step enc1 m s = ws ++ [EOS] ->
  removelast (alone step enc1 m s) = ws.
Proof. intros E H step enc1 m s ws ->. apply removelast_last. Qed.
Theorem C119_last_word_refuted : forall (E H T : Type) (step : E -> nat -> option H -> nat -> nat * H) generate encode enc1 (detok : list nat -> T) m s,
  independent step generate -> encodes encode enc1 -> 1 < m -> ~ In EOS (alone step enc1 m s) ->
  exists ws w st, alone step enc1 m s = ws ++ [w] /\ length ws = m - 2 /\ w <> EOS /\ translate generate encode detok m [s] = Ok ([detok ws], st).
Proof.
  intros E H T step generate encode enc1 detok m s Hi He Hm Hn. destruct (C119_words E H step enc1 m s) as (L & _ & B).
  assert (Le : length (alone step enc1 m s) = m - 1).
  { destruct (Nat.lt_ge_cases (length (alone step enc1 m s)) (m - 1)) as [X|X]; [|lia]. destruct (B X) as (ws & Y). exfalso. apply Hn. rewrite Y. apply in_or_app. right. left. reflexivity. }
  pose proof (C119_translate E H T step generate encode enc1 detok m [s] Hi He ltac:(lia) ltac:(discriminate)) as Tr. cbn [map] in Tr.
  destruct (alone step enc1 m s) as [|w ws _] using rev_ind; [cbn in Le; lia|]. rewrite removelast_last in Tr. rewrite app_length in Le. cbn in Le.
  exists ws, w. eexists. split; [reflexivity|]. split; [lia|]. split; [|exact Tr].
  intro X. apply Hn. apply in_or_app. right. left. exact X.
Qed.
(** the failures: no sentences, or max_seq_len 0 *)
Theorem C119_fails : forall (E H T : Type) generate (encode : list (list nat) -> list nat -> list E) (detok : list nat -> T) m,
  translate (H := H) generate encode detok m [] = Raise ValueError /\ forall sents, sents <> [] -> translate (H := H) generate encode detok 0 sents = Raise IndexError.
Proof.
  intros. split; [reflexivity|]. intros sents Ne. unfold translate. destruct (batch_padded_ok sents Ne) as (rows & indices & -> & _). reflexivity.
Qed.

(** a network that copies the sentence, working on batches *)
Definition copy_step (e : list nat) (l : nat) (h : option nat) (w : nat) : nat * nat :=
  let k := match h with None => 1 | Some k => S k end in (nth k e EOS, k).
Definition copy_generate (ws : list nat) (c : list (list nat) * list nat * option (list nat)) : list nat * list nat :=
  let '(es, ls, hs) := c in
  let hs := match hs with None => repeat None (length ws) | Some hs => map Some hs end in
  let r := map (fun q => let '(w, (e, (l, h))) := q in copy_step e l h w) (combine ws (combine es (combine ls hs))) in (map fst r, map snd r).
Definition copy_encode (rows : list (list nat)) (lens : list nat) : list (list nat) := map (fun k => firstn (nth k lens 0) (column k PAD rows)) (seq 0 (length lens)).
Example C119_copy : independent copy_step copy_generate /\ encodes copy_encode (fun s => s) /\
  alone copy_step (fun s => s) 5 [BOS; 7; 8; EOS] = [7; 8; EOS] /\ alone copy_step (fun s => s) 5 [BOS; 7; 8; 9; 7; EOS] = [7; 8; 9; 7] /\
  translate copy_generate copy_encode (fun l => l) 5 [[BOS; 7; 8; EOS]; [BOS; 7; 8; 9; 7; EOS]; [BOS; EOS]] =
    Ok ([[7; 8]; [7; 8; 9]; []], (4, 12, 11)).
Proof.
  split; [|split; [|repeat split; reflexivity]].
  - intros rows hs Hh. unfold copy_generate.
    assert (Hs : match hs with None => repeat None (length (map r_word rows)) | Some hs => map Some hs end = map r_hid rows).
    { inversion Hh as [? F|? hs' F]; subst; [|symmetry; exact F]. clear Hh. induction F as [|r rows A F IH]; [reflexivity|]. cbn [map length repeat]. rewrite A, IH. reflexivity. }
    rewrite Hs. clear. induction rows as [|[[[e l] h] w] rows IH]; [reflexivity|]. cbn [map combine]. injection IH as I1 I2.
    cbn [r_word r_enc r_len r_hid fst snd]. rewrite I1, I2. reflexivity.
  - intros seqs rows lens C. assert (Ne : seqs <> []) by (intro X; subst; discriminate).
    destruct (C117_collate_seq seqs Ne) as (rows' & C' & F). rewrite C in C'. injection C' as <- ->. unfold copy_encode. rewrite map_length, map_id.
    apply list_ext. intro k. rewrite nth_error_map. destruct (nth_error seqs k) as [s|] eqn:Es.
    + assert (Hk : k < length seqs) by (apply nth_error_Some; congruence).
      rewrite (nth_error_nth' _ 0) by (rewrite seq_length; exact Hk). rewrite seq_nth by exact Hk. cbn [option_map Nat.add]. rewrite (F k Hk).
      rewrite (nth_error_nth _ _ _ Es). rewrite (nth_error_nth (map (@length nat) seqs) k 0 (x := length s)) by (rewrite nth_error_map, Es; reflexivity).
      rewrite firstn_app, Nat.sub_diag, firstn_all, app_nil_r. reflexivity.
    + apply nth_error_None in Es. rewrite (proj2 (nth_error_None (seq 0 (length seqs)) k)); [reflexivity|]. rewrite seq_length. exact Es.
Qed.
Print Assumptions C119_greedy.
Print Assumptions C119_padded.
Print Assumptions C119_translate.
Print Assumptions C119_batch_independent.
Print Assumptions C119_words.
Print Assumptions C119_complete.
Print Assumptions C119_last_word_refuted.
Print Assumptions C119_fails.
