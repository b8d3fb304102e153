(** Lemmas for the translation of batches. *)
From Coq Require Import String List Arith Bool Lia Permutation Sorted.
From Verif Require Import Base SmpModel SmpSpec SmpProofs PropertiesSmp GenModel GenSpec.
Import ListNotations.
Open Scope list_scope.
Open Scope nat_scope.

Lemma upd_length {A} (l : list A) i f : length (upd l i f) = length l.
Proof. revert i; induction l as [|x l IH]; intros [|i]; cbn; auto. Qed.
Lemma upd_same {A} (l : list A) i f : nth_error (upd l i f) i = option_map f (nth_error l i).
Proof. revert i; induction l as [|x l IH]; intros [|i]; cbn; auto. Qed.
Lemma upd_other {A} (l : list A) i j f : i <> j -> nth_error (upd l i f) j = nth_error l j.
Proof. revert i j; induction l as [|x l IH]; intros [|i] [|j] N; cbn; auto; congruence. Qed.

Lemma put_length tr act idx ws : length (put_words tr act idx ws) = length tr.
Proof. unfold put_words. generalize (combine act ws). intro l. revert tr. induction l as [|x l IH]; intro tr; cbn [fold_left]; [reflexivity|]. rewrite IH. apply upd_length. Qed.
Lemma add_length lens act : length (add_one lens act) = length lens.
Proof. unfold add_one. revert lens. induction act as [|x l IH]; intro lens; cbn [fold_left]; [reflexivity|]. rewrite IH. apply upd_length. Qed.
Lemma add_other act i : ~ In i act -> forall lens, nth_error (add_one lens act) i = nth_error lens i.
Proof.
  unfold add_one. induction act as [|j act IH]; intros N lens; [reflexivity|]. cbn [fold_left]. rewrite IH by (intro X; apply N; right; exact X).
  apply upd_other. intro X. apply N. left. exact X.
Qed.
Lemma add_in act i : NoDup act -> In i act -> forall lens, nth_error (add_one lens act) i = option_map S (nth_error lens i).
Proof.
  unfold add_one. induction act as [|j act IH]; intros N I lens; [destruct I|]. inversion N as [|? ? N1 N2]; subst. cbn [fold_left].
  destruct I as [->|I].
  - fold (add_one (upd lens i S) act). rewrite add_other by exact N1. apply upd_same.
  - rewrite (IH N2 I). rewrite upd_other; [reflexivity|]. intro X; subst; contradiction.
Qed.
Section Put.
Context {R : Type}.
Variables (k : R -> nat) (f : R -> nat).
Lemma put_other l i : ~ In i (map k l) -> forall tr idx, nth_error (put_words tr (map k l) idx (map f l)) i = nth_error tr i.
Proof.
  unfold put_words. induction l as [|r l IH]; intros N tr idx; [reflexivity|]. cbn [map combine fold_left fst snd].
  rewrite IH by (intro X; apply N; right; exact X). apply upd_other. intro X. apply N. left. exact X.
Qed.
Lemma put_in l r : NoDup (map k l) -> In r l -> forall tr idx,
  nth_error (put_words tr (map k l) idx (map f l)) (k r) = option_map (fun row => upd row idx (fun _ => f r)) (nth_error tr (k r)).
Proof.
  unfold put_words. induction l as [|q l IH]; intros N I tr idx; [destruct I|]. cbn [map] in N. inversion N as [|? ? N1 N2]; subst. cbn [map combine fold_left fst snd].
  destruct I as [->|I].
  - fold (put_words (upd tr (k r) (fun row => upd row idx (fun _ => f r))) (map k l) idx (map f l)). rewrite put_other by exact N1. apply upd_same.
  - rewrite (IH N2 I). rewrite upd_other; [reflexivity|]. intro X. apply N1. rewrite X. apply in_map. exact I.
Qed.
End Put.

Lemma masked_filter {R A} (f : R -> A) (p : R -> bool) l : masked_select (map f l) (map p l) = map f (filter p l).
Proof. induction l as [|x l IH]; [reflexivity|]. cbn [map masked_select filter]. destruct (p x); cbn [map]; rewrite IH; reflexivity. Qed.
Lemma index_masked_gen {A} (l pre : list A) m : index_select (pre ++ l) (masked_select (seq (length pre) (length l)) m) = Ok (masked_select l m).
Proof.
  revert pre m. induction l as [|x l IH]; intros pre m; [reflexivity|]. cbn [length seq masked_select]. destruct m as [|b m]; [reflexivity|].
  assert (G : index_select (pre ++ x :: l) (masked_select (seq (S (length pre)) (length l)) m) = Ok (masked_select l m)).
  { specialize (IH (pre ++ [x]) m). rewrite app_length in IH. cbn [length] in IH. rewrite Nat.add_1_r in IH. rewrite <- app_assoc in IH. exact IH. }
  destruct b; [|exact G]. cbn [index_select]. rewrite nth_error_app2, Nat.sub_diag by lia. cbn [nth_error]. rewrite G. reflexivity.
Qed.
Lemma index_masked {A} (l : list A) m : index_select l (masked_select (seq 0 (length l)) m) = Ok (masked_select l m).
Proof. exact (index_masked_gen l [] m). Qed.
Lemma firstn_seq n m k : n <= m -> firstn n (seq k m) = seq k n.
Proof. revert m k. induction n as [|n IH]; intros [|m] k L; [reflexivity|reflexivity|lia|]. cbn. f_equal. apply IH. lia. Qed.

Section Net.
Context {E H : Type}.
Variable step : E -> nat -> option H -> nat -> nat * H.
Variable generate : list nat -> list E * list nat * option (list H) -> list nat * list H.
Hypothesis Hind : independent step generate.
Notation srow := (@srow E H).
(** one turn for one sentence *)
Definition adv (ir : nat * srow) : nat * srow :=
  let '(i, (e, l, h, w)) := ir in (i, (e, l, Some (snd (step e l h w)), fst (step e l h w))).
Definition alive (ir : nat * srow) : bool := negb (Nat.eqb EOS (r_word (snd ir))).
Definition repr (st : list (nat * srow)) (s : @gs E H) : Prop :=
  g_active s = map fst st /\ g_words s = map r_word (map snd st) /\ g_enc s = map r_enc (map snd st) /\ g_elen s = map r_len (map snd st) /\
  hiddens (map snd st) (g_hid s).
Definition next_word (ir : nat * srow) : nat := fst (step_row step (snd ir)).

Lemma adv_word ir : r_word (snd (adv ir)) = next_word ir.
Proof. destruct ir as (i & ((e & l) & h) & w). reflexivity. Qed.
Lemma adv_fst ir : fst (adv ir) = fst ir.
Proof. destruct ir as (i & ((e & l) & h) & w). reflexivity. Qed.
Lemma adv_enc ir : r_enc (snd (adv ir)) = r_enc (snd ir).
Proof. destruct ir as (i & ((e & l) & h) & w). reflexivity. Qed.
Lemma adv_len ir : r_len (snd (adv ir)) = r_len (snd ir).
Proof. destruct ir as (i & ((e & l) & h) & w). reflexivity. Qed.
Lemma adv_hid ir : r_hid (snd (adv ir)) = Some (snd (step_row step (snd ir))).
Proof. destruct ir as (i & ((e & l) & h) & w). reflexivity. Qed.

Lemma step_ok bs idx st s : repr st s -> length st <= bs ->
  exists s', greedy_step generate (seq 0 bs) idx s = Ok s' /\ repr (filter alive (map adv st)) s' /\
    g_tr s' = put_words (g_tr s) (map fst st) idx (map next_word st) /\ g_len s' = add_one (g_len s) (map fst st) /\ g_counter s' = S (g_counter s).
Proof.
  intros (Ra & Rw & Re & Rl & Rh) L. unfold greedy_step. rewrite Rw, Re, Rl, (Hind _ _ Rh).
  replace (map (fun r => fst (step_row step r)) (map snd st)) with (map next_word st) by (rewrite map_map; reflexivity).
  replace (map (fun r => snd (step_row step r)) (map snd st)) with (map (fun ir => snd (step_row step (snd ir))) st) by (rewrite map_map; reflexivity).
  rewrite !(map_map (snd : nat * srow -> srow)). rewrite Ra.
  assert (EW : map (Nat.eqb EOS) (map next_word st) = map (fun ir => negb (alive (adv ir))) st).
  { rewrite map_map. apply map_ext. intro ir. unfold alive. rewrite adv_word, negb_involutive. reflexivity. }
  assert (EN : map negb (map (Nat.eqb EOS) (map next_word st)) = map (fun ir => alive (adv ir)) st).
  { rewrite EW, map_map. apply map_ext. intro ir. apply negb_involutive. }
  assert (FM : filter alive (map adv st) = map adv (filter (fun ir => alive (adv ir)) st)).
  { clear. induction st as [|x l IH]; [reflexivity|]. cbn [map filter]. destruct (alive (adv x)); cbn [map]; rewrite IH; reflexivity. }
  destruct (existsb (fun b => b) (map (Nat.eqb EOS) (map next_word st))) eqn:X.
  - rewrite EN, map_length. rewrite firstn_seq by exact L.
    assert (IS : forall A (f : nat * srow -> A), index_select (map f st) (masked_select (seq 0 (length st)) (map (fun ir => alive (adv ir)) st)) =
      Ok (map f (filter (fun ir => alive (adv ir)) st))).
    { intros A f. rewrite <- (map_length f st) at 1. rewrite index_masked, masked_filter. reflexivity. }
    rewrite !IS. cbn [bind]. eexists. split; [reflexivity|]. cbn [g_tr g_len g_counter]. split; [|repeat split].
    unfold repr. cbn [g_active g_words g_enc g_elen g_hid]. rewrite FM, !map_map, masked_filter. repeat split.
    + apply map_ext. intro. rewrite adv_fst. reflexivity.
    + apply map_ext. intro. rewrite adv_word. reflexivity.
    + apply map_ext. intro. rewrite adv_enc. reflexivity.
    + apply map_ext. intro. rewrite adv_len. reflexivity.
    + constructor. rewrite !map_map. apply map_ext. intro. rewrite adv_hid. reflexivity.
  - assert (AL : filter (fun ir => alive (adv ir)) st = st).
    { rewrite EW in X. clear - X. induction st as [|x l IH]; [reflexivity|]. cbn [map existsb] in X. apply orb_false_iff in X. destruct X as [A B].
      apply negb_false_iff in A. cbn [filter]. rewrite A, (IH B). reflexivity. }
    eexists. split; [reflexivity|]. cbn [g_tr g_len g_counter]. split; [|repeat split].
    unfold repr. cbn [g_active g_words g_enc g_elen g_hid]. rewrite FM, AL, !map_map. repeat split.
    + apply map_ext. intro. rewrite adv_fst. reflexivity.
    + apply map_ext. intro. rewrite adv_word. reflexivity.
    + apply map_ext. intro. rewrite adv_enc. reflexivity.
    + apply map_ext. intro. rewrite adv_len. reflexivity.
    + constructor. rewrite !map_map. apply map_ext. intro. rewrite adv_hid. reflexivity.
Qed.

(** writing the words one after the other *)
Fixpoint writes (row : list nat) (idx : nat) (ws : list nat) : list nat :=
  match ws with [] => row | w :: ws => writes (upd row idx (fun _ => w)) (S idx) ws end.
Definition dec (n : nat) (ir : nat * srow) : list nat := let '(e, l, h, w) := snd ir in decode step n e l h w.
Lemma dec_S n ir : dec (S n) ir = if alive (adv ir) then next_word ir :: dec n (adv ir) else [next_word ir].
Proof.
  destruct ir as (i & ((e & l) & h) & w). unfold dec, alive, next_word. cbn [adv fst snd r_word step_row decode]. destruct (step e l h w) as [w' h']. cbn [fst snd].
  rewrite (Nat.eqb_sym EOS). destruct (Nat.eqb w' EOS); reflexivity.
Qed.

Lemma loop_ok bs n : forall idx st s, repr st s -> length st <= bs -> NoDup (map fst st) ->
  exists s', greedy_loop generate (seq 0 bs) n idx s = Ok s' /\ length (g_tr s') = length (g_tr s) /\ length (g_len s') = length (g_len s) /\
    (forall i, ~ In i (map fst st) -> nth_error (g_tr s') i = nth_error (g_tr s) i /\ nth_error (g_len s') i = nth_error (g_len s) i) /\
    (forall ir, In ir st -> nth_error (g_tr s') (fst ir) = option_map (fun row => writes row idx (dec n ir)) (nth_error (g_tr s) (fst ir)) /\
       nth_error (g_len s') (fst ir) = option_map (fun k => k + length (dec n ir)) (nth_error (g_len s) (fst ir))) /\
    g_counter s' = g_counter s + list_max (map (fun ir => length (dec n ir)) st).
Proof.
  induction n as [|n IH]; intros idx st s R L N; cbn [greedy_loop].
  - exists s. split; [reflexivity|]. do 2 (split; [reflexivity|]). split; [auto|]. split.
    + intros ir _. assert (D : dec 0 ir = []) by (destruct ir as (i & ((e & l) & h) & w); reflexivity). rewrite D. cbn [writes length].
      destruct (nth_error (g_tr s) (fst ir)), (nth_error (g_len s) (fst ir)); cbn [option_map]; rewrite ?Nat.add_0_r; auto.
    + assert (Z : list_max (map (fun ir => length (dec 0 ir)) st) = 0); [|lia].
      clear. induction st as [|ir st IH]; [reflexivity|]. cbn [map]. change (list_max (?a :: ?l)) with (Nat.max a (list_max l)). rewrite IH.
      destruct ir as (i & ((e & l) & h) & w). reflexivity.
  - destruct R as (Ra & Rr). rewrite Ra, map_length. destruct (Nat.eqb_spec (length st) 0) as [Z|Z].
    + destruct st; [|discriminate]. exists s. split; [reflexivity|]. do 2 (split; [reflexivity|]). split; [auto|]. split; [intros ir []|]. cbn. lia.
    + destruct (step_ok bs idx st s (conj Ra Rr) L) as (s1 & E1 & R1 & T1 & L1 & C1). rewrite E1. cbn [bind].
      assert (N1 : NoDup (map fst (filter alive (map adv st)))).
      { assert (NA : NoDup (map fst (map adv st))) by (rewrite map_map, (map_ext _ fst adv_fst); exact N). revert NA. generalize (map adv st). clear.
        induction l as [|x l IH]; intro NA; [constructor|]. cbn [map] in NA. inversion NA as [|? ? A B]; subst. cbn [filter]. destruct (alive x); [|auto].
        cbn [map]. constructor; [|auto]. intro I. apply A. apply in_map_iff in I. destruct I as (y & Ey & Iy). apply filter_In in Iy. rewrite <- Ey. apply in_map. tauto. }
      assert (L2 : length (filter alive (map adv st)) <= bs).
      { etransitivity; [|exact L]. rewrite <- (map_length adv st). generalize (map adv st). clear. induction l as [|x l IH]; [auto|]. cbn [filter]. destruct (alive x); cbn [length]; lia. }
      destruct (IH (S idx) _ _ R1 L2 N1) as (s2 & E2 & LT & LL & P1 & P2 & PC). exists s2. split; [exact E2|].
      split; [rewrite LT, T1; apply put_length|]. split; [rewrite LL, L1; apply add_length|]. split; [|split].
      * intros i Ni. destruct (P1 i) as [A B].
        { intro X. apply Ni. apply in_map_iff in X. destruct X as (y & <- & Iy). apply filter_In in Iy. destruct Iy as [Iy _]. apply in_map_iff in Iy. destruct Iy as (z & <- & Iz).
          rewrite adv_fst. apply in_map. exact Iz. }
        rewrite A, B, T1, L1. split; [apply put_other; exact Ni|apply add_other; exact Ni].
      * intros ir I. rewrite dec_S. pose proof (put_in fst next_word st ir N I (g_tr s) idx) as PT. rewrite <- T1 in PT.
        pose proof (add_in (map fst st) (fst ir) N (in_map fst _ _ I) (g_len s)) as PL. rewrite <- L1 in PL.
        destruct (alive (adv ir)) eqn:A.
        -- destruct (P2 (adv ir)) as [B C]; [apply filter_In; split; [apply in_map; exact I|exact A]|]. rewrite adv_fst in B, C. rewrite B, C, PT, PL.
           destruct (nth_error (g_tr s) (fst ir)), (nth_error (g_len s) (fst ir)); cbn [option_map writes length]; split; try reflexivity; f_equal; lia.
        -- destruct (P1 (fst ir)) as [B C].
           { intro X. apply in_map_iff in X. destruct X as (y & Ey & Iy). apply filter_In in Iy. destruct Iy as [Iy Ay]. apply in_map_iff in Iy. destruct Iy as (z & <- & Iz).
             rewrite adv_fst in Ey. assert (z = ir); [|congruence]. clear - N I Iz Ey. induction st as [|q st IH]; [destruct I|]. cbn [map] in N. inversion N as [|? ? N1 N2]; subst.
             destruct I as [->|I], Iz as [->|Iz]; auto; exfalso; apply N1; [rewrite <- Ey|rewrite Ey]; apply in_map; assumption. }
           rewrite B, C, PT, PL. destruct (nth_error (g_tr s) (fst ir)), (nth_error (g_len s) (fst ir)); cbn [option_map writes length]; split; try reflexivity; f_equal; lia.
      * rewrite PC, C1. assert (M : list_max (map (fun ir => length (dec (S n) ir)) st) = S (list_max (map (fun ir => length (dec n ir)) (filter alive (map adv st))))); [|lia].
        clear - Z. assert (G : forall l, list_max (map (fun ir => length (dec (S n) ir)) l) = match l with [] => 0 | _ => S (list_max (map (fun ir => length (dec n ir)) (filter alive (map adv l)))) end).
        { induction l as [|ir l IH]; [reflexivity|]. cbn [map]. change (list_max (?a :: ?b)) with (Nat.max a (list_max b)). rewrite IH, dec_S. cbn [filter].
          destruct (alive (adv ir)); cbn [map length].
          - change (list_max (?a :: ?b)) with (Nat.max a (list_max b)). destruct l; [cbn|]; lia.
          - destruct l; [reflexivity|lia]. }
        rewrite G. destruct st; [cbn in Z; lia|reflexivity].
Qed.
End Net.

Lemma upd_app (pre : list nat) x m w : upd (pre ++ x :: m) (length pre) (fun _ => w) = pre ++ w :: m.
Proof. induction pre as [|y pre IH]; [reflexivity|]. cbn [length app upd]. rewrite IH. reflexivity. Qed.
Lemma writes_zeros ws : forall pre m, length ws <= m -> writes (pre ++ repeat 0 m) (length pre) ws = pre ++ ws ++ repeat 0 (m - length ws).
Proof.
  induction ws as [|w ws IH]; intros pre m L; cbn [writes length app]; [rewrite Nat.sub_0_r; reflexivity|]. destruct m as [|m]; [cbn in L; lia|].
  cbn [repeat]. rewrite upd_app. replace (S (length pre)) with (length (pre ++ [w])) by (rewrite app_length; cbn; lia).
  change (w :: repeat 0 m) with ([w] ++ repeat 0 m). rewrite app_assoc, IH by (cbn in L; lia). rewrite <- app_assoc. reflexivity.
Qed.
Lemma decode_length {E H} (step : E -> nat -> option H -> nat -> nat * H) n : forall e l h w, length (decode step n e l h w) <= n.
Proof. induction n as [|n IH]; intros; cbn [decode]; [auto|]. destruct (step e l h w) as [w' h']. destruct (Nat.eqb w' EOS); cbn [length]; [lia|]. specialize (IH e l (Some h') w'). lia. Qed.

Lemma batch_padded_ok seqs : seqs <> [] -> exists rows indices,
  batch_padded seqs = Ok (rows, map (fun i => length (nth i seqs [])) indices, indices) /\
  Permutation indices (seq 0 (length seqs)) /\ collate_seq (map (fun i => nth i seqs []) indices) = Ok (rows, map (fun i => length (nth i seqs [])) indices) /\
  StronglySorted (fun i j => length (nth j seqs []) <= length (nth i seqs [])) indices.
Proof.
  intro Ne. unfold batch_padded. set (en := combine (seq 0 (length seqs)) seqs). set (s := fold_right insert_len [] en).
  assert (P : Permutation s en) by apply sorted_pairs_perm.
  assert (K : map fst en = seq 0 (length seqs)).
  { unfold en. assert (forall (l : list (list nat)) k, map fst (combine (seq k (length l)) l) = seq k (length l)) as G.
    { induction l as [|x l IH]; intro k; [reflexivity|]. cbn. f_equal. apply IH. } apply G. }
  assert (V : forall x, In x s -> snd x = nth (fst x) seqs []).
  { intros [i l] Hx. eapply Permutation_in in Hx; [|exact P]. unfold en in Hx. cbn [fst snd].
    assert (forall (ps : list (list nat)) k, In (i, l) (combine (seq k (length ps)) ps) -> k <= i /\ l = nth (i - k) ps []) as G.
    { induction ps as [|p ps IH]; intros k I; [destruct I|]. cbn in I. destruct I as [I|I].
      - injection I as <- <-. rewrite Nat.sub_diag. auto.
      - apply IH in I. destruct I as [A ->]. split; [lia|]. replace (i - k) with (S (i - S k)) by lia. reflexivity. }
    apply G in Hx. destruct Hx as [_ ->]. rewrite Nat.sub_0_r. reflexivity. }
  assert (S1 : map snd s = map (fun i => nth i seqs []) (map fst s)).
  { rewrite map_map. apply map_ext_in. intros x I. apply V. exact I. }
  assert (PI : Permutation (map fst s) (seq 0 (length seqs))) by (rewrite <- K; apply Permutation_map; exact P).
  assert (NE : map snd s <> []).
  { intro X. apply map_eq_nil in X. rewrite X in P. apply Permutation_nil in P. unfold en in P. destruct seqs; [congruence|discriminate]. }
  assert (C : exists rows, collate_seq (map snd s) = Ok (rows, map (@length nat) (map snd s))).
  { unfold collate_seq. destruct (map snd s); [congruence|]. eexists. reflexivity. }
  destruct C as (rows & C). assert (EL : map (@length nat) (map snd s) = map (fun i => length (nth i seqs [])) (map fst s)) by (rewrite S1, map_map; reflexivity).
  exists rows, (map fst s). rewrite C. cbn [bind fst snd]. rewrite <- S1, C, EL. repeat split; auto.
  pose proof (sorted_pairs_sorted en) as So. fold s in So. revert V So. generalize s. clear. induction s as [|x s IH]; intros V So; [constructor|].
  inversion So as [|? ? A B]; subst. cbn [map]. constructor; [apply IH; [intros; apply V; right; auto|exact A]|].
  rewrite Forall_forall in *. intros j I. apply in_map_iff in I. destruct I as (y & <- & Iy). specialize (B y Iy). unfold longer_len, slen in B.
  rewrite <- (V x), <- (V y); [exact B|right; auto|left; auto].
Qed.
