(** C117: batches of one group, buckets of similar lengths, and the sentence batches of GNMT. *)
From Coq Require Import String List Arith Bool Lia Permutation Sorted.
From Verif Require Import Base SmpModel SmpSpec SmpProofs.
Import ListNotations.
Open Scope list_scope.
Open Scope nat_scope.

(** * Batches of one group (detection training) *)

Lemma of_group_in gid g l i : In i (of_group gid g l) <-> In i l /\ gid i = g.
Proof. unfold of_group. rewrite filter_In, Nat.eqb_eq. reflexivity. Qed.
Section Grouped.
Variables (gid : nat -> nat) (bs : nat) (sampler : list nat).
Hypothesis Hbs : 0 < bs.

Lemma loop_done : exists buf seen out, foldM (gstep gid bs) sampler ([], [], []) = Ok (buf, seen, out) /\ ginv gid bs sampler (buf, seen, out).
Proof.
  destruct (gloop_inv gid bs Hbs sampler [] _ (ginv0 gid bs Hbs)) as ([[buf seen] out] & E & I). cbn [app] in I. eauto.
Qed.
Lemma buf_in buf seen out g k : ginv gid bs sampler (buf, seen, out) -> In (g, k) buf -> bget buf g = k /\ length k < bs.
Proof. intros [Hn _ Hs _ _ _] I. cbn [fst snd] in *. pose proof (bget_in _ _ _ Hn I) as E. split; auto. rewrite <- E. apply Hs. Qed.
Lemma sorted_in b g k : In (g, k) (sort_desc b) -> In (g, k) b.
Proof. apply Permutation_in, sort_desc_perm. Qed.
Lemma enough buf seen out : ginv gid bs sampler (buf, seen, out) -> length out <= length sampler / bs /\
  (length sampler / bs - length out) * bs <= total (sort_desc buf).
Proof.
  intros [_ _ _ _ _ Ht]. cbn [fst snd] in Ht. rewrite (total_perm _ _ (sort_desc_perm buf)).
  pose proof (Nat.mul_div_le (length sampler) bs ltac:(lia)) as A. pose proof (Nat.div_le_lower_bound (length sampler) bs (length out) ltac:(lia) ltac:(lia)). split; [auto|]. nia.
Qed.

(** the result, in one statement: the full batches of the loop, then for as many groups as batches are missing, the groups
    with most samples left over first, those samples, filled up from the front of the group *)
Lemma grouped_shape : exists buf seen out, ginv gid bs sampler (buf, seen, out) /\
  ((exists n, grouped_batches gid bs sampler = Ok (out ++ map (fill bs seen) (firstn n (sort_desc buf))) /\ length out + n = length sampler / bs /\ n <= length buf /\
     forall gk, In gk (firstn n (sort_desc buf)) -> snd gk <> [] /\ length (fill bs seen gk) = bs) \/
   (grouped_batches gid bs sampler = Raise AssertionError /\ exists g k, In (g, k) buf /\ k <> [] /\ length k + length (of_group gid g sampler) < bs)).
Proof.
  destruct loop_done as (buf & seen & out & E & I). exists buf, seen, out. split; [exact I|]. unfold grouped_batches. rewrite E. cbn [bind].
  destruct (enough _ _ _ I) as [L T]. destruct (Nat.ltb_spec 0 (length sampler / bs - length out)) as [H|H].
  - destruct (refill_spec bs seen Hbs (sort_desc buf) _ H) as [(-> & B & C)|(-> & g & k & I' & Hk & F)].
    + intros g b Ib. eapply (buf_in _ _ _ g b I). apply sorted_in. auto.
    + apply sort_desc_sorted.
    + exact T.
    + left. cbn [bind fst snd Nat.eqb]. exists (length sampler / bs - length out). split; [reflexivity|]. split; [lia|].
      split; [|exact C]. rewrite (Permutation_length (sort_desc_perm buf)) in B. exact B.
    + right. split; [reflexivity|]. exists g, k. split; [apply sorted_in; auto|]. split; auto. rewrite (gi_seen _ _ _ _ I) in F. exact F.
  - left. exists 0. cbn [firstn map]. rewrite app_nil_r. split; [reflexivity|]. split; [lia|]. split; [lia|]. intros ? [].
Qed.
Lemma fill_batch buf seen out g k : ginv gid bs sampler (buf, seen, out) -> In (g, k) buf -> forall i, In i (fill bs seen (g, k)) -> gid i = g /\ In i sampler.
Proof.
  intros I Ib i Hi. destruct (buf_in _ _ _ _ _ I Ib) as [E _]. unfold fill in Hi. cbn [fst snd] in Hi. apply in_app_or in Hi.
  assert (In i (of_group gid g sampler)) as H.
  { destruct Hi as [Hi|Hi].
    - rewrite <- (gi_parts _ _ _ _ I g). apply in_or_app. right. cbn [fst]. rewrite E. exact Hi.
    - rewrite <- (gi_seen _ _ _ _ I g). cbn [fst snd]. eapply In_firstn_in; eauto. }
  apply of_group_in in H. tauto.
Qed.

(** as many batches as announced, each of [bs] samples of one group, and its samples come from the sampler *)
Theorem C117_grouped_batches : forall out, grouped_batches gid bs sampler = Ok out ->
  length out = length sampler / bs /\ forall b, In b out -> exists g, group_batch gid bs sampler b g.
Proof.
  intros o H. destruct grouped_shape as (buf & seen & out & I & [(n & E & L & Ln & F)|(E & _)]); [|congruence].
  rewrite E in H. injection H as <-. split.
  - rewrite app_length, map_length, firstn_length, (Permutation_length (sort_desc_perm buf)). lia.
  - intros b Hb. apply in_app_or in Hb. destruct Hb as [Hb|Hb].
    + destruct (gi_batch _ _ _ _ I b Hb) as [A B]. exists (gid (hd 0 b)). split; [exact A|]. intros i Hi. split; [auto|].
      assert (In i (of_group gid (gid (hd 0 b)) sampler)) as X; [|apply of_group_in in X; tauto].
      rewrite <- (gi_parts _ _ _ _ I). apply in_or_app. left. apply in_concat. exists b. split; auto. apply filter_In. split; auto. apply Nat.eqb_refl.
    + apply in_map_iff in Hb. destruct Hb as ((g, k) & <- & Hg). destruct (F _ Hg) as [_ Lf]. exists g. split; [exact Lf|].
      apply (fill_batch _ _ _ _ _ I). apply sorted_in. eapply In_firstn_in; eauto.
Qed.
(** the order of the sampler is kept within each group: the full batches of group [g] are its samples from the front, in
    order; fewer than [bs] are left over, and the batches added at the end belong to different groups, each the samples left
    over followed by samples from the front of the group *)
Theorem C117_grouped_order : forall out, grouped_batches gid bs sampler = Ok out ->
  exists full extra gs, out = full ++ extra /\ NoDup gs /\
    (forall g, leftover bs (of_group gid g sampler) (skipn (length (concat (filter (fun b => Nat.eqb (gid (hd 0 b)) g) full))) (of_group gid g sampler)) /\
               concat (filter (fun b => Nat.eqb (gid (hd 0 b)) g) full) = firstn (length (concat (filter (fun b => Nat.eqb (gid (hd 0 b)) g) full))) (of_group gid g sampler)) /\
    Forall2 (fun b g => exists rest, leftover bs (of_group gid g sampler) rest /\ rest <> [] /\ b = rest ++ firstn (bs - length rest) (of_group gid g sampler)) extra gs.
Proof.
  intros o H. destruct grouped_shape as (buf & seen & out & I & [(n & E & L & Ln & F)|(E & _)]); [|congruence].
  rewrite E in H. injection H as <-. exists out, (map (fill bs seen) (firstn n (sort_desc buf))), (map fst (firstn n (sort_desc buf))).
  assert (LO : forall g, leftover bs (of_group gid g sampler) (bget buf g)).
  { intro g. pose proof (gi_parts _ _ _ _ I g) as P. cbn [fst snd] in P. exists (concat (filter (fun b => Nat.eqb (gid (hd 0 b)) g) out)).
    split; [symmetry; exact P|]. split; [apply (gi_short _ _ _ _ I)|].
    exists (length (filter (fun b => Nat.eqb (gid (hd 0 b)) g) out)).
    assert (forall r, In r (filter (fun b => Nat.eqb (gid (hd 0 b)) g) out) -> length r = bs) as X.
    { intros r Hr. apply filter_In in Hr. apply (gi_batch _ _ _ _ I). tauto. }
    revert X. generalize (filter (fun b => Nat.eqb (gid (hd 0 b)) g) out). clear. intros l X. induction l as [|r l IH]; [reflexivity|].
    cbn [concat length]. rewrite app_length, X, IH by (left; auto) || (intros; apply X; right; auto). reflexivity. }
  split; [reflexivity|]. split; [|split].
  - pose proof (gi_nodup _ _ _ _ I) as Hn. cbn [fst] in Hn.
    assert (NoDup (map fst (sort_desc buf))) as N by (eapply Permutation_NoDup; [|exact Hn]; apply Permutation_map, Permutation_sym, sort_desc_perm).
    rewrite <- (firstn_skipn n (sort_desc buf)), map_app in N. revert N. generalize (map fst (firstn n (sort_desc buf))) (map fst (skipn n (sort_desc buf))).
    clear. intros a b N. induction a as [|x a IH]; [constructor|]. inversion N as [|? ? Hx Ha]; subst. constructor; [|auto]. intro J. apply Hx, in_or_app. auto.
  - intro g. pose proof (gi_parts _ _ _ _ I g) as P. cbn [fst snd] in P. set (fg := concat _) in *.
    assert (skipn (length fg) (of_group gid g sampler) = bget buf g) as -> by (rewrite <- P, skipn_app, skipn_all, Nat.sub_diag; reflexivity).
    split; [apply LO|]. rewrite <- P, firstn_app, firstn_all, Nat.sub_diag. cbn [firstn]. rewrite app_nil_r. reflexivity.
  - assert (forall gk, In gk (firstn n (sort_desc buf)) -> bget buf (fst gk) = snd gk) as B.
    { intros [g k] Hg. apply In_firstn_in, sorted_in in Hg. apply (buf_in _ _ _ _ _ I Hg). }
    revert B F. generalize (firstn n (sort_desc buf)). intro l. induction l as [|(g, k) l IH]; intros B F; cbn [map]; constructor.
    + pose proof (B (g, k) (or_introl eq_refl)) as X. cbn [fst snd] in X. exists k. split; [rewrite <- X; apply LO|]. split.
      * apply (F (g, k)). left; auto.
      * unfold fill. cbn [fst snd]. pose proof (gi_seen _ _ _ _ I g) as S. cbn [fst snd] in S. rewrite S. reflexivity.
    + apply IH; intros; [apply B|apply F]; right; auto.
Qed.
(** it succeeds whenever each group that occurs has at least half a batch of samples; the assertion at the end of the
    function never fails *)
Theorem C117_grouped_succeeds : (forall g, of_group gid g sampler <> [] -> bs <= 2 * length (of_group gid g sampler)) ->
  exists out, grouped_batches gid bs sampler = Ok out.
Proof.
  intro H. destruct grouped_shape as (buf & seen & out & I & [(n & E & _)|(E & g & k & Ik & Hk & F)]); [eauto|]. exfalso.
  destruct (buf_in _ _ _ _ _ I Ik) as [Eb _]. pose proof (gi_parts _ _ _ _ I g) as P. cbn [fst snd] in P. rewrite Eb in P.
  assert (N : of_group gid g sampler <> []) by (rewrite <- P; destruct k; [congruence|]; intro X; apply app_eq_nil in X; destruct X; discriminate).
  specialize (H g N).
  (* fewer than bs samples in the group: no full batch, so all of them are left over *)
  destruct (filter (fun b => Nat.eqb (gid (hd 0 b)) g) out) as [|b r] eqn:Ef.
  - cbn [concat app] in P. rewrite <- P in *. lia.
  - assert (In b (filter (fun b => Nat.eqb (gid (hd 0 b)) g) out)) as Ib by (rewrite Ef; left; auto).
    apply filter_In in Ib. pose proof (proj1 (gi_batch _ _ _ _ I b (proj1 Ib))) as Lb. apply (f_equal (@length nat)) in P.
    cbn [concat] in P. rewrite !app_length in P. lia.
Qed.
(** and fails, with AssertionError in the middle of the epoch, when every group has less than half a batch *)
Theorem C117_small_groups_refuted : bs <= length sampler -> (forall g, 2 * length (of_group gid g sampler) < bs) ->
  grouped_batches gid bs sampler = Raise AssertionError.
Proof.
  intros Hl H. destruct grouped_shape as (buf & seen & out & I & [(n & E & L & Ln & F)|(E & _)]); [exfalso|exact E].
  assert (out = []) as ->.
  { destruct out as [|b r]; [reflexivity|]. exfalso. destruct (gi_batch _ _ _ _ I b (or_introl eq_refl)) as [Lb _].
    pose proof (gi_parts _ _ _ _ I (gid (hd 0 b))) as P. cbn [fst snd filter] in P. rewrite Nat.eqb_refl in P. cbn [concat] in P.
    apply (f_equal (@length nat)) in P. rewrite !app_length in P. specialize (H (gid (hd 0 b))). lia. }
  assert (0 < n). { cbn [length Nat.add] in L. pose proof (Nat.div_str_pos (length sampler) bs ltac:(lia)). lia. }
  destruct (sort_desc buf) as [|(g, k) l] eqn:Es. { pose proof (Permutation_length (sort_desc_perm buf)) as P. rewrite Es in P. cbn in P. lia. }
  destruct n as [|n]; [lia|]. destruct (F (g, k)) as [_ Lf]; [left; reflexivity|].
  assert (In (g, k) buf) as Ib by (apply sorted_in; rewrite Es; left; auto). destruct (buf_in _ _ _ _ _ I Ib) as [Eb _].
  pose proof (gi_parts _ _ _ _ I g) as P. cbn [fst snd filter concat app] in P. rewrite Eb in P.
  pose proof (gi_seen _ _ _ _ I g) as S. cbn [fst snd] in S. unfold fill in Lf. cbn [fst snd] in Lf. rewrite app_length, firstn_length, S, <- P in Lf. specialize (H g). rewrite <- P in H. lia.
Qed.
End Grouped.
(** samples can be left out while others come twice, even all samples of a group *)
Theorem C117_group_never_seen_refuted : grouped_batches (fun i => i / 3) 2 [0; 1; 2; 3] = Ok [[0; 1]; [2; 0]].
Proof. reflexivity. Qed.
Example C117_grouped_case : grouped_batches (fun i => i mod 2) 3 [0; 1; 2; 3; 4; 5; 7; 9; 6; 8; 10; 11] = Ok [[0; 2; 4]; [1; 3; 5]; [6; 8; 10]; [7; 9; 11]] /\
  grouped_batches (fun i => i mod 2) 3 [0; 1; 2; 3; 4; 5; 7; 6] = Ok [[0; 2; 4]; [1; 3; 5]] /\
  grouped_batches (fun i => i mod 2) 3 [0; 1; 2; 3] = Ok [[0; 2; 0]] /\ grouped_batches (fun i => i) 3 [0; 1; 2; 3] = Raise AssertionError.
Proof. repeat split; reflexivity. Qed.

(** * Buckets of similar lengths (GNMT) *)

Section Bucketing.
Variables (n bs world : nat) (perm : list nat) (sorting : list nat -> list nat) (order : nat -> list nat).
Hypothesis Hbs : 0 < bs. Hypothesis Hw : 0 < world.
Hypothesis Hperm : Permutation perm (seq 0 n).
Hypothesis Hsort : forall sh, Permutation (sorting sh) (seq 0 (length sh)).
Hypothesis Horder : forall k, Permutation (order k) (seq 0 k).

Lemma ns_bound : num_samples n bs world <= n.
Proof. unfold num_samples. rewrite Nat.mul_comm. apply Nat.mul_div_le. nia. Qed.
Lemma first_length : length (firstn (num_samples n bs world) perm) = bs * world * (n / (bs * world)).
Proof. rewrite firstn_length, (Permutation_length Hperm), seq_length. pose proof ns_bound. unfold num_samples in *. nia. Qed.
Lemma pieces_of_row row : length row = bs * world -> chunks bs row = map (fun r => piece bs r row) (seq 0 world).
Proof.
  clear Hw. revert row. induction world as [|w IH]; intros row H.
  - rewrite Nat.mul_0_r in H. destruct row; [reflexivity|discriminate].
  - rewrite <- (firstn_skipn bs row) at 1. rewrite chunks_cons; [|auto|rewrite firstn_length; nia]. cbn [seq map]. f_equal.
    rewrite (IH (skipn bs row)) by (rewrite skipn_length; nia). rewrite <- seq_shift, map_map. apply map_ext. intro r. unfold piece.
    rewrite skipn_more. do 2 f_equal.
Qed.
(** all the rows of a list of global batches, as pieces *)
Lemma chunks_rows rows : (forall r, In r rows -> length r = bs * world) -> chunks bs (concat rows) = concat (map (chunks bs) rows).
Proof.
  intro H. assert (E : concat rows = concat (concat (map (chunks bs) rows))).
  { clear H. induction rows as [|r rows IH]; [reflexivity|]. cbn [map concat]. rewrite concat_app, <- IH, (chunks_all bs r) by auto. reflexivity. }
  rewrite E. apply chunks_concat; [auto|]. intros x Hx. apply in_concat in Hx. destruct Hx as (l & Hl & Hx). apply in_map_iff in Hl.
  destruct Hl as (r & <- & Hr). specialize (H r Hr). apply (chunks_exact bs world r Hbs H). exact Hx.
Qed.
Lemma ranks_of_rows rows rank : rank < world -> (forall r, In r rows -> length r = bs * world) ->
  concat (strided rank world (chunks bs (concat rows))) = concat (map (piece bs rank) rows).
Proof.
  intros Hr H. rewrite (chunks_rows rows H). f_equal.
  pose proof (strided_blocks (@nil nat) rank world Hr (map (chunks bs) rows) 0) as E. cbn [Nat.mul] in E.
  change (strided rank world (concat (map (chunks bs) rows))) with (strided_from 0 rank world (concat (map (chunks bs) rows))). rewrite E.
  - rewrite map_map. apply map_ext_in. intros row Hi. rewrite (pieces_of_row row (H row Hi)).
    rewrite (nth_indep _ [] (piece bs 0 row)) by (rewrite map_length, seq_length; auto).
    rewrite (map_nth (fun r => piece bs r row) (seq 0 world) 0). rewrite seq_nth by auto. reflexivity.
  - intros b Hb. apply in_map_iff in Hb. destruct Hb as (r & <- & Hi). apply (chunks_exact bs world r Hbs (H r Hi)).
Qed.
Lemma nth_rows_perm {A} (d : A) (rows : list A) idx : Permutation idx (seq 0 (length rows)) -> Permutation (map (fun i => nth i rows d) idx) rows.
Proof.
  intro P. rewrite (Permutation_map _ P). clear. assert (E : map (fun i => nth i rows d) (seq 0 (length rows)) = rows); [|rewrite E; reflexivity].
  induction rows as [|x b IH]; [reflexivity|]. cbn [length seq map nth]. f_equal. rewrite <- seq_shift, map_map. exact IH.
Qed.

(** the shards: consecutive pieces of the permutation, each sorted *)
Definition sorted_data : list nat :=
  concat (map (fun sh => take sh (sorting sh)) (chunks (bs * world * 80) (firstn (num_samples n bs world) perm))).
Lemma sorted_data_perm : Permutation sorted_data (firstn (num_samples n bs world) perm).
Proof.
  unfold sorted_data. rewrite <- (chunks_all (bs * world * 80) (firstn (num_samples n bs world) perm)) at 2 by nia.
  generalize (chunks (bs * world * 80) (firstn (num_samples n bs world) perm)). intro l. induction l as [|sh l IH]; [constructor|].
  cbn [map concat]. apply Permutation_app; [|exact IH]. apply take_perm, Hsort.
Qed.
(** the result: one list of global batches; each rank gets its piece of each *)
Lemma bucketing_shape bucket : (bucket = true -> bs * world <= n) ->
  exists rows, length rows = n / (bs * world) /\ (forall r, In r rows -> length r = bs * world) /\
    Permutation rows (chunks (bs * world) (if bucket then sorted_data else firstn (num_samples n bs world) perm)) /\
    (bucket = false -> rows = chunks (bs * world) (firstn (num_samples n bs world) perm)) /\
    forall rank, rank < world -> bucketing_indices n bs world rank bucket perm sorting order = Ok (concat (map (piece bs rank) rows)).
Proof.
  intro Hb. pose proof first_length as FL.
  destruct bucket.
  - specialize (Hb eq_refl).
    assert (SL : length sorted_data = bs * world * (n / (bs * world))) by (rewrite (Permutation_length sorted_data_perm); exact FL).
    destruct (chunks_exact (bs * world) (n / (bs * world)) sorted_data ltac:(nia) SL) as (A & B & C).
    set (rows0 := chunks (bs * world) sorted_data) in *.
    pose proof (nth_rows_perm [] rows0 (order (length rows0)) (Horder _)) as P. set (rows := map (fun i => nth i rows0 []) (order (length rows0))) in *.
    exists rows. split; [rewrite (Permutation_length P); exact B|].
    assert (HR : forall r, In r rows -> length r = bs * world) by (intros r Hr; apply C; eapply Permutation_in; eauto).
    split; [exact HR|]. split; [exact P|]. split; [discriminate|]. intros rank Hr. unfold bucketing_indices. cbn [bind].
    assert (chunks (bs * world * batches_in_shard) (firstn (num_samples n bs world) perm) <> []) as Hne.
    { intro X. pose proof (chunks_all (bs * world * 80) (firstn (num_samples n bs world) perm) ltac:(nia)) as Y. unfold batches_in_shard in X. rewrite X in Y.
      cbn [concat] in Y. rewrite <- Y in FL. cbn [length] in FL. pose proof (Nat.div_str_pos n (bs * world) ltac:(nia)). nia. }
    change (chunks (bs * world * 80) (firstn (num_samples n bs world) perm)) with (chunks (bs * world * batches_in_shard) (firstn (num_samples n bs world) perm)) in *.
    destruct (chunks (bs * world * batches_in_shard) (firstn (num_samples n bs world) perm)) as [|sh shs] eqn:Es; [congruence|].
    assert (concat (map (fun sh => take sh (sorting sh)) (sh :: shs)) = sorted_data) as ->.
    { unfold sorted_data. unfold batches_in_shard in Es. rewrite Es. reflexivity. }
    fold rows0. cbn [bind]. f_equal. apply (ranks_of_rows rows rank Hr HR).
  - destruct (chunks_exact (bs * world) (n / (bs * world)) (firstn (num_samples n bs world) perm) ltac:(nia) FL) as (A & B & C).
    exists (chunks (bs * world) (firstn (num_samples n bs world) perm)). split; [exact B|]. split; [exact C|]. split; [reflexivity|]. split; [reflexivity|].
    intros rank Hr. unfold bucketing_indices. cbn [bind]. f_equal. rewrite <- A at 1. apply (ranks_of_rows _ rank Hr C).
Qed.

(** every sample of the first num_samples of the shuffled data goes to exactly one rank, once, and all ranks get as many;
    the order of the lengths and of the batches does not matter for this *)
Theorem C117_bucketing_partition : forall bucket, (bucket = true -> bs * world <= n) ->
  exists f, (forall rank, rank < world -> bucketing_indices n bs world rank bucket perm sorting order = Ok (f rank) /\ length (f rank) = n / (bs * world) * bs) /\
    Permutation (concat (map f (seq 0 world))) (firstn (n / (bs * world) * (bs * world)) perm) /\ NoDup (concat (map f (seq 0 world))).
Proof.
  intros bucket Hb. destruct (bucketing_shape bucket Hb) as (rows & L & HR & P & _ & E). exists (fun rank => concat (map (piece bs rank) rows)).
  assert (PL : forall rank row, rank < world -> length row = bs * world -> length (piece bs rank row) = bs).
  { intros rank row Hr H. unfold piece. rewrite firstn_length, skipn_length. nia. }
  split.
  - intros rank Hr. split; [auto|]. rewrite <- L. clear - HR Hr PL. induction rows as [|r rows IH]; [reflexivity|]. cbn [map concat length].
    rewrite app_length, IH by (intros; apply HR; right; auto). rewrite PL; [nia|auto|apply HR; left; auto].
  - assert (Permutation (concat (map (fun rank => concat (map (piece bs rank) rows)) (seq 0 world))) (concat rows)) as Q.
    { assert (C : concat rows = concat (concat (map (chunks bs) rows))).
      { clear - Hbs. induction rows as [|r rows IH]; [reflexivity|]. cbn [map concat]. rewrite concat_app, <- IH, (chunks_all bs r) by auto. reflexivity. }
      rewrite C. rewrite <- (concat_perm _ _ (deal_perm [] world (map (chunks bs) rows) ltac:(intros b Hb'; apply in_map_iff in Hb'; destruct Hb' as (r & <- & Hr); apply (chunks_exact bs world r Hbs (HR r Hr))))).
      assert (map (fun r => map (fun b => nth r b []) (map (chunks bs) rows)) (seq 0 world) = map (fun rank => map (piece bs rank) rows) (seq 0 world)) as X.
      { apply map_ext_in. intros rank Hr. rewrite map_map. apply map_ext_in. intros row Hi. apply in_seq in Hr. rewrite (pieces_of_row row (HR row Hi)).
        rewrite (nth_indep _ [] (piece bs 0 row)) by (rewrite map_length, seq_length; lia).
        rewrite (map_nth (fun r => piece bs r row) (seq 0 world) 0). rewrite seq_nth by lia. reflexivity. }
      rewrite flat_map_concat_map, X. clear. generalize (seq 0 world). intro l. induction l as [|x l IH]; [constructor|]. cbn [map concat]. rewrite concat_app. apply Permutation_app_head. exact IH. }
    assert (R : Permutation (concat (map (fun rank => concat (map (piece bs rank) rows)) (seq 0 world))) (firstn (num_samples n bs world) perm)).
    { rewrite Q, (concat_perm _ _ P), chunks_all by nia. destruct bucket; [apply sorted_data_perm|reflexivity]. }
    split; [exact R|]. apply (Permutation_NoDup (Permutation_sym R)).
    assert (NoDup perm) as N by (apply (Permutation_NoDup (Permutation_sym Hperm)), seq_NoDup).
    rewrite <- (firstn_skipn (num_samples n bs world) perm) in N. revert N. generalize (firstn (num_samples n bs world) perm) (skipn (num_samples n bs world) perm).
    clear. intros a b N. induction a as [|x a IH]; [constructor|]. inversion N as [|? ? Hx Ha]; subst. constructor; [|auto]. intro J. apply Hx, in_or_app. auto.
Qed.
(** the k-th batch of each rank is its piece of the k-th global batch: the ranks work on the same global batch at the same
    time, and a global batch is a stretch of the sorted shards (its sentences have similar lengths) *)
Theorem C117_bucketing_batches : forall bucket, (bucket = true -> bs * world <= n) ->
  exists rows, length rows = n / (bs * world) /\
    (forall row, In row rows -> exists k, k < n / (bs * world) /\
       row = firstn (bs * world) (skipn (k * (bs * world)) (if bucket then sorted_data else firstn (num_samples n bs world) perm))) /\
    forall rank, rank < world -> bucketing_indices n bs world rank bucket perm sorting order = Ok (concat (map (piece bs rank) rows)).
Proof.
  intros bucket Hb. destruct (bucketing_shape bucket Hb) as (rows & L & HR & P & _ & E). exists rows. split; [exact L|]. split; [|exact E].
  set (d := if bucket then sorted_data else firstn (num_samples n bs world) perm) in *.
  assert (Ld : length d = bs * world * (n / (bs * world))).
  { unfold d. destruct bucket; [rewrite (Permutation_length sorted_data_perm)|]; apply first_length. }
  intros row Hr. eapply Permutation_in in Hr; [|exact P].
  assert (G : forall q l, length l = bs * world * q -> In row (chunks (bs * world) l) -> exists k, k < q /\ row = firstn (bs * world) (skipn (k * (bs * world)) l)).
  { clear - Hbs Hw. induction q as [|q IH]; intros l Hl Hi.
    - rewrite Nat.mul_0_r in Hl. destruct l; [destruct Hi|discriminate].
    - rewrite <- (firstn_skipn (bs * world) l) in Hi. rewrite chunks_cons in Hi; [|nia|rewrite firstn_length; nia]. destruct Hi as [<-|Hi].
      + exists 0. split; [lia|]. reflexivity.
      + destruct (IH (skipn (bs * world) l)) as (k & A & B); [rewrite skipn_length; nia|auto|]. exists (S k). split; [lia|]. rewrite B, skipn_more. reflexivity. }
  apply (G _ d Ld Hr).
Qed.
(** the sentences of a global batch come from one stretch of 80 global batches of the shuffled data, and are neighbours
    when that stretch is sorted by length *)
Lemma chunks_multiples k (ls : list (list nat)) : 0 < k -> (forall l, In l ls -> exists q, length l = k * q) ->
  chunks k (concat ls) = concat (map (chunks k) ls).
Proof.
  intros Hk H. assert (E : concat ls = concat (concat (map (chunks k) ls))).
  { clear H. induction ls as [|r rows IH]; [reflexivity|]. cbn [map concat]. rewrite concat_app, <- IH, (chunks_all k r) by auto. reflexivity. }
  rewrite E. apply chunks_concat; [auto|]. intros x Hx. apply in_concat in Hx. destruct Hx as (l & Hl & Hx). apply in_map_iff in Hl.
  destruct Hl as (r & <- & Hr). destruct (H r Hr) as (q & Hq). apply (chunks_exact k q r Hk Hq). exact Hx.
Qed.
Lemma in_chunks k : 0 < k -> forall m l row, length l <= m -> In row (chunks k l) -> exists j, row = firstn k (skipn (j * k) l).
Proof.
  intros Hk. induction m as [|m IH]; intros l row Hm Hi.
  - destruct l; [destruct Hi|cbn in Hm; lia].
  - unfold chunks in Hi. destruct l as [|x l]; [destruct Hi|]. cbn [length chunk_fuel] in Hi. destruct Hi as [<-|Hi].
    + exists 0. reflexivity.
    + rewrite chunk_fuel_enough in Hi; [|auto|rewrite skipn_length; cbn [length]; lia].
      destruct (IH (skipn k (x :: l)) row) as (j & E); [rewrite skipn_length; cbn [length] in *; lia|auto|].
      exists (S j). rewrite E, skipn_more. reflexivity.
Qed.
Theorem C117_bucketing_similar : forall len : nat -> nat, bs * world <= n ->
  (forall sh, StronglySorted (fun i j => len i <= len j) (map (fun k => nth k sh 0) (sorting sh))) ->
  exists rows, (forall rank, rank < world -> bucketing_indices n bs world rank true perm sorting order = Ok (concat (map (piece bs rank) rows))) /\
    forall row, In row rows -> length row = bs * world /\ StronglySorted (fun i j => len i <= len j) row /\
      exists stretch j k, StronglySorted (fun i j => len i <= len j) stretch /\
        Permutation stretch (firstn (80 * (bs * world)) (skipn (j * (80 * (bs * world))) (firstn (n / (bs * world) * (bs * world)) perm))) /\
        row = firstn (bs * world) (skipn (k * (bs * world)) stretch).
Proof.
  intros len Hn Hs. destruct (bucketing_shape true (fun _ => Hn)) as (rows & L & HR & P & _ & E). exists rows. split; [exact E|].
  intros row Hr. split; [auto|]. eapply Permutation_in in Hr; [|exact P]. unfold sorted_data in Hr.
  assert (M : forall sh, In sh (chunks (bs * world * 80) (firstn (num_samples n bs world) perm)) -> (exists j, sh = firstn (bs * world * 80) (skipn (j * (bs * world * 80)) (firstn (num_samples n bs world) perm))) /\ exists q, length sh = bs * world * q).
  { intros sh Hsh. apply (in_chunks (bs * world * 80) ltac:(nia) _ _ _ (le_n _)) in Hsh. destruct Hsh as (j & ->). split; [eauto|].
    exists (Nat.min 80 (n / (bs * world) - j * 80)). rewrite firstn_length, skipn_length, first_length.
    rewrite <- Nat.mul_min_distr_l, Nat.mul_sub_distr_l. f_equal. f_equal. nia. }
  rewrite chunks_multiples in Hr; [|nia|].
  - apply in_concat in Hr. destruct Hr as (c & Hc & Hr). rewrite map_map in Hc. apply in_map_iff in Hc. destruct Hc as (sh & <- & Hsh).
    destruct (M sh Hsh) as [(j & Ej) _]. apply (in_chunks (bs * world) ltac:(nia) _ _ _ (le_n _)) in Hr. destruct Hr as (k & Ek).
    assert (Ss : StronglySorted (fun i j => len i <= len j) (take sh (sorting sh))) by apply Hs. split.
    + rewrite Ek. clear - Ss. revert Ss. generalize (take sh (sorting sh)) (k * (bs * world)) (bs * world). intros l a b Ss.
      assert (forall m (l : list nat), StronglySorted (fun i j => len i <= len j) l -> StronglySorted (fun i j => len i <= len j) (skipn m l)) as D.
      { induction m as [|m IH]; intros [|x r] H; cbn [skipn]; auto. apply IH. inversion H; auto. }
      assert (forall m (l : list nat), StronglySorted (fun i j => len i <= len j) l -> StronglySorted (fun i j => len i <= len j) (firstn m l)) as F.
      { induction m as [|m IH]; intros [|x r] H; cbn [firstn]; try constructor; inversion H as [|? ? Hr Hx]; subst; [apply IH; auto|].
        rewrite Forall_forall in *. intros y Hy. apply Hx. eapply In_firstn_in; eauto. }
      apply F, D, Ss.
    + exists (take sh (sorting sh)), j, k. split; [exact Ss|]. split; [|exact Ek]. rewrite (take_perm sh _ (Hsort sh)), Ej.
      unfold num_samples. rewrite (Nat.mul_comm 80). reflexivity.
  - intros l Hl. apply in_map_iff in Hl. destruct Hl as (sh & <- & Hsh). destruct (M sh Hsh) as [_ (q & Eq)]. exists q.
    rewrite (Permutation_length (take_perm sh _ (Hsort sh))). exact Eq.
Qed.
(** a data set smaller than one global batch is refused when bucketing, and is empty otherwise *)
Theorem C117_small_data_refuted : forall rank, n < bs * world -> bucketing_indices n bs world rank true perm sorting order = Raise RuntimeError /\
  bucketing_indices n bs world rank false perm sorting order = Ok [].
Proof.
  intros rank H. unfold bucketing_indices, num_samples. rewrite (Nat.div_small n) by auto. cbn [Nat.mul firstn]. split; reflexivity.
Qed.
End Bucketing.
(** the last samples of the permutation are never used in the epoch; and as nothing but the epoch number seeds the
    permutation, training that never sets the epoch leaves out the same samples every time *)
Theorem C117_same_samples_left_out_refuted : forall n bs world perm sorting order bucket i, 0 < bs -> 0 < world ->
  Permutation perm (seq 0 n) -> (forall sh, Permutation (sorting sh) (seq 0 (length sh))) -> (forall k, Permutation (order k) (seq 0 k)) ->
  (bucket = true -> bs * world <= n) -> In i (skipn (n / (bs * world) * (bs * world)) perm) ->
  forall rank l, rank < world -> bucketing_indices n bs world rank bucket perm sorting order = Ok l -> ~ In i l.
Proof.
  intros n bs world perm sorting order bucket i Hbs Hw Hp Hs Ho Hb Hi rank l Hr El Hin.
  destruct (C117_bucketing_partition n bs world perm sorting order Hbs Hw Hp Hs Ho bucket Hb) as (f & E & P & _).
  destruct (E rank Hr) as [X _]. rewrite El in X. injection X as ->.
  assert (In i (firstn (n / (bs * world) * (bs * world)) perm)) as I1.
  { eapply Permutation_in; [exact P|]. apply in_concat. exists (f rank). split; [apply in_map, in_seq; lia|auto]. }
  assert (NoDup perm) as N by (apply (Permutation_NoDup (Permutation_sym Hp)), seq_NoDup).
  rewrite <- (firstn_skipn (n / (bs * world) * (bs * world)) perm) in N. revert I1 Hi N.
  generalize (firstn (n / (bs * world) * (bs * world)) perm) (skipn (n / (bs * world) * (bs * world)) perm). clear. intros a b Ha Hb N.
  induction a as [|x a IH]; [destruct Ha|]. inversion N as [|? ? Hx Hn]; subst. destruct Ha as [->|Ha]; [apply Hx, in_or_app; auto|auto].
Qed.
Example C117_bucketing_case : let perm := [9; 3; 5; 0; 7; 2; 8; 1; 6; 4] in let srt := fun sh : list nat => rev (seq 0 (length sh)) in let ord := fun k => rev (seq 0 k) in
  bucketing_indices 10 2 2 0 true perm srt ord = Ok [0; 5; 1; 8] /\ bucketing_indices 10 2 2 1 true perm srt ord = Ok [3; 9; 2; 7] /\
  bucketing_indices 10 2 2 0 false perm srt ord = Ok [9; 3; 7; 2] /\ Permutation perm (seq 0 10).
Proof.
  cbn zeta. repeat split; try reflexivity. apply NoDup_Permutation_bis; [|reflexivity|]; [repeat (constructor; [cbn; lia|]); constructor|].
  intros x H. apply in_seq. cbn in H. lia.
Qed.

(** * Batches of sentences *)

Definition slen (x : nat * list nat) : nat := length (snd x).
Lemma insert_len_perm x l : Permutation (insert_len x l) (x :: l).
Proof. induction l as [|h l IH]; cbn [insert_len]; [reflexivity|]. destruct (Nat.leb _ _); [reflexivity|]. rewrite IH. apply perm_swap. Qed.
Lemma sorted_pairs_perm l : Permutation (fold_right insert_len [] l) l.
Proof. induction l as [|a b IH]; cbn [fold_right]; [reflexivity|]. rewrite insert_len_perm. constructor. exact IH. Qed.
Definition longer_len (a b : nat * list nat) : Prop := slen b <= slen a.
Lemma insert_len_sorted g l : StronglySorted longer_len l -> StronglySorted longer_len (insert_len g l).
Proof.
  induction l as [|h l IH]; intro H; cbn [insert_len]; [repeat constructor|]. inversion H as [|? ? Hl Hh]; subst.
  destruct (Nat.leb _ _) eqn:E.
  - apply Nat.leb_le in E. constructor; [auto|]. constructor; [exact E|]. eapply Forall_impl; [|exact Hh]. unfold longer_len, slen. intros; lia.
  - apply Nat.leb_gt in E. constructor; [auto|]. rewrite insert_len_perm. constructor; [unfold longer_len, slen; lia|exact Hh].
Qed.
Lemma sorted_pairs_sorted l : StronglySorted longer_len (fold_right insert_len [] l).
Proof. induction l; [constructor|]. cbn [fold_right]. apply insert_len_sorted. auto. Qed.

(** the padded tensor: column c is sequence c, then PAD up to the longest *)
Theorem C117_collate_seq : forall seqs, seqs <> [] -> exists rows, collate_seq seqs = Ok (rows, map (@length nat) seqs) /\
  forall c, c < length seqs -> column c PAD rows = nth c seqs [] ++ repeat PAD (list_max (map (@length nat) seqs) - length (nth c seqs [])).
Proof.
  intros seqs H. unfold collate_seq. destruct seqs as [|s0 l0] eqn:E0; [congruence|]. rewrite <- E0 in *. clear H.
  eexists. split; [reflexivity|]. intros c Hc. unfold column. rewrite map_map.
  assert (length (nth c seqs []) <= list_max (map (@length nat) seqs)) as L.
  { pose proof (proj1 (list_max_le (map (@length nat) seqs) _) (le_n _)) as F. rewrite Forall_forall in F. apply F. apply in_map, nth_In. auto. }
  rewrite (map_ext _ (fun r => nth r (nth c seqs []) PAD)).
  2: { intro r. rewrite (nth_indep _ PAD (nth r [] PAD)) by (rewrite map_length; auto). apply (map_nth (fun s => nth r s PAD)). }
  generalize dependent (nth c seqs []). generalize (list_max (map (@length nat) seqs)). clear. intros m s. revert m.
  induction s as [|x s IH]; intros m L.
  - cbn [length app]. rewrite Nat.sub_0_r. clear. generalize 0. induction m as [|m IH]; intro k; [reflexivity|]. cbn [seq map repeat]. rewrite IH. destruct k; reflexivity.
  - destruct m as [|m]; [cbn in L; lia|]. cbn [seq map nth app length Nat.sub]. f_equal. rewrite <- seq_shift, map_map. apply IH. cbn [length] in L. lia.
Qed.
(** pairs stay together: one order of the pairs, longest source first, gives both tensors; [indices] is that order *)
Theorem C117_collate : forall pairs, pairs <> [] -> exists a b indices, collate pairs = Ok (a, b, indices) /\
  Permutation indices (seq 0 (length pairs)) /\
  let ps := map (fun i => nth i pairs ([], [])) indices in
  StronglySorted (fun p q => length (fst q) <= length (fst p)) ps /\
  collate_seq (map fst ps) = Ok a /\ collate_seq (map snd ps) = Ok b.
Proof.
  intros pairs H. unfold collate. set (en := combine (seq 0 (length (map fst pairs))) (map fst pairs)). set (s := fold_right insert_len [] en).
  assert (P : Permutation s en) by apply sorted_pairs_perm.
  assert (K : map fst en = seq 0 (length pairs)).
  { unfold en. rewrite map_length. assert (forall (l : list (list nat)) k, map fst (combine (seq k (length l)) l) = seq k (length l)) as G.
    { induction l as [|x l IH]; intro k; [reflexivity|]. cbn. f_equal. apply IH. }
    pose proof (G (map fst pairs) 0) as X. rewrite map_length in X. exact X. }
  assert (V : forall x, In x s -> snd x = fst (nth (fst x) pairs ([], [])) /\ fst x < length pairs).
  { intros [i l] Hx. eapply Permutation_in in Hx; [|exact P]. unfold en in Hx. cbn [fst snd]. rewrite map_length in Hx.
    assert (forall (ps : list (list nat * list nat)) k, In (i, l) (combine (seq k (length ps)) (map fst ps)) -> k <= i < k + length ps /\ l = fst (nth (i - k) ps ([], []))) as G.
    { clear. induction ps as [|p ps IH]; intros k Hi; [destruct Hi|]. cbn [length seq map combine] in Hi. destruct Hi as [Hi|Hi].
      - injection Hi as -> <-. rewrite Nat.sub_diag. cbn [length]. split; [lia|reflexivity].
      - destruct (IH (S k) Hi) as [A B]. cbn [length]. split; [lia|]. replace (i - k) with (S (i - S k)) by lia. exact B. }
    destruct (G pairs 0 Hx) as [A B]. rewrite Nat.sub_0_r in B. split; [auto|lia]. }
  assert (PI : Permutation (map fst s) (seq 0 (length pairs))) by (rewrite <- K; apply Permutation_map, P).
  assert (S1 : map snd s = map fst (map (fun i => nth i pairs ([], [])) (map fst s))).
  { rewrite !map_map. apply map_ext_in. intros x Hx. apply V. auto. }
  assert (S2 : map (fun i => nth i (map snd pairs) []) (map fst s) = map snd (map (fun i => nth i pairs ([], [])) (map fst s))).
  { rewrite !map_map. apply map_ext_in. intros x Hx. destruct (V x Hx) as [_ L].
    rewrite (nth_indep _ [] (snd (@nil nat, @nil nat))) by (rewrite map_length; auto). apply (map_nth snd). }
  assert (Ne : map fst s <> []).
  { intro X. rewrite X in PI. apply Permutation_length in PI. rewrite seq_length in PI. destruct pairs; [congruence|discriminate]. }
  destruct (C117_collate_seq (map snd s)) as (a & Ea & _). { intro X. apply map_eq_nil in X. rewrite X in Ne. auto. }
  destruct (C117_collate_seq (map (fun i => nth i (map snd pairs) []) (map fst s))) as (b & Eb & _). { intro X. apply map_eq_nil in X. auto. }
  do 3 eexists. split; [rewrite Ea; cbn [bind]; rewrite Eb; reflexivity|]. split; [exact PI|]. cbn zeta. split; [|split; [rewrite <- S1; exact Ea|rewrite <- S2; exact Eb]].
  pose proof (sorted_pairs_sorted en) as So. fold s in So. rewrite map_map.
  assert (forall l, (forall x, In x l -> snd x = fst (nth (fst x) pairs ([], []))) -> StronglySorted longer_len l ->
    StronglySorted (fun p q : list nat * list nat => length (fst q) <= length (fst p)) (map (fun x => nth (fst x) pairs ([], [])) l)) as G.
  { clear. induction l as [|x l IH]; intros V H; [constructor|]. inversion H as [|? ? Hl Hx]; subst. cbn [map]. constructor; [apply IH; auto; intros; apply V; right; auto|].
    rewrite Forall_forall in *. intros q Hq. apply in_map_iff in Hq. destruct Hq as (y & <- & Hy). specialize (Hx y Hy). unfold longer_len, slen in Hx.
    rewrite <- (V x), <- (V y); [exact Hx|right; auto|left; auto]. }
  apply G; [intros x Hx; apply V; auto|exact So].
Qed.
(** translating a batch and putting the outputs back in the order of the input: output i belongs to sentence i *)
Theorem C117_unsort : forall (A : Type) indices (output : list A), Permutation indices (seq 0 (length output)) ->
  exists l, unsort indices output = Ok l /\ length l = length output /\ forall k i, nth_error indices k = Some i -> nth_error l i = nth_error output k.
Proof.
  intros A indices output P. unfold unsort.
  assert (Hin : forall i, i < length output -> exists k, index_of indices i = Some k /\ nth_error indices k = Some i).
  { intros i Hi. assert (In i indices) as I by (eapply Permutation_in; [apply Permutation_sym; exact P|apply in_seq; lia]). clear - I.
    induction indices as [|x l IH]; [destruct I|]. cbn [index_of]. destruct (Nat.eqb_spec x i) as [->|N]; [exists 0; auto|].
    destruct I as [->|I]; [congruence|]. destruct (IH I) as (k & -> & E). exists (S k). auto. }
  assert (Nd : NoDup indices) by (apply (Permutation_NoDup (Permutation_sym P)), seq_NoDup).
  assert (Li : length indices = length output) by (rewrite (Permutation_length P), seq_length; reflexivity).
  assert (G : forall is, (forall i, In i is -> i < length output) -> exists l, unsort_from indices output is = Ok l /\ length l = length is /\
    forall j i, nth_error is j = Some i -> forall k, nth_error indices k = Some i -> nth_error l j = nth_error output k).
  { induction is as [|i is IH]; intro H.
    - exists []. cbn. repeat split; auto. intros [|j] i E; discriminate.
    - destruct IH as (l & E & L & F); [intros; apply H; right; auto|]. cbn [unsort_from].
      destruct (Hin i (H i (or_introl eq_refl))) as (k & Ek & Ek'). rewrite Ek.
      assert (k < length output) as Lk by (rewrite <- Li; apply nth_error_Some; congruence).
      destruct (nth_error output k) as [x|] eqn:Ex; [|apply nth_error_None in Ex; lia]. rewrite E. cbn [bind]. eexists. split; [reflexivity|]. split; [cbn; lia|].
      intros [|j] i' Ej k' Ek''; cbn [nth_error] in *.
      + injection Ej as <-. assert (k' = k) as -> by (apply (proj1 (NoDup_nth_error indices) Nd); [rewrite Li; rewrite <- Li; apply nth_error_Some; congruence|congruence]). auto.
      + eapply F; eauto. }
  destruct (G (seq 0 (length output))) as (l & E & L & F); [intros i Hi; apply in_seq in Hi; lia|]. rewrite seq_length in L.
  exists l. split; [exact E|]. split; [exact L|]. intros k i Hk.
  assert (i < length output) as Hi.
  { apply nth_error_In in Hk. eapply Permutation_in in Hk; [|exact P]. apply in_seq in Hk. lia. }
  apply (F i i); [|exact Hk]. rewrite (nth_error_nth' _ 0) by (rewrite seq_length; auto). rewrite seq_nth by auto. reflexivity.
Qed.
(** both files are filtered together, before and after the limit: the pairs kept are exactly the pairs of lines of which
    both have an admissible length, in their order *)
Theorem C117_filter : forall mn mx src tgt,
  let r := filter_data mn mx src tgt in length (fst r) = length (snd r) /\
  combine (fst r) (snd r) = filter (fun st => (mn <=? length (fst st)) && (length (fst st) <=? mx) && ((mn <=? length (snd st)) && (length (snd st) <=? mx))) (combine src tgt) /\
  (forall s t, In (s, t) (combine (fst r) (snd r)) <-> In (s, t) (combine src tgt) /\ mn <= length s <= mx /\ mn <= length t <= mx).
Proof.
  intros mn mx src tgt r. unfold r, filter_data, in_range. set (f := filter _ (combine src tgt)). cbn [fst snd].
  assert (C : combine (map fst f) (map snd f) = f) by (clear; induction f as [|(a, b) f IH]; [reflexivity|]; cbn; f_equal; exact IH).
  split; [rewrite !map_length; reflexivity|]. split; [exact C|]. intros s t. rewrite C. unfold f. rewrite filter_In. cbn [fst snd].
  rewrite !andb_true_iff, !Nat.leb_le. tauto.
Qed.
Theorem C117_limited : forall k (src tgt : list (list nat)), combine (limited k src) (limited k tgt) = limited k (combine src tgt) /\
  (k = None \/ k = Some 0 -> limited k src = src) /\
  forall m, k = Some m -> 0 < m -> length (limited k src) = Nat.min m (length src) /\ forall i, i < m -> nth_error (limited k src) i = nth_error src i.
Proof.
  intros k src tgt. split; [destruct k as [[|k]|]; try reflexivity; symmetry; apply combine_firstn|]. split; [intros [->| ->]; reflexivity|].
  intros m -> Hm. destruct m as [|m]; [lia|]. cbn [limited]. split; [apply firstn_length|]. generalize (S m). clear. intros m. revert src.
  induction m as [|m IH]; intros src i H; [lia|]. destruct src as [|x src]; [reflexivity|]. destruct i as [|i]; [reflexivity|]. cbn [firstn nth_error]. apply IH. lia.
Qed.
Example C117_collate_case : collate [([2; 5; 3], [2; 3]); ([2; 7; 8; 3], [2; 9; 9; 9; 3])] =
  Ok (([[2; 2]; [7; 5]; [8; 3]; [3; 0]], [4; 3]), ([[2; 2]; [9; 3]; [9; 0]; [9; 0]; [3; 0]], [5; 2]), [1; 0]) /\ collate [] = Raise ValueError /\
  unsort [1; 2; 0] ["b"; "c"; "a"]%string = Ok ["a"; "b"; "c"]%string.
Proof. repeat split; reflexivity. Qed.

(** * Words and numbers *)

(** the vocabulary: the four special tokens (numbers 0 to 3) and the lines of the file *)
Definition vocab (lines : list string) : list string := ["<pad>"; "<unk>"; "<s>"; "<\s>"]%string ++ lines.
Lemma tok_gen l : match fold_left (fun d it => dset d (snd it) (fst it)) (combine (seq 0 (length l)) l) ([] : dict nat) with d =>
  NoDup (dkeys d) /\ forall w, match dget d w with Some i => last_at l w i | None => ~ In w l end end.
Proof.
  induction l as [|x l IH] using rev_ind; [split; [constructor|intros w []]|].
  rewrite app_length. cbn [length]. rewrite Nat.add_1_r, seq_S. cbn [Nat.add].
  assert (forall (a b : list nat) (c d : list string), length a = length c -> combine (a ++ b) (c ++ d) = combine a c ++ combine b d) as CA.
  { induction a as [|y a IHa]; intros b [|z c] d H; try discriminate; [reflexivity|]. cbn [app combine]. f_equal. apply IHa. cbn in H. lia. }
  rewrite CA by (rewrite seq_length; reflexivity). rewrite fold_left_app. cbn [combine fold_left fst snd].
  destruct IH as [N G]. split; [apply dset_NoDup; exact N|]. intro w. destruct (string_dec x w) as [->|Nw].
  - rewrite dget_dset_same. split; [rewrite nth_error_app2, Nat.sub_diag by lia; reflexivity|]. intros j Hj.
    rewrite (proj2 (nth_error_None _ _)) by (rewrite app_length; cbn; lia). discriminate.
  - rewrite dget_dset_other by auto. specialize (G w). destruct (dget _ w) as [i|].
    + destruct G as [A B]. split; [rewrite nth_error_app1; [auto|apply nth_error_Some; congruence]|]. intros j Hj X.
      destruct (Nat.lt_ge_cases j (length l)) as [L|L]; [rewrite nth_error_app1 in X by auto; apply (B j); auto|].
      rewrite nth_error_app2 in X by auto. destruct (j - length l) as [|k]; cbn in X; [congruence|destruct k; discriminate].
    + intro I. apply in_app_or in I. destruct I as [I|[I|[]]]; auto.
Qed.
Lemma tok2idx_last lines w i : dget (tok2idx lines) w = Some i <-> last_at (vocab lines) w i.
Proof.
  unfold tok2idx. change (specials ++ lines) with (vocab lines). destruct (tok_gen (vocab lines)) as [_ G]. specialize (G w).
  destruct (dget _ w) as [j|]; split; intro H.
  - injection H as <-. exact G.
  - f_equal. destruct G as [A B], H as [C D]. destruct (Nat.lt_trichotomy i j) as [L|[L|L]]; [|auto|]; exfalso; [apply (D j L A)|apply (B i L C)].
  - discriminate.
  - destruct H as [A _]. apply nth_error_In in A. contradiction.
Qed.
Lemma nget_nset d k v k' : nget (nset d k v) k' = if Nat.eqb k' k then Some v else nget d k'.
Proof.
  induction d as [|(j, u) d IH]; cbn [nset nget]; [reflexivity|]. destruct (Nat.eqb_spec k j) as [->|N]; cbn [nget].
  - destruct (Nat.eqb k' j); reflexivity.
  - rewrite IH. destruct (Nat.eqb_spec k' j) as [->|N']; [|reflexivity]. destruct (Nat.eqb_spec j k); [congruence|reflexivity].
Qed.
Lemma idx2tok_last lines w i : nget (idx2tok lines) i = Some w <-> last_at (vocab lines) w i.
Proof.
  rewrite <- tok2idx_last. assert (N : NoDup (dkeys (tok2idx lines))) by apply (tok_gen (vocab lines)).
  assert (V : forall w w' i, In (w, i) (tok2idx lines) -> In (w', i) (tok2idx lines) -> w = w').
  { intros a b j Ha Hb. apply (In_dget _ _ _ N) in Ha. apply (In_dget _ _ _ N) in Hb. apply tok2idx_last in Ha. apply tok2idx_last in Hb.
    destruct Ha as [Ha _], Hb as [Hb _]. congruence. }
  assert (G : nget (idx2tok lines) i = Some w <-> In (w, i) (tok2idx lines)).
  { unfold idx2tok. revert V. clear N. generalize (tok2idx lines). intros d V. induction d as [|(u, j) d IH] using rev_ind.
    - cbn. split; [discriminate|tauto].
    - rewrite fold_left_app. cbn [fold_left fst snd]. rewrite nget_nset, in_app_iff.
      assert (IH' := IH (fun a b k Ha Hb => V a b k (in_or_app _ _ _ (or_introl Ha)) (in_or_app _ _ _ (or_introl Hb)))).
      destruct (Nat.eqb_spec i j) as [->|Nj].
      + split; [intro H; injection H as ->; right; left; auto|]. intro H. f_equal. apply (V u w j); apply in_or_app; [right; left; auto|]. destruct H; [left|right]; auto.
      + rewrite IH'. split; [auto|]. intros [H|[H|[]]]; [auto|congruence]. }
  rewrite G. split; [apply (In_dget _ _ _ N)|apply dget_In].
Qed.
(** each word gets the number of its last line in the vocabulary, unknown words get UNK, and BOS and EOS surround them *)
Theorem C117_segment : forall lines words, exists ids, segment lines words = BOS :: ids ++ [EOS] /\
  Forall2 (fun w i => last_at (vocab lines) w i \/ (~ In w (vocab lines) /\ i = 1)) words ids /\
  forall i, In i (segment lines words) -> i < length (vocab lines).
Proof.
  intros lines words. eexists. split; [reflexivity|].
  assert (F : Forall2 (fun w i => last_at (vocab lines) w i \/ (~ In w (vocab lines) /\ i = 1)) words
    (map (fun w => match dget (tok2idx lines) w with Some i => i | None => UNK end) words)).
  { induction words as [|w ws IH]; constructor; [|exact IH]. destruct (dget (tok2idx lines) w) as [i|] eqn:E; [left; apply tok2idx_last; auto|right].
    split; [|reflexivity]. pose proof (proj2 (tok_gen (vocab lines)) w) as G. unfold tok2idx in E. change (specials ++ lines) with (vocab lines) in E. rewrite E in G. exact G. }
  split; [exact F|]. intros i [<-|Hi]; [unfold vocab, BOS, EOS; cbn; lia|]. apply in_app_or in Hi. destruct Hi as [Hi|[<-|[]]]; [|unfold vocab, BOS, EOS; cbn; lia].
  revert Hi F. generalize (map (fun w => match dget (tok2idx lines) w with Some i => i | None => UNK end) words). intros l Hi F.
  induction F as [|w j ws js H F IH]; [destruct Hi|]. destruct Hi as [->|Hi]; [|auto]. destruct H as [[H _]|[_ ->]]; [apply nth_error_Some; congruence|unfold vocab, BOS, EOS; cbn; lia].
Qed.
(** numbers go back to words exactly where the number is the last one of its word *)
Theorem C117_words : forall lines ids ws, words_of lines ids = Ok ws <-> Forall2 (fun i w => last_at (vocab lines) w i) ids ws.
Proof.
  intros lines ids. induction ids as [|i ids IH]; intro ws; cbn [words_of].
  - split; [intro H; injection H as <-; constructor|intro H; inversion H; reflexivity].
  - split.
    + intro H. destruct (nget (idx2tok lines) i) as [w|] eqn:E; [|discriminate]. destruct (words_of lines ids) as [r|] eqn:R; cbn [bind] in H; [|discriminate].
      injection H as <-. constructor; [apply idx2tok_last; auto|apply IH; auto].
    + intro H. inversion H as [|? w ? r A B]; subst. apply idx2tok_last in A. rewrite A. apply IH in B. rewrite B. reflexivity.
Qed.
(** with a vocabulary of different tokens, reading a sentence and writing it gives the sentence, marked at both ends, with
    <unk> for the unknown words *)
Theorem C117_roundtrip : forall lines words, NoDup (vocab lines) ->
  words_of lines (segment lines words) = Ok ("<s>"%string :: map (fun w => if in_dec string_dec w (vocab lines) then w else "<unk>"%string) words ++ ["<\s>"%string]).
Proof.
  intros lines words N. assert (L : forall w i, nth_error (vocab lines) i = Some w -> last_at (vocab lines) w i).
  { intros w i H. split; [exact H|]. intros j Hj X. assert (i = j); [|lia]. apply (proj1 (NoDup_nth_error _) N); [apply nth_error_Some; congruence|congruence]. }
  apply C117_words. destruct (C117_segment lines words) as (ids & -> & F & _). constructor; [apply (L "<s>"%string 2); reflexivity|]. apply Forall2_app.
  - induction F as [|w i ws is H F IH]; constructor; [|exact IH]. destruct (in_dec string_dec w (vocab lines)) as [I|I].
    + destruct H as [H|[H _]]; [exact H|contradiction].
    + destruct H as [[H _]|[_ ->]]; [apply nth_error_In in H; contradiction|apply (L "<unk>"%string 1); reflexivity].
  - constructor; [apply (L "<\s>"%string 3); reflexivity|constructor].
Qed.
(** with a token listed twice, a network that gives the number of the first one makes the translation fail *)
Theorem C117_duplicate_token_refuted : forall lines w i j, i < j -> nth_error (vocab lines) i = Some w -> nth_error (vocab lines) j = Some w ->
  words_of lines [i] = Raise KeyError.
Proof.
  intros lines w i j L A B. cbn [words_of]. destruct (nget (idx2tok lines) i) as [u|] eqn:E; [|reflexivity]. apply idx2tok_last in E.
  destruct E as [C D]. exfalso. apply (D j L). congruence.
Qed.
(** with <s> in the vocabulary file, no sentence read can be written again *)
Theorem C117_special_in_vocabulary_refuted : forall lines words, In "<s>"%string lines -> words_of lines (segment lines words) = Raise KeyError.
Proof.
  intros lines words H. apply In_nth_error in H. destruct H as (k & Hk). unfold segment. cbn [words_of].
  destruct (nget (idx2tok lines) BOS) as [w|] eqn:E; [|reflexivity]. apply idx2tok_last in E. destruct E as [A B]. cbn in A. injection A as <-.
  exfalso. apply (B (4 + k)); [unfold BOS; lia|exact Hk].
Qed.
Example C117_tokens_case : segment ["a"; "b"]%string ["b"; "x"; "a"]%string = [2; 5; 1; 4; 3] /\
  words_of ["a"; "b"]%string [2; 5; 1; 4; 3] = Ok ["<s>"; "b"; "<unk>"; "a"; "<\s>"]%string /\ NoDup (vocab ["a"; "b"]%string) /\
  words_of ["a"; "b"; "a"]%string [4] = Raise KeyError.
Proof.
  repeat split; try reflexivity. repeat (constructor; [cbn; intros H; repeat (destruct H as [H|H]; [discriminate|]); exact H|]). constructor.
Qed.
Print Assumptions C117_grouped_batches.
Print Assumptions C117_grouped_order.
Print Assumptions C117_grouped_succeeds.
Print Assumptions C117_small_groups_refuted.
Print Assumptions C117_group_never_seen_refuted.
Print Assumptions C117_bucketing_partition.
Print Assumptions C117_bucketing_batches.
Print Assumptions C117_bucketing_similar.
Print Assumptions C117_small_data_refuted.
Print Assumptions C117_same_samples_left_out_refuted.
Print Assumptions C117_collate_seq.
Print Assumptions C117_collate.
Print Assumptions C117_unsort.
Print Assumptions C117_filter.
Print Assumptions C117_limited.
Print Assumptions C117_segment.
Print Assumptions C117_words.
Print Assumptions C117_roundtrip.
Print Assumptions C117_duplicate_token_refuted.
Print Assumptions C117_special_in_vocabulary_refuted.
