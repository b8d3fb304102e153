(** Proofs for the feature-map reconstruction pruner: the samples. *)
From Coq Require Import String List ZArith QArith Qabs Qround Bool Arith Lia Lqa.
From Verif Require Import Base Lists SchedModel PrunerModel StructModel StructSpec FmModel FmSpec FmProofs.
Import ListNotations.
Open Scope list_scope.
Open Scope nat_scope.

Lemma map_combine_tab {B} (h : nat * nat -> B) l1 l2 P : length l1 = P -> length l2 = P ->
  map h (combine l1 l2) = tab P (fun p => h (nthn l1 p, nthn l2 p)).
Proof.
  revert l2 P. induction l1; intros l2 P H1 H2.
  - cbn in H1. subst P. reflexivity.
  - destruct l2; cbn in H1, H2; [lia|]. destruct P; [lia|]. cbn [combine map].
    rewrite (IHl1 l2 P) by lia. unfold tab. cbn [seq map]. f_equal. rewrite <- seq_shift, map_map. reflexivity.
Qed.
Lemma flat_map_map {A B C'} (h : B -> C') (f : A -> list B) l : map h (flat_map f l) = flat_map (fun a => map h (f a)) l.
Proof. induction l; [reflexivity|]. cbn. now rewrite map_app, IHl. Qed.
Lemma flat_map_flat_map {A B C'} (h : B -> list C') (f : A -> list B) l : flat_map h (flat_map f l) = flat_map (fun a => flat_map h (f a)) l.
Proof. induction l; [reflexivity|]. cbn. now rewrite flat_map_app, IHl. Qed.
Lemma flat_map_ext_in {A B} (f g : A -> list B) l : (forall a, In a l -> f a = g a) -> flat_map f l = flat_map g l.
Proof. induction l; intros H; [reflexivity|]. cbn. rewrite H by (now left). rewrite IHl; [reflexivity|]. intros; apply H; now right. Qed.
Lemma flat_map_of_map {A B C'} (h : B -> list C') (f : A -> B) l : flat_map h (map f l) = flat_map (fun a => h (f a)) l.
Proof. induction l; [reflexivity|]. cbn. now rewrite IHl. Qed.

Lemma collect_ok {B} (hook : B -> res (samples * list (list Q))) cols P (at_ : B -> list (nat -> nat -> Q)) Y bs :
  (forall b, In b bs -> hook b = Ok (mkS cols P (at_ b), Y b)) -> bs <> [] ->
  collect hook bs = Ok (mkS cols P (flat_map at_ bs), flat_map Y bs).
Proof.
  intros H Hne. unfold collect.
  assert (E : forall acc, foldM (fun acc b => do e <- hook b; Ok (acc ++ [e])) bs acc =
              Ok (acc ++ map (fun b => (mkS cols P (at_ b), Y b)) bs)).
  { clear Hne. induction bs as [|b bs IH]; intros acc; cbn [foldM map].
    - now rewrite app_nil_r.
    - rewrite H by (now left). cbn [bind]. rewrite IH by (intros; apply H; now right).
      rewrite <- app_assoc. reflexivity. }
  rewrite E. cbn [bind app]. destruct bs as [|b bs]; [congruence|]. cbn [map]. unfold cat. cbn [s_cols s_pts].
  assert (EF : forall l : list B, forallb (fun e : samples * list (list Q) => (s_cols (fst e) =? cols) && (s_pts (fst e) =? P))
            (map (fun b => (mkS cols P (at_ b), Y b)) l) = true).
  { induction l; [reflexivity|]. cbn [map forallb fst s_cols s_pts]. now rewrite !Nat.eqb_refl, IHl. }
  change ((mkS cols P (at_ b), Y b) :: map (fun b0 => (mkS cols P (at_ b0), Y b0)) bs)
    with (map (fun b0 => (mkS cols P (at_ b0), Y b0)) (b :: bs)).
  rewrite EF. rewrite !flat_map_of_map. reflexivity.
Qed.

(** ** the features of a convolution at an output position *)
Definition feat (g : geom) (q : fmap * nat * nat * nat) (col : nat) : Q :=
  match q with (x, n, i, j) =>
    let K := kh g * kw g in
    padded g x n (col / K) (i * sh g + col mod K / kw g) (j * sw g + (col mod K) mod kw g)
  end.
Definition conv_pos (g : geom) F C (v : nd) (q : fmap * nat * nat * nat) (f : nat) : Q :=
  match q with (x, n, i, j) => conv_at g F C (wt v) no_bias x n f i j end.
Definition conv_target (g : geom) F C (p : nd) bias (q : fmap * nat * nat * nat) (f : nat) : Q :=
  match q with (x, n, i, j) => conv_at g F C (wt p) bias x n f i j end.

Lemma plain_K g : plain g -> 0 < kh g * kw g.
Proof. intros (_ & _ & _ & H1 & H2). nia. Qed.

Lemma conv_linear g F C : plain g -> forall v a f, f < F ->
  (conv_pos g F C v a f == qsum (tab C (fun c => qsum (tab (kh g * kw g) (fun q =>
     wt v f c (q / kw g)%nat (q mod kw g)%nat * feat g a (c * (kh g * kw g) + q)%nat)))))%Q.
Proof.
  intros Hp v [[[x n] i] j] f Hf. assert (HK := plain_K g Hp). destruct Hp as (Hd1 & Hd2 & Hg & Hk1 & Hk2).
  unfold conv_pos, conv_at, no_bias. rewrite Hg, Hd1, Hd2, Nat.div_1_r, (Nat.div_small f F) by auto. cbn [Nat.mul Nat.add].
  rewrite Qplus_0_l. apply qsum_tab_ext. intros c Hc. rewrite qsum_flat2 by auto. apply qsum_tab_ext. intros q Hq.
  unfold feat. set (K := kh g * kw g) in *. clearbody K.
  rewrite Nat.div_add_l, (Nat.div_small q K), Nat.add_0_r by lia.
  rewrite (Nat.add_comm (c * K) q), Nat.mod_add, (Nat.mod_small q K) by lia.
  rewrite !Nat.mul_1_r. reflexivity.
Qed.

Lemma forall_nth (R : nat -> Prop) l p : Forall R l -> p < length l -> R (nthn l p).
Proof. intros H Hp. rewrite Forall_forall in H. apply H. apply nth_In. auto. Qed.
Lemma all_below_true n l : Forall (fun i => i < n) l -> all_below n l = true.
Proof. intros H. unfold all_below. apply forallb_forall. intros i Hi. rewrite Forall_forall in H. apply Nat.ltb_lt. auto. Qed.

(** the samples the hook takes from one batch are the features at the drawn positions *)
Definition img_samples (g : geom) (b : batch) : list (nat -> nat -> Q) -> Prop := fun l =>
  length l = fN (b_x b) /\
  forall n c p, n < fN (b_x b) -> c < fC (b_x b) * (kh g * kw g) -> p < length (b_rx b) ->
    nth n l (fun _ _ => 0%Q) c p = feat g (b_x b, n, nthn (b_rx b) p, nthn (b_ry b) p) c.

Definition cols_of (g : geom) C := C * (kh g * kw g).

Definition batch_at (g : geom) (b : batch) : list (nat -> nat -> Q) :=
  if (kh g =? 1) && (kw g =? 1) then tab (fN (b_x b)) (fun n => fun c p => fAt (b_x b) n c (nthn (b_rx b) p) (nthn (b_ry b) p))
  else tab (fN (b_x b)) (fun n => fun col p => unfold_at g (b_x b) n col
         (nthn (map (fun p => nthn (b_rx b) p * out_h g (b_x b) + nthn (b_ry b) p) (seq 0 (length (b_rx b)))) p)).

Lemma out_unf g x : plain g -> unf_h g x = out_h g x /\ unf_w g x = out_w g x.
Proof. intros (H1 & H2 & _). unfold unf_h, unf_w, out_h, out_w. now rewrite H1, H2. Qed.

Lemma out_size_1 n p : 0 < n -> out_size n 1 1 0 p = n.
Proof. intros H. unfold out_size. rewrite Nat.div_1_r. lia. Qed.

Lemma hook_ok g F C P p bias b : plain g -> regular g (b_x b) -> drawn g C P b ->
  hook_conv g F C (wt p) bias (b_x b) (b_rx b) (b_ry b) =
    Ok (mkS (cols_of g C) P (batch_at g b),
        map (fun q => tab F (conv_target g F C p bias q)) (positions [b])) /\
  img_samples g b (batch_at g b).
Proof.
  intros Hp Hr (HC & H1 & H2 & Hx & Hy). assert (HK := plain_K g Hp).
  destruct (out_unf g (b_x b) Hp) as [EUh EUw].
  assert (EY : y_rows (fN (b_x b)) P F (fun n f p0 => conv_at g F C (wt p) bias (b_x b) n f (nthn (b_rx b) p0) (nthn (b_ry b) p0)) =
          map (fun q => tab F (conv_target g F C p bias q)) (positions [b])).
  { unfold y_rows, positions. cbn [flat_map]. rewrite app_nil_r, flat_map_map. apply flat_map_ext_in. intros n _.
    rewrite map_map. rewrite (map_combine_tab _ _ _ P) by auto. reflexivity. }
  unfold hook_conv. rewrite H1, EY. unfold regular in Hr. unfold batch_at, cols_of.
  destruct ((kh g =? 1) && (kw g =? 1)) eqn:E1.
  - apply andb_true_iff in E1. destruct E1 as [Ea Eb]. apply Nat.eqb_eq in Ea, Eb.
    destruct Hr as (Hs1 & Hs2 & Hq1 & Hq2 & Hh & Hw).
    unfold out_h, out_w in Hx, Hy. rewrite Ea, Hs1, Hq1 in Hx. rewrite Eb, Hs2, Hq2 in Hy.
    rewrite out_size_1 in Hx, Hy by auto.
    rewrite all_below_true, all_below_true by auto. rewrite HC, Ea, Eb, !Nat.mul_1_r. cbn [andb]. split; [reflexivity|].
    split; [now rewrite tab_length|]. intros n c q Hn Hc Hq. rewrite tab_nth by auto. unfold feat. rewrite Ea, Eb, Hs1, Hs2.
    rewrite !Nat.mul_1_r, !Nat.div_1_r, !Nat.mod_1_r, !Nat.add_0_r. unfold padded. rewrite Hq1, Hq2. rewrite !Nat.sub_0_r, !Nat.add_0_l. change (0 <=? nthn (b_rx b) q) with true. change (0 <=? nthn (b_ry b) q) with true.
    assert (Bx := forall_nth _ _ _ Hx Hq). assert (By := forall_nth _ _ q Hy ltac:(lia)). cbn beta in Bx, By.
    rewrite (proj2 (Nat.ltb_lt _ _) Bx), (proj2 (Nat.ltb_lt _ _) By). reflexivity.
  - destruct Hr as (Hsq & HN & HL & HCK).
    rewrite EUh, EUw. rewrite <- Hsq in *.
    rewrite (proj2 (Nat.eqb_neq _ _) HN). rewrite HC in *.
    rewrite (proj2 (Nat.eqb_neq (C * (kh g * kw g)) 1)) by lia.
    rewrite (proj2 (Nat.eqb_neq (out_h g (b_x b) * out_h g (b_x b)) 1)) by nia. cbn [orb].
    assert (HP : forall q, q < P -> nthn (map (fun p0 => nthn (b_rx b) p0 * out_h g (b_x b) + nthn (b_ry b) p0) (seq 0 P)) q =
              nthn (b_rx b) q * out_h g (b_x b) + nthn (b_ry b) q).
    { intros q Hq. unfold nthn at 1. change (map ?f (seq 0 P)) with (tab P f). now rewrite tab_nth. }
    rewrite all_below_true.
    2:{ apply Forall_forall. intros l Hl. apply in_map_iff in Hl. destruct Hl as (q & <- & Hq). apply in_seq in Hq.
        assert (Bx := forall_nth _ _ q Hx ltac:(lia)). assert (By := forall_nth _ _ q Hy ltac:(lia)). cbn beta in Bx, By. nia. }
    rewrite H1. split; [reflexivity|]. split; [now rewrite tab_length|]. rewrite H1. intros n c q Hn Hc Hq. rewrite tab_nth by auto.
    rewrite HP by auto. unfold unfold_at, feat. rewrite EUw.
    assert (Bx := forall_nth _ _ q Hx ltac:(lia)). assert (By := forall_nth _ _ q Hy ltac:(lia)). cbn beta in Bx, By.
    rewrite Nat.div_add_l, (Nat.div_small (nthn (b_ry b) q)), Nat.add_0_r by lia.
    rewrite (Nat.add_comm (_ * _) (nthn (b_ry b) q)), Nat.mod_add, (Nat.mod_small (nthn (b_ry b) q)) by lia. reflexivity.
Qed.

Lemma positions_flat bs : positions bs = flat_map (fun b => positions [b]) bs.
Proof. unfold positions. apply flat_map_ext_in. intros b _. cbn [flat_map]. now rewrite app_nil_r. Qed.

(** ** what is collected, and the regression matrices made of it *)
Lemma conv_collected g F C P p bias bs : plain g -> bs <> [] -> Forall (fun b => regular g (b_x b)) bs -> Forall (drawn g C P) bs ->
  collect (fun b => hook_conv g F C (wt p) bias (b_x b) (b_rx b) (b_ry b)) bs =
  Ok (mkS (cols_of g C) P (flat_map (batch_at g) bs), map (fun q => tab F (conv_target g F C p bias q)) (positions bs)).
Proof.
  intros Hp Hne Hr Hd. rewrite positions_flat, flat_map_map. apply collect_ok; auto.
  intros b Hb. rewrite Forall_forall in Hr, Hd. apply (hook_ok g F C P p bias b); auto.
Qed.

Definition conv_row (g : geom) (bm : list Q) (q : fmap * nat * nat * nat) : list Q :=
  row_of _ (kh g * kw g) (feat g) bm q.

Lemma x_rows_gen k1 k2 bm X : ~ (k1 = 1 /\ k2 = 1) -> x_rows (OpConv (k1, k2)) bm X =
      let idx := kept bm in let m := length idx in
      let K := k1 * k2 in
      if (length (s_at X) =? 0) || (K =? 0) || (s_pts X =? 0) then Raise RuntimeError
      else if negb (s_cols X mod K =? 0) then Raise RuntimeError
      else if s_cols X / K =? length bm then
        if m =? 0 then Raise RuntimeError
        else Ok (flat_map (fun a : nat -> nat -> Q =>
                   tab (s_pts X) (fun p => tab (m * K) (fun j => a (nthn idx (j / K) * K + j mod K) p))) (s_at X))
      else Raise IndexError.
Proof. intros H. destruct k1 as [|[|k1]]; destruct k2 as [|[|k2]]; try reflexivity. exfalso. apply H. auto. Qed.

Lemma conv_rows g C P bm bs : plain g -> Forall (fun b => regular g (b_x b)) bs -> Forall (drawn g C P) bs ->
  length bm = C -> kept bm <> [] -> 0 < P -> positions bs <> [] ->
  x_rows (OpConv (kh g, kw g)) bm (mkS (cols_of g C) P (flat_map (batch_at g) bs)) = Ok (map (conv_row g bm) (positions bs)).
Proof.
  intros Hp Hr Hd Hbm Hk HP Hpos. assert (HK := plain_K g Hp).
  assert (Hm : length (kept bm) <> 0) by (destruct (kept bm); [congruence|cbn; lia]).
  assert (EB : forall (R : (nat -> nat -> Q) -> nat -> list Q),
     (forall a q, (forall c, c < C * (kh g * kw g) -> forall p, p < P -> a c p = feat g (q p) c) -> forall p, p < P -> R a p = conv_row g bm (q p)) ->
     flat_map (fun a => tab P (R a)) (flat_map (batch_at g) bs) = map (conv_row g bm) (positions bs)).
  { intros R HR. rewrite flat_map_flat_map. unfold positions. rewrite flat_map_map. apply flat_map_ext_in. intros b Hb.
    rewrite Forall_forall in Hr, Hd. destruct (hook_ok g 0 C P (mkND [] []) (fun _ => 0%Q) b Hp (Hr b Hb) (Hd b Hb)) as [_ [HL HS]].
    destruct (Hd b Hb) as (HC & H1 & H2 & _).
    rewrite <- (tab_of_list (fun _ _ => 0%Q) (batch_at g b)), HL. rewrite flat_map_map. unfold tab at 2. rewrite flat_map_of_map.
    apply flat_map_ext_in. intros n Hn. apply in_seq in Hn. rewrite map_map. rewrite (map_combine_tab _ _ _ P) by auto.
    apply tab_ext. intros p Hp'. apply (HR _ (fun p => (b_x b, n, nthn (b_rx b) p, nthn (b_ry b) p))); auto.
    intros c Hc p0 Hp0. apply HS; lia. }
  assert (Hidx : forall i, i < length (kept bm) -> nthn (kept bm) i < C).
  { intros i Hi. rewrite <- Hbm. apply kept_lt. apply nth_In. auto. }
  unfold cols_of.
  assert (Hd' : (kh g = 1 /\ kw g = 1) \/ ~ (kh g = 1 /\ kw g = 1)) by lia.
  destruct Hd' as [[Ea Eb]|Hne].
  - rewrite Ea, Eb. cbn [x_rows s_cols s_pts s_at]. rewrite ?Nat.mul_1_r, Hbm, Nat.eqb_refl.
    rewrite (proj2 (Nat.eqb_neq _ _) Hm). f_equal. apply EB. intros a q Ha p Hp'.
    unfold conv_row, row_of. rewrite (map_nth_tab 0). rewrite Ea, Eb, !Nat.mul_1_r. apply tab_ext. intros i Hi.
    rewrite Nat.mod_1_r, Nat.div_1_r, Nat.mul_1_r, Nat.add_0_r. apply Ha; auto. rewrite Ea, Eb. specialize (Hidx i Hi). unfold nthn in Hidx. lia.
  - rewrite x_rows_gen by auto. cbn [s_cols s_pts s_at]. set (K := kh g * kw g) in *.
    assert (HL : length (flat_map (batch_at g) bs) <> 0).
    { intros E. apply Hpos. apply length_zero_iff_nil in E.
      unfold positions. rewrite <- (flat_map_ext_in (fun _ => []) _ bs).
      - clear. induction bs; auto.
      - intros b Hb. rewrite Forall_forall in Hr, Hd.
        destruct (hook_ok g 0 C P (mkND [] []) (fun _ => 0%Q) b Hp (Hr b Hb) (Hd b Hb)) as [_ [HL _]].
        assert (E0 : batch_at g b = []).
        { destruct (batch_at g b) eqn:E1; [reflexivity|]. exfalso.
          assert (In q (flat_map (batch_at g) bs)) by (apply in_flat_map; exists b; rewrite E1; split; [auto|now left]).
          rewrite E in H. exact H. }
        rewrite E0 in HL. cbn in HL. rewrite <- HL. reflexivity. }
    rewrite (proj2 (Nat.eqb_neq _ _) HL), (proj2 (Nat.eqb_neq K 0)), (proj2 (Nat.eqb_neq P 0)) by lia. cbn [orb].
    rewrite Nat.mod_mul, Nat.div_mul by lia. rewrite Hbm, !Nat.eqb_refl, (proj2 (Nat.eqb_neq _ _) Hm). cbn [negb].
    f_equal. apply EB. intros a q Ha p Hp'. unfold conv_row, row_of. apply tab_ext. intros j Hj. fold K.
    apply Ha; auto. assert (Hi : j / K < length (kept bm)) by (apply Nat.div_lt_upper_bound; lia).
    specialize (Hidx _ Hi). unfold nthn in Hidx. assert (HjK : j mod K < K) by (apply Nat.mod_upper_bound; clear - HK; lia).
    clear - Hidx HjK. clearbody K. revert Hidx HjK. generalize (nth (j / K) (kept bm) 0), (j mod K). intros; nia.
Qed.
