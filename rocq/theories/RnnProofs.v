From Coq Require Import String List QArith Bool Arith Lia.
From Verif Require Import Base RnnModel RnnSpec.
Import ListNotations.
Open Scope Q_scope.

Definition par (c : cell) : lpar := mkLp (l_w (fc_x c)) (l_b (fc_x c)) (l_w (fc_h c)) (l_b (fc_h c)).
Definition lin_ok (n : nat) (l : linear) : Prop := length (l_w l) = n /\ match l_b l with Some b => length b = n | None => True end.
Definition cell_ok (H : nat) (c : cell) : Prop := lin_ok (4 * H) (fc_x c) /\ lin_ok (4 * H) (fc_h c).

Lemma lin_fwd_length n l x : lin_ok n l -> length (lin_fwd l x) = n.
Proof.
  intros (A & B). unfold lin_fwd. destruct (l_b l); [rewrite map2_length, map_length; lia|rewrite map_length; auto].
Qed.
Lemma lin_fwd_nth n l x k : lin_ok n l -> (k < n)%nat -> nth k (lin_fwd l x) 0 = affine (l_w l) (l_b l) x k.
Proof.
  intros (A & B) Hk. unfold lin_fwd, affine. destruct (l_b l) as [b|].
  - rewrite (map2_nth _ _ _ _ 0 0) by (try rewrite map_length; lia). f_equal.
    rewrite (nth_indep _ 0 (dotp [] x)) by (rewrite map_length; lia). rewrite (map_nth (fun w => dotp w x)). auto.
  - rewrite (nth_indep _ 0 (dotp [] x)) by (rewrite map_length; lia). rewrite (map_nth (fun w => dotp w x)). auto.
Qed.

Lemma bop_ok f a b : length a = length b -> bop f a b = Ok (map2 (map2 f) a b).
Proof. intro E. unfold bop. rewrite E, Nat.eqb_refl. auto. Qed.

Lemma nth_map' {A B} (f : A -> B) l i d d' : (i < length l)%nat -> nth i (map f l) d' = f (nth i l d).
Proof. intro H. rewrite (nth_indep _ d' (f d)) by (rewrite map_length; auto). apply map_nth. Qed.

Lemma nth_skipn {A} (l : list A) n j d : nth j (skipn n l) d = nth (n + j) l d.
Proof. revert l. induction n; intros l; [auto|]. destruct l; [destruct j; auto|]. cbn. apply IHn. Qed.
Lemma nth_firstn {A} (l : list A) n j d : (j < n)%nat -> nth j (firstn n l) d = nth j l d.
Proof. revert l j. induction n; intros l j H; [lia|]. destruct l; [destruct j; auto|]. destruct j; cbn; auto. apply IHn. lia. Qed.

Lemma chunk4_spec H r k : length r = (4 * H)%nat -> (k < 4)%nat -> length (chunk4 k r) = H /\ forall j, (j < H)%nat -> nth j (chunk4 k r) 0 = nth (k * H + j) r 0.
Proof.
  intros L Hk. unfold chunk4. rewrite L. replace ((4 * H + 3) / 4)%nat with H.
  2:{ rewrite Nat.mul_comm, Nat.div_add_l by lia. rewrite (Nat.div_small 3 4) by lia. lia. }
  split.
  - rewrite firstn_length, skipn_length, L. nia.
  - intros j Hj. rewrite nth_firstn by auto. apply nth_skipn.
Qed.

Lemma rect_row B H b i : rect B H b -> (i < B)%nat -> length (nth i b []) = H.
Proof. intros (L & F) Hi. rewrite Forall_forall in F. apply F. apply nth_In. lia. Qed.

Section S.
  Variables (sigma tanh : Q -> Q) (H : nat).
  Notation nh := (next_h sigma tanh H).
  Notation nc := (next_c sigma tanh H).

  Lemma cell_row c x h c0 B : cell_ok H c -> length x = B -> length h = B -> rect B H c0 ->
    exists h' c', cell_forward sigma tanh c x (Some (h, c0)) = Ok (h', c') /\ rect B H h' /\ rect B H c' /\
      forall i, (i < B)%nat -> nth i h' [] = nh (par c) (nth i x []) (nth i h []) (nth i c0 []) /\
                               nth i c' [] = nc (par c) (nth i x []) (nth i h []) (nth i c0 []).
  Proof.
    intros (Cx & Ch) Lx Lh Rc. assert (Lc := proj1 Rc). unfold cell_forward.
    rewrite bop_ok by (rewrite !map_length; lia). cbn [bind].
    set (gate := map2 (map2 Qplus) (map (lin_fwd (fc_x c)) x) (map (lin_fwd (fc_h c)) h)).
    assert (Lg : length gate = B) by (unfold gate; rewrite map2_length, !map_length; lia).
    assert (G : forall i, (i < B)%nat -> length (nth i gate []) = (4 * H)%nat /\
                forall k, (k < 4 * H)%nat -> nth k (nth i gate []) 0 = pre (par c) (nth i x []) (nth i h []) k).
    { intros i Hi. unfold gate. rewrite (map2_nth _ _ _ _ [] []) by (rewrite map_length; lia).
      rewrite !(nth_map' _ _ _ [] []) by lia. split; [rewrite map2_length, !(lin_fwd_length (4 * H)) by auto; lia|].
      intros k Hk. rewrite (map2_nth _ _ _ _ 0 0) by (rewrite (lin_fwd_length (4 * H)); auto; lia).
      rewrite !(lin_fwd_nth (4 * H)) by auto. reflexivity. }
    assert (CH : forall i k, (i < B)%nat -> (k < 4)%nat -> length (chunk4 k (nth i gate [])) = H /\
               forall j, (j < H)%nat -> nth j (chunk4 k (nth i gate [])) 0 = pre (par c) (nth i x []) (nth i h []) (k * H + j)).
    { intros i k Hi Hk. destruct (G i Hi) as (G1 & G2). destruct (chunk4_spec H _ k G1 Hk) as (A1 & A2). split; auto.
      intros j Hj. rewrite A2 by auto. apply G2. nia. }
    rewrite bop_ok by (rewrite !map_length; lia). cbn [bind].
    rewrite bop_ok by (rewrite !map_length; lia). cbn [bind].
    rewrite bop_ok by (rewrite !map2_length, !map_length; lia). cbn [bind].
    set (c' := map2 (map2 Qplus) _ _). assert (Lc' : length c' = B) by (unfold c'; rewrite !map2_length, !map_length; lia).
    rewrite bop_ok by (rewrite !map_length; lia). cbn [bind].
    set (h' := map2 (map2 Qmult) _ _). assert (Lh' : length h' = B) by (unfold h'; rewrite !map2_length, !map_length; lia).
    exists h', c'. split; [reflexivity|].
    assert (Rowc : forall i, (i < B)%nat -> nth i c' [] = nc (par c) (nth i x []) (nth i h []) (nth i c0 [])).
    { intros i Hi. unfold c'. rewrite (map2_nth _ _ _ _ [] []) by (rewrite !map2_length, !map_length; lia).
      rewrite (map2_nth _ _ c0 _ [] []) by (try rewrite map_length; lia).
      rewrite (map2_nth _ (map _ gate) (map _ gate) _ [] []) by (rewrite map_length; lia).
      rewrite !(nth_map' _ gate _ [] []) by lia.
      destruct (CH i 0%nat Hi ltac:(lia)) as (I1 & I2). destruct (CH i 1%nat Hi ltac:(lia)) as (F1 & F2). destruct (CH i 2%nat Hi ltac:(lia)) as (G1 & G2).
      assert (R := rect_row B H c0 i Rc Hi). unfold next_c.
      apply (nth_ext _ _ 0 0).
      - rewrite !map2_length, !map_length, seq_length. lia.
      - intros j Hj. rewrite !map2_length, !map_length in Hj. rewrite !(map2_nth _ _ _ _ 0 0) by (try rewrite map2_length; try rewrite map_length; try rewrite !map_length; lia).
        rewrite !(nth_map' _ _ _ 0 0) by lia. rewrite (nth_map' _ (seq 0 H) _ 0%nat 0) by (rewrite seq_length; lia). rewrite seq_nth by lia.
        rewrite I2, F2, G2 by lia. reflexivity. }
    assert (Rowh : forall i, (i < B)%nat -> nth i h' [] = nh (par c) (nth i x []) (nth i h []) (nth i c0 [])).
    { intros i Hi. unfold h'. rewrite (map2_nth _ _ _ _ [] []) by (rewrite !map_length; lia).
      rewrite (nth_map' _ gate _ [] []) by lia. rewrite (nth_map' _ c' _ [] []) by lia. rewrite Rowc by auto.
      destruct (CH i 3%nat Hi ltac:(lia)) as (O1 & O2). unfold next_h.
      assert (LC : length (nc (par c) (nth i x []) (nth i h []) (nth i c0 [])) = H) by (unfold next_c; rewrite map_length, seq_length; auto).
      apply (nth_ext _ _ 0 0).
      - rewrite !map2_length, !map_length, seq_length. lia.
      - intros j Hj. rewrite !map2_length, !map_length in Hj. rewrite !(map2_nth _ _ _ _ 0 0) by (rewrite map_length; lia).
        rewrite !(nth_map' _ _ _ 0 0) by lia. rewrite (nth_map' _ (seq 0 H) _ 0%nat 0) by (rewrite seq_length; lia). rewrite seq_nth by lia.
        rewrite O2 by lia. reflexivity. }
    assert (LEN : forall b (f : nat -> vec), length b = B -> (forall i, (i < B)%nat -> nth i b [] = f i) -> (forall i, length (f i) = H) -> rect B H b).
    { intros b f L F Lf. split; auto. apply Forall_forall. intros r Hr. destruct (In_nth _ _ [] Hr) as (i & Hi & <-). rewrite F by lia. auto. }
    split; [|split; [|auto]].
    - apply (LEN h' _ Lh' Rowh). intro i. unfold next_h. rewrite map_length, seq_length. auto.
    - apply (LEN c' _ Lc' Rowc). intro i. unfold next_c. rewrite map_length, seq_length. auto.
  Qed.

  (** one time step through the layers, one sample *)
  Fixpoint chain1 (ps : list lpar) (hs cs : list vec) (x : vec) : vec * (list vec * list vec) :=
    match ps, hs, cs with
    | p :: ps, h :: hs, c :: cs =>
        let y := nh p x h c in let r := chain1 ps hs cs y in
        (fst r, (y :: fst (snd r), nc p x h c :: snd (snd r)))
    | _, _, _ => (x, ([], []))
    end.

  Definition nodrop : nat -> nat -> batch -> batch := fun _ _ b => b.

  Lemma layer_chain_rows t cells : forall i hs cs out B, Forall (cell_ok H) cells ->
    states_ok (length cells) B H hs -> states_ok (length cells) B H cs -> length out = B ->
    exists o hs' cs', layer_chain sigma tanh nodrop t i cells hs cs out = Ok (o, hs', cs') /\
      length o = B /\ states_ok (length cells) B H hs' /\ states_ok (length cells) B H cs' /\
      forall k, (k < B)%nat ->
        (nth k o [], (sample k hs', sample k cs')) = chain1 (map par cells) (sample k hs) (sample k cs) (nth k out []).
  Proof.
    induction cells as [|c cells IH]; intros i hs cs out B Hc Hh Hcs Lo.
    - exists out, [], []. cbn. repeat split; auto; constructor.
    - destruct Hh as (L1 & F1), Hcs as (L2 & F2). destruct hs as [|h hs]; [discriminate|]. destruct cs as [|c0 cs]; [discriminate|].
      inversion Hc as [|? ? Hc1 Hc2]; subst. inversion F1 as [|? ? Fa1 Fb1]; subst. inversion F2 as [|? ? Fa2 Fb2]; subst.
      destruct (cell_row c out h c0 (length out) Hc1 eq_refl (proj1 Fa1) Fa2) as (h' & c' & E & R1 & R2 & Row).
      cbn [layer_chain]. rewrite E. cbn [bind fst snd].
      replace (match cells with [] => h' | _ :: _ => nodrop t i h' end) with h' by (destruct cells; auto).
      assert (S1 : states_ok (length cells) (length out) H hs) by (split; auto; cbn in L1; lia).
      assert (S2 : states_ok (length cells) (length out) H cs) by (split; auto; cbn in L2; lia).
      destruct (IH (S i) hs cs h' (length out) Hc2 S1 S2 (proj1 R1)) as (o & hs' & cs' & E' & Lo & (A1 & A2) & (B1 & B2) & Row').
      rewrite E'. cbn [bind fst snd]. exists o, (h' :: hs'), (c' :: cs'). split; [reflexivity|]. split; [auto|].
      split; [split; [cbn; lia|constructor; auto]|]. split; [split; [cbn; lia|constructor; auto]|].
      intros k Hk. destruct (Row k Hk) as (Ra & Rb). specialize (Row' k Hk). unfold sample in *. cbn [map chain1].
      rewrite <- Ra, <- Rb. destruct (chain1 (map par cells) (map (fun b => nth k b []) hs) (map (fun b => nth k b []) cs) (nth k h' [])) as (y & (a & b)).
      injection Row' as -> -> ->. reflexivity.
  Qed.

  (** layer by layer = step by step *)
  Lemma stack_step ps : forall hs cs x xs i, length hs = length ps -> length cs = length ps ->
    t_stack sigma tanh H no_drop i ps hs cs (x :: xs) =
    let r := chain1 ps hs cs x in
    let r' := t_stack sigma tanh H no_drop i ps (fst (snd r)) (snd (snd r)) xs in
    (fst r :: fst r', snd r').
  Proof.
    induction ps as [|p ps IH]; intros hs cs x xs i L1 L2; [destruct hs, cs; reflexivity|].
    destruct hs as [|h hs]; [discriminate|]. destruct cs as [|c cs]; [discriminate|].
    assert (D : forall (a : list vec) i, match ps with [] => a | _ :: _ => no_drop i a end = a) by (destruct ps; auto).
    cbn [t_stack chain1 t_layer fst snd]. rewrite !D. rewrite IH by (cbn in *; lia). cbv zeta. cbn [fst snd].
    reflexivity.
  Qed.
  Lemma chain1_length ps : forall hs cs x, length hs = length ps -> length cs = length ps ->
    length (fst (snd (chain1 ps hs cs x))) = length ps /\ length (snd (snd (chain1 ps hs cs x))) = length ps.
  Proof.
    induction ps as [|p ps IH]; intros hs cs x L1 L2; [destruct hs, cs; auto|].
    destruct hs as [|h hs]; [discriminate|]. destruct cs as [|c cs]; [discriminate|]. cbn. destruct (IH hs cs (nh p x h c)); cbn in *; lia.
  Qed.
  Lemma stack_nil ps : forall hs cs i, length hs = length ps -> length cs = length ps -> t_stack sigma tanh H no_drop i ps hs cs [] = ([], (hs, cs)).
  Proof.
    induction ps as [|p ps IH]; intros hs cs i L1 L2; [destruct hs, cs; try discriminate; reflexivity|].
    destruct hs as [|h hs]; [discriminate|]. destruct cs as [|c cs]; [discriminate|]. cbn [t_stack t_layer fst snd].
    replace (match ps with [] => _ | _ :: _ => no_drop _ _ end) with (@nil vec) by (destruct ps; auto). rewrite IH by (cbn in *; lia). reflexivity.
  Qed.

  Lemma steps_rows cells x : forall t hs cs B, Forall (cell_ok H) cells ->
    states_ok (length cells) B H hs -> states_ok (length cells) B H cs -> Forall (fun b => length b = B) x ->
    exists y hs' cs', steps sigma tanh nodrop t cells hs cs x = Ok (y, hs', cs') /\
      length y = length x /\ Forall (fun b => length b = B) y /\ states_ok (length cells) B H hs' /\ states_ok (length cells) B H cs' /\
      forall k, (k < B)%nat ->
        (sample k y, (sample k hs', sample k cs')) = t_stack sigma tanh H no_drop 0 (map par cells) (sample k hs) (sample k cs) (sample k x).
  Proof.
    induction x as [|s x IH]; intros t hs cs B Hc Hh Hcs Hx.
    - exists [], hs, cs. cbn [steps]. split; [reflexivity|]. repeat split; auto; try apply Hh; try apply Hcs. intros k Hk.
      unfold sample at 6. cbn [map]. rewrite stack_nil; auto; unfold sample; rewrite !map_length; first [apply Hh|apply Hcs].
    - inversion Hx as [|? ? Hs Hx']; subst. destruct (layer_chain_rows t cells 0 hs cs s (length s) Hc Hh Hcs eq_refl) as (o & hs1 & cs1 & E & Lo & S1 & S2 & Row).
      destruct (IH (S t) hs1 cs1 (length s) Hc S1 S2 Hx') as (y & hs2 & cs2 & E' & Ly & Fy & S3 & S4 & Row').
      cbn [steps]. rewrite E. cbn [bind fst snd]. rewrite E'. cbn [bind fst snd]. exists (o :: y), hs2, cs2.
      split; [reflexivity|]. split; [cbn; lia|]. split; [constructor; auto|]. split; auto. split; auto.
      intros k Hk. specialize (Row k Hk). specialize (Row' k Hk). unfold sample at 1 6. cbn [map]. fold (sample k y). fold (sample k x).
      rewrite stack_step by (unfold sample; rewrite !map_length; first [apply Hh|apply Hcs]). cbv zeta. rewrite <- Row. cbn [fst snd]. rewrite <- Row'. reflexivity.
  Qed.

  (** process_sequence_wise *)
  Lemma seq_rows c x : forall h c0 B, cell_ok H c -> rect B H h -> rect B H c0 -> Forall (fun b => length b = B) x ->
    exists y h' c', seq_steps sigma tanh c h c0 x = Ok (y, h', c') /\ length y = length x /\ Forall (rect B H) y /\ rect B H h' /\ rect B H c' /\
      forall k, (k < B)%nat -> (sample k y, (nth k h' [], nth k c' [])) = t_layer sigma tanh H (par c) (sample k x) (nth k h []) (nth k c0 []).
  Proof.
    induction x as [|s x IH]; intros h c0 B Hc Hh Hc0 Hx.
    - exists [], h, c0. cbn. repeat split; auto; try apply Hh; try apply Hc0.
    - inversion Hx as [|? ? Hs Hx']; subst. destruct (cell_row c s h c0 (length s) Hc eq_refl (proj1 Hh) Hc0) as (h1 & c1 & E & R1 & R2 & Row).
      destruct (IH h1 c1 (length s) Hc R1 R2 Hx') as (y & h2 & c2 & E' & Ly & Fy & R3 & R4 & Row').
      cbn [seq_steps]. rewrite E. cbn [bind fst snd]. rewrite E'. cbn [bind fst snd]. exists (h1 :: y), h2, c2.
      split; [reflexivity|]. split; [cbn; lia|]. split; [constructor; auto|]. split; auto. split; auto.
      intros k Hk. destruct (Row k Hk) as (Ra & Rb). specialize (Row' k Hk). unfold sample in *. cbn [map t_layer]. rewrite <- Ra, <- Rb.
      destruct (t_layer sigma tanh H (par c) (map (fun b => nth k b []) x) (nth k h1 []) (nth k c1 [])) as (a & b). injection Row' as <- <-. reflexivity.
  Qed.
End S.

Lemma mapi_length {A B} (f : nat -> A -> B) l : length (mapi f l) = length l.
Proof. unfold mapi. rewrite map_length, combine_length, seq_length. lia. Qed.
Lemma mapi_nth {A B} (f : nat -> A -> B) l k d d' : (k < length l)%nat -> nth k (mapi f l) d' = f k (nth k l d).
Proof.
  intro Hk. unfold mapi. rewrite (nth_map' _ _ _ (0%nat, d)) by (rewrite combine_length, seq_length; lia).
  rewrite combine_nth by (rewrite seq_length; auto). cbn. rewrite seq_nth by auto. auto.
Qed.
Lemma mapi_map {A B C} (f : nat -> B -> C) (g : A -> B) l : mapi f (map g l) = mapi (fun i x => f i (g x)) l.
Proof.
  unfold mapi. rewrite map_length. generalize 0%nat. induction l as [|x l IH]; intro n; [auto|]. cbn. f_equal. apply IH.
Qed.
Lemma map_mapi {A B C} (f : nat -> A -> B) (g : B -> C) l : map g (mapi f l) = mapi (fun i x => g (f i x)) l.
Proof. unfold mapi. rewrite map_map. auto. Qed.
Lemma mapi_ext_in {A B} (f g : nat -> A -> B) l : (forall i x, In x l -> f i x = g i x) -> mapi f l = mapi g l.
Proof.
  intro E. unfold mapi. apply map_ext_in. intros (i, x) Hx. cbn. apply E. apply in_combine_r in Hx. auto.
Qed.
Lemma Forall_mapi {A B} (P : B -> Prop) (f : nat -> A -> B) l : (forall i x, In x l -> P (f i x)) -> Forall P (mapi f l).
Proof.
  intro E. unfold mapi. apply Forall_forall. intros y Hy. apply in_map_iff in Hy. destruct Hy as ((i, x) & <- & Hx). apply E. apply in_combine_r in Hx. auto.
Qed.

Lemma sample_rev k x : sample k (rev x) = rev (sample k x).
Proof. unfold sample. apply map_rev. Qed.
Lemma Forall_rev' {A} (P : A -> Prop) l : Forall P l -> Forall P (rev l).
Proof. intro F. apply Forall_forall. intros x Hx. rewrite <- in_rev in Hx. rewrite Forall_forall in F. auto. Qed.

Lemma cat_last_rows a : forall b B k, length a = length b -> Forall (fun r => length r = B) a -> Forall (fun r => length r = B) b -> (k < B)%nat ->
  sample k (cat_last a b) = map2 (fun u v : vec => (u ++ v)%list) (sample k a) (sample k b).
Proof.
  induction a as [|r a IH]; intros [|s b] B k L Fa Fb Hk; try discriminate; [auto|].
  inversion Fa; subst. inversion Fb; subst. cbn [cat_last map2 sample map]. f_equal.
  - rewrite (map2_nth _ _ _ _ [] []) by lia. auto.
  - apply (IH b (length r) k); auto.
Qed.
Lemma cat_last_len a : forall b B, length a = length b -> Forall (fun r => length r = B) a -> Forall (fun r => length r = B) b ->
  length (cat_last a b) = length a /\ Forall (fun r => length r = B) (cat_last a b).
Proof.
  induction a as [|r a IH]; intros [|s b] B L Fa Fb; try discriminate; [split; constructor|].
  inversion Fa; subst. inversion Fb; subst. destruct (IH b (length r) ltac:(auto) ltac:(auto) ltac:(auto)) as (A1 & A2). cbn. split; [auto|].
  constructor; auto. rewrite map2_length. lia.
Qed.
Lemma drop_seq_rows dr i y B k : Forall (fun r => length r = B) y -> (k < B)%nat ->
  sample k (drop_seq (drop_batch dr) i y) = drop_sample dr k i (sample k y).
Proof.
  intros F Hk. unfold sample, drop_sample. change (drop_seq (drop_batch dr) i y) with (mapi (fun t b => drop_batch dr t i b) y).
  rewrite map_mapi, mapi_map. apply mapi_ext_in. intros t b Hb. rewrite Forall_forall in F. unfold drop_batch. apply mapi_nth. rewrite F; auto.
Qed.
Lemma drop_seq_len dr i y B : Forall (fun r => length r = B) y ->
  length (drop_seq (drop_batch dr) i y) = length y /\ Forall (fun r => length r = B) (drop_seq (drop_batch dr) i y).
Proof.
  intro F. change (drop_seq (drop_batch dr) i y) with (mapi (fun t b => drop_batch dr t i b) y). rewrite mapi_length. split; [auto|].
  apply Forall_mapi. intros t b Hb. unfold drop_batch. rewrite mapi_length. rewrite Forall_forall in F. auto.
Qed.
Lemma odds_cons {A} (a b : A) l : odds (a :: b :: l) = b :: odds l.
Proof. unfold odds. destruct l; auto. Qed.

Section S2.
  Variables (sigma tanh : Q -> Q) (H : nat).

  Lemma psw_rows c x h c0 B : x <> [] -> cell_ok H c -> rect B H h -> rect B H c0 -> Forall (fun b => length b = B) x ->
    exists y h' c', process_sequence_wise sigma tanh c x h c0 = Ok (y, h', c') /\ length y = length x /\ Forall (rect B H) y /\ rect B H h' /\ rect B H c' /\
      forall k, (k < B)%nat -> (sample k y, (nth k h' [], nth k c' [])) = t_layer sigma tanh H (par c) (sample k x) (nth k h []) (nth k c0 []).
  Proof. intros Hx. destruct x; [congruence|]. apply seq_rows. Qed.

  Lemma bidi_rows dr cells : forall cellsr i hs cs out B, length cellsr = length cells -> Forall (cell_ok H) cells -> Forall (cell_ok H) cellsr ->
    states_ok (2 * length cells) B H hs -> states_ok (2 * length cells) B H cs -> out <> [] -> Forall (fun b => length b = B) out ->
    exists y hs' cs', bidi sigma tanh (drop_batch dr) i cells cellsr (evens hs) (evens cs) (odds hs) (odds cs) out = Ok (y, hs', cs') /\
      length y = length out /\ Forall (fun b => length b = B) y /\ states_ok (2 * length cells) B H hs' /\ states_ok (2 * length cells) B H cs' /\
      forall k, (k < B)%nat -> (sample k y, (sample k hs', sample k cs')) =
        t_bistack sigma tanh H (drop_sample dr k) i (map par cells) (map par cellsr) (sample k hs) (sample k cs) (sample k out).
  Proof.
    induction cells as [|c cells IH]; intros cellsr i hs cs out B Lr Hc Hcr Sh Sc Hne Fo.
    - destruct cellsr; [|discriminate]. exists out, [], []. cbn [bidi]. split; [reflexivity|]. repeat split; auto.
    - destruct cellsr as [|cr cellsr]; [discriminate|]. destruct Sh as (L1 & F1), Sc as (L2 & F2).
      destruct hs as [|h [|hr hs]]; [discriminate|cbn in L1; lia|]. destruct cs as [|c0 [|c0r cs]]; [discriminate|cbn in L2; lia|].
      inversion Hc as [|? ? Hc1 Hc2]; subst. inversion Hcr as [|? ? Hr1 Hr2]; subst.
      inversion F1 as [|? ? Fa1 Fb1]; subst. inversion Fb1 as [|? ? Fa2 Fb2]; subst. inversion F2 as [|? ? Ga1 Gb1]; subst. inversion Gb1 as [|? ? Ga2 Gb2]; subst.
      rewrite !odds_cons. cbn [evens bidi].
      destruct (psw_rows c out h c0 B Hne Hc1 Fa1 Ga1 Fo) as (y1 & h1 & d1 & E1 & Ly1 & Fy1 & R1 & R2 & Row1).
      assert (Hne' : rev out <> []) by (intro K; apply Hne; rewrite <- (rev_involutive out), K; auto).
      destruct (psw_rows cr (rev out) hr c0r B Hne' Hr1 Fa2 Ga2 (Forall_rev' _ _ Fo)) as (y2 & h2 & d2 & E2 & Ly2 & Fy2 & R3 & R4 & Row2).
      rewrite E1. cbn [bind]. rewrite E2. cbn [bind fst snd].
      assert (FB : forall y, Forall (rect B H) y -> Forall (fun r => length r = B) y) by (intros y F; eapply Forall_impl; [|exact F]; intros ? K; apply K).
      assert (Ly : length y1 = length (rev y2)) by (rewrite rev_length, Ly2, rev_length; auto).
      destruct (cat_last_len y1 (rev y2) B Ly (FB _ Fy1) (Forall_rev' _ _ (FB _ Fy2))) as (C1 & C2).
      set (ycat := cat_last y1 (rev y2)) in *.
      set (out' := match cells with [] => ycat | _ :: _ => drop_seq (drop_batch dr) i ycat end).
      assert (O : length out' = length out /\ Forall (fun r => length r = B) out' /\
                forall k, (k < B)%nat -> sample k out' = match map par cells with [] => sample k ycat | _ => drop_sample dr k i (sample k ycat) end).
      { unfold out'. destruct cells; cbn [map].
        - split; [lia|]. split; auto.
        - destruct (drop_seq_len dr i ycat B C2) as (D1 & D2). split; [lia|]. split; auto. intros k Hk. apply (drop_seq_rows dr i ycat B k C2 Hk). }
      destruct O as (O1 & O2 & O3). assert (Hne2 : out' <> []) by (intro K; rewrite K in O1; destruct out; [congruence|discriminate]).
      assert (S1 : states_ok (2 * length cells) B H hs) by (split; auto; cbn in L1; lia).
      assert (S2 : states_ok (2 * length cells) B H cs) by (split; auto; cbn in L2; lia).
      destruct (IH cellsr (S i) hs cs out' B ltac:(cbn in Lr; lia) Hc2 Hr2 S1 S2 Hne2 O2) as (y & hs' & cs' & E & A1 & A2 & (A3 & A3') & (A4 & A4') & Row).
      rewrite E. cbn [bind fst snd]. exists y, (h1 :: h2 :: hs'), (d1 :: d2 :: cs'). split; [reflexivity|]. split; [lia|]. split; auto.
      split; [split; [cbn; lia|repeat constructor; auto; first [apply R1|apply R3]]|]. split; [split; [cbn; lia|repeat constructor; auto; first [apply R2|apply R4]]|].
      intros k Hk. specialize (Row k Hk). specialize (Row1 k Hk). specialize (Row2 k Hk). rewrite sample_rev in Row2.
      rewrite (O3 k Hk) in Row. unfold ycat in Row. rewrite (cat_last_rows y1 (rev y2) B k Ly (FB _ Fy1) (Forall_rev' _ _ (FB _ Fy2)) Hk) in Row.
      rewrite sample_rev in Row.
      change (sample k (h :: hr :: hs)) with (nth k h [] :: nth k hr [] :: sample k hs).
      change (sample k (c0 :: c0r :: cs)) with (nth k c0 [] :: nth k c0r [] :: sample k cs).
      change (sample k (h1 :: h2 :: hs')) with (nth k h1 [] :: nth k h2 [] :: sample k hs').
      change (sample k (d1 :: d2 :: cs')) with (nth k d1 [] :: nth k d2 [] :: sample k cs').
      cbn [map t_bistack]. unfold t_layer_rev. rewrite <- Row1, <- Row2. cbn [fst snd]. rewrite <- Row. reflexivity.
  Qed.
End S2.

(* ------------------------------------------------------------------------- *)
(** * Conversion *)

Definition slot_cell (c : cell) (g : pgate) (w : bool) : option mat :=
  let l := match g with GI => fc_x c | GH => fc_h c end in
  if w then Some (l_w l) else match l_b l with Some b => Some [b] | None => None end.
Definition slot (m : dlstm) (k : pkey) : option mat :=
  match k with (w, g, i, r) => match nth_error (if r then d_cells_rev m else d_cells m) i with Some c => slot_cell c g w | None => None end end.

Lemma pkey_eqb_spec a b : pkey_eqb a b = true <-> a = b.
Proof.
  destruct a as (((w, g), i), r), b as (((w', g'), i'), r'). unfold pkey_eqb. rewrite !andb_true_iff, Nat.eqb_eq, !Bool.eqb_true_iff. split.
  - intros (((-> & G) & ->) & ->). destruct g, g'; try discriminate; auto.
  - intro E. injection E as -> -> -> ->. repeat split; auto. destruct g'; auto.
Qed.

Lemma in_all_keys L bias bidir w g i r : In (w, g, i, r) (all_keys L bias bidir) <-> (i < L)%nat /\ (w = false -> bias = true) /\ (r = true -> bidir = true).
Proof.
  unfold all_keys. rewrite in_flat_map. split.
  - intros (j & Hj & Hk). apply in_seq in Hj. apply in_flat_map in Hk. destruct Hk as (w' & Hw & Hk). apply in_flat_map in Hk. destruct Hk as (g' & Hg & Hk).
    apply in_map_iff in Hk. destruct Hk as (r' & E & Hr). injection E as <- <- <- <-. split; [lia|]. split.
    + intros ->. destruct bias; auto. destruct Hw as [Hw|[]]; discriminate.
    + intros ->. destruct bidir; auto. destruct Hr as [Hr|[]]; discriminate.
  - intros (Hi & Hw & Hr). exists i. split; [apply in_seq; lia|]. apply in_flat_map. exists w. split.
    { destruct w; [destruct bias; left; auto|]. rewrite Hw by auto. right; left; auto. }
    apply in_flat_map. exists g. split; [destruct g; cbn; auto|]. apply in_map. destruct r; [rewrite Hr by auto; right; left; auto|]. destruct bidir; left; auto.
Qed.

Lemma upd_spec {A} (l : list A) n f l' : upd l n f = Ok l' -> length l' = length l /\ (forall i, nth_error l' i = if Nat.eqb i n then option_map f (nth_error l i) else nth_error l i) /\ (n < length l)%nat.
Proof.
  revert n l'. induction l as [|x l IH]; intros n l' E; [discriminate|]. destruct n.
  - injection E as <-. split; [auto|]. split; [|cbn; lia]. intros [|i]; auto.
  - cbn [upd] in E. inv_bind E. injection E as <-. destruct (IH _ _ H) as (A1 & A2 & A3). split; [cbn; lia|]. split; [|cbn; lia]. intros [|i]; auto. cbn. apply A2.
Qed.
Lemma upd_ok {A} (l : list A) n f : (n < length l)%nat -> exists l', upd l n f = Ok l'.
Proof.
  revert n. induction l as [|x l IH]; intros n Hn; [cbn in Hn; lia|]. destruct n; [eexists; reflexivity|]. cbn [upd].
  destruct (IH n ltac:(cbn in Hn; lia)) as (l' & ->). eexists. reflexivity.
Qed.

(** everything but the parameters *)
Definition frame (m m' : dlstm) : Prop :=
  d_in m' = d_in m /\ d_hid m' = d_hid m /\ d_layers m' = d_layers m /\ d_bias m' = d_bias m /\ d_batch_first m' = d_batch_first m /\
  d_dropout m' = d_dropout m /\ d_bidir m' = d_bidir m /\ map c_in (d_cells m') = map c_in (d_cells m) /\ map c_hid (d_cells m') = map c_hid (d_cells m) /\
  map c_in (d_cells_rev m') = map c_in (d_cells_rev m) /\ map c_hid (d_cells_rev m') = map c_hid (d_cells_rev m).
Lemma frame_refl m : frame m m.
Proof. repeat split. Qed.
Lemma frame_trans a b c : frame a b -> frame b c -> frame a c.
Proof. unfold frame. intros (?&?&?&?&?&?&?&?&?&?&?) (?&?&?&?&?&?&?&?&?&?&?). repeat split; congruence. Qed.

Lemma map_upd {A B} (p : A -> B) (l l' : list A) n f : (forall x, p (f x) = p x) -> upd l n f = Ok l' -> map p l' = map p l.
Proof.
  intros Hp. revert n l'. induction l as [|x l IH]; intros n l' E; [discriminate|]. destruct n.
  - injection E as <-. cbn. rewrite Hp. auto.
  - cbn [upd] in E. inv_bind E. injection E as <-. cbn. f_equal. eauto.
Qed.

Lemma slot_set c g w p g' w' : (w = false -> exists b, p = [b]) ->
  slot_cell (set_cell c g w p) g' w' = if Bool.eqb w' w && pgate_eqb g' g then Some p else slot_cell c g' w'.
Proof.
  intro Hb. unfold slot_cell, set_cell, set_lin. destruct g, g', w, w'; cbn; auto; destruct (Hb eq_refl) as (b & ->); auto.
Qed.

Lemma from_step_spec t m k m' : from_step t m k = Ok m' ->
  (forall w g i r, w = false -> forall p, t_params t (w, g, i, r) = Some p -> exists b, p = [b]) ->
  frame m m' /\ forall k', slot m' k' = if pkey_eqb k' k then t_params t k else slot m k'.
Proof.
  destruct k as (((w, g), i), r). intros E Hb. unfold from_step in E. destruct (t_params t (w, g, i, r)) as [p|] eqn:Ep; [|discriminate].
  assert (Hp : w = false -> exists b, p = [b]) by (intro; eapply Hb; eauto).
  assert (F1 : forall x, c_in (set_cell x g w p) = c_in x) by (intro; destruct g; auto).
  assert (F2 : forall x, c_hid (set_cell x g w p) = c_hid x) by (intro; destruct g; auto).
  destruct r; inv_bind E; injection E as <-; destruct (upd_spec _ _ _ _ H) as (A1 & A2 & A3).
  - split; [unfold frame; cbn; repeat split; (eapply map_upd; [|eauto]; intro; cbn beta; auto)|]. intros (((w', g'), i'), r'). unfold slot, pkey_eqb. cbn [d_cells d_cells_rev].
    destruct r'; [|rewrite !andb_false_r; auto]. rewrite A2. destruct (Nat.eqb_spec i' i) as [->|Hne]; [|rewrite !andb_false_r; auto].
    destruct (nth_error (d_cells_rev m) i) eqn:En; [|apply nth_error_None in En; lia]. cbn [option_map]. rewrite slot_set by auto. rewrite !andb_true_r. auto.
  - split; [unfold frame; cbn; repeat split; (eapply map_upd; [|eauto]; intro; cbn beta; auto)|]. intros (((w', g'), i'), r'). unfold slot, pkey_eqb. cbn [d_cells d_cells_rev].
    destruct r'; [rewrite !andb_false_r; auto|]. rewrite A2. destruct (Nat.eqb_spec i' i) as [->|Hne]; [|rewrite !andb_false_r; auto].
    destruct (nth_error (d_cells m) i) eqn:En; [|apply nth_error_None in En; lia]. cbn [option_map]. rewrite slot_set by auto. rewrite !andb_true_r. auto.
Qed.

Lemma from_fold t keys : forall m m', foldM (from_step t) keys m = Ok m' ->
  (forall w g i r, w = false -> forall p, t_params t (w, g, i, r) = Some p -> exists b, p = [b]) ->
  frame m m' /\ forall k, slot m' k = if existsb (pkey_eqb k) keys then t_params t k else slot m k.
Proof.
  induction keys as [|k0 keys IH]; intros m m' E Hb.
  - injection E as <-. split; [apply frame_refl|auto].
  - cbn [foldM] in E. inv_bind E. destruct (from_step_spec _ _ _ _ H Hb) as (A1 & A2). destruct (IH _ _ E Hb) as (B1 & B2).
    split; [eapply frame_trans; eauto|]. intro k. rewrite B2, A2. cbn [existsb].
    destruct (existsb (pkey_eqb k) keys); [rewrite orb_true_r; auto|]. rewrite orb_false_r. destruct (pkey_eqb k k0) eqn:Ek; auto. apply pkey_eqb_spec in Ek. subst. auto.
Qed.
Lemma from_fold_ok t keys : forall m, (forall w g i r, In (w, g, i, r) keys -> t_params t (w, g, i, r) <> None /\ (i < length (if r then d_cells_rev m else d_cells m))%nat) ->
  exists m', foldM (from_step t) keys m = Ok m'.
Proof.
  induction keys as [|k0 keys IH]; intros m Hk; [eexists; reflexivity|]. cbn [foldM]. destruct k0 as (((w, g), i), r).
  destruct (Hk w g i r (or_introl eq_refl)) as (N & L). unfold from_step at 1. destruct (t_params t (w, g, i, r)) as [p|] eqn:Ep; [|congruence].
  destruct r.
  - destruct (upd_ok _ i (fun c => set_cell c g w p) L) as (cs & E). destruct (upd_spec _ _ _ _ E) as (A1 & _ & _). rewrite E. cbn [bind]. apply IH.
    intros w' g' i' r' Hin. destruct (Hk w' g' i' r' (or_intror Hin)) as (N' & L'). split; auto. cbn. destruct r'; lia.
  - destruct (upd_ok _ i (fun c => set_cell c g w p) L) as (cs & E). destruct (upd_spec _ _ _ _ E) as (A1 & _ & _). rewrite E. cbn [bind]. apply IH.
    intros w' g' i' r' Hin. destruct (Hk w' g' i' r' (or_intror Hin)) as (N' & L'). split; auto. cbn. destruct r'; lia.
Qed.

(** the random initialisation respects the requested sizes and bias *)
Definition fresh_ok (fresh : nat -> nat -> bool -> cell) : Prop :=
  forall i h b, c_in (fresh i h b) = i /\ c_hid (fresh i h b) = h /\ (b = false -> l_b (fc_x (fresh i h b)) = None /\ l_b (fc_h (fresh i h b)) = None).

Lemma new_cells_length fresh a b n s bi : (1 <= n)%nat -> length (new_cells fresh a b n s bi) = n.
Proof. intro. unfold new_cells. cbn. rewrite map_length, seq_length. lia. Qed.
Lemma new_cells_nobias fresh a b n s c : fresh_ok fresh -> In c (new_cells fresh a b n s false) -> l_b (fc_x c) = None /\ l_b (fc_h c) = None.
Proof.
  intros F Hc. unfold new_cells in Hc. destruct Hc as [<-|Hc]; [apply F; auto|]. apply in_map_iff in Hc. destruct Hc as (j & <- & _). apply F. auto.
Qed.

Lemma valid_bias1 t : valid_torch t -> forall w g i r, w = false -> forall p, t_params t (w, g, i, r) = Some p -> exists b, p = [b].
Proof.
  intros (V1 & V2 & V3 & V4) w g i r -> p Hp.
  destruct (le_lt_dec (t_layers t) i) as [L|L]; [rewrite V4 in Hp by auto; discriminate|].
  destruct (Bool.bool_dec r true) as [->|Hr].
  - destruct (t_bidir t) eqn:Eb; [|rewrite V4 in Hp by auto; discriminate]. specialize (V3 g i true L (fun _ => eq_refl)).
    destruct (t_bias t); [destruct V3 as (b & Hb & _); rewrite Hb in Hp; injection Hp as <-; eauto|congruence].
  - specialize (V3 g i r L ltac:(intro; contradiction)). destruct (t_bias t); [destruct V3 as (b & Hb & _); rewrite Hb in Hp; injection Hp as <-; eauto|congruence].
Qed.

(** what from_pytorch_impl builds *)
Lemma from_pytorch_spec fresh t : fresh_ok fresh -> valid_torch t -> exists d, from_pytorch fresh t = Ok d /\
  d_in d = t_in t /\ d_hid d = t_hid t /\ d_layers d = t_layers t /\ d_bias d = t_bias t /\ d_batch_first d = t_batch_first t /\
  d_dropout d = t_dropout t /\ d_bidir d = t_bidir t /\
  length (d_cells d) = t_layers t /\ length (d_cells_rev d) = (if t_bidir t then t_layers t else 0%nat) /\
  (forall k, slot d k = t_params t k) /\
  map c_in (d_cells d) = map c_in (new_cells fresh (t_in t) (t_hid t) (t_layers t) (if t_bidir t then 2 else 1) (t_bias t)) /\
  map c_hid (d_cells d) = map c_hid (new_cells fresh (t_in t) (t_hid t) (t_layers t) (if t_bidir t then 2 else 1) (t_bias t)) /\
  map c_in (d_cells_rev d) = map c_in (if t_bidir t then new_cells fresh (t_in t) (t_hid t) (t_layers t) 2 (t_bias t) else []) /\
  map c_hid (d_cells_rev d) = map c_hid (if t_bidir t then new_cells fresh (t_in t) (t_hid t) (t_layers t) 2 (t_bias t) else []).
Proof.
  intros Fr V. assert (V' := V). destruct V' as (V1 & V2 & V3 & V4). unfold from_pytorch, new_dlstm.
  destruct (Nat.ltb_spec (t_layers t) 1) as [K|_]; [lia|]. cbn [bind].
  match goal with |- context [foldM _ _ ?x] => set (m0 := x) end.
  assert (L1 : length (d_cells m0) = t_layers t) by (apply new_cells_length; auto).
  assert (L2 : length (d_cells_rev m0) = if t_bidir t then t_layers t else 0%nat) by (cbn; destruct (t_bidir t); [apply new_cells_length; auto|auto]).
  destruct (from_fold_ok t (all_keys (t_layers t) (t_bias t) (t_bidir t)) m0) as (d & E).
  { intros w g i r Hin. apply in_all_keys in Hin. destruct Hin as (Hi & Hw & Hr). split.
    - destruct w.
      + destruct (V2 g i r Hi Hr) as (x & -> & _). discriminate.
      + specialize (V3 g i r Hi Hr). rewrite Hw in V3 by auto. destruct V3 as (x & -> & _). discriminate.
    - destruct r; [rewrite L2, Hr by auto|rewrite L1]; auto. }
  destruct (from_fold t _ m0 d E (valid_bias1 t V)) as ((?&?&?&?&?&?&?&Fc&Fh&Fcr&Fhr) & Sl). exists d. split; [exact E|].
  repeat (split; [assumption|]).
  split; [rewrite <- (map_length c_in), Fc, map_length; exact L1|].
  split; [rewrite <- (map_length c_in), Fcr, map_length; exact L2|]. split; [|repeat split; assumption].
  intros (((w, g), i), r). rewrite Sl. destruct (existsb _ _) eqn:Ex; auto.
  assert (Nin : ~ In (w, g, i, r) (all_keys (t_layers t) (t_bias t) (t_bidir t))).
  { intro Hin. assert (existsb (pkey_eqb (w, g, i, r)) (all_keys (t_layers t) (t_bias t) (t_bidir t)) = true); [|congruence].
    apply existsb_exists. eexists. split; [exact Hin|]. apply pkey_eqb_spec; auto. }
  rewrite in_all_keys in Nin. unfold slot.
  destruct (le_lt_dec (t_layers t) i) as [Li|Li].
  { rewrite V4 by auto. destruct (nth_error _ i) eqn:En; auto. exfalso. assert (i < length (if r then d_cells_rev m0 else d_cells m0))%nat by (apply nth_error_Some; congruence).
    destruct r; [rewrite L2 in H6|rewrite L1 in H6]; [destruct (t_bidir t)|]; lia. }
  destruct (Bool.bool_dec r true) as [->|Hr].
  - destruct (t_bidir t) eqn:Eb.
    + (* bias missing *)
      assert (w = false /\ t_bias t = false) as (-> & Eb').
      { destruct w; [exfalso; apply Nin; repeat split; auto; discriminate|]. split; auto. destruct (t_bias t); auto. exfalso. apply Nin. repeat split; auto. }
      specialize (V3 g i true Li (fun _ => eq_refl)). rewrite Eb' in V3. rewrite V3. destruct (nth_error _ i) eqn:En; auto.
      apply nth_error_In in En. unfold m0 in En. cbn [d_cells d_cells_rev] in En. rewrite Eb' in En. destruct (new_cells_nobias _ _ _ _ _ _ Fr En) as (N1 & N2). unfold slot_cell. destruct g; rewrite ?N1, ?N2; auto.
    + rewrite V4 by auto. cbn. destruct i; auto.
  - destruct r; [congruence|].
    assert (w = false /\ t_bias t = false) as (-> & Eb').
    { destruct w; [exfalso; apply Nin; repeat split; auto; discriminate|]. split; auto. destruct (t_bias t); auto. exfalso. apply Nin. repeat split; auto. }
    specialize (V3 g i false Li ltac:(discriminate)). rewrite Eb' in V3. rewrite V3. destruct (nth_error _ i) eqn:En; auto.
    apply nth_error_In in En. unfold m0 in En. cbn [d_cells d_cells_rev] in En. rewrite Eb' in En. destruct (new_cells_nobias _ _ _ _ _ _ Fr En) as (N1 & N2). unfold slot_cell. destruct g; rewrite ?N1, ?N2; auto.
Qed.

Lemma par_slots m (r : bool) cs t i c : (if r then d_cells_rev m else d_cells m) = cs -> (forall k, slot m k = t_params t k) -> nth_error cs i = Some c -> par c = torch_layer t r i.
Proof.
  intros <- Hs Hn. unfold torch_layer. rewrite <- !Hs. unfold slot. rewrite Hn. unfold slot_cell, par, the_mat, the_bias.
  destruct (l_b (fc_x c)), (l_b (fc_h c)); auto.
Qed.

Lemma torch_layers_cells m r t : length (if r : bool then d_cells_rev m else d_cells m) = t_layers t -> (forall k, slot m k = t_params t k) ->
  map par (if r then d_cells_rev m else d_cells m) = torch_layers t r.
Proof.
  intros L Hs. unfold torch_layers. set (cs := if r then d_cells_rev m else d_cells m) in *.
  apply (nth_ext _ _ (torch_layer t r 0) (torch_layer t r 0)); [rewrite !map_length, seq_length; auto|].
  intros i Hi. rewrite map_length in Hi. destruct (nth_error cs i) as [c|] eqn:En; [|apply nth_error_None in En; lia].
  rewrite (nth_map' _ (seq 0 _) _ 0%nat) by (rewrite seq_length; lia). rewrite seq_nth by lia.
  rewrite (nth_map' _ cs _ c) by auto. rewrite (nth_error_nth _ _ _ En). apply (par_slots m r cs t i c); auto.
Qed.

Lemma cells_ok t m r : valid_torch t -> (r = true -> t_bidir t = true) -> length (if r : bool then d_cells_rev m else d_cells m) = t_layers t -> (forall k, slot m k = t_params t k) ->
  Forall (cell_ok (t_hid t)) (if r then d_cells_rev m else d_cells m).
Proof.
  intros (V1 & V2 & V3 & V4) Hr L Hs. set (cs := if r then d_cells_rev m else d_cells m) in *. apply Forall_forall. intros c Hc.
  destruct (In_nth_error _ _ Hc) as (i & En). assert (Hi : (i < t_layers t)%nat) by (rewrite <- L; apply nth_error_Some; congruence).
  assert (G : forall g w, slot_cell c g w = t_params t (w, g, i, r)).
  { intros g w. rewrite <- Hs. unfold slot. fold cs. rewrite En. auto. }
  assert (K : forall g, lin_ok (4 * t_hid t) (match g with GI => fc_x c | GH => fc_h c end)).
  { intro g. destruct (V2 g i r Hi Hr) as (w & Ew & Lw). rewrite <- G in Ew. cbn in Ew. injection Ew as Ew. split; [congruence|].
    destruct (l_b _) as [b|] eqn:Eb; auto. specialize (V3 g i r Hi Hr). rewrite <- G in V3. unfold slot_cell in V3. rewrite Eb in V3.
    destruct (t_bias t); [destruct V3 as (b' & E & Lb); congruence|discriminate]. }
  split; [apply (K GI)|apply (K GH)].
Qed.
