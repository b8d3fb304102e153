(** Lemmas about the summaries. *)
From Coq Require Import String List ZArith QArith Qabs Qround Bool Arith Lia Lqa.
From Verif Require Import Base Names Lists SchedModel PrunerModel StructModel StructSpec StructProofs StructRankProofs PropertiesStruct PropertiesStruct2 QzrModel QzrSpec QzrProofs SumModel SumSpec.
Import ListNotations.
Open Scope list_scope.

(** * Counting *)
Lemma counts_unique {A} (P : A -> Prop) n m : counts P n -> counts P m -> n = m.
Proof.
  intros (l & N & H & <-) (l' & N' & H' & <-). apply Nat.le_antisymm; apply NoDup_incl_length; auto; intros a I; [apply H', H|apply H, H']; auto.
Qed.
Lemma counts_below n : counts (fun i => (i < n)%nat) n.
Proof. exists (seq 0 n). split; [apply seq_NoDup|]. split; [intro a; rewrite in_seq; lia|apply seq_length]. Qed.
Lemma NoDup_list_prod {A B} (l : list A) (l' : list B) : NoDup l -> NoDup l' -> NoDup (list_prod l l').
Proof.
  intros H H'. induction H as [|a l Ha Hl IH]; simpl; [constructor|]. apply NoDup_app_intro; auto.
  - apply FinFun.Injective_map_NoDup; auto. intros x y [=]; auto.
  - intros [x y] I J. apply in_map_iff in I as (z & [= <- <-] & _). apply in_prod_iff in J. tauto.
Qed.
Lemma counts_prod {A B} (P : A -> Prop) (Q : B -> Prop) n m : counts P n -> counts Q m -> counts (fun ab => P (fst ab) /\ Q (snd ab)) (n * m).
Proof.
  intros (l & N & H & <-) (l' & N' & H' & <-). exists (list_prod l l'). split; [apply NoDup_list_prod; auto|]. split.
  - intros [a b]. rewrite in_prod_iff. cbn [fst snd]. rewrite H, H'. tauto.
  - apply prod_length.
Qed.
Lemma counts_ext {A} (P Q : A -> Prop) n : (forall a, P a <-> Q a) -> counts P n -> counts Q n.
Proof. intros E (l & N & H & L). exists l. split; auto. split; auto. intro a. rewrite H. apply E. Qed.

Lemma conv_count N O OH OW C KH KW : counts (conv_product N O OH OW C KH KW) (N * O * OH * OW * (C * KH * KW)).
Proof.
  eapply counts_ext; [|apply counts_prod; [apply counts_prod; [apply counts_prod; [apply counts_prod|]|]|apply counts_prod; [apply counts_prod|]]; apply counts_below].
  intros [[[[n o] y] x] [[c i] j]]. cbn [fst snd conv_product]. tauto.
Qed.
Lemma linear_count R O I : counts (linear_product R O I) (R * O * I).
Proof.
  eapply counts_ext; [|apply counts_prod; [apply counts_prod|]; apply counts_below].
  intros [[r o] i]. cbn [fst snd linear_product]. tauto.
Qed.

(** * Numbers *)
Lemma nq_mult a b : nq (a * b) == nq a * nq b.
Proof. unfold nq. rewrite Nat2Z.inj_mul. apply Zq_mult. Qed.
Lemma nq_plus a b : nq (a + b) == nq a + nq b.
Proof. unfold nq. rewrite Nat2Z.inj_add. apply Zq_plus. Qed.
Lemma nq_nonneg a : 0 <= nq a.
Proof. apply Zq_nonneg. lia. Qed.
Lemma nq_pos a : (0 < a)%nat -> 0 < nq a.
Proof. intro. apply Zq_pos. lia. Qed.
Lemma trunc_Z z q : q == Zq z -> trunc q = z.
Proof.
  intro E. unfold trunc. destruct (Qle_bool 0 q).
  - rewrite (Qfloor_comp _ _ E). apply Qfloor_Z.
  - rewrite (Qceiling_comp _ _ E). apply Qceiling_Z.
Qed.
Lemma trunc_nat n q : q == nq n -> trunc q = Z.of_nat n.
Proof. apply trunc_Z. Qed.

(** * Substrings *)
Lemma append_assoc' (a b c : string) : ((a ++ b) ++ c)%string = (a ++ b ++ c)%string.
Proof. induction a as [|x a IH]; simpl; congruence. Qed.
Lemma prefix_app s t : prefix s t = true <-> exists b, t = (s ++ b)%string.
Proof.
  revert t; induction s as [|c s IH]; intro t.
  - split; [intros _; exists t; auto|destruct t; reflexivity].
  - destruct t as [|d t]; [split; [discriminate|intros (b & [=])]|].
    change (prefix (String c s) (String d t)) with (if Ascii.ascii_dec c d then prefix s t else false). destruct (Ascii.ascii_dec c d) as [<-|E].
    + rewrite IH. split; intros (b & H); exists b; [subst; reflexivity|simpl in H; congruence].
    + split; [discriminate|]. intros (b & [= H _]). congruence.
Qed.
Lemma str_in_occurs s t : str_in s t = true <-> occurs s t.
Proof.
  induction t as [|c t IH].
  - unfold str_in. rewrite orb_false_r, prefix_app. split.
    + intros (b & E). exists EmptyString, b. auto.
    + intros (a & b & E). destruct a; [exists b; auto|discriminate].
  - cbn [str_in]. rewrite orb_true_iff, prefix_app, IH. split.
    + intros [(b & E)|(a & b & E)]; [exists EmptyString, b; auto|exists (String c a), b; simpl; congruence].
    + intros (a & b & E). destruct a as [|d a]; [left; exists b; auto|]. simpl in E. injection E as -> E. right. exists a, b. auto.
Qed.
Lemma sel_param_covered dims e : sel_param dims e = true <-> covered dims e.
Proof.
  unfold sel_param, covered, weight_or_bias. rewrite andb_true_iff, existsb_exists. simpl existsb. rewrite orb_false_r, orb_true_iff, !str_in_occurs.
  unfold ndim. split; intros [A B]; split; auto.
  - destruct A as (x & I & E). apply Nat.eqb_eq in E as ->. auto.
  - exists (length (nd_shape (snd e))). rewrite Nat.eqb_refl. auto.
Qed.

(** * Rows *)
Lemma density_val l : l <> [] -> density l = Ok (nq (length l - zeros l) / nq (length l)).
Proof.
  intro H. unfold density, ratio. destruct (Nat.eqb_spec (length l) 0) as [E|E]; [destruct l; [congruence|discriminate]|].
  pose proof (countb_negb is_zero l) as C. unfold is_zero in C at 2. unfold nonzero, zeros, nq. do 4 f_equal. lia.
Qed.
Lemma zeros_le l : (zeros l <= length l)%nat.
Proof. pose proof (countb_negb is_zero l). unfold zeros. lia. Qed.
Lemma percent_compl l : l <> [] -> (1 - nq (length l - zeros l) / nq (length l)) * 100 == percent (zeros l) (length l).
Proof.
  intro H. assert (P : 0 < nq (length l)) by (apply nq_pos; destruct l; [congruence|simpl; lia]). pose proof (zeros_le l) as Z.
  unfold percent. fold (Zq (Z.of_nat (zeros l))) (Zq (Z.of_nat (length l))). fold (nq (zeros l)) (nq (length l)).
  assert (E : nq (length l) == nq (length l - zeros l) + nq (zeros l)) by (rewrite <- nq_plus; replace (length l - zeros l + zeros l)%nat with (length l) by lia; reflexivity).
  assert (nq (length l - zeros l) == nq (length l) - nq (zeros l)) as -> by lra. field. lra.
Qed.

Lemma numel_pos4 F C H W : (0 < numel [F; C; H; W])%nat -> (0 < F /\ 0 < C /\ 0 < H /\ 0 < W)%nat.
Proof. unfold numel. simpl. destruct F, C, H, W; simpl; lia. Qed.
Lemma numel_pos2 R C : (0 < numel [R; C])%nat -> (0 < R /\ 0 < C)%nat.
Proof. unfold numel. simpl. destruct R, C; simpl; lia. Qed.

Lemma weight_row_ok e : nd_ok (snd e) -> nd_data (snd e) <> [] -> exists r, weight_row e = Ok r /\ row_ok e r.
Proof.
  destruct e as [name t]. cbn [snd]. intros Hok Hne. unfold weight_row. rewrite (density_val _ Hne). cbn [bind].
  assert (Hl : (0 < length (nd_data t))%nat) by (destruct (nd_data t); [congruence|simpl; lia]). pose proof Hok as Hn. unfold nd_ok in Hn.
  assert (P : 0 < nq (length (nd_data t))) by (apply nq_pos; auto).
  assert (Base : forall c r h s2 s3, let w := mkRow name (nd_shape t) (length (nd_data t)) (trunc (nq (length (nd_data t) - zeros (nd_data t)) / nq (length (nd_data t)) * nq (length (nd_data t)))) c r h s2 s3
              ((1 - nq (length (nd_data t) - zeros (nd_data t)) / nq (length (nd_data t))) * 100) (qsum (nd_data t) / nq (length (nd_data t))) (qsum (map Qabs (nd_data t)) / nq (length (nd_data t))) in
     w_name w = name /\ w_shape w = nd_shape t /\ w_dense w = numel (nd_shape t) /\ w_nnz w = (Z.of_nat (length (nd_data t)) - Z.of_nat (zeros (nd_data t)))%Z /\
     w_fine w == percent (zeros (nd_data t)) (length (nd_data t)) /\
     w_mean w * inject_Z (Z.of_nat (length (nd_data t))) == qsum (nd_data t) /\ w_absmean w * inject_Z (Z.of_nat (length (nd_data t))) == qsum (map Qabs (nd_data t))).
  { intros. unfold w. cbn [w_name w_shape w_dense w_nnz w_fine w_mean w_absmean]. split; auto. split; auto. split; auto. split.
    - rewrite (trunc_nat (length (nd_data t) - zeros (nd_data t))); [pose proof (zeros_le (nd_data t)); lia|]. field. lra.
    - split; [apply percent_compl; auto|]. change (inject_Z (Z.of_nat (length (nd_data t)))) with (nq (length (nd_data t))). split; field; lra. }
  assert (X100 : forall s a b, s == frac a b -> s * 100 == percent a b) by (intros s a b ->; unfold frac, percent, Zq; ring).
  destruct (C39_other_ranks t) as (O1 & O2 & O3).
  destruct (Nat.eq_dec (length (nd_shape t)) 4) as [E4|E4]; [|destruct (Nat.eq_dec (length (nd_shape t)) 2) as [E2|E2]].
  - destruct (nd_shape t) as [|F [|C [|H [|W [|? ?]]]]] eqn:Sh; try discriminate E4. rewrite <- Sh in *.
    assert (Pos : (0 < F /\ 0 < C /\ 0 < H /\ 0 < W)%nat) by (apply numel_pos4; rewrite <- Sh; lia).
    destruct (C39_structure_sparsity t F C H W (conj Sh (conj Hok Pos))) as ((s3 & -> & S3) & (sc & -> & Sc) & (s2 & -> & S2)).
    destruct (O2 ltac:(lia) true) as [-> ->]. cbn [bind]. eexists. split; [reflexivity|]. destruct (Base (0 * 100) (0 * 100) (sc * 100) (s2 * 100) (s3 * 100)) as (B1 & B2 & B3 & B4 & B5 & B6 & B7).
    unfold row_ok. cbn [snd fst]. rewrite Sh in *. cbn [w_name w_shape w_dense w_nnz w_fine w_mean w_absmean w_3d w_ch w_2d w_rows w_cols] in *. repeat (split; [assumption|]). split; [|split; [intros ? ? [=]|auto]].
    intros F' C' H' W' [= <- <- <- <-]. split; [apply X100; auto|]. split; [apply X100; auto|]. split; [apply X100; auto|]. split; reflexivity.
  - destruct (nd_shape t) as [|R [|C [|? ?]]] eqn:Sh; try discriminate E2. rewrite <- Sh in *.
    assert (Pos : (0 < R /\ 0 < C)%nat) by (apply numel_pos2; rewrite <- Sh; lia).
    destruct (C39_matrix_sparsity t R C (conj Sh (conj Hok Pos))) as ((s2 & -> & S2) & (sr & -> & Sr) & _ & (sc & -> & Sc) & _).
    destruct (O1 ltac:(lia)) as [-> ->]. cbn [bind]. eexists. split; [reflexivity|]. destruct (Base (sc * 100) (sr * 100) (0 * 100) (s2 * 100) (0 * 100)) as (B1 & B2 & B3 & B4 & B5 & B6 & B7).
    unfold row_ok. cbn [snd fst]. rewrite Sh in *. cbn [w_name w_shape w_dense w_nnz w_fine w_mean w_absmean w_3d w_ch w_2d w_rows w_cols] in *. repeat (split; [assumption|]). split; [intros ? ? ? ? [=]|split; [|auto]].
    intros R' C' [= <- <-]. split; [apply X100; auto|]. split; [apply X100; auto|]. split; [apply X100; auto|]. split; reflexivity.
  - destruct (O1 E4) as [-> ->]. destruct (O2 E2 true) as [-> ->]. rewrite (O3 E4 E2). cbn [bind]. eexists. split; [reflexivity|].
    destruct (Base (0 * 100) (0 * 100) (0 * 100) (0 * 100) (0 * 100)) as (B1 & B2 & B3 & B4 & B5 & B6 & B7).
    unfold row_ok. cbn [snd fst]. cbn [w_name w_shape w_dense w_nnz w_fine w_mean w_absmean w_3d w_ch w_2d w_rows w_cols] in *. repeat (split; [assumption|]).
    split; [intros ? ? ? ? Sh; rewrite Sh in E4; simpl in E4; lia|]. split; [intros ? ? Sh; rewrite Sh in E2; simpl in E2; lia|auto].
Qed.

Lemma zeros_app a b : zeros (a ++ b) = (zeros a + zeros b)%nat.
Proof. apply countb_app. Qed.
Lemma elements_cons e l : elements (e :: l) = nd_data (snd e) ++ elements l.
Proof. reflexivity. Qed.

Lemma filter_ext_iff {A} (f g : A -> bool) l : (forall x, f x = true <-> g x = true) -> filter f l = filter g l.
Proof. intro H. apply filter_ext. intro x. apply eq_true_iff_eq. apply H. Qed.

Lemma weights_loop dims sd : forall rows n nnz,
  (forall e, In e sd -> sel_param dims e = true -> nd_ok (snd e) /\ nd_data (snd e) <> []) ->
  exists rs q, foldM (weights_step dims) sd (rows, (n, nnz)) = Ok (rows ++ rs, ((n + length (elements (filter (sel_param dims) sd)))%nat, q)) /\
    Forall2 row_ok (filter (sel_param dims) sd) rs /\
    q == nnz + nq (length (elements (filter (sel_param dims) sd)) - zeros (elements (filter (sel_param dims) sd))).
Proof.
  induction sd as [|e sd IH]; intros rows n nnz H.
  - exists [], nnz. split; [simpl; rewrite app_nil_r, Nat.add_0_r; reflexivity|]. split; [constructor|]. simpl. unfold nq, Zq. simpl. ring.
  - cbn [foldM filter]. unfold weights_step at 1. destruct (sel_param dims e) eqn:E.
    + destruct (H e (or_introl eq_refl) E) as [Hok Hne]. rewrite (density_val _ Hne). cbn [bind]. destruct (weight_row_ok e Hok Hne) as (r & -> & Hr). cbn [bind].
      destruct (IH (rows ++ [r]) (n + length (nd_data (snd e)))%nat (nnz + nq (length (nd_data (snd e))) * (nq (length (nd_data (snd e)) - zeros (nd_data (snd e))) / nq (length (nd_data (snd e))))) (fun x I => H x (or_intror I))) as (rs & q & -> & F & Q).
      exists (r :: rs), q. split.
      * rewrite <- app_assoc, elements_cons, app_length, Nat.add_assoc. reflexivity.
      * split; [constructor; auto|]. rewrite Q, elements_cons, app_length, zeros_app.
        assert (P : 0 < nq (length (nd_data (snd e)))) by (apply nq_pos; destruct (nd_data (snd e)); [congruence|simpl; lia]).
        pose proof (zeros_le (nd_data (snd e))). pose proof (zeros_le (elements (filter (sel_param dims) sd))).
        replace (length (nd_data (snd e)) + length (elements (filter (sel_param dims) sd)) - (zeros (nd_data (snd e)) + zeros (elements (filter (sel_param dims) sd))))%nat
          with ((length (nd_data (snd e)) - zeros (nd_data (snd e))) + (length (elements (filter (sel_param dims) sd)) - zeros (elements (filter (sel_param dims) sd))))%nat by lia.
        rewrite nq_plus. field. lra.
    + cbn [bind]. apply IH. intros x I. apply H. right; auto.
Qed.

(** * Hooks *)
Definition apply_go := fix go (l : list (string * nmod)) (memo : list nat) : list nat :=
  match l with
  | [] => []
  | (_, c) :: l => if mem_nat (mid c) memo then go l memo else apply_seq c ++ go l (mid c :: memo)
  end.
Lemma apply_seq_eq m : apply_seq m = apply_go (mkids m) [] ++ [mid m].
Proof. destruct m; reflexivity. Qed.
Lemma ids_mid m : In (mid m) (ids m).
Proof. destruct m; rewrite ids_eq. left; reflexivity. Qed.
Lemma kids_ids_cons n c l : kids_ids ((n, c) :: l) = ids c ++ kids_ids l.
Proof. reflexivity. Qed.
Lemma apply_seq_count m : NoDup (ids m) -> forall i, count_occ Nat.eq_dec (apply_seq m) i = count_occ Nat.eq_dec (ids m) i.
Proof.
  induction m as [j t ps kids IH] using nmod_ind'. intros Hn i. rewrite apply_seq_eq, ids_eq. cbn [mkids mid].
  rewrite ids_eq in Hn. inversion Hn as [|? ? N1 N2]; subst. rewrite count_occ_app. fold (kids_ids kids) in *.
  assert (L : forall l memo, (forall nc, In nc l -> In nc kids) -> NoDup (kids_ids l) -> (forall k, In k memo -> ~ In k (kids_ids l)) ->
              count_occ Nat.eq_dec (apply_go l memo) i = count_occ Nat.eq_dec (kids_ids l) i).
  { induction l as [|[n c] l IHl]; intros memo Hl Nd Hm; [reflexivity|]. cbn [apply_go]. rewrite kids_ids_cons in Nd, Hm. apply NoDup_app_parts in Nd as (A1 & A2 & A3).
    destruct (mem_nat (mid c) memo) eqn:E.
    - exfalso. apply mem_nat_In in E. apply (Hm _ E). apply in_or_app. left. apply ids_mid.
    - rewrite kids_ids_cons, !count_occ_app. rewrite Forall_forall in IH. rewrite (IH (n, c) (Hl _ (or_introl eq_refl)) A1). f_equal. apply IHl; auto.
      + intros nc I. apply Hl. right; auto.
      + intros k [<-|K] I; [apply (A3 (mid c)); auto; apply ids_mid|]. apply (Hm k K). apply in_or_app. auto. }
  rewrite (L kids []); auto. change (kids_ids kids) with (kids_ids kids). cbn [mkids mid]. simpl. destruct (Nat.eq_dec j i); simpl; lia.
Qed.

Lemma run_hooks_rows n layers m c : forall df r, visitor layers m c = Ok r -> run_hooks n layers m c df = Ok (df ++ repeat r n).
Proof.
  induction n as [|n IH]; intros df r H; simpl; [rewrite app_nil_r; reflexivity|]. rewrite H. cbn [bind]. rewrite (IH _ _ H), <- app_assoc. reflexivity.
Qed.

Lemma find_module_name_spec m p c : good_model m -> unshared m -> In (p, c) (all_modules m []) -> find_module_name m (mid c) = Some (join_dot p).
Proof.
  intros G U I. unfold find_module_name. rewrite named_modules_spec by auto. unfold unshared, ids in U.
  assert (K : find (fun nm : string * nmod => (mid (snd nm) =? mid c)%nat) (map named (all_modules m [])) = Some (named (p, c))); [|rewrite K; reflexivity].
  revert U I. generalize (all_modules m []). induction l as [|[q d] l IH]; intros N I; [destruct I|]. cbn [map find named fst snd] in *.
  inversion N as [|? ? N1 N2]; subst. destruct (Nat.eqb_spec (mid d) (mid c)) as [E|E].
  - destruct I as [[= -> ->]|I]; [reflexivity|]. exfalso. apply N1. rewrite E. change (mid c) with (mid (snd (p, c))). apply (in_map (fun pm : list string * nmod => mid (snd pm))) in I. exact I.
  - destruct I as [[= -> ->]|I]; [congruence|]. apply IH; auto.
Qed.

(** * DataParallel *)
Fixpoint dmod_ind' (P : dmod -> Prop) (H : forall i b kids, Forall (fun nc => P (snd nc)) kids -> P (DMod i b kids)) (m : dmod) : P m :=
  match m with
  | DMod i b kids => H i b kids ((fix go (l : list (string * dmod)) : Forall (fun nc => P (snd nc)) l :=
      match l with [] => Forall_nil _ | (n, c) :: l => Forall_cons (n, c) (dmod_ind' P H c) (go l) end) kids)
  end.
Definition replace_go := fix go (l : list (string * dmod)) (memo : list nat) : list (string * dmod) :=
  match l with
  | [] => []
  | (n, c) :: l =>
      (n, if mem_nat (d_id c) memo then replace_dp c
          else match c with DMod _ true [(_, x)] => replace_dp x | _ => replace_dp c end) :: go l (d_id c :: memo)
  end.
Definition unwrap_kids := fix go (l : list (string * dmod)) : list (string * dmod) := match l with [] => [] | (n, c) :: l => (n, unwrap c) :: go l end.
Definition all_kids (P : dmod -> Prop) := fix go (l : list (string * dmod)) : Prop := match l with [] => True | (_, c) :: l => P c /\ go l end.
Lemma all_kids_In P l : all_kids P l <-> forall nc, In nc l -> P (snd nc).
Proof.
  induction l as [|[n c] l IH]; simpl; [split; [intros _ ? []|auto]|]. rewrite IH. split.
  - intros [A B] nc [<-|I]; auto.
  - intro H. split; [apply (H (n, c)); auto|auto].
Qed.
Lemma replace_dp_eq i b kids : replace_dp (DMod i b kids) = DMod i b (replace_go kids []).
Proof. reflexivity. Qed.
Lemma unwrap_false i kids : unwrap (DMod i false kids) = DMod i false (unwrap_kids kids).
Proof. reflexivity. Qed.
Lemma plain_dp_eq i b kids : plain_dp (DMod i b kids) =
  ((b = true -> exists x, kids = [("module"%string, x)] /\ d_dp x = false) /\ NoDup (map (fun nc => d_id (snd nc)) kids) /\ all_kids plain_dp kids).
Proof. reflexivity. Qed.
Lemma no_dp_eq i b kids : no_dp (DMod i b kids) = (b = false /\ all_kids no_dp kids).
Proof. reflexivity. Qed.

Lemma replace_dp_unwrap m : plain_dp m -> (d_dp m = false -> replace_dp m = unwrap m) /\ (forall i n x, m = DMod i true [(n, x)] -> replace_dp x = unwrap x).
Proof.
  induction m as [i b kids IH] using dmod_ind'. rewrite plain_dp_eq. intros (Hb & Hn & Hk). split.
  - cbn [d_dp]. intros ->. rewrite replace_dp_eq, unwrap_false. f_equal. clear Hb.
    assert (L : forall l memo, (forall nc, In nc l -> In nc kids) -> NoDup (map (fun nc => d_id (snd nc)) l) -> (forall nc, In nc l -> ~ In (d_id (snd nc)) memo) -> replace_go l memo = unwrap_kids l).
    { induction l as [|[n c] l IHl]; intros memo Hl Nd Hm; [reflexivity|]. cbn [replace_go unwrap_kids]. cbn [map snd] in Nd. inversion Nd as [|? ? N1 N2]; subst.
      rewrite IHl; auto.
      2:{ intros nc I. apply Hl. right; auto. }
      2:{ intros nc I [E|J]; [|apply (Hm nc (or_intror I) J)]. apply N1. rewrite E. apply (in_map (fun nc => d_id (snd nc))) in I. exact I. }
      f_equal. f_equal. destruct (mem_nat (d_id c) memo) eqn:E; [exfalso; apply mem_nat_In in E; apply (Hm (n, c)); simpl; auto|].
      pose proof (Hl (n, c) (or_introl eq_refl)) as I. rewrite Forall_forall in IH. pose proof (proj1 (all_kids_In _ _) Hk _ I) as Pc. destruct (IH _ I Pc) as [A B]. cbn [snd] in *.
      destruct c as [j [|] ck]; [|apply A; reflexivity]. rewrite plain_dp_eq in Pc. destruct Pc as (Hc & _). destruct (Hc eq_refl) as (x & -> & _). apply (B j "module"%string x). reflexivity. }
    apply L; auto.
  - intros j n x [= -> -> ->]. destruct (Hb eq_refl) as (y & [= -> ->] & Hx). inversion IH as [|? ? A _]; subst. cbn [snd] in A. apply A; auto. apply (proj1 (all_kids_In _ _) Hk _ (or_introl eq_refl)).
Qed.
Lemma unwrap_no_dp m : plain_dp m -> no_dp (unwrap m).
Proof.
  induction m as [i b kids IH] using dmod_ind'. rewrite plain_dp_eq. intros (Hb & Hn & Hk). rewrite Forall_forall in IH. pose proof (proj1 (all_kids_In _ _) Hk) as Hk'. destruct b.
  - destruct (Hb eq_refl) as (x & -> & Hx). apply (IH ("module"%string, x)); simpl; auto. apply (Hk' ("module"%string, x)). left; auto.
  - rewrite unwrap_false, no_dp_eq. split; auto. clear -IH Hk'. induction kids as [|[n c] l IHl]; simpl; auto. split; [apply (IH (n, c)); simpl; auto; apply (Hk' (n, c)); left; auto|].
    apply IHl; intros; [apply IH|apply Hk']; simpl; auto.
Qed.
