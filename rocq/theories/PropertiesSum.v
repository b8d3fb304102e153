(** C68-C71: the summaries of sparsity and cost, and the copy of a model without data parallelism. *)
From Coq Require Import String List ZArith QArith Qabs Qround Bool Arith Lia Lqa Floats.SpecFloat.
From Verif Require Import Base Names Lists StructModel StructSpec QzrModel QzrSpec QzrProofs SumModel SumSpec SumProofs.
Import ListNotations.
Open Scope list_scope.

(* ------------------------------------------------------------------------- *)
(** * C68: tables of sparsity *)

(** weights_sparsity_summary: one exact row for each covered parameter, in the order of the state dictionary; the totals are
    over all their elements; ZeroDivisionError when no parameter is covered. *)
Theorem C68_weights_table :
  forall dims sd f, (forall e, f e = true <-> covered dims e) ->
  (forall e, In e sd -> covered dims e -> nd_ok (snd e) /\ nd_data (snd e) <> []) ->
  let sel := filter f sd in
  (sel = [] -> weights_summary dims sd = Raise ZeroDivisionError) /\
  (sel <> [] -> exists rows tot, weights_summary dims sd = Ok (rows, tot) /\ Forall2 row_ok sel rows /\
     tot_dense tot = length (elements sel) /\ tot_nnz tot = (Z.of_nat (length (elements sel)) - Z.of_nat (zeros (elements sel)))%Z /\
     tot_sparsity tot == percent (zeros (elements sel)) (length (elements sel))).
Proof.
  intros dims sd f Hf H sel.
  assert (E : sel = filter (sel_param dims) sd) by (apply filter_ext_iff; intro e; rewrite Hf, sel_param_covered; tauto).
  destruct (weights_loop dims sd [] 0%nat 0) as (rs & q & L & R & Q).
  { intros e I S. apply H; auto. apply sel_param_covered; auto. }
  rewrite <- E in *. unfold weights_summary. rewrite L. cbn [bind]. cbv iota. rewrite Nat.add_0_l, app_nil_l. split.
  - intro N. rewrite N. reflexivity.
  - intro N. assert (Ne : elements sel <> []).
    { destruct sel as [|e l] eqn:S; [congruence|]. rewrite elements_cons. assert (I : In e sd /\ f e = true) by (apply filter_In; fold sel; rewrite S; left; auto).
      destruct I as [I1 I2]. apply Hf in I2. destruct (H e I1 I2) as [_ K]. destruct (nd_data (snd e)); [congruence|discriminate]. }
    destruct (Nat.eqb_spec (length (elements sel)) 0) as [Z|Z]; [destruct (elements sel); [congruence|discriminate]|].
    eexists. eexists. split; [reflexivity|]. cbn [tot_dense tot_nnz tot_sparsity]. split; auto. split; auto. pose proof (zeros_le (elements sel)).
    assert (Q' : q == nq (length (elements sel) - zeros (elements sel))) by (rewrite Q; ring). split.
    + rewrite (trunc_nat _ _ Q'). lia.
    + rewrite Q'. apply percent_compl. auto.
Qed.

(** masks_sparsity_summary: the same over the masks (no mask: nothing is masked); KeyError when the scheduler has no entry
    for a covered parameter, AssertionError when no parameter is covered. *)
Definition mask_of (masks : dict (option (list Q))) (e : string * nd) : list Q :=
  match dget masks (fst e) with Some (Some m) => m | _ => repeat 1 (length (nd_data (snd e))) end.
Definition mask_ok (masks : dict (option (list Q))) (e : string * nd) : Prop :=
  nd_data (snd e) <> [] /\ forall m, dget masks (fst e) = Some (Some m) -> length m = length (nd_data (snd e)).

Lemma zeros_ones n : zeros (repeat 1 n) = 0%nat.
Proof. unfold zeros. apply countb_none. intros x I. apply repeat_spec in I as ->. reflexivity. Qed.
Lemma masks_loop dims masks sd : forall rows n nnz,
  (forall e, In e sd -> sel_param dims e = true -> mask_ok masks e /\ dget masks (fst e) <> None) ->
  exists rs q, foldM (masks_step dims masks) sd (rows, (n, nnz)) =
      Ok (rows ++ rs, ((n + length (concat (map (mask_of masks) (filter (sel_param dims) sd))))%nat, q)) /\
    Forall2 (fun e r => fst r = fst e /\ snd r == percent (zeros (mask_of masks e)) (length (nd_data (snd e)))) (filter (sel_param dims) sd) rs /\
    q == nnz + nq (length (concat (map (mask_of masks) (filter (sel_param dims) sd))) - zeros (concat (map (mask_of masks) (filter (sel_param dims) sd)))).
Proof.
  induction sd as [|e sd IH]; intros rows n nnz H.
  - exists [], nnz. split; [simpl; rewrite app_nil_r, Nat.add_0_r; reflexivity|]. split; [constructor|]. simpl. unfold nq, Zq. simpl. ring.
  - cbn [foldM filter]. unfold masks_step at 1. destruct (sel_param dims e) eqn:E.
    2:{ cbn [bind]. apply IH. intros x I. apply H. right; auto. }
    destruct (H e (or_introl eq_refl) E) as [[Ne Hm] Hd]. destruct (dget masks (fst e)) as [mo|] eqn:D; [|congruence]. cbn [bind].
    assert (P : 0 < nq (length (nd_data (snd e)))) by (apply nq_pos; destruct (nd_data (snd e)); [congruence|simpl; lia]).
    assert (ML : length (mask_of masks e) = length (nd_data (snd e))).
    { unfold mask_of. rewrite D. destruct mo as [m|]; [apply Hm; auto|apply repeat_length]. }
    assert (K : exists d, match mo with Some m => density m | None => Ok 1 end = Ok d /\ d == nq (length (mask_of masks e) - zeros (mask_of masks e)) / nq (length (mask_of masks e))).
    { unfold mask_of in *. rewrite D in *. destruct mo as [m|].
      - eexists. split; [apply density_val; destruct m; [destruct (nd_data (snd e)); [congruence|discriminate]|discriminate]|reflexivity].
      - exists 1. split; auto. rewrite zeros_ones, Nat.sub_0_r, repeat_length. field. lra. }
    destruct K as (d & Kd & Dv). assert (Kd' : match mo with Some m => density m | None => Ok 1 end = Ok d) by exact Kd.
    replace (match mo with None => Ok 1 | Some m => density m end) with (@Ok Q d) by (destruct mo; congruence). cbn [bind].
    destruct (IH (rows ++ [(fst e, (1 - d) * 100)]) (n + length (nd_data (snd e)))%nat (nnz + nq (length (nd_data (snd e))) * d) (fun x I => H x (or_intror I))) as (rs & q & -> & F & Q).
    exists ((fst e, (1 - d) * 100) :: rs), q. cbn [map concat]. rewrite app_length, zeros_app, ML. split; [rewrite <- app_assoc, Nat.add_assoc; reflexivity|]. split.
    + constructor; auto. cbn [fst snd]. split; auto. rewrite Dv, <- ML. apply percent_compl. destruct (mask_of masks e); [|discriminate]. destruct (nd_data (snd e)); [congruence|discriminate].
    + rewrite Q, Dv, ML. set (c := concat (map (mask_of masks) (filter (sel_param dims) sd))). pose proof (zeros_le c). pose proof (zeros_le (mask_of masks e)).
      replace (length (nd_data (snd e)) + length c - (zeros (mask_of masks e) + zeros c))%nat with ((length (nd_data (snd e)) - zeros (mask_of masks e)) + (length c - zeros c))%nat by lia.
      rewrite nq_plus. field. lra.
Qed.
Theorem C68_masks_table :
  forall dims masks sd f, (forall e, f e = true <-> covered dims e) -> (forall e, In e sd -> covered dims e -> mask_ok masks e) ->
  let sel := filter f sd in let all := concat (map (mask_of masks) sel) in
  ((exists e, In e sel /\ dget masks (fst e) = None) -> masks_summary dims masks sd = Raise KeyError) /\
  ((forall e, In e sel -> dget masks (fst e) <> None) ->
     (sel = [] -> masks_summary dims masks sd = Raise AssertionError) /\
     (sel <> [] -> exists rows total, masks_summary dims masks sd = Ok (rows, total) /\
        Forall2 (fun e r => fst r = fst e /\ snd r == percent (zeros (mask_of masks e)) (length (nd_data (snd e)))) sel rows /\
        total == percent (zeros all) (length all))).
Proof.
  intros dims masks sd f Hf H sel all.
  assert (E : sel = filter (sel_param dims) sd) by (apply filter_ext_iff; intro e; rewrite Hf, sel_param_covered; tauto).
  split.
  - intros (e & I & D). rewrite E in I. apply filter_In in I as [I S]. unfold masks_summary. clear sel all E.
    assert (K : forall acc, foldM (masks_step dims masks) sd acc = Raise KeyError); [|rewrite K; reflexivity].
    revert I H. induction sd as [|x sd IH]; intros I H acc; [destruct I|]. cbn [foldM].
    destruct acc as [rows [n nnz]]. unfold masks_step at 1. destruct (sel_param dims x) eqn:Sx.
    2:{ destruct I as [->|I]; [congruence|]. cbn [bind]. apply IH; auto. intros y J. apply H. right; auto. }
    destruct (dget masks (fst x)) as [mo|] eqn:Dx; [|reflexivity]. cbn [bind].
    assert (exists d, match mo with Some m => density m | None => Ok 1 end = Ok d) as (d & Kd).
    { destruct mo as [m|]; [|eauto]. destruct (H x (or_introl eq_refl) (proj1 (sel_param_covered _ _) Sx)) as [Ne Hm].
      eexists. apply density_val. intros ->. specialize (Hm [] Dx). destruct (nd_data (snd x)); [congruence|discriminate]. }
    replace (match mo with None => Ok 1 | Some m => density m end) with (@Ok Q d) by (destruct mo; congruence). cbn [bind].
    destruct I as [->|I]; [congruence|]. apply IH; auto. intros y J. apply H. right; auto.
  - intro Hd. destruct (masks_loop dims masks sd [] 0%nat 0) as (rs & q & L & R & Q).
    { intros e I S. split; [apply H; auto; apply sel_param_covered; auto|]. apply Hd. rewrite E. apply filter_In; auto. }
    rewrite <- E in L, R, Q. fold all in L, Q. unfold masks_summary. rewrite L. cbn [bind]. cbv iota. rewrite Nat.add_0_l, app_nil_l. split.
    + intro N. unfold all. rewrite N. reflexivity.
    + intro N. assert (Ne : all <> []).
      { unfold all. destruct sel as [|e l] eqn:S; [congruence|]. cbn [map concat]. assert (I : In e sd /\ f e = true) by (apply filter_In; fold sel; rewrite S; left; auto).
        destruct I as [I1 I2]. apply Hf in I2. destruct (H e I1 I2) as [K Km]. unfold mask_of. destruct (dget masks (fst e)) as [[m|]|] eqn:D.
        - specialize (Km m eq_refl). destruct m; [|discriminate]. destruct (nd_data (snd e)); [congruence|discriminate].
        - destruct (nd_data (snd e)); [congruence|discriminate].
        - destruct (nd_data (snd e)); [congruence|discriminate]. }
      destruct (Nat.eqb_spec (length all) 0) as [Z|Z]; [destruct all; [congruence|discriminate]|].
      eexists. eexists. split; [reflexivity|]. split; auto.
      assert (Q' : q == nq (length all - zeros all)) by (rewrite Q; ring). rewrite Q'. apply percent_compl. auto.
Qed.

(** Finding: in double precision the column 'NNZ (sparse)', int(density * numel), is not the number of non-zero elements: one
    non-zero element among 49 (a 7 x 7 kernel) is reported as 0, since 1/49*49 is below 1.  (IEEE 754 binary64 as specified by
    Coq's SpecFloat; the theorems above are about exact arithmetic.) *)
Definition b64 (z : Z) : spec_float := binary_normalize 53 1024 z 0 false.
Definition nnz_b64 (nnz numel : Z) : Z :=
  match SFmul 53 1024 (SFdiv 53 1024 (b64 nnz) (b64 numel)) (b64 numel) with
  | S754_finite s m e => let z := match e with Zneg p => (Zpos m / 2 ^ Zpos p)%Z | _ => (Zpos m * 2 ^ e)%Z end in if s then (- z)%Z else z
  | _ => 0%Z
  end.
Theorem C68_nnz_float_refuted : ~ (forall nnz numel, (0 <= nnz <= numel)%Z -> (0 < numel < 2 ^ 24)%Z -> nnz_b64 nnz numel = nnz).
Proof. intro H. specialize (H 1 49 ltac:(lia) ltac:(lia))%Z. vm_compute in H. discriminate. Qed.
Example C68_nnz_float_example : nnz_b64 1 49 = 0%Z /\ nnz_b64 25 49 = 25%Z.
Proof. split; vm_compute; reflexivity. Qed.

(* ------------------------------------------------------------------------- *)
(** * C69: performance summary *)

(** the row of a call of the module at path [p] *)
Definition prow_ok (layers : nat -> layer) (p : list string) (c : call) (r : prow) : Prop :=
  p_name r = Some (join_dot p) /\ p_ifm r = f_shape (k_in c) /\ p_ofm r = f_shape (k_out c) /\
  p_ifm_vol r = numel (f_shape (k_in c)) /\ p_ofm_vol r = numel (f_shape (k_out c)) /\
  match layers (k_mod c) with
  | LConv cin groups kh kw wshape => p_weights r = numel wshape /\
      forall N O OH OW, f_shape (k_out c) = [N; O; OH; OW] -> (0 <= p_macs r)%Z /\ counts (conv_product N O OH OW (cin / groups) kh kw) (Z.to_nat (p_macs r))
  | LLinear wshape => p_weights r = numel wshape /\
      forall O I, wshape = [O; I] -> (0 <= p_macs r)%Z /\ counts (linear_product 1 O I) (Z.to_nat (p_macs r))
  | LOther => False
  end.
(** the calls that can be in a forward pass: a module of the model, tensors in single precision, a convolution whose groups
    divide its channels *)
Definition call_ok (layers : nat -> layer) (m : nmod) (c : call) : Prop :=
  (exists p d, In (p, d) (all_modules m []) /\ mid d = k_mod c) /\ f_single (k_in c) = true /\ f_single (k_out c) = true /\
  match layers (k_mod c) with LConv cin groups _ _ _ => (0 < groups)%nat /\ (cin mod groups = 0)%nat | _ => True end.
Definition counted (layers : nat -> layer) (c : call) : bool := match layers (k_mod c) with LOther => false | _ => true end.

Lemma visitor_ok layers m p d c :
  good_model m -> unshared m -> In (p, d) (all_modules m []) -> mid d = k_mod c -> call_ok layers m c -> counted layers c = true ->
  exists r, visitor layers m c = Ok r /\ prow_ok layers p c r.
Proof.
  intros G U I E (_ & Si & So & Hl) Hc. pose proof (find_module_name_spec m p d G U I) as Nm. rewrite E in Nm.
  unfold visitor, counted, prow_ok in *. destruct (layers (k_mod c)) as [cin groups kh kw wshape|wshape|]; [| |discriminate].
  - destruct Hl as [Hg Hd]. unfold module_visitor, volume. rewrite Si, So. cbn [bind]. destruct (Nat.eqb_spec groups 0) as [|_]; [lia|]. cbn [bind].
    eexists. split; [reflexivity|]. cbn. split; auto. do 5 (split; auto). intros N O OH OW Sh.
    set (q := (cin / groups)%nat). assert (Eq : cin = (groups * q)%nat) by (pose proof (Nat.div_mod cin groups ltac:(lia)); lia).
    rewrite (trunc_nat (numel (f_shape (k_out c)) * (q * kh * kw))).
    + split; [lia|]. rewrite Nat2Z.id, Sh. unfold numel. simpl fold_right. replace (N * (O * (OH * (OW * 1))) * (q * kh * kw))%nat with (N * O * OH * OW * (q * kh * kw))%nat by ring. apply conv_count.
    + rewrite !nq_mult. assert (0 < nq groups) by (apply nq_pos; lia). rewrite Eq at 1. rewrite nq_mult. field. lra.
  - unfold module_visitor, volume. rewrite Si, So. cbn [bind]. eexists. split; [reflexivity|]. cbn. split; auto. do 5 (split; auto). intros O I' ->.
    rewrite (trunc_nat (numel [O; I'])) by reflexivity. split; [lia|]. rewrite Nat2Z.id. unfold numel. simpl fold_right. replace (O * (I' * 1))%nat with (1 * O * I')%nat by ring. apply linear_count.
Qed.

Lemma path_of_unique m p q d e : unshared m -> In (p, d) (all_modules m []) -> In (q, e) (all_modules m []) -> mid d = mid e -> p = q.
Proof.
  unfold unshared, ids. generalize (all_modules m []). induction l as [|x l IH]; intros N I J E; [destruct I|]. cbn [map] in N. inversion N as [|? ? N1 N2]; subst.
  destruct I as [->|I], J as [K|J].
  - congruence.
  - exfalso. apply N1. cbn [snd]. rewrite E. apply (in_map (fun pm : list string * nmod => mid (snd pm))) in J. exact J.
  - subst x. exfalso. apply N1. cbn [snd]. rewrite <- E. apply (in_map (fun pm : list string * nmod => mid (snd pm))) in I. exact I.
  - eauto.
Qed.

(** On a model without shared modules: one row for each call of a convolution or linear layer, in the order in which they
    finish, with the module's name, the volumes, and the number of products (for a linear layer: those of one input row). *)
Theorem C69_rows :
  forall layers m calls, good_model m -> unshared m -> (forall c, In c calls -> call_ok layers m c) ->
  exists rows, performance_summary layers m calls = Ok rows /\
    Forall2 (fun c r => forall p d, In (p, d) (all_modules m []) -> mid d = k_mod c -> prow_ok layers p c r) (filter (counted layers) calls) rows.
Proof.
  intros layers m calls G U H. unfold performance_summary.
  assert (L : forall df, exists rows, foldM (fun df c => run_hooks (hooks layers m (k_mod c)) layers m c df) calls df = Ok (df ++ rows) /\
     Forall2 (fun c r => forall p d, In (p, d) (all_modules m []) -> mid d = k_mod c -> prow_ok layers p c r) (filter (counted layers) calls) rows); [|apply (L [])].
  induction calls as [|c calls IH]; intro df.
  - exists []. rewrite app_nil_r. split; [reflexivity|constructor].
  - cbn [foldM filter]. pose proof (H c (or_introl eq_refl)) as Hc. pose proof Hc as ((p & d & I & E) & _). unfold counted at 2. unfold hooks at 1. destruct (counted layers c) eqn:Cc.
    + destruct (visitor_ok layers m p d c G U I E Hc Cc) as (r & V & R).
      assert (C1 : count_occ Nat.eq_dec (apply_seq m) (k_mod c) = 1%nat).
      { rewrite apply_seq_count by exact U. unfold unshared in U. rewrite NoDup_count_occ' in U. apply U. rewrite <- E. unfold ids. apply (in_map (fun pm : list string * nmod => mid (snd pm))) in I. exact I. }
      assert (Hh : match layers (k_mod c) with LOther => 0%nat | _ => count_occ Nat.eq_dec (apply_seq m) (k_mod c) end = 1%nat).
      { unfold counted in Cc. destruct (layers (k_mod c)); auto. discriminate. }
      rewrite Hh. rewrite (run_hooks_rows 1 layers m c df r V). cbn [bind repeat].
      destruct (IH (fun x J => H x (or_intror J)) (df ++ [r])) as (rows & -> & F). exists (r :: rows). split; [rewrite <- app_assoc; reflexivity|].
      unfold counted in Cc. destruct (layers (k_mod c)) eqn:Lc; try discriminate; (constructor; auto; intros q e J E'; assert (p = q) as <- by (eapply path_of_unique; eauto; congruence); exact R).
    + unfold counted in Cc. destruct (layers (k_mod c)) eqn:Lc; try discriminate. cbn [run_hooks bind]. apply IH. intros x J. apply H. right; auto.
Qed.

(** A linear layer with [R] input rows performs [R] times the products reported: exact for one row, wrong for a batch. *)
Theorem C69_linear_rows :
  forall layers p c r O I R, prow_ok layers p c r -> layers (k_mod c) = LLinear [O; I] ->
  counts (linear_product R O I) (R * Z.to_nat (p_macs r)).
Proof.
  intros layers p c r O I R P L. unfold prow_ok in P. rewrite L in P. destruct P as (_ & _ & _ & _ & _ & _ & P). destruct (P O I eq_refl) as [_ K].
  rewrite (counts_unique _ _ _ K (linear_count 1 O I)). replace (R * (1 * O * I))%nat with (R * O * I)%nat by ring. apply linear_count.
Qed.

Module Ex69.
  Open Scope nat_scope.
  Definition conv := Mod 1 TConv2d ["weight"%string] [].
  Definition fc := Mod 2 TLinear ["weight"%string] [].
  Definition net := Mod 0 (TOther 0) [] [("conv"%string, conv); ("fc"%string, fc)].
  Definition layers (i : nat) : layer := match i with 1%nat => LConv 4 2 3 3 [6; 2; 3; 3] | 2%nat => LLinear [10; 96] | _ => LOther end.
  Definition c1 := mkCall 1 (mkFm true [8; 4; 6; 6]) (mkFm true [8; 6; 4; 4]).
  Definition c2 := mkCall 2 (mkFm true [8; 96]) (mkFm true [8; 10]).
  Definition calls := [c1; c2; mkCall 0 (mkFm true [8; 4; 6; 6]) (mkFm true [8; 10])].
  (** one convolution used by two blocks *)
  Definition block (i : nat) := Mod i (TOther 0) [] [("conv"%string, conv)].
  Definition shared := Mod 0 (TOther 0) [] [("a"%string, block 5); ("b"%string, block 6)].
End Ex69.

Example C69_example :
  good_model Ex69.net /\ unshared Ex69.net /\ (forall c, In c Ex69.calls -> call_ok Ex69.layers Ex69.net c) /\
  performance_summary Ex69.layers Ex69.net Ex69.calls =
    Ok [mkProw (Some "conv"%string) [8; 4; 6; 6]%nat 1152 [8; 6; 4; 4]%nat 768 108 13824; mkProw (Some "fc"%string) [8; 96]%nat 768 [8; 10]%nat 80 960 960].
Proof.
  split; [|split; [|split]].
  - intros p c I. simpl in I. destruct I as [[= <- <-]|[[= <- <-]|[[= <- <-]|[]]]]; split; simpl; repeat constructor; simpl; try (intros [A|A]; try discriminate A; try destruct A); try discriminate; auto; intros [].
  - unfold unshared, ids. simpl. apply NoDup_cons; [simpl; lia|]. apply NoDup_cons; [simpl; lia|]. apply NoDup_cons; [simpl; lia|apply NoDup_nil].
  - intros c [<-|[<-|[<-|[]]]]; unfold call_ok; (split; [|split; [reflexivity|split; [reflexivity|simpl; auto with arith]]]).
    + exists ["conv"%string], Ex69.conv. split; [right; left|]; reflexivity.
    + exists ["fc"%string], Ex69.fc. split; [right; right; left|]; reflexivity.
    + exists [], Ex69.net. split; [left|]; reflexivity.
  - vm_compute. reflexivity.
Qed.

(** Finding: for a batch of 8 rows the linear layer performs 7680 products; 960 are reported (the convolution's count includes
    the batch). *)
Theorem C69_linear_batch_refuted :
  ~ (forall layers m calls rows, good_model m -> unshared m -> (forall c, In c calls -> call_ok layers m c) -> performance_summary layers m calls = Ok rows ->
     forall c r R O I, In (c, r) (combine (filter (counted layers) calls) rows) -> layers (k_mod c) = LLinear [O; I] -> f_shape (k_out c) = [R; O] ->
       counts (linear_product R O I) (Z.to_nat (p_macs r))).
Proof.
  intro H. destruct C69_example as (G & U & C & E). specialize (H _ _ _ _ G U C E Ex69.c2 (mkProw (Some "fc"%string) [8; 96]%nat 768 [8; 10]%nat 80 960 960) 8%nat 10%nat 96%nat (or_intror (or_introl eq_refl)) eq_refl eq_refl).
  pose proof (counts_unique _ _ _ H (linear_count 8 10 96)) as K. vm_compute in K. discriminate.
Qed.

(** Finding: nothing is put into [memo], and a module with two parents gets a hook from each: each call gives two rows. *)
Theorem C69_shared_module_refuted :
  ~ (forall layers m calls rows, performance_summary layers m calls = Ok rows -> (length rows <= length calls)%nat).
Proof.
  intro H. specialize (H Ex69.layers Ex69.shared [Ex69.c1]). destruct (performance_summary Ex69.layers Ex69.shared [Ex69.c1]) as [rows|] eqn:E; [|vm_compute in E; discriminate].
  specialize (H rows eq_refl). vm_compute in E. injection E as <-. simpl in H. lia.
Qed.

(** ... in general, a module gets a hook for each time [apply] reaches it, and each call as many equal rows. *)
Theorem C69_rows_per_call :
  forall layers m c r, visitor layers m c = Ok r -> counted layers c = true ->
  performance_summary layers m [c] = Ok (repeat r (count_occ Nat.eq_dec (apply_seq m) (k_mod c))).
Proof.
  intros layers m c r V C. unfold performance_summary. cbn [foldM]. unfold hooks. rewrite (run_hooks_rows _ _ _ _ [] r).
  - cbn [bind app]. unfold counted in C. destruct (layers (k_mod c)); auto. discriminate.
  - exact V.
Qed.

(** Half or double precision: distiller.volume raises, and so does the summary. *)
Theorem C69_precision :
  forall layers m calls c, In c calls -> f_single (k_out c) = false -> (0 < hooks layers m (k_mod c))%nat ->
  (forall d, In d calls -> match layers (k_mod d) with LConv _ g _ _ _ => (0 < g)%nat | _ => True end) ->
  performance_summary layers m calls = Raise ValueError.
Proof.
  intros layers m calls c I S Hh Hg. unfold performance_summary. generalize (@nil prow). revert I Hg. induction calls as [|d calls IH]; intros I Hg df; [destruct I|]. cbn [foldM].
  assert (K : forall n df, (exists df', run_hooks n layers m d df = Ok df') \/ run_hooks n layers m d df = Raise ValueError \/ layers (k_mod d) = LOther).
  { pose proof (Hg d (or_introl eq_refl)) as Gd. induction n as [|n IHn]; intro df0; [left; exists df0; reflexivity|]. cbn [run_hooks]. unfold visitor, module_visitor, volume.
    destruct (layers (k_mod d)) as [? g ? ? ?|?|] eqn:L; [| |auto].
    - destruct (Nat.eqb_spec g 0); [lia|]. destruct (f_single (k_out d)); [|right; left; reflexivity]. cbn [bind]. destruct (f_single (k_in d)); [|right; left; reflexivity]. cbn [bind].
      destruct (IHn (df0 ++ [mkProw (find_module_name m (k_mod d)) (f_shape (k_in d)) (numel (f_shape (k_in d))) (f_shape (k_out d)) (numel (f_shape (k_out d))) (numel wshape) (trunc (nq (numel (f_shape (k_out d))) * (nq cin / nq g * nq kh * nq kw)))])) as [?|[?|?]]; auto.
    - destruct (f_single (k_in d)); [|right; left; reflexivity]. cbn [bind]. destruct (f_single (k_out d)); [|right; left; reflexivity]. cbn [bind].
      destruct (IHn (df0 ++ [mkProw (find_module_name m (k_mod d)) (f_shape (k_in d)) (numel (f_shape (k_in d))) (f_shape (k_out d)) (numel (f_shape (k_out d))) (numel wshape) (trunc (nq (numel wshape)))])) as [?|[?|?]]; auto. }
  assert (K2 : (exists df', run_hooks (hooks layers m (k_mod d)) layers m d df = Ok df') \/ run_hooks (hooks layers m (k_mod d)) layers m d df = Raise ValueError).
  { destruct (K (hooks layers m (k_mod d)) df) as [?|[?|L]]; auto. unfold hooks. rewrite L. left. simpl. eauto. }
  destruct I as [->|I].
  - destruct K2 as [(df' & E)| ->]; [|reflexivity]. exfalso. destruct (hooks layers m (k_mod c)) as [|n] eqn:Eh; [lia|]. cbn [run_hooks] in E. unfold visitor, module_visitor, volume in E. rewrite S in E.
    unfold hooks in Eh. destruct (layers (k_mod c)); [|destruct (f_single (k_in c)); discriminate E|discriminate Eh]. discriminate E.
  - destruct K2 as [(df' & ->)| ->]; [|reflexivity]. cbn [bind]. apply IH; auto. intros e J. apply Hg. right; auto.
Qed.

(* ------------------------------------------------------------------------- *)
(** * C70: cost attributes of the summary graph *)

(** the shapes of an operation's first input and first output *)
Definition shapes (ps : dict (list nat)) (o : gop) (si so : list nat) : Prop :=
  exists i l o' l', g_in o = i :: l /\ g_out o = o' :: l' /\ dget ps i = Some si /\ dget ps o' = Some so.
Definition is_layer (o : gop) : Prop := match g_ty o with OConv _ _ | OGemm => True | _ => False end.
Definition priced (o : gop) : Prop := match g_ty o with OElse => False | _ => True end.

Lemma Forall2_len {A B} (R : A -> B -> Prop) l r : Forall2 R l r -> length l = length r.
Proof. induction 1; simpl; auto. Qed.
Lemma mapR_Forall2 {A B} (f : A -> res B) l r : mapR f l = Ok r -> Forall2 (fun a b => f a = Ok b) l r.
Proof. revert r; induction l as [|a l IH]; intros r H; simpl in H; [injection H as <-; constructor|]. inv_bind H. inv_bind H. injection H as <-. constructor; auto. Qed.
Lemma mapR_total {A B} (f : A -> res B) l : (forall a, In a l -> exists b, f a = Ok b) -> exists r, mapR f l = Ok r.
Proof.
  induction l as [|a l IH]; intro H; simpl; [eauto|]. destruct (H a (or_introl eq_refl)) as (b & ->). cbn [bind]. destruct IH as (r & ->); [intros; apply H; right; auto|]. cbn [bind]. eauto.
Qed.
Lemma cost_attrs_ops ps ops attrs : cost_attrs ps ops = Ok attrs ->
  Forall2 (fun o a => op_macs ps o = Ok (a_macs a) /\ op_footprint ps o = Ok (a_fp a) /\ a_ai a = op_ai (a_macs a) (a_fp a)) ops attrs.
Proof.
  intro H. unfold cost_attrs in H. inv_bind H. inv_bind H. injection H as <-. apply mapR_Forall2 in H0. apply mapR_Forall2 in H1. revert x0 H1.
  induction H0 as [|o m ops ms Hm Hms IH]; intros fs Hf; inversion Hf as [|? ? ? ? F1 F2]; subst; simpl; constructor; auto.
Qed.

(** The attributes of a convolution: the number of its products, the sizes of its feature maps and weights, their ratio rounded
    to the nearest integer (halves up). *)
Theorem C70_conv :
  forall ps ops attrs, cost_attrs ps ops = Ok attrs ->
  forall o a kh kw g N cg H W O OH OW, In (o, a) (combine ops attrs) -> g_ty o = OConv [kh; kw] g ->
    shapes ps o [N; (Pos.to_nat g * cg)%nat; H; W] [N; O; OH; OW] ->
    (0 <= a_macs a)%Z /\ counts (conv_product N O OH OW cg kh kw) (Z.to_nat (a_macs a)) /\
    a_fp a == nq (N * (Pos.to_nat g * cg) * H * W) + nq (N * O * OH * OW) + nq (O * cg * kh * kw).
Proof.
  intros ps ops attrs E o a kh kw g N cg H W O OH OW I T (i & l & o' & l' & Ei & Eo & Di & Do). apply cost_attrs_ops in E.
  assert (K : op_macs ps o = Ok (a_macs a) /\ op_footprint ps o = Ok (a_fp a)).
  { clear -E I. induction E as [|x y ops attrs A E IH]; [destruct I|]. destruct I as [[= -> ->]|I]; [tauto|auto]. }
  destruct K as [M F]. unfold op_macs in M. rewrite T, Ei, Eo in M. cbn [first bind] in M. unfold param_shape in M. rewrite Di, Do in M. cbn [bind index nth_error try_index] in M. injection M as M.
  assert (G : 0 < Zq (Zpos g)) by (apply Zq_pos; lia). assert (Eg : nq (Pos.to_nat g) == Zq (Zpos g)) by (unfold nq; rewrite positive_nat_Z; reflexivity).
  rewrite (trunc_nat (N * O * OH * OW * (cg * kh * kw))) in M.
  2:{ unfold numel. simpl fold_right. replace (N * (O * (OH * (OW * 1))) * (kh * (kw * 1)) * (Pos.to_nat g * cg))%nat with (Pos.to_nat g * (N * O * OH * OW * (cg * kh * kw)))%nat by ring. rewrite nq_mult, Eg. field. lra. }
  rewrite <- M. split; [lia|]. split; [rewrite Nat2Z.id; apply conv_count|].
  unfold op_footprint in F. rewrite T, Ei, Eo in F. cbn [first bind] in F. unfold param_shape in F. rewrite Di, Do in F. cbn [bind index nth_error] in F. injection F as <-.
  unfold numel. simpl fold_right.
  replace (N * (O * (OH * (OW * 1))))%nat with (N * O * OH * OW)%nat by ring. replace (N * (Pos.to_nat g * cg * (H * (W * 1))))%nat with (N * (Pos.to_nat g * cg) * H * W)%nat by ring.
  replace (kh * (kw * 1) * (Pos.to_nat g * cg) * O)%nat with (Pos.to_nat g * (O * cg * kh * kw))%nat by ring. rewrite (nq_mult (Pos.to_nat g) (O * cg * kh * kw)), Eg. field. lra.
Qed.

(** Of a matrix product: the products of one row, whatever the number of rows; feature maps and weights. *)
Theorem C70_gemm :
  forall ps ops attrs, cost_attrs ps ops = Ok attrs ->
  forall o a R I O, In (o, a) (combine ops attrs) -> g_ty o = OGemm -> shapes ps o [R; I] [R; O] ->
    (0 <= a_macs a)%Z /\ counts (linear_product 1 O I) (Z.to_nat (a_macs a)) /\ a_fp a == nq (R * I) + nq (R * O) + nq (O * I).
Proof.
  intros ps ops attrs E o a R I O J T (i & l & o' & l' & Ei & Eo & Di & Do). apply cost_attrs_ops in E.
  assert (K : op_macs ps o = Ok (a_macs a) /\ op_footprint ps o = Ok (a_fp a)).
  { clear -E J. induction E as [|x y ops attrs A E IH]; [destruct J|]. destruct J as [[= -> ->]|J]; [tauto|auto]. }
  destruct K as [M F]. unfold op_macs in M. rewrite T, Ei, Eo in M. cbn [first bind] in M. unfold param_shape in M. rewrite Di, Do in M. cbn [bind index nth_error try_index fst snd] in M. injection M as M.
  rewrite <- M. split; [lia|]. split; [rewrite Nat2Z.id; replace (O * I)%nat with (1 * O * I)%nat by ring; apply linear_count|].
  unfold op_footprint in F. rewrite T, Ei, Eo in F. cbn [first bind] in F. unfold param_shape in F. rewrite Di, Do in F. cbn [bind index nth_error] in F. injection F as <-.
  unfold numel. simpl fold_right. replace (R * (O * 1))%nat with (R * O)%nat by ring. replace (R * (I * 1))%nat with (R * I)%nat by ring.
  replace ((I + 0) * O)%nat with (O * I)%nat by ring. change (Zq 1) with 1. field.
Qed.

(** Of max pooling: no products, the feature maps.  Of anything else: nothing. *)
Theorem C70_others :
  forall ps ops attrs, cost_attrs ps ops = Ok attrs ->
  forall o a, In (o, a) (combine ops attrs) ->
    (g_ty o = OElse -> a_macs a = 0%Z /\ a_fp a = 0 /\ a_ai a = 0%Z) /\
    (forall si so, g_ty o = OMaxPool -> shapes ps o si so -> a_macs a = 0%Z /\ a_fp a == nq (numel si) + nq (numel so) /\ a_ai a = 0%Z).
Proof.
  intros ps ops attrs E o a J. apply cost_attrs_ops in E.
  assert (K : op_macs ps o = Ok (a_macs a) /\ op_footprint ps o = Ok (a_fp a) /\ a_ai a = op_ai (a_macs a) (a_fp a)).
  { clear -E J. induction E as [|x y ops attrs A E IH]; [destruct J|]. destruct J as [[= -> ->]|J]; [tauto|auto]. }
  destruct K as (M & F & A). split.
  - intro T. unfold op_macs in M. unfold op_footprint in F. rewrite T in *. injection M as M. injection F as F. rewrite A, <- M, <- F. auto.
  - intros si so T (i & l & o' & l' & Ei & Eo & Di & Do). unfold op_macs in M. unfold op_footprint in F. rewrite T in *. injection M as M.
    rewrite Ei, Eo in F. cbn [first bind] in F. unfold param_shape in F. rewrite Di, Do in F. cbn [bind] in F. injection F as F. rewrite A, <- M, <- F. split; auto. split; [ring|].
    unfold op_ai. destruct (Qeq_bool _ 0) eqn:Z; auto. pose proof (nq_nonneg (numel so)). pose proof (nq_nonneg (numel si)). set (f := nq (numel so) + nq (numel si)) in *.
    assert (P : 0 < f). { apply Qeq_bool_neq in Z. destruct (Qlt_le_dec 0 f); auto. exfalso. apply Z. unfold f in *. lra. }
    assert (K : (Zq 0 + (1 # 2) * f) / f == 1 # 2) by (change (Zq 0) with 0; field; lra). rewrite (Qfloor_comp _ _ K). reflexivity.
Qed.

(** Arithmetic intensity: the nearest integer to products per element moved. *)
Theorem C70_intensity :
  forall ps ops attrs, cost_attrs ps ops = Ok attrs ->
  forall o a, In (o, a) (combine ops attrs) ->
    (a_fp a == 0 -> a_ai a = 0%Z) /\ (0 < a_fp a -> Zq (a_ai a) - (1 # 2) <= Zq (a_macs a) / a_fp a /\ Zq (a_macs a) / a_fp a < Zq (a_ai a) + (1 # 2)).
Proof.
  intros ps ops attrs E o a J. apply cost_attrs_ops in E.
  assert (A : a_ai a = op_ai (a_macs a) (a_fp a)).
  { clear -E J. induction E as [|x y ops attrs A E IH]; [destruct J|]. destruct J as [[= -> ->]|J]; [tauto|auto]. }
  rewrite A. unfold op_ai. split; intro H.
  - apply Qeq_bool_iff in H. rewrite H. reflexivity.
  - destruct (Qeq_bool (a_fp a) 0) eqn:Z; [apply Qeq_bool_iff in Z; lra|].
    assert (K : (Zq (a_macs a) + (1 # 2) * a_fp a) / a_fp a == Zq (a_macs a) / a_fp a + (1 # 2)) by (field; lra).
    rewrite (Qfloor_comp _ _ K). set (q := Zq (a_macs a) / a_fp a) in *. pose proof (Qfloor_le (q + (1 # 2))). pose proof (Qlt_floor (q + (1 # 2))).
    unfold Zq in *. rewrite inject_Z_plus in H1. change (inject_Z 1) with 1 in H1. lra.
Qed.

(** When the attributes are computed at all. *)
Theorem C70_total :
  forall ps ops, (forall o, In o ops -> priced o -> exists si so, shapes ps o si so /\ (is_layer o -> 2 <= length si /\ 2 <= length so)%nat) ->
  exists attrs, cost_attrs ps ops = Ok attrs /\ length attrs = length ops.
Proof.
  intros ps ops H.
  assert (M : exists ms, mapR (op_macs ps) ops = Ok ms).
  { apply mapR_total. intros o I. specialize (H o I). unfold op_macs, priced, is_layer in *. destruct (g_ty o); eauto; destruct (H Logic.I) as (si & so & (i & l & o' & l' & -> & -> & Di & Do) & Hl); destruct (Hl Logic.I);
      cbn [first bind]; unfold param_shape; rewrite Di, Do; cbn [bind]; destruct si as [|s0 [|s1 si]]; simpl in *; try lia; eauto.
    destruct so as [|t0 [|t1 so]]; simpl in *; try lia; eauto. }
  assert (F : exists fs, mapR (op_footprint ps) ops = Ok fs).
  { apply mapR_total. intros o I. specialize (H o I). unfold op_footprint, priced, is_layer in *. destruct (g_ty o); eauto; destruct (H Logic.I) as (si & so & (i & l & o' & l' & -> & -> & Di & Do) & Hl);
      cbn [first bind]; unfold param_shape; rewrite Di, Do; cbn [bind]; eauto; destruct (Hl Logic.I); destruct si as [|s0 [|s1 si]]; simpl in *; try lia; destruct so as [|t0 [|t1 so]]; simpl in *; try lia; eauto. }
  destruct M as (ms & M), F as (fs & F). unfold cost_attrs. rewrite M, F. cbn [bind]. eexists. split; [reflexivity|]. rewrite map_length, combine_length.
  apply mapR_Forall2 in M. apply mapR_Forall2 in F. apply Forall2_len in M. apply Forall2_len in F. lia.
Qed.

(** Finding: add_macs_attr is made to survive a layer whose input has no known shape ("MAC values will be wrong"), but
    add_footprint_attr, which runs next, indexes the same shape without a handler: the constructor always raises. *)
Theorem C70_missing_shape :
  forall ps ops, (forall o, In o ops -> priced o -> exists si so, shapes ps o si so) ->
  (exists o si so, In o ops /\ is_layer o /\ shapes ps o si so /\ (length si < 2 \/ length so < 2)%nat) ->
  (exists ms, mapR (op_macs ps) ops = Ok ms) /\ cost_attrs ps ops = Raise IndexError.
Proof.
  intros ps ops H (o & si & so & I & L & S & Len).
  assert (M : exists ms, mapR (op_macs ps) ops = Ok ms).
  { apply mapR_total. intros o1 I1. specialize (H o1 I1). unfold op_macs, priced in *. destruct (g_ty o1); eauto; destruct (H Logic.I) as (si1 & so1 & (i & l & o' & l' & -> & -> & Di & Do));
      cbn [first bind]; unfold param_shape; rewrite Di, Do; cbn [bind]; destruct si1 as [|s0 [|s1 si1]]; simpl; eauto; destruct so1 as [|t0 [|t1 so1]]; simpl; eauto. }
  destruct M as (ms & M). split; eauto. unfold cost_attrs. rewrite M. cbn [bind].
  assert (F : mapR (op_footprint ps) ops = Raise IndexError); [|rewrite F; reflexivity]. clear M.
  assert (Bad : op_footprint ps o = Raise IndexError).
  { destruct S as (i & l & o' & l' & Ei & Eo & Di & Do). unfold op_footprint, is_layer in *. destruct (g_ty o); try contradiction; rewrite Ei, Eo; cbn [first bind]; unfold param_shape; rewrite Di, Do; cbn [bind];
      destruct si as [|s0 [|s1 si]]; simpl in *; auto; destruct so as [|t0 [|t1 so]]; simpl in *; auto; lia. }
  assert (All : forall x, In x ops -> (exists f, op_footprint ps x = Ok f) \/ op_footprint ps x = Raise IndexError).
  { intros x Ix. specialize (H x Ix). unfold op_footprint, priced in *. destruct (g_ty x); eauto; destruct (H Logic.I) as (si1 & so1 & (i & l & o' & l' & -> & -> & Di & Do));
      cbn [first bind]; unfold param_shape; rewrite Di, Do; cbn [bind]; eauto; destruct si1 as [|s0 [|s1 si1]]; simpl; eauto; destruct so1 as [|t0 [|t1 so1]]; simpl; eauto. }
  clear H. induction ops as [|x ops IH]; [destruct I|]. simpl. destruct (All x (or_introl eq_refl)) as [(f & E)|E]; rewrite E; [|reflexivity]. cbn [bind].
  destruct I as [->|I]; [congruence|]. rewrite IH; auto. intros; apply All; right; auto.
Qed.

Example C70_example :
  let ps := [("in"%string, [2; 4; 6; 6]%nat); ("c"%string, [2; 6; 4; 4]%nat); ("v"%string, [2; 96]%nat); ("out"%string, [2; 10]%nat)] in
  let ops := [mkGop (OConv [3; 3]%nat 2) ["in"%string] ["c"%string]; mkGop OElse ["c"%string] ["v"%string]; mkGop OGemm ["v"%string] ["out"%string]] in
  exists a, cost_attrs ps ops = Ok a /\ map a_macs a = [3456; 0; 960]%Z /\ map a_ai a = [6; 0; 1]%Z.
Proof. eexists. split; [vm_compute; reflexivity|]. split; reflexivity. Qed.

(* ------------------------------------------------------------------------- *)
(** * C71: make_non_parallel_copy *)

(** The copy is the model with every wrapper replaced by its module, and no wrapper is left. *)
Theorem C71_non_parallel_copy :
  forall m, plain_dp m -> make_non_parallel_copy m = unwrap m /\ no_dp (make_non_parallel_copy m).
Proof.
  intros m P. assert (E : make_non_parallel_copy m = unwrap m).
  { destruct (replace_dp_unwrap m P) as [A B]. destruct m as [i [|] kids]; [|apply A; reflexivity].
    rewrite plain_dp_eq in P. destruct P as (Hb & _). destruct (Hb eq_refl) as (x & -> & _). apply (B i "module"%string x). reflexivity. }
  split; auto. rewrite E. apply unwrap_no_dp. auto.
Qed.
(** A model without wrappers is copied as it is. *)
Theorem C71_no_wrapper : forall m, no_dp m -> unwrap m = m.
Proof.
  induction m as [i b kids IH] using dmod_ind'. rewrite no_dp_eq. intros (-> & Hk). rewrite unwrap_false. f_equal. pose proof (proj1 (all_kids_In _ _) Hk) as K. clear Hk.
  induction kids as [|[n c] l IHl]; simpl; auto. inversion IH as [|? ? A B]; subst. f_equal; [f_equal; apply A; apply (K (n, c)); left; auto|]. apply IHl; auto. intros; apply K; right; auto.
Qed.

Module Ex71.
  Definition leaf (i : nat) := DMod i false [].
  Definition wrap (i : nat) (x : dmod) := DMod i true [("module"%string, x)].
  Definition vgg := DMod 0 false [("features"%string, wrap 1 (DMod 2 false [("conv"%string, leaf 3); ("inner"%string, wrap 4 (leaf 5))])); ("classifier"%string, leaf 6)].
End Ex71.
Example C71_example : plain_dp Ex71.vgg /\
  make_non_parallel_copy Ex71.vgg = DMod 0 false [("features"%string, DMod 2 false [("conv"%string, Ex71.leaf 3); ("inner"%string, Ex71.leaf 5)]); ("classifier"%string, Ex71.leaf 6)].
Proof.
  split; [|reflexivity]. simpl. repeat split; auto; try discriminate; try (intros _; eexists; split; reflexivity); repeat (apply NoDup_cons; [simpl; lia|]); apply NoDup_nil.
Qed.

(** Finding: wrappers of wrappers, and a wrapper referenced twice in one container, are left in the copy. *)
Theorem C71_nested_refuted : ~ (forall m, no_dp (make_non_parallel_copy m)).
Proof. intro H. specialize (H (Ex71.wrap 0 (Ex71.wrap 1 (Ex71.leaf 2)))). simpl in H. destruct H as [H _]. discriminate. Qed.
Theorem C71_shared_refuted :
  exists m, (forall x i, m = Ex71.wrap i x -> False) /\ ~ no_dp (make_non_parallel_copy m) /\ no_dp (unwrap m).
Proof.
  exists (DMod 0 false [("a"%string, Ex71.wrap 1 (Ex71.leaf 2)); ("b"%string, Ex71.wrap 1 (Ex71.leaf 2))]). split; [intros x i [=]|]. split; [|simpl; auto].
  simpl. intros (_ & _ & (H & _) & _). discriminate.
Qed.

Example C68_example :
  let sd := [("conv.weight"%string, mkND [2; 1; 1; 2]%nat [1; 0; 0; 0]); ("bn.weight"%string, mkND [2]%nat [0; 0]); ("fc.weight"%string, mkND [1; 2]%nat [3; 4]); ("fc.scale"%string, mkND [1; 1]%nat [0])] in
  (forall e, In e sd -> covered [2; 4]%nat e -> nd_ok (snd e) /\ nd_data (snd e) <> []) /\
  covered [2; 4]%nat ("conv.weight"%string, mkND [2; 1; 1; 2]%nat [1; 0; 0; 0]) /\
  exists rows tot, weights_summary [2; 4]%nat sd = Ok (rows, tot) /\ map w_name rows = ["conv.weight"; "fc.weight"]%string /\ tot_dense tot = 6%nat /\ tot_nnz tot = 3%Z /\ tot_sparsity tot == 50.
Proof.
  split; [|split].
  - intros e [<-|[<-|[<-|[<-|[]]]]] _; split; try reflexivity; discriminate.
  - split; [simpl; auto|]. left. exists "conv."%string, EmptyString. reflexivity.
  - eexists. eexists. split; [vm_compute; reflexivity|]. repeat split; vm_compute; reflexivity.
Qed.

Print Assumptions C68_weights_table.
Print Assumptions C68_masks_table.
Print Assumptions C68_nnz_float_refuted.
Print Assumptions C69_rows.
Print Assumptions C69_linear_rows.
Print Assumptions C69_linear_batch_refuted.
Print Assumptions C69_shared_module_refuted.
Print Assumptions C69_rows_per_call.
Print Assumptions C69_precision.
Print Assumptions C70_conv.
Print Assumptions C70_gemm.
Print Assumptions C70_others.
Print Assumptions C70_intensity.
Print Assumptions C70_total.
Print Assumptions C70_missing_shape.
Print Assumptions C71_non_parallel_copy.
Print Assumptions C71_no_wrapper.
Print Assumptions C71_nested_refuted.
Print Assumptions C71_shared_refuted.
