(** C35 (maps of a model), C54 (prepare_model), C55 (repeated quantization, input quantization). *)
From Coq Require Import String Ascii List ZArith Bool Arith Lia.
From Verif Require Import Base Names QzrModel QzrSpec QzrProofs QzrProofs2 QzrProofs3 PropertiesQzr.
Import ListNotations.
Local Open Scope string_scope.
Local Open Scope list_scope.

Lemma mapsM_inv {A B} (f : A -> res B) l r : mapsM f l = Ok r -> Forall2 (fun a b => f a = Ok b) l r.
Proof.
  revert r. induction l as [|a l IH]; intros r H; cbn [mapsM] in H; [injection H as <-; constructor|].
  inv_bind H. inv_bind H. injection H as <-. constructor; auto.
Qed.

(** C35: a constructed quantizer holds, for every module of an unshared model, the bits and arguments of
    the module's own name; weight and bias bits only for convolution, linear and embedding layers. *)
Theorem C35_quantizer_maps :
  forall d l opt fp m l' mp km, good_model m -> unshared m ->
  qzr_init d l true opt fp m = Ok (l', (mp, km)) ->
  forall p c, In (p, c) (all_modules m []) ->
  exists b k, module_entry d l' (join_dot p) = Ok (b, k) /\
  dget mp (join_dot p) = Some (if has_qparams (mty c) then b else mkQb (q_acts b) None None) /\ dget km (join_dot p) = Some k.
Proof.
  intros d l opt fp m l' mp km G U H p c I. unfold qzr_init in H. cbn [negb] in H. destruct (fp && negb opt); [discriminate|].
  inv_bind H. inv_bind H. injection H as -> ->. clear H0.
  unfold build_maps in H1. inv_bind H1. injection H1 as <- <-. rewrite named_modules_spec in H by auto.
  assert (N : NoDup (map (fun pm => join_dot (fst pm)) (all_modules m []))).
  { rewrite <- map_map. apply NoDup_map_inj; [|apply paths_NoDup; auto]. intros q r J K E.
    apply in_map_iff in J as ([q' ?] & <- & J). apply in_map_iff in K as ([r' ?] & <- & K). cbn [fst] in *.
    apply join_inj_good in E; auto; eapply good_paths; eauto. }
  apply mapsM_inv in H. revert x N H I. generalize (all_modules m []) as ms. clear.
  induction ms as [|[q k] ms IH]; intros x N H I; [destruct I|]. inversion H as [|? [n0 [b0 k0]] ? r E F]; subst. clear H.
  cbn [map named fst snd] in *. inversion N as [|? ? N1 N2]; subst.
  inv_bind E. destruct x as [b k1]. cbn [fst snd] in E. apply (f_equal (fun r => match r with Ok x => x | Raise _ => (n0, (b0, k0)) end)) in E.
  injection E as <- <- <-. cbn [map fst snd dget].
  destruct I as [[= -> ->]|I].
  - rewrite String.eqb_refl. exists b, k1. split; [exact H|]. split; [|reflexivity]. unfold restrict_bits. destruct (has_qparams (mty c)); reflexivity.
  - destruct (String.eqb_spec (join_dot p) (join_dot q)) as [K|K].
    + exfalso. apply N1. rewrite <- K. apply in_map_iff. exists (p, c). auto.
    + apply IH; auto.
Qed.

(** * C54 *)
(** C54: the result of preparing an unshared model.  Each module is replaced according to its own bits and
    arguments, the parameters chosen for quantization are exactly those of the convolution, linear and
    embedding layers, once each and with the layer's bits; the only error is an override argument that
    the replacement function does not accept. *)
Theorem C54_prepare_model :
  forall z mp km bits kw m, good_model m -> unshared m -> unshared (spec_tree z bits kw m []) ->
  (forall p c, In (p, c) (all_modules m []) ->
     dget mp (join_dot p) = Some (bits p) /\ dget km (join_dot p) = Some (kw p) /\
     (has_qparams (mty c) = false -> q_wts (bits p) = None /\ q_bias (bits p) = None) /\
     (has_qparams (mty c) = true -> mkids c = []) /\ good_repl z bits kw p c) ->
  ((exists p c, In (p, c) (visited z m []) /\ bad_args z kw p c) -> prepare_model z mp km false m = Raise TypeError) /\
  ((forall p c, In (p, c) (visited z m []) -> ~ bad_args z kw p c) ->
    exists mp' ps, prepare_model z mp km false m = Ok (spec_tree z bits kw m [], mp', ps) /\
    map (fun t => (t_module t, t_fp t, t_q t, t_bits t)) ps = spec_params z bits m).
Proof.
  intros z mp km bits kw m G U U' H.
  assert (PRE : pre z km bits kw m [] (mkPs [] [] mp)).
  { split; [constructor|]. split; auto. split; auto. cbn [ps_done ps_sets ps_map find_done find_set]. split; auto. split; auto.
    intros p c I. destruct (H p c) as (A & B & C & D & E); [rewrite all_modules_eq; right; auto|]. auto. }
  pose proof (process_spec z km bits kw m [] _ PRE) as P. change (pfx []) with "" in P. unfold prepare_model.
  destruct P as [(P1 & P2)|(P1 & st & P2 & D & S & R & M & F)].
  - rewrite P2. split; auto. intro K. destruct P1 as (p & c & A & B). exfalso. apply (K p c A B).
  - rewrite P2. split; [intros (p & c & A & B); exfalso; apply (P1 p c A B)|]. intros _. cbn [bind]. cbv zeta.
    rewrite (R (ps_sets st)) by auto.
    assert (Gr : forall p c, In (p, c) (all_modules m []) -> good_repl z bits kw p c) by (intros p c I; apply (H p c I)).
    assert (G' : good_model (spec_tree z bits kw m [])).
    { apply spec_tree_good; auto. intros p c I. apply Gr. rewrite all_modules_eq. right; auto. }
    assert (Ok_b : ok_bits z bits kw (all_modules m [])) by (intros p c I; destruct (H p c I) as (_ & _ & A); auto).
    destruct (params_spec z bits kw m [] (ps_map st)) as [Q1 Q2]; auto.
    { intros p c I. apply Ok_b. rewrite all_modules_eq. right; auto. }
    assert (R0 : dget (ps_map st) "" = Some (bits [])).
    { rewrite M; [|intros (n & r & K1 & K2 & K3)].
      - apply (H [] m). rewrite all_modules_eq. left; auto.
      - symmetry in K3. simpl in K3. assert (Gn : good_name n) by (destruct (good_model_root _ G) as [K _]; rewrite Forall_forall in K; apply K; auto).
        destruct Gn as [Gn _]. destruct r; simpl in K3; destruct n; try discriminate; congruence. }
    assert (Hroot : map proj (module_ptqs (z_fp_copy z) "" (spec_tree z bits kw m []) (bits [])) = spec_params_of z bits ([], m)).
    { destruct (Ok_b [] m) as (K1 & K2 & _); [rewrite all_modules_eq; left; auto|]. destruct (has_qparams (mty m)) eqn:Eq.
      - rewrite (spec_tree_leaf z bits kw m []) by auto. apply ptqs_leaf; auto.
      - destruct (K1 eq_refl). rewrite ptqs_none by auto. unfold spec_params_of. cbn [snd]. rewrite Eq. reflexivity. }
    set (g := fun nm : string * nmod => match dget (ps_map st) (fst nm) with Some q => module_ptqs (z_fp_copy z) (fst nm) (snd nm) q | None => [] end).
    exists (ps_map st), (concat (map g (named_modules (spec_tree z bits kw m [])))). split.
    + unfold collect_params. rewrite (mapsM_ok _ g).
      * reflexivity.
      * rewrite named_modules_spec by auto. intros nm I. apply in_map_iff in I as ([p c] & <- & I). unfold named. cbn [fst snd].
        rewrite all_modules_eq in I. unfold g. cbn [fst snd]. destruct I as [[= <- <-]|I].
        -- change (join_dot []) with "". rewrite R0. reflexivity.
        -- specialize (Q2 (p, c) I). cbn [fst] in Q2. destruct (dget (ps_map st) (join_dot p)); congruence.
    + rewrite named_modules_spec by auto. fold proj. change (fun t => (t_module t, t_fp t, t_q t, t_bits t)) with proj. rewrite concat_map, !map_map.
      assert (E : concat (map (fun x => map proj (g (named x))) (all_modules (spec_tree z bits kw m []) [])) = ptqs z (ps_map st) (all_modules (spec_tree z bits kw m []) [])).
      { unfold ptqs. rewrite flat_map_concat_map. f_equal. apply map_ext. intros [p c]. unfold g, named. cbn [fst snd]. destruct (dget (ps_map st) (join_dot p)); reflexivity. }
      rewrite E. rewrite all_modules_eq. unfold spec_params. rewrite (all_modules_eq m). cbn [flat_map]. rewrite <- Q1, <- Hroot.
      unfold ptqs at 1. cbn [flat_map fst snd]. change (join_dot []) with "". rewrite R0. reflexivity.
Qed.

Theorem C54_prepare_twice : forall z mp km m, prepare_model z mp km true m = Raise RuntimeError.
Proof. reflexivity. Qed.

(** ** Shared modules *)
(** the child references of a model *)
Definition child_ref (m : nmod) (cid : nat) (n : string) (c : nmod) : Prop :=
  exists p v, In (p, v) (all_modules m []) /\ mid v = cid /\ In (n, c) (mkids v).

Definition sets_sound (root : nmod) (st : pstate) : Prop :=
  forall cid n w, In ((cid, n), w) (ps_sets st) -> exists c full, child_ref root cid n c /\ find_done (ps_done st) (mid c) = Some (full, Some w).

Lemma process_child_sound z km root cid full n c st st' b : child_ref root cid n c -> sets_sound root st ->
  process_child z km cid full n c st = Ok (st', b) ->
  sets_sound root st' /\ (forall i e, find_done (ps_done st) i = Some e -> find_done (ps_done st') i = Some e).
Proof.
  intros Hc Hs H. unfold process_child in H. destruct (z_black z (mty c)); [injection H as <- <-; auto|].
  destruct (find_done (ps_done st) (mid c)) as [[pf [w|]]|] eqn:E.
  - injection H as <- <-. split; auto. intros cid' n' w' [[= <- <- <-]|I]; [exists c, pf; auto|apply Hs; auto].
  - injection H as <- <-. auto.
  - assert (K : forall e, sets_sound root (mkPs ((mid c, e) :: ps_done st) (ps_sets st) (ps_map st)) /\
      (forall i e', find_done (ps_done st) i = Some e' -> find_done ((mid c, e) :: ps_done st) i = Some e')).
    { intro e. assert (X : forall i e', find_done (ps_done st) i = Some e' -> find_done ((mid c, e) :: ps_done st) i = Some e').
      { intros i e' He. cbn [find_done]. destruct (Nat.eqb_spec i (mid c)) as [->|]; auto. congruence. }
      split; auto. intros cid' n' w' I. destruct (Hs _ _ _ I) as (c' & f' & A & B). exists c', f'. split; auto. }
    destruct (dget (ps_map st) full) as [q|]; [|discriminate]. destruct (dget km full) as [k|]; [|discriminate].
    assert (CASE : forall X : res (pstate * bool), (match q_acts q, q_wts q, k with
       | None, None, [] => Ok (mkPs ((mid c, (full, None)) :: ps_done st) (ps_sets st) (ps_map st), true) | _, _, _ => X end) = Ok (st', b) ->
       (st' = mkPs ((mid c, (full, None)) :: ps_done st) (ps_sets st) (ps_map st)) \/ X = Ok (st', b)).
    { intros X. destruct (q_acts q), (q_wts q), k; auto. intros [= <- <-]. auto. }
    apply CASE in H as [->|H]; [apply K|].
    destruct (z_factory z (mty c)) as [f|]; [|injection H as <- <-; auto].
    destruct (invalid_kwargs k f); [|discriminate]. destruct (rf_run f c full q k) as [|i t p subs]; injection H as <- <-; [apply K|].
    destruct (K (full, Some (New i t p subs))) as [K1 K2]. cbn [ps_sets ps_done]. split; [|exact K2].
    intros cid' n' w' [[= <- <- <-]|I].
    + exists c, full. split; auto. cbn [ps_done find_done]. rewrite Nat.eqb_refl. reflexivity.
    + apply (K1 cid' n' w' I).
Qed.

Lemma process_sound z km root m : forall path prefix st st', In (path, m) (all_modules root []) -> sets_sound root st ->
  process z km m prefix st = Ok st' -> sets_sound root st' /\ (forall i e, find_done (ps_done st) i = Some e -> find_done (ps_done st') i = Some e).
Proof.
  induction m as [i t ps kids IH] using nmod_ind'. intros path prefix st st' Hm Hs H. rewrite process_eq in H. cbn [mid mkids] in H.
  assert (Hk : forall nc, In nc kids -> In nc kids) by auto.
  enough (L : forall l st, sets_sound root st -> forall memo, (forall nc, In nc l -> In nc kids) -> go_process z km i prefix l memo st = Ok st' ->
     sets_sound root st' /\ (forall i e, find_done (ps_done st) i = Some e -> find_done (ps_done st') i = Some e)) by (eapply L; eauto).
  clear st Hs H Hk. induction l as [|[n c] l IHl]; intros st Hs memo Hk H; cbn [go_process] in H.
  - injection H as <-. auto.
  - destruct (mem_nat (mid c) memo).
    + eapply IHl in H; auto. intros; apply Hk; right; auto.
    + cbv zeta in H. inv_bind H. destruct x as [st1 b]. cbn [fst snd] in H. inv_bind H.
      assert (Ic : In (n, c) kids) by (apply Hk; left; auto).
      assert (Cr : child_ref root i n c) by (exists path, (Mod i t ps kids); auto).
      destruct (process_child_sound _ _ _ _ _ _ _ _ _ _ Cr Hs H0) as [A1 A2].
      assert (B : sets_sound root x /\ (forall i e, find_done (ps_done st1) i = Some e -> find_done (ps_done x) i = Some e)).
      { destruct (b && has_children c); [|injection H1 as <-; auto]. rewrite Forall_forall in IH.
        apply (IH (n, c) Ic (path ++ [n]) (prefix ++ n ++ ".")%string st1 x); auto.
        - assert (Rt : forall r path0 q v k n', In (q, v) (all_modules r path0) -> In (n', k) (mkids v) -> In (q ++ [n'], k) (all_modules r path0)).
          { clear. induction r as [i t ps kids IH] using nmod_ind'. intros path0 q v k n' I J. rewrite all_modules_eq in *. destruct I as [[= <- <-]|I].
            - right. unfold below. apply in_concat. exists (all_modules k (path0 ++ [n'])). split; [apply in_map_iff; exists (n', k); auto|]. rewrite all_modules_eq. left; auto.
            - right. unfold below in *. apply in_concat in I as (x & A & B). apply in_map_iff in A as ([n1 c1] & <- & A). apply in_concat.
              exists (all_modules c1 (path0 ++ [n1])). split; [apply in_map_iff; exists (n1, c1); auto|]. rewrite Forall_forall in IH. apply (IH (n1, c1) A _ _ v); auto. }
          eapply Rt; eauto.
        - rewrite <- H1. f_equal. assert (AS : forall u v w : string, ((u ++ v) ++ w = u ++ (v ++ w))%string) by (induction u; intros; simpl; congruence). rewrite AS. reflexivity. }
      destruct B as [B1 B2]. destruct (IHl x B1 (mid c :: memo)) as [C1 C2]; [intros; apply Hk; right; auto|exact H|]. split; auto.
Qed.

(** C54: in any model, with modules shared in any way, all references to a module that are replaced are
    replaced by the same new module: the replacement function runs once per module. *)
Theorem C54_shared_modules_same_wrapper :
  forall z km mp m st, process z km m "" (mkPs [] [] mp) = Ok st ->
  (forall p v p' v', In (p, v) (all_modules m []) -> In (p', v') (all_modules m []) -> mid v = mid v' -> v = v') ->
  good_model m ->
  forall cid n c cid' n' c' w w', child_ref m cid n c -> child_ref m cid' n' c' -> mid c = mid c' ->
  In ((cid, n), w) (ps_sets st) -> In ((cid', n'), w') (ps_sets st) -> w = w'.
Proof.
  intros z km mp m st H Hid G cid n c cid' n' c' w w' R1 R2 Em I1 I2.
  destruct (process_sound z km m m [] "" (mkPs [] [] mp) st) as [A _]; auto.
  { rewrite all_modules_eq. left; auto. }
  { intros ? ? ? []. }
  assert (U : forall cid n c c', child_ref m cid n c -> child_ref m cid n c' -> c = c').
  { clear - Hid G. intros cid n c c' (p & v & A & B & C) (p' & v' & A' & B' & C'). assert (v = v') as <- by (eapply Hid; eauto; congruence).
    pose proof (G p v A) as [_ N]. revert C C' N. generalize (mkids v) as l. clear. induction l as [|[n0 c0] l IH]; simpl; [tauto|].
    intros C C' N. inversion N as [|? ? N1 N2]; subst. destruct C as [C|C], C' as [C'|C']; auto; [congruence| |].
    - exfalso. apply N1. injection C as -> ->. apply in_map_iff. exists (n, c'). auto.
    - exfalso. apply N1. injection C' as -> ->. apply in_map_iff. exists (n, c). auto. }
  destruct (A _ _ _ I1) as (c1 & f1 & K1 & K2). destruct (A _ _ _ I2) as (c2 & f2 & K3 & K4).
  rewrite (U _ _ _ _ K1 R1) in K2. rewrite (U _ _ _ _ K3 R2) in K4. rewrite Em in K2. congruence.
Qed.

(** examples: ReLU (type 1) is replaced by a new activation (type 10), convolutions are wrapped (type 11) *)
Definition zq : quantizer := mkQz (fun t => match t with
   | TOther 1 => Some (mkRfun ["prop"] (fun m full q k => New (100 + mid m) (TOther 10) [] []))
   | TConv2d => Some (mkRfun [] (fun m full q k => New (100 + mid m) (TOther 11) [] [("inner", Hole)]))
   | _ => None end) (fun _ => false) true.
Definition conv (i : nat) : nmod := Mod i TConv2d ["weight"; "bias"] [].
Definition relu (i : nat) : nmod := Mod i (TOther 1) [] [].
Definition pool (i : nat) : nmod := Mod i (TOther 2) [] [].
Definition seqm (i : nat) (l : list (string * nmod)) : nmod := Mod i (TOther 3) [] l.
Definition d8 : qbits := mkQb (Some 8%Z) (Some 4%Z) None.

(** C54 (finding): a module that is referenced in two containers and has no replacement makes prepare_model
    fail with KeyError. *)
Theorem C54_shared_unreplaced_refuted :
  let m := seqm 0 [("a", seqm 1 [("pool", pool 5)]); ("b", seqm 2 [("pool", pool 5)])] in
  exists l' mp km, qzr_init d8 None true true true m = Ok (l', (mp, km)) /\ prepare_model zq mp km false m = Raise KeyError.
Proof. cbv zeta. eexists _, _, _. split; vm_compute; reflexivity. Qed.

(** C54 (finding): of two references to a module in the same container (the example in prepare_model's
    documentation) only the first is replaced, and then prepare_model fails with KeyError. *)
Theorem C54_shared_siblings_refuted :
  let m := seqm 0 [("relu1", relu 5); ("relu2", relu 5)] in
  exists l' mp km st, qzr_init d8 None true true true m = Ok (l', (mp, km)) /\ process zq km m "" (mkPs [] [] mp) = Ok st /\
  rebuild (ps_sets st) m = seqm 0 [("relu1", Mod 105 (TOther 10) [] []); ("relu2", relu 5)] /\
  prepare_model zq mp km false m = Raise KeyError.
Proof. cbv zeta. eexists _, _, _, _. split; [vm_compute; reflexivity|]. split; [vm_compute; reflexivity|]. split; vm_compute; reflexivity. Qed.

(** C54 (finding): replacing a module that has children by a wrapper makes prepare_model fail with KeyError. *)
Theorem C54_container_wrapper_refuted :
  let z := mkQz (fun t => match t with TOther 3 => Some (mkRfun [] (fun m full q k => New (100 + mid m) (TOther 12) [] [("inner", Hole)])) | _ => None end) (fun _ => false) false in
  let m := seqm 0 [("a", seqm 1 [("relu", relu 5)])] in
  exists l' mp km, qzr_init d8 None true true false m = Ok (l', (mp, km)) /\ prepare_model z mp km false m = Raise KeyError.
Proof. cbv zeta. eexists _, _, _. split; vm_compute; reflexivity. Qed.

(** C54: a case of the main theorem: a nested model with an override; and shared activations. *)
Definition m1 : nmod := seqm 0 [("conv1", conv 1); ("relu1", relu 2); ("sub", seqm 3 [("conv1", conv 4); ("relu1", relu 5)])].
Definition m1_bits (p : list string) : qbits :=
  match p with
  | ["conv1"] => mkQb None None (Some 32%Z) | ["sub"; "conv1"] => mkQb (Some 8%Z) (Some 4%Z) None
  | _ => mkQb (Some 8%Z) None None end.
Example C54_ex :
  good_model m1 /\ unshared m1 /\ unshared (spec_tree zq m1_bits (fun _ => []) m1 []) /\
  (exists l' mp km, qzr_init d8 (Some [((chars "conv1", []), mkOvr (Some None) (Some None) (Some (Some 32%Z)) false [])]) true true true m1 = Ok (l', (mp, km)) /\
   (forall p c, In (p, c) (all_modules m1 []) ->
     dget mp (join_dot p) = Some (m1_bits p) /\ dget km (join_dot p) = Some [] /\
     (has_qparams (mty c) = false -> q_wts (m1_bits p) = None /\ q_bias (m1_bits p) = None) /\
     (has_qparams (mty c) = true -> mkids c = []) /\ good_repl zq m1_bits (fun _ => []) p c) /\
   exists mp' ps, prepare_model zq mp km false m1 = Ok (spec_tree zq m1_bits (fun _ => []) m1 [], mp', ps) /\
   map proj ps = [(1%nat, "float_bias", "bias", 32%Z); (4%nat, "float_weight", "weight", 4%Z)]).
Proof.
  split.
  { intros p c I. cbn in I. repeat (destruct I as [I|I]; [injection I as <- <-; cbn|]); try contradiction;
      (split; [repeat constructor; try discriminate; reflexivity|repeat constructor; cbn; intuition discriminate]). }
  split; [unfold unshared; cbn; repeat constructor; cbn; intuition discriminate|].
  split; [unfold unshared; cbn; repeat constructor; cbn; intuition discriminate|].
  eexists _, _, _. split; [vm_compute; reflexivity|]. split.
  { intros p c I. cbn in I. repeat (destruct I as [I|I]; [injection I as <- <-|]); try contradiction;
      (split; [vm_compute; reflexivity|]; split; [vm_compute; reflexivity|]; split; [intro K; try discriminate K; split; reflexivity|]; split; [intro K; try discriminate K; reflexivity|]);
      intros i t ps subs D; vm_compute in D; try discriminate D; injection D as <- <- <- <-.
    - split; [reflexivity|]. split; [constructor|]. split; [constructor|]. split; [discriminate|]. split; [reflexivity|]. intros ? ? ? ? [].
    - split; [reflexivity|]. split; [repeat constructor; discriminate|]. split; [repeat constructor; intros []|]. split.
      + intros _. exists [], "inner", []. split; [reflexivity|]. intros ? ? [].
      + split; [reflexivity|]. intros ? ? ? ? [[=]|[]].
    - split; [reflexivity|]. split; [constructor|]. split; [constructor|]. split; [discriminate|]. split; [reflexivity|]. intros ? ? ? ? []. }
  eexists _, _. split; vm_compute; reflexivity.
Qed.
Example C54_shared_ex :
  let m := seqm 0 [("a", seqm 1 [("relu", relu 5)]); ("b", seqm 2 [("relu", relu 5)])] in
  exists l' mp km m' mp' ps, qzr_init d8 None true true true m = Ok (l', (mp, km)) /\ prepare_model zq mp km false m = Ok (m', mp', ps) /\
  m' = seqm 0 [("a", seqm 1 [("relu", Mod 105 (TOther 10) [] [])]); ("b", seqm 2 [("relu", Mod 105 (TOther 10) [] [])])].
Proof. cbv zeta. eexists _, _, _, _, _, _. split; [vm_compute; reflexivity|]. split; vm_compute; reflexivity. Qed.

(** * C55: repeated quantization *)
Section C55.
Context {T : Type}.
Definition attr (p : ptq) : nat * string := (t_module p, t_q p).
(** separate float copies: no float tensor is the quantized tensor of an entry; each tensor has one entry *)
Definition separate (l : list ptq) : Prop :=
  NoDup (map attr l) /\ forall p p', In p l -> In p' l -> (t_module p, t_fp p) <> attr p'.

Lemma put_same (s : store T) i n v : put s i n v i n = v.
Proof. unfold put. rewrite Nat.eqb_refl, String.eqb_refl. reflexivity. Qed.
Lemma put_other (s : store T) i n v j k : (j, k) <> (i, n) -> put s i n v j k = s j k.
Proof. intro H. unfold put. destruct (Nat.eqb_spec i j), (String.eqb_spec n k); cbn [andb]; auto. congruence. Qed.

Lemma quantize_other qf l : forall (s : store T) j k, ~ In (j, k) (map attr l) -> quantize_params qf l s j k = s j k.
Proof.
  unfold quantize_params. induction l as [|p l IH]; intros s j k H; auto. cbn [fold_left]. rewrite IH by (intro K; apply H; right; auto).
  apply put_other. intro K. apply H. left. auto.
Qed.
Lemma quantize_self qf l : forall (s : store T), separate l ->
  forall p, In p l -> quantize_params qf l s (t_module p) (t_q p) = qf (t_bits p) (s (t_module p) (t_fp p)).
Proof.
  induction l as [|p l IH]; intros s [N Hs] q Hq; [destruct Hq|]; destruct Hq as [->|I].
  - unfold quantize_params. cbn [fold_left]. inversion N; subst. change (fold_left _ l ?x) with (quantize_params qf l x). rewrite quantize_other by auto. apply put_same.
  - unfold quantize_params. cbn [fold_left]. inversion N; subst. change (fold_left _ l ?x) with (quantize_params qf l x). rewrite IH; auto.
    + rewrite put_other; auto. apply Hs; [right; auto|left; auto].
    + split; auto. intros a b A B. apply Hs; right; auto.
Qed.

(** C55: with float copies, after any training run every quantized tensor is the quantization of the
    current float tensor; quantization itself changes nothing else, in particular no float tensor, and
    doing it twice is the same as doing it once. *)
Theorem C55_float_copy :
  forall qf l (s : store T) steps, separate l ->
  (forall p, In p l -> train_run qf l steps s (t_module p) (t_q p) = qf (t_bits p) (train_run qf l steps s (t_module p) (t_fp p))) /\
  (forall j k, ~ In (j, k) (map attr l) -> quantize_params qf l s j k = s j k) /\
  (forall p, In p l -> quantize_params qf l s (t_module p) (t_fp p) = s (t_module p) (t_fp p)) /\
  (forall j k, quantize_params qf l (quantize_params qf l s) j k = quantize_params qf l s j k).
Proof.
  intros qf l s steps H.
  assert (F : forall (s : store T) p, In p l -> quantize_params qf l s (t_module p) (t_fp p) = s (t_module p) (t_fp p)).
  { intros s' p I. apply quantize_other. intro K. apply in_map_iff in K as (p' & E & I'). apply (proj2 H p p'); auto. }
  split; [|split; [|split]].
  - intros p I. assert (E : exists s', train_run qf l steps s = quantize_params qf l s').
    { destruct steps as [|f fs] using rev_ind; [exists s; reflexivity|]. unfold train_run. rewrite fold_left_app. eexists. reflexivity. }
    destruct E as (s' & ->). rewrite quantize_self, F; auto.
  - intros. apply quantize_other; auto.
  - intros. apply F; auto.
  - intros j k. assert (D : forall a b : nat * string, {a = b} + {a <> b}) by (repeat decide equality).
    destruct (in_dec D (j, k) (map attr l)) as [I|I].
    + apply in_map_iff in I as (p & E & I). injection E as <- <-. rewrite !quantize_self by auto. rewrite F; auto.
    + rewrite !quantize_other; auto.
Qed.

(** C55: without float copies each quantization works on the result of the previous one. *)
Theorem C55_no_float_copy :
  forall qf l (s : store T), NoDup (map attr l) -> (forall p, In p l -> t_fp p = t_q p) ->
  forall p, In p l -> quantize_params qf l s (t_module p) (t_q p) = qf (t_bits p) (s (t_module p) (t_q p)) /\
  quantize_params qf l (quantize_params qf l s) (t_module p) (t_q p) = qf (t_bits p) (qf (t_bits p) (s (t_module p) (t_q p))).
Proof.
  assert (K : forall qf l (s : store T), NoDup (map attr l) -> (forall p, In p l -> t_fp p = t_q p) ->
    forall p, In p l -> quantize_params qf l s (t_module p) (t_q p) = qf (t_bits p) (s (t_module p) (t_q p))).
  { intros qf l. induction l as [|p l IH]; intros s N H q Hq; [destruct Hq|]; destruct Hq as [->|I]; inversion N; subst;
      unfold quantize_params; cbn [fold_left]; change (fold_left _ l ?x) with (quantize_params qf l x).
    - rewrite quantize_other by auto. rewrite put_same, H by (left; auto). reflexivity.
    - rewrite IH; auto.
      + rewrite put_other; auto. intro K. apply H2. apply in_map_iff. exists q. auto.
      + intros a A. apply H. right; auto. }
  intros qf l s N H p I. split; [apply K; auto|]. rewrite K by auto. rewrite K by auto. reflexivity.
Qed.
End C55.

(** C55: the parameters that prepare_model selects with float copies have separate float and quantized tensors,
    provided no layer has two parameters called p and float_p. *)
Theorem C55_prepared_separate :
  forall z bits m ps, z_fp_copy z = true -> unshared m -> map proj ps = spec_params z bits m ->
  (forall p c, In (p, c) (all_modules m []) -> NoDup (mparams c) /\ forall a b, In a (mparams c) -> In b (mparams c) -> ("float_" ++ a)%string <> b) ->
  separate ps.
Proof.
  intros z bits m ps Hz U E H.
  assert (In_spec : forall p, In p ps -> exists q c a, In (q, c) (all_modules m []) /\ In a (mparams c) /\ t_module p = mid c /\ t_q p = a /\ t_fp p = ("float_" ++ a)%string).
  { intros p I. assert (J : In (proj p) (spec_params z bits m)) by (rewrite <- E; apply in_map; auto). unfold spec_params in J.
    apply in_flat_map in J as ([q c] & A & B). unfold spec_params_of in B. cbn [fst snd] in B. destruct (has_qparams (mty c)); [|destruct B].
    apply in_flat_map in B as (a & B & C). rewrite Hz in C. destruct (if ends_with_bias a then _ else _); [|destruct C]. destruct C as [C|[]].
    unfold proj in C. injection C as C1 C2 C3 C4. exists q, c, a. auto. }
  assert (Uid : forall q c q' c', In (q, c) (all_modules m []) -> In (q', c') (all_modules m []) -> mid c = mid c' -> c = c').
  { intros q c q' c' A B K. unfold unshared, ids in U. revert A B U. generalize (all_modules m []). clear -K.
    induction l as [|[q0 c0] l IH]; simpl; [tauto|]. intros A B U. inversion U; subst. destruct A as [[= -> ->]|A], B as [[= -> ->]|B]; auto.
    - exfalso. apply H1. apply in_map_iff. exists (q', c'). auto.
    - exfalso. apply H1. apply in_map_iff. exists (q, c). auto. }
  split.
  - assert (Em : map attr ps = map (fun t => (fst (fst (fst t)), snd (fst t))) (spec_params z bits m)) by (rewrite <- E, map_map; reflexivity).
    rewrite Em. clear Em E In_spec. unfold spec_params. unfold unshared, ids in U.
    assert (Hn : forall p c, In (p, c) (all_modules m []) -> NoDup (mparams c)) by (intros p c I; apply (H p c I)). clear H Uid. revert U Hn.
    generalize (all_modules m []). induction l as [|[q c] l IH]; intros U Hn; [constructor|]. cbn [flat_map map snd] in *. inversion U as [|? ? U1 U2]; subst.
    rewrite map_app. apply NoDup_app_intro.
    + unfold spec_params_of. cbn [fst snd]. destruct (has_qparams (mty c)); [|constructor].
      assert (N : NoDup (mparams c)) by (apply (Hn q); left; auto). clear -N. induction (mparams c) as [|a r IH]; [constructor|]. inversion N; subst.
      cbn [flat_map]. rewrite map_app. apply NoDup_app_intro; auto.
      * destruct (if ends_with_bias a then _ else _); cbn; repeat constructor; auto.
      * intros x A B. apply in_map_iff in B as (y & <- & B). apply in_flat_map in B as (b & B & C).
        destruct (if ends_with_bias b then _ else _); [|destruct C]. destruct C as [<-|[]]. cbn [fst snd] in A.
        destruct (if ends_with_bias a then _ else _); [|destruct A]. cbn in A. destruct A as [[= A]|[]]. subst. auto.
    + apply IH; auto. intros p k I. apply (Hn p). right; auto.
    + intros x A B. apply in_map_iff in A as (y & <- & A). apply in_map_iff in B as (y' & K & B).
      assert (Ym : forall y q c, In y (spec_params_of z bits (q, c)) -> fst (fst (fst y)) = mid c).
      { clear. intros y q c A. unfold spec_params_of in A. cbn [fst snd] in A. destruct (has_qparams (mty c)); [|destruct A]. apply in_flat_map in A as (a & _ & A).
        destruct (if ends_with_bias a then _ else _); [|destruct A]. destruct A as [<-|[]]. reflexivity. }
      apply in_flat_map in B as ([q' c'] & B1 & B2). apply Ym in A. apply Ym in B2. injection K as K1 K2.
      apply U1. apply in_map_iff. exists (q', c'). split; auto. cbn [snd]. congruence.
  - intros p p' I I' K. destruct (In_spec p I) as (q & c & a & A1 & A2 & A3 & A4 & A5). destruct (In_spec p' I') as (q' & c' & a' & B1 & B2 & B3 & B4 & B5).
    unfold attr in K. injection K as K1 K2. assert (c = c') as <- by (eapply Uid; eauto; congruence).
    apply (proj2 (H q c A1) a a' A2 B2). congruence.
Qed.

(** C55: input quantization patches the model's class: the patched forward quantizes the input once and runs the
    original forward. *)
Theorem C55_inputs_quantized_once :
  forall {V} (quant base : V -> V) depth x, (2 <= depth)%nat ->
  call quant base depth (patch (mkCls FOrig None)) (k_forward (patch (mkCls FOrig None))) x = Some (base (quant x)).
Proof. intros V quant base depth x H. destruct depth as [|[|d]]; try lia. reflexivity. Qed.

(** C55 (finding): preparing a second model of the same class makes forward call itself without end, for both models
    and whatever the size of the call stack. *)
Theorem C55_second_model_refuted :
  forall {V} (quant base : V -> V) depth x,
  let c := patch (patch (mkCls FOrig None)) in call quant base depth c (k_forward c) x = None.
Proof.
  intros V quant base depth. cbv zeta. cbn [patch k_forward]. induction depth as [|d IH]; intro x; [reflexivity|]. cbn [call k_original]. apply IH.
Qed.

Example C55_ex :
  let l := [mkPtq 1 "conv1" "float_weight" "weight" 4; mkPtq 1 "conv1" "float_bias" "bias" 8] in
  separate l /\
  (let s : store Z := fun _ k => if String.eqb k "float_weight" then 5%Z else 7%Z in
   train_run (fun b x => (x + b)%Z) l [fun s => put s 1 "float_weight" 20%Z] s 1%nat "weight" = 24%Z).
Proof.
  cbv zeta. split; [|reflexivity]. split; [repeat constructor; cbn; intuition discriminate|].
  intros p p' [<-|[<-|[]]] [<-|[<-|[]]]; discriminate.
Qed.

Print Assumptions C35_quantizer_maps.
Print Assumptions C54_prepare_model.
Print Assumptions C54_prepare_twice.
Print Assumptions C54_shared_modules_same_wrapper.
Print Assumptions C54_shared_unreplaced_refuted.
Print Assumptions C54_shared_siblings_refuted.
Print Assumptions C54_container_wrapper_refuted.
Print Assumptions C55_float_copy.
Print Assumptions C55_no_float_copy.
Print Assumptions C55_prepared_separate.
Print Assumptions C55_inputs_quantized_once.
Print Assumptions C55_second_model_refuted.
