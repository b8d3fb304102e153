(** Proofs about the quantizer's replacement of modules (C54). *)
From Coq Require Import String Ascii List ZArith Bool Arith Lia.
From Verif Require Import Base Names QzrModel QzrSpec QzrProofs.
Import ListNotations.
Local Open Scope string_scope.
Local Open Scope list_scope.

(** * Dictionary updates *)
Lemma fold_dset_other {A} (f : string * A -> string) (g : string * A -> qbits) l : forall mp x,
  (forall ns, In ns l -> x <> f ns) -> dget (fold_left (fun mp ns => dset mp (f ns) (g ns)) l mp) x = dget mp x.
Proof.
  induction l as [|a l IH]; intros mp x H; simpl; auto.
  rewrite IH by (intros; apply H; right; auto). apply dget_dset_other. intro K. apply (H a); [left; auto|congruence].
Qed.
Lemma fold_dset_same {A} (f : string * A -> string) (g : string * A -> qbits) l : forall mp ns,
  NoDup (map f l) -> In ns l -> dget (fold_left (fun mp ns => dset mp (f ns) (g ns)) l mp) (f ns) = Some (g ns).
Proof.
  induction l as [|a l IH]; intros mp ns H I; simpl; [destruct I|]. inversion H as [|? ? H1 H2]; subst. destruct I as [->|I]; auto.
  rewrite fold_dset_other; [apply dget_dset_same|]. intros ns' I E. apply H1. rewrite E. apply in_map; auto.
Qed.

Lemma NoDup_map_inj {A B} (f : A -> B) l : (forall x y, In x l -> In y l -> f x = f y -> x = y) -> NoDup l -> NoDup (map f l).
Proof.
  intros Hf H. induction l as [|a l IH]; simpl; [constructor|]. inversion H; subst. constructor.
  - rewrite in_map_iff. intros (y & E & I). apply Hf in E; [subst; auto|right; auto|left; auto].
  - apply IH; auto. intros. apply Hf; simpl; auto.
Qed.

Lemma app_cons_inj {A} (p : list A) n n' r r' : p ++ n :: r = p ++ n' :: r' -> n = n' /\ r = r'.
Proof. intro H. apply app_inv_head in H. injection H as -> ->. auto. Qed.

(** names below the children [l] of the module called [path] *)
Definition zone (path : list string) (l : list (string * nmod)) (x : string) : Prop :=
  exists n r, In n (map fst l) /\ nodots r /\ x = join_dot (path ++ n :: r).

Lemma zone_disjoint path n r n' r' : Forall good_name path -> no_dot n = true -> no_dot n' = true -> nodots r -> nodots r' ->
  join_dot (path ++ n :: r) = join_dot (path ++ n' :: r') -> n = n' /\ r = r'.
Proof.
  intros. apply join_inj in H4.
  - apply app_cons_inj in H4. auto.
  - destruct path; discriminate.
  - destruct path; discriminate.
  - apply Forall_app; split; auto using good_nodots.
  - apply Forall_app; split; auto using good_nodots.
Qed.

Lemma path_app (path : list string) n r : (path ++ [n]) ++ r = path ++ n :: r.
Proof. rewrite <- app_assoc. reflexivity. Qed.

Lemma rebuild_none sets m : (forall j n, In j (ids m) -> find_set sets j n = None) -> rebuild sets m = m.
Proof.
  induction m as [i t p kids IH] using nmod_ind'. intro H. cbn [rebuild]. f_equal.
  rewrite <- (map_id kids) at 2. apply map_ext_in. intros [n c] I. cbn [fst snd].
  rewrite H by (rewrite ids_eq; left; auto). f_equal.
  rewrite Forall_forall in IH. apply (IH (n, c) I). intros j n' J. apply H. rewrite ids_eq. right. apply in_concat.
  exists (ids c). split; auto. apply in_map_iff. exists (n, c). auto.
Qed.

Section Process.
  Context (z : quantizer) (km : kmap) (bits : list string -> qbits) (kw : list string -> kwargs).
  Notation decision := (decision z bits kw).
  Notation bad_args := (bad_args z kw).
  Notation good_repl := (good_repl z bits kw).

  Definition entry_ok (mp : qmap) (p : list string) (c : nmod) : Prop :=
    match decision p c with
    | Some (New _ _ _ (s :: subs)) =>
        dget mp (join_dot p) = Some (mkQb (q_acts (bits p)) None None) /\
        forall n s', In (n, s') (s :: subs) -> dget mp (join_dot (p ++ [n])) = Some (restrict_bits (sub_type c s') (bits p))
    | _ => dget mp (join_dot p) = Some (bits p)
    end.
  Fixpoint fmap_ok (mp : qmap) (m : nmod) (path : list string) : Prop :=
    match m with
    | Mod _ _ _ kids => fold_right and True (map (fun nc =>
        if z_black z (mty (snd nc)) then forall q k, In (q, k) (all_modules (snd nc) (path ++ [fst nc])) -> dget mp (join_dot q) = Some (bits q)
        else entry_ok mp (path ++ [fst nc]) (snd nc) /\ fmap_ok mp (snd nc) (path ++ [fst nc])) kids)
    end.
  Lemma fold_and_Forall {A} (f : A -> Prop) l : fold_right and True (map f l) <-> Forall f l.
  Proof. induction l; simpl; split; auto; [intros [H1 H2]; constructor; tauto|intro H; inversion H; tauto]. Qed.

  Lemma entry_ok_agree mp mp' p c : good_repl p c -> Forall good_name p ->
    (forall r, nodots r -> dget mp' (join_dot (p ++ r)) = dget mp (join_dot (p ++ r))) -> entry_ok mp p c -> entry_ok mp' p c.
  Proof.
    intros Gr Gp H. unfold entry_ok. pose proof (H [] (Forall_nil _)) as H0. rewrite app_nil_r in H0. unfold QzrSpec.good_repl in Gr.
    destruct (decision p c) as [[|i t ps [|s subs]]|]; try (rewrite H0; auto).
    intros [A B]. split; auto. intros n s' I. rewrite H; auto. constructor; auto.
    destruct (Gr _ _ _ _ eq_refl) as (_ & G & _). rewrite Forall_forall in G. apply G. apply in_map_iff. exists (n, s'). auto.
  Qed.

  Lemma fmap_ok_agree m : forall mp mp' path, good_model m -> Forall good_name path ->
    (forall p c, In (p, c) (below (mkids m) path) -> good_repl p c) ->
    (forall x, zone path (mkids m) x -> dget mp' x = dget mp x) -> fmap_ok mp m path -> fmap_ok mp' m path.
  Proof.
    induction m as [i t ps kids IH] using nmod_ind'. intros mp mp' path G Gp Gr H. cbn [fmap_ok]. rewrite !fold_and_Forall, !Forall_forall.
    intros F [n c] I. cbn [fst snd]. specialize (F (n, c) I). cbn [fst snd mkids] in *.
    assert (In_n : In n (map fst kids)) by (apply in_map_iff; exists (n, c); auto).
    assert (Gc : good_model c) by (eapply good_model_kid; eauto).
    destruct (z_black z (mty c)).
    - intros q k J. rewrite H; [eapply F; eauto|]. apply all_modules_prefix in J as (r & -> & J). exists n, r. rewrite path_app.
      repeat split; auto. apply good_nodots. eapply good_paths; eauto.
    - destruct F as [F1 F2].
      assert (Gn : Forall good_name (path ++ [n])).
      { apply Forall_app. split; auto. constructor; auto. destruct (good_model_root _ G) as [K _]. rewrite Forall_forall in K. apply K; auto. }
      assert (Bc : forall p c', In (p, c') (all_modules c (path ++ [n])) -> In (p, c') (below kids path)).
      { intros p c' J. unfold below. apply in_concat. eexists. split; [apply in_map_iff; exists (n, c); auto|]. exact J. }
      split.
      + eapply entry_ok_agree; [| | |exact F1]; auto.
        * apply Gr, Bc. rewrite all_modules_eq. left; auto.
        * intros r Hr. apply H. exists n, r. rewrite path_app. auto.
      + rewrite Forall_forall in IH. apply (IH (n, c) I mp mp'); auto.
        * intros p c' J. apply Gr, Bc. rewrite all_modules_eq. right; auto.
        * intros x (n' & r & K1 & K2 & ->). apply H. rewrite path_app. exists n, (n' :: r). repeat split; auto. constructor; auto.
          destruct (good_model_root _ Gc) as [K _]. rewrite Forall_forall in K. apply K; auto.
  Qed.

  Lemma invalid_nil k f : invalid_kwargs k f = [] <-> forall a v, In (a, v) k -> In a (rf_args f).
  Proof.
    unfold invalid_kwargs. induction k as [|[a v] k IH]; simpl; [split; auto; intros _ ? ? []|].
    destruct (existsb (String.eqb a) (rf_args f)) eqn:E; cbn [negb].
    - apply existsb_exists in E as (b & I & E). apply String.eqb_eq in E as <-. rewrite IH. split; intros H x y.
      + intros [[= <- <-]|J]; eauto.
      + intro J. eapply H. right; eauto.
    - split; [discriminate|]. intro H. specialize (H a v (or_introl eq_refl)).
      assert (existsb (String.eqb a) (rf_args f) = true) by (apply existsb_exists; exists a; rewrite String.eqb_refl; auto). congruence.
  Qed.

  (** one child *)
  Lemma process_child_spec cid path n c st :
    Forall good_name (path ++ [n]) -> (forall i t p subs, decision (path ++ [n]) c = Some (New i t p subs) -> mkids c = [] /\ Forall good_name (map fst subs) /\ NoDup (map fst subs)) ->
    find_done (ps_done st) (mid c) = None -> find_set (ps_sets st) cid n = None ->
    dget (ps_map st) (join_dot (path ++ [n])) = Some (bits (path ++ [n])) -> dget km (join_dot (path ++ [n])) = Some (kw (path ++ [n])) ->
    let R := process_child z km cid (join_dot (path ++ [n])) n c st in
    (z_black z (mty c) = false /\ bad_args (path ++ [n]) c /\ R = Raise TypeError) \/
    ((z_black z (mty c) = false -> ~ bad_args (path ++ [n]) c) /\ exists st1, R = Ok (st1, negb (z_black z (mty c))) /\
      (forall j, j <> mid c -> find_done (ps_done st1) j = find_done (ps_done st) j) /\
      (forall j n', (j <> cid \/ n' <> n) -> find_set (ps_sets st1) j n' = find_set (ps_sets st) j n') /\
      find_set (ps_sets st1) cid n = (if z_black z (mty c) then None else decision (path ++ [n]) c) /\
      (forall x, (forall r, nodots r -> x <> join_dot (path ++ n :: r)) -> dget (ps_map st1) x = dget (ps_map st) x) /\
      (z_black z (mty c) = true \/ mkids c <> [] -> ps_map st1 = ps_map st) /\
      (z_black z (mty c) = false -> entry_ok (ps_map st1) (path ++ [n]) c)).
  Proof.
    intros Gp Gr Hd Hs Hm Hk R. unfold R, process_child. set (p := path ++ [n]) in *.
    destruct (z_black z (mty c)) eqn:Eb.
    { right. split; [discriminate|]. exists st. repeat split; auto. discriminate. }
    rewrite Hd, Hm, Hk. unfold entry_ok, QzrSpec.bad_args. unfold QzrSpec.decision in *.
    assert (SAME : forall st1, ps_sets st1 = ps_sets st -> ps_map st1 = ps_map st -> (forall j, j <> mid c -> find_done (ps_done st1) j = find_done (ps_done st) j) ->
      forall D : option repl, D = None ->
      exists st0, Ok (st1, true) = Ok (st0, negb false) /\
      (forall j, j <> mid c -> find_done (ps_done st0) j = find_done (ps_done st) j) /\
      (forall j n', (j <> cid \/ n' <> n) -> find_set (ps_sets st0) j n' = find_set (ps_sets st) j n') /\
      find_set (ps_sets st0) cid n = D /\
      (forall x, (forall r, nodots r -> x <> join_dot (path ++ n :: r)) -> dget (ps_map st0) x = dget (ps_map st) x) /\
      (false = true \/ mkids c <> [] -> ps_map st0 = ps_map st) /\
      (false = false -> match D with
        | Some (New _ _ _ (s :: subs)) =>
            dget (ps_map st0) (join_dot p) = Some (mkQb (q_acts (bits p)) None None) /\
            forall n s', In (n, s') (s :: subs) -> dget (ps_map st0) (join_dot (p ++ [n])) = Some (restrict_bits (sub_type c s') (bits p))
        | _ => dget (ps_map st0) (join_dot p) = Some (bits p)
        end)).
    { intros st1 E1 E2 E3 D ->. exists st1. rewrite E1, E2. repeat split; auto. }
    assert (DN : forall j, j <> mid c -> find_done ((mid c, (join_dot p, @None repl)) :: ps_done st) j = find_done (ps_done st) j).
    { intros j Hj. cbn [find_done]. apply Nat.eqb_neq in Hj. rewrite Hj. reflexivity. }
    assert (CASE : (q_acts (bits p) = None /\ q_wts (bits p) = None /\ kw p = []) \/
       (forall {A} (x y : A), match q_acts (bits p), q_wts (bits p), kw p with None, None, [] => x | _, _, _ => y end = y)).
    { destruct (q_acts (bits p)), (q_wts (bits p)), (kw p); auto; right; reflexivity. }
    destruct CASE as [(C1 & C2 & C3)|CASE].
    { rewrite C1, C2, C3 in *. right. split; [intros _ (f & _ & k & v & [] & _)|]. apply SAME; auto. }
    rewrite !CASE in *. destruct (z_factory z (mty c)) as [f|] eqn:Ef.
    2:{ right. split; [intros _ (f & [=] & _)|]. apply SAME; auto. }
    destruct (invalid_kwargs (kw p) f) as [|[a v] bad] eqn:Ei.
    2:{ left. split; auto. split; auto. exists f. split; auto.
        assert (J : In (a, v) (invalid_kwargs (kw p) f)) by (rewrite Ei; left; auto).
        apply filter_In in J as [J1 J2]. exists a, v. split; auto. intro K. cbn [fst] in J2.
        assert (existsb (String.eqb a) (rf_args f) = true) by (apply existsb_exists; exists a; rewrite String.eqb_refl; auto). rewrite H in J2. discriminate. }
    right. split.
    { intros _ (f' & [= <-] & k & v & K1 & K2). apply K2. apply (proj1 (invalid_nil (kw p) f) Ei k v K1). }
    destruct (rf_run f c (join_dot p) (bits p) (kw p)) as [|i t ps subs] eqn:Er; [apply SAME; auto|].
    destruct (Gr i t ps subs eq_refl) as (Kn & Sg & Sn).
    unfold has_children. rewrite Kn. cbn [negb andb].
    assert (N0 : no_dot n = true) by (apply Forall_app in Gp as [_ Gp]; inversion Gp as [|? ? [_ ?] _]; auto).
    assert (Gpath : Forall good_name path) by (apply Forall_app in Gp as [Gp _]; auto).
    eexists. split; [reflexivity|]. cbn [ps_done ps_sets ps_map]. split; [|split; [|split; [|split; [|split]]]].
    - intros j Hj. cbn [find_done]. apply Nat.eqb_neq in Hj. rewrite Hj. reflexivity.
    - intros j n' Hj. cbn [find_set]. destruct (Nat.eqb_spec j cid) as [->|]; cbn [andb]; auto.
      destruct (String.eqb_spec n' n) as [->|]; auto. destruct Hj; congruence.
    - cbn [find_set]. rewrite Nat.eqb_refl, String.eqb_refl. reflexivity.
    - intros x Hx. destruct subs as [|s subs]; auto. unfold split_bits.
      assert (E0 : join_dot p = join_dot (path ++ n :: [])) by reflexivity.
      rewrite dget_dset_other by (intro K; apply (Hx []); [constructor|congruence]).
      rewrite (fold_dset_other (fun ns : string * sub => (join_dot p ++ "." ++ fst ns)%string)).
      + apply dget_dset_other. intro K. assert (E1 : (join_dot p ++ ".")%string = join_dot (path ++ n :: [""])).
        { replace (path ++ n :: [""]) with (p ++ [""]) by (unfold p; apply path_app). rewrite join_snoc; [reflexivity|unfold p; destruct path; discriminate]. }
        apply (Hx [""]); [repeat constructor|]. congruence.
      + intros [n' s'] I K. cbn [fst] in K.
        assert (E1 : (join_dot p ++ "." ++ n')%string = join_dot (path ++ n :: [n'])).
        { replace (path ++ n :: [n']) with (p ++ [n']) by (unfold p; apply path_app). rewrite join_snoc; [reflexivity|unfold p; destruct path; discriminate]. }
        apply (Hx [n']); [|congruence]. constructor; auto. rewrite Forall_forall in Sg. apply (Sg n'). apply in_map_iff. exists (n', s'). auto.
    - intros [K|K]; congruence.
    - intros _. destruct subs as [|s subs]; auto. unfold split_bits. split; [apply dget_dset_same|].
      intros n' s' I.
      assert (Pn : p <> []) by (unfold p; destruct path; discriminate).
      assert (Gs : forall n' s', In (n', s') (s :: subs) -> good_name n') by (intros n2 s2 I2; rewrite Forall_forall in Sg; apply Sg; apply in_map_iff; exists (n2, s2); auto).
      assert (Dp : nodots p) by (apply good_nodots; auto).
      rewrite dget_dset_other.
      2:{ intro K. apply join_inj in K; auto.
          - apply (f_equal (@length string)) in K. rewrite app_length in K. simpl in K. lia.
          - destruct p; discriminate.
          - apply Forall_app. split; auto. constructor; auto. apply (Gs n' s' I). }
      rewrite join_snoc by auto.
      apply (fold_dset_same (fun ns : string * sub => (join_dot p ++ "." ++ fst ns)%string) (fun ns => restrict_bits (sub_type c (snd ns)) (bits p)) (s :: subs) _ (n', s')); auto.
      replace (map (fun ns : string * sub => (join_dot p ++ "." ++ fst ns)%string) (s :: subs)) with (map (fun a => join_dot (p ++ [a])) (map fst (s :: subs))).
      + apply NoDup_map_inj; auto. intros a b Ia Ib K. apply in_map_iff in Ia as ([a' sa] & <- & Ia). apply in_map_iff in Ib as ([b' sb] & <- & Ib).
        cbn [fst] in *. apply join_inj in K.
        * apply app_inv_head in K. congruence.
        * destruct p; discriminate.
        * destruct p; discriminate.
        * apply Forall_app. split; auto. constructor; auto. apply (Gs _ _ Ia).
        * apply Forall_app. split; auto. constructor; auto. apply (Gs _ _ Ib).
      + rewrite map_map. apply map_ext. intro a. apply join_snoc. auto.
  Qed.

  Definition go_process (i : nat) (prefix : string) := fix go (l : list (string * nmod)) (memo : list nat) (st : pstate) {struct l} : res pstate :=
    match l with
    | [] => Ok st
    | (n, c) :: l =>
        if mem_nat (mid c) memo then go l memo st
        else let full := (prefix ++ n)%string in
             do r <- process_child z km i full n c st;
             do st' <- (if snd r && has_children c then process z km c (full ++ ".") (fst r) else Ok (fst r));
             go l (mid c :: memo) st'
    end.
  Lemma process_eq m prefix st : process z km m prefix st = go_process (mid m) prefix (mkids m) [] st.
  Proof. destruct m; reflexivity. Qed.

  Definition spec_kid (path : list string) (nc : string * nmod) : string * nmod :=
    (fst nc, if z_black z (mty (snd nc)) then snd nc
             else let c' := spec_tree z bits kw (snd nc) (path ++ [fst nc]) in
                  match decision (path ++ [fst nc]) (snd nc) with Some r => fill r c' | None => c' end).
  Definition rebuild_kid (sets : list ((nat * string) * repl)) (i : nat) (nc : string * nmod) : string * nmod :=
    (fst nc, match find_set sets i (fst nc) with Some r => fill r (rebuild sets (snd nc)) | None => rebuild sets (snd nc) end).
  Definition visited_l (l : list (string * nmod)) (path : list string) : list (list string * nmod) :=
    concat (map (fun nc => if z_black z (mty (snd nc)) then [] else (path ++ [fst nc], snd nc) :: visited z (snd nc) (path ++ [fst nc])) l).
  Definition fmap_l (mp : qmap) (l : list (string * nmod)) (path : list string) : Prop :=
    Forall (fun nc => if z_black z (mty (snd nc)) then forall q k, In (q, k) (all_modules (snd nc) (path ++ [fst nc])) -> dget mp (join_dot q) = Some (bits q)
        else entry_ok mp (path ++ [fst nc]) (snd nc) /\ fmap_ok mp (snd nc) (path ++ [fst nc])) l.

  Definition post (m : nmod) (path : list string) (st : pstate) (R : res pstate) : Prop :=
    ((exists p c, In (p, c) (visited z m path) /\ bad_args p c) /\ R = Raise TypeError) \/
    ((forall p c, In (p, c) (visited z m path) -> ~ bad_args p c) /\ exists st', R = Ok st' /\
      (forall j, ~ In j (kids_ids (mkids m)) -> find_done (ps_done st') j = find_done (ps_done st) j) /\
      (forall j n, ~ In j (ids m) -> find_set (ps_sets st') j n = find_set (ps_sets st) j n) /\
      (forall sets, (forall j n, In j (ids m) -> find_set sets j n = find_set (ps_sets st') j n) -> rebuild sets m = spec_tree z bits kw m path) /\
      (forall x, ~ zone path (mkids m) x -> dget (ps_map st') x = dget (ps_map st) x) /\
      fmap_ok (ps_map st') m path).
  Definition pre (m : nmod) (path : list string) (st : pstate) : Prop :=
    Forall good_name path /\ good_model m /\ NoDup (ids m) /\
    (forall j, In j (kids_ids (mkids m)) -> find_done (ps_done st) j = None) /\
    (forall j n, In j (ids m) -> find_set (ps_sets st) j n = None) /\
    (forall p c, In (p, c) (below (mkids m) path) -> dget (ps_map st) (join_dot p) = Some (bits p) /\ dget km (join_dot p) = Some (kw p) /\ good_repl p c).

  Lemma process_spec m : forall path st, pre m path st -> post m path st (process z km m (pfx path) st).
  Proof.
    induction m as [i t ps kids IH] using nmod_ind'. intros path st (Gp & G & Nd & Hd & Hs & Hm). rewrite process_eq. cbn [mid mkids] in *.
    assert (Gk : good_kids (Mod i t ps kids)) by (apply good_model_root; auto). destruct Gk as [Gk1 Gk2]. cbn [mkids] in *.
    rewrite ids_eq in Nd. inversion Nd as [|? ? Ni Nk]; subst. fold (kids_ids kids) in Ni, Nk.
    (* the loop *)
    assert (L : forall l memo st, (forall nc, In nc l -> In nc kids) -> NoDup (map fst l) -> NoDup (kids_ids l) ->
      (forall nc, In nc l -> ~ In (mid (snd nc)) memo) ->
      (forall j, In j (kids_ids l) -> find_done (ps_done st) j = None) ->
      (forall j n, In j (kids_ids l) -> find_set (ps_sets st) j n = None) ->
      (forall n, In n (map fst l) -> find_set (ps_sets st) i n = None) ->
      (forall p c, In (p, c) (below l path) -> dget (ps_map st) (join_dot p) = Some (bits p) /\ dget km (join_dot p) = Some (kw p) /\ good_repl p c) ->
      let R := go_process i (pfx path) l memo st in
      ((exists p c, In (p, c) (visited_l l path) /\ bad_args p c) /\ R = Raise TypeError) \/
      ((forall p c, In (p, c) (visited_l l path) -> ~ bad_args p c) /\ exists st', R = Ok st' /\
        (forall j, ~ In j (kids_ids l) -> find_done (ps_done st') j = find_done (ps_done st) j) /\
        (forall j n, ~ In j (kids_ids l) -> (j <> i \/ ~ In n (map fst l)) -> find_set (ps_sets st') j n = find_set (ps_sets st) j n) /\
        (forall sets, (forall j n, In j (kids_ids l) -> find_set sets j n = find_set (ps_sets st') j n) ->
           (forall n, In n (map fst l) -> find_set sets i n = find_set (ps_sets st') i n) -> map (rebuild_kid sets i) l = map (spec_kid path) l) /\
        (forall x, ~ zone path l x -> dget (ps_map st') x = dget (ps_map st) x) /\
        fmap_l (ps_map st') l path)).
    { clear st Hd Hs Hm. induction l as [|[n c] l IHl]; intros memo st Hl Nn Nl Hmm Hd Hs Hi Hm R.
      - right. split; [intros p c []|]. exists st. repeat split; auto. constructor.
      - unfold R. cbn [go_process].
        replace (mem_nat (mid c) memo) with false by (symmetry; apply not_true_iff_false; rewrite mem_nat_In; apply (Hmm (n, c)); left; auto).
        cbv zeta. rewrite pfx_join. rewrite pfx_snoc.
        assert (Ic : In (n, c) kids) by (apply Hl; left; auto).
        assert (Gc : good_model c) by (eapply good_model_kid; eauto).
        assert (Gn : good_name n) by (rewrite Forall_forall in Gk1; apply Gk1; apply in_map_iff; exists (n, c); auto).
        assert (Gpn : Forall good_name (path ++ [n])) by (apply Forall_app; split; auto).
        cbn [map] in Nn. cbn [fst] in Nn. inversion Nn as [|? ? Nn1 Nn2]; subst.
        assert (Ek : kids_ids ((n, c) :: l) = ids c ++ kids_ids l) by reflexivity.
        rewrite Ek in Nl. apply NoDup_app_parts in Nl as (N1 & N2 & N3).
        assert (Eb : below ((n, c) :: l) path = all_modules c (path ++ [n]) ++ below l path) by reflexivity.
        assert (Hc : In (path ++ [n], c) (below ((n, c) :: l) path)) by (rewrite Eb, all_modules_eq; left; auto).
        destruct (Hm _ _ Hc) as (Hc1 & Hc2 & Hc3).
        assert (Ii : forall j, In j (kids_ids l) -> j <> i).
        { intros j J ->. apply Ni. unfold kids_ids in *. apply in_concat in J as (x & A & B). apply in_map_iff in A as (nc & <- & A). apply in_concat. eexists. split; [|exact B]. apply in_map_iff. exists nc. split; auto. apply Hl. right; auto. }
        assert (Iic : ~ In i (ids c)).
        { intro K. apply Ni. unfold kids_ids. apply in_concat. exists (ids c). split; auto. apply in_map_iff. exists (n, c). auto. }
        destruct (process_child_spec i path n c st Gpn) as [(B1 & B2 & B3)|(B1 & st1 & B3 & D1 & S1 & S1' & M1 & M1' & E1)]; auto.
        { intros i0 t0 p0 subs Dc. destruct (Hc3 _ _ _ _ Dc) as (A1 & A2 & A3 & _). auto. }
        { apply Hd. rewrite Ek. apply in_or_app. left. apply mid_ids. }
        { apply Hi. left; reflexivity. }
        + left. rewrite B3. split; auto. exists (path ++ [n]), c. split; auto. unfold visited_l. cbn [map concat fst snd]. rewrite B1. left; auto.
        + rewrite B3. cbn [bind fst snd].
          assert (HM : forall x, (forall r, nodots r -> x <> join_dot (path ++ n :: r)) <-> ~ (exists r, nodots r /\ x = join_dot (path ++ n :: r))).
          { intro x. split; [intros K (r & K1 & K2); eapply K; eauto|intros K r Kr Ke; apply K; eauto]. }
          (* the subtree *)
          set (X := (if negb (z_black z (mty c)) && has_children c then process z km c (pfx (path ++ [n])) st1 else Ok st1)).
          assert (SUB : (z_black z (mty c) = false /\ (exists p k, In (p, k) (visited z c (path ++ [n])) /\ bad_args p k) /\ X = Raise TypeError) \/
            ((z_black z (mty c) = false -> forall p k, In (p, k) (visited z c (path ++ [n])) -> ~ bad_args p k) /\ exists st2, X = Ok st2 /\
             (forall j, ~ In j (ids c) -> find_done (ps_done st2) j = find_done (ps_done st) j) /\
             (forall j n', ~ In j (ids c) -> find_set (ps_sets st2) j n' = find_set (ps_sets st1) j n') /\
             (forall sets, (forall j n', In j (ids c) -> find_set sets j n' = find_set (ps_sets st2) j n') ->
                rebuild sets c = if z_black z (mty c) then c else spec_tree z bits kw c (path ++ [n])) /\
             (forall x, ~ zone path [(n, c)] x -> dget (ps_map st2) x = dget (ps_map st) x) /\
             (if z_black z (mty c) then ps_map st2 = ps_map st else entry_ok (ps_map st2) (path ++ [n]) c /\ fmap_ok (ps_map st2) c (path ++ [n])))).
          { assert (Z1 : forall x, ~ zone path [(n, c)] x -> dget (ps_map st1) x = dget (ps_map st) x).
            { intros x Hx. apply M1. apply HM. intros (r & Hr & K). apply Hx. exists n, r. simpl. auto. }
            assert (SS : forall j n', In j (ids c) -> find_set (ps_sets st1) j n' = None).
            { intros j n' J. rewrite S1; [|left; congruence]. apply Hs. rewrite Ek. apply in_or_app; auto. }
            unfold X. destruct (z_black z (mty c)) eqn:Bk; cbn [negb andb].
            - right. split; [discriminate|]. exists st1. repeat split; auto.
              + intros j J. apply D1. intros ->. apply J, mid_ids.
              + intros sets Hsets. apply rebuild_none. intros j n' J. rewrite Hsets; auto.
            - unfold has_children. destruct (mkids c) as [|k0 kk] eqn:Mk.
              + right. split; [intros _ p k; destruct c as [? ? ? kd]; cbn [mkids] in Mk; subst kd; simpl; tauto|]. exists st1.
                assert (Ci : forall sets, rebuild sets c = spec_tree z bits kw c (path ++ [n])) by (intro sets; destruct c as [? ? ? kd]; cbn [mkids] in Mk; subst kd; reflexivity).
                repeat split; auto.
                * intros j J. apply D1. intros ->. apply J, mid_ids.
                * destruct c as [? ? ? kd]; cbn [mkids] in Mk; subst kd. simpl. exact I.
              + assert (MM : ps_map st1 = ps_map st) by (apply M1'; right; discriminate).
                rewrite Forall_forall in IH.
                assert (PRE : pre c (path ++ [n]) st1).
                { split; auto. split; auto. split; auto. split; [|split].
                  - intros j J. rewrite D1.
                    + apply Hd. rewrite Ek. apply in_or_app. left. destruct c. rewrite ids_eq. right. exact J.
                    + intros ->. destruct c. rewrite ids_eq in N1. inversion N1; subst. auto.
                  - intros j n' J. apply SS; auto.
                  - intros p k J. rewrite MM. apply Hm. rewrite Eb. apply in_or_app. left. rewrite all_modules_eq. right. exact J. }
                destruct (IH (n, c) Ic (path ++ [n]) st1 PRE) as [(A1 & A2)|(A1 & st2 & A2 & D2 & S2 & R2 & M2 & F2)]; cbn [snd] in *.
                * left. split; auto.
                * right. split; auto. exists st2.
                  assert (M2' : forall x, ~ (exists n' r, In n' (map fst (mkids c)) /\ nodots r /\ x = join_dot (path ++ n :: n' :: r)) -> dget (ps_map st2) x = dget (ps_map st1) x).
                  { intros x Hx. apply M2. intros (n' & r & K1 & K2 & K3). apply Hx. exists n', r. rewrite <- path_app. auto. }
                  assert (Dk : forall n', In n' (map fst (mkids c)) -> good_name n').
                  { intros n' J. destruct (good_model_root _ Gc) as [K _]. rewrite Forall_forall in K. apply K; auto. }
                  split; [exact A2|]. split; [|split; [|split; [|split]]].
                  -- intros j J. rewrite D2, D1; auto; [intros ->; apply J, mid_ids|]. intro K. apply J. destruct c. rewrite ids_eq. right. exact K.
                  -- intros j n' J. apply S2; auto.
                  -- exact R2.
                  -- intros x Hx. rewrite M2', MM; auto. intros (n' & r & K1 & K2 & ->). apply Hx. exists n, (n' :: r). simpl. repeat split; auto. constructor; auto. apply Dk; auto.
                  -- split; auto. specialize (E1 eq_refl). unfold entry_ok in *.
                     assert (K0 : dget (ps_map st2) (join_dot (path ++ [n])) = dget (ps_map st1) (join_dot (path ++ [n]))).
                     { apply M2'. intros (n' & r & K1 & K2 & K3). apply (zone_disjoint path n [] n (n' :: r)) in K3; auto; try exact (proj2 Gn).
                       - destruct K3; discriminate.
                       - constructor; auto. apply Dk; auto. }
                     destruct (decision (path ++ [n]) c) as [[|i0 t0 p0 subs]|] eqn:Dc; rewrite ?K0; auto.
                     destruct (Hc3 _ _ _ _ Dc) as (A & _). congruence. }
          destruct SUB as [(U1 & U2 & U3)|(U1 & st2 & U3 & D2 & S2 & R2 & M2 & F2)].
          * left. rewrite U3. split; auto. destruct U2 as (p & k & U2 & U4). exists p, k. split; auto.
            unfold visited_l. cbn [map concat fst snd]. rewrite U1. right. apply in_or_app; auto.
          * rewrite U3. cbn [bind].
            assert (Ml : forall x, zone path l x -> dget (ps_map st2) x = dget (ps_map st) x).
            { intros x (n' & r & K1 & K2 & ->). apply M2. intros (n'' & r' & K3 & K4 & K5). simpl in K3. destruct K3 as [<-|[]].
              apply zone_disjoint in K5; auto; try exact (proj2 Gn).
              - destruct K5; subst. auto.
              - rewrite Forall_forall in Gk1. apply Gk1. apply in_map_iff in K1 as (nc & <- & K1). apply in_map_iff. exists nc. split; auto. apply Hl. right; auto. }
            assert (Bl : forall p k, In (p, k) (below l path) -> zone path l (join_dot p)).
            { intros p k J. apply below_prefix in J as (n' & k' & r & J1 & -> & J2). exists n', r. split; [apply in_map_iff; exists (n', k'); auto|].
              split; auto. apply good_nodots. eapply good_paths; [|exact J2]. eapply good_model_kid; [exact G|]. apply Hl. right; eauto. }
            destruct (IHl (mid c :: memo) st2) as [(V1 & V2)|(V1 & st3 & V2 & D3 & S3 & R3 & M3 & F3)]; auto.
            { intros nc J. apply Hl. right; auto. }
            { intros nc J [K|K]; [|apply (Hmm nc); auto; right; auto].
              apply (N3 (mid c)); [apply mid_ids|]. unfold kids_ids. apply in_concat. exists (ids (snd nc)). split; [apply in_map_iff; exists nc; auto|]. rewrite K. apply mid_ids. }
            { intros j J. rewrite D2 by (intro K; apply (N3 j K J)). apply Hd. rewrite Ek. apply in_or_app; auto. }
            { intros j n' J. rewrite S2 by (intro K; apply (N3 j K J)). rewrite S1 by (left; apply Ii; auto). apply Hs. rewrite Ek. apply in_or_app; auto. }
            { intros n' J. rewrite S2 by auto. rewrite S1; [apply Hi; right; auto|]. right. intros ->. auto. }
            { intros p k J. rewrite Ml by (eapply Bl; eauto). apply Hm. rewrite Eb. apply in_or_app; auto. }
            -- left. split; auto. destruct V1 as (p & k & V1 & V3). exists p, k. split; auto. unfold visited_l. cbn [map concat]. apply in_or_app; auto.
            -- right. split.
               { intros p k. unfold visited_l. cbn [map concat fst snd]. rewrite in_app_iff. intros [K|K]; [|apply V1; auto].
                 destruct (z_black z (mty c)); [destruct K|]. destruct K as [[= <- <-]|K]; auto. }
               exists st3. split; [exact V2|]. split; [|split; [|split; [|split]]].
               ++ intros j J. rewrite Ek, in_app_iff in J. rewrite D3, D2; auto.
               ++ intros j n' J K. rewrite Ek, in_app_iff in J. simpl in K. rewrite S3, S2, S1; auto.
                  ** destruct K as [K|K]; [left; exact K|right; intros ->; apply K; auto].
                  ** destruct K as [K|K]; auto.
               ++ intros sets H1 H2. cbn [map]. f_equal.
                  ** unfold rebuild_kid, spec_kid. cbn [fst snd]. f_equal. rewrite H2 by (left; auto). rewrite S3; [|intro K; apply (Ii i K); reflexivity|right; exact Nn1]. rewrite S2, S1' by auto.
                     assert (Er : rebuild sets c = if z_black z (mty c) then c else spec_tree z bits kw c (path ++ [n])).
                     { apply R2. intros j n' J. rewrite H1 by (rewrite Ek; apply in_or_app; auto). apply S3.
                       - intro K. apply (N3 j J K).
                       - left. congruence. }
                     rewrite Er. destruct (z_black z (mty c)); reflexivity.
                  ** apply R3; auto; [intros j n' J; apply H1; rewrite Ek; apply in_or_app; auto|]. intros n' J. apply H2. right; auto.
               ++ intros x Hx. rewrite M3, M2; auto.
                  ** intros (n' & r & K1 & K2 & K3). apply Hx. simpl in K1. destruct K1 as [<-|[]]. exists n, r. simpl; auto.
                  ** intros (n' & r & K1 & K2 & K3). apply Hx. exists n', r. simpl; auto.
               ++ unfold fmap_l. constructor; auto. cbn [fst snd].
                  assert (M3' : forall r, nodots r -> dget (ps_map st3) (join_dot (path ++ n :: r)) = dget (ps_map st2) (join_dot (path ++ n :: r))).
                  { intros r Hr. apply M3. intros (n' & r' & K1 & K2 & K3). apply zone_disjoint in K3; auto; try exact (proj2 Gn).
                    - destruct K3; subst. auto.
                    - rewrite Forall_forall in Gk1. apply Gk1. apply in_map_iff in K1 as (nc & <- & K1). apply in_map_iff. exists nc. split; auto. apply Hl. right; auto. }
                  destruct (z_black z (mty c)).
                  ** intros q k J. pose proof J as J'. apply all_modules_prefix in J as (r & -> & J). rewrite path_app in *. rewrite M3', F2.
                     --- apply (Hm _ k). rewrite Eb. apply in_or_app. left. exact J'.
                     --- apply good_nodots. eapply good_paths; eauto.
                  ** destruct F2 as [F2 F2']. split.
                     --- apply (entry_ok_agree (ps_map st2)); auto. intros r Hr. rewrite path_app. apply M3'; auto.
                     --- apply (fmap_ok_agree c (ps_map st2)); auto.
                         +++ intros p k J. apply (Hm p k). rewrite Eb. apply in_or_app. left. rewrite all_modules_eq. right; auto.
                         +++ intros x (n' & r & K1 & K2 & ->). rewrite path_app. apply M3'. constructor; auto.
                             destruct (good_model_root _ Gc) as [K _]. rewrite Forall_forall in K. apply K; auto. }
    destruct (L kids [] st) as [(V1 & V2)|(V1 & st3 & V2 & D3 & S3 & R3 & M3 & F3)]; auto.
    { intros j n J. apply Hs. rewrite ids_eq. right. exact J. }
    { intros n J. apply Hs. rewrite ids_eq. left; auto. }
    - left. split; auto.
    - right. split; [exact V1|]. exists st3. split; [exact V2|]. split; [exact D3|]. split; [|split; [|split; [exact M3|]]].
      + intros j n J. rewrite ids_eq in J. apply S3; [intro K; apply J; right; exact K|]. left. intros ->. apply J. left; auto.
      + intros sets H1. cbn [rebuild spec_tree]. f_equal. apply R3.
        * intros j n J. apply H1. rewrite ids_eq. right. exact J.
        * intros n J. apply H1. rewrite ids_eq. left; auto.
      + cbn [fmap_ok]. apply fold_and_Forall. exact F3.
  Qed.
End Process.
