(** Proofs about the parameters a quantizer selects (C54). *)
From Coq Require Import String Ascii List ZArith Bool Arith Lia.
From Verif Require Import Base Names QzrModel QzrSpec QzrProofs QzrProofs2.
Import ListNotations.
Local Open Scope string_scope.
Local Open Scope list_scope.

Definition proj (t : ptq) : nat * string * string * Z := (t_module t, t_fp t, t_q t, t_bits t).

Section Params.
  Context (z : quantizer) (bits : list string -> qbits) (kw : list string -> kwargs).
  Notation decision := (decision z bits kw).
  Notation good_repl := (good_repl z bits kw).
  Notation spec_params_of := (spec_params_of z bits).
  Notation spec_tree := (spec_tree z bits kw).
  Notation fmap_ok := (fmap_ok z bits kw).
  Notation entry_ok := (entry_ok z bits kw).

  Lemma decision_not_same p c : decision p c <> Some Same.
  Proof.
    unfold QzrSpec.decision. destruct (q_acts (bits p)), (q_wts (bits p)), (kw p); try discriminate;
      destruct (z_factory z (mty c)) as [f|]; try discriminate; destruct (rf_run f c _ _ _); discriminate.
  Qed.

  Lemma ptqs_none name m q : q_wts q = None -> q_bias q = None -> module_ptqs (z_fp_copy z) name m q = [].
  Proof.
    intros H1 H2. unfold module_ptqs. rewrite H1, H2. induction (named_parameters m); simpl; auto. destruct (ends_with_bias a); auto.
  Qed.
  Lemma ptqs_leaf p c name m : mkids m = [] -> mparams m = mparams c -> mid m = mid c -> has_qparams (mty c) = true ->
    map proj (module_ptqs (z_fp_copy z) name m (bits p)) = spec_params_of (p, c).
  Proof.
    intros H1 H2 H3 H4. unfold module_ptqs, QzrSpec.spec_params_of. cbn [fst snd]. rewrite H4, <- H2, <- H3.
    assert (E : named_parameters m = mparams m) by (destruct m as [? ? ? kd]; cbn [mkids] in H1; subst kd; cbn; apply app_nil_r).
    rewrite E. clear. induction (mparams m) as [|a l IH]; [reflexivity|]. cbn [flat_map]. rewrite map_app, IH. f_equal.
    destruct (if ends_with_bias a then q_bias (bits p) else q_wts (bits p)); reflexivity.
  Qed.

  Definition ptqs (mp : qmap) (l : list (list string * nmod)) : list (nat * string * string * Z) :=
    flat_map (fun pm => match dget mp (join_dot (fst pm)) with
                        | Some q => map proj (module_ptqs (z_fp_copy z) (join_dot (fst pm)) (snd pm) q) | None => [] end) l.
  Definition known (mp : qmap) (l : list (list string * nmod)) : Prop := forall pm, In pm l -> dget mp (join_dot (fst pm)) <> None.
  Lemma ptqs_app mp l l' : ptqs mp (l ++ l') = ptqs mp l ++ ptqs mp l'.
  Proof. apply flat_map_app. Qed.

  Definition ok_bits (l : list (list string * nmod)) : Prop := forall p c, In (p, c) l ->
    (has_qparams (mty c) = false -> q_wts (bits p) = None /\ q_bias (bits p) = None) /\
    (has_qparams (mty c) = true -> mkids c = []) /\ good_repl p c.

  Lemma ptqs_same mp l : ok_bits l -> (forall p c, In (p, c) l -> dget mp (join_dot p) = Some (bits p)) ->
    ptqs mp l = flat_map spec_params_of l /\ known mp l.
  Proof.
    induction l as [|[p c] l IH]; intros Ho Hm; [split; [reflexivity|intros ? []]|].
    destruct IH as [A B]; [intros ? ? I; apply Ho; right; auto|intros ? k I; apply (Hm _ k); right; auto|].
    unfold ptqs in *. cbn [flat_map fst snd]. rewrite (Hm p c) by (left; auto). rewrite A. split.
    - f_equal. destruct (Ho p c (or_introl eq_refl)) as (K1 & K2 & _). destruct (has_qparams (mty c)) eqn:E.
      + apply ptqs_leaf; auto.
      + destruct (K1 eq_refl). rewrite ptqs_none by auto. unfold QzrSpec.spec_params_of. cbn [snd]. rewrite E. reflexivity.
    - intros pm [<-|I]; [cbn [fst]; rewrite (Hm p c) by (left; auto); discriminate|auto].
  Qed.

  Definition spec_kid' (path : list string) (nc : string * nmod) : nmod :=
    if z_black z (mty (snd nc)) then snd nc
    else let c' := spec_tree (snd nc) (path ++ [fst nc]) in
         match decision (path ++ [fst nc]) (snd nc) with Some r => fill r c' | None => c' end.
  Lemma below_spec i t ps kids path :
    below (mkids (spec_tree (Mod i t ps kids) path)) path = concat (map (fun nc => all_modules (spec_kid' path nc) (path ++ [fst nc])) kids).
  Proof. unfold below. cbn [QzrSpec.spec_tree mkids]. rewrite map_map. reflexivity. Qed.

  Lemma spec_tree_leaf c p : mkids c = [] -> spec_tree c p = c.
  Proof. destruct c as [? ? ? kd]. cbn. intros ->. reflexivity. Qed.
  Lemma spec_tree_fields c p : mid (spec_tree c p) = mid c /\ mty (spec_tree c p) = mty c /\ mparams (spec_tree c p) = mparams c /\ map fst (mkids (spec_tree c p)) = map fst (mkids c).
  Proof. destruct c. cbn. rewrite map_map. auto. Qed.

  Lemma params_spec m : forall path mp, ok_bits (below (mkids m) path) -> fmap_ok mp m path ->
    ptqs mp (below (mkids (spec_tree m path)) path) = flat_map spec_params_of (below (mkids m) path) /\
    known mp (below (mkids (spec_tree m path)) path).
  Proof.
    induction m as [i t ps kids IH] using nmod_ind'. intros path mp Ho Hf. rewrite below_spec. cbn [mkids] in *.
    cbn [QzrProofs2.fmap_ok] in Hf. rewrite fold_and_Forall in Hf.
    induction kids as [|[n c] l IHl]; [split; [reflexivity|intros ? []]|].
    inversion IH as [|? ? IHc IHr]; subst. inversion Hf as [|? ? Hc Hr]; subst. cbn [fst snd] in *.
    assert (Eb : below ((n, c) :: l) path = all_modules c (path ++ [n]) ++ below l path) by reflexivity. rewrite Eb in *.
    destruct IHl as [T1 T2]; auto.
    { intros p k I. apply Ho. apply in_or_app; auto. }
    cbn [map concat]. rewrite ptqs_app, flat_map_app, T1.
    assert (Oc : ok_bits (all_modules c (path ++ [n]))) by (intros p k I; apply Ho; apply in_or_app; auto).
    assert (H : ptqs mp (all_modules (spec_kid' path (n, c)) (path ++ [n])) = flat_map spec_params_of (all_modules c (path ++ [n])) /\
                known mp (all_modules (spec_kid' path (n, c)) (path ++ [n]))).
    2:{ destruct H as [H1 H2]. cbn [fst]. rewrite H1. split; auto. intros pm I. apply in_app_or in I as [I|I]; auto. }
    clear T1 T2 IH IHr Hf Hr Ho Eb l. set (p := path ++ [n]) in *. unfold spec_kid'. cbn [fst snd]. fold p.
    destruct (z_black z (mty c)); [apply ptqs_same; auto|]. destruct Hc as [He Hf]. cbv zeta.
    destruct (Oc p c) as (K1 & K2 & K3); [rewrite all_modules_eq; left; auto|].
    unfold QzrProofs2.entry_ok in He.
    destruct (decision p c) as [[|i0 t0 p0 subs]|] eqn:Dc; [exfalso; eapply decision_not_same; eauto| |].
    - destruct (K3 _ _ _ _ Dc) as (G1 & G2 & G3 & G4 & G5 & G6). rewrite (spec_tree_leaf c p G1).
      assert (Ec : all_modules c p = [(p, c)]) by (rewrite all_modules_eq, G1; reflexivity). rewrite Ec. cbn [flat_map]. rewrite app_nil_r.
      destruct subs as [|s subs].
      + cbn [fill map]. unfold ptqs. cbn [all_modules map concat flat_map fst snd]. rewrite He.
        destruct (has_qparams (mty c)) eqn:Eq.
        * exfalso. destruct (G4 eq_refl) as (s1 & n1 & s2 & E & _). destruct s1; discriminate.
        * destruct (K1 eq_refl). rewrite ptqs_none by auto. unfold QzrSpec.spec_params_of. cbn [snd]. rewrite Eq. split; auto.
          intros pm [<-|[]]. cbn [fst]. rewrite He. discriminate.
      + destruct He as [He1 He2]. remember (s :: subs) as ss eqn:Es. clear s subs Es.
        assert (Ea : all_modules (fill (New i0 t0 p0 ss) c) p = (p, fill (New i0 t0 p0 ss) c) ::
                     map (fun ns => (p ++ [fst ns], match snd ns with Hole => c | Leaf j u q => Mod j u q [] end)) ss).
        { rewrite all_modules_eq. f_equal. cbn [fill mkids]. unfold below. rewrite map_map. cbn [fst snd].
          clear -G1. induction ss as [|[n' [|j u q]] l IH]; cbn [map concat fst snd]; auto.
          - rewrite IH. rewrite all_modules_eq, G1. reflexivity.
          - rewrite IH. reflexivity. }
        rewrite Ea. split.
        * unfold ptqs. cbn [flat_map fst snd]. rewrite He1, ptqs_none by reflexivity. cbn [map app].
          assert (LF : forall l, (forall n' s', In (n', s') l -> In (n', s') ss) -> (forall n' s', In (n', s') l -> s' <> Hole \/ has_qparams (mty c) = false) ->
            flat_map (fun pm : list string * nmod => match dget mp (join_dot (fst pm)) with
              | Some q => map proj (module_ptqs (z_fp_copy z) (join_dot (fst pm)) (snd pm) q) | None => [] end)
              (map (fun ns : string * sub => (p ++ [fst ns], match snd ns with Hole => c | Leaf j u q => Mod j u q [] end)) l) = []).
          { induction l as [|[n' s'] l IHl]; intros A B; auto. cbn [map flat_map fst snd]. rewrite IHl; [|intros ? ? ?; apply A; right; auto|intros n1 ? ?; apply (B n1); right; auto].
            rewrite app_nil_r. rewrite (He2 n' s') by (apply A; left; auto).
            assert (Q : has_qparams (sub_type c s') = false).
            { destruct s' as [|j u q]; cbn [sub_type].
              - destruct (B n' Hole (or_introl eq_refl)); congruence.
              - apply (G6 n' j u q). apply A. left; auto. }
            unfold restrict_bits. rewrite Q. rewrite ptqs_none by reflexivity. reflexivity. }
          destruct (has_qparams (mty c)) eqn:Eq.
          -- destruct (G4 eq_refl) as (s1 & n1 & s2 & E & Hh).
             rewrite E, map_app, flat_map_app. cbn [map flat_map fst snd].
             rewrite (LF s1), (LF s2).
             ++ cbn [app]. rewrite app_nil_r. rewrite (He2 n1 Hole) by (rewrite E; apply in_or_app; right; left; auto).
                cbn [sub_type]. unfold restrict_bits. rewrite Eq. apply ptqs_leaf; auto.
             ++ intros n' s' I. rewrite E. apply in_or_app. right; right; auto.
             ++ intros n' s' I. left. eapply Hh. apply in_or_app; eauto.
             ++ intros n' s' I. rewrite E. apply in_or_app. auto.
             ++ intros n' s' I. left. eapply Hh. apply in_or_app; eauto.
          -- rewrite LF; auto. unfold QzrSpec.spec_params_of. cbn [snd]. rewrite Eq. reflexivity.
        * intros pm [<-|I]; [cbn [fst]; rewrite He1; discriminate|]. apply in_map_iff in I as ([n' s'] & <- & I). cbn [fst].
          rewrite (He2 n' s' I). discriminate.
    - destruct (IHc p mp) as [P1 P2]; auto.
      { intros q k I. apply Oc. rewrite all_modules_eq. right; auto. }
      rewrite (all_modules_eq (spec_tree c p)), (all_modules_eq c). split.
      + unfold ptqs in *. cbn [flat_map fst snd]. rewrite He, P1. f_equal.
        destruct (has_qparams (mty c)) eqn:Eq.
        * rewrite (spec_tree_leaf c p) by auto. apply ptqs_leaf; auto.
        * destruct (K1 eq_refl). rewrite ptqs_none by auto. unfold QzrSpec.spec_params_of. cbn [snd]. rewrite Eq. reflexivity.
      + intros pm [<-|I]; [cbn [fst]; rewrite He; discriminate|auto].
  Qed.

  Lemma spec_tree_good m : forall path, good_model m -> (forall p c, In (p, c) (below (mkids m) path) -> good_repl p c) -> good_model (spec_tree m path).
  Proof.
    induction m as [i t ps kids IH] using nmod_ind'. intros path G Gr q c I. rewrite all_modules_path in I. apply in_map_iff in I as ([q' c0] & E & I).
    cbn [fst snd] in E. injection E as -> ->. rewrite all_modules_eq in I. destruct I as [[= <- <-]|I].
    - destruct (good_model_root _ G) as [A B]. unfold good_kids. cbn [QzrSpec.spec_tree mkids] in *. rewrite map_map. cbn [fst].
      split; [eapply Forall_impl; [|exact A]; auto|exact B].
    - apply below_prefix in I as (n & k & r & I & -> & J). cbn [QzrSpec.spec_tree mkids] in I. apply in_map_iff in I as ([n' k'] & E & I).
      cbn [fst snd] in E. injection E as -> <-. rewrite Forall_forall in IH. specialize (IH (n, k') I (path ++ [n])). cbn [snd mkids] in *.
      assert (Gk : good_model k') by (eapply good_model_kid; eauto).
      assert (Gb : forall p c0, In (p, c0) (all_modules k' (path ++ [n])) -> good_repl p c0).
      { intros p c0 K. apply Gr. unfold below. apply in_concat. eexists. split; [apply in_map_iff; exists (n, k'); auto|]. exact K. }
      assert (Gs : good_model (spec_tree k' (path ++ [n]))).
      { apply IH; auto. intros p c0 K. apply Gb. rewrite all_modules_eq. right; auto. }
      destruct (z_black z (mty k')); [apply (Gk r c J)|]. cbv zeta in J.
      destruct (decision (path ++ [n]) k') as [[|i0 t0 p0 subs]|] eqn:Dc; [apply (Gs r c J)| |apply (Gs r c J)].
      assert (Gr0 : good_repl (path ++ [n]) k') by (apply Gb; rewrite all_modules_eq; left; auto).
      destruct (Gr0 _ _ _ _ Dc) as (_ & G2 & G3 & _). cbn [fill] in J. rewrite all_modules_eq in J. destruct J as [[= <- <-]|J].
      + unfold good_kids. cbn [mkids]. rewrite map_map. cbn [fst]. split; auto.
      + cbn [mkids] in J. apply below_prefix in J as (n1 & k1 & r1 & J & -> & J2). apply in_map_iff in J as ([n2 s2] & E & J). cbn [fst snd] in E. injection E as -> <-.
        destruct s2 as [|j u q0]; [apply (Gs r1 c J2)|]. destruct J2 as [[= <- <-]|[]]. split; constructor.
  Qed.
End Params.

Lemma mapsM_ok {A B} (f : A -> res B) (g : A -> B) l : (forall a, In a l -> f a = Ok (g a)) -> mapsM f l = Ok (map g l).
Proof.
  induction l as [|a l IH]; intro H; auto. cbn [mapsM map]. rewrite H by (left; auto). cbn [bind]. rewrite IH by (intros; apply H; right; auto). reflexivity.
Qed.
