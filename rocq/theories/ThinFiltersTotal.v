(** C24: remove_filters succeeds. *)
From Coq Require Import String List ZArith QArith Bool Arith Lia.
From Verif Require Import Base Lists StructModel ThinModel ThinSpec ThinProofs ThinExecProofs PropertiesThin ThinRecipeProofs ThinSearchProofs PropertiesGraph ThinNetSpec ThinSimProofs ThinGraphProofs ThinFiltersProofs ThinDataProofs ThinFiltersSim.
Import ListNotations.
Local Open Scope nat_scope.

Lemma kind_lookup m n k : is_kind m n k -> exists x, lookup (ms_mods m) n = Ok x /\ m_kind x = k /\ In n (map fst (ms_mods m)).
Proof. intros (x & A & B). exists x. unfold lookup. rewrite A. split; auto. split; auto. apply in_map_iff. exists (n, x). split; auto. apply dget_In; auto. Qed.

Section Total.
  Variables (rs : Q -> Q) (m : mstate) (net : list node) (pl : plan).
  Hypothesis FP : filters_plan_ok rs m net pl.
  Hypothesis OB : one_bn m net pl.
  Notation g := (graph_of net).

  Lemma bn_total r nd idx : In nd net -> is_conv (n_op nd) -> ~ all_kept pl (n_name nd) -> exists r', bn_successors m g idx r (n_name nd) = Ok r'.
  Proof.
    intros I C K. unfold bn_successors. pose proof (fun x => net_successors net (fp_net _ _ _ _ FP) ["BatchNormalization"%string] nd x I) as N.
    assert (Bn : forall x, In x (successors_f g (n_name nd) ["BatchNormalization"%string]) -> exists b, In b net /\ x = n_name b /\ is_bn (n_op b) /\ flows net is_bn (n_name nd) (n_name b)).
    { intros x J. apply N in J as (b & Ib & -> & _ & T & F). exists b. split; auto. split; auto. split; [apply bnorm_is; auto|]. eapply flows_iff; [|exact F]. apply bnorm_is. }
    destruct (successors_f g (n_name nd) ["BatchNormalization"%string]) as [|x [|y l]] eqn:E.
    - eauto.
    - destruct (Bn x) as (b & Ib & -> & T & _); [left; auto|]. unfold append_bn. pose proof (fp_nodes _ _ _ _ FP b Ib) as F. unfold filters_ok in F.
      destruct (n_op b); try (destruct T; fail). destruct (n_in b) as [|? [|? ?]]; try (destruct F; fail). destruct F as (w & bb & mean & var & _ & _ & _ & Kd & _).
      destruct (kind_lookup _ _ _ Kd) as (z & -> & Kz & _). cbn [bind]. rewrite Kz. eauto.
    - exfalso. destruct (Bn x) as (b & Ib & -> & T & F); [left; auto|]. destruct (Bn y) as (b' & Ib' & -> & T' & F'); [right; left; auto|].
      assert (b = b') by (apply (OB nd b b'); auto). subst b'.
      pose proof (proj1 (C57_once g (n_name nd) ["BatchNormalization"%string] (n_name b))) as O. rewrite E in O. cbn [count_occ] in O. destruct (string_dec (n_name b) (n_name b)); [|congruence].
      assert (L : length (entries g true (n_name b)) <= 1); [|specialize (O L); lia]. rewrite (entries_op net (fp_net _ _ _ _ FP) b Ib).
      pose proof (fp_nodes _ _ _ _ FP b Ib) as Fb. unfold filters_ok in Fb. destruct (n_op b); try (destruct T; fail). destruct (n_in b) as [|? [|? ?]]; try (destruct Fb; fail). simpl. lia.
  Qed.

  Lemma foldM_total {A S} (f : S -> A -> res S) l : (forall a s, In a l -> exists s', f s a = Ok s') -> forall s, exists s', foldM f l s = Ok s'.
  Proof.
    induction l as [|a l IH]; intros H s; simpl; [eauto|]. destruct (H a s) as (s1 & ->); [left; auto|]. cbn [bind]. apply IH. intros. apply H. right; auto.
  Qed.

  Lemma layer_total l0 (f : string -> nat) : (forall nd i, In nd net -> In i (n_in nd) -> f i < f (n_name nd)) -> In l0 net -> is_conv (n_op l0) ->
    forall fuel nd r leaf idx vis, In nd net -> is_conv (n_op nd) -> ~ all_kept pl (n_name nd) -> same_channels pl (n_name l0) (n_name nd) ->
    NoDup vis -> (forall v, In v vis -> In v (map fst (ms_mods m)) /\ f v < f (n_name nd)) -> S (length (ms_mods m)) <= fuel + length vis ->
    exists r', filters_layer m g (n_name l0) idx fuel (n_name nd) leaf r = Ok r'.
  Proof.
    intros FR Il Cl. induction fuel as [|fuel IH]; intros nd r leaf idx vis I C K Sc Nv Hv Le.
    - exfalso. assert (length vis <= length (map fst (ms_mods m))) by (apply NoDup_incl_length; auto; intros v J; apply Hv; auto). rewrite map_length in H. lia.
    - cbn [filters_layer]. pose proof (fp_nodes _ _ _ _ FP nd I) as F. unfold filters_ok in F. destruct (n_op nd) as [ge| | |q| |q] eqn:Op; try (destruct C; fail).
      destruct (n_in nd) as [|i [|? ?]] eqn:Ei; try (destruct F; fail). destruct F as (w & gr & Cc & kh & kw & _ & Kd & _).
      destruct (kind_lookup _ _ _ Kd) as (x & -> & Kx & Ix). cbn [bind]. rewrite Kx.
      assert (Cn : is_conv (n_op nd)) by (rewrite Op; simpl; auto).
      match goal with |- exists r', bind (foldM ?h ?l ?r0) _ = _ => assert (FT : exists r4, foldM h l r0 = Ok r4) end; [|destruct FT as (r4 & ->); cbn [bind]; apply bn_total; auto].
      apply foldM_total. intros s q Is. pose proof (proj1 (net_successors net (fp_net _ _ _ _ FP) ["Conv"; "Gemm"]%string nd s I) Is) as (t & It & -> & Nt & Tt & Ft).
      pose proof (flow_channels rs m net pl FP nd t I K _ Ft eq_refl It) as (i' & Ii & Si). assert (Ki : ~ all_kept pl i') by (rewrite (same_kept _ _ _ Si); auto).
      pose proof (fp_nodes _ _ _ _ FP t It) as Fs. unfold filters_ok in Fs. apply layer_cases in Tt as [Ct|Lt].
      + destruct (n_op t) as [ge'| | |q'| |q'] eqn:Ot; try (destruct Ct; fail). destruct (n_in t) as [|i2 [|? ?]] eqn:Et; try (destruct Fs; fail). destruct Ii as [->|[]].
        destruct Fs as (w' & gr' & C' & kh' & kw' & _ & Kd' & Hic & Hoc & Hgr & HC & _ & Cases). destruct (kind_lookup _ _ _ Kd') as (x' & -> & Kx' & _). cbn [bind]. rewrite Kx'.
        rewrite (has_int_attr _ _ _ _ Hgr), (has_int_attr _ _ _ _ Hic). cbn [bind]. destruct (Nat.eqb_spec gr' 1); [eauto|]. destruct (Nat.eqb_spec gr' (chans pl i')) as [Eg|Ng].
        * destruct Cases as [(? & _)|[(_ & -> & Sc' & _)|(_ & _ & ? & _)]]; try contradiction.
          assert (Kt : ~ all_kept pl (n_name t)) by (rewrite (same_kept _ _ _ Sc'); auto).
          apply (IH t _ _ _ (n_name nd :: vis)); auto.
          -- rewrite Ot. simpl. auto.
          -- unfold same_channels in *. destruct Sc, Si, Sc'. split; congruence.
          -- constructor; auto. intro J. destruct (Hv _ J) as [_ L]. lia.
          -- assert (FL : f (n_name nd) < f (n_name t)) by (eapply flows_rank; eauto). intros v [<-|J]; [auto|]. destruct (Hv _ J) as [A B]. split; auto. lia.
          -- simpl. lia.
        * destruct Cases as [(? & _)|[(_ & -> & Sc' & _)|(_ & _ & ? & _)]]; try contradiction. lia.
      + rewrite Lt in Fs. destruct (n_in t) as [|i2 [|? ?]] eqn:Et; try (destruct Fs; fail). destruct Ii as [->|[]]. destruct Fs as (w' & F' & _ & Kd' & Hif & Hof & _).
        destruct (kind_lookup _ _ _ Kd') as (x' & -> & Kx' & _). cbn [bind]. rewrite Kx'. unfold linear_successor.
        pose proof (fp_nodes _ _ _ _ FP l0 Il) as F0. unfold filters_ok in F0. destruct (n_op l0); try (destruct Cl; fail). destruct (n_in l0) as [|i0 [|? ?]]; try (destruct F0; fail).
        destruct F0 as (w0 & gr0 & C0 & kh0 & kw0 & _ & _ & _ & Hoc & _).
        rewrite (has_int_attr _ _ _ _ Hif), (has_int_attr _ _ _ _ Hof), (has_int_attr _ _ _ _ Hoc). cbn [bind].
        pose proof (chans_pos rs m net pl FP (n_name l0)). destruct (Nat.eqb_spec (chans pl (n_name l0)) 0); [lia|]. eauto.
  Qed.

  Lemma recipe_total : exists r, recipe_filters m g = Ok r.
  Proof.
    unfold recipe_filters. apply foldM_total. intros [k p] r I. cbn [fst snd]. unfold ndim. destruct (Nat.eqb_spec (length (nd_shape (p_data p))) 4) as [E4|N4]; cbn [negb]; [|eauto].
    assert (Hk : pget (ms_params m) k = Some p) by (apply pget_nodup; auto; apply FP). destruct (fp_4d _ _ _ _ FP k p Hk E4) as (nd & In_ & C & ->). cbn [fst snd].
    destruct (nonzero_cases rs m net pl FP nd p In_ C Hk) as [[-> Sh]|[[-> Ng] Sh]]; rewrite Sh.
    - pose proof (fp_keep _ _ _ _ FP (n_name nd)) as [Kx Ke]. destruct (Nat.eqb_spec (length (keep pl (n_name nd))) 0) as [E0|_]; [destruct (keep pl (n_name nd)); [congruence|discriminate]|].
      destruct (Nat.leb_spec (chans pl (n_name nd)) (length (keep pl (n_name nd)))) as [Le|Lt]; [eauto|].
      assert (Kn : ~ all_kept pl (n_name nd)) by (intro A; rewrite A, seq_length in Lt; lia).
      destruct (ordered_rank _ _ (proj1 (fp_net _ _ _ _ FP))) as (f & _ & FR).
      apply (layer_total nd f FR In_ C (layer_fuel m) nd r "weight"%string (keep pl (n_name nd)) []); auto; [split; auto|constructor|intros ? []|unfold layer_fuel; simpl; lia].
    - rewrite seq_length. pose proof (chans_pos rs m net pl FP (n_name nd)). destruct (Nat.eqb_spec (chans pl (n_name nd)) 0); [lia|]. rewrite (proj2 (Nat.leb_le _ _) (le_n _)). eauto.
  Qed.
End Total.

(** * Execution *)
Lemma nodup_map_inj {A B} (f : A -> B) l : NoDup l -> (forall a b, In a l -> In b l -> f a = f b -> a = b) -> NoDup (map f l).
Proof.
  induction 1 as [|a l N ND IH]; intro H; simpl; constructor; [|apply IH; intros; apply H; simpl; auto].
  intro J. apply in_map_iff in J as (b & E & J). apply N. rewrite (H a b); simpl; auto.
Qed.
Lemma exec_param_total junk opt params k p ds : pget params k = Some p -> (exists p', foldM (thin_param junk opt) ds p = Ok p') ->
  exists p', exec_param junk opt false (params, []) (k, ds) = Ok (pset params k p', []).
Proof.
  intros Hp (p' & H). exists p'. unfold exec_param. cbn [fst snd]. rewrite Hp. revert params p Hp H. induction ds as [|d ds IH]; intros params p Hp H.
  - simpl in *. injection H as <-. rewrite pset_same; auto.
  - cbn [foldM fst snd] in *. rewrite Hp. destruct (thin_param junk opt p d) as [p1|]; [|discriminate]. cbn [bind] in *.
    replace (thin_mask false [] k d) with (@Ok (pdict (option nd)) []) by reflexivity. cbn [bind]. rewrite (IH _ p1 (pget_pset_same _ _ _) H). rewrite pset_pset. auto.
Qed.
Lemma exec_params_total junk opt l : forall params, NoDup (map fst l) ->
  (forall k ds, In (k, ds) l -> exists p p', pget params k = Some p /\ foldM (thin_param junk opt) ds p = Ok p') ->
  exists params', foldM (exec_param junk opt false) l (params, []) = Ok (params', []).
Proof.
  induction l as [|[k ds] l IH]; intros params N H; [simpl; eauto|]. inversion N; subst. destruct (H k ds) as (p & p' & Hp & F); [left; auto|].
  destruct (exec_param_total junk opt params k p ds Hp (ex_intro _ _ F)) as (q & E). cbn [foldM]. rewrite E. cbn [bind]. apply IH; auto.
  intros k' ds' I. destruct (H k' ds') as (u & u' & Hu & Fu); [right; auto|]. exists u, u'. split; auto. rewrite pget_pset_other; auto. intros ->. apply H2. apply in_map_iff. exists (k', ds'). auto.
Qed.
Lemma thin_params_good junk opt p ds : good_param opt p -> good_dirs (nd_shape (p_data p)) ds -> exists p', foldM (thin_param junk opt) ds p = Ok p'.
Proof.
  intros G D. exists (cut_param opt (nd_shape (p_data p)) ds p). induction ds as [|d ds IH] using rev_ind; [simpl; f_equal; symmetry; apply cut_param_self; auto|].
  rewrite foldM_app, IH by (apply good_dirs_app in D; tauto). cbn [bind foldM]. rewrite thin_param_cut; auto.
Qed.
Lemma fits_good opt m k p : tensors_fit opt m -> pget (ms_params m) k = Some p -> wf_nd (p_data p) -> good_param opt p.
Proof. intros T H W. destruct (T k p H) as [A B]. split; auto. Qed.

Section ExecTotal.
  Variables (rs : Q -> Q) (m : mstate) (net : list node) (pl : plan) (r : recipe) (junk : nat -> Q) (opt : optimizer).
  Hypothesis FP : filters_plan_ok rs m net pl.
  Hypothesis REC : recipe_filters m (graph_of net) = Ok r.
  Hypothesis TF : tensors_fit opt m.

  Lemma entry_total nd leaf ds : In nd net -> pget (r_params r) (n_name nd, leaf) = Some ds ->
    exists p p', pget (ms_params m) (n_name nd, leaf) = Some p /\ foldM (thin_param junk opt) ds p = Ok p'.
  Proof.
    intros I E. destruct (recipe_complete rs m net pl FP r REC) as (S & _). destruct (so_params _ _ _ S _ _ E) as (ND & NE & _).
    pose proof (fun d => dirs_wanted rs m net pl r FP REC nd leaf d I) as W. unfold dirs_of in W. rewrite E in W. clear E S.
    assert (D0 : exists d0, In d0 ds) by (destruct ds as [|d0 ?]; [congruence|exists d0; left; auto]).
    pose proof (fp_nodes _ _ _ _ FP nd I) as F. unfold filters_ok in F. pose proof (fp_keep _ _ _ _ FP (n_name nd)) as [KX _].
    assert (One : forall p n, pget (ms_params m) (n_name nd, leaf) = Some p -> of_shape [n] (p_data p) -> chans pl (n_name nd) = n ->
      (forall d, In d ds -> d = D2 0 (keep pl (n_name nd))) -> exists p p', pget (ms_params m) (n_name nd, leaf) = Some p /\ foldM (thin_param junk opt) ds p = Ok p').
    { intros p n Hp (Sh & Wf) <- Hd. destruct (thin_params_good junk opt p ds) as (p' & H'); [eapply fits_good; eauto| |exists p, p'; auto]. rewrite Sh. split.
      - apply nodup_map_inj; auto. intros a b Ia Ib _. rewrite (Hd a Ia), (Hd b Ib). auto.
      - intros d Id. rewrite (Hd d Id). cbn [is_d2 dir_dim dir_idx nth length]. split; auto. }
    destruct (n_op nd) as [ge| | |f| |f] eqn:Op.
    - destruct (n_in nd) as [|i [|? ?]] eqn:Ei; try (destruct F; fail).
      destruct F as (w & gr & C & kh & kw & ((p & Hp & Ew) & Sw & Ww) & Hk & Hic & Hoc & Hgr & HC & Hb & Cases). pose proof (fp_keep _ _ _ _ FP i) as [KXi _].
      assert (Lf : leaf = "weight"%string \/ leaf = "bias"%string). { destruct D0 as (d0 & J). apply W in J as [J|[J|J]]; inversion J; subst; auto. }
      destruct Lf as [->| ->].
      + destruct (thin_params_good junk opt p ds) as (p' & H'); [eapply fits_good; eauto; rewrite Ew; auto| |exists p, p'; auto]. rewrite Ew, Sw.
        assert (Hd : forall d, In d ds -> d = D2 0 (keep pl (n_name nd)) \/ (d = D2 1 (keep pl i) /\ gr = 1)).
        { intros d J. apply W in J as [J|[J|J]]; inversion J; subst; auto.
          - match goal with A : n_in nd = [?x] |- _ => rewrite Ei in A; injection A as <- end. right. split; auto. eapply has_int_fun; eauto.
          - rewrite Op in *. discriminate. }
        split.
        * apply nodup_map_inj; auto. intros a b Ia Ib. destruct (Hd a Ia) as [->|[-> _]], (Hd b Ib) as [->|[-> _]]; simpl; auto; discriminate.
        * intros d Id. destruct (Hd d Id) as [->|[-> ->]]; cbn [is_d2 dir_dim dir_idx nth length]; split; auto; split; auto; try lia. replace C with (chans pl i) by lia. auto.
      + assert (HB : exists b, bias_of m (n_name nd) b). { destruct D0 as (d0 & J). apply W in J as [J|[J|J]]; inversion J; subst; [apply has_bias_opt; auto|rewrite Op in *; contradiction]. }
        destruct HB as (b & Hbb). pose proof (proj1 (Hb b Hbb)) as Sb. destruct Hbb as (pb & Hpb & <-). apply (One pb (chans pl (n_name nd))); auto. intros d J. apply W in J as [J|[J|J]]; inversion J; subst; auto.
    - destruct (n_in nd) as [|i [|? ?]] eqn:Ei; try (destruct F; fail). destruct F as (w & F & ((p & Hp & Ew) & Sw & Ww) & Hk & Hif & Hof & Hb & Kn & Cases).
      destruct D0 as (d0 & J0). pose proof J0 as J0'. apply W in J0' as [J|[J|J]]; inversion J; subst; rewrite ?Op in *; simpl in *; try contradiction.
      rewrite Ei in *. match goal with A : [_] = [_] |- _ => injection A as <- end. match goal with A : has_int m _ _ (_ * (?h0 * ?h0)) |- _ => rename h0 into h; pose proof (has_int_fun _ _ _ _ _ Hif A) as EF end.
      assert (Hh : 0 < h). { destruct Cases as [|(h' & Hh' & EF')]; [contradiction|]. rewrite EF' in EF. apply square_inj in EF; [lia|apply (chans_pos rs m net pl FP)]. }
      assert (U : forall h', has_int m (n_name nd) "in_features" (chans pl i * (h' * h')) -> h' = h) by (intros h' Hh'; pose proof (has_int_fun _ _ _ _ _ Hif Hh') as E'; rewrite EF in E'; apply square_inj in E'; [auto|apply (chans_pos rs m net pl FP)]).
      assert (DS : ds = [D4 1 (keep pl i) [chans pl (n_name nd); chans pl i; h; h] [chans pl (n_name nd); h * h * length (keep pl i)]]).
      { assert (Hd : forall d, In d ds -> d = D4 1 (keep pl i) [chans pl (n_name nd); chans pl i; h; h] [chans pl (n_name nd); h * h * length (keep pl i)]).
        { intros d Id. apply W in Id as [Id|[Id|Id]]; inversion Id; subst; rewrite ?Op in *; simpl in *; try contradiction. match goal with A : n_in nd = [?x] |- _ => rewrite Ei in A; injection A as <- end.
          match goal with A : has_int m _ _ (_ * (?h0 * ?h0)) |- D4 _ _ [_; _; ?h0; _] _ = _ => rewrite (U h0 A); reflexivity end. }
        destruct ds as [|d1 [|d2 l]]; [destruct J0|rewrite (Hd d1) by (left; auto); auto|]. exfalso. inversion ND as [|? ? N1 _]. apply N1. left. rewrite (Hd d1), (Hd d2) by (simpl; auto). auto. }
      destruct (TF _ _ Hp) as [Tg Tm]. rewrite Sw, EF in *.
      destruct (C23_linear_execute junk opt p (chans pl (n_name nd)) (chans pl i) h (keep pl i) Hh) as (p' & H' & _); auto; [split; auto; rewrite Sw; auto|apply FP|].
      exists p, p'. split; auto. rewrite DS. cbn [foldM]. rewrite H'. auto.
    - destruct (n_in nd) as [|i [|? ?]] eqn:Ei; try (destruct F; fail). destruct F as (w & b & mean & var & ((p & Hp & Ew) & Sw) & (pb & Hpb & Eb) & Sb & _).
      assert (Hd : forall d, In d ds -> d = D2 0 (keep pl (n_name nd)) /\ (leaf = "weight"%string \/ leaf = "bias"%string)).
      { intros d J. apply W in J as [J|[J|J]]; inversion J; subst; rewrite ?Op in *; simpl in *; try contradiction; try discriminate; auto. }
      assert (Lf : leaf = "weight"%string \/ leaf = "bias"%string) by (destruct D0 as (d0 & J); apply (Hd d0); auto).
      destruct Lf as [->| ->]; [apply (One p (chans pl (n_name nd)))|apply (One pb (chans pl (n_name nd)))]; auto; try (rewrite ?Ew, ?Eb; auto; fail); intros; apply Hd; auto.
    - exfalso. destruct D0 as (d0 & J). apply W in J as [J|[J|J]]; inversion J; subst; rewrite ?Op in *; simpl in *; try contradiction; discriminate.
    - exfalso. destruct D0 as (d0 & J). apply W in J as [J|[J|J]]; inversion J; subst; rewrite ?Op in *; simpl in *; try contradiction; discriminate.
    - exfalso. destruct D0 as (d0 & J). apply W in J as [J|[J|J]]; inversion J; subst; rewrite ?Op in *; simpl in *; try contradiction; discriminate.
  Qed.
  Lemma mods_params n a v : mwanted m net pl n a v -> exists k d, fwanted m net pl k d.
  Proof.
    intros (nd & I & -> & H). pose proof (fp_nodes _ _ _ _ FP nd I) as F. unfold filters_ok in F. destruct H as [H|[H|H]]; inversion H; subst.
    - exists (n_name nd, "weight"%string), (D2 0 (keep pl (n_name nd))), nd. split; auto. left. constructor; auto.
    - destruct (n_op nd) as [ge| | |f| |f] eqn:Op; try contradiction. match goal with A : n_in nd = _ |- _ => rewrite A in F; rename A into Ei end. destruct F as (w & gr & C & kh & kw & _ & _ & _ & _ & Hgr & _ & _ & Cases).
      destruct Cases as [(-> & _)|[(Ng & _ & Sc & _)|(_ & _ & Ki & _)]]; [| |contradiction].
      + eexists _, _, nd. split; auto. right; left. eapply cd_conv; eauto; rewrite Op; exact Logic.I.
      + eexists _, _, nd. split; auto. left. apply od_weight; [rewrite Op; exact Logic.I|]. rewrite (same_kept _ _ _ Sc). auto.
    - destruct (n_op nd) as [ge| | |f| |f] eqn:Op; try contradiction. match goal with A : n_in nd = _ |- _ => rewrite A in F; rename A into Ei end. destruct F as (w & gr' & C & kh & kw & _ & _ & _ & _ & Hgr & _ & _ & Cases).
      destruct Cases as [(-> & _)|[(Ng & _ & Sc & _)|(_ & _ & Ki & _)]]; [| |contradiction].
      + eexists _, _, nd. split; auto. right; left. eapply cd_conv; eauto; rewrite Op; exact Logic.I.
      + eexists _, _, nd. split; auto. left. apply od_weight; [rewrite Op; exact Logic.I|]. rewrite (same_kept _ _ _ Sc). auto.
    - eexists _, _, nd. split; auto. right; left. eapply cd_lin; eauto.
    - exists (n_name nd, "weight"%string), (D2 0 (keep pl (n_name nd))), nd. split; auto. right; right. constructor; auto.
    - exists (n_name nd, "weight"%string), (D2 0 (keep pl (n_name nd))), nd. split; auto. right; right. constructor; auto.
  Qed.
  Lemma fwanted_name k d : fwanted m net pl k d -> exists nd leaf, In nd net /\ k = (n_name nd, leaf).
  Proof. intros (nd & I & [H|[H|H]]); inversion H; subst; eauto. Qed.

  Lemma apply_total saved : (forall n a v, mwanted m net pl n a v -> exists x, dget (ms_mods m) n = Some x /\ good_mdir (m_attrs x) (a, v)) ->
    exists m' saved', apply_and_save junk opt m [] saved r = Ok (m', [], saved').
  Proof.
    intro GM. destruct (recipe_complete rs m net pl FP r REC) as (S & Fw & Mw). unfold apply_and_save.
    assert (EX : r_params r <> [] -> exists m', exec_recipe junk opt false m [] r = Ok (m', [])).
    { intro NE. unfold exec_recipe. rewrite exec_modules_r. destruct (exec_modules_good (r_mods r) (ms_mods m)) as (mods1 & E & _); [apply S| |].
      { intros [n' md] I. apply dget_nodup in I; [|apply S]. pose proof (so_mne _ _ _ S _ _ I) as NEm. destruct md as [|[a v] md1]; [congruence|]. set (md0 := (a, v) :: md1) in *.
        assert (M : mhas r n' a v). { exists md0. split; auto. simpl. rewrite String.eqb_refl. auto. }
        destruct (GM n' a v) as (y & Hy & _); [apply Mw; auto|]. exists y. cbn [fst snd]. split; auto. split; [apply (so_mods _ _ _ S _ _ I)|].
        intros [a' v'] J. destruct (GM n' a' v') as (y' & Hy' & Gy'); [apply (so_mods _ _ _ S _ _ I); auto|]. congruence. }
      rewrite E. cbn [bind]. destruct (exec_params_total junk opt (r_params r) (ms_params m)) as (ps & Ep); [apply S| |].
      { intros k ds I. apply pget_nodup in I; [|apply S]. destruct (so_params _ _ _ S _ _ I) as (_ & NEd & Wd). destruct ds as [|d ds]; [congruence|].
        destruct (fwanted_name k d (Wd d (or_introl eq_refl))) as (nd & leaf & In_ & ->). eapply entry_total; eauto. }
      destruct (r_params r) as [|e0 l0] eqn:El; [congruence|]. rewrite <- El in *. exists (mkMs mods1 ps). cbv zeta. etransitivity; [apply (f_equal (fun z => bind z _)); exact Ep|]. reflexivity. }
    destruct (r_params r) as [|e0 l0] eqn:Ep.
    - destruct (r_mods r) as [|[n md] l] eqn:Em; [eauto|]. exfalso.
      assert (I : dget (r_mods r) n = Some md) by (rewrite Em; simpl; rewrite String.eqb_refl; auto). pose proof (so_mne _ _ _ S _ _ I) as NEm. destruct md as [|[a v] md1]; [congruence|].
      destruct (mods_params n a v) as (k & d & W); [apply (so_mods _ _ _ S _ _ I); left; auto|]. apply Fw in W as (ds & G & _). rewrite Ep in G. discriminate.
    - destruct EX as (m' & E); [discriminate|]. rewrite E. cbn [bind fst snd]. destruct (r_mods r); eauto.
  Qed.
End ExecTotal.
