(** C24: remove_channels succeeds. *)
From Coq Require Import String List ZArith QArith Bool Arith Lia.
From Verif Require Import Base Lists StructModel ThinModel ThinSpec ThinProofs ThinExecProofs PropertiesThin ThinRecipeProofs ThinSearchProofs PropertiesGraph ThinNetSpec ThinSimProofs ThinGraphProofs ThinFiltersProofs ThinDataProofs ThinFiltersSim ThinFiltersTotal ThinChannelsProofs ThinChannelsSim.
Import ListNotations.
Local Open Scope nat_scope.

(** executing a recipe whose every entry fits succeeds *)
Lemma apply_total_gen wanted mwanted junk opt m saved r : sound wanted mwanted r ->
  (forall n a v, mwanted n a v -> exists x, dget (ms_mods m) n = Some x /\ good_mdir (m_attrs x) (a, v)) ->
  (forall k ds, pget (r_params r) k = Some ds -> exists p p', pget (ms_params m) k = Some p /\ foldM (thin_param junk opt) ds p = Ok p') ->
  (r_params r = [] -> r_mods r = []) ->
  exists m' saved', apply_and_save junk opt m [] saved r = Ok (m', [], saved').
Proof.
  intros S GM ET MP. unfold apply_and_save.
  assert (EX : r_params r <> [] -> exists m', exec_recipe junk opt false m [] r = Ok (m', [])).
  { intro NE. unfold exec_recipe. rewrite exec_modules_r. destruct (exec_modules_good (r_mods r) (ms_mods m)) as (mods1 & E & _); [apply S| |].
    { intros [n' md] I. apply dget_nodup in I; [|apply S]. pose proof (so_mne _ _ _ S _ _ I) as NEm. destruct md as [|[a v] md1]; [congruence|]. set (md0 := (a, v) :: md1) in *.
      destruct (GM n' a v) as (y & Hy & _); [apply (so_mods _ _ _ S _ _ I); left; auto|]. exists y. cbn [fst snd]. split; auto. split; [apply (so_mods _ _ _ S _ _ I)|].
      intros [a' v'] J. destruct (GM n' a' v') as (y' & Hy' & Gy'); [apply (so_mods _ _ _ S _ _ I); auto|]. congruence. }
    rewrite E. cbn [bind]. destruct (exec_params_total junk opt (r_params r) (ms_params m)) as (ps & Ep); [apply S| |].
    { intros k ds I. apply ET. apply pget_nodup; auto. apply S. }
    destruct (r_params r) as [|e0 l0] eqn:El; [congruence|]. rewrite <- El in *. exists (mkMs mods1 ps). cbv zeta. etransitivity; [apply (f_equal (fun z => bind z _)); exact Ep|]. reflexivity. }
  destruct (r_params r) as [|e0 l0] eqn:Ep.
  - rewrite MP by auto. eauto.
  - destruct EX as (m' & E); [discriminate|]. rewrite E. cbn [bind fst snd]. destruct (r_mods r); eauto.
Qed.

Section Total.
  Variables (m : mstate) (net : list node) (pl : plan).
  Hypothesis CP : channels_plan_ok m net pl.
  Notation g := (graph_of net).

  Lemma cbn_total idx l : (forall x, In x l -> exists b, In b net /\ x = n_name b /\ is_bn (n_op b)) -> forall r, exists r', foldM (fun r b => append_bn m r b idx) l r = Ok r'.
  Proof.
    intros H. apply foldM_total. intros a s Ia. destruct (H a Ia) as (b & Ib & -> & T). unfold append_bn. pose proof (cp_nodes _ _ _ CP b Ib) as F. unfold channels_ok in F.
    destruct (n_op b); try (destruct T; fail). destruct (n_in b) as [|? [|? ?]]; try (destruct F; fail). destruct F as (w & bb & mean & var & _ & _ & _ & Kd & _).
    destruct (kind_lookup _ _ _ Kd) as (z & -> & Kz & _). cbn [bind]. rewrite Kz. eauto.
  Qed.
  Lemma clayer_total (f : string -> nat) idx : (forall nd i, In nd net -> In i (n_in nd) -> f i < f (n_name nd)) ->
    forall fuel nd i r leaf vis, thinned_input net pl nd i ->
    NoDup vis -> (forall v, In v vis -> In v (map fst (ms_mods m)) /\ f (n_name nd) < f v) -> S (length (ms_mods m)) <= fuel + length vis ->
    exists r', channels_layer m g idx fuel (n_name nd) leaf r = Ok r'.
  Proof.
    intros FR. induction fuel as [|fuel IH]; intros nd i r leaf vis TI Nv Hv Le.
    - exfalso. assert (length vis <= length (map fst (ms_mods m))) by (apply NoDup_incl_length; auto; intros v J; apply Hv; auto). rewrite map_length in H. lia.
    - pose proof TI as (I & Ly & Ei & Ki). cbn [channels_layer]. pose proof (cp_nodes _ _ _ CP nd I) as F. unfold channels_ok in F.
      assert (KD : exists x dim, lookup (ms_mods m) (n_name nd) = Ok x /\ In (n_name nd) (map fst (ms_mods m)) /\
        match m_kind x with KConv => do gr <- int_attr m (n_name nd) "groups"; Ok (if Nat.eqb gr 1 then 1 else 0) | KLinear => Ok 1 | _ => Raise AssertionError end = Ok dim).
      { destruct (n_op nd) as [ge| | |q| |q] eqn:Op; try (destruct Ly; fail); rewrite Ei in F.
        - destruct F as (w & gr & Cc & kh & kw & _ & Kd & _ & Hg & _). destruct (kind_lookup _ _ _ Kd) as (x & Lx & Kx & Ix). rewrite Kx || idtac. exists x, (if Nat.eqb gr 1 then 1 else 0). rewrite Kx, (has_int_attr _ _ _ _ Hg). auto.
        - destruct F as (w & F & _ & Kd & _). destruct (kind_lookup _ _ _ Kd) as (x & Lx & Kx & Ix). exists x, 1. rewrite Kx. auto. }
      destruct KD as (x & dim & -> & Ix & Ed). cbn [bind]. rewrite Ed. cbn [bind]. clear F Ed.
      match goal with |- exists r', bind (foldM ?h ?l ?r0) _ = _ => assert (FT : exists r4, foldM h l r0 = Ok r4) end; [|destruct FT as (r4 & ->); cbn [bind]].
      2:{ apply cbn_total. intros y Iy. apply (net_predecessors net (cp_net _ _ _ CP)) in Iy as (b & Ib & -> & _ & T & _); auto. exists b. split; auto. split; auto. apply bnorm_is; auto. }
      apply foldM_total. intros s q Is. pose proof (proj1 (net_predecessors net (cp_net _ _ _ CP) ["Conv"]%string nd s I) Is) as (t & It & -> & Nt & Tt & Ft).
      pose proof (cflow m net pl CP _ _ _ TI Ft) as Sc. assert (Kt : ~ all_kept pl (n_name t)) by (rewrite (same_kept _ _ _ Sc); auto). apply cv_is in Tt.
      pose proof (cp_nodes _ _ _ CP t It) as F. unfold channels_ok in F. destruct (n_op t) as [ge| | |q'| |q'] eqn:Op; try (destruct Tt; fail). destruct (n_in t) as [|j [|? ?]] eqn:Et; try (destruct F; fail).
      destruct F as (w & gr & Cc & kh & kw & _ & Kd & Hic & Hg & HC & _ & Cases). rewrite (has_int_attr _ _ _ _ Hg), (has_int_attr _ _ _ _ Hic). cbn [bind].
      destruct (Nat.eqb_spec gr 1); [eauto|]. destruct Cases as [(? & _)|[(_ & -> & Sc' & _)|(_ & ? & _)]]; try contradiction.
      rewrite (proj2 (Nat.eqb_eq gr (chans pl j))) by lia.
      assert (Kj : ~ all_kept pl j) by (rewrite <- (same_kept _ _ _ Sc'); auto).
      apply (IH t j _ _ (n_name nd :: vis)).
      + split; auto. split; [rewrite Op; exact Logic.I|auto].
      + constructor; auto. intro J. destruct (Hv _ J) as [_ L]. lia.
      + assert (FL : f (n_name t) < f (n_name nd)) by (eapply flows_rank; eauto). intros v [<-|J]; [auto|]. destruct (Hv _ J) as [A B]. split; auto. lia.
      + simpl. lia.
  Qed.
  Lemma crecipe_total : exists r, recipe_channels m g = Ok r.
  Proof.
    unfold recipe_channels. apply foldM_total. intros [k p] r I. cbn [fst snd]. unfold ndim. destruct (Nat.eqb (length (nd_shape (p_data p))) 2 || Nat.eqb (length (nd_shape (p_data p))) 4) eqn:Ed; cbn [negb]; [|eauto].
    assert (Hk : pget (ms_params m) k = Some p) by (apply pget_nodup; auto; apply CP).
    assert (Dm : length (nd_shape (p_data p)) = 2 \/ length (nd_shape (p_data p)) = 4) by (apply orb_true_iff in Ed as [A|A]; apply Nat.eqb_eq in A; auto).
    destruct (cp_2d4d _ _ _ CP k p Hk Dm) as (nd & In_ & C & ->). cbn [fst snd].
    destruct (cnonzero_cases m net pl CP nd p In_ C Hk) as (i & Ei & P1 & Cases). unfold sums_of, ndim in Cases. destruct Cases as [[-> Sh]|[-> Alt]].
    - rewrite Sh in *. pose proof (cp_keep _ _ _ CP i) as [Kx Ke]. destruct (Nat.eqb_spec (length (keep pl i)) 0) as [E0|_]; [destruct (keep pl i); [congruence|discriminate]|].
      destruct (Nat.leb_spec (chans pl i) (length (keep pl i))) as [Le|Lt]; [eauto|].
      assert (Ki : ~ all_kept pl i) by (intro A; rewrite A, seq_length in Lt; lia).
      destruct (ordered_rank _ _ (proj1 (cp_net _ _ _ CP))) as (f & _ & FR).
      apply (clayer_total f (keep pl i) FR (layer_fuel m) nd i r "weight"%string []); [split; auto|constructor|intros ? []|unfold layer_fuel; simpl; lia].
    - rewrite seq_length. destruct (Nat.eqb_spec (nth 1 (nd_shape (p_data p)) 0) 0); [lia|]. rewrite (proj2 (Nat.leb_le _ _) (le_n _)). eauto.
  Qed.
  Lemma cm_good n a v : cmwanted m net pl n a v -> exists x, dget (ms_mods m) n = Some x /\ good_mdir (m_attrs x) (a, v).
  Proof.
    intros (nd & In_ & -> & H). pose proof (cp_nodes _ _ _ CP nd In_) as F. unfold channels_ok in F.
    assert (K : forall k v, is_kind m (n_name nd) k -> exists x, dget (ms_mods m) (n_name nd) = Some x /\ good_mdir (m_attrs x) (a, MSet v)) by (intros k u (x & A & _); exists x; split; auto; exact I).
    destruct (n_op nd) eqn:Op; [| | | |destruct H as [H|[H|H]]; inversion H; subst; rewrite Op in *; simpl in *; try contradiction; discriminate|destruct H as [H|[H|H]]; inversion H; subst; rewrite Op in *; simpl in *; try contradiction; discriminate].
    - destruct (n_in nd) as [|? [|? ?]]; try (destruct F; fail). destruct F as (w & gr' & C & kh & kw & _ & Kd & _).
      destruct H as [H|[H|H]]; inversion H; subst; rewrite Op in *; simpl in *; try contradiction; try discriminate; eapply K; eauto.
    - destruct (n_in nd) as [|? [|? ?]]; try (destruct F; fail). destruct F as (w & F & _ & Kd & _).
      destruct H as [H|[H|H]]; inversion H; subst; rewrite Op in *; simpl in *; try contradiction; try discriminate; eapply K; eauto.
    - destruct (n_in nd) as [|? [|? ?]]; try (destruct F; fail). destruct F as (w & b & mean & var & _ & _ & _ & Kd & Hm & Hv & _).
      destruct H as [H|[H|H]]; inversion H; subst; rewrite Op in *; simpl in *; try contradiction; try discriminate; [eapply K; eauto|].
      assert (T : exists t, has_tensor m (n_name nd) a [chans pl (n_name nd)] t) by (match goal with E : _ \/ _ |- _ => destruct E as [->| ->] end; eauto).
      destruct T as (t & (x & Hx & Ha) & S & W). exists x. split; auto. unfold good_mdir. cbn [fst snd]. exists t. split; auto. split; auto. rewrite S. split; [simpl; lia|]. cbn [nth]. apply CP.
    - destruct H as [H|[H|H]]; inversion H; subst; rewrite Op in *; simpl in *; try contradiction; discriminate.
  Qed.
End Total.

Section ExecTotal.
  Variables (m : mstate) (net : list node) (pl : plan) (r : recipe) (junk : nat -> Q) (opt : optimizer).
  Hypothesis CP : channels_plan_ok m net pl.
  Hypothesis REC : recipe_channels m (graph_of net) = Ok r.
  Hypothesis TF : tensors_fit opt m.

  Lemma cwanted_name k d : cwanted m net pl k d -> exists nd leaf, In nd net /\ k = (n_name nd, leaf).
  Proof. intros (nd & I & [H|[H|H]]); inversion H; subst; eauto. Qed.
  Lemma cmods_params n a v : cmwanted m net pl n a v -> exists k d, cwanted m net pl k d.
  Proof.
    intros (nd & I & -> & H). pose proof (cp_nodes _ _ _ CP nd I) as F. unfold channels_ok in F. destruct H as [H|[H|H]]; inversion H; subst.
    - exists (n_name nd, "weight"%string), (D2 0 (keep pl (n_name nd))), nd. split; auto. left. constructor; auto.
    - exists (n_name nd, "weight"%string), (D2 0 (keep pl (n_name nd))), nd. split; auto. left. constructor; auto.
    - rename H0 into Ly. rename H1 into Ei. rename H2 into Ki. destruct (n_op nd) as [ge| | |f| |f] eqn:Op; try (destruct Ly; fail); rewrite Ei in F.
      + destruct F as (w & gr & C & kh & kw & _ & _ & _ & Hgr & _ & _ & Cases). destruct Cases as [(-> & _)|[(Ng & _ & Sc & _)|(_ & _ & K & _)]]; [| |contradiction].
        * eexists _, _, nd. split; auto. right; left. eapply ci_conv; eauto; rewrite Op; exact Logic.I.
        * eexists _, _, nd. split; auto. left. apply od_weight; [rewrite Op; exact Logic.I|]. rewrite (same_kept _ _ _ Sc). auto.
      + eexists _, _, nd. split; auto. right; left. eapply ci_lin; eauto.
    - exists (n_name nd, "weight"%string), (D2 0 (keep pl (n_name nd))), nd. split; auto. right; right. constructor; auto.
    - exists (n_name nd, "weight"%string), (D2 0 (keep pl (n_name nd))), nd. split; auto. right; right. constructor; auto.
  Qed.
  Lemma centry_total nd leaf ds : In nd net -> pget (r_params r) (n_name nd, leaf) = Some ds ->
    exists p p', pget (ms_params m) (n_name nd, leaf) = Some p /\ foldM (thin_param junk opt) ds p = Ok p'.
  Proof.
    intros I E. destruct (crecipe_complete m net pl CP r REC) as (S & _). destruct (so_params _ _ _ S _ _ E) as (ND & NE & _).
    pose proof (fun d => cdirs_wanted m net pl r CP REC nd leaf d I) as W. unfold dirs_of in W. rewrite E in W. clear E S.
    assert (D0 : exists d0, In d0 ds) by (destruct ds as [|d0 ?]; [congruence|exists d0; left; auto]).
    pose proof (cp_nodes _ _ _ CP nd I) as F. unfold channels_ok in F. pose proof (cp_keep _ _ _ CP (n_name nd)) as [KX _].
    assert (One : forall p n, pget (ms_params m) (n_name nd, leaf) = Some p -> of_shape [n] (p_data p) -> chans pl (n_name nd) = n ->
      (forall d, In d ds -> d = D2 0 (keep pl (n_name nd))) -> exists p p', pget (ms_params m) (n_name nd, leaf) = Some p /\ foldM (thin_param junk opt) ds p = Ok p').
    { intros p n Hp (Sh & Wf) <- Hd. destruct (thin_params_good junk opt p ds) as (p' & H'); [eapply fits_good; eauto| |exists p, p'; auto]. rewrite Sh. split.
      - apply nodup_map_inj; auto. intros a b Ia Ib _. rewrite (Hd a Ia), (Hd b Ib). auto.
      - intros d Id. rewrite (Hd d Id). cbn [is_d2 dir_dim dir_idx nth length]. split; auto. }
    destruct (n_op nd) as [ge| | |f| |f] eqn:Op.
    - destruct (n_in nd) as [|i [|? ?]] eqn:Ei; try (destruct F; fail).
      destruct F as (w & gr & C & kh & kw & ((p & Hp & Ew) & Sw & Ww) & Hk & Hic & Hgr & HC & Hb & Cases). pose proof (cp_keep _ _ _ CP i) as [KXi _].
      assert (Lf : leaf = "weight"%string \/ leaf = "bias"%string). { destruct D0 as (d0 & J). apply W in J as [J|[J|J]]; inversion J; subst; auto. }
      destruct Lf as [->| ->].
      + destruct (thin_params_good junk opt p ds) as (p' & H'); [eapply fits_good; eauto; rewrite Ew; auto| |exists p, p'; auto]. rewrite Ew, Sw.
        assert (Hd : forall d, In d ds -> d = D2 0 (keep pl (n_name nd)) \/ (d = D2 1 (keep pl i) /\ gr = 1)).
        { intros d J. apply W in J as [J|[J|J]]; inversion J; subst; auto.
          - match goal with A : n_in nd = [?x] |- _ => rewrite Ei in A; injection A as <- end. right. split; auto. eapply has_int_fun; eauto.
          - rewrite Op in *. discriminate. }
        split.
        * apply nodup_map_inj; auto. intros a b Ia Ib. destruct (Hd a Ia) as [->|[-> _]], (Hd b Ib) as [->|[-> _]]; simpl; auto; discriminate.
        * intros d Id. destruct (Hd d Id) as [->|[-> ->]]; cbn [is_d2 dir_dim dir_idx nth length]; split; auto; split; auto; try lia. replace C with (chans pl i) by lia. auto.
      + assert (HB : exists b, bias_of m (n_name nd) b). { destruct D0 as (d0 & J). apply W in J as [J|[J|J]]; inversion J; subst; [apply has_bias_opt; auto|rewrite Op in *; contradiction]. }
        destruct HB as (b & Hbb). pose proof (Hb b Hbb) as Sb. destruct Hbb as (pb & Hpb & <-). apply (One pb (chans pl (n_name nd))); auto. intros d J. apply W in J as [J|[J|J]]; inversion J; subst; auto.
    - destruct (n_in nd) as [|i [|? ?]] eqn:Ei; try (destruct F; fail). destruct F as (w & F & ((p & Hp & Ew) & Sw & Ww) & Hk & Kn & HF & Cases).
      assert (Hd : forall d, In d ds -> d = D2 1 (keep pl i) /\ leaf = "weight"%string /\ ~ all_kept pl i).
      { intros d J. apply W in J as [J|[J|J]]; inversion J; subst; rewrite ?Op in *; simpl in *; try contradiction. match goal with A : n_in nd = [?x] |- _ => rewrite Ei in A; injection A as <- end. auto. }
      destruct D0 as (d0 & J0). destruct (Hd d0 J0) as (_ & -> & Ki). destruct Cases as [(? & _)|(EF & _)]; [contradiction|].
      destruct (thin_params_good junk opt p ds) as (p' & H'); [eapply fits_good; eauto; rewrite Ew; auto| |exists p, p'; auto]. rewrite Ew, Sw. split.
      + apply nodup_map_inj; auto. intros a b Ia Ib _. destruct (Hd a Ia) as (-> & _), (Hd b Ib) as (-> & _). auto.
      + intros d Id. destruct (Hd d Id) as (-> & _). cbn [is_d2 dir_dim dir_idx nth length]. split; auto. split; auto. rewrite EF. apply CP.
    - destruct (n_in nd) as [|i [|? ?]] eqn:Ei; try (destruct F; fail). destruct F as (w & b & mean & var & ((p & Hp & Ew) & Sw) & (pb & Hpb & Eb) & Sb & _).
      assert (Hd : forall d, In d ds -> d = D2 0 (keep pl (n_name nd)) /\ (leaf = "weight"%string \/ leaf = "bias"%string)).
      { intros d J. apply W in J as [J|[J|J]]; inversion J; subst; rewrite ?Op in *; simpl in *; try contradiction; try discriminate; auto. }
      assert (Lf : leaf = "weight"%string \/ leaf = "bias"%string) by (destruct D0 as (d0 & J); apply (Hd d0); auto).
      destruct Lf as [->| ->]; [apply (One p (chans pl (n_name nd)))|apply (One pb (chans pl (n_name nd)))]; auto; try (rewrite ?Ew, ?Eb; auto; fail); intros; apply Hd; auto.
    - exfalso. destruct D0 as (d0 & J). apply W in J as [J|[J|J]]; inversion J; subst; rewrite ?Op in *; simpl in *; try contradiction; discriminate.
    - exfalso. destruct D0 as (d0 & J). apply W in J as [J|[J|J]]; inversion J; subst; rewrite ?Op in *; simpl in *; try contradiction; discriminate.
    - exfalso. destruct D0 as (d0 & J). apply W in J as [J|[J|J]]; inversion J; subst; rewrite ?Op in *; simpl in *; try contradiction; discriminate.
  Qed.
  Lemma capply_total saved : exists m' saved', apply_and_save junk opt m [] saved r = Ok (m', [], saved').
  Proof.
    destruct (crecipe_complete m net pl CP r REC) as (S & Fw & Mw). eapply apply_total_gen; eauto.
    - intros n a v H. eapply cm_good; eauto.
    - intros k ds E. destruct (so_params _ _ _ S _ _ E) as (_ & NE & Wd). destruct ds as [|d ds]; [congruence|].
      destruct (cwanted_name k d (Wd d (or_introl eq_refl))) as (nd & leaf & In_ & ->). eapply centry_total; eauto.
    - intro Ep. destruct (r_mods r) as [|[n md] l] eqn:Em; auto. exfalso.
      assert (I : dget (r_mods r) n = Some md) by (rewrite Em; simpl; rewrite String.eqb_refl; auto). pose proof (so_mne _ _ _ S _ _ I) as NEm. destruct md as [|[a v] md1]; [congruence|].
      destruct (cmods_params n a v) as (k & d & W); [apply (so_mods _ _ _ S _ _ I); left; auto|]. apply Fw in W as (ds & G & _). rewrite Ep in G. discriminate.
  Qed.
End ExecTotal.
