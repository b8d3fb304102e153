(** C24: the network thinned by [remove_channels] satisfies the conditions of the simulation. *)
From Coq Require Import String List ZArith QArith Bool Arith Lia.
From Verif Require Import Base Lists StructModel ThinModel ThinSpec ThinProofs ThinExecProofs PropertiesThin ThinRecipeProofs ThinNetSpec ThinSimProofs ThinGraphProofs ThinFiltersProofs ThinDataProofs ThinFiltersSim ThinChannelsProofs.
Import ListNotations.
Local Open Scope nat_scope.

(** selecting columns of a matrix *)
Lemma lin_sel O_ C K (d : list Q) w : nd_data w = d -> length d = numel [O_; C] -> index_set C K ->
  mkND (map (@length nat) [seq 0 O_; K]) (sel_all [O_; C] [seq 0 O_; K] d) = lin_cut O_ C 1 K w.
Proof.
  intros <- L IX. unfold lin_cut. cbn [map]. rewrite seq_length. rewrite (Nat.mul_1_l (length K)). f_equal.
Qed.

Section Channels.
  Variables (rs : Q -> Q) (m m' : mstate) (net : list node) (pl : plan) (r : recipe).
  Hypothesis FP : channels_plan_ok m net pl.
  Hypothesis REC : recipe_channels m (graph_of net) = Ok r.
  Hypothesis X : executed m m' r.

  Lemma cdirs_nodup k : NoDup (dirs_of r k).
  Proof.
    destruct (crecipe_complete m net pl FP r REC) as (S & _). unfold dirs_of. destruct (pget (r_params r) k) eqn:E; [|constructor]. apply (so_params _ _ _ S k). auto.
  Qed.
  Lemma cdirs_wanted nd leaf d : In nd net -> In d (dirs_of r (n_name nd, leaf)) <-> (own_dir m pl nd (n_name nd, leaf) d \/ cin_dir m pl nd (n_name nd, leaf) d \/ bn_dir pl nd (n_name nd, leaf) d).
  Proof.
    intro I. destruct (crecipe_complete m net pl FP r REC) as (S & F & _). specialize (F (n_name nd, leaf) d). unfold dirs_of.
    assert (E : In d (dirs_of r (n_name nd, leaf)) <-> has r (n_name nd, leaf) d).
    { unfold dirs_of, has. destruct (pget (r_params r) (n_name nd, leaf)) as [ds|]; [|split; [intros []|intros (? & ? & _); discriminate]]. split; [eauto|]. intros (ds' & [= <-] & J). auto. }
    unfold dirs_of in E. rewrite E, <- F. split.
    - intros (nd' & I' & H). assert (En : n_name nd = n_name nd') by (destruct H as [H|[H|H]]; inversion H; auto).
      apply (same_node net) in En; auto; [|apply net_names; apply FP]. subst nd'. auto.
    - intro H. exists nd. auto.
  Qed.
  Lemma cmods_wanted nd a v : In nd net -> mhas r (n_name nd) a v <-> (cout_attr m pl nd a v \/ cin_attr pl nd a v \/ bn_attr pl nd a v).
  Proof.
    intro I. destruct (crecipe_complete m net pl FP r REC) as (S & _ & F). rewrite <- F. split.
    - intros (nd' & I' & En & H). apply (same_node net) in En; auto; [|apply net_names; apply FP]. subst nd'. auto.
    - intro H. exists nd. auto.
  Qed.

  Ltac no_op nd := repeat match goal with
    | H : own_dir _ _ nd _ _ |- _ => inversion H; subst; clear H
    | H : cin_dir _ _ nd _ _ |- _ => inversion H; subst; clear H
    | H : bn_dir _ nd _ _ |- _ => inversion H; subst; clear H
    | H : cout_attr _ _ nd _ _ |- _ => inversion H; subst; clear H
    | H : cin_attr _ nd _ _ |- _ => inversion H; subst; clear H
    | H : bn_attr _ nd _ _ |- _ => inversion H; subst; clear H
    | A : n_op nd = _, B : is_conv (n_op nd) |- _ => rewrite A in B; simpl in B; try contradiction B; clear B
    | A : n_op nd = _, B : is_bn (n_op nd) |- _ => rewrite A in B; simpl in B; try contradiction B; clear B
    | A : n_op nd = _, B : n_op nd = OLinear |- _ => rewrite A in B; discriminate B
    | A : n_in nd = [?i], B : n_in nd = [?j] |- _ => rewrite A in B; injection B as <-
    end.

  Lemma cconv_bias nd b : In nd net -> is_conv (n_op nd) -> of_shape [chans pl (n_name nd)] b -> opt_param m (n_name nd, "bias"%string) = Some b ->
    cut_bias (keep pl (n_name nd)) (Some b) (opt_param m' (n_name nd, "bias"%string)).
  Proof.
    intros I C Sb Hb. destruct (opt_some m m' r X _ _ Hb) as (b' & -> & F). simpl.
    destruct (vec_match (chans pl (n_name nd)) b (dirs_of r (n_name nd, "bias"%string)) (keep pl (n_name nd))) as (t' & F' & V); auto.
    - split; [apply cdirs_nodup|]. split; auto. split; [intros [|k] L; simpl in *; [apply FP|lia]|]. split.
      + intros d J. apply cdirs_wanted in J; auto. exists 0. split; [simpl; lia|]. cbn [nth]. destruct J as [J|[J|J]]; inversion J; subst; auto.
      + intros [|k] L; simpl in L; [|lia]. cbn [nth]. destruct (all_kept_dec pl (n_name nd)) as [K|K]; [left; exact K|right]. apply cdirs_wanted; auto. left. apply od_bias; auto.
        apply has_bias_opt. exists b. apply bias_opt; auto.
    - rewrite F in F'. injection F' as <-. exact V.
  Qed.
  Lemma cconv_bias_any nd : In nd net -> is_conv (n_op nd) -> (forall b, bias_of m (n_name nd) b -> of_shape [chans pl (n_name nd)] b) ->
    cut_bias (keep pl (n_name nd)) (opt_param m (n_name nd, "bias"%string)) (opt_param m' (n_name nd, "bias"%string)).
  Proof.
    intros I C H. destruct (opt_param m (n_name nd, "bias"%string)) as [b|] eqn:E; [apply cconv_bias; auto; apply H; apply bias_opt; auto|]. rewrite (opt_none m m' r X _ E). exact Logic.I.
  Qed.
  Lemma cno_dirs k w : dirs_of r k = [] -> get_param m k = Ok w -> get_param m' k = Ok w.
  Proof. intros E H. destruct (get_after m m' r X k w H) as (w' & A & F). rewrite E in F. injection F as <-. auto. Qed.
  Lemma cno_dirs_opt k : dirs_of r k = [] -> opt_param m' k = opt_param m k.
  Proof. intros E. destruct (opt_param m k) as [w|] eqn:H; [|eapply opt_none; eauto]. destruct (opt_some m m' r X k w H) as (w' & A & F). rewrite E in F. injection F as <-. auto. Qed.
  Lemma cempty_dirs k : (forall d, ~ In d (dirs_of r k)) -> dirs_of r k = [].
  Proof. destruct (dirs_of r k) as [|d l]; auto. intro H. exfalso. apply (H d). left; auto. Qed.

  Lemma cbn_vec nd b leaf : In nd net -> is_bn (n_op nd) -> leaf = "weight"%string \/ leaf = "bias"%string -> of_shape [chans pl (n_name nd)] b -> get_param m (n_name nd, leaf) = Ok b ->
    exists b', get_param m' (n_name nd, leaf) = Ok b' /\ cut_vec (keep pl (n_name nd)) b b'.
  Proof.
    intros I C L Sb Hb. destruct (get_after m m' r X _ _ Hb) as (b' & Hb' & F). exists b'. split; auto.
    destruct (vec_match (chans pl (n_name nd)) b (dirs_of r (n_name nd, leaf)) (keep pl (n_name nd))) as (t' & F' & V); auto.
    - split; [apply cdirs_nodup|]. split; auto. split; [intros [|k] Lk; simpl in *; [apply FP|lia]|]. split.
      + intros d J. apply cdirs_wanted in J; auto. exists 0. split; [simpl; lia|]. cbn [nth]. destruct J as [J|[J|J]]; inversion J; subst; auto; exfalso.
        * destruct (n_op nd); simpl in *; contradiction.
        * match goal with A : n_op nd = _ |- _ => rewrite A in C end. contradiction.
      + intros [|k] Lk; simpl in Lk; [|lia]. cbn [nth]. destruct (all_kept_dec pl (n_name nd)) as [K|K]; [left; exact K|right]. apply cdirs_wanted; auto. right; right. constructor; auto.
    - rewrite F in F'. injection F' as <-. exact V.
  Qed.
  Lemma cbn_ten nd a t : In nd net -> is_bn (n_op nd) -> a = "running_mean"%string \/ a = "running_var"%string -> has_tensor m (n_name nd) a [chans pl (n_name nd)] t ->
    exists t', ten_attr m' (n_name nd) a = Ok t' /\ cut_vec (keep pl (n_name nd)) t t'.
  Proof.
    intros I C L Ht. pose proof Ht as (_ & S & W). unfold wf_nd in W. rewrite S in W. pose proof (cp_keep _ _ _ FP (n_name nd)) as (KX & _).
    destruct (ten_after m m' r X _ _ _ _ Ht) as [[N E]|[(u & M) E]].
    - exists t. split; auto. destruct (all_kept_dec pl (n_name nd)) as [K|K].
      + unfold cut_vec. rewrite K. rewrite <- (sel_vec (chans pl (n_name nd))) by (try (rewrite W; simpl; lia); intros j J; apply in_seq in J; lia).
        change ([seq 0 (chans pl (n_name nd))]) with (full [chans pl (n_name nd)]). rewrite sel_all_full; auto.
      + exfalso. apply (N (MSel 0 (keep pl (n_name nd)))). apply cmods_wanted; auto. right; right. constructor; auto.
    - apply cmods_wanted in M as [M|[M|M]]; auto.
      + exfalso. inversion M; destruct (n_op nd); simpl in *; contradiction.
      + exfalso. inversion M; destruct (n_op nd); simpl in *; contradiction.
      + inversion M as [? K|? ? K]; subst; [destruct L; discriminate|]. rewrite (E 0 (keep pl (n_name nd))) by (apply cmods_wanted; auto; right; right; constructor; auto).
        eexists. split; [reflexivity|]. unfold cut_vec, cut. cbn [nd_data]. change (Ks [chans pl (n_name nd)] [D2 0 (keep pl (n_name nd))]) with [keep pl (n_name nd)].
        apply sel_vec; [rewrite W; simpl; lia|]. intros. eapply index_set_lt; eauto.
  Qed.

  Lemma channels_sim nd : In nd net -> sim_node false rs m m' pl nd.
  Proof.
    intro I. pose proof (cp_nodes _ _ _ FP nd I) as F. unfold channels_ok in F. unfold sim_node. set (n := n_name nd) in *.
    destruct (n_op nd) as [ge| | |f| |f] eqn:Op.
    - destruct (n_in nd) as [|i [|? ?]] eqn:Ei; try (destruct F; fail).
      destruct F as (w & gr & C & kh & kw & Hw & Hk & Hic & Hgr & HC & Hb & Cases). assert (Cn : is_conv (n_op nd)) by (rewrite Op; simpl; auto).
      destruct (get_after m m' r X _ _ (has_weight_get _ _ _ _ Hw)) as (w' & Hw' & Fw). pose proof Hw as (_ & Sw & Ww).
      assert (CB : cut_bias (keep pl n) (opt_param m (n, "bias"%string)) (opt_param m' (n, "bias"%string))) by (apply cconv_bias_any; auto; intros; apply Hb; auto).
      assert (DW : forall d, In d (dirs_of r (n, "weight"%string)) <-> (~ all_kept pl n /\ d = D2 0 (keep pl n)) \/ (~ all_kept pl i /\ has_int m n "groups" 1 /\ d = D2 1 (keep pl i))).
      { intro d. unfold n. rewrite (cdirs_wanted nd "weight" d I). fold n. split.
        - intros [H|[H|H]]; no_op nd; auto.
        - intros [[K ->]|(K & G & ->)]; [left; apply od_weight; auto|right; left; eapply ci_conv; eauto]. }
      pose proof (cp_keep _ _ _ FP n) as (KX & KN). pose proof (cp_keep _ _ _ FP i) as (KXi & KNi).
      destruct Cases as [(-> & NZ)|[(Ng & -> & Sc & _)|(Ng & Kn & Ki & _)]].
      + (* ordinary *)
        exists w, 1, C, [kh; kw], w', 1. split; [eapply has_weight_get; eauto|]. split; auto. split; auto. split; [apply has_int_attr; auto|]. split; auto.
        split; [destruct (int_after m m' r X _ _ _ Hgr) as [[_ E]|[(u & M) _]]; auto; exfalso; apply (cmods_wanted nd) in M as [M|[M|M]]; auto; no_op nd; match goal with A : has_int m _ _ ?g, B : ?g <> 1 |- _ => apply B; eapply has_int_fun; eauto end|].
        split; [intro; discriminate|]. left. split; auto. split; auto. assert (EC : C = chans pl i) by lia. split; auto. split; [|split; [auto|split; [intro; discriminate|]]].
        * rewrite (data_match w (dirs_of r (n, "weight"%string)) [keep pl n; keep pl i; seq 0 kh; seq 0 kw]) in Fw; auto.
          -- injection Fw as <-. unfold cut_w. cbn [map full]. rewrite !seq_length. reflexivity.
          -- rewrite Sw. split; [apply cdirs_nodup|]. split; auto. split; [|split].
             ++ intros [|[|[|[|k]]]] L; simpl in L; try lia; cbn [nth]; rewrite ?EC; auto; apply index_set_seq.
             ++ intros d J. apply DW in J as [(_ & ->)|(_ & _ & ->)]; [exists 0|exists 1]; simpl; split; auto; lia.
             ++ intros [|[|[|[|k]]]] L; simpl in L; try lia; cbn [nth]; auto.
                ** destruct (all_kept_dec pl n); [left; auto|right; apply DW; auto].
                ** rewrite EC. destruct (all_kept_dec pl i); [left; auto|right; apply DW; auto].
        * intros _ o c Io (Lc & Nc). assert (Lo : o < chans pl n) by (eapply index_set_lt; eauto).
          apply (proj1 (not_nonzero_input w c)); [|rewrite Sw; auto]. intro Hn. apply Nc. apply NZ; [lia|auto].
      + (* depth-wise *)
        exists w, gr, 1, [kh; kw], w', (length (keep pl n)). split; [eapply has_weight_get; eauto|]. split; auto. split; auto. split; [apply has_int_attr; auto|]. split; auto.
        assert (Eg : gr = chans pl n) by (destruct Sc; lia).
        split.
        { destruct (int_after m m' r X _ _ _ Hgr) as [[N E]|[(u & M) E]].
          - rewrite E. f_equal. destruct (all_kept_dec pl i) as [K|K].
            + rewrite (proj2 Sc), K, seq_length. destruct Sc; lia.
            + exfalso. apply (N (MSet (length (keep pl n)))). apply cmods_wanted; auto. left. eapply co_groups; eauto. fold n. rewrite (same_kept _ _ _ Sc). auto.
          - apply (cmods_wanted nd) in M as [M|[M|M]]; auto; no_op nd. apply E. apply cmods_wanted; auto. left. eapply co_groups; eauto; rewrite Op; exact Logic.I. }
        split; [intro; discriminate|]. right; left. split; auto. split; auto. split; auto. split; auto. split; auto.
        rewrite (data_match w (dirs_of r (n, "weight"%string)) [keep pl n; [0]; seq 0 kh; seq 0 kw]) in Fw; auto.
        * injection Fw as <-. unfold cut_w. cbn [map full]. rewrite !seq_length. reflexivity.
        * rewrite Sw. split; [apply cdirs_nodup|]. split; auto. split; [|split].
          -- intros [|[|[|[|k]]]] L; simpl in L; try lia; cbn [nth]; auto; try apply index_set_seq; apply (index_set_seq 1).
          -- intros d J. apply DW in J as [(_ & ->)|(_ & G & _)]; [exists 0; simpl; split; auto; lia|]. exfalso. apply Ng. eapply has_int_fun; eauto.
          -- intros [|[|[|[|k]]]] L; simpl in L; try lia; cbn [nth]; auto. destruct (all_kept_dec pl n); [left; auto|right; apply DW; auto].
      + (* others *)
        assert (E0 : dirs_of r (n, "weight"%string) = []) by (apply cempty_dirs; intros d J; apply DW in J as [(K & _)|(K & _)]; auto).
        rewrite E0 in Fw. injection Fw as <-.
        exists w, gr, C, [kh; kw], w, gr. split; [eapply has_weight_get; eauto|]. split; auto. split; auto. split; [apply has_int_attr; auto|]. split; auto.
        split; [destruct (int_after m m' r X _ _ _ Hgr) as [[_ E]|[(u & M) _]]; auto; exfalso; apply (cmods_wanted nd) in M as [M|[M|M]]; auto; no_op nd; auto|].
        split; [intro; discriminate|]. right; right. split; auto. split; auto. split; auto. apply cno_dirs_opt. apply cempty_dirs. intros d J. apply (cdirs_wanted nd) in J as [J|[J|J]]; auto; no_op nd; auto.
    - destruct (n_in nd) as [|i [|? ?]] eqn:Ei; try (destruct F; fail).
      destruct F as (w & F & Hw & Hk & Kn & HF & Cases). destruct (get_after m m' r X _ _ (has_weight_get _ _ _ _ Hw)) as (w' & Hw' & Fw). pose proof Hw as (_ & Sw & Ww).
      exists w, F, w'. split; [eapply has_weight_get; eauto|]. split; auto. split; auto. split; [|split; auto].
      + apply cno_dirs_opt. apply cempty_dirs. intros d J. apply (cdirs_wanted nd) in J as [J|[J|J]]; auto; no_op nd; auto.
      + destruct (all_kept_dec pl i) as [Ki|Ki].
        * left. split; auto. rewrite cempty_dirs in Fw; [injection Fw as <-; auto|]. intros d J. apply (cdirs_wanted nd) in J as [J|[J|J]]; auto; no_op nd; auto.
        * right. right. destruct Cases as [(? & _)|(EF & NZ)]; [contradiction|]. split; auto. split; auto. split; auto. split.
          -- rewrite (data_match w (dirs_of r (n, "weight"%string)) [seq 0 (chans pl n); keep pl i]) in Fw; auto.
             ++ injection Fw as <-. rewrite Sw, EF. unfold wf_nd in Ww. rewrite Sw, EF in Ww. apply lin_sel; auto. apply FP.
             ++ rewrite Sw. split; [apply cdirs_nodup|]. split; auto. split; [|split].
                ** intros [|[|k]] L; simpl in L; try lia; cbn [nth]; rewrite ?EF; [apply index_set_seq|apply FP].
                ** intros d J. exists 1. split; [simpl; lia|]. cbn [nth]. apply (cdirs_wanted nd) in J as [J|[J|J]]; auto; no_op nd; auto.
                ** intros [|[|k]] L; simpl in L; try lia; cbn [nth]; auto. right. apply cdirs_wanted; auto. right; left. apply ci_lin; auto.
          -- intros o c Lo (Lc & Nc). apply (proj1 (not_nonzero_input w c)); [|rewrite Sw; auto]. intro Hn. apply Nc. apply NZ; [lia|auto].
    - destruct (n_in nd) as [|i [|? ?]] eqn:Ei; try (destruct F; fail).
      destruct F as (w & b & mean & var & Hw & Hb & Sb & Hk & Hm & Hv & Sc). assert (Bn : is_bn (n_op nd)) by (rewrite Op; simpl; auto).
      destruct (cbn_vec nd w "weight" I Bn (or_introl eq_refl)) as (w' & Hw' & Vw); [apply Hw|eapply has_weight_get; eauto|].
      destruct (cbn_vec nd b "bias" I Bn (or_intror eq_refl) Sb) as (b' & Hb' & Vb); [eapply bias_get; eauto|].
      destruct (cbn_ten nd "running_mean" mean I Bn (or_introl eq_refl) Hm) as (mean' & Hm' & Vm).
      destruct (cbn_ten nd "running_var" var I Bn (or_intror eq_refl) Hv) as (var' & Hv' & Vv).
      exists w, b, mean, var, w', b', mean', var'. split; [eapply has_weight_get; eauto|]. split; [eapply bias_get; eauto|]. split; [eapply has_tensor_get; eauto|]. split; [eapply has_tensor_get; eauto|].
      repeat (split; [auto; fail|]). intro; discriminate.
    - destruct (n_in nd) as [|i [|? ?]]; try (destruct F; fail). destruct F as (A & B & [C|C]); split; auto. split; auto. right. split; auto. intro; discriminate.
    - destruct (n_in nd) as [|i [|j [|? ?]]]; try (destruct F; fail). auto.
    - destruct F as (A & B & C & D). auto.
  Qed.
End Channels.
