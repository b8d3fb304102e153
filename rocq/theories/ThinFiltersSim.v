(** C24: the network thinned by [remove_filters] satisfies the conditions of the simulation. *)
From Coq Require Import String List ZArith QArith Bool Arith Lia.
From Verif Require Import Base Lists StructModel ThinModel ThinSpec ThinProofs ThinExecProofs PropertiesThin ThinRecipeProofs ThinNetSpec ThinSimProofs ThinGraphProofs ThinFiltersProofs ThinDataProofs.
Import ListNotations.
Local Open Scope nat_scope.

(** what execution yields *)
Definition executed (m m' : mstate) (r : recipe) : Prop :=
  (forall k, match pget (ms_params m) k with
            | Some p => exists p', pget (ms_params m') k = Some p' /\ foldM thin_data (dirs_of r k) (p_data p) = Ok (p_data p')
            | None => pget (ms_params m') k = None
            end) /\
  forall n x, dget (ms_mods m) n = Some x -> exists x', dget (ms_mods m') n = Some x' /\ forall a, attr_after r x n a (dget (m_attrs x') a).
Lemma executed_empty m : executed m m empty_recipe.
Proof.
  split.
  - intro k. destruct (pget (ms_params m) k) as [p|]; auto. exists p. auto.
  - intros n x H. exists x. split; auto. intro a. split; auto. intros v (md & E & _). discriminate.
Qed.
Lemma apply_executed junk opt m masks saved r wanted mwanted m' masks' saved' : sound wanted mwanted r ->
  (forall n a v, mhas r n a v -> exists x, dget (ms_mods m) n = Some x /\ good_mdir (m_attrs x) (a, v)) ->
  apply_and_save junk opt m masks saved r = Ok (m', masks', saved') -> executed m m' r.
Proof.
  intros S G H. unfold apply_and_save in H.
  assert (X : forall s, exec_recipe junk opt false m masks r = Ok s -> executed m (fst s) r).
  { intros [m1 ms1] E. apply exec_recipe_data in E as [A B]; [|apply S]. split; auto. cbn [fst]. intros n x Hx. eapply exec_modules_after; eauto. }
  destruct (r_mods r) eqn:Em; [destruct (r_params r) eqn:Ep|].
  - injection H as <- <- <-. destruct r as [a b]. simpl in Em, Ep. subst. apply executed_empty.
  - destruct (exec_recipe junk opt false m masks r) as [s|] eqn:E; [|discriminate]. cbn [bind] in H. injection H as <- <- <-. auto.
  - destruct (exec_recipe junk opt false m masks r) as [s|] eqn:E; [|discriminate]. cbn [bind] in H. injection H as <- <- <-. auto.
Qed.
Section Executed.
  Variables (m m' : mstate) (r : recipe).
  Hypothesis X : executed m m' r.
  Lemma get_after k w : get_param m k = Ok w -> exists w', get_param m' k = Ok w' /\ foldM thin_data (dirs_of r k) w = Ok w'.
  Proof.
    unfold get_param. pose proof (proj1 X k) as H. destruct (pget (ms_params m) k) as [p|]; [|discriminate]. intros [= <-]. destruct H as (p' & -> & F). exists (p_data p'). auto.
  Qed.
  Lemma opt_none k : opt_param m k = None -> opt_param m' k = None.
  Proof. unfold opt_param. pose proof (proj1 X k) as H. destruct (pget (ms_params m) k) as [p|]; [discriminate|]. intros _. rewrite H. auto. Qed.
  Lemma opt_some k w : opt_param m k = Some w -> exists w', opt_param m' k = Some w' /\ foldM thin_data (dirs_of r k) w = Ok w'.
  Proof. unfold opt_param. pose proof (proj1 X k) as H. destruct (pget (ms_params m) k) as [p|]; [|discriminate]. intros [= <-]. destruct H as (p' & -> & F). exists (p_data p'). auto. Qed.
  Lemma int_after n a v : has_int m n a v ->
    (forall u, ~ mhas r n a u) /\ int_attr m' n a = Ok v \/ (exists u, mhas r n a u) /\ (forall u, mhas r n a (MSet u) -> int_attr m' n a = Ok u).
  Proof.
    intros (x & Hx & Ha). destruct (proj2 X n x Hx) as (x' & Hx' & A). specialize (A a). destruct A as [A B]. unfold int_attr, lookup. rewrite Hx'. cbn [bind].
    destruct (dget (r_mods r) n) as [md|] eqn:E1; [destruct (dget md a) as [v'|] eqn:E2|].
    - right. split; [exists v', md; auto|]. intros u Hu. rewrite (A _ Hu). reflexivity.
    - assert (N : forall u, ~ mhas r n a u) by (intros u (md' & H1 & H2); congruence). left. split; auto. rewrite (B N), Ha. auto.
    - assert (N : forall u, ~ mhas r n a u) by (intros u (md' & H1 & H2); congruence). left. split; auto. rewrite (B N), Ha. auto.
  Qed.
  Lemma ten_after n a sh t : has_tensor m n a sh t ->
    (forall u, ~ mhas r n a u) /\ ten_attr m' n a = Ok t \/ (exists u, mhas r n a u) /\ (forall dim idx, mhas r n a (MSel dim idx) -> ten_attr m' n a = Ok (cut sh [D2 dim idx] (nd_data t))).
  Proof.
    intros ((x & Hx & Ha) & S & W). destruct (proj2 X n x Hx) as (x' & Hx' & A). specialize (A a). destruct A as [A B]. unfold ten_attr, lookup. rewrite Hx'. cbn [bind].
    destruct (dget (r_mods r) n) as [md|] eqn:E1; [destruct (dget md a) as [v'|] eqn:E2|].
    - right. split; [exists v', md; auto|]. intros dim idx Hu. rewrite (A _ Hu). unfold new_attr. cbn [fst snd]. rewrite Ha, S. reflexivity.
    - assert (N : forall u, ~ mhas r n a u) by (intros u (md' & H1 & H2); congruence). left. split; auto. rewrite (B N), Ha. auto.
    - assert (N : forall u, ~ mhas r n a u) by (intros u (md' & H1 & H2); congruence). left. split; auto. rewrite (B N), Ha. auto.
  Qed.
End Executed.
Lemma has_weight_get m n sh w : has_weight m n sh w -> get_param m (n, "weight"%string) = Ok w.
Proof. intros ((p & H & <-) & _). unfold get_param. rewrite H. auto. Qed.
Lemma bias_get m n b : bias_of m n b -> get_param m (n, "bias"%string) = Ok b.
Proof. intros (p & H & <-). unfold get_param. rewrite H. auto. Qed.
Lemma bias_opt m n b : opt_param m (n, "bias"%string) = Some b <-> bias_of m n b.
Proof. unfold opt_param, bias_of. destruct (pget (ms_params m) (n, "bias"%string)) as [p|]; simpl; split; [intros [= <-]; eauto|intros (q & [= <-] & <-); auto|discriminate|intros (q & ? & _); discriminate]. Qed.
Lemma has_bias_opt m n : has_bias m n = true <-> exists b, bias_of m n b.
Proof. unfold has_bias, bias_of. destruct (pget (ms_params m) (n, "bias"%string)) as [p|]; split; eauto; try discriminate. intros (b & q & ? & _). discriminate. Qed.
Lemma has_tensor_get m n a sh t : has_tensor m n a sh t -> ten_attr m n a = Ok t.
Proof. intros ((x & H & A) & _). unfold ten_attr, lookup. rewrite H. cbn [bind]. rewrite A. auto. Qed.

Lemma all_zero_dec l : all_zero l \/ ~ all_zero l.
Proof. destruct (Qeq_dec (l1_norm l) 0) as [E|E]; [left; apply l1_zero; auto|right; rewrite <- l1_zero; auto]. Qed.
Lemma index_seq_nth sh k : index_set (nth k sh 0) (seq 0 (nth k sh 0)). Proof. apply index_set_seq. Qed.

Section Filters.
  Variables (rs : Q -> Q) (m m' : mstate) (net : list node) (pl : plan) (r : recipe).
  Hypothesis FP : filters_plan_ok rs m net pl.
  Hypothesis REC : recipe_filters m (graph_of net) = Ok r.
  Hypothesis X : executed m m' r.

  Lemma dirs_nodup k : NoDup (dirs_of r k).
  Proof.
    destruct (recipe_complete rs m net pl FP r REC) as (S & _). unfold dirs_of. destruct (pget (r_params r) k) eqn:E; [|constructor]. apply (so_params _ _ _ S k). auto.
  Qed.
  Lemma dirs_wanted nd leaf d : In nd net -> In d (dirs_of r (n_name nd, leaf)) <-> (own_dir m pl nd (n_name nd, leaf) d \/ cons_dir m pl nd (n_name nd, leaf) d \/ bn_dir pl nd (n_name nd, leaf) d).
  Proof.
    intro I. destruct (recipe_complete rs m net pl FP r REC) as (S & F & _). specialize (F (n_name nd, leaf) d). unfold dirs_of.
    assert (E : In d (dirs_of r (n_name nd, leaf)) <-> has r (n_name nd, leaf) d).
    { unfold dirs_of, has. destruct (pget (r_params r) (n_name nd, leaf)) as [ds|]; [|split; [intros []|intros (? & ? & _); discriminate]]. split; [eauto|]. intros (ds' & [= <-] & J). auto. }
    unfold dirs_of in E. rewrite E, <- F. split.
    - intros (nd' & I' & H). assert (En : n_name nd = n_name nd') by (destruct H as [H|[H|H]]; inversion H; auto).
      apply (same_node net) in En; auto; [|apply net_names; apply FP]. subst nd'. auto.
    - intro H. exists nd. auto.
  Qed.
  Lemma mods_wanted nd a v : In nd net -> mhas r (n_name nd) a v <-> (own_attr pl nd a v \/ cons_attr m pl nd a v \/ bn_attr pl nd a v).
  Proof.
    intro I. destruct (recipe_complete rs m net pl FP r REC) as (S & _ & F). rewrite <- F. split.
    - intros (nd' & I' & En & H). apply (same_node net) in En; auto; [|apply net_names; apply FP]. subst nd'. auto.
    - intro H. exists nd. auto.
  Qed.

  Ltac no_op nd := repeat match goal with
    | H : own_dir _ _ nd _ _ |- _ => inversion H; subst; clear H
    | H : cons_dir _ _ nd _ _ |- _ => inversion H; subst; clear H
    | H : bn_dir _ nd _ _ |- _ => inversion H; subst; clear H
    | H : own_attr _ nd _ _ |- _ => inversion H; subst; clear H
    | H : cons_attr _ _ nd _ _ |- _ => inversion H; subst; clear H
    | H : bn_attr _ nd _ _ |- _ => inversion H; subst; clear H
    | A : n_op nd = _, B : is_conv (n_op nd) |- _ => rewrite A in B; simpl in B; try contradiction B; clear B
    | A : n_op nd = _, B : is_bn (n_op nd) |- _ => rewrite A in B; simpl in B; try contradiction B; clear B
    | A : n_op nd = _, B : n_op nd = OLinear |- _ => rewrite A in B; discriminate B
    | A : n_in nd = [?i], B : n_in nd = [?j] |- _ => rewrite A in B; injection B as <-
    end.

  Lemma conv_bias nd b : In nd net -> is_conv (n_op nd) -> of_shape [chans pl (n_name nd)] b -> opt_param m (n_name nd, "bias"%string) = Some b ->
    cut_bias (keep pl (n_name nd)) (Some b) (opt_param m' (n_name nd, "bias"%string)).
  Proof.
    intros I C Sb Hb. destruct (opt_some m m' r X _ _ Hb) as (b' & -> & F). simpl.
    destruct (vec_match (chans pl (n_name nd)) b (dirs_of r (n_name nd, "bias"%string)) (keep pl (n_name nd))) as (t' & F' & V); auto.
    - split; [apply dirs_nodup|]. split; auto. split; [intros [|k] L; simpl in *; [apply FP|lia]|]. split.
      + intros d J. apply dirs_wanted in J; auto. exists 0. split; [simpl; lia|]. cbn [nth]. destruct J as [J|[J|J]]; inversion J; subst; auto.
      + intros [|k] L; simpl in L; [|lia]. cbn [nth]. destruct (all_kept_dec pl (n_name nd)) as [K|K]; [left; exact K|right]. apply dirs_wanted; auto. left. apply od_bias; auto.
        apply has_bias_opt. exists b. apply bias_opt; auto.
    - rewrite F in F'. injection F' as <-. exact V.
  Qed.
  Lemma conv_bias_any nd : In nd net -> is_conv (n_op nd) -> (forall b, bias_of m (n_name nd) b -> of_shape [chans pl (n_name nd)] b) ->
    cut_bias (keep pl (n_name nd)) (opt_param m (n_name nd, "bias"%string)) (opt_param m' (n_name nd, "bias"%string)).
  Proof.
    intros I C H. destruct (opt_param m (n_name nd, "bias"%string)) as [b|] eqn:E; [apply conv_bias; auto; apply H; apply bias_opt; auto|]. rewrite (opt_none m m' r X _ E). exact Logic.I.
  Qed.
  Lemma no_dirs k w : dirs_of r k = [] -> get_param m k = Ok w -> get_param m' k = Ok w.
  Proof. intros E H. destruct (get_after m m' r X k w H) as (w' & A & F). rewrite E in F. injection F as <-. auto. Qed.
  Lemma no_dirs_opt k : dirs_of r k = [] -> opt_param m' k = opt_param m k.
  Proof. intros E. destruct (opt_param m k) as [w|] eqn:H; [|eapply opt_none; eauto]. destruct (opt_some m m' r X k w H) as (w' & A & F). rewrite E in F. injection F as <-. auto. Qed.
  Lemma empty_dirs k : (forall d, ~ In d (dirs_of r k)) -> dirs_of r k = [].
  Proof. destruct (dirs_of r k) as [|d l]; auto. intro H. exfalso. apply (H d). left; auto. Qed.

  Lemma bn_vec nd b leaf : In nd net -> is_bn (n_op nd) -> leaf = "weight"%string \/ leaf = "bias"%string -> of_shape [chans pl (n_name nd)] b -> get_param m (n_name nd, leaf) = Ok b ->
    exists b', get_param m' (n_name nd, leaf) = Ok b' /\ cut_vec (keep pl (n_name nd)) b b'.
  Proof.
    intros I C L Sb Hb. destruct (get_after m m' r X _ _ Hb) as (b' & Hb' & F). exists b'. split; auto.
    destruct (vec_match (chans pl (n_name nd)) b (dirs_of r (n_name nd, leaf)) (keep pl (n_name nd))) as (t' & F' & V); auto.
    - split; [apply dirs_nodup|]. split; auto. split; [intros [|k] Lk; simpl in *; [apply FP|lia]|]. split.
      + intros d J. apply dirs_wanted in J; auto. exists 0. split; [simpl; lia|]. cbn [nth]. destruct J as [J|[J|J]]; inversion J; subst; auto; exfalso.
        * destruct (n_op nd); simpl in *; contradiction.
        * match goal with A : n_op nd = _ |- _ => rewrite A in C end. contradiction.
      + intros [|k] Lk; simpl in Lk; [|lia]. cbn [nth]. destruct (all_kept_dec pl (n_name nd)) as [K|K]; [left; exact K|right]. apply dirs_wanted; auto. right; right. constructor; auto.
    - rewrite F in F'. injection F' as <-. exact V.
  Qed.
  Lemma bn_ten nd a t : In nd net -> is_bn (n_op nd) -> a = "running_mean"%string \/ a = "running_var"%string -> has_tensor m (n_name nd) a [chans pl (n_name nd)] t ->
    exists t', ten_attr m' (n_name nd) a = Ok t' /\ cut_vec (keep pl (n_name nd)) t t'.
  Proof.
    intros I C L Ht. pose proof Ht as (_ & S & W). unfold wf_nd in W. rewrite S in W. pose proof (fp_keep _ _ _ _ FP (n_name nd)) as (KX & _).
    destruct (ten_after m m' r X _ _ _ _ Ht) as [[N E]|[(u & M) E]].
    - exists t. split; auto. destruct (all_kept_dec pl (n_name nd)) as [K|K].
      + unfold cut_vec. rewrite K. rewrite <- (sel_vec (chans pl (n_name nd))) by (try (rewrite W; simpl; lia); intros j J; apply in_seq in J; lia).
        change ([seq 0 (chans pl (n_name nd))]) with (full [chans pl (n_name nd)]). rewrite sel_all_full; auto.
      + exfalso. apply (N (MSel 0 (keep pl (n_name nd)))). apply mods_wanted; auto. right; right. constructor; auto.
    - apply mods_wanted in M as [M|[M|M]]; auto.
      + exfalso. inversion M. destruct (n_op nd); simpl in *; contradiction.
      + exfalso. inversion M; subst; try (destruct (n_op nd); simpl in *; contradiction). match goal with A : n_op nd = _ |- _ => rewrite A in C end. contradiction.
      + inversion M as [? K|? ? K]; subst; [destruct L; discriminate|]. rewrite (E 0 (keep pl (n_name nd))) by (apply mods_wanted; auto; right; right; constructor; auto).
        eexists. split; [reflexivity|]. unfold cut_vec, cut. cbn [nd_data]. change (Ks [chans pl (n_name nd)] [D2 0 (keep pl (n_name nd))]) with [keep pl (n_name nd)].
        apply sel_vec; [rewrite W; simpl; lia|]. intros. eapply index_set_lt; eauto.
  Qed.

  Lemma filters_sim nd : In nd net -> sim_node true rs m m' pl nd.
  Proof.
    intro I. pose proof (fp_nodes _ _ _ _ FP nd I) as F. unfold filters_ok in F. unfold sim_node. set (n := n_name nd) in *.
    destruct (n_op nd) as [ge| | |f| |f] eqn:Op.
    - destruct (n_in nd) as [|i [|? ?]] eqn:Ei; try (destruct F; fail).
      destruct F as (w & gr & C & kh & kw & Hw & Hk & Hic & Hoc & Hgr & HC & Hb & Cases). assert (Cn : is_conv (n_op nd)) by (rewrite Op; simpl; auto).
      destruct (get_after m m' r X _ _ (has_weight_get _ _ _ _ Hw)) as (w' & Hw' & Fw). pose proof Hw as (_ & Sw & Ww).
      assert (ZB : zero_bias pl n (opt_param m (n, "bias"%string))). { intros c R. unfold bias_at. destruct (opt_param m (n, "bias"%string)) as [b|] eqn:Eb; [|reflexivity]. apply bias_opt in Eb. apply (Hb b Eb); auto. }
      assert (CB : cut_bias (keep pl n) (opt_param m (n, "bias"%string)) (opt_param m' (n, "bias"%string))) by (apply conv_bias_any; auto; intros; apply Hb; auto).
      assert (DW : forall d, In d (dirs_of r (n, "weight"%string)) <-> (~ all_kept pl n /\ d = D2 0 (keep pl n)) \/ (~ all_kept pl i /\ has_int m n "groups" 1 /\ d = D2 1 (keep pl i))).
      { intro d. unfold n. rewrite (dirs_wanted nd "weight" d I). fold n. split.
        - intros [H|[H|H]]; no_op nd; auto.
        - intros [[K ->]|(K & G & ->)]; [left; apply od_weight; auto|right; left; eapply cd_conv; eauto]. }
      pose proof (fp_keep _ _ _ _ FP n) as (KX & KN). pose proof (fp_keep _ _ _ _ FP i) as (KXi & KNi).
      destruct Cases as [(-> & NZ)|[(Ng & -> & Sc & _)|(Ng & Kn & Ki & _)]].
      + (* ordinary *)
        exists w, 1, C, [kh; kw], w', 1. split; [eapply has_weight_get; eauto|]. split; auto. split; auto. split; [apply has_int_attr; auto|]. split; auto.
        split; [destruct (int_after m m' r X _ _ _ Hgr) as [[_ E]|[(u & M) _]]; auto; exfalso; apply (mods_wanted nd) in M as [M|[M|M]]; auto; no_op nd; match goal with A : has_int m _ _ ?g, B : ?g <> 1 |- _ => apply B; eapply has_int_fun; eauto end|].
        split; auto. left. split; auto. split; auto. assert (EC : C = chans pl i) by lia. split; auto. split; [|split; [auto|split; [|intro; discriminate]]].
        * rewrite (data_match w (dirs_of r (n, "weight"%string)) [keep pl n; keep pl i; seq 0 kh; seq 0 kw]) in Fw; auto.
          -- injection Fw as <-. unfold cut_w. cbn [map full]. rewrite !seq_length. reflexivity.
          -- rewrite Sw. split; [apply dirs_nodup|]. split; auto. split; [|split].
             ++ intros [|[|[|[|k]]]] L; simpl in L; try lia; cbn [nth]; rewrite ?EC; auto; apply index_set_seq.
             ++ intros d J. apply DW in J as [(_ & ->)|(_ & _ & ->)]; [exists 0|exists 1]; simpl; split; auto; lia.
             ++ intros [|[|[|[|k]]]] L; simpl in L; try lia; cbn [nth]; auto.
                ** destruct (all_kept_dec pl n); [left; auto|right; apply DW; auto].
                ** rewrite EC. destruct (all_kept_dec pl i); [left; auto|right; apply DW; auto].
        * intros _ o (Lo & No) v Iv. assert (Z : all_zero (filter_of w o)); [|apply Z; auto].
          destruct (all_zero_dec (filter_of w o)) as [|NZo]; auto. exfalso. apply No. apply NZ; auto.
      + (* depth-wise *)
        exists w, gr, 1, [kh; kw], w', (length (keep pl n)). split; [eapply has_weight_get; eauto|]. split; auto. split; auto. split; [apply has_int_attr; auto|]. split; auto.
        assert (Eg : gr = chans pl n) by (destruct Sc; lia).
        split.
        { destruct (int_after m m' r X _ _ _ Hgr) as [[N E]|[(u & M) E]].
          - rewrite E. f_equal. destruct (all_kept_dec pl i) as [K|K].
            + rewrite (proj2 Sc), K, seq_length. destruct Sc; lia.
            + exfalso. apply (N (MSet (length (keep pl i)))). apply mods_wanted; auto. right; left. eapply ca_groups; eauto.
          - apply (mods_wanted nd) in M as [M|[M|M]]; auto; no_op nd. rewrite (proj2 Sc). apply E. apply mods_wanted; auto. right; left. eapply ca_groups; eauto; rewrite Op; exact Logic.I. }
        split; auto. right; left. split; auto. split; auto. split; auto. split; auto. split; auto.
        rewrite (data_match w (dirs_of r (n, "weight"%string)) [keep pl n; [0]; seq 0 kh; seq 0 kw]) in Fw; auto.
        * injection Fw as <-. unfold cut_w. cbn [map full]. rewrite !seq_length. reflexivity.
        * rewrite Sw. split; [apply dirs_nodup|]. split; auto. split; [|split].
          -- intros [|[|[|[|k]]]] L; simpl in L; try lia; cbn [nth]; auto; try apply index_set_seq; apply (index_set_seq 1).
          -- intros d J. apply DW in J as [(_ & ->)|(_ & G & _)]; [exists 0; simpl; split; auto; lia|]. exfalso. apply Ng. eapply has_int_fun; eauto.
          -- intros [|[|[|[|k]]]] L; simpl in L; try lia; cbn [nth]; auto. destruct (all_kept_dec pl n); [left; auto|right; apply DW; auto].
      + (* others *)
        assert (E0 : dirs_of r (n, "weight"%string) = []) by (apply empty_dirs; intros d J; apply DW in J as [(K & _)|(K & _)]; auto).
        rewrite E0 in Fw. injection Fw as <-.
        exists w, gr, C, [kh; kw], w, gr. split; [eapply has_weight_get; eauto|]. split; auto. split; auto. split; [apply has_int_attr; auto|]. split; auto.
        split; [destruct (int_after m m' r X _ _ _ Hgr) as [[_ E]|[(u & M) _]]; auto; exfalso; apply (mods_wanted nd) in M as [M|[M|M]]; auto; no_op nd; auto|].
        split; auto. right; right. split; auto. split; auto. split; auto. apply no_dirs_opt. apply empty_dirs. intros d J. apply (dirs_wanted nd) in J as [J|[J|J]]; auto; no_op nd; auto.
    - destruct (n_in nd) as [|i [|? ?]] eqn:Ei; try (destruct F; fail).
      destruct F as (w & F & Hw & Hk & Hif & Hof & Hb & Kn & Cases). destruct (get_after m m' r X _ _ (has_weight_get _ _ _ _ Hw)) as (w' & Hw' & Fw). pose proof Hw as (_ & Sw & Ww).
      exists w, F, w'. split; [eapply has_weight_get; eauto|]. split; auto. split; auto. split; [|split; auto].
      + apply no_dirs_opt. apply empty_dirs. intros d J. apply (dirs_wanted nd) in J as [J|[J|J]]; auto; no_op nd; auto.
      + destruct (all_kept_dec pl i) as [Ki|Ki].
        * left. split; auto. rewrite empty_dirs in Fw; [injection Fw as <-; auto|]. intros d J. apply (dirs_wanted nd) in J as [J|[J|J]]; auto; no_op nd; auto.
        * right. left. split; auto. split; auto. destruct Cases as [|(h & Hh & EF)]; [contradiction|]. exists (h * h). split; auto.
          assert (D1 : forall d, In d (dirs_of r (n, "weight"%string)) <-> d = D4 1 (keep pl i) [chans pl n; chans pl i; h; h] [chans pl n; h * h * length (keep pl i)]).
          { intro d. unfold n. rewrite (dirs_wanted nd "weight" d I). fold n. split.
            - intros [H|[H|H]]; no_op nd. match goal with A : has_int m _ _ (_ * (?h0 * ?h0)) |- _ => pose proof (has_int_fun _ _ _ _ _ Hif A) as Eh; rewrite ?EF in Eh; apply square_inj in Eh; [subst h0|apply (chans_pos rs m net pl FP)] end. reflexivity.
            - intros ->. right; left. eapply cd_lin; eauto. rewrite <- EF. auto. }
          assert (DS : dirs_of r (n, "weight"%string) = [D4 1 (keep pl i) [chans pl n; chans pl i; h; h] [chans pl n; h * h * length (keep pl i)]]).
          { pose proof (dirs_nodup (n, "weight"%string)) as ND. destruct (dirs_of r (n, "weight"%string)) as [|d1 [|d2 l]].
            - destruct (proj2 (D1 _) eq_refl).
            - rewrite (proj1 (D1 d1)) by (left; auto). auto.
            - exfalso. inversion ND as [|? ? N1 _]. apply N1. left. rewrite (proj1 (D1 d1)), (proj1 (D1 d2)) by (simpl; auto). auto. }
          rewrite DS in Fw. rewrite lin_match in Fw; [injection Fw as <-; auto|split; auto; rewrite <- EF; auto|auto|apply (chans_pos rs m net pl FP)|apply FP|auto].
    - destruct (n_in nd) as [|i [|? ?]] eqn:Ei; try (destruct F; fail).
      destruct F as (w & b & mean & var & Hw & Hb & Sb & Hk & Hm & Hv & Sc & Z). assert (Bn : is_bn (n_op nd)) by (rewrite Op; simpl; auto).
      destruct (bn_vec nd w "weight" I Bn (or_introl eq_refl)) as (w' & Hw' & Vw); [apply Hw|eapply has_weight_get; eauto|].
      destruct (bn_vec nd b "bias" I Bn (or_intror eq_refl) Sb) as (b' & Hb' & Vb); [eapply bias_get; eauto|].
      destruct (bn_ten nd "running_mean" mean I Bn (or_introl eq_refl) Hm) as (mean' & Hm' & Vm).
      destruct (bn_ten nd "running_var" var I Bn (or_intror eq_refl) Hv) as (var' & Hv' & Vv).
      exists w, b, mean, var, w', b', mean', var'. split; [eapply has_weight_get; eauto|]. split; [eapply bias_get; eauto|]. split; [eapply has_tensor_get; eauto|]. split; [eapply has_tensor_get; eauto|].
      repeat (split; [auto; fail|]). intros _ c R. apply Z; auto.
    - destruct (n_in nd) as [|i [|? ?]]; try (destruct F; fail). destruct F as (A & B & [C|[C D]]); split; auto.
    - destruct (n_in nd) as [|i [|j [|? ?]]]; try (destruct F; fail). auto.
    - destruct F as (A & B & C & D). auto.
  Qed.
End Filters.
