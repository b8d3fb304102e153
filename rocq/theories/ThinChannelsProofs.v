(** C24: the recipe for removing zero channels contains exactly the directives of the plan. *)
From Coq Require Import String List ZArith QArith Bool Arith Lia Lqa.
From Verif Require Import Base Lists StructModel ThinModel ThinSpec ThinProofs ThinExecProofs ThinSearchProofs PropertiesGraph ThinNetSpec ThinGraphProofs ThinRecipeProofs ThinFiltersProofs.
Import ListNotations.
Local Open Scope nat_scope.

(** * Zero channels *)
Lemma zero_dec l : all_zero l \/ ~ all_zero l.
Proof. destruct (Qeq_dec (l1_norm l) 0) as [E|E]; [left; apply l1_zero; auto|right; rewrite <- l1_zero; auto]. Qed.
Lemma not_nonzero_input w c : ~ nonzero_input w c <-> forall o, o < nth 0 (nd_shape w) 0 -> all_zero (kernel_of w o c).
Proof.
  split.
  - intros N o L. destruct (zero_dec (kernel_of w o c)) as [|Z]; auto. exfalso. apply N. exists o. auto.
  - intros H (o & L & Z). apply Z. auto.
Qed.
Lemma nonzero_input_dec w c : nonzero_input w c \/ ~ nonzero_input w c.
Proof.
  destruct (zero_dec (flat_map (fun o => kernel_of w o c) (seq 0 (nth 0 (nd_shape w) 0)))) as [Z|Z].
  - right. apply not_nonzero_input. intros o L v I. apply Z. apply in_flat_map. exists o. split; auto. apply in_seq. lia.
  - left. destruct (forallb (fun o => Qeq_bool (l1_norm (kernel_of w o c)) 0) (seq 0 (nth 0 (nd_shape w) 0))) eqn:E.
    + exfalso. apply Z. intros v I. apply in_flat_map in I as (o & J & I). rewrite forallb_forall in E. specialize (E o J). apply Qeq_bool_iff, l1_zero in E. apply E; auto.
    + apply Bool.not_true_iff_false in E. rewrite forallb_forall in E.
      assert (X : exists o, In o (seq 0 (nth 0 (nd_shape w) 0)) /\ Qeq_bool (l1_norm (kernel_of w o c)) 0 = false).
      { clear Z. induction (seq 0 (nth 0 (nd_shape w) 0)) as [|a l IH]; [exfalso; apply E; intros ? []|]. destruct (Qeq_bool (l1_norm (kernel_of w a c)) 0) eqn:Ea; [|exists a; split; [left|]; auto].
        destruct IH as (o & A & B); [intro H; apply E; intros o [<-|I]; auto|]. exists o. split; [right|]; auto. }
      destruct X as (o & I & N). exists o. apply in_seq in I. split; [lia|]. intro Z'. apply l1_zero in Z'. apply Qeq_bool_iff in Z'. congruence.
Qed.
Definition sums_of (t : nd) : list Q := if Nat.eqb (ndim t) 2 then column_sums t else channel_sums t.
Lemma slice_one (d : list Q) j : j < length d -> slice 1 j d = [nth j d 0%Q].
Proof. unfold slice. rewrite Nat.mul_1_r. revert j. induction d as [|a d IH]; intros [|j] L; simpl in *; try lia; auto. apply IH. lia. Qed.
Lemma sums_zero w O_ C ks c : nd_shape w = O_ :: C :: ks -> ks = [] \/ length ks = 2 -> wf_nd w -> c < C ->
  (nth c (sums_of w) 0 == 0)%Q <-> ~ nonzero_input w c.
Proof.
  intros S Hk W L. rewrite not_nonzero_input. rewrite S. cbn [nth]. unfold sums_of, ndim. rewrite S. unfold wf_nd in W. rewrite S in W.
  change (numel (O_ :: C :: ks)) with (O_ * (C * numel ks)) in W.
  assert (K : forall o, kernel_of w o c = slice (numel ks) c (slice (C * numel ks) o (nd_data w))) by (intro o; unfold kernel_of, filter_of; rewrite S; reflexivity).
  destruct Hk as [->|Hk].
  - cbn [length Nat.eqb]. unfold column_sums. rewrite S. cbn [nth]. change (numel []) with 1 in *. rewrite nth_indep with (d' := l1_norm (col O_ C (nd_data w) 0)) by (rewrite map_length, seq_length; auto).
    rewrite (map_nth (fun j => l1_norm (col O_ C (nd_data w) j))). rewrite seq_nth by auto. simpl (0 + c). rewrite l1_zero.
    assert (E : forall o, o < O_ -> kernel_of w o c = [nth (o * C + c) (nd_data w) 0%Q]).
    { intros o Lo. rewrite K, Nat.mul_1_r. assert (Ls : length (slice C o (nd_data w)) = C) by (unfold slice; rewrite firstn_length, skipn_length; nia).
      rewrite slice_one by lia. f_equal. unfold slice. rewrite nth_firstn by lia. rewrite nth_skipn. reflexivity. }
    unfold col, tab. split.
    + intros H o Lo v I. rewrite E in I by auto. destruct I as [<-|[]]. apply H. apply in_map_iff. exists o. split; auto. apply in_seq. lia.
    + intros H v I. apply in_map_iff in I as (o & <- & I). apply in_seq in I. apply (H o); [lia|]. rewrite E by lia. left. auto.
  - destruct ks as [|kh [|kw [|? ?]]]; try discriminate. cbn [length Nat.eqb]. unfold channel_sums. rewrite S. cbn [nth skipn].
    set (f := fun j => l1_norm (flat_map (fun o => slice (numel [kh; kw]) j (slice (C * numel [kh; kw]) o (nd_data w))) (seq 0 O_))).
    rewrite nth_indep with (d' := f 0) by (rewrite map_length, seq_length; auto). rewrite (map_nth f). rewrite seq_nth by auto. simpl (0 + c). unfold f. rewrite l1_zero. split.
    + intros H o Lo v I. apply H. apply in_flat_map. exists o. split; [apply in_seq; lia|]. rewrite <- K. auto.
    + intros H v I. apply in_flat_map in I as (o & J & I). apply in_seq in J. apply (H o); [lia|]. rewrite K. auto.
Qed.
Lemma nonzero_inputs_keep w O_ C ks K : nd_shape w = O_ :: C :: ks -> ks = [] \/ length ks = 2 -> wf_nd w -> index_set C K -> (forall c, c < C -> (In c K <-> nonzero_input w c)) ->
  nonzero_rows (sums_of w) = K.
Proof.
  intros S Hk W I H. unfold nonzero_rows.
  assert (L : length (sums_of w) = C). { unfold sums_of, ndim. rewrite S. destruct Hk as [->|Hk]; [|destruct ks as [|? [|? [|? ?]]]; try discriminate]; cbn [length Nat.eqb]; [unfold column_sums|unfold channel_sums]; rewrite S; cbn [nth]; rewrite map_length, seq_length; auto. }
  rewrite L. apply index_set_filter; auto. intros c Lc. rewrite H by auto. pose proof (sums_zero w O_ C ks c S Hk W Lc) as Z. rewrite negb_true_iff.
  destruct (nonzero_input_dec w c) as [N|N].
  - split; auto. intros _. apply Bool.not_true_iff_false. rewrite Qeq_bool_iff, Z. tauto.
  - split; [tauto|]. intro E. exfalso. apply Bool.not_true_iff_false in E. apply E. apply Qeq_bool_iff. apply Z. auto.
Qed.

Section Plan.
  Variables (m : mstate) (net : list node) (pl : plan).
  Hypothesis CP : channels_plan_ok m net pl.
  Notation g := (graph_of net).
  Notation cv := (stops ["Conv"]%string).
  Notation bnorm := (stops ["BatchNormalization"]%string).

  Lemma cchans_pos n : 0 < chans pl n.
  Proof. destruct (cp_keep _ _ _ CP n) as [[kp E] N]. destruct (chans pl n); [simpl in E; congruence|lia]. Qed.
  Lemma cv_is op : cv op <-> is_conv op.
  Proof. unfold stops. destruct op; simpl; intuition discriminate. Qed.
  Lemma layer_is op : is_layer op <-> is_conv op \/ op = OLinear.
  Proof. destruct op; simpl; intuition discriminate. Qed.

  (** operations other than convolutions pass the channels on *)
  Lemma cpass nd i : In nd net -> ~ cv (n_op nd) -> ~ all_kept pl (n_name nd) -> In i (n_in nd) -> same_channels pl (n_name nd) i.
  Proof.
    intros I T K J. pose proof (cp_nodes _ _ _ CP nd I) as F. unfold channels_ok in F. rewrite cv_is in T.
    destruct (n_op nd) as [ge| | |f| |f] eqn:E; try (exfalso; apply T; simpl; auto; fail).
    - destruct (n_in nd) as [|i0 [|? ?]]; try (destruct F; fail). destruct F as (? & ? & ? & ? & F & _). contradiction.
    - destruct (n_in nd) as [|i0 [|? ?]]; try (destruct F; fail). destruct J as [<-|[]]. destruct F as (? & ? & ? & ? & F). apply F.
    - destruct (n_in nd) as [|i0 [|? ?]]; try (destruct F; fail). destruct J as [<-|[]]. apply F.
    - destruct (n_in nd) as [|i0 [|j0 [|? ?]]]; try (destruct F; fail). destruct J as [<-|[<-|[]]]; apply F.
    - destruct F as [F _]. contradiction.
  Qed.
  Lemma cflow a s i : thinned_input net pl s i -> flows net cv a (n_name s) -> same_channels pl a i.
  Proof.
    intros (Is & Ls & Ei & Ki) F.
    assert (G : forall x, flows net cv a x -> forall s, x = n_name s -> In s net -> exists i, In i (n_in s) /\ (~ all_kept pl i -> same_channels pl a i)).
    { clear F Is Ls Ei Ki s i. intros x F. induction F as [nd I J|nd' nd F IH I' T I J]; intros s E Is; apply (same_node net) in E; auto; try (apply net_names; apply CP); subst s.
      - exists a. split; auto. intros _. split; auto.
      - exists (n_name nd'). split; auto. intro K. destruct (IH nd' eq_refl I') as (i & Ii & S). pose proof (cpass nd' i I' T K Ii) as S'.
        assert (Ki : ~ all_kept pl i) by (rewrite <- (same_kept _ _ _ S'); auto). specialize (S Ki). unfold same_channels in *. destruct S, S'. split; congruence. }
    destruct (G _ F s eq_refl Is) as (j & Ij & S). rewrite Ei in Ij. destruct Ij as [<-|[]]. auto.
  Qed.

  (** the directives of the plan *)
  Inductive cin_dir (nd : node) : pname -> pdir -> Prop :=
  | ci_conv i : is_conv (n_op nd) -> n_in nd = [i] -> ~ all_kept pl i -> has_int m (n_name nd) "groups" 1 -> cin_dir nd (n_name nd, "weight"%string) (D2 1 (keep pl i))
  | ci_lin i : n_op nd = OLinear -> n_in nd = [i] -> ~ all_kept pl i -> cin_dir nd (n_name nd, "weight"%string) (D2 1 (keep pl i)).
  Inductive cout_attr (nd : node) : string -> mdir -> Prop :=
  | co_out : is_conv (n_op nd) -> ~ all_kept pl (n_name nd) -> cout_attr nd "out_channels" (MSet (length (keep pl (n_name nd))))
  | co_groups gr : is_conv (n_op nd) -> ~ all_kept pl (n_name nd) -> has_int m (n_name nd) "groups" gr -> gr <> 1 -> cout_attr nd "groups" (MSet (length (keep pl (n_name nd)))).
  Inductive cin_attr (nd : node) : string -> mdir -> Prop :=
  | ci_in i : is_layer (n_op nd) -> n_in nd = [i] -> ~ all_kept pl i -> cin_attr nd "in_channels" (MSet (length (keep pl i))).
  Definition cwanted (k : pname) (d : pdir) : Prop := exists nd, In nd net /\ (own_dir m pl nd k d \/ cin_dir nd k d \/ bn_dir pl nd k d).
  Definition cmwanted (n a : string) (v : mdir) : Prop := exists nd, In nd net /\ n = n_name nd /\ (cout_attr nd a v \/ cin_attr nd a v \/ bn_attr pl nd a v).

  Ltac clash := repeat match goal with
        | A : ?x = OLinear, B : is_conv ?x |- _ => rewrite A in B; destruct B
        | A : is_bn ?x, B : is_conv ?x |- _ => exfalso; destruct x; simpl in *; contradiction
        | A : is_bn ?x, B : is_layer ?x |- _ => exfalso; destruct x; simpl in *; contradiction
        | A : is_bn ?x, B : ?x = OLinear |- _ => rewrite B in A; destruct A
        | A : n_in ?nd = [?i], B : n_in ?nd = [?j] |- _ => rewrite A in B; injection B as <-
        | A : _ \/ _ |- _ => destruct A; try discriminate
        end.
  Lemma cmfun n a v v' : cmwanted n a v -> cmwanted n a v' -> v = v'.
  Proof.
    intros (nd & I & -> & H) (nd' & I' & E & H'). apply (same_node net) in E; auto; [|apply net_names; apply CP]. subst nd'.
    destruct H as [H|[H|H]], H' as [H'|[H'|H']]; inversion H; inversion H'; subst; auto; clash; auto; discriminate.
  Qed.
  Lemma cbn_wanted nd leaf d : In nd net -> is_bn (n_op nd) -> cwanted (n_name nd, leaf) d -> d = D2 0 (keep pl (n_name nd)).
  Proof.
    intros I B (nd' & I' & H).
    assert (E : n_name nd = n_name nd') by (destruct H as [H|[H|H]]; inversion H; auto). apply (same_node net) in E; auto; [|apply net_names; apply CP]. subst nd'.
    destruct H as [H|[H|H]]; inversion H; subst; auto; clash.
  Qed.
  Notation sound := (sound cwanted cmwanted).
  Notation good := (good cwanted cmwanted).

  Definition cin_done (r : recipe) (s : node) : Prop := (forall k d, cin_dir s k d -> has r k d) /\ (forall a v, cin_attr s a v -> mhas r (n_name s) a v).
  Definition cout_done (r : recipe) (s : node) : Prop := (forall k d, own_dir m pl s k d -> has r k d) /\ (forall a v, cout_attr s a v -> mhas r (n_name s) a v).
  Definition cbn_done (r : recipe) (s : node) : Prop := (forall k d, bn_dir pl s k d -> has r k d) /\ (forall a v, bn_attr pl s a v -> mhas r (n_name s) a v).
  Definition cstep_done (r : recipe) (nd : node) : Prop :=
    cin_done r nd /\
    (forall t, In t net -> cv (n_op t) -> flows net cv (n_name t) (n_name nd) -> cout_done r t) /\
    (forall b, In b net -> bnorm (n_op b) -> flows net bnorm (n_name b) (n_name nd) -> cbn_done r b).
  Lemma cin_grows r r' s : grows r r' -> cin_done r s -> cin_done r' s.
  Proof. intros [A B] [C D]. split; auto. Qed.
  Lemma cout_grows r r' s : grows r r' -> cout_done r s -> cout_done r' s.
  Proof. intros [A B] [C D]. split; auto. Qed.
  Lemma cbn_grows r r' s : grows r r' -> cbn_done r s -> cbn_done r' s.
  Proof. intros [A B] [C D]. split; auto. Qed.
  Lemma cstep_grows r r' nd : grows r r' -> cstep_done r nd -> cstep_done r' nd.
  Proof. intros G (A & B & C). split; [eapply cin_grows; eauto|]. split; intros; [eapply cout_grows|eapply cbn_grows]; eauto. Qed.

  (** chains of depth-wise convolutions, backwards *)
  Definition cdepthwise (t : node) : Prop := is_conv (n_op t) /\ exists gr i, has_int m (n_name t) "groups" gr /\ n_in t = [i] /\ gr <> 1.
  Inductive up_chain : node -> node -> Prop :=
  | up_refl n : up_chain n n
  | up_step n t s : In t net -> flows net cv (n_name t) (n_name n) -> cdepthwise t -> up_chain t s -> up_chain n s.

  Lemma cappend_bn_ok r b idx r' : In b net -> is_bn (n_op b) -> ~ all_kept pl (n_name b) -> idx = keep pl (n_name b) ->
    append_bn m r (n_name b) idx = Ok r' -> sound r -> good r r' /\ cbn_done r' b.
  Proof.
    intros I B K -> H S. unfold append_bn in H. inv_ok H. destruct (m_kind x); try discriminate. injection H as <-.
    assert (W : forall a v, bn_attr pl b a v -> cmwanted (n_name b) a v) by (intros a v A; exists b; auto).
    destruct (append_module_ok cwanted cmwanted cmfun r (n_name b) "num_features" (MSet (length (keep pl (n_name b)))) S) as [G1 H1]; [apply W; constructor; auto|].
    destruct (append_module_ok cwanted cmwanted cmfun _ (n_name b) "running_mean" (MSel 0 (keep pl (n_name b))) (proj1 G1)) as [G2 H2]; [apply W; constructor; auto|].
    destruct (append_module_ok cwanted cmwanted cmfun _ (n_name b) "running_var" (MSel 0 (keep pl (n_name b))) (proj1 G2)) as [G3 H3]; [apply W; constructor; auto|].
    destruct (set_param_ok cwanted cmwanted _ (n_name b, "weight"%string) (D2 0 (keep pl (n_name b))) (proj1 G3)) as [G4 H4]; [exists b; split; auto; right; right; constructor; auto|intros; eapply cbn_wanted; eauto|].
    destruct (set_param_ok cwanted cmwanted _ (n_name b, "bias"%string) (D2 0 (keep pl (n_name b))) (proj1 G4)) as [G5 H5]; [exists b; split; auto; right; right; constructor; auto|intros; eapply cbn_wanted; eauto|].
    split; [eapply good_trans; [|exact G5]; eapply good_trans; [|exact G4]; eapply good_trans; [|exact G3]; eapply good_trans; [|exact G2]; exact G1|].
    split.
    - intros k d D. inversion D as [leaf ? ? [->| ->]]; subst; auto. apply G5. auto.
    - intros a v A. inversion A as [|a' ? ? [->| ->]]; subst.
      + apply G5, G4, G3, G2. auto.
      + apply G5, G4, G3. auto.
      + apply G5, G4. auto.
  Qed.
  Lemma cbn_fold s i : thinned_input net pl s i -> forall l r r', incl l (predecessors_f g (n_name s) ["BatchNormalization"%string]) ->
    foldM (fun r b => append_bn m r b (keep pl i)) l r = Ok r' -> sound r ->
    good r r' /\ forall b, In b net -> In (n_name b) l -> cbn_done r' b.
  Proof.
    intros TI. pose proof TI as (Is & _). induction l as [|x l IH]; intros r r' L H S.
    - simpl in H. injection H as <-. split; [apply good_refl; auto|intros ? ? []].
    - cbn [foldM] in H. inv_ok H. rename x0 into r1.
      destruct (proj1 (net_predecessors net (cp_net _ _ _ CP) ["BatchNormalization"%string] s x Is) (L x (or_introl eq_refl))) as (b & Ib & -> & Nb & Tb & F).
      assert (Sc : same_channels pl (n_name b) i). { eapply cp_bn; eauto; [apply bnorm_is; auto|]. eapply flows_iff; [|exact F]. apply bnorm_is. }
      assert (Kb : ~ all_kept pl (n_name b)) by (rewrite (same_kept _ _ _ Sc); apply TI).
      destruct (cappend_bn_ok r b (keep pl i) r1 Ib (proj1 (bnorm_is _) Tb) Kb) as [G D]; auto; [symmetry; apply Sc|].
      destruct (IH r1 r') as [G' D']; auto; [intros z Iz; apply L; right; auto|apply G|]. split; [eapply good_trans; eauto|].
      intros b' Ib' [E'|J]; [|auto]. apply (same_node net) in E'; auto; [|apply net_names; apply CP]. subst b'. eapply cbn_grows; [apply G'|auto].
  Qed.

  Lemma clayer_ok : forall fuel s i r r', thinned_input net pl s i ->
    channels_layer m g (keep pl i) fuel (n_name s) "weight" r = Ok r' -> sound r -> good r r' /\ forall t, up_chain s t -> cstep_done r' t.
  Proof.
    induction fuel as [|fuel IH]; intros s i r r' TI H S; [discriminate|]. cbn [channels_layer] in H. pose proof TI as (Is & Ls & Ei & Ki).
    inv_ok H. inv_ok H. rename x0 into dim. inv_ok H. rename x0 into r4.
    match type of E1 with foldM _ _ ?r0 = _ => set (r2 := r0) in * end.
    assert (A0 : good r r2 /\ cin_done r2 s).
    { destruct (append_module_ok cwanted cmwanted cmfun r (n_name s) "in_channels" (MSet (length (keep pl i))) S) as [G1 H1]; [exists s; split; auto; split; auto; right; left; constructor; auto|].
      pose proof (cp_nodes _ _ _ CP s Is) as F. unfold channels_ok in F. rewrite Ei in F.
      assert (Hd : cwanted (n_name s, "weight"%string) (D2 dim (keep pl i)) /\ forall k d, cin_dir s k d -> k = (n_name s, "weight"%string) /\ d = D2 dim (keep pl i)).
      { apply layer_is in Ls as [C|Ln].
        - destruct (n_op s) as [ge| | |f| |f] eqn:Op; try (destruct C; fail). destruct F as (w & gr & Cc & kh & kw & Hw & Hk & Hic & Hgr & Hc & Hb & Cases).
          rewrite (kind_of m _ _ _ Hk E) in E0. rewrite (has_int_attr _ _ _ _ Hgr) in E0. cbn [bind] in E0. injection E0 as <-.
          assert (Cn : is_conv (n_op s)) by (rewrite Op; simpl; auto). destruct (Nat.eqb_spec gr 1) as [->|Ng].
          + split; [exists s; split; auto; right; left; constructor; auto|]. intros k d D. inversion D; subst; clash; auto; congruence.
          + destruct Cases as [(? & _)|[(_ & _ & Sc & _)|(_ & _ & ? & _)]]; try contradiction.
            split; [exists s; split; auto; left; rewrite <- (proj2 Sc); constructor; auto; rewrite (same_kept _ _ _ Sc); auto|].
            intros k d D. inversion D as [? ? ? ? Hg|? Ln]; subst; [|congruence]. exfalso. apply Ng. eapply has_int_fun; eauto.
        - rewrite Ln in F. destruct F as (w & F & Hw & Hk & _). rewrite (kind_of m _ _ _ Hk E) in E0. injection E0 as <-.
          split; [exists s; split; auto; right; left; apply ci_lin; auto|]. intros k d D. inversion D; subst; clash; auto. }
      destruct Hd as [Wd Ud]. destruct (append_param_ok cwanted cmwanted _ (n_name s, "weight"%string) (D2 dim (keep pl i)) (proj1 G1) Wd) as [G2 H2].
      split; [eapply good_trans; eauto|]. split.
      - intros k d D. destruct (Ud k d D) as [-> ->]. auto.
      - intros a v A. inversion A; subst. clash. apply G2. auto. }
    destruct A0 as [G2 D2]. clearbody r2. clear E E0 x dim.
    pose proof (fun x => net_predecessors net (cp_net _ _ _ CP) ["Conv"]%string s x Is) as N.
    assert (FL : good r2 r4 /\ forall t, In t net -> In (n_name t) (predecessors_f g (n_name s) ["Conv"]%string) -> cout_done r4 t /\ (cdepthwise t -> forall u, up_chain t u -> cstep_done r4 u)).
    { clear H. assert (L : incl (predecessors_f g (n_name s) ["Conv"]%string) (predecessors_f g (n_name s) ["Conv"]%string)) by apply incl_refl. revert E1 L.
      generalize (predecessors_f g (n_name s) ["Conv"]%string) at 1 2 4 as l. generalize r2, (proj1 G2). clear r2 G2 D2 S r.
      intros q Sq l. revert q Sq. induction l as [|x l IHl]; intros q Sq E L.
      - simpl in E. injection E as <-. split; [apply good_refl; auto|intros t _ []].
      - cbn [foldM] in E. inv_ok E. rename x0 into q1.
        destruct (proj1 (N x) (L x (or_introl eq_refl))) as (t & It & -> & Nt & Tt & F).
        assert (ST : good q q1 /\ cout_done q1 t /\ (cdepthwise t -> forall u, up_chain t u -> cstep_done q1 u)).
        { clear E. pose proof (cflow (n_name t) s i TI F) as Sc. assert (Kt : ~ all_kept pl (n_name t)) by (rewrite (same_kept _ _ _ Sc); auto).
          apply cv_is in Tt. pose proof (cp_nodes _ _ _ CP t It) as Ft. unfold channels_ok in Ft.
          destruct (n_op t) as [ge| | |f| |f] eqn:Op; try (destruct Tt; fail). assert (Ct : is_conv (n_op t)) by (rewrite Op; simpl; auto).
          destruct (n_in t) as [|j [|? ?]] eqn:Ej; try (destruct Ft; fail). destruct Ft as (w & gr & Cc & kh & kw & Hw & Hk & Hic & Hgr & Hc & Hb & Cases).
          rewrite (has_int_attr _ _ _ _ Hgr), (has_int_attr _ _ _ _ Hic) in E0. cbn [bind] in E0. rewrite <- (proj2 Sc) in E0.
          assert (Wo : forall k d, own_dir m pl t k d -> cwanted k d) by (intros k d D; exists t; auto).
          destruct (append_module_ok cwanted cmwanted cmfun q (n_name t) "out_channels" (MSet (length (keep pl (n_name t)))) Sq) as [A1 B1]; [exists t; split; auto; split; auto; left; constructor; auto|].
          destruct (append_param_ok cwanted cmwanted _ (n_name t, "weight"%string) (ThinModel.D2 0 (keep pl (n_name t))) (proj1 A1)) as [A2 B2]; [apply Wo; constructor; auto|].
          destruct (append_if_ok cwanted cmwanted (has_bias m (n_name t)) _ (n_name t, "bias"%string) (ThinModel.D2 0 (keep pl (n_name t))) (proj1 A2)) as [A3 B3]; [intro; apply Wo; constructor; auto|].
          destruct (Nat.eqb_spec gr 1) as [->|Ng].
          - injection E0 as <-. split; [eapply good_trans; [|exact A3]; eapply good_trans; eauto|]. split.
            + split; [intros k d D; inversion D; subst; [apply A3|]; auto|]. intros a v A. inversion A as [|gr' ? ? Hg]; subst; [apply A3, A2; auto|]. exfalso. pose proof (has_int_fun _ _ _ _ _ Hgr Hg). congruence.
            + intros (_ & gr' & i1 & Hg & _ & Ng). pose proof (has_int_fun _ _ _ _ _ Hgr Hg). congruence.
          - destruct (Nat.eqb_spec gr (chans pl j)) as [Eg|]; [|discriminate].
            assert (St : same_channels pl (n_name t) j). { destruct Cases as [[-> _]|[(_ & _ & Ss & _)|(_ & Kt' & _)]]; auto; congruence. }
            assert (TJ : thinned_input net pl t j). { split; auto. split; [apply layer_is; auto|]. split; auto. rewrite <- (same_kept _ _ _ St); auto. }
            destruct (append_module_ok cwanted cmwanted cmfun _ (n_name t) "groups" (MSet (length (keep pl (n_name t)))) (proj1 A3)) as [A4 B4]; [exists t; split; auto; split; auto; left; econstructor; eauto|].
            replace (channels_layer m g (keep pl (n_name t))) with (channels_layer m g (keep pl j)) in E0 by (rewrite (proj2 St); auto). destruct (IH t j _ _ TJ E0 (proj1 A4)) as [A5 B5].
            split; [eapply good_trans; [|exact A5]; eapply good_trans; [|exact A4]; eapply good_trans; [|exact A3]; eapply good_trans; eauto|]. split; [|intros _; exact B5].
            split; [intros k d D; apply A5, A4; inversion D; subst; [apply A3|]; auto|]. intros a v A. inversion A; subst; [apply A5, A4, A3, A2; auto|]. apply A5. auto. }
        destruct ST as (A & B & D). destruct (IHl q1 (proj1 A) E) as [A' B']; [intros z Iz; apply L; right; auto|]. split; [eapply good_trans; eauto|].
        intros t' It' [E'|J]; [|apply B'; auto]. apply (same_node net) in E'; auto; [|apply net_names; apply CP]. subst t'. split; [eapply cout_grows; [apply A'|auto]|].
        intros Dw u Cu. eapply cstep_grows; [apply A'|]. eapply D; eauto. }
    destruct FL as [G4 FL].
    destruct (cbn_fold s i TI _ r4 r' (incl_refl _) H (proj1 G4)) as [G5 BN].
    split; [eapply good_trans; [|exact G5]; eapply good_trans; eauto|].
    intros t Ch. destruct Ch as [s|s t u It Ft Dt Ch].
    - split; [eapply cin_grows; [apply G5|]; eapply cin_grows; [apply G4|auto]|]. split.
      + intros t It Tt F. eapply cout_grows; [apply G5|]. apply FL; auto. apply N. exists t. repeat (split; auto). eapply flows_neq; eauto. apply CP.
      + intros b Ib Tb F. apply BN; auto. apply (net_predecessors net (cp_net _ _ _ CP)); auto. exists b. repeat (split; auto). eapply flows_neq; eauto. apply CP.
    - eapply cstep_grows; [apply G5|]. apply (FL t It); auto. apply N. exists t. split; auto. split; auto. split; [eapply flows_neq; eauto; apply CP|]. split; auto. apply cv_is. apply Dt.
  Qed.

  Lemma cnonzero_cases nd p : In nd net -> is_layer (n_op nd) -> pget (ms_params m) (n_name nd, "weight"%string) = Some p ->
    exists i, n_in nd = [i] /\ 0 < nth 1 (nd_shape (p_data p)) 0 /\
    ((nonzero_rows (sums_of (p_data p)) = keep pl i /\ nth 1 (nd_shape (p_data p)) 0 = chans pl i) \/
     (nonzero_rows (sums_of (p_data p)) = seq 0 (nth 1 (nd_shape (p_data p)) 0) /\ (all_kept pl i \/ cdepthwise nd))).
  Proof.
    intros I L Hk. pose proof (cp_nodes _ _ _ CP nd I) as Fn. unfold channels_ok in Fn.
    assert (A : forall w O_ C ks, (forall c, c < C -> nonzero_input w c) -> nd_shape w = O_ :: C :: ks -> ks = [] \/ length ks = 2 -> wf_nd w -> nonzero_rows (sums_of w) = seq 0 C).
    { intros w O_ C ks H S Hks W. eapply nonzero_inputs_keep; eauto; [apply index_set_seq|]. intros c Lc. rewrite in_seq. split; [intros _; auto|intros _; lia]. }
    destruct (n_op nd) as [ge| | |f| |f] eqn:Os; try (destruct L; fail); destruct (n_in nd) as [|i [|? ?]] eqn:Es; try (destruct Fn; fail); exists i; split; auto.
    - destruct Fn as (w & gr & Cc & kh & kw & ((p' & Hp' & Ew) & Sw & Ww) & Hkd & Hic & Hgr & Hc & Hb & Cases). rewrite Hk in Hp'. injection Hp' as <-. rewrite Ew, Sw. cbn [nth].
      pose proof (cchans_pos i). assert (HC : 0 < Cc) by (destruct Cc; lia). split; auto.
      destruct Cases as [(-> & Hn)|[(Ng & -> & _ & Hn)|(_ & _ & Ki & Hn)]].
      + left. assert (Cc = chans pl i) by lia. subst Cc. split; auto. eapply nonzero_inputs_keep; eauto. apply CP.
      + right. split; [eapply A; eauto; intros c Lc; assert (c = 0) by lia; subst; auto|]. right. split; [rewrite Os; simpl; auto|]. exists gr, i. auto.
      + right. split; [eapply A; eauto|auto].
    - destruct Fn as (w & F & ((p' & Hp' & Ew) & Sw & Ww) & Hkd & _ & HF & Cases). rewrite Hk in Hp'. injection Hp' as <-. rewrite Ew, Sw. cbn [nth]. split; auto.
      destruct Cases as [(Ki & Hn)|(-> & Hn)].
      + right. split; [eapply A; eauto|auto].
      + left. split; auto. eapply nonzero_inputs_keep; eauto. apply CP.
  Qed.
  Lemma clayer_weight nd : In nd net -> is_layer (n_op nd) -> exists p, pget (ms_params m) (n_name nd, "weight"%string) = Some p /\ (length (nd_shape (p_data p)) = 2 \/ length (nd_shape (p_data p)) = 4).
  Proof.
    intros I L. pose proof (cp_nodes _ _ _ CP nd I) as Fn. unfold channels_ok in Fn. destruct (n_op nd); try (destruct L; fail); destruct (n_in nd) as [|i [|? ?]]; try (destruct Fn; fail).
    - destruct Fn as (w & gr & Cc & kh & kw & ((p & Hp & <-) & Sw & _) & _). exists p. rewrite Sw. auto.
    - destruct Fn as (w & F & ((p & Hp & <-) & Sw & _) & _). exists p. rewrite Sw. auto.
  Qed.
  Lemma pget_fun k (p p' : param) : In (k, p) (ms_params m) -> pget (ms_params m) k = Some p' -> p = p'.
  Proof. intros I H. apply pget_nodup in I; [|apply CP]. congruence. Qed.

  Definition croot (s : node) (i : string) : Prop := thinned_input net pl s i /\ ~ cdepthwise s.
  Lemma crecipe_loop r : recipe_channels m g = Ok r -> sound r /\ forall s i, croot s i -> forall t, up_chain s t -> cstep_done r t.
  Proof.
    unfold recipe_channels. intro H.
    set (body := fun (r : recipe) (e : pname * param) => _) in H.
    assert (G : forall l r0 r, incl l (ms_params m) -> sound r0 -> foldM body l r0 = Ok r -> good r0 r /\
      forall s i p, In ((n_name s, "weight"%string), p) l -> croot s i -> forall t, up_chain s t -> cstep_done r t).
    { clear H r. induction l as [|[k p] l IH]; intros r0 r L S H.
      - simpl in H. injection H as <-. split; [apply good_refl; auto|intros ? ? ? []].
      - cbn [foldM] in H. inv_ok H. rename x into r1. assert (Hk : pget (ms_params m) k = Some p) by (apply pget_nodup; [apply CP|apply L; left; auto]).
        assert (ST : good r0 r1 /\ forall s i, k = (n_name s, "weight"%string) -> croot s i -> forall t, up_chain s t -> cstep_done r1 t).
        { unfold body in E. cbn [fst snd] in E. fold (sums_of (p_data p)) in E. destruct (Nat.eqb (ndim (p_data p)) 2 || Nat.eqb (ndim (p_data p)) 4) eqn:Ed; cbn [negb] in E.
          - apply orb_true_iff in Ed. rewrite !Nat.eqb_eq in Ed. destruct (cp_2d4d _ _ _ CP k p Hk Ed) as (nd & I & Ly & ->). cbn [fst snd] in E.
            destruct (cnonzero_cases nd p I Ly Hk) as (i & Ei & Pos & [[NZ Sh]|[NZ Alt]]); rewrite NZ in E.
            + rewrite Sh in E. destruct (cp_keep _ _ _ CP i) as [Kx Ke]. destruct (Nat.eqb_spec (length (keep pl i)) 0); [discriminate|].
              destruct (Nat.leb_spec (chans pl i) (length (keep pl i))) as [Le|Lt].
              * injection E as <-. split; [apply good_refl; auto|]. intros s j Er [(Is & _ & Ej & Kj) _] t Ch. exfalso. injection Er as Er. apply (same_node net) in Er; auto; [|apply net_names; apply CP]. subst s.
                rewrite Ei in Ej. injection Ej as <-. apply Kj. apply index_set_full; auto. pose proof (index_set_le _ _ Kx). lia.
              * assert (Ki : ~ all_kept pl i) by (intro A; rewrite A, seq_length in Lt; lia).
                assert (TI : thinned_input net pl nd i) by (repeat (split; auto)).
                destruct (clayer_ok (layer_fuel m) nd i r0 r1 TI E S) as [A B]. split; auto.
                intros s j Er [(Is & _) _] t. injection Er as Er. apply (same_node net) in Er; auto; [|apply net_names; apply CP]. subst s. auto.
            + rewrite seq_length in E. destruct (Nat.eqb_spec (nth 1 (nd_shape (p_data p)) 0) 0); [discriminate|]. rewrite (proj2 (Nat.leb_le _ _) (le_n _)) in E. injection E as <-.
              split; [apply good_refl; auto|]. intros s j Er [(Is & _ & Ej & Kj) Nd] t Ch. exfalso. injection Er as Er. apply (same_node net) in Er; auto; [|apply net_names; apply CP]. subst s.
              rewrite Ei in Ej. injection Ej as <-. destruct Alt; auto.
          - injection E as <-. split; [apply good_refl; auto|]. intros s j -> [(Is & Ly & _) _] t Ch. exfalso. destruct (clayer_weight s Is Ly) as (p' & Hp' & Dm). rewrite Hk in Hp'. injection Hp' as <-.
            apply orb_false_iff in Ed as [E2 E4]. apply Nat.eqb_neq in E2, E4. unfold ndim in *. lia. }
        destruct ST as [A B]. destruct (IH r1 r) as [A' B']; auto; [intros z Iz; apply L; right; auto|apply A|]. split; [eapply good_trans; eauto|].
        intros s i p' [E'|J] Rt t Ch; [|eapply B'; eauto]. injection E' as E1 E2. eapply cstep_grows; [apply A'|]. eapply B; eauto. }
    destruct (G (ms_params m) empty_recipe r (incl_refl _) (sound_empty _ _) H) as [A B]. split; [apply A|].
    intros s i Rt t Ch. pose proof Rt as [(Is & Ly & _) _]. destruct (clayer_weight s Is Ly) as (p & Hp & _). eapply (B s i p); eauto. apply pget_in; auto.
  Qed.

  Lemma net_rev_induction (P : node -> Prop) : (forall nd, In nd net -> (forall s, In s net -> In (n_name nd) (n_in s) -> P s) -> P nd) -> forall nd, In nd net -> P nd.
  Proof.
    intro H. destruct (ordered_rank _ _ (proj1 (cp_net _ _ _ CP))) as (f & _ & R).
    set (M := list_max (map (fun x => f (n_name x)) net)). assert (B : forall nd, In nd net -> f (n_name nd) <= M).
    { intros nd I. assert (L : list_max (map (fun x => f (n_name x)) net) <= M) by (apply le_n). apply list_max_le in L. rewrite Forall_forall in L. apply L. apply in_map_iff. eauto. }
    assert (G : forall k nd, M - f (n_name nd) < k -> In nd net -> P nd).
    { induction k as [|k IH]; intros nd L I; [lia|]. apply H; auto. intros s Is J. apply IH; auto. pose proof (R s _ Is J). pose proof (B s Is). lia. }
    intros nd I. eapply G; eauto.
  Qed.
  Lemma up_chain_snoc a b c : up_chain a b -> In c net -> flows net cv (n_name c) (n_name b) -> cdepthwise c -> up_chain a c.
  Proof. intros H Ic F D. induction H as [n|n t s It Ft Dt H IH]; [apply (up_step n c c); auto; constructor|]. apply (up_step n t c); auto. Qed.
  Definition crooted (t : node) : Prop := exists s i, croot s i /\ up_chain s t.
  Lemma conv_groups s : In s net -> is_conv (n_op s) -> exists gr i, has_int m (n_name s) "groups" gr /\ n_in s = [i] /\ (gr <> 1 -> ~ all_kept pl i -> same_channels pl (n_name s) i).
  Proof.
    intros I C. pose proof (cp_nodes _ _ _ CP s I) as F. unfold channels_ok in F. destruct (n_op s); try (destruct C; fail). destruct (n_in s) as [|i [|? ?]]; try (destruct F; fail).
    destruct F as (w & gr & Cc & kh & kw & Hw & Hk & Hic & Hgr & Hc & Hb & Cases). exists gr, i. split; auto. split; auto. intros Ng Ki.
    destruct Cases as [(? & _)|[(_ & _ & Sc & _)|(_ & _ & ? & _)]]; auto; contradiction.
  Qed.
  Lemma csinks : forall nd, In nd net -> ~ all_kept pl (n_name nd) -> exists t, crooted t /\ In t net /\ flows net cv (n_name nd) (n_name t).
  Proof.
    apply (net_rev_induction (fun nd => ~ all_kept pl (n_name nd) -> exists t, crooted t /\ In t net /\ flows net cv (n_name nd) (n_name t))).
    intros nd I IH K. destruct (cp_used _ _ _ CP nd I K) as (s & Is & J).
    assert (Pass : ~ all_kept pl (n_name s) -> ~ cv (n_op s) -> exists t, crooted t /\ In t net /\ flows net cv (n_name nd) (n_name t)).
    { intros Ks Ts. destruct (IH s Is J Ks) as (t & Rt & It & F). exists t. split; auto. split; auto. apply (flows_cons net cv (n_name nd) s); auto. }
    assert (Root : is_layer (n_op s) -> n_in s = [n_name nd] -> ~ cdepthwise s -> exists t, crooted t /\ In t net /\ flows net cv (n_name nd) (n_name t)).
    { intros Ly Ei Nd. exists s. split; [exists s, (n_name nd); split; [split; auto; repeat (split; auto)|constructor]|]. split; auto. apply flows_in; auto. }
    pose proof (cp_nodes _ _ _ CP s Is) as F. unfold channels_ok in F.
    destruct (n_op s) as [ge| | |f| |f] eqn:Os.
    - assert (Cs : is_conv (n_op s)) by (rewrite Os; simpl; auto). destruct (conv_groups s Is Cs) as (gr & i & Hg & Ei & Sm). rewrite Ei in J. destruct J as [->|[]].
      destruct (Nat.eq_dec gr 1) as [->|Ng].
      + apply Root; auto; [simpl; auto|]. intros (_ & gr' & i' & Hg' & _ & Ng). apply Ng. eapply has_int_fun; eauto.
      + specialize (Sm Ng K). destruct (IH s Is ltac:(rewrite Ei; left; auto)) as (t & (s0 & i0 & Rt & Ch) & It & Ft); [rewrite (same_kept _ _ _ Sm); auto|].
        exists s. split; [exists s0, i0; split; auto; eapply up_chain_snoc; eauto; split; auto; exists gr, (n_name nd); auto|]. split; auto. apply flows_in; auto. rewrite Ei. left; auto.
    - destruct (n_in s) as [|i [|? ?]] eqn:Ei; try (destruct F; fail). destruct J as [->|[]]. apply Root; auto; [simpl; auto|]. intros (C & _). rewrite Os in C. destruct C.
    - destruct (n_in s) as [|i [|? ?]] eqn:Ei; try (destruct F; fail). destruct J as [->|[]]. destruct F as (? & ? & ? & ? & F). assert (Sc : same_channels pl (n_name s) (n_name nd)) by apply F.
      apply Pass; [rewrite (same_kept _ _ _ Sc); auto|unfold stops; simpl; intuition discriminate].
    - destruct (n_in s) as [|i [|? ?]] eqn:Ei; try (destruct F; fail). destruct J as [->|[]]. destruct F as (Sc & _).
      apply Pass; [rewrite (same_kept _ _ _ Sc); auto|unfold stops; simpl; intuition discriminate].
    - destruct (n_in s) as [|i [|j [|? ?]]] eqn:Ei; try (destruct F; fail). assert (Sc : same_channels pl (n_name s) (n_name nd)) by (destruct J as [->|[->|[]]]; apply F).
      apply Pass; [rewrite (same_kept _ _ _ Sc); auto|unfold stops; simpl; intuition discriminate].
    - exfalso. apply K. apply F. auto.
  Qed.
  Lemma cthinned_rooted s i : thinned_input net pl s i -> crooted s.
  Proof.
    intros TI. pose proof TI as (Is & Ly & Ei & Ki). apply layer_is in Ly as [Cs|Ln].
    - destruct (conv_groups s Is Cs) as (gr & j & Hg & Ej & Sm). rewrite Ei in Ej. injection Ej as <-. destruct (Nat.eq_dec gr 1) as [->|Ng].
      + exists s, i. split; [split; auto|constructor]. intros (_ & gr' & i' & Hg' & _ & Ng). apply Ng. eapply has_int_fun; eauto.
      + specialize (Sm Ng Ki). destruct (csinks s Is) as (t & (s0 & i0 & Rt & Ch) & It & Ft); [rewrite (same_kept _ _ _ Sm); auto|].
        exists s0, i0. split; auto. eapply up_chain_snoc; eauto. split; auto. exists gr, i. auto.
    - exists s, i. split; [split; auto|constructor]. intros (C & _). rewrite Ln in C. destruct C.
  Qed.

  Theorem crecipe_complete r : recipe_channels m g = Ok r -> sound r /\ (forall k d, cwanted k d <-> has r k d) /\ (forall n a v, cmwanted n a v <-> mhas r n a v).
  Proof.
    intro H. destruct (crecipe_loop r H) as [S D].
    assert (Dn : forall nd, crooted nd -> cstep_done r nd) by (intros nd (s & i & A & B); eapply D; eauto).
    assert (Od : forall t, In t net -> is_conv (n_op t) -> ~ all_kept pl (n_name t) -> cout_done r t).
    { intros t It Ct Kt. destruct (csinks t It Kt) as (s & Rs & Is & F). destruct (Dn s Rs) as (_ & A & _). apply A; auto. apply cv_is; auto. }
    assert (Cd : forall s i, thinned_input net pl s i -> cin_done r s) by (intros s i TI; apply Dn; eapply cthinned_rooted; eauto).
    assert (Bd : forall b, In b net -> is_bn (n_op b) -> ~ all_kept pl (n_name b) -> cbn_done r b).
    { intros b Ib Tb Kb. destruct (cp_bn_all _ _ _ CP b Ib Tb) as [|(s & i & TI & F)]; [contradiction|]. destruct (Dn s (cthinned_rooted s i TI)) as (_ & _ & A). apply A; auto.
      - apply bnorm_is; auto.
      - eapply flows_iff; [|exact F]. intro. symmetry. apply bnorm_is. }
    assert (TI : forall nd i, In nd net -> is_layer (n_op nd) -> n_in nd = [i] -> ~ all_kept pl i -> thinned_input net pl nd i) by (intros; repeat (split; auto)).
    split; auto. split.
    - intros k d. split.
      + intros (nd & I & [A|[A|A]]).
        * destruct (Od nd I) as [O1 O2]; [inversion A; auto|inversion A; auto|auto].
        * inversion A; subst; (destruct (Cd nd i) as [C1 C2]; [apply TI; auto; apply layer_is; auto|auto]).
        * destruct (Bd nd I) as [B1 B2]; [inversion A; auto|inversion A; auto|auto].
      + intros (ds & G & J). eapply (so_params _ _ r S); eauto.
    - intros n a v. split.
      + intros (nd & I & -> & [A|[A|A]]).
        * destruct (Od nd I) as [O1 O2]; [inversion A; auto|inversion A; auto|auto].
        * inversion A; subst; (destruct (Cd nd i) as [C1 C2]; [apply TI; auto|auto]).
        * destruct (Bd nd I) as [B1 B2]; [inversion A; auto|inversion A; auto|auto].
      + intros (md & G & J). eapply (so_mods _ _ r S); eauto. apply dget_In; auto.
  Qed.
End Plan.
