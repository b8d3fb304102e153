(** C24: the recipe for removing zero filters contains exactly the directives of the plan. *)
From Coq Require Import String List ZArith QArith Bool Arith Lia Lqa.
From Verif Require Import Base Lists StructModel ThinModel ThinSpec ThinProofs ThinExecProofs ThinSearchProofs PropertiesGraph ThinNetSpec ThinGraphProofs ThinRecipeProofs.
Import ListNotations.
Local Open Scope nat_scope.
Ltac inv_ok H := match type of H with bind ?m _ = Ok _ => let x := fresh "x" in let E := fresh "E" in destruct m as [x|] eqn:E; cbn [bind] in H; [|discriminate] end.

Lemma has_int_fun m n a v v' : has_int m n a v -> has_int m n a v' -> v = v'.
Proof. intros (x & A & B) (x' & A' & B'). rewrite A in A'. injection A' as <-. rewrite B in B'. injection B' as <-. auto. Qed.
Lemma has_int_attr m n a v : has_int m n a v -> int_attr m n a = Ok v.
Proof. intros (x & A & B). unfold int_attr, lookup. rewrite A. cbn [bind]. rewrite B. auto. Qed.

Section Plan.
  Variables (rs : Q -> Q) (m : mstate) (net : list node) (pl : plan).
  Hypothesis FP : filters_plan_ok rs m net pl.
  Notation g := (graph_of net).
  Notation layer := (stops ["Conv"; "Gemm"]%string).
  Notation bnorm := (stops ["BatchNormalization"]%string).

  Lemma all_kept_dec n : all_kept pl n \/ ~ all_kept pl n.
  Proof. unfold all_kept. destruct (list_eq_dec Nat.eq_dec (keep pl n) (seq 0 (chans pl n))); auto. Qed.
  Lemma same_kept a b : same_channels pl a b -> all_kept pl a <-> all_kept pl b.
  Proof. unfold same_channels, all_kept. intros [-> ->]. tauto. Qed.
  Lemma chans_pos n : 0 < chans pl n.
  Proof.
    destruct (fp_keep _ _ _ _ FP n) as [[kp E] N]. destruct (chans pl n); [simpl in E; congruence|lia].
  Qed.
  Lemma layer_cases nd : layer (n_op nd) <-> is_conv (n_op nd) \/ n_op nd = OLinear.
  Proof. unfold stops. destruct (n_op nd); simpl; intuition discriminate. Qed.
  Lemma bnorm_is op : bnorm op <-> is_bn op.
  Proof. unfold stops. destruct op; simpl; intuition discriminate. Qed.
  Lemma flows_iff (p q : nop -> Prop) a b : (forall op, p op <-> q op) -> flows net p a b -> flows net q a b.
  Proof. intros E F. induction F; [apply flows_in; auto|]. eapply flows_through; eauto. rewrite <- E. auto. Qed.

  (** operations outside [layer] pass the channels on *)
  Lemma pass_channels nd i : In nd net -> ~ layer (n_op nd) -> In i (n_in nd) -> ~ all_kept pl i -> same_channels pl (n_name nd) i.
  Proof.
    intros I T J K. pose proof (fp_nodes _ _ _ _ FP nd I) as F. unfold filters_ok in F. rewrite layer_cases in T.
    destruct (n_op nd) as [ge| | |f| |f] eqn:E; try (exfalso; apply T; simpl; auto; fail).
    - destruct (n_in nd) as [|i0 [|? ?]]; try (destruct F; fail). destruct J as [<-|[]]. destruct F as (? & ? & ? & ? & F). apply F.
    - destruct (n_in nd) as [|i0 [|? ?]]; try (destruct F; fail). destruct J as [<-|[]]. apply F.
    - destruct (n_in nd) as [|i0 [|j0 [|? ?]]]; try (destruct F; fail). destruct J as [<-|[<-|[]]]; apply F.
    - exfalso. apply K. apply F. auto.
  Qed.
  Lemma flow_channels a s : In a net -> ~ all_kept pl (n_name a) -> forall x, flows net layer (n_name a) x -> x = n_name s -> In s net ->
    exists i, In i (n_in s) /\ same_channels pl i (n_name a).
  Proof.
    intros Ia K x F. revert s. induction F as [nd I J|nd' nd F IH I' T I J]; intros s E Is; apply (same_node net) in E; auto; try (apply net_names; apply FP); subst s.
    - exists (n_name a). split; auto. split; auto.
    - exists (n_name nd'). split; auto. destruct (IH nd' eq_refl I') as (i & Ii & S).
      assert (Ki : ~ all_kept pl i) by (rewrite (same_kept _ _ S); auto). pose proof (pass_channels nd' i I' T Ii Ki) as S'.
      unfold same_channels in *. destruct S, S'. split; congruence.
  Qed.

  (** the directives of the plan *)
  Inductive own_dir (nd : node) : pname -> pdir -> Prop :=
  | od_weight : is_conv (n_op nd) -> ~ all_kept pl (n_name nd) -> own_dir nd (n_name nd, "weight"%string) (D2 0 (keep pl (n_name nd)))
  | od_bias : is_conv (n_op nd) -> ~ all_kept pl (n_name nd) -> has_bias m (n_name nd) = true -> own_dir nd (n_name nd, "bias"%string) (D2 0 (keep pl (n_name nd))).
  Inductive cons_dir (nd : node) : pname -> pdir -> Prop :=
  | cd_conv i : is_conv (n_op nd) -> n_in nd = [i] -> ~ all_kept pl i -> has_int m (n_name nd) "groups" 1 -> cons_dir nd (n_name nd, "weight"%string) (D2 1 (keep pl i))
  | cd_lin i h : n_op nd = OLinear -> n_in nd = [i] -> ~ all_kept pl i -> has_int m (n_name nd) "in_features" (chans pl i * (h * h)) ->
      cons_dir nd (n_name nd, "weight"%string) (D4 1 (keep pl i) [chans pl (n_name nd); chans pl i; h; h] [chans pl (n_name nd); h * h * length (keep pl i)]).
  Inductive bn_dir (nd : node) : pname -> pdir -> Prop :=
  | bd leaf : is_bn (n_op nd) -> ~ all_kept pl (n_name nd) -> leaf = "weight"%string \/ leaf = "bias"%string -> bn_dir nd (n_name nd, leaf) (D2 0 (keep pl (n_name nd))).
  Inductive own_attr (nd : node) : string -> mdir -> Prop :=
  | oa_out : is_conv (n_op nd) -> ~ all_kept pl (n_name nd) -> own_attr nd "out_channels" (MSet (length (keep pl (n_name nd)))).
  Inductive cons_attr (nd : node) : string -> mdir -> Prop :=
  | ca_in i : is_conv (n_op nd) -> n_in nd = [i] -> ~ all_kept pl i -> cons_attr nd "in_channels" (MSet (length (keep pl i)))
  | ca_groups i gr : is_conv (n_op nd) -> n_in nd = [i] -> ~ all_kept pl i -> has_int m (n_name nd) "groups" gr -> gr <> 1 -> cons_attr nd "groups" (MSet (length (keep pl i)))
  | ca_lin i h : n_op nd = OLinear -> n_in nd = [i] -> ~ all_kept pl i -> has_int m (n_name nd) "in_features" (chans pl i * (h * h)) -> cons_attr nd "in_features" (MSet (h * h * length (keep pl i))).
  Inductive bn_attr (nd : node) : string -> mdir -> Prop :=
  | ba_num : is_bn (n_op nd) -> ~ all_kept pl (n_name nd) -> bn_attr nd "num_features" (MSet (length (keep pl (n_name nd))))
  | ba_ten a : is_bn (n_op nd) -> ~ all_kept pl (n_name nd) -> a = "running_mean"%string \/ a = "running_var"%string -> bn_attr nd a (MSel 0 (keep pl (n_name nd))).

  Definition fwanted (k : pname) (d : pdir) : Prop := exists nd, In nd net /\ (own_dir nd k d \/ cons_dir nd k d \/ bn_dir nd k d).
  Definition mwanted (n a : string) (v : mdir) : Prop := exists nd, In nd net /\ n = n_name nd /\ (own_attr nd a v \/ cons_attr nd a v \/ bn_attr nd a v).

  Lemma square_inj c h h' : 0 < c -> c * (h * h) = c * (h' * h') -> h = h'.
  Proof. intros P E. apply Nat.mul_cancel_l in E; [|lia]. nia. Qed.

  Lemma mfun n a v v' : mwanted n a v -> mwanted n a v' -> v = v'.
  Proof.
    intros (nd & I & -> & H) (nd' & I' & E & H'). apply (same_node net) in E; auto; [|apply net_names; apply FP]. subst nd'.
    destruct H as [H|[H|H]], H' as [H'|[H'|H']]; inversion H; inversion H'; subst; auto;
      repeat match goal with
        | A : ?x = OLinear, B : is_conv ?x |- _ => rewrite A in B; destruct B
        | A : is_bn ?x, B : is_conv ?x |- _ => exfalso; destruct x; simpl in *; contradiction
        | A : is_bn ?x, B : ?x = OLinear |- _ => rewrite B in A; destruct A
        | A : n_in nd = [?i], B : n_in nd = [?j] |- _ => rewrite A in B; injection B as <-
        | A : _ \/ _ |- _ => destruct A; try discriminate
        end; auto; try discriminate.
    match goal with A : has_int m _ _ ?u, B : has_int m _ _ ?v |- _ => pose proof (has_int_fun _ _ _ _ _ A B) as E end.
    apply square_inj in E; [subst; auto|apply chans_pos].
  Qed.
  Lemma bn_wanted nd leaf d : In nd net -> is_bn (n_op nd) -> fwanted (n_name nd, leaf) d -> d = D2 0 (keep pl (n_name nd)).
  Proof.
    intros I B (nd' & I' & H).
    assert (E : n_name nd = n_name nd') by (destruct H as [H|[H|H]]; inversion H; auto). apply (same_node net) in E; auto; [|apply net_names; apply FP]. subst nd'.
    destruct H as [H|[H|H]]; inversion H; subst; auto;
      repeat match goal with
        | A : is_bn ?x, B : is_conv ?x |- _ => exfalso; destruct x; simpl in *; contradiction
        | A : is_bn ?x, B : ?x = OLinear |- _ => rewrite B in A; destruct A
        end.
  Qed.
  Notation sound := (sound fwanted mwanted).
  Notation good := (good fwanted mwanted).

  Definition cons_done (r : recipe) (s : node) : Prop := (forall k d, cons_dir s k d -> has r k d) /\ (forall a v, cons_attr s a v -> mhas r (n_name s) a v).
  Definition bn_done (r : recipe) (s : node) : Prop := (forall k d, bn_dir s k d -> has r k d) /\ (forall a v, bn_attr s a v -> mhas r (n_name s) a v).
  Definition step_done (r : recipe) (nd : node) : Prop :=
    (forall k d, own_dir nd k d -> has r k d) /\ (forall a v, own_attr nd a v -> mhas r (n_name nd) a v) /\
    (forall s, In s net -> s <> nd -> layer (n_op s) -> flows net layer (n_name nd) (n_name s) -> cons_done r s) /\
    (forall b, In b net -> b <> nd -> bnorm (n_op b) -> flows net bnorm (n_name nd) (n_name b) -> bn_done r b).
  Lemma cons_done_grows r r' s : grows r r' -> cons_done r s -> cons_done r' s.
  Proof. intros [A B] [C D]. split; auto. Qed.
  Lemma bn_done_grows r r' s : grows r r' -> bn_done r s -> bn_done r' s.
  Proof. intros [A B] [C D]. split; auto. Qed.
  Lemma step_done_grows r r' nd : grows r r' -> step_done r nd -> step_done r' nd.
  Proof.
    intros G (A & B & C & D). split; [intros; apply G; auto|]. split; [intros; apply G; auto|]. split; intros; [eapply cons_done_grows|eapply bn_done_grows]; eauto.
  Qed.

  (** chains of depth-wise convolutions *)
  Definition depthwise (t : node) : Prop := is_conv (n_op t) /\ exists gr i, has_int m (n_name t) "groups" gr /\ n_in t = [i] /\ gr <> 1 /\ gr = chans pl i.
  Inductive dw_chain : node -> node -> Prop :=
  | dw_refl n : dw_chain n n
  | dw_step n t s : In t net -> t <> n -> flows net layer (n_name n) (n_name t) -> depthwise t -> dw_chain t s -> dw_chain n s.

  Lemma kind_of n k x : is_kind m n k -> lookup (ms_mods m) n = Ok x -> m_kind x = k.
  Proof. intros (y & A & B). unfold lookup. rewrite A. intros [= <-]. auto. Qed.

  Lemma append_bn_ok r b idx r' : In b net -> is_bn (n_op b) -> ~ all_kept pl (n_name b) -> idx = keep pl (n_name b) ->
    append_bn m r (n_name b) idx = Ok r' -> sound r -> good r r' /\ bn_done r' b.
  Proof.
    intros I B K -> H S. unfold append_bn in H. inv_ok H. destruct (m_kind x); try discriminate. injection H as <-.
    assert (W : forall a v, bn_attr b a v -> mwanted (n_name b) a v) by (intros a v A; exists b; auto).
    destruct (append_module_ok fwanted mwanted mfun r (n_name b) "num_features" (MSet (length (keep pl (n_name b)))) S) as [G1 H1]; [apply W; constructor; auto|].
    destruct (append_module_ok fwanted mwanted mfun _ (n_name b) "running_mean" (MSel 0 (keep pl (n_name b))) (proj1 G1)) as [G2 H2]; [apply W; constructor; auto|].
    destruct (append_module_ok fwanted mwanted mfun _ (n_name b) "running_var" (MSel 0 (keep pl (n_name b))) (proj1 G2)) as [G3 H3]; [apply W; constructor; auto|].
    destruct (set_param_ok fwanted mwanted _ (n_name b, "weight"%string) (D2 0 (keep pl (n_name b))) (proj1 G3)) as [G4 H4]; [exists b; split; auto; right; right; constructor; auto|intros; eapply bn_wanted; eauto|].
    destruct (set_param_ok fwanted mwanted _ (n_name b, "bias"%string) (D2 0 (keep pl (n_name b))) (proj1 G4)) as [G5 H5]; [exists b; split; auto; right; right; constructor; auto|intros; eapply bn_wanted; eauto|].
    split; [eapply good_trans; [|exact G5]; eapply good_trans; [|exact G4]; eapply good_trans; [|exact G3]; eapply good_trans; [|exact G2]; exact G1|].
    split.
    - intros k d D. inversion D as [leaf ? ? [->| ->]]; subst; auto. apply G5. auto.
    - intros a v A. inversion A as [|a' ? ? [->| ->]]; subst.
      + apply G5, G4, G3, G2. auto.
      + apply G5, G4, G3. auto.
      + apply G5, G4. auto.
  Qed.

  Lemma linear_successor_ok r l0 idx s i r' : In l0 net -> is_conv (n_op l0) -> In s net -> n_op s = OLinear -> n_in s = [i] -> ~ all_kept pl i -> idx = keep pl i -> same_channels pl (n_name l0) i ->
    linear_successor m (n_name l0) idx r (n_name s) = Ok r' -> sound r -> good r r' /\ cons_done r' s.
  Proof.
    intros Il Cl Is Ls Ei K -> Sc H S. pose proof (fp_nodes _ _ _ _ FP s Is) as F. unfold filters_ok in F. rewrite Ls, Ei in F.
    destruct F as (w & F & Hw & Hk & Hif & Hof & Hb & Kn & [K'|(h & Hh & EF)]); [contradiction|].
    pose proof (fp_nodes _ _ _ _ FP l0 Il) as F0. unfold filters_ok in F0. destruct (n_op l0) as [ge| | |f| |f]; try (destruct Cl; fail).
    destruct (n_in l0) as [|i0 [|? ?]]; try (destruct F0; fail). destruct F0 as (w0 & gr0 & C0 & kh & kw & _ & _ & _ & Hoc & _).
    unfold linear_successor in H. rewrite (has_int_attr _ _ _ _ Hif), (has_int_attr _ _ _ _ Hof), (has_int_attr _ _ _ _ Hoc) in H. cbn [bind] in H.
    rewrite (proj1 Sc) in H. pose proof (chans_pos i) as P. destruct (Nat.eqb_spec (chans pl i) 0); [lia|].
    rewrite EF in H. rewrite (Nat.mul_comm (chans pl i)), Nat.div_mul in H by lia. rewrite Nat.sqrt_square in H. injection H as <-.
    rewrite EF in Hif.
    destruct (append_module_ok fwanted mwanted mfun r (n_name s) "in_features" (MSet (h * h * length (keep pl i))) S) as [G1 H1]; [exists s; split; auto; split; auto; right; left; econstructor; eauto|].
    destruct (append_param_ok fwanted mwanted _ (n_name s, "weight"%string) (D4 1 (keep pl i) [chans pl (n_name s); chans pl i; h; h] [chans pl (n_name s); h * h * length (keep pl i)]) (proj1 G1)) as [G2 H2]; [exists s; split; auto; right; left; econstructor; eauto|].
    split; [eapply good_trans; eauto|]. split.
    - intros k d D. inversion D as [? Cc|i' h' ? Ei' ? Hif']; subst; [rewrite Ls in Cc; destruct Cc|]. rewrite Ei in Ei'. injection Ei' as <-.
      pose proof (has_int_fun _ _ _ _ _ Hif Hif') as Eh. apply square_inj in Eh; auto. subst h'. auto.
    - intros a v A. inversion A as [? Cc|? ? Cc|i' h' ? Ei' ? Hif']; subst; try (rewrite Ls in Cc; destruct Cc; fail). rewrite Ei in Ei'. injection Ei' as <-.
      pose proof (has_int_fun _ _ _ _ _ Hif Hif') as Eh. apply square_inj in Eh; auto. subst h'. apply G2. auto.
  Qed.

  Lemma bn_successors_ok r nd r' : In nd net -> is_conv (n_op nd) -> ~ all_kept pl (n_name nd) ->
    bn_successors m g (keep pl (n_name nd)) r (n_name nd) = Ok r' -> sound r ->
    good r r' /\ forall b, In b net -> b <> nd -> bnorm (n_op b) -> flows net bnorm (n_name nd) (n_name b) -> bn_done r' b.
  Proof.
    intros I C K H S. unfold bn_successors in H. pose proof (fun x => net_successors net (fp_net _ _ _ _ FP) ["BatchNormalization"%string] nd x I) as N.
    destruct (successors_f g (n_name nd) ["BatchNormalization"%string]) as [|x [|? ?]]; [| |discriminate].
    - injection H as <-. split; [apply good_refl; auto|]. intros b Ib Nb Tb F. exfalso. apply (proj2 (N (n_name b))). exists b. auto.
    - destruct (proj1 (N x) (or_introl eq_refl)) as (b & Ib & -> & Nb & Tb & F).
      assert (Sc : same_channels pl (n_name b) (n_name nd)). { apply (fp_bn _ _ _ _ FP nd b); auto; [apply bnorm_is; auto|]. eapply flows_iff; [|exact F]. apply bnorm_is. }
      destruct (append_bn_ok r b (keep pl (n_name nd)) r' Ib (proj1 (bnorm_is _) Tb)) as [G D]; auto.
      + rewrite (same_kept _ _ Sc). auto.
      + symmetry. apply Sc.
      + split; auto. intros b' Ib' Nb' Tb' F'. destruct (proj2 (N (n_name b'))) as [E|[]]; [exists b'; auto|].
        apply (same_node net) in E; auto; [|apply net_names; apply FP]. subst b'. auto.
  Qed.

  Lemma layer_ok l0 : In l0 net -> is_conv (n_op l0) -> forall fuel nd r r', In nd net -> is_conv (n_op nd) -> ~ all_kept pl (n_name nd) -> same_channels pl (n_name l0) (n_name nd) ->
    filters_layer m g (n_name l0) (keep pl (n_name nd)) fuel (n_name nd) "weight" r = Ok r' -> sound r -> good r r' /\ forall s, dw_chain nd s -> step_done r' s.
  Proof.
    intros Il Cl. induction fuel as [|fuel IH]; intros nd r r' I C K Sc H S; [discriminate|]. cbn [filters_layer] in H.
    inv_ok H. destruct (m_kind x); try discriminate. clear x E. inv_ok H. rename x into r4.
    assert (W : forall k d, own_dir nd k d -> fwanted k d) by (intros k d D; exists nd; auto).
    destruct (append_module_ok fwanted mwanted mfun r (n_name nd) "out_channels" (MSet (length (keep pl (n_name nd)))) S) as [G1 H1]; [exists nd; split; auto; split; auto; left; constructor; auto|].
    destruct (append_param_ok fwanted mwanted _ (n_name nd, "weight"%string) (D2 0 (keep pl (n_name nd))) (proj1 G1)) as [G2 H2]; [apply W; constructor; auto|].
    destruct (append_if_ok fwanted mwanted (has_bias m (n_name nd)) _ (n_name nd, "bias"%string) (D2 0 (keep pl (n_name nd))) (proj1 G2)) as [G3 H3]; [intro; apply W; constructor; auto|].
    match type of E with foldM _ _ ?r0 = _ => set (r3 := r0) in * end.
    pose proof (fun x => net_successors net (fp_net _ _ _ _ FP) ["Conv"; "Gemm"]%string nd x I) as N.
    assert (FL : good r3 r4 /\ forall s, In s net -> In (n_name s) (successors_f g (n_name nd) ["Conv"; "Gemm"]%string) -> cons_done r4 s /\ (depthwise s -> forall t, dw_chain s t -> step_done r4 t)).
    { clear H. assert (L : incl (successors_f g (n_name nd) ["Conv"; "Gemm"]%string) (successors_f g (n_name nd) ["Conv"; "Gemm"]%string)) by apply incl_refl. revert E L.
      generalize (successors_f g (n_name nd) ["Conv"; "Gemm"]%string) at 1 2 4 as l. generalize r3, (proj1 G3). clear r3 G1 G2 G3 H1 H2 H3.
      intros q Sq l. revert q Sq. induction l as [|x l IHl]; intros q Sq E L.
      - simpl in E. injection E as <-. split; [apply good_refl; auto|intros s _ []].
      - cbn [foldM] in E. inv_ok E. rename x0 into q1.
        destruct (proj1 (N x) (L x (or_introl eq_refl))) as (s & Is & -> & Ns & Ts & F).
        assert (ST : good q q1 /\ cons_done q1 s /\ (depthwise s -> forall t, dw_chain s t -> step_done q1 t)).
        { clear E. pose proof (flow_channels nd s I K _ F eq_refl Is) as (i & Ii & Si). pose proof (fp_nodes _ _ _ _ FP s Is) as Fs. unfold filters_ok in Fs.
          assert (Ki : ~ all_kept pl i) by (rewrite (same_kept _ _ Si); auto).
          apply layer_cases in Ts as [Cs|Ls].
          - destruct (n_op s) as [ge| | |f| |f] eqn:Os; try (destruct Cs; fail). clear Cs. assert (Cs : is_conv (n_op s)) by (rewrite Os; simpl; auto).
            destruct (n_in s) as [|i' [|? ?]] eqn:Es; try (destruct Fs; fail). destruct Ii as [->|[]].
            destruct Fs as (w & gr & Cc & kh & kw & Hw & Hk & Hic & Hoc & Hgr & Hc & Hb & Cases).
            inv_ok E0. rewrite (kind_of _ _ _ Hk E) in E0. rewrite (has_int_attr _ _ _ _ Hgr), (has_int_attr _ _ _ _ Hic) in E0. cbn [bind] in E0.
            destruct (append_module_ok fwanted mwanted mfun q (n_name s) "in_channels" (MSet (length (keep pl (n_name nd)))) Sq) as [A1 B1].
            { exists s. split; auto. split; auto. right; left. rewrite <- (proj2 Si). econstructor; eauto. }
            destruct (Nat.eqb_spec gr 1) as [->|G1].
            + injection E0 as <-. destruct (append_param_ok fwanted mwanted _ (n_name s, "weight"%string) (D2 1 (keep pl (n_name nd))) (proj1 A1)) as [A2 B2].
              { exists s. split; auto. right; left. rewrite <- (proj2 Si). econstructor; eauto. }
              split; [eapply good_trans; eauto|]. split.
              * split.
                -- intros k d D. inversion D as [i1 ? Ei|? ? Li]; subst; [|rewrite Os in Li; discriminate]. rewrite Es in Ei. injection Ei as <-. rewrite (proj2 Si). auto.
                -- intros a v A. inversion A as [i1 ? Ei|i1 gr' ? Ei ? Hg|? ? Li]; subst; [| |rewrite Os in Li; discriminate]; rewrite Es in Ei; injection Ei as <-.
                   ++ rewrite (proj2 Si). apply A2. auto.
                   ++ pose proof (has_int_fun _ _ _ _ _ Hgr Hg). congruence.
              * intros (_ & gr' & i1 & Hg & _ & Ng & _). pose proof (has_int_fun _ _ _ _ _ Hgr Hg). congruence.
            + destruct (Nat.eqb_spec gr (chans pl i)) as [Eg|]; [|discriminate].
              assert (Ss : same_channels pl (n_name s) i). { destruct Cases as [[-> _]|[(_ & _ & Ss & _)|(_ & _ & Ki' & _)]]; auto; congruence. }
              assert (Ssn : same_channels pl (n_name s) (n_name nd)) by (destruct Ss, Si; split; congruence).
              assert (Ks : ~ all_kept pl (n_name s)) by (rewrite (same_kept _ _ Ssn); auto).
              destruct (append_param_ok fwanted mwanted _ (n_name s, "weight"%string) (D2 0 (keep pl (n_name nd))) (proj1 A1)) as [A2 B2].
              { exists s. split; auto. left. rewrite <- (proj2 Ssn). constructor; auto. }
              destruct (append_module_ok fwanted mwanted mfun _ (n_name s) "groups" (MSet (length (keep pl (n_name nd)))) (proj1 A2)) as [A3 B3].
              { exists s. split; auto. split; auto. right; left. rewrite <- (proj2 Si). econstructor; eauto. }
              rewrite <- (proj2 Ssn) in E0, A1, A2, A3, B1, B2, B3.
              assert (Sls : same_channels pl (n_name l0) (n_name s)) by (destruct Sc, Ssn; split; congruence). destruct (IH s _ _ Is Cs Ks Sls E0 (proj1 A3)) as [A4 B4].
              assert (A : good q q1) by (eapply good_trans; [|exact A4]; eapply good_trans; [|exact A3]; eapply good_trans; eauto).
              split; auto. split; [|intros _; exact B4]. split.
              * intros k d D. inversion D as [i1 ? Ei ? Hg|? ? Li]; subst; [|rewrite Os in Li; discriminate]. pose proof (has_int_fun _ _ _ _ _ Hgr Hg). congruence.
              * intros a v Aa. inversion Aa as [i1 ? Ei|i1 gr' ? Ei ? Hg|? ? Li]; subst; [| |rewrite Os in Li; discriminate]; rewrite Es in Ei; injection Ei as <-; rewrite <- (proj2 Ss).
                -- apply A4, A3, A2. auto.
                -- apply A4. auto.
          - rewrite Ls in Fs. destruct (n_in s) as [|i' [|? ?]] eqn:Es; try (destruct Fs; fail). destruct Ii as [->|[]]. destruct Fs as (w & Ft & Hw & Hk & _).
            inv_ok E0. rewrite (kind_of _ _ _ Hk E) in E0.
            destruct (linear_successor_ok q l0 (keep pl (n_name nd)) s i q1) as [A B]; auto; [symmetry; apply Si|destruct Sc, Si; split; congruence|].
            split; auto. split; auto. intros (Cs & _). rewrite Ls in Cs. destruct Cs. }
        destruct ST as (A & B & D). destruct (IHl q1 (proj1 A) E) as [A' B']; [intros z Iz; apply L; right; auto|]. split; [eapply good_trans; eauto|].
        intros s' Is' [E'|J]; [|apply B'; auto]. apply (same_node net) in E'; auto; [|apply net_names; apply FP]. subst s'. split; [eapply cons_done_grows; [apply A'|auto]|].
        intros Dw t Ct. eapply step_done_grows; [apply A'|]. eapply D; eauto. }
    destruct FL as [G4 FL]. destruct (bn_successors_ok r4 nd r' I C K H (proj1 G4)) as [G5 BN].
    assert (G : good r r') by (eapply good_trans; [|exact G5]; eapply good_trans; [|exact G4]; eapply good_trans; [|exact G3]; eapply good_trans; [|exact G2]; exact G1).
    split; auto. intros s Ch. destruct Ch as [nd|nd t s It Nt Ft Dt Ch].
    - split; [|split; [|split]]; auto.
      + intros k d D. apply G5, G4. inversion D; subst; [apply G3|]; auto.
      + intros a v A. apply G5, G4, G3, G2. inversion A; subst. auto.
      + intros s Is Ns Ts F. eapply cons_done_grows; [apply G5|]. apply FL; auto. apply N. exists s. auto.
    - eapply step_done_grows; [apply G5|]. apply (FL t It); auto. apply N. exists t. split; auto. split; auto. split; auto. split; auto. apply layer_cases. left. apply Dt.
  Qed.

  (** the rows of a weight that are not all zero *)
  Lemma l1_zero l : (l1_norm l == 0)%Q <-> all_zero l.
  Proof.
    unfold l1_norm, all_zero. assert (P : forall l, (0 <= qsum (map Qabs.Qabs l))%Q) by (induction l0; simpl; [apply Qle_refl|pose proof (Qabs.Qabs_nonneg a); lra]).
    induction l as [|a l IH]; simpl; [split; [intros _ v []|reflexivity]|]. pose proof (Qabs.Qabs_nonneg a) as Pa. pose proof (P l) as Pl. split.
    - intros H v [<-|I].
      + assert (E : (Qabs.Qabs a == 0)%Q) by lra. pose proof (Qabs.Qle_Qabs a) as Q1. pose proof (Qabs.Qle_Qabs (- a)) as Q2. rewrite Qabs.Qabs_opp in Q2. lra.
      + apply IH; auto. lra.
    - intro H. rewrite (proj2 IH) by (intros; apply H; auto). rewrite (H a) by auto. reflexivity.
  Qed.
  Lemma nonzero_rows_spec w n rest : nd_shape w = n :: rest -> wf_nd w -> 0 < n ->
    nonzero_rows (filter_sums w) = filter (fun o => negb (Qeq_bool (l1_norm (filter_of w o)) 0)) (seq 0 n).
  Proof.
    intros S W P. unfold nonzero_rows, filter_sums. rewrite S. cbn [nth]. rewrite map_length, seq_length. unfold wf_nd in W. rewrite S in W. cbn [tl] in *. change (numel (n :: rest)) with (n * numel rest) in W.
    replace (length (nd_data w) / n) with (numel rest) by (rewrite W, Nat.mul_comm, Nat.div_mul; lia).
    apply filter_ext_in. intros o I. apply in_seq in I. f_equal. f_equal. unfold filter_of. rewrite S. cbn [tl].
    rewrite nth_indep with (d' := l1_norm (slice (numel rest) 0 (nd_data w))) by (rewrite map_length, seq_length; lia).
    rewrite (map_nth (fun j => l1_norm (slice (numel rest) j (nd_data w)))). rewrite seq_nth by lia. reflexivity.
  Qed.
  Lemma index_set_filter n K (f : nat -> bool) : index_set n K -> (forall o, o < n -> (In o K <-> f o = true)) -> filter f (seq 0 n) = K.
  Proof.
    intros [kp ->] H. apply filter_ext_in. intros o I. pose proof I as J. apply in_seq in J. specialize (H o ltac:(lia)). rewrite filter_In in H. destruct (kp o), (f o); intuition congruence.
  Qed.
  Lemma nonzero_rows_keep w n rest K : nd_shape w = n :: rest -> wf_nd w -> 0 < n -> index_set n K -> (forall o, o < n -> (In o K <-> nonzero_filter w o)) -> nonzero_rows (filter_sums w) = K.
  Proof.
    intros S W P I H. rewrite (nonzero_rows_spec w n rest) by auto. apply index_set_filter; auto. intros o L. rewrite H by auto. unfold nonzero_filter. rewrite <- l1_zero.
    rewrite negb_true_iff. rewrite <- Qeq_bool_iff. destruct (Qeq_bool _ _); intuition congruence.
  Qed.

  (** the indices the recipe computes for a convolution *)
  Lemma nonzero_cases nd p : In nd net -> is_conv (n_op nd) -> pget (ms_params m) (n_name nd, "weight"%string) = Some p ->
    (nonzero_rows (filter_sums (p_data p)) = keep pl (n_name nd) /\ nth 0 (nd_shape (p_data p)) 0 = chans pl (n_name nd)) \/
    ((nonzero_rows (filter_sums (p_data p)) = seq 0 (chans pl (n_name nd)) /\ (forall gr, has_int m (n_name nd) "groups" gr -> gr <> 1)) /\ nth 0 (nd_shape (p_data p)) 0 = chans pl (n_name nd)).
  Proof.
    intros I C Hk. pose proof (fp_nodes _ _ _ _ FP nd I) as Fn. unfold filters_ok in Fn. destruct (n_op nd) as [ge| | |f| |f] eqn:Os; try (destruct C; fail).
    destruct (n_in nd) as [|i [|? ?]] eqn:Es; try (destruct Fn; fail).
    destruct Fn as (w & gr & Cc & kh & kw & ((p' & Hp' & Ew) & Sw & Ww) & Hkd & Hic & Hoc & Hgr & Hc & Hb & Cases). rewrite Hk in Hp'. injection Hp' as <-. rewrite Ew in *. rewrite Sw. cbn [nth].
    pose proof (chans_pos (n_name nd)) as Pn. destruct (fp_keep _ _ _ _ FP (n_name nd)) as [Kx Ke].
    assert (A : forall K, index_set (chans pl (n_name nd)) K -> (forall o, o < chans pl (n_name nd) -> (In o K <-> nonzero_filter w o)) -> nonzero_rows (filter_sums w) = K) by (intros; eapply nonzero_rows_keep; eauto).
    assert (B : (forall o, o < chans pl (n_name nd) -> nonzero_filter w o) -> nonzero_rows (filter_sums w) = seq 0 (chans pl (n_name nd))).
    { intro Hn. apply A; [apply index_set_seq|]. intros o Lo. rewrite in_seq. split; [intros _; auto|intros _; lia]. }
    assert (G : gr <> 1 -> forall gr', has_int m (n_name nd) "groups" gr' -> gr' <> 1) by (intros Ng gr' H E; subst; apply Ng; eapply has_int_fun; eauto).
    destruct Cases as [(_ & Hn)|[(Ng & _ & _ & [Hn|Hn])|(Ng & _ & _ & Hn)]]; auto.
  Qed.

  Lemma recipe_loop_ok r : recipe_filters m g = Ok r -> sound r /\
    forall root, In root net -> is_conv (n_op root) -> has_int m (n_name root) "groups" 1 -> ~ all_kept pl (n_name root) -> forall s, dw_chain root s -> step_done r s.
  Proof.
    unfold recipe_filters. intro H.
    set (body := fun (r : recipe) (e : pname * param) => _) in H.
    assert (G : forall l r0 r, incl l (ms_params m) -> sound r0 -> foldM body l r0 = Ok r -> good r0 r /\
      forall root p, In ((n_name root, "weight"%string), p) l -> In root net -> is_conv (n_op root) -> has_int m (n_name root) "groups" 1 -> ~ all_kept pl (n_name root) -> forall s, dw_chain root s -> step_done r s).
    { clear H r. induction l as [|[k p] l IH]; intros r0 r L S H.
      - simpl in H. injection H as <-. split; [apply good_refl; auto|intros ? ? []].
      - cbn [foldM] in H. inv_ok H. rename x into r1. assert (Hk : pget (ms_params m) k = Some p) by (apply pget_nodup; [apply FP|apply L; left; auto]).
        assert (ST : good r0 r1 /\ forall root, k = (n_name root, "weight"%string) -> In root net -> is_conv (n_op root) -> has_int m (n_name root) "groups" 1 -> ~ all_kept pl (n_name root) -> forall s, dw_chain root s -> step_done r1 s).
        { unfold body in E. cbn [fst snd] in E. unfold ndim in E. destruct (Nat.eqb_spec (length (nd_shape (p_data p))) 4) as [E4|N4]; cbn [negb] in E.
          - destruct (fp_4d _ _ _ _ FP k p Hk E4) as (nd & I & C & ->). cbn [fst snd] in E.
            pose proof (fp_nodes _ _ _ _ FP nd I) as Fn. unfold filters_ok in Fn. destruct (n_op nd) as [ge| | |f| |f] eqn:Os; try (destruct C; fail).
            destruct (n_in nd) as [|i [|? ?]] eqn:Es; try (destruct Fn; fail).
            destruct Fn as (w & gr & Cc & kh & kw & ((p' & Hp' & Ew) & Sw & Ww) & Hkd & Hic & Hoc & Hgr & Hc & Hb & Cases). rewrite Hk in Hp'. injection Hp' as <-. rewrite Ew in *.
            pose proof (chans_pos (n_name nd)) as Pn. destruct (fp_keep _ _ _ _ FP (n_name nd)) as [Kx Ke].
            assert (NZ : nonzero_rows (filter_sums w) = keep pl (n_name nd) \/ (nonzero_rows (filter_sums w) = seq 0 (chans pl (n_name nd)) /\ gr <> 1)).
            { assert (A : forall K, index_set (chans pl (n_name nd)) K -> (forall o, o < chans pl (n_name nd) -> (In o K <-> nonzero_filter w o)) -> nonzero_rows (filter_sums w) = K) by (intros; eapply nonzero_rows_keep; eauto).
              assert (B : (forall o, o < chans pl (n_name nd) -> nonzero_filter w o) -> nonzero_rows (filter_sums w) = seq 0 (chans pl (n_name nd))).
              { intro Hn. apply A; [apply index_set_seq|]. intros o Lo. rewrite in_seq. split; [intros _; auto|intros _; lia]. }
              destruct Cases as [(_ & Hn)|[(Ng & _ & _ & [Hn|Hn])|(Ng & _ & _ & Hn)]]; auto. }
            rewrite Sw in E. cbn [nth] in E.
            destruct NZ as [NZ|[NZ Ng]]; rewrite NZ in E.
            + destruct (Nat.eqb_spec (length (keep pl (n_name nd))) 0); [discriminate|].
              destruct (Nat.leb_spec (chans pl (n_name nd)) (length (keep pl (n_name nd)))) as [Le|Lt].
              * injection E as <-. split; [apply good_refl; auto|]. intros root Er Ir Cr Gr Kr. exfalso. injection Er as Er. rewrite <- Er in Kr. apply Kr.
                apply index_set_full; auto. pose proof (index_set_le _ _ Kx). lia.
              * assert (Kn : ~ all_kept pl (n_name nd)) by (intro A; rewrite A, seq_length in Lt; lia).
                assert (Cn : is_conv (n_op nd)) by (rewrite Os; simpl; auto).
                destruct (layer_ok nd I Cn (layer_fuel m) nd r0 r1 I Cn Kn (conj eq_refl eq_refl) E S) as [A B]. split; auto.
                intros root Er Ir Cr Gr Kr s. injection Er as Er. apply (same_node net) in Er; auto; [|apply net_names; apply FP]. subst root. auto.
            + rewrite seq_length in E. destruct (Nat.eqb_spec (chans pl (n_name nd)) 0); [discriminate|]. rewrite (proj2 (Nat.leb_le _ _) (le_n _)) in E. injection E as <-.
              split; [apply good_refl; auto|]. intros root Er Ir Cr Gr Kr. exfalso. injection Er as Er. rewrite Er in Hgr. apply Ng. eapply has_int_fun; eauto.
          - injection E as <-. split; [apply good_refl; auto|]. intros root -> Ir Cr Gr Kr. exfalso.
            pose proof (fp_nodes _ _ _ _ FP root Ir) as Fn. unfold filters_ok in Fn. destruct (n_op root) as [ge| | |f| |f] eqn:Os; try (destruct Cr; fail).
            destruct (n_in root) as [|i [|? ?]] eqn:Es; try (destruct Fn; fail). destruct Fn as (w & gr & Cc & kh & kw & ((p' & Hp' & Ew) & Sw & Ww) & _). rewrite Hk in Hp'. injection Hp' as <-. rewrite Ew, Sw in N4. auto. }
        destruct ST as [A B]. destruct (IH r1 r) as [A' B']; auto; [intros z Iz; apply L; right; auto|apply A|]. split; [eapply good_trans; eauto|].
        intros root p' [E'|J] Ir Cr Gr Kr s Ch; [|eapply B'; eauto]. injection E' as E1 E2. eapply step_done_grows; [apply A'|]. eapply B; eauto. }
    destruct (G (ms_params m) empty_recipe r (incl_refl _) (sound_empty _ _) H) as [A B]. split; [apply A|].
    intros root Ir Cr Gr Kr s Ch. pose proof (fp_nodes _ _ _ _ FP root Ir) as Fn. unfold filters_ok in Fn. destruct (n_op root) as [ge| | |f| |f] eqn:Os; try (destruct Cr; fail).
    destruct (n_in root) as [|i [|? ?]] eqn:Es; try (destruct Fn; fail). destruct Fn as (w & gr & Cc & kh & kw & ((p' & Hp' & Ew) & Sw & Ww) & _).
    eapply (B root p'); eauto. apply pget_in; auto. rewrite Os. simpl. auto.
  Qed.

  (** every thinned convolution is processed *)
  Lemma dw_chain_snoc a b c : dw_chain a b -> In c net -> flows net layer (n_name b) (n_name c) -> depthwise c -> dw_chain a c.
  Proof.
    intros H Ic F D. assert (N : c <> b) by (apply not_eq_sym; eapply flows_neq; eauto; apply FP).
    induction H as [n|n t s It Nt Ft Dt H IH]; [eapply dw_step; eauto; constructor|]. apply (dw_step n t c); auto.
  Qed.
  Definition rooted (s : node) : Prop := exists root, In root net /\ is_conv (n_op root) /\ has_int m (n_name root) "groups" 1 /\ ~ all_kept pl (n_name root) /\ dw_chain root s.
  Definition source (i : string) (t : node) : Prop := In t net /\ is_conv (n_op t) /\ ~ all_kept pl (n_name t) /\ rooted t /\
    (i = n_name t \/ exists nd, In nd net /\ i = n_name nd /\ ~ layer (n_op nd) /\ flows net layer (n_name t) i).
  Lemma source_flows nd i t : In nd net -> In i (n_in nd) -> source i t -> flows net layer (n_name t) (n_name nd).
  Proof.
    intros I J (It & _ & _ & _ & [->|(nd' & I' & -> & T & F)]); [apply flows_in; auto|]. eapply flows_through; eauto.
  Qed.
  Lemma sources : forall nd, In nd net -> ~ all_kept pl (n_name nd) -> exists t, source (n_name nd) t.
  Proof.
    apply (net_induction net (fun nd => ~ all_kept pl (n_name nd) -> exists t, source (n_name nd) t)); [apply FP|].
    intros nd I IH K.
    assert (Inp : forall i, In i (n_in nd) -> ~ all_kept pl i -> exists t, source i t).
    { intros i J Ki. destruct (input_known net (fp_net _ _ _ _ FP) nd i I J) as [<-|N]; [exfalso; apply Ki; apply FP|]. apply in_map_iff in N as (nd' & <- & I'). apply IH; auto. }
    assert (Pass : forall i, In i (n_in nd) -> same_channels pl (n_name nd) i -> ~ layer (n_op nd) -> exists t, source (n_name nd) t).
    { intros i J Sc T. destruct (Inp i J) as (t & St); [rewrite <- (same_kept _ _ Sc); auto|]. pose proof (source_flows nd i t I J St) as F. destruct St as (It & Ct & Kt & Rt & _).
      exists t. split; auto. split; auto. split; auto. split; auto. right. exists nd. auto. }
    pose proof (fp_nodes _ _ _ _ FP nd I) as F. unfold filters_ok in F.
    destruct (n_op nd) as [ge| | |f| |f] eqn:E.
    - destruct (n_in nd) as [|i [|? ?]] eqn:Ei; try (destruct F; fail).
      destruct F as (w & gr & Cc & kh & kw & Hw & Hkd & Hic & Hoc & Hgr & Hc & Hb & Cases). assert (Cn : is_conv (n_op nd)) by (rewrite E; simpl; auto).
      destruct Cases as [(-> & _)|[(Ng & -> & Sc & _)|(_ & Kn & _)]]; [| |contradiction].
      + exists nd. split; auto. split; auto. split; auto. split; auto. exists nd. repeat (split; auto). constructor.
      + destruct (Inp i) as (t & St); [left; auto|rewrite <- (same_kept _ _ Sc); auto|].
        pose proof (source_flows nd i t I ltac:(rewrite Ei; left; auto) St) as F. destruct St as (It & Ct & Kt & (root & Ir & Cr & Gr & Kr & Ch) & _).
        exists nd. split; auto. split; auto. split; auto. split; auto. exists root. repeat (split; auto). eapply dw_chain_snoc; eauto.
        split; auto. exists gr, i. repeat (split; auto). lia.
    - destruct (n_in nd) as [|i [|? ?]] eqn:Ei; try (destruct F; fail). destruct F as (w & Ft & _ & _ & _ & _ & _ & Kn & _). contradiction.
    - destruct (n_in nd) as [|i [|? ?]] eqn:Ei; try (destruct F; fail). apply (Pass i); [left; auto| |unfold stops; simpl; intuition discriminate]. destruct F as (? & ? & ? & ? & F). apply F.
    - destruct (n_in nd) as [|i [|? ?]] eqn:Ei; try (destruct F; fail). apply (Pass i); [left; auto| |unfold stops; simpl; intuition discriminate]. apply F.
    - destruct (n_in nd) as [|i [|j [|? ?]]] eqn:Ei; try (destruct F; fail). apply (Pass i); [left; auto| |unfold stops; simpl; intuition discriminate]. apply F.
    - destruct F as (Kn & _). contradiction.
  Qed.
  Lemma conv_rooted nd : In nd net -> is_conv (n_op nd) -> ~ all_kept pl (n_name nd) -> rooted nd.
  Proof.
    intros I C K. destruct (sources nd I K) as (t & It & Ct & Kt & Rt & [E|(nd' & I' & E & T & _)]); apply (same_node net) in E; auto; try (apply net_names; apply FP); subst; auto.
    exfalso. apply T. apply layer_cases. auto.
  Qed.

  Theorem recipe_complete r : recipe_filters m g = Ok r -> sound r /\ (forall k d, fwanted k d <-> has r k d) /\ (forall n a v, mwanted n a v <-> mhas r n a v).
  Proof.
    intro H. destruct (recipe_loop_ok r H) as [S D].
    assert (Dn : forall nd, rooted nd -> step_done r nd) by (intros nd (root & A & B & Cc & E & F); eapply D; eauto).
    assert (Cd : forall s i, In s net -> layer (n_op s) -> n_in s = [i] -> ~ all_kept pl i -> cons_done r s).
    { intros s i Is Ts Ei Ki. assert (J : In i (n_in s)) by (rewrite Ei; left; auto). destruct (input_known net (fp_net _ _ _ _ FP) s i Is J) as [<-|N]; [exfalso; apply Ki; apply FP|].
      apply in_map_iff in N as (nd' & <- & I'). destruct (sources nd' I' Ki) as (t & St). pose proof (source_flows s _ t Is J St) as F. destruct St as (It & Ct & Kt & Rt & _).
      apply (Dn t Rt); auto. apply not_eq_sym. eapply flows_neq; eauto. apply FP. }
    assert (Bd : forall b, In b net -> is_bn (n_op b) -> ~ all_kept pl (n_name b) -> bn_done r b).
    { intros b Ib Tb Kb. destruct (fp_bn_all _ _ _ _ FP b Ib Tb) as [|(a & Ia & Ca & Ka & F)]; [contradiction|]. apply (Dn a); auto.
      - apply conv_rooted; auto.
      - intros ->. destruct (n_op a); simpl in *; contradiction.
      - apply bnorm_is; auto.
      - eapply flows_iff; [|exact F]. intro. symmetry. apply bnorm_is. }
    split; auto. split.
    - intros k d. split.
      + intros (nd & I & [A|[A|A]]).
        * assert (Rn : rooted nd) by (apply conv_rooted; auto; inversion A; auto). destruct (Dn nd Rn) as (D1 & D2 & _). auto.
        * inversion A; subst; (destruct (Cd nd i) as [C1 C2]; [auto|apply layer_cases; auto|auto|auto|auto]).
        * destruct (Bd nd) as [B1 B2]; [auto|inversion A; auto|inversion A; auto|auto].
      + intros (ds & G & J). eapply (so_params _ _ r S); eauto.
    - intros n a v. split.
      + intros (nd & I & -> & [A|[A|A]]).
        * assert (Rn : rooted nd) by (apply conv_rooted; auto; inversion A; auto). destruct (Dn nd Rn) as (D1 & D2 & _). auto.
        * inversion A; subst; (destruct (Cd nd i) as [C1 C2]; [auto|apply layer_cases; auto|auto|auto|auto]).
        * destruct (Bd nd) as [B1 B2]; [auto|inversion A; auto|inversion A; auto|auto].
      + intros (md & G & J). eapply (so_mods _ _ r S); eauto. apply dget_In; auto.
  Qed.
End Plan.
