(** Proofs about the inputs phase of the greedy search. *)
From Coq Require Import String List ZArith QArith Bool Arith Lia Lqa.
From Verif Require Import Base GreedyModel GreedySpec GreedyProofs GreedyProofs2.
Import ListNotations.
Open Scope list_scope.

Lemma inputs_get args : forall d n,
  dget (fold_left (fun d (a : string * nat) => dset d (fst a) ((match dget d (fst a) with Some l => l | None => [] end) ++ [snd a])) args d) n =
  match indices_for n args with [] => dget d n | l => Some ((match dget d n with Some l0 => l0 | None => [] end) ++ l) end.
Proof.
  induction args as [|(m, i) args IH]; intros d n; auto.
  cbn [fold_left fst snd]. rewrite IH. unfold indices_for. cbn [filter fst].
  destruct (String.eqb_spec n m) as [->|Hn].
  - rewrite dget_dset_same. cbn [map snd]. destruct (map snd (filter (fun a => String.eqb m (fst a)) args)) as [|x l] eqn:E.
    + auto.
    + f_equal. rewrite <- app_assoc. auto.
  - rewrite dget_dset_other by auto. auto.
Qed.

Lemma inputs_dget args n : dget (get_inputs_to_quantize args) n =
  match indices_for n args with [] => None | l => Some l end.
Proof. unfold get_inputs_to_quantize. rewrite inputs_get. simpl. auto. Qed.

Lemma inputs_NoDup args : NoDup (dkeys (get_inputs_to_quantize args)).
Proof.
  unfold get_inputs_to_quantize. assert (NoDup (dkeys (@nil (string * list nat)))) as H by constructor.
  revert H. generalize (@nil (string * list nat)) as d. induction args as [|a args IH]; intros d H; auto.
  simpl. apply IH, dset_NoDup, H.
Qed.

Section Inputs.
Variable score : dict ov -> res Q.
Variable modules : dict mclass.
Variable npred : string -> nat.
Variables ba bw : val.
Definition default_in_gen (n : string) (idx : nat) (_ : dict ov) : res (list ov) :=
  match dget modules n with Some c => input_override_generator c (npred n) idx ba bw | None => Raise KeyError end.

Definition only_input (idx : nat) (clip : string) : val :=
  VInputs [(idx, VDict [("bits_activations", ba); ("clip_acts", VStr clip)])]%string.

Lemma default_in_gen_in n idx b cands o : default_in_gen n idx b = Ok cands -> In o cands ->
  NoDup (dkeys o) /\ exists clip, In clip clip_modes /\ dget o "input_overrides" = Some (only_input idx clip).
Proof.
  unfold default_in_gen. destruct (dget modules n) as [c|]; [|discriminate]. intros H Ho.
  split; [apply default_input_uniform in H; apply H; auto|].
  unfold input_override_generator in H. destruct (Nat.ltb idx (npred n)); [|discriminate].
  match type of H with Ok ?x = Ok _ => assert (x = cands) as <- by congruence end.
  apply in_map_iff in Ho. destruct Ho as (clip & <- & Hin). exists clip. split; auto.
  destruct (is_param c); reflexivity.
Qed.

Lemma default_in_gen_nonempty n idx b cands : default_in_gen n idx b = Ok cands -> cands <> [].
Proof.
  unfold default_in_gen. destruct (dget modules n) as [c|]; [|discriminate]. unfold input_override_generator.
  destruct (Nat.ltb idx (npred n)); [|discriminate]. intros H ->. discriminate.
Qed.

Lemma input_steps n best0 idxs : forall e b, 
  foldM (input_step score default_in_gen n) idxs (dset best0 n e) = Ok b ->
  exists e', b = dset best0 n e' /\
    match rev idxs with
    | [] => e' = e
    | idx :: _ => exists clip, In clip clip_modes /\ dget e' "input_overrides" = Some (only_input idx clip)
    end.
Proof.
  induction idxs as [|i l IH] using rev_ind; intros e b H.
  - cbn [foldM] in H. inversion H; subst. exists e. split; reflexivity.
  - rewrite foldM_app in H. apply bind_ok in H. destruct H as (b1 & H1 & H2).
    apply IH in H1. destruct H1 as (e1 & -> & _). cbn [foldM] in H2.
    apply bind_ok in H2. destruct H2 as (b2 & H2 & H3). inversion H3; subst; clear H3.
    unfold input_step in H2. apply bind_ok in H2. destruct H2 as (cands & Hg & H2).
    apply bind_ok in H2. destruct H2 as (o & Ho & H2). unfold update_at in H2. rewrite dget_dset_same in H2.
    inversion H2; subst; clear H2. rewrite dset_twice. exists (dupdate e1 o). split; auto. rewrite rev_unit.
    apply search_in in Ho. destruct Ho as [(-> & _)|Ho].
    + apply default_in_gen_nonempty in Hg. tauto.
    + destruct (default_in_gen_in _ _ _ _ _ Hg Ho) as (Hnd & clip & Hc & Hd). exists clip. split; auto.
      rewrite dupdate_dget, Hd by auto. auto.
Qed.

Definition input_entry (idxs : list nat) (e : ov) : Prop :=
  exists pre idx clip, idxs = pre ++ [idx] /\ In clip clip_modes /\ e = [("input_overrides"%string, only_input idx clip)].

Lemma input_module_fresh best n idxs st : ~ In n (dkeys best) -> idxs <> [] ->
  input_module score modules default_in_gen (best, []) (n, idxs) = Ok st ->
  if skipped modules n then st = (best, [])
  else exists e, input_entry idxs e /\ st = (best ++ [(n, e)], []).
Proof.
  intros Hn Hi H. unfold input_module in H. apply bind_ok in H. destruct H as (c & Hm & H).
  unfold module_of in Hm. unfold skipped. destruct (dget modules n) as [c'|]; inversion Hm; subst.
  destruct (is_skip c); [inversion H; auto|].
  assert (dget best n = None) as Hb by (apply dget_None_notin; auto). rewrite Hb in H. cbn [has dget] in H.
  apply bind_ok in H. destruct H as (b1 & H1 & H2).
  rewrite ensure_dset in H1. apply input_steps in H1. destruct H1 as (e' & -> & He).
  rewrite dget_dset_same in H2.
  destruct (rev idxs) as [|idx r] eqn:Er.
  { apply (f_equal (@rev nat)) in Er. rewrite rev_involutive in Er. simpl in Er. tauto. }
  destruct He as (clip & Hc & Hd). rewrite Hd, dset_twice in H2. inversion H2; subst; clear H2.
  exists [("input_overrides"%string, only_input idx clip)]. split.
  - exists (rev r), idx, clip. split; auto. apply (f_equal (@rev nat)) in Er. rewrite rev_involutive in Er. auto.
  - rewrite dset_app by auto. auto.
Qed.

Lemma inputs_run l : forall best st, NoDup (dkeys best ++ dkeys l) -> (forall n idxs, In (n, idxs) l -> idxs <> []) ->
  foldM (input_module score modules default_in_gen) l (best, []) = Ok st ->
  exists new, st = (best ++ new, []) /\
    dkeys new = filter (fun n => negb (skipped modules n)) (dkeys l) /\
    (forall n e, In (n, e) new -> exists idxs, In (n, idxs) l /\ input_entry idxs e).
Proof.
  induction l as [|(n, idxs) l IH]; intros best st Hnd Hi H.
  - cbn [foldM] in H. inversion H; subst. exists []. rewrite app_nil_r. simpl. intuition.
  - cbn [foldM] in H. apply bind_ok in H. destruct H as (st1 & H1 & H2). simpl in Hnd.
    assert (~ In n (dkeys best)) as Hn by (intro Hx; apply NoDup_remove_2 in Hnd; apply Hnd, in_or_app; auto).
    apply input_module_fresh in H1; [|auto|apply (Hi n idxs); simpl; auto].
    simpl. destruct (skipped modules n).
    + subst st1. apply IH in H2.
      * destruct H2 as (new & -> & Hk & He). exists new. split; auto. split; auto.
        intros m e Hm. destruct (He m e Hm) as (i & Hin & ?). exists i. auto.
      * apply NoDup_remove_1 in Hnd. auto.
      * intros; eapply Hi; simpl; eauto.
    + destruct H1 as (e0 & He0 & ->). apply IH in H2.
      * destruct H2 as (new & -> & Hk & He). exists ((n, e0) :: new). rewrite <- app_assoc. split; auto.
        split; [simpl; f_equal; auto|]. intros m e [Hm|Hm].
        -- inversion Hm; subst. exists idxs. auto.
        -- destruct (He m e Hm) as (i & Hin & ?). exists i. auto.
      * unfold dkeys in *. rewrite map_app, <- app_assoc. auto.
      * intros; eapply Hi; simpl; eauto.
Qed.
End Inputs.

(** * Totality *)
Lemma search_score_total score n cands : (forall d, exists q, score d = Ok q) ->
  forall b, exists o, search_best_local_settings score n b cands = Ok o.
Proof.
  intros Hs b. unfold search_best_local_settings.
  assert (forall l st, exists st', foldM (try_override score n) l st = Ok st') as L.
  { induction l as [|c l IH]; intros ((S & bp) & bl); cbn [foldM]; eauto.
    unfold try_override at 1. rewrite update_ensure. cbn [bind].
    destruct (Hs (dset S n (dupdate (entry_of S n) c))) as (q & ->). cbn [bind].
    destruct (match bp with None => true | Some b0 => Qltb b0 q end); cbn [bind]; apply IH. }
  destruct (L cands (b, None, [])) as (st & Hst). exists (snd st). unfold ov, dict in *. rewrite Hst. auto.
Qed.

Lemma run_total score modules gen l : (forall d, exists q, score d = Ok q) -> (forall n d, exists cands, gen n d = Ok cands) ->
  (forall n, In n l -> In n (dkeys modules)) -> forall st, exists st', foldM (module_step score modules gen) l st = Ok st'.
Proof.
  intros Hs Hg. induction l as [|n l IH]; intros Hm st; cbn [foldM]; eauto.
  assert (exists st1, module_step score modules gen st n = Ok st1) as (st1 & ->).
  { destruct st as ((b & loaded) & saved). unfold module_step, module_of.
    destruct (dget modules n) as [c|] eqn:E.
    2: { exfalso. apply dget_None_notin in E. apply E, Hm. simpl; auto. }
    cbn [bind]. destruct (is_skip c); eauto.
    match goal with |- context [if ?x then _ else _] => destruct x end; eauto.
    rewrite fc_base. cbn [bind]. destruct (Hg n (dset b n (base_of b n))) as (cands & ->). cbn [bind].
    destruct (search_score_total score n cands Hs (dset b n (base_of b n))) as (o & ->). cbn [bind].
    unfold update_at. rewrite dget_dset_same. cbn [bind]. eauto. }
  cbn [bind]. apply IH. intros; apply Hm; simpl; auto.
Qed.
