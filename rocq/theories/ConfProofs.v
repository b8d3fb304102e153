(** Lemmas about the configuration. *)
From Coq Require Import String List ZArith Bool Lia.
From Verif Require Import Base ConfModel ConfSpec.
Import ListNotations.
Local Open Scope string_scope.
Open Scope list_scope.

Section P.
Context {Arg Obj Pol Sched : Type}.
Variable classes : string -> option (@cls Arg Obj).
Variable make_policy : pkind -> Obj -> option (dict Arg) -> res Pol.
Variable add : Sched -> Pol -> when -> res Sched.
Variable v_model v_optimizer : Arg.
Variable v_name : string -> Arg.
Variable v_last_epoch : Z -> Arg.

Notation build := (build_component classes v_model v_name).
Notation passed := (passed v_model v_name).

Lemma dget_filter {A} (f : string -> bool) (d : dict A) k : dget (filter (fun kv => f (fst kv)) d) k = if f k then dget d k else None.
Proof.
  induction d as [|[k' v] d IH]; simpl; [destruct (f k); auto|]. destruct (f k') eqn:E; simpl; rewrite IH; destruct (String.eqb_spec k k') as [->|N]; auto; rewrite E; auto.
Qed.
Lemma dget_update (extra d : dict Arg) k : dict_ok extra -> dget (update d extra) k = match dget extra k with Some v => Some v | None => dget d k end.
Proof.
  unfold dict_ok, update. revert d; induction extra as [|[k' v] extra IH]; intros d H; simpl; auto. inversion H as [|? ? H1 H2]; subst. rewrite IH by auto.
  destruct (String.eqb_spec k k') as [->|N].
  - rewrite (proj2 (dget_None_notin extra k')) by auto. apply dget_dset_same.
  - destruct (dget extra k); auto. apply dget_dset_other. auto.
Qed.
Lemma dmem_In {A} (d : dict A) k : dmem d k = true <-> In k (dkeys d).
Proof.
  unfold dmem. destruct (dget d k) eqn:E; split; auto; try discriminate; intro H.
  - apply dget_In in E. apply (in_map fst) in E. auto.
  - exfalso. apply dget_None_notin in E. auto.
Qed.
Lemma existsb_eqb k l : existsb (String.eqb k) l = true <-> In k l.
Proof. rewrite existsb_exists. split; [intros (x & I & E); apply String.eqb_eq in E as ->; auto|intro I; exists k; rewrite String.eqb_refl; auto]. Qed.
Lemma existsb_eqb_false k l : ~ In k l -> existsb (String.eqb k) l = false.
Proof. intro N. destruct (existsb (String.eqb k) l) eqn:E; auto. apply existsb_eqb in E. contradiction. Qed.

Lemma filter_nil {A} (f : A -> bool) l : filter f l = [] <-> forall x, In x l -> f x = false.
Proof.
  induction l as [|a l IH]; simpl; [split; [intros _ ? []|auto]|]. destruct (f a) eqn:E; split; intro H; try discriminate.
  - rewrite (H a) in E by auto. discriminate.
  - intros x [<-|I]; auto. apply IH; auto.
  - apply IH. auto.
Qed.

(** a component whose user arguments are all accepted *)
Lemma build_ok name co extra cn c : co_class co = Some cn -> classes cn = Some c -> dict_ok extra -> ~ In "self" (dkeys extra) -> ~ In "self" (dkeys (co_args co)) ->
  ~ In "self" (c_accepts c) -> (forall k, In k (dkeys (co_args co)) -> In k (c_accepts c)) ->
  exists args, passed c name extra (co_args co) args /\ build name co extra = (c_new c args, mkComp None (co_args co)).
Proof.
  intros Hc Hk He Hs Hs' Hsa Hu. unfold build_component. rewrite Hc, Hk. unfold filter_kwargs at 1.
  assert (Sig : forall k, in_sig c k = true <-> k = "self" \/ In k (c_accepts c)).
  { intro k. unfold in_sig. rewrite existsb_eqb. simpl. intuition congruence. }
  assert (Fi : filter (fun kv => negb (in_sig c (fst kv))) (co_args co) = []).
  { apply filter_nil. intros [k v] I. cbn [fst]. apply negb_false_iff. apply Sig. right. apply Hu. apply (in_map fst) in I. auto. }
  rewrite Fi. set (valid := filter (fun kv => in_sig c (fst kv)) (co_args co)).
  set (v1 := dset (dset (update valid extra) "model" v_model) "name" (v_name name)).
  assert (G : forall k, dget v1 k = if String.eqb k "name" then Some (v_name name) else if String.eqb k "model" then Some v_model
                        else match dget extra k with Some v => Some v | None => if in_sig c k then dget (co_args co) k else None end).
  { intro k. unfold v1. destruct (String.eqb_spec k "name") as [->|N1]; [apply dget_dset_same|]. rewrite dget_dset_other by auto.
    destruct (String.eqb_spec k "model") as [->|N2]; [apply dget_dset_same|]. rewrite dget_dset_other by auto. rewrite dget_update by auto. unfold valid. rewrite dget_filter. reflexivity. }
  assert (NS : dget v1 "self" = None).
  { rewrite G. simpl. rewrite (proj2 (dget_None_notin extra "self")) by auto. rewrite (proj2 (dget_None_notin (co_args co) "self")) by auto. destruct (in_sig c "self"); auto. }
  exists (fst (filter_kwargs c v1)). split.
  - intro k. unfold filter_kwargs. cbn [fst]. rewrite dget_filter, G. destruct (in_sig c k) eqn:S.
    + apply Sig in S as [->|S].
      * rewrite existsb_eqb_false by auto. rewrite <- G. auto.
      * rewrite (proj2 (existsb_eqb _ _) S). reflexivity.
    + assert (N : ~ In k (c_accepts c)) by (intro I; rewrite (proj2 (Sig k)) in S; auto; discriminate). rewrite existsb_eqb_false by auto. reflexivity.
  - unfold new. destruct (dmem (fst (filter_kwargs c v1)) "self") eqn:D; [|reflexivity]. exfalso. unfold dmem, filter_kwargs in D. cbn [fst] in D. rewrite dget_filter, NS in D. destruct (in_sig c "self"); discriminate.
Qed.

Definition no_self := forall cn c, classes cn = Some c -> ~ In "self" (c_accepts c).

Lemma build_inv name co extra o co' : no_self -> dict_ok extra -> ~ In "self" (dkeys extra) -> ~ In "self" (dkeys (co_args co)) -> build name co extra = (Ok o, co') ->
  co' = mkComp None (co_args co) /\
  exists cn c args, co_class co = Some cn /\ classes cn = Some c /\ (forall k, In k (dkeys (co_args co)) -> In k (c_accepts c)) /\ passed c name extra (co_args co) args /\ c_new c args = Ok o.
Proof.
  intros Hself He Hs Hs' H. pose proof H as H0. unfold build_component in H. destruct (co_class co) as [cn|] eqn:Hc; [|discriminate]. destruct (classes cn) as [c|] eqn:Hk; [|discriminate].
  assert (Hu : forall k, In k (dkeys (co_args co)) -> In k (c_accepts c)).
  { intros k I. unfold filter_kwargs at 1 in H. destruct (filter (fun kv => negb (in_sig c (fst kv))) (co_args co)) eqn:F; [|discriminate].
    apply in_map_iff in I as ([k' v] & E & I). cbn [fst] in E. subst k'. rewrite filter_nil in F. specialize (F (k, v) I). cbn [fst] in F. apply negb_false_iff in F. unfold in_sig in F. apply existsb_eqb in F as [<-|F]; auto.
    exfalso. apply Hs'. apply (in_map fst) in I. exact I. }
  destruct (build_ok name co extra cn c Hc Hk He Hs Hs' (Hself _ _ Hk) Hu) as (args & P & E). rewrite E in H0. injection H0 as H0 <-. split; auto. exists cn, c, args. auto.
Qed.

Lemma factory_inv extra sec r sec' : no_self -> dict_ok extra -> ~ In "self" (dkeys extra) -> comps_ok sec -> factory classes v_model v_name extra sec = (Ok r, sec') ->
  (forall n o, dget r n = Some o -> instance classes v_model v_name extra sec n o) /\
  (match sec with None => sec' = None /\ r = [] | Some l => length r = length l /\ sec' = Some (map (fun nc => (fst nc, mkComp None (co_args (snd nc)))) l) end).
Proof.
  intros Hself He Hs Hok H. unfold factory in H. destruct sec as [l|]; [|injection H as <- <-; split; [intros n o [=]|auto]].
  destruct (factory_loop classes v_model v_name extra l) as [r0 l0] eqn:E. injection H as -> <-. destruct Hok as [_ Hl].
  assert (K : (forall n o, dget r n = Some o -> exists co, In (n, co) l /\ fst (build n co extra) = Ok o) /\ length r = length l /\ l0 = map (fun nc => (fst nc, mkComp None (co_args (snd nc)))) l).
  { clear -E Hself He Hs Hl. revert r l0 E. induction l as [|[n co] l IH]; intros r l0 E; simpl in E.
    - injection E as <- <-. split; [intros ? ? [=]|auto].
    - destruct (build n co extra) as [[o|e] co'] eqn:B; [|discriminate]. destruct (factory_loop classes v_model v_name extra l) as [[r1|e] l1] eqn:F; [|discriminate]. injection E as <- <-.
      destruct (Hl n co (or_introl eq_refl)) as [_ Hns]. destruct (build_inv _ _ _ _ _ Hself He Hs Hns B) as [-> _].
      destruct (IH (fun a b I => Hl a b (or_intror I)) _ _ eq_refl) as (A & L & ->). split; [|split; [simpl; auto|reflexivity]]. intros m o'. simpl. destruct (String.eqb_spec m n) as [->|N].
      + intros [= <-]. exists co. split; [left; auto|]. rewrite B. reflexivity.
      + intro G. destruct (A m o' G) as (c' & I & G'). exists c'. split; [right; auto|auto]. }
  destruct K as (A & L & ->). split; [|auto]. intros n o G. destruct (A n o G) as (co & I & B). destruct (Hl n co I) as [_ Hns].
  destruct (build n co extra) as [r1 co'] eqn:B'. simpl in B. subst r1. destruct (build_inv _ _ _ _ _ Hself He Hs Hns B') as (_ & cn & c & args & P1 & P2 & P3 & P4 & P5).
  exists l, co, cn, c, args. auto 8.
Qed.

(** * The loops *)
Definition good (cs : insts) (sd : sdict) (re : option Z) (lr : bool) : Prop :=
  forall k n o, (k = KLr -> lr = true) -> dget (insts_of cs k) n = Some o -> instance classes v_model v_name (extras v_optimizer v_last_epoch k re) (section_of sd k) n o.
Notation meant := (meant classes make_policy v_model v_optimizer v_name v_last_epoch).

Lemma policy_from_inv cs sd re lr pd k p : good cs sd re lr -> (k = KLr -> lr = true) -> chosen pd k -> policy_from make_policy cs pd k = Ok p -> meant sd re pd p.
Proof.
  intros G Hk C H. unfold policy_from, policy_params in H. destruct (dget (pd_refs pd) (key_of k)) as [[r|]|] eqn:D; try discriminate. destruct (r_name r) as [n|] eqn:R; [|discriminate]. cbn [bind fst snd] in H.
  destruct (dget (insts_of cs k) n) as [o|] eqn:O; [|discriminate]. exists k, r, n, o. auto 8.
Qed.
Lemma has_key_dmem (pd : @pdef Arg) k : dmem (pd_refs pd) (key_of k) = true <-> has_key pd k.
Proof. apply dmem_In. Qed.
Lemma has_key_dmem_false (pd : @pdef Arg) k : dmem (pd_refs pd) (key_of k) = false <-> ~ has_key pd k.
Proof. rewrite <- has_key_dmem. destruct (dmem (pd_refs pd) (key_of k)); split; auto; congruence. Qed.
Lemma chosen_unique (pd : @pdef Arg) k k' : chosen pd k -> chosen pd k' -> k = k'.
Proof.
  intros (l1 & l2 & E & H & B) (l1' & l2' & E' & H' & B').
  assert (I : forall k l1 l2, order = l1 ++ k :: l2 -> l1 = match k with KPruner => [] | KRegularizer => [KPruner] | KQuantizer => [KPruner; KRegularizer] | KLr => [KPruner; KRegularizer; KQuantizer] | KExtension => [KPruner; KRegularizer; KQuantizer; KLr] end).
  { clear. unfold order. intros k l1 l2 E. destruct l1 as [|a1 [|a2 [|a3 [|a4 [|a5 [|a6 l1]]]]]]; simpl in E; injection E; intros; subst; try reflexivity; try discriminate. }
  pose proof (I _ _ _ E) as ->. pose proof (I _ _ _ E') as ->.
  destruct k, k'; auto; exfalso; simpl in B, B'; try (apply (B KPruner); simpl; auto; fail); try (apply (B' KPruner); simpl; auto; fail); try (apply (B KRegularizer); simpl; auto; fail); try (apply (B' KRegularizer); simpl; auto; fail);
    try (apply (B KQuantizer); simpl; auto; fail); try (apply (B' KQuantizer); simpl; auto; fail); try (apply (B KLr); simpl; auto; fail); try (apply (B' KLr); simpl; auto; fail).
Qed.
Lemma chosen_first (pd : @pdef Arg) k l1 l2 : order = l1 ++ k :: l2 -> has_key pd k -> (forall k', In k' l1 -> ~ has_key pd k') -> chosen pd k.
Proof. intros. exists l1, l2. auto. Qed.

Lemma policy_of_inv cs sd re pd r : good cs sd re false -> policy_of make_policy cs pd = Ok r ->
  match r with None => chosen pd KLr | Some p => meant sd re pd p /\ ~ chosen pd KLr end.
Proof.
  intros G H. unfold policy_of in H.
  assert (N : forall k, k <> KLr -> chosen pd k -> ~ chosen pd KLr) by (intros k Hk C C'; apply Hk; eapply chosen_unique; eauto).
  destruct (dmem (pd_refs pd) (key_of KPruner)) eqn:E1.
  { apply has_key_dmem in E1. destruct (policy_from make_policy cs pd KPruner) eqn:P; [|discriminate]. injection H as <-.
    assert (C : chosen pd KPruner) by (apply (chosen_first pd KPruner [] _ eq_refl); auto; intros k []). split; [eapply policy_from_inv; eauto; discriminate|apply (N KPruner); auto; discriminate]. }
  apply has_key_dmem_false in E1. destruct (dmem (pd_refs pd) (key_of KRegularizer)) eqn:E2.
  { apply has_key_dmem in E2. destruct (policy_from make_policy cs pd KRegularizer) eqn:P; [|discriminate]. injection H as <-.
    assert (C : chosen pd KRegularizer) by (apply (chosen_first pd KRegularizer [KPruner] _ eq_refl); auto; intros k [<-|[]]; auto). split; [eapply policy_from_inv; eauto; discriminate|apply (N KRegularizer); auto; discriminate]. }
  apply has_key_dmem_false in E2. destruct (dmem (pd_refs pd) (key_of KQuantizer)) eqn:E3.
  { apply has_key_dmem in E3. destruct (policy_from make_policy cs pd KQuantizer) eqn:P; [|discriminate]. injection H as <-.
    assert (C : chosen pd KQuantizer) by (apply (chosen_first pd KQuantizer [KPruner; KRegularizer] _ eq_refl); auto; intros k [<-|[<-|[]]]; auto). split; [eapply policy_from_inv; eauto; discriminate|apply (N KQuantizer); auto; discriminate]. }
  apply has_key_dmem_false in E3. destruct (dmem (pd_refs pd) (key_of KLr)) eqn:E4.
  { apply has_key_dmem in E4. injection H as <-. apply (chosen_first pd KLr [KPruner; KRegularizer; KQuantizer] _ eq_refl); auto. intros k [<-|[<-|[<-|[]]]]; auto. }
  apply has_key_dmem_false in E4. destruct (dmem (pd_refs pd) (key_of KExtension)) eqn:E5; [|discriminate].
  apply has_key_dmem in E5. destruct (policy_from make_policy cs pd KExtension) eqn:P; [|discriminate]. injection H as <-.
  assert (C : chosen pd KExtension) by (apply (chosen_first pd KExtension [KPruner; KRegularizer; KQuantizer; KLr] _ eq_refl); auto; intros k [<-|[<-|[<-|[<-|[]]]]]; auto). split; [eapply policy_from_inv; eauto; discriminate|apply (N KExtension); auto; discriminate].
Qed.

Lemma add_inv p (pd : @pdef Arg) s s' : add_policy_to_scheduler add p pd s = Ok s' -> exists w, timed pd w /\ add s p w = Ok s'.
Proof.
  unfold add_policy_to_scheduler, when_of, timed. intro H. destruct (pd_epochs pd) as [e|]; [cbn [bind] in H; eauto|].
  destruct (pd_start pd) as [a|], (pd_end pd) as [b|], (pd_freq pd) as [f|]; try discriminate. cbn [bind] in H. exists (WRange a b f). split; auto. exists a, b, f. auto.
Qed.

Definition item sd re (pd : pdef) (pw : Pol * when) : Prop := meant sd re pd (fst pw) /\ timed pd (snd pw).
Definition addM (s : Sched) (pw : Pol * when) : res Sched := add s (fst pw) (snd pw).

Lemma policies_loop_inv cs sd re f pds : good cs sd re false -> (forall pd, f pd = true <-> chosen pd KLr) -> forall s lrs r s',
  policies_loop make_policy add cs pds s lrs = (r, s') ->
  exists l1 l2 added, filter (fun pd => negb (f pd)) pds = l1 ++ l2 /\ Forall2 (item sd re) l1 added /\ foldM addM added s = Ok s' /\
    (forall l, r = Ok l -> l2 = [] /\ l = lrs ++ filter f pds).
Proof.
  intros G Hf. induction pds as [|pd pds IH]; intros s lrs r s' H; cbn [policies_loop] in H.
  - injection H as <- <-. exists [], [], []. split; auto. split; [constructor|]. split; auto. intros l [= <-]. rewrite app_nil_r. auto.
  - destruct (policy_of make_policy cs pd) as [[p|]|e] eqn:P.
    + pose proof (policy_of_inv _ _ _ _ _ G P) as [M NC]. assert (Fp : f pd = false) by (destruct (f pd) eqn:E; auto; exfalso; apply NC, Hf; auto).
      destruct (add_policy_to_scheduler add p pd s) as [s1|e] eqn:A.
      * apply add_inv in A as (w & T & A). destruct (IH _ _ _ _ H) as (l1 & l2 & added & E & F & Fo & R). exists (pd :: l1), l2, ((p, w) :: added). cbn [filter]. rewrite Fp. cbn [negb]. rewrite E. split; auto. split; [constructor; auto; split; auto|].
        split; [cbn [foldM]; unfold addM at 1; cbn [fst snd]; rewrite A; auto|auto].
      * injection H as <- <-. exists [], (filter (fun pd => negb (f pd)) (pd :: pds)), []. split; auto. split; [constructor|]. split; auto. intros l [=].
    + pose proof (policy_of_inv _ _ _ _ _ G P) as C. cbn in C. assert (Fp : f pd = true) by (apply Hf; auto). destruct (IH _ _ _ _ H) as (l1 & l2 & added & E & F & Fo & R). exists l1, l2, added. cbn [filter]. rewrite Fp. cbn [negb].
      split; auto. split; auto. split; auto. intros l Rl. destruct (R l Rl) as [A B]. split; auto. rewrite B, <- app_assoc. reflexivity.
    + injection H as <- <-. exists [], (filter (fun pd => negb (f pd)) (pd :: pds)), []. split; auto. split; [constructor|]. split; auto. intros l [=].
Qed.
Lemma lr_loop_inv cs sd re pds : good cs sd re true -> (forall pd, In pd pds -> chosen pd KLr) -> forall s r s',
  lr_loop make_policy add cs pds s = (r, s') ->
  exists l1 l2 added, pds = l1 ++ l2 /\ Forall2 (item sd re) l1 added /\ foldM addM added s = Ok s' /\ (r = Ok tt -> l2 = []).
Proof.
  intro G. induction pds as [|pd pds IH]; intros Hc s r s' H; cbn [lr_loop] in H.
  - injection H as <- <-. exists [], [], []. auto 8.
  - destruct (policy_from make_policy cs pd KLr) as [p|e] eqn:P; cbn [bind] in H.
    2:{ injection H as <- <-. exists [], (pd :: pds), []. split; auto. split; [constructor|]. split; auto. discriminate. }
    pose proof (policy_from_inv _ _ _ _ _ _ _ G ltac:(auto) (Hc pd (or_introl eq_refl)) P) as M.
    destruct (add_policy_to_scheduler add p pd s) as [s1|e] eqn:A.
    + apply add_inv in A as (w & T & A). destruct (IH (fun x I => Hc x (or_intror I)) _ _ _ H) as (l1 & l2 & added & -> & F & Fo & R). exists (pd :: l1), l2, ((p, w) :: added). split; auto. split; [constructor; auto; split; auto|].
      split; [cbn [foldM]; unfold addM at 1; cbn [fst snd]; rewrite A; auto|auto].
    + injection H as <- <-. exists [], (pd :: pds), []. split; auto. split; [constructor|]. split; auto. discriminate.
Qed.
Lemma handler_ok {A} b (r : res A) a : handler b r = Ok a <-> r = Ok a.
Proof. destruct r as [x|e]; simpl; [tauto|]. destruct e, b; split; discriminate. Qed.
End P.
