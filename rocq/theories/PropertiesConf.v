(** C72: a schedule written as a dictionary (or a YAML file). *)
From Coq Require Import String List ZArith Bool Lia.
From Verif Require Import Base SchedModel ConfModel ConfSpec ConfProofs.
Import ListNotations.
Local Open Scope string_scope.
Open Scope list_scope.

Section C72.
Context {Arg Obj Pol Sched : Type}.
Variable classes : string -> option (@cls Arg Obj).
Variable make_policy : pkind -> Obj -> option (dict Arg) -> res Pol.
Variable add : Sched -> Pol -> when -> res Sched.
Variable v_model v_optimizer : Arg.
Variable v_name : string -> Arg.
Variable v_last_epoch : Z -> Arg.

Notation config := (dict_config classes make_policy add v_model v_optimizer v_name v_last_epoch).
Notation build := (build_component classes v_model v_name).
Notation passed := (passed v_model v_name).
Notation meant := (meant classes make_policy v_model v_optimizer v_name v_last_epoch).
Notation extras := (extras v_optimizer v_last_epoch).

Lemma extras_ok k re : dict_ok (extras k re) /\ ~ In "self" (dkeys (extras k re)).
Proof.
  destruct k; unfold dict_ok; cbn; (split; [repeat constructor; simpl; intuition discriminate|intuition discriminate]).
Qed.

Lemma fac k re sec r sec' : no_self classes -> comps_ok sec -> factory classes v_model v_name (extras k re) sec = (Ok r, sec') ->
  (forall n o, dget r n = Some o -> instance classes v_model v_name (extras k re) sec n o) /\
  (match sec with None => sec' = None /\ r = [] | Some l => length r = length l /\ sec' = Some (map (fun nc => (fst nc, mkComp None (co_args (snd nc)))) l) end).
Proof. intros S C H. destruct (extras_ok k re). eapply factory_inv; eauto. Qed.

(** Whatever happens, the policies added to the scheduler are a first part of those the schedule defines, the ones of learning
    rates last, otherwise in the order of the schedule; each is made of the instance it names, of the section of its kind, and
    added for the epochs it says.  All of them when no exception is raised. *)
Theorem C72_schedule :
  forall sd s0 re r s sd' f, no_self classes -> sched_ok sd -> (forall pd, f pd = true <-> chosen pd KLr) ->
  config sd s0 re = (r, s, sd') ->
  exists pds l1 l2 added, (match sd_policies sd with Some l => pds = l | None => pds = [] /\ r <> Ok tt end) /\
    filter (fun pd => negb (f pd)) pds ++ filter f pds = l1 ++ l2 /\
    Forall2 (fun pd pw => meant sd re pd (fst pw) /\ timed pd (snd pw)) l1 added /\
    foldM (fun s pw => add s (fst pw) (snd pw)) added s0 = Ok s /\
    (r = Ok tt -> l2 = []).
Proof.
  intros sd s0 re r s sd' f Hself Hok Hf H. destruct Hok as (O1 & O2 & O3 & O4 & O5). unfold dict_config in H.
  assert (Fail : forall e, r = Raise e -> s = s0 ->
    exists pds l1 l2 added, (match sd_policies sd with Some l => pds = l | None => pds = [] /\ r <> Ok tt end) /\
    filter (fun pd => negb (f pd)) pds ++ filter f pds = l1 ++ l2 /\
    Forall2 (fun pd pw => meant sd re pd (fst pw) /\ timed pd (snd pw)) l1 added /\
    foldM (fun s pw => add s (fst pw) (snd pw)) added s0 = Ok s /\ (r = Ok tt -> l2 = [])).
  { intros e -> ->. destruct (sd_policies sd) as [l|].
    - exists l, [], (filter (fun pd => negb (f pd)) l ++ filter f l), []. simpl. split; [reflexivity|split; [reflexivity|split; [constructor|split; [reflexivity|discriminate]]]].
    - exists [], [], [], []. simpl. split; [split; [reflexivity|discriminate]|split; [reflexivity|split; [constructor|split; [reflexivity|discriminate]]]]. }
  change [] with (extras KPruner re) in H at 1. destruct (factory classes v_model v_name (extras KPruner re) (sd_pruners sd)) as [rp sp] eqn:E1.
  destruct rp as [pruners|e]; [|injection H as <- <- <-; eapply Fail; eauto]. cbn [sd_pruners sd_regularizers sd_quantizers sd_extensions sd_lrs sd_policies] in H.
  change [] with (extras KRegularizer re) in H at 1. destruct (factory classes v_model v_name (extras KRegularizer re) (sd_regularizers sd)) as [rr sr] eqn:E2.
  destruct rr as [regs|e]; [|injection H as <- <- <-; eapply Fail; eauto]. cbn [sd_pruners sd_regularizers sd_quantizers sd_extensions sd_lrs sd_policies] in H.
  change [("optimizer", v_optimizer)] with (extras KQuantizer re) in H at 1. destruct (factory classes v_model v_name (extras KQuantizer re) (sd_quantizers sd)) as [rq sq] eqn:E3.
  destruct rq as [quants|e]; [|injection H as <- <- <-; eapply Fail; eauto]. cbn [sd_pruners sd_regularizers sd_quantizers sd_extensions sd_lrs sd_policies] in H.
  destruct (Nat.ltb 1 (length quants)); [injection H as <- <- <-; eapply Fail; eauto|].
  change [] with (extras KExtension re) in H at 1. destruct (factory classes v_model v_name (extras KExtension re) (sd_extensions sd)) as [rx sx] eqn:E4.
  destruct rx as [exts|e]; [|injection H as <- <- <-; eapply Fail; eauto]. cbn [sd_pruners sd_regularizers sd_quantizers sd_extensions sd_lrs sd_policies] in H.
  destruct (sd_policies sd) as [pds|] eqn:Epol; [|injection H as <- <- <-; eapply Fail; eauto].
  apply fac in E1 as [I1 _]; auto. apply fac in E2 as [I2 _]; auto. apply fac in E3 as [I3 _]; auto. apply fac in E4 as [I4 _]; auto. clear Fail.
  assert (G : good classes v_model v_optimizer v_name v_last_epoch (mkInsts pruners regs quants exts []) sd re false).
  { intros k n o Hk D. destruct k; cbn [insts_of i_pruners i_regularizers i_quantizers i_extensions section_of] in *; auto. specialize (Hk eq_refl). discriminate. }
  destruct (policies_loop make_policy add (mkInsts pruners regs quants exts []) pds s0 []) as [[lrs|e] s1] eqn:L.
  2:{ injection H as <- <- <-. destruct (policies_loop_inv classes make_policy add v_model v_optimizer v_name v_last_epoch _ _ _ f _ G Hf _ _ _ _ L) as (l1 & l2 & added & A & B & C & D).
      exists pds, l1, (l2 ++ filter f pds), added. split; [reflexivity|]. split; [rewrite A, app_assoc; reflexivity|]. split; [exact B|]. split; [exact C|]. intro K. destruct e; destruct pds; discriminate. }
  destruct (policies_loop_inv classes make_policy add v_model v_optimizer v_name v_last_epoch _ _ _ f _ G Hf _ _ _ _ L) as (l1 & l2 & added & A & B & C & D). destruct (D _ eq_refl) as [-> E]. rewrite app_nil_r in A. cbn [app] in E. subst lrs.
  change ([("optimizer", v_optimizer)] ++ [("last_epoch", v_last_epoch match re with Some e => e | None => (-1)%Z end)]) with (extras KLr re) in H.
  destruct (factory classes v_model v_name (extras KLr re) (sd_lrs sd)) as [rl sl] eqn:E5. destruct rl as [lr|e].
  2:{ injection H as <- <- <-. exists pds, l1, (filter f pds), added. split; [reflexivity|]. split; [rewrite A; reflexivity|]. split; [exact B|]. split; [exact C|]. intro K. destruct e; destruct pds; discriminate. }
  apply fac in E5 as [I5 _]; auto.
  assert (G' : good classes v_model v_optimizer v_name v_last_epoch (mkInsts pruners regs quants exts lr) sd re true).
  { intros k n o Hk D'. destruct k; cbn [insts_of i_pruners i_regularizers i_quantizers i_extensions i_lrs section_of] in *; auto. }
  destruct (lr_loop make_policy add (mkInsts pruners regs quants exts lr) (filter f pds) s1) as [rf sf] eqn:LL.
  destruct (lr_loop_inv classes make_policy add v_model v_optimizer v_name v_last_epoch _ _ _ _ G' (fun pd I => proj1 (Hf pd) (proj2 (proj1 (filter_In f pd pds) I))) _ _ _ LL) as (m1 & m2 & added' & A' & B' & C' & D').
  injection H as <- <- <-. exists pds, (l1 ++ m1), m2, (added ++ added'). split; [reflexivity|]. split; [rewrite A, A', app_assoc; reflexivity|].
  split; [apply Forall2_app; auto|]. split.
  - rewrite foldM_app. unfold addM in C, C'. rewrite C. cbn [bind]. exact C'.
  - intro K. apply handler_ok in K. auto.
Qed.

(** A component: the constructor of its class gets exactly the arguments it accepts; what goes wrong otherwise. *)
Theorem C72_component :
  forall name co k re, let extra := extras k re in ~ In "self" (dkeys (co_args co)) -> no_self classes ->
  (co_class co = None -> fst (build name co extra) = Raise KeyError) /\
  (forall cn, co_class co = Some cn -> classes cn = None -> fst (build name co extra) = Raise ValueError) /\
  (forall cn c key, co_class co = Some cn -> classes cn = Some c -> In key (dkeys (co_args co)) -> ~ In key (c_accepts c) ->
     fst (build name co extra) = Raise ValueError) /\
  (forall cn c, co_class co = Some cn -> classes cn = Some c -> (forall key, In key (dkeys (co_args co)) -> In key (c_accepts c)) ->
     exists args, passed c name extra (co_args co) args /\ fst (build name co extra) = c_new c args).
Proof.
  intros name co k re extra Hs Hself. destruct (extras_ok k re) as [He Hse]. fold extra in He, Hse. repeat split.
  - intro E. unfold build_component. rewrite E. reflexivity.
  - intros cn E Ec. unfold build_component. rewrite E, Ec. reflexivity.
  - intros cn c key E Ec I N. destruct (build name co extra) as [[o|e] co'] eqn:B.
    + destruct (build_inv classes v_model v_name _ _ _ _ _ Hself He Hse Hs B) as (_ & cn' & c' & args & A1 & A2 & A3 & _). exfalso. rewrite E in A1. injection A1 as <-. rewrite Ec in A2. injection A2 as <-. auto.
    + cbn [fst]. unfold build_component in B. rewrite E, Ec in B. unfold filter_kwargs at 1 in B. destruct (filter (fun kv => negb (in_sig c (fst kv))) (co_args co)) eqn:F; [|injection B as <- _; reflexivity].
      exfalso. apply in_map_iff in I as ([k' v] & <- & I). rewrite filter_nil in F. specialize (F (k', v) I). cbn [fst] in F. apply negb_false_iff in F. unfold in_sig in F. apply existsb_eqb in F as [<-|F]; auto.
      apply Hs. apply (in_map fst) in I. exact I.
  - intros cn c E Ec U. destruct (build_ok classes v_model v_name name co extra cn c E Ec He Hse Hs (Hself _ _ Ec) U) as (args & P & B). exists args. split; auto. rewrite B. reflexivity.
Qed.

(** A schedule whose components can all be made, of at most one quantizer, and whose policies name defined components and their
    times, is accepted when making and adding policies does not fail. *)
Theorem C72_accepts :
  forall sd re pds s0, no_self classes -> sched_ok sd -> sd_policies sd = Some pds ->
  (forall k l n co, section_of sd k = Some l -> In (n, co) l ->
     exists cn c, co_class co = Some cn /\ classes cn = Some c /\ (forall key, In key (dkeys (co_args co)) -> In key (c_accepts c)) /\
       forall args, passed c n (extras k re) (co_args co) args -> exists o, c_new c args = Ok o) ->
  (forall l, sd_quantizers sd = Some l -> (length l <= 1)%nat) ->
  (forall pd, In pd pds -> exists k r n l, chosen pd k /\ dget (pd_refs pd) (key_of k) = Some (Some r) /\ r_name r = Some n /\ section_of sd k = Some l /\ In n (dkeys l)) ->
  (forall pd, In pd pds -> exists w, timed pd w) ->
  (forall k o a, exists p, make_policy k o a = Ok p) -> (forall s p w, exists s', add s p w = Ok s') ->
  exists s sd', config sd s0 re = (Ok tt, s, sd').
Proof.
  intros sd re pds s0 Hself Hok Hpol Hcomp Hq Hpd Hw Hmk Hadd. destruct Hok as (O1 & O2 & O3 & O4 & O5).
  assert (FL : forall k l, (forall n co, In (n, co) l -> (exists cn c, co_class co = Some cn /\ classes cn = Some c /\ (forall key, In key (dkeys (co_args co)) -> In key (c_accepts c)) /\
                 forall args, passed c n (extras k re) (co_args co) args -> exists o, c_new c args = Ok o) /\ ~ In "self" (dkeys (co_args co))) ->
               exists r l', factory_loop classes v_model v_name (extras k re) l = (Ok r, l') /\ dkeys r = dkeys l).
  { intros k l. destruct (extras_ok k re) as [He Hse]. induction l as [|[n co] l IH]; intro A; [exists [], []; auto|].
    destruct (A n co (or_introl eq_refl)) as [(cn & c & A1 & A2 & A3 & A4) Hns]. destruct (build_ok classes v_model v_name n co _ cn c A1 A2 He Hse Hns (Hself _ _ A2) A3) as (args & P & B).
    destruct (A4 _ P) as (o & No). destruct (IH (fun a b I => A a b (or_intror I))) as (r & l' & E & K). cbn [factory_loop]. rewrite B, No, E. eexists. eexists. split; [reflexivity|]. unfold dkeys in *. cbn [map fst]. rewrite K. reflexivity. }
  assert (FA : forall k, comps_ok (section_of sd k) -> exists r s', factory classes v_model v_name (extras k re) (section_of sd k) = (Ok r, s') /\ match section_of sd k with None => r = [] | Some l => dkeys r = dkeys l end).
  { intros k C. unfold factory. destruct (section_of sd k) as [l|] eqn:E; [|exists [], None; auto]. destruct C as [_ C].
    destruct (FL k l) as (r & l' & F & K). { intros n co I. split; [eapply Hcomp; eauto|apply (C n co I)]. } rewrite F. exists r, (Some l'). auto. }
  destruct (FA KPruner O1) as (pruners & sp & E1 & K1). destruct (FA KRegularizer O2) as (regs & sr & E2 & K2). destruct (FA KQuantizer O3) as (quants & sq & E3 & K3).
  destruct (FA KExtension O4) as (exts & sx & E4 & K4). destruct (FA KLr O5) as (lr & sl & E5 & K5). cbn [section_of] in *.
  assert (Q : Nat.ltb 1 (length quants) = false).
  { apply Nat.ltb_ge. destruct (sd_quantizers sd) as [l|] eqn:Eq; [|subst; simpl; lia]. pose proof (Hq l eq_refl). assert (length (dkeys quants) = length (dkeys l)) by (rewrite K3; auto). unfold dkeys in *. rewrite !map_length in *. lia. }
  unfold dict_config. cbv zeta. change [] with (extras KPruner re) at 1. rewrite E1. cbn [sd_pruners sd_regularizers sd_quantizers sd_extensions sd_lrs sd_policies].
  change (factory classes v_model v_name [] (sd_regularizers sd)) with (factory classes v_model v_name (extras KRegularizer re) (sd_regularizers sd)). rewrite E2. cbn [sd_pruners sd_regularizers sd_quantizers sd_extensions sd_lrs sd_policies].
  change (factory classes v_model v_name [("optimizer", v_optimizer)] (sd_quantizers sd)) with (factory classes v_model v_name (extras KQuantizer re) (sd_quantizers sd)). rewrite E3. cbn [sd_pruners sd_regularizers sd_quantizers sd_extensions sd_lrs sd_policies]. rewrite Q.
  change (factory classes v_model v_name [] (sd_extensions sd)) with (factory classes v_model v_name (extras KExtension re) (sd_extensions sd)). rewrite E4. cbn [sd_pruners sd_regularizers sd_quantizers sd_extensions sd_lrs sd_policies]. rewrite Hpol.
  assert (PF : forall cs pd k, (forall l, section_of sd k = Some l -> dkeys (insts_of cs k) = dkeys l) -> chosen pd k -> In pd pds -> exists p, policy_from make_policy cs pd k = Ok p).
  { intros cs pd k Hk C I. destruct (Hpd pd I) as (k' & r & n & l & C' & D & R & S & In'). assert (k' = k) by (eapply chosen_unique; eauto). subst k'.
    unfold policy_from, policy_params. rewrite D, R. cbn [bind fst snd]. rewrite <- (Hk l S) in In'. destruct (dget (insts_of cs k) n) eqn:G; [apply Hmk|]. exfalso. apply dget_None_notin in G. auto. }
  assert (AD : forall p pd s, In pd pds -> exists s', add_policy_to_scheduler add p pd s = Ok s').
  { intros p pd s I. destruct (Hw pd I) as (w & T). unfold add_policy_to_scheduler, when_of. unfold timed in T. destruct (pd_epochs pd); [cbn [bind]; apply Hadd|]. destruct T as (a & b & fr & -> & -> & -> & _). cbn [bind]. apply Hadd. }
  set (cs := mkInsts pruners regs quants exts []).
  assert (Ks : forall k l, k <> KLr -> section_of sd k = Some l -> dkeys (insts_of cs k) = dkeys l).
  { intros k l N S. destruct k; cbn [section_of insts_of cs i_pruners i_regularizers i_quantizers i_extensions] in *; try congruence; rewrite S in *; auto. }
  assert (PO : forall pd, In pd pds -> exists o, policy_of make_policy cs pd = Ok o /\ (o = None -> chosen pd KLr)).
  { intros pd I. destruct (Hpd pd I) as (k & r & n & l & C & D & R & S & In'). pose proof C as (l1 & l2 & Eo & Hk & B). unfold policy_of.
    assert (NM : forall k', In k' l1 -> dmem (pd_refs pd) (key_of k') = false) by (intros k' I'; apply has_key_dmem_false; auto).
    assert (YM : dmem (pd_refs pd) (key_of k) = true) by (apply has_key_dmem; auto).
    unfold order in Eo. destruct l1 as [|a1 [|a2 [|a3 [|a4 [|a5 [|a6 l1]]]]]]; simpl in Eo; injection Eo; intros; subst; try discriminate; cbn in NM.
    - rewrite YM. destruct (PF cs pd KPruner ltac:(intros; apply Ks; auto; discriminate) C I) as [p ->]. cbn [bind]. exists (Some p). split; auto; discriminate.
    - rewrite (NM KPruner) by auto. rewrite YM. destruct (PF cs pd KRegularizer ltac:(intros; apply Ks; auto; discriminate) C I) as [p ->]. cbn [bind]. exists (Some p). split; auto; discriminate.
    - rewrite (NM KPruner), (NM KRegularizer) by auto. rewrite YM. destruct (PF cs pd KQuantizer ltac:(intros; apply Ks; auto; discriminate) C I) as [p ->]. cbn [bind]. exists (Some p). split; auto; discriminate.
    - rewrite (NM KPruner), (NM KRegularizer), (NM KQuantizer) by auto. rewrite YM. exists None. auto.
    - rewrite (NM KPruner), (NM KRegularizer), (NM KQuantizer), (NM KLr) by auto. rewrite YM. destruct (PF cs pd KExtension ltac:(intros; apply Ks; auto; discriminate) C I) as [p ->]. cbn [bind]. exists (Some p). split; auto; discriminate. }
  assert (PL : forall l s lrs, incl l pds -> (forall pd, In pd lrs -> In pd pds /\ chosen pd KLr) -> exists lrs' s', policies_loop make_policy add cs l s lrs = (Ok lrs', s') /\ forall pd, In pd lrs' -> In pd pds /\ chosen pd KLr).
  { induction l as [|pd l IH]; intros s lrs Il Hl; cbn [policies_loop]; [eauto|]. assert (I : In pd pds) by (apply Il; left; auto). destruct (PO pd I) as ([p|] & -> & Hn).
    - destruct (AD p pd s I) as [s1 ->]. apply IH; auto. intros x Ix. apply Il. right. auto.
    - apply IH; [intros x Ix; apply Il; right; auto|]. intros x Ix. apply in_app_iff in Ix as [Ix|[<-|[]]]; auto. }
  destruct (PL pds s0 [] (fun x I => I)) as (lrs & s1 & L & Hl); [intros ? []|]. rewrite L.
  change ([("optimizer", v_optimizer)] ++ [("last_epoch", v_last_epoch match re with Some e => e | None => (-1)%Z end)]) with (extras KLr re). rewrite E5.
  assert (LL : forall l s, (forall pd, In pd l -> In pd pds /\ chosen pd KLr) -> exists s', lr_loop make_policy add (mkInsts pruners regs quants exts lr) l s = (Ok tt, s')).
  { induction l as [|pd l IH]; intros s A; cbn [lr_loop]; [eauto|]. destruct (A pd (or_introl eq_refl)) as [I C]. destruct (PF (mkInsts pruners regs quants exts lr) pd KLr) as [p ->]; auto.
    { intros l' S. cbn in *. rewrite S in K5. auto. } cbn [bind]. destruct (AD p pd s I) as [s2 ->]. apply IH. intros x Ix. apply A. right. auto. }
  destruct (LL lrs s1 Hl) as [s2 ->]. cbn [handler]. eauto.
Qed.

(** The first wrong policy: its exception comes through. *)
Definition good_component re k (nco : string * @comp Arg) : Prop :=
  exists cn c, co_class (snd nco) = Some cn /\ classes cn = Some c /\ (forall key, In key (dkeys (co_args (snd nco))) -> In key (c_accepts c)) /\
    forall args, passed c (fst nco) (extras k re) (co_args (snd nco)) args -> exists o, c_new c args = Ok o.
Definition good_policy (sd : @sdict Arg) (pd : pdef) : Prop :=
  (exists k r n l, chosen pd k /\ dget (pd_refs pd) (key_of k) = Some (Some r) /\ r_name r = Some n /\ section_of sd k = Some l /\ In n (dkeys l)) /\
  exists w, timed (Arg := Arg) pd w.

Lemma factory_good k re sec : no_self classes -> comps_ok sec -> (forall l nco, sec = Some l -> In nco l -> good_component re k nco) ->
  exists r s', factory classes v_model v_name (extras k re) sec = (Ok r, s') /\ match sec with None => r = [] | Some l => dkeys r = dkeys l end.
Proof.
  intros Hself C A. unfold factory. destruct sec as [l|]; [|exists [], None; auto]. destruct C as [_ C]. specialize (A l). destruct (extras_ok k re) as [He Hse].
  assert (F : exists r l', factory_loop classes v_model v_name (extras k re) l = (Ok r, l') /\ dkeys r = dkeys l).
  { induction l as [|[n co] l IH]; [exists [], []; auto|].
    destruct (A (n, co) eq_refl (or_introl eq_refl)) as (cn & c & A1 & A2 & A3 & A4). cbn [fst snd] in *. destruct (C n co (or_introl eq_refl)) as [_ Hns].
    destruct (build_ok classes v_model v_name n co _ cn c A1 A2 He Hse Hns (Hself _ _ A2) A3) as (args & P & B). destruct (A4 _ P) as (o & No).
    destruct IH as (r & l' & E & K); [intros x y I; apply (C x y); right; auto|intros x _ I; apply A; [reflexivity|right; auto]|].
    cbn [factory_loop]. rewrite B, No, E. eexists. eexists. split; [reflexivity|]. unfold dkeys in *. cbn [map fst]. rewrite K. reflexivity. }
  destruct F as (r & l' & -> & K). exists r, (Some l'). auto.
Qed.

Lemma policy_of_good sd cs pd : (forall k, k <> KLr -> match section_of sd k with Some l => dkeys (insts_of cs k) = dkeys l | None => insts_of cs k = [] end) ->
  (forall k o a, exists p, make_policy k o a = Ok p) -> good_policy sd pd -> exists o, policy_of make_policy cs pd = Ok o.
Proof.
  intros Ks Hmk [(k & r & n & l & C & D & R & S & In') _]. pose proof C as (l1 & l2 & Eo & Hk & B). unfold policy_of.
  assert (PF : k <> KLr -> exists p, policy_from make_policy cs pd k = Ok p).
  { intro N. unfold policy_from, policy_params. rewrite D, R. cbn [bind fst snd]. specialize (Ks k N). rewrite S in Ks. rewrite <- Ks in In'. destruct (dget (insts_of cs k) n) eqn:G; [apply Hmk|]. exfalso. apply dget_None_notin in G. auto. }
  assert (NM : forall k', In k' l1 -> dmem (pd_refs pd) (key_of k') = false) by (intros k' I'; apply has_key_dmem_false; auto).
  assert (YM : dmem (pd_refs pd) (key_of k) = true) by (apply has_key_dmem; auto).
  unfold order in Eo. destruct l1 as [|a1 [|a2 [|a3 [|a4 [|a5 [|a6 l1]]]]]]; simpl in Eo; injection Eo; intros; subst; try discriminate; cbn in NM.
  - rewrite YM. destruct (PF ltac:(discriminate)) as [p ->]. cbn [bind]. eauto.
  - rewrite (NM KPruner) by auto. rewrite YM. destruct (PF ltac:(discriminate)) as [p ->]. cbn [bind]. eauto.
  - rewrite (NM KPruner), (NM KRegularizer) by auto. rewrite YM. destruct (PF ltac:(discriminate)) as [p ->]. cbn [bind]. eauto.
  - rewrite (NM KPruner), (NM KRegularizer), (NM KQuantizer) by auto. rewrite YM. eauto.
  - rewrite (NM KPruner), (NM KRegularizer), (NM KQuantizer), (NM KLr) by auto. rewrite YM. destruct (PF ltac:(discriminate)) as [p ->]. cbn [bind]. eauto.
Qed.

Theorem C72_bad_policy :
  forall sd re l1 pd l2 s0, no_self classes -> sched_ok sd -> sd_policies sd = Some (l1 ++ pd :: l2) ->
  (forall k l nco, section_of sd k = Some l -> In nco l -> good_component re k nco) ->
  (forall l, sd_quantizers sd = Some l -> (length l <= 1)%nat) ->
  (forall x, In x l1 -> good_policy sd x) ->
  (forall k o a, exists p, make_policy k o a = Ok p) -> (forall s p w, exists s', add s p w = Ok s') ->
  forall r s sd', config sd s0 re = (r, s, sd') ->
  (* no entry of a known kind *)
  ((forall k, ~ has_key pd k) -> r = Raise ValueError) /\
  (forall k, chosen pd k -> k <> KLr ->
     (* a null entry; no instance name; an undefined one *)
     (dget (pd_refs pd) (key_of k) = Some None -> r = Raise TypeError) /\
     (forall rf, dget (pd_refs pd) (key_of k) = Some (Some rf) -> r_name rf = None -> r = Raise KeyError) /\
     (forall rf n, dget (pd_refs pd) (key_of k) = Some (Some rf) -> r_name rf = Some n -> (forall l, section_of sd k = Some l -> ~ In n (dkeys l)) -> r = Raise AssertionError) /\
     (* no epochs and no complete range *)
     (forall rf n l, dget (pd_refs pd) (key_of k) = Some (Some rf) -> r_name rf = Some n -> section_of sd k = Some l -> In n (dkeys l) ->
        pd_epochs pd = None -> pd_start pd = None \/ pd_end pd = None \/ pd_freq pd = None -> r = Raise KeyError)).
Proof.
  intros sd re l1 pd l2 s0 Hself Hok Hpol Hcomp Hq Hpd Hmk Hadd r s sd' H. destruct Hok as (O1 & O2 & O3 & O4 & O5).
  destruct (factory_good KPruner re _ Hself O1 (fun l n S I => Hcomp KPruner l n S I)) as (pruners & sp & E1 & K1). destruct (factory_good KRegularizer re _ Hself O2 (fun l n S I => Hcomp KRegularizer l n S I)) as (regs & sr & E2 & K2).
  destruct (factory_good KQuantizer re _ Hself O3 (fun l n S I => Hcomp KQuantizer l n S I)) as (quants & sq & E3 & K3). destruct (factory_good KExtension re _ Hself O4 (fun l n S I => Hcomp KExtension l n S I)) as (exts & sx & E4 & K4).
  assert (Q : Nat.ltb 1 (length quants) = false).
  { apply Nat.ltb_ge. destruct (sd_quantizers sd) as [l|] eqn:Eq; [|subst; simpl; lia]. pose proof (Hq l eq_refl). assert (length (dkeys quants) = length (dkeys l)) by (rewrite K3; auto). unfold dkeys in *. rewrite !map_length in *. lia. }
  unfold dict_config in H. cbv zeta in H. change [] with (extras KPruner re) in H at 1. rewrite E1 in H. cbn [sd_pruners sd_regularizers sd_quantizers sd_extensions sd_lrs sd_policies] in H.
  change (factory classes v_model v_name [] (sd_regularizers sd)) with (factory classes v_model v_name (extras KRegularizer re) (sd_regularizers sd)) in H. rewrite E2 in H. cbn [sd_pruners sd_regularizers sd_quantizers sd_extensions sd_lrs sd_policies] in H.
  change (factory classes v_model v_name [("optimizer", v_optimizer)] (sd_quantizers sd)) with (factory classes v_model v_name (extras KQuantizer re) (sd_quantizers sd)) in H. rewrite E3 in H. cbn [sd_pruners sd_regularizers sd_quantizers sd_extensions sd_lrs sd_policies] in H. rewrite Q in H.
  change (factory classes v_model v_name [] (sd_extensions sd)) with (factory classes v_model v_name (extras KExtension re) (sd_extensions sd)) in H. rewrite E4 in H. cbn [sd_pruners sd_regularizers sd_quantizers sd_extensions sd_lrs sd_policies] in H. rewrite Hpol in H.
  set (cs := mkInsts pruners regs quants exts []) in H.
  assert (Ks : forall k, k <> KLr -> match section_of sd k with Some l => dkeys (insts_of cs k) = dkeys l | None => insts_of cs k = [] end).
  { intros k N. destruct k; cbn [section_of insts_of cs i_pruners i_regularizers i_quantizers i_extensions] in *; try congruence; auto. }
  assert (AD : forall p x s, good_policy sd x -> exists s', add_policy_to_scheduler add p x s = Ok s').
  { intros p x s1 [_ (w & T)]. unfold add_policy_to_scheduler, when_of. unfold timed in T. destruct (pd_epochs x); [cbn [bind]; apply Hadd|]. destruct T as (a & b & fr & -> & -> & -> & _). cbn [bind]. apply Hadd. }
  assert (PL : forall l s lrs, (forall x, In x l -> good_policy sd x) -> exists lrs' s', policies_loop make_policy add cs (l ++ pd :: l2) s lrs = policies_loop make_policy add cs (pd :: l2) s' lrs').
  { induction l as [|x l IH]; intros s1 lrs A; cbn [app]; [eauto|]. destruct (policy_of_good sd cs x Ks Hmk (A x (or_introl eq_refl))) as [[p|] E]; cbn [policies_loop]; rewrite E.
    - destruct (AD p x s1 (A x (or_introl eq_refl))) as [s2 ->]. apply IH. intros y I. apply A. right. auto.
    - apply IH. intros y I. apply A. right. auto. }
  destruct (PL l1 s0 [] Hpd) as (lrs & s1 & L). rewrite L in H.
  assert (Bo : (match l1 ++ pd :: l2 with [] => false | _ => true end) = true) by (destruct l1; reflexivity). rewrite Bo in H.
  assert (Err : forall e, (policy_of make_policy cs pd = Raise e \/ (exists p, policy_of make_policy cs pd = Ok (Some p) /\ add_policy_to_scheduler add p pd s1 = Raise e)) -> r = Raise e).
  { intros e [A|(p & A & B)]; cbn [policies_loop] in H; rewrite A in H; [|rewrite B in H]; injection H as <- _ _; destruct e; reflexivity. }
  split.
  - intro N. apply Err. left. unfold policy_of. rewrite !(fun k => proj2 (has_key_dmem_false pd k) (N k)). reflexivity.
  - intros k C Nk.
    assert (PO : policy_of make_policy cs pd = do p <- policy_from make_policy cs pd k; Ok (Some p)).
    { pose proof C as (m1 & m2 & Eo & Hk & B). unfold policy_of.
      assert (NM : forall k', In k' m1 -> dmem (pd_refs pd) (key_of k') = false) by (intros k' I'; apply has_key_dmem_false; auto).
      assert (YM : dmem (pd_refs pd) (key_of k) = true) by (apply has_key_dmem; auto).
      unfold order in Eo. destruct m1 as [|a1 [|a2 [|a3 [|a4 [|a5 [|a6 m1]]]]]]; simpl in Eo; injection Eo; intros; subst; try discriminate; try congruence; cbn in NM.
      - rewrite YM. reflexivity.
      - rewrite (NM KPruner) by auto. rewrite YM. reflexivity.
      - rewrite (NM KPruner), (NM KRegularizer) by auto. rewrite YM. reflexivity.
      - rewrite (NM KPruner), (NM KRegularizer), (NM KQuantizer), (NM KLr) by auto. rewrite YM. reflexivity. }
    specialize (Ks k Nk). repeat split.
    + intro D. apply Err. left. rewrite PO. unfold policy_from, policy_params. rewrite D. reflexivity.
    + intros rf D R. apply Err. left. rewrite PO. unfold policy_from, policy_params. rewrite D, R. reflexivity.
    + intros rf n D R U. apply Err. left. rewrite PO. unfold policy_from, policy_params. rewrite D, R. cbn [bind fst snd].
      assert (G : dget (insts_of cs k) n = None). { destruct (section_of sd k) as [l|]; [|rewrite Ks; reflexivity]. apply dget_None_notin. rewrite Ks. apply U. reflexivity. } rewrite G. reflexivity.
    + intros rf n l D R S I Ep W. apply Err. right. rewrite PO. unfold policy_from, policy_params. rewrite D, R. cbn [bind fst snd]. rewrite S in Ks. rewrite <- Ks in I.
      destruct (dget (insts_of cs k) n) as [o|] eqn:G; [|exfalso; apply dget_None_notin in G; auto]. destruct (Hmk k o (match k with KPruner | KRegularizer => r_args rf | _ => None end)) as [p ->]. exists p. split; [reflexivity|].
      unfold add_policy_to_scheduler, when_of. rewrite Ep. destruct (pd_start pd), (pd_end pd), (pd_freq pd); try reflexivity. destruct W as [W|[W|W]]; discriminate.
Qed.

(** More than one quantizer is refused, and nothing is scheduled. *)
Theorem C72_one_quantizer :
  forall sd s0 re r s sd' l, no_self classes -> sched_ok sd -> sd_quantizers sd = Some l -> (1 < length l)%nat ->
  config sd s0 re = (r, s, sd') -> s = s0 /\ exists e, r = Raise e.
Proof.
  intros sd s0 re r s sd' l Hself (O1 & O2 & O3 & O4 & O5) Hq Hl H. unfold dict_config in H.
  destruct (factory classes v_model v_name [] (sd_pruners sd)) as [[a|e] ?]; [|injection H as <- <- <-; eauto]. cbn [sd_pruners sd_regularizers sd_quantizers sd_extensions sd_lrs sd_policies] in H.
  destruct (factory classes v_model v_name [] (sd_regularizers sd)) as [[b|e] ?]; [|injection H as <- <- <-; eauto]. cbn [sd_pruners sd_regularizers sd_quantizers sd_extensions sd_lrs sd_policies] in H.
  change [("optimizer", v_optimizer)] with (extras KQuantizer re) in H at 1. destruct (factory classes v_model v_name (extras KQuantizer re) (sd_quantizers sd)) as [[q|e] ?] eqn:E; [|injection H as <- <- <-; eauto].
  apply fac in E as [_ E]; auto. rewrite Hq in E. destruct E as [E _]. rewrite (proj2 (Nat.ltb_lt 1 (length q))) in H by lia. injection H as <- <- <-. eauto.
Qed.

Definition empty_section (s : option (@section Arg)) : Prop := s = None \/ s = Some [].
Definition stripped (s : option (@section Arg)) : option (@section Arg) :=
  match s with None => None | Some l => Some (map (fun nc => (fst nc, mkComp None (co_args (snd nc)))) l) end.
Lemma fac_strip k re sec r sec' : no_self classes -> comps_ok sec -> factory classes v_model v_name (extras k re) sec = (Ok r, sec') -> sec' = stripped sec.
Proof. intros S C H. apply fac in H as [_ H]; auto. destruct sec; destruct H; subst; reflexivity. Qed.
Lemma factory_stripped extra sec : (empty_section sec -> factory classes v_model v_name extra (stripped sec) = (Ok [], stripped sec)) /\
  (~ empty_section sec -> exists s', factory classes v_model v_name extra (stripped sec) = (Raise KeyError, s')).
Proof.
  unfold empty_section. destruct sec as [[|[n co] l]|]; split; intro N.
  - reflexivity.
  - exfalso. auto.
  - destruct N; discriminate.
  - cbn. eauto.
  - reflexivity.
  - exfalso. auto.
Qed.

(** The dictionary can be used once only: the classes have been removed from it, and configuring with it again fails,
    before anything is scheduled if there was any component besides learning-rate schedulers. *)
Theorem C72_second_use :
  forall sd s0 re s sd' s1 re', no_self classes -> sched_ok sd -> config sd s0 re = (Ok tt, s, sd') ->
  (~ empty_section (sd_pruners sd) \/ ~ empty_section (sd_regularizers sd) \/ ~ empty_section (sd_quantizers sd) \/ ~ empty_section (sd_extensions sd) ->
     exists sd2, config sd' s1 re' = (Raise KeyError, s1, sd2)) /\
  (~ empty_section (sd_lrs sd) -> exists e s2 sd2, config sd' s1 re' = (Raise e, s2, sd2)).
Proof.
  intros sd s0 re s sd' s1 re' Hself (O1 & O2 & O3 & O4 & O5) H.
  assert (S : sd' = mkSd (stripped (sd_pruners sd)) (stripped (sd_regularizers sd)) (stripped (sd_quantizers sd)) (stripped (sd_extensions sd)) (stripped (sd_lrs sd)) (sd_policies sd)).
  { unfold dict_config in H.
    change [] with (extras KPruner re) in H at 1. destruct (factory classes v_model v_name (extras KPruner re) (sd_pruners sd)) as [[a|e] sp] eqn:E1; [|discriminate]. cbn [sd_pruners sd_regularizers sd_quantizers sd_extensions sd_lrs sd_policies] in H.
    change [] with (extras KRegularizer re) in H at 1. destruct (factory classes v_model v_name (extras KRegularizer re) (sd_regularizers sd)) as [[b|e] sr] eqn:E2; [|discriminate]. cbn [sd_pruners sd_regularizers sd_quantizers sd_extensions sd_lrs sd_policies] in H.
    change [("optimizer", v_optimizer)] with (extras KQuantizer re) in H at 1. destruct (factory classes v_model v_name (extras KQuantizer re) (sd_quantizers sd)) as [[q|e] sq] eqn:E3; [|discriminate]. cbn [sd_pruners sd_regularizers sd_quantizers sd_extensions sd_lrs sd_policies] in H.
    destruct (Nat.ltb 1 (length q)); [discriminate|].
    change [] with (extras KExtension re) in H at 1. destruct (factory classes v_model v_name (extras KExtension re) (sd_extensions sd)) as [[x|e] sx] eqn:E4; [|discriminate]. cbn [sd_pruners sd_regularizers sd_quantizers sd_extensions sd_lrs sd_policies] in H.
    destruct (sd_policies sd) as [pds|]; [|discriminate]. destruct (policies_loop make_policy add (mkInsts a b q x []) pds s0 []) as [[lrs|e] s3]; [|destruct e, pds; discriminate].
    change ([("optimizer", v_optimizer)] ++ [("last_epoch", v_last_epoch match re with Some e => e | None => (-1)%Z end)]) with (extras KLr re) in H.
    destruct (factory classes v_model v_name (extras KLr re) (sd_lrs sd)) as [[lr|e] sl] eqn:E5; [|destruct e, pds; discriminate]. destruct (lr_loop make_policy add (mkInsts a b q x lr) lrs s3) as [r s4]. injection H as _ _ <-.
    apply fac_strip in E1, E2, E3, E4, E5; auto. subst. reflexivity. }
  subst sd'.
  assert (D : forall sec, {empty_section sec} + {~ empty_section sec}).
  { intros [[|x l]|]; [left; right; auto|right; intros [A|A]; discriminate|left; left; auto]. }
  split.
  - intro N. unfold dict_config. cbn [sd_pruners sd_regularizers sd_quantizers sd_extensions sd_lrs sd_policies].
    destruct (D (sd_pruners sd)) as [Z|Z]; [|destruct (proj2 (factory_stripped [] _) Z) as [? ->]; eauto]. rewrite (proj1 (factory_stripped [] _) Z).
    cbn [sd_pruners sd_regularizers sd_quantizers sd_extensions sd_lrs sd_policies].
    destruct (D (sd_regularizers sd)) as [Z2|Z2]; [|destruct (proj2 (factory_stripped [] _) Z2) as [? ->]; eauto]. rewrite (proj1 (factory_stripped [] _) Z2). cbn [sd_pruners sd_regularizers sd_quantizers sd_extensions sd_lrs sd_policies].
    destruct (D (sd_quantizers sd)) as [Z3|Z3]; [|destruct (proj2 (factory_stripped [("optimizer", v_optimizer)] _) Z3) as [? ->]; eauto]. rewrite (proj1 (factory_stripped [("optimizer", v_optimizer)] _) Z3). cbn [sd_pruners sd_regularizers sd_quantizers sd_extensions sd_lrs sd_policies length Nat.ltb Nat.leb].
    destruct (D (sd_extensions sd)) as [Z4|Z4]; [|destruct (proj2 (factory_stripped [] _) Z4) as [? ->]; eauto]. exfalso. tauto.
  - intro N. unfold dict_config. cbn [sd_pruners sd_regularizers sd_quantizers sd_extensions sd_lrs sd_policies].
    destruct (D (sd_pruners sd)) as [Z|Z]; [|destruct (proj2 (factory_stripped [] _) Z) as [? ->]; eauto]. rewrite (proj1 (factory_stripped [] _) Z).
    cbn [sd_pruners sd_regularizers sd_quantizers sd_extensions sd_lrs sd_policies].
    destruct (D (sd_regularizers sd)) as [Z2|Z2]; [|destruct (proj2 (factory_stripped [] _) Z2) as [? ->]; eauto]. rewrite (proj1 (factory_stripped [] _) Z2). cbn [sd_pruners sd_regularizers sd_quantizers sd_extensions sd_lrs sd_policies].
    destruct (D (sd_quantizers sd)) as [Z3|Z3]; [|destruct (proj2 (factory_stripped [("optimizer", v_optimizer)] _) Z3) as [? ->]; eauto]. rewrite (proj1 (factory_stripped [("optimizer", v_optimizer)] _) Z3). cbn [sd_pruners sd_regularizers sd_quantizers sd_extensions sd_lrs sd_policies length Nat.ltb Nat.leb].
    destruct (D (sd_extensions sd)) as [Z4|Z4]; [|destruct (proj2 (factory_stripped [] _) Z4) as [? ->]; eauto]. rewrite (proj1 (factory_stripped [] _) Z4). cbn [sd_pruners sd_regularizers sd_quantizers sd_extensions sd_lrs sd_policies].
    destruct (sd_policies sd) as [pds|]; [|eauto]. destruct (policies_loop make_policy add (mkInsts [] [] [] [] []) pds s1 []) as [[lrs|e] s3]; [|destruct e, pds; cbn [handler]; eauto].
    destruct (proj2 (factory_stripped ([("optimizer", v_optimizer)] ++ [("last_epoch", v_last_epoch match re' with Some e => e | None => (-1)%Z end)]) _) N) as [? E]. cbn [app] in *. rewrite E. destruct pds; cbn [handler]; eauto.
Qed.

(** A schedule without 'policies': the error reported is not the missing key; the handler itself fails (UnboundLocalError, a
    NameError), since it prints the policy it was at. *)
Theorem C72_missing_policies_refuted :
  forall s0 re, config (mkSd None None None None None None) s0 re = (Raise NameError, s0, mkSd None None None None None None).
Proof. reflexivity. Qed.

(** config_component_from_file_by_class: the first component of the class is built, with the extra arguments in place of the
    user's; ValueError if there is none. *)
Theorem C72_by_class :
  forall sections cn extra,
  (forall n co, In (n, co) (concat sections) -> co_class co <> None) ->
  (forall l1 n co l2, concat sections = l1 ++ (n, co) :: l2 -> co_class co = Some cn -> (forall n' co', In (n', co') l1 -> co_class co' <> Some cn) ->
     config_component_by_class classes v_model v_name sections cn extra = fst (build n (mkComp (Some cn) (update (co_args co) extra)) [])) /\
  ((forall n co, In (n, co) (concat sections) -> co_class co <> Some cn) -> config_component_by_class classes v_model v_name sections cn extra = Raise ValueError).
Proof.
  intros sections cn extra Hc. unfold config_component_by_class. split.
  - intros l1 n co l2 E Ec Hl. rewrite E in *. clear E.
    assert (F : find_component cn (l1 ++ (n, co) :: l2) = Ok (Some (n, co))).
    { induction l1 as [|[n' co'] l1 IH]; cbn [app find_component].
      - rewrite Ec, String.eqb_refl. reflexivity.
      - destruct (co_class co') as [c'|] eqn:Ec'; [|exfalso; eapply (Hc n' co'); [left; reflexivity|auto]]. destruct (String.eqb_spec c' cn) as [->|N]; [exfalso; apply (Hl n' co'); [left; reflexivity|auto]|].
        apply IH; [intros a b I; apply (Hc a b); right; auto|intros a b I; apply (Hl a b); right; auto]. }
    rewrite F. cbn [bind]. rewrite Ec. reflexivity.
  - intro N. assert (F : find_component cn (concat sections) = Ok None).
    { induction (concat sections) as [|[n' co'] l IH]; cbn [find_component]; auto. destruct (co_class co') as [c'|] eqn:Ec'; [|exfalso; eapply (Hc n' co'); [left; reflexivity|auto]].
      destruct (String.eqb_spec c' cn) as [->|N']; [exfalso; apply (N n' co'); [left; reflexivity|auto]|]. apply IH; [intros a b I; apply (Hc a b); right; auto|intros a b I; apply (N a b); right; auto]. }
    rewrite F. reflexivity.
Qed.
End C72.

(** ** A concrete schedule, with the scheduler of the model *)
Module Demo.
(* the arguments are strings; an instance is its class and arguments; a policy is the number of letters of its instance's name *)
Definition classes (n : string) : option (@cls string (string * dict string)) :=
  if String.eqb n "AGP" then Some (mkCls ["name"; "rate"; "weights"] (fun a => Ok ("AGP", a)))
  else if String.eqb n "Steps" then Some (mkCls ["optimizer"; "gamma"; "last_epoch"] (fun a => Ok ("Steps", a)))
  else if String.eqb n "Q" then Some (mkCls ["model"; "optimizer"; "bits"] (fun a => Ok ("Q", a))) else None.
Definition make (k : pkind) (o : string * dict string) (a : option (dict string)) : res nat := Ok (match k with KPruner => 1 | KLr => 2 | KQuantizer => 3 | _ => 4 end)%nat.
Definition add (s : sched) (p : nat) (w : when) : res sched :=
  add_policy s (match w with WEpochs l => mkAdd p l None None (Some 1%Z) | WRange a b f => mkAdd p None a b f end).
Definition sd : @sdict string :=
  mkSd (Some [("p", mkComp (Some "AGP") [("rate", "0.5"); ("name", "ignored")])]) None (Some [("q", mkComp (Some "Q") [("bits", "8")])]) None
       (Some [("lr", mkComp (Some "Steps") [("gamma", "0.1")])])
       (Some [mkDef [("lr_scheduler", Some (mkRef (Some "lr") None))] None (Some (Some 0%Z)) (Some (Some 4%Z)) (Some (Some 1%Z));
              mkDef [("pruner", Some (mkRef (Some "p") None)); ("lr_scheduler", None)] None (Some (Some 0%Z)) (Some (Some 4%Z)) (Some (Some 2%Z));
              mkDef [("quantizer", Some (mkRef (Some "q") None))] (Some (Some [1%Z])) None None None]).
Definition run d s := dict_config classes make add "MODEL" "OPT" (fun n => n) (fun _ => "EPOCH") d s None.
Definition is_lr (pd : @pdef string) : bool :=
  negb (dmem (pd_refs pd) "pruner" || dmem (pd_refs pd) "regularizer" || dmem (pd_refs pd) "quantizer") && dmem (pd_refs pd) "lr_scheduler".

(* the learning-rate policy comes last in each epoch although it is first in the schedule *)
Example result : fst (run sd new_sched) =
  (Ok tt, mkSched [(0%Z, [1; 2]%nat); (2%Z, [1; 2]%nat); (1%Z, [3; 2]%nat); (3%Z, [2%nat])] [(1%nat, mkMeta 0 4 (Some 2%Z) None); (3%nat, mkMeta 1 2 None None); (2%nat, mkMeta 0 4 (Some 1%Z) None)]).
Proof. vm_compute. reflexivity. Qed.
(* the constructor of the pruner gets its own name *)
Example args_of_p : fst (build_component classes "MODEL" (fun n => n) "p" (mkComp (Some "AGP") [("rate", "0.5"); ("name", "ignored")]) []) = Ok ("AGP", [("rate", "0.5"); ("name", "p")]).
Proof. reflexivity. Qed.
Example hyps : no_self classes /\ sched_ok sd /\ (forall pd, is_lr pd = true <-> chosen pd KLr).
Proof.
  split; [|split].
  - intros cn c. unfold classes. destruct (String.eqb cn "AGP"); [intros [= <-]; simpl; intuition discriminate|]. destruct (String.eqb cn "Steps"); [intros [= <-]; simpl; intuition discriminate|]. destruct (String.eqb cn "Q"); [intros [= <-]; simpl; intuition discriminate|discriminate].
  - unfold sched_ok, comps_ok, dict_ok; cbn. repeat split; try (repeat constructor; simpl; intuition discriminate).
    all: destruct H as [H|[]]; injection H as <- <-; cbn; try (repeat constructor; simpl; intuition discriminate).
  - intro pd. unfold is_lr. rewrite andb_true_iff, negb_true_iff, !orb_false_iff. change "pruner" with (key_of KPruner). change "regularizer" with (key_of KRegularizer). change "quantizer" with (key_of KQuantizer). change "lr_scheduler" with (key_of KLr).
    rewrite !has_key_dmem_false, has_key_dmem. split.
    + intros [[[A B] C] D]. apply (chosen_first pd KLr [KPruner; KRegularizer; KQuantizer] [KExtension]); auto. intros k [<-|[<-|[<-|[]]]]; auto.
    + intro C. assert (N : forall k, k <> KLr -> ~ chosen pd k) by (intros k Hk C'; apply Hk; eapply chosen_unique; eauto).
      destruct C as (l1 & l2 & E & H & B). split; auto. unfold order in E. destruct l1 as [|a1 [|a2 [|a3 [|a4 [|a5 [|a6 l1]]]]]]; simpl in E; injection E; intros; subst; try discriminate. repeat split; apply B; simpl; auto.
Qed.
(* the hypotheses about components and policies of the acceptance theorem *)
Example hyps_comp : forall k l n co, section_of sd k = Some l -> In (n, co) l ->
  exists cn c, co_class co = Some cn /\ classes cn = Some c /\ (forall key, In key (dkeys (co_args co)) -> In key (c_accepts c)) /\
    forall args, passed "MODEL" (fun n => n) c n (extras "OPT" (fun _ => "EPOCH") k None) (co_args co) args -> exists o, c_new c args = Ok o.
Proof.
  intros k l n co S I. destruct k; cbn in S; try discriminate; injection S as <-; destruct I as [I|[]]; injection I as <- <-; cbn; eexists; eexists; (split; [reflexivity|split; [reflexivity|split; [simpl; intuition|intros args _; cbn; eauto]]]).
Qed.
Example second : fst (run (snd (run sd new_sched)) new_sched) = (Raise KeyError, new_sched).
Proof. vm_compute. reflexivity. Qed.
Example two_quantizers : fst (run (mkSd None None (Some [("q", mkComp (Some "Q") []); ("r", mkComp (Some "Q") [])]) None None (Some [])) new_sched) = (Raise ValueError, new_sched).
Proof. vm_compute. reflexivity. Qed.
(* an unknown policy, an undefined instance, a null pruner *)
Example bad1 : fst (run (mkSd None None None None None (Some [mkDef [("prunner", None)] (Some (Some [1%Z])) None None None])) new_sched) = (Raise ValueError, new_sched).
Proof. vm_compute. reflexivity. Qed.
Example bad2 : fst (run (mkSd None None None None None (Some [mkDef [("pruner", Some (mkRef (Some "p") None))] (Some (Some [1%Z])) None None None])) new_sched) = (Raise AssertionError, new_sched).
Proof. vm_compute. reflexivity. Qed.
Example bad3 : fst (run (mkSd None None None None None (Some [mkDef [("pruner", None)] (Some (Some [1%Z])) None None None])) new_sched) = (Raise TypeError, new_sched).
Proof. vm_compute. reflexivity. Qed.
Example by_class : config_component_by_class classes "MODEL" (fun n => n) [[("p", mkComp (Some "AGP") [("rate", "0.5")])]; [("q", mkComp (Some "Q") [("bits", "8")])]] "Q" [("bits", "4")] = Ok ("Q", [("bits", "4"); ("model", "MODEL")]).
Proof. reflexivity. Qed.
End Demo.

Print Assumptions C72_schedule.
Print Assumptions C72_component.
Print Assumptions C72_accepts.
Print Assumptions C72_bad_policy.
Print Assumptions C72_one_quantizer.
Print Assumptions C72_second_use.
Print Assumptions C72_missing_policies_refuted.
Print Assumptions C72_by_class.
