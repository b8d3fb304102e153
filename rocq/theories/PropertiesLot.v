(** Theorems: the lottery ticket, freezing and dropout directives, progress collectors. *)
From Coq Require Import String List ZArith QArith Bool Arith Lia.
From Verif Require Import Base Names SchedModel CkptModel SchedSpec SchedProofs SchedMaskProofs CkptProofs ResumeProofs LotModel LotSpec LotProofs.
Import ListNotations.
Open Scope list_scope.
Open Scope nat_scope.

(** * Extracting the ticket *)
Section Ticket.
Context {Opt : Type}.
Variables (fresh_u fresh_p : dict tensor) (u p : checkpoint) (uo po : Opt).
Variables (up pp : dict tensor) (su sp : option (dict masker)) (eu ep : Z).
(** the two files load: [up] are the untrained weights, [pp] the pruned ones *)
Hypothesis Hnd : NoDup (dkeys fresh_p).
Hypothesis Hu : load_checkpoint fresh_u u = Ok (up, su, eu).
Hypothesis Hp : load_checkpoint fresh_p p = Ok (pp, sp, ep).

Lemma pp_keys : dkeys pp = dkeys fresh_p.
Proof. apply (load_ok _ _ _ _ _ Hp). Qed.
Lemma sp_keys mk : sp = Some mk -> dkeys mk = dkeys fresh_p.
Proof. intro H. destruct (load_ok _ _ _ _ _ Hp) as [_ K]. rewrite (K mk H). apply cm_keys. auto. Qed.
Lemma masks_of mk : sp = Some mk -> inferred_masks pp mk = map (fun np => (fst np, nonzeros (snd np))) pp.
Proof.
  intro H. apply inferred_all. intros n Hn E. apply dget_None_notin in E. apply E. rewrite (sp_keys mk H), <- pp_keys. auto.
Qed.
Lemma sp_cases : sp = None \/ exists mk, sp = Some mk.
Proof. clear. destruct sp; eauto. Qed.
Lemma extract_shape r : extract_lottery_ticket fresh_u fresh_p (u, uo) (p, po) = Ok r ->
  exists mk u' mk', sp = Some mk /\ foldM mask_one (map (fun np => (fst np, nonzeros (snd np))) pp) up = Ok u' /\
    r = (save_checkpoint 0 u' (Some mk'), po) /\
    mk' = fst (fst (init_from_masks_dict mk (map (fun np => (fst np, Some (nonzeros (snd np)))) pp) false)).
Proof.
  unfold extract_lottery_ticket. cbn [fst snd]. rewrite Hu. cbn [bind]. rewrite Hp. cbn [bind].
  destruct sp_cases as [Es|(mk & Es)]; rewrite Es; [discriminate|]. intro H. rewrite (masks_of mk Es) in H.
  apply bind_ok in H. destruct H as (u' & H1 & H). rewrite map_map in H. cbn [fst snd] in H.
  exists mk, u'. destruct (init_from_masks_dict _ _ _) as [[mk' [e|]] x] eqn:E; [discriminate|].
  exists mk'. split; auto. split; [exact H1|]. split; [congruence|reflexivity].
Qed.

(** what is saved: at epoch 0, with every weight of the ticket, masked by what the pruned network kept; weights the
    pruned network does not have stay *)
Theorem C116_ticket : forall tk o, extract_lottery_ticket fresh_u fresh_p (u, uo) (p, po) = Ok (tk, o) ->
  ck_epoch tk = Some 0%Z /\ dkeys (ck_params tk) = dkeys up /\
  (forall n q, dget pp n = Some q -> exists w t m st, dget up n = Some w /\ dget (ck_params tk) n = Some t /\
     is_ticket w q t /\ ck_sched tk = Some st /\ dget st n = Some (Some m) /\ is_mask_of q m /\ zero_where_pruned q t) /\
  (forall n, dget pp n = None -> dget (ck_params tk) n = dget up n).
Proof.
  intros tk o H. apply extract_shape in H. destruct H as (mk & u' & mk' & Es & E1 & E2 & Emk). injection E2 as -> ->.
  assert (Nm : NoDup (dkeys (map (fun np => (fst np, nonzeros (snd np))) pp))).
  { rewrite (dkeys_map nonzeros pp), pp_keys. auto. }
  destruct (mask_loop _ _ _ Nm E1) as (K & O & S). split; [reflexivity|]. split; [exact K|]. split.
  - intros n q Hq. destruct (S n (nonzeros q)) as (w & A & B & C); [rewrite (dget_map nonzeros), Hq; reflexivity|].
    assert (L : length w = length q) by (unfold nonzeros in B; rewrite map_length in B; exact B).
    exists w, (tmul w (nonzeros q)), (nonzeros q), (state_dict mk'). split; [exact A|]. split; [exact C|]. split.
    + apply ticket_of_mask; [auto|apply nonzeros_mask].
    + split; [reflexivity|]. assert (In n (dkeys mk)) as I by (rewrite (sp_keys mk Es), <- pp_keys; eapply dget_Some_In; eauto).
      destruct (dget mk n) as [m0|] eqn:Em; [|apply dget_None_notin in Em; contradiction].
      destruct (init_plain mk (map (fun np => (fst np, Some (nonzeros (snd np)))) pp) n m0 Em) as [_ D]. rewrite <- Emk in D.
      split; [|split; [apply nonzeros_mask|apply zero_of_mask, nonzeros_mask]].
      unfold state_dict. rewrite (dget_map mk_mask), D. cbn [option_map set_mask mk_mask].
      rewrite (dget_map (fun x => Some (nonzeros x))), Hq. reflexivity.
  - intros n Hn. apply O. rewrite (dkeys_map nonzeros pp). apply dget_None_notin. auto.
Qed.
(** it succeeds exactly when the pruned file has a scheduler and every pruned parameter exists in the untrained network
    with as many elements *)
Theorem C116_ticket_exists : (exists r, extract_lottery_ticket fresh_u fresh_p (u, uo) (p, po) = Ok r) <->
  sp <> None /\ forall n q, dget pp n = Some q -> exists w, dget up n = Some w /\ length w = length q.
Proof.
  split.
  - intros (r & H). destruct r as [tk o]. pose proof (C116_ticket tk o H) as (_ & _ & T & _).
    apply extract_shape in H. destruct H as (mk & u' & mk' & Es & E1 & _). split; [congruence|]. intros n q Hq.
    assert (Nm : NoDup (dkeys (map (fun np => (fst np, nonzeros (snd np))) pp))) by (rewrite (dkeys_map nonzeros pp), pp_keys; auto).
    destruct (mask_loop _ _ _ Nm E1) as (_ & _ & S). destruct (S n (nonzeros q)) as (w & A & B & C); [rewrite (dget_map nonzeros), Hq; reflexivity|].
    exists w. split; auto. unfold nonzeros in B; rewrite map_length in B; exact B.
  - intros [Hs H]. unfold extract_lottery_ticket. cbn [fst snd]. rewrite Hu. cbn [bind]. rewrite Hp. cbn [bind].
    destruct sp_cases as [Es|(mk & Es)]; [congruence|]. rewrite Es, (masks_of mk Es).
    destruct (mask_loop_ok (map (fun np => (fst np, nonzeros (snd np))) pp) up) as (u' & E).
    + rewrite (dkeys_map nonzeros pp), pp_keys. auto.
    + intros n m Hm. rewrite (dget_map nonzeros) in Hm. destruct (dget pp n) as [q|] eqn:Eq; [|discriminate]. injection Hm as <-.
      destruct (H n q Eq) as (w & A & B). exists w. split; auto. unfold nonzeros. rewrite map_length. exact B.
    + rewrite E. cbn [bind]. rewrite map_map. cbn [fst snd].
      set (ms := map (fun x => (fst x, Some (nonzeros (snd x)))) pp). 
      assert (snd (fst (init_from_masks_dict mk ms false)) = None) as Hn.
      { destruct mk as [|(k, m) mk]; [reflexivity|]. apply (init_plain ((k, m) :: mk) ms k m). cbn. rewrite String.eqb_refl. reflexivity. }
      destruct (init_from_masks_dict mk ms false) as [[mk' [e|]] x]; [discriminate|eauto].
Qed.
(** without a scheduler in the pruned file, or with other sizes (a thinned network), it fails and nothing is saved *)
Theorem C116_no_scheduler : sp = None -> extract_lottery_ticket fresh_u fresh_p (u, uo) (p, po) = Raise AttributeError.
Proof. intro Es. unfold extract_lottery_ticket. cbn [fst snd]. rewrite Hu. cbn [bind]. rewrite Hp, Es. reflexivity. Qed.
(** the optimizer saved with the ticket is the one of the finished pruning run, not that of the untrained network *)
Theorem C116_optimizer_of_pruned_run_refuted : forall tk o, extract_lottery_ticket fresh_u fresh_p (u, uo) (p, po) = Ok (tk, o) -> o = po.
Proof. intros tk o H. apply extract_shape in H. destruct H as (mk & u' & mk' & _ & _ & E & _). congruence. Qed.

(** Training from the ticket (a model of the same architecture, a scheduler without policies): it loads, with the next
    epoch 1; and whatever the optimizer does, for any number of mini-batches, every weight the pruned network dropped is
    zero after each of them. *)
Theorem C116_training_keeps_the_ticket : forall tk o fresh (PS : Type) (tbl : nat -> policy PS) pol,
  extract_lottery_ticket fresh_u fresh_p (u, uo) (p, po) = Ok (tk, o) ->
  dkeys fresh_u = dkeys fresh_p -> dkeys fresh = dkeys fresh_p ->
  exists mk, load_checkpoint fresh tk = Ok (ck_params tk, Some mk, 1%Z) /\
    forall bs, exists w, train tbl bs (mkWorld (ck_params tk) mk pol new_sched [] []) = Ok w /\
      (bs = [] -> w_params w = ck_params tk) /\
      forall n q, dget pp n = Some q -> exists t, dget (w_params w) n = Some t /\ zero_where_pruned q t.
Proof.
  intros tk o fresh PS tbl pol H Hk Hf. pose proof (C116_ticket tk o H) as (_ & K & T & _).
  apply extract_shape in H. destruct H as (mk & u' & mk' & Es & E1 & E2 & Emk). injection E2 as -> ->.
  cbn [ck_params save_checkpoint] in *.
  assert (Ku : dkeys u' = dkeys fresh_p) by (rewrite K, (proj1 (load_ok _ _ _ _ _ Hu)); auto).
  assert (Kmk : dkeys mk' = dkeys fresh_p).
  { rewrite Emk. unfold init_from_masks_dict. cbn [fst]. rewrite load_state_keys. apply (sp_keys mk Es). }
  assert (A : load_checkpoint fresh (save_checkpoint 0 u' (Some mk')) = Ok (u', Some (loaded_maskers mk'), 1%Z))
    by (apply (save_load_plain 0 u' fresh mk'); [rewrite Ku; auto|congruence|congruence]).
  exists (loaded_maskers mk'). split; [exact A|]. intro bs.
  set (masks := map (fun np => (fst np, nonzeros (snd np))) pp).
  assert (G : good masks (mkWorld u' (loaded_maskers mk') pol new_sched [] [] : world PS)).
  { split; [cbn [w_params]; rewrite Ku; auto|]. split.
    { cbn [w_params w_maskers]. intros n Hn. rewrite loaded_maskers_keys, Kmk, <- Ku. exact Hn. }
    split; [reflexivity|]. intros n m Hm. unfold masks in Hm. rewrite (dget_map nonzeros) in Hm.
    destruct (dget pp n) as [q|] eqn:Eq; [|discriminate]. injection Hm as <-.
    assert (In n (dkeys fresh_p)) as I by (rewrite <- pp_keys; eapply dget_Some_In; eauto).
    split; [cbn [w_params]; rewrite Ku; auto|].
    assert (In n (dkeys mk)) as I' by (rewrite (sp_keys mk Es); auto).
    destruct (dget mk n) as [m0|] eqn:Em; [|apply dget_None_notin in Em; contradiction].
    destruct (init_plain mk (map (fun np => (fst np, Some (nonzeros (snd np)))) pp) n m0 Em) as [_ D]. rewrite <- Emk in D.
    rewrite (dget_map (fun x => Some (nonzeros x))), Eq in D. cbn [option_map] in D.
    exists (set_mask new_masker (Some (nonzeros q))). split; [|split; reflexivity].
    cbn [w_maskers]. unfold loaded_maskers. rewrite (dget_map (fun x => set_mask new_masker (mk_mask x))), D. reflexivity. }
  destruct (train_good tbl masks bs _ G) as (w & E & _ & _ & Z0 & Z). exists w. split; [exact E|]. split.
  - intro Hb. rewrite (Z0 Hb). reflexivity.
  - intros n q Hq. destruct bs as [|b bs].
    + rewrite Z0 by reflexivity. cbn [w_params]. destruct (T n q Hq) as (w0 & t & m & st & _ & B & _ & _ & _ & _ & C). eauto.
    + destruct (Z ltac:(discriminate) n (nonzeros q)) as (t & Ht); [unfold masks; rewrite (dget_map nonzeros), Hq; reflexivity|].
      exists (tmul t (nonzeros q)). split; auto. apply zero_of_mask, nonzeros_mask.
Qed.
End Ticket.

(** A bias that was never pruned but is zero (its initial value, say) is masked in the ticket and stays zero in training:
    the mask is inferred from the weights, not taken from the scheduler. *)
Definition ex_pruned : checkpoint := mkCkpt [("fc.weight"%string, [2; 0]%Q); ("fc.bias"%string, [0]%Q)]
  (Some [("fc.weight"%string, Some [1; 0]%Q); ("fc.bias"%string, None)]) (Some 9%Z).
Definition ex_untrained : checkpoint := mkCkpt [("fc.weight"%string, [5; 7]%Q); ("fc.bias"%string, [0]%Q)] None (Some 0%Z).
Definition ex_fresh : dict tensor := [("fc.weight"%string, [1; 1]%Q); ("fc.bias"%string, [1]%Q)].
Theorem C116_unpruned_zero_frozen_refuted : exists tk, extract_lottery_ticket ex_fresh ex_fresh (ex_untrained, tt) (ex_pruned, tt) = Ok (tk, tt) /\
  ck_params tk = [("fc.weight"%string, [5 * 1; 7 * 0]%Q); ("fc.bias"%string, [0 * 0]%Q)] /\
  ck_sched tk = Some [("fc.weight"%string, Some [1; 0]%Q); ("fc.bias"%string, Some [0]%Q)].
Proof. eexists. split; [vm_compute; reflexivity|]. split; reflexivity. Qed.
(** Training the ticket from its file begins at epoch 1: a policy scheduled for epoch 0 never runs. *)
Theorem C116_starts_at_epoch_one_refuted : forall Opt fresh_u fresh_p u p (uo po : Opt) tk o fresh tp mk e,
  NoDup (dkeys fresh_p) -> extract_lottery_ticket fresh_u fresh_p (u, uo) (p, po) = Ok (tk, o) ->
  load_checkpoint fresh tk = Ok (tp, mk, e) -> e = 1%Z.
Proof.
  intros Opt fu fp u p uo po tk o fresh tp mk e Hnd H Hl.
  assert (exists a b, load_checkpoint fu u = Ok a /\ load_checkpoint fp p = Ok b) as ([[up su] eu] & [[pp sp] ep] & Hu & Hp).
  { unfold extract_lottery_ticket in H. cbn [fst snd] in H. apply bind_ok in H. destruct H as (a & Ha & H).
    apply bind_ok in H. destruct H as (b & Hb & _). eauto. }
  destruct (C116_ticket fu fp u p uo po up pp su sp eu ep Hnd Hu Hp tk o H) as (E & _).
  unfold load_checkpoint in Hl. rewrite E in Hl. apply bind_ok in Hl. destruct Hl as ((m & nrm) & _ & Hl).
  destruct (missing_keys _ _); [|discriminate]. injection Hl as _ _ <-. reflexivity.
Qed.
(** a thinned network (fewer elements) is refused *)
Example C116_thinned_case : extract_lottery_ticket ex_fresh [("fc.weight"%string, [1]%Q)] (ex_untrained, tt)
  (mkCkpt [("fc.weight"%string, [2]%Q)] (Some [("fc.weight"%string, Some [1]%Q)]) (Some 9%Z), tt) = Raise RuntimeError.
Proof. reflexivity. Qed.
Example C116_training_case : exists tk w, extract_lottery_ticket ex_fresh ex_fresh (ex_untrained, tt) (ex_pruned, tt) = Ok (tk, tt) /\
  train (PS := unit) (fun _ => PLR) [(1%Z, fun _ => map (Qplus 3)); (1%Z, fun _ => map (Qplus 1))]
    (mkWorld (ck_params tk) (match load_checkpoint ex_fresh tk with Ok (_, Some mk, _) => mk | _ => [] end) (fun _ => mkPol false false tt) new_sched [] []) = Ok w /\
  option_map (map Qred) (dget (w_params w) "fc.weight") = Some [9; 0]%Q.
Proof. do 2 eexists. split; [vm_compute; reflexivity|]. split; vm_compute; reflexivity. Qed.

(** * Directives *)

(** freeze_training never freezes anything: it fails on every model that has a parameter *)
Theorem C116_freeze_training_refuted : forall params which freeze, params <> [] ->
  freeze_training params which freeze = (params, Some NameError).
Proof. intros [|p l] which freeze H; [congruence|reflexivity]. Qed.
(** freeze_all freezes or unfreezes every parameter; doing the opposite afterwards leaves all trainable or none *)
Theorem C116_freeze_all : forall params freeze,
  map fst (freeze_all params freeze) = map fst params /\
  (forall n b, In (n, b) (freeze_all params freeze) -> b = negb freeze) /\
  (forall freeze', freeze_all (freeze_all params freeze) freeze' = freeze_all params freeze').
Proof.
  intros params freeze. unfold freeze_all. repeat split.
  - rewrite map_map. reflexivity.
  - intros n b H. apply in_map_iff in H. destruct H as (x & E & _). congruence.
  - intros. rewrite map_map. reflexivity.
Qed.

Lemma nth_error_map_inv {A B} (f : A -> B) l i : nth_error (map f l) i = option_map f (nth_error l i).
Proof. revert i. induction l as [|a l IH]; intros [|i]; simpl; auto. Qed.
(** adjust_dropout: the modules stay; a dropout layer gets the new probability unless it lies inside another *)
Theorem C116_adjust_dropout : forall p path t,
  match at_path t path, at_path (adjust_dropout p t) path with
  | Some a, Some b => is_dropout b = is_dropout a /\
      (is_dropout a = true -> outside_dropout t path -> prob b = Some p) /\
      (~ outside_dropout t path -> prob b = prob a)
  | None, None => True
  | _, _ => False
  end.
Proof.
  intros p path. induction path as [|i path IH]; intro t.
  - cbn [at_path outside_dropout]. destruct t as [q ch|ch]; cbn; repeat split; auto; try discriminate; tauto.
  - cbn [at_path outside_dropout]. destruct t as [q ch|ch]; cbn [adjust_dropout is_dropout].
    + destruct (nth_error ch i) as [c|]; [|exact I]. destruct (at_path c path) as [a|]; [|exact I].
      repeat split; auto. intros _ [F _]. discriminate.
    + rewrite nth_error_map_inv. destruct (nth_error ch i) as [c|]; cbn [option_map]; [|exact I].
      specialize (IH c). destruct (at_path c path), (at_path (adjust_dropout p c) path); try contradiction; try exact I.
      destruct IH as (A & B & C). split; [exact A|]. split; [intros D [_ E]; auto|]. intro N. apply C. tauto.
Qed.
(** in a network where no dropout layer has children, every dropout layer gets it *)
Theorem C116_every_dropout : forall p t path a,
  (forall path q ch, at_path t path = Some (Dropout q ch) -> ch = []) ->
  at_path t path = Some a -> is_dropout a = true -> exists b, at_path (adjust_dropout p t) path = Some b /\ prob b = Some p.
Proof.
  intros p t path a Hch Ha Hd. pose proof (C116_adjust_dropout p path t) as H. rewrite Ha in H.
  destruct (at_path (adjust_dropout p t) path) as [b|]; [|contradiction]. exists b. split; auto. destruct H as (_ & B & _). apply B; auto.
  clear B b Hd. revert t Hch Ha. induction path as [|i path IH]; intros t Hch Ha; cbn [outside_dropout]; [exact I|].
  destruct t as [q ch|ch].
  - assert (ch = []) as -> by (apply (Hch [] q ch); reflexivity). cbn in Ha. destruct i; discriminate.
  - split; [reflexivity|]. cbn [at_path] in Ha. destruct (nth_error ch i) as [c|] eqn:E; [|exact I]. apply IH; auto.
    intros path' q ch' H'. apply (Hch (i :: path') q ch'). cbn [at_path]. rewrite E. exact H'.
Qed.
Example C116_dropout_case : adjust_dropout (1 # 10) (Module [Dropout (1 # 2) []; Module [Module []; Dropout (1 # 3) []]]) =
  Module [Dropout (1 # 10) []; Module [Module []; Dropout (1 # 10) []]].
Proof. reflexivity. Qed.

(** * TrainingProgressCollector *)
Lemma upd_at_nth h c d f : nth d (upd_at h c f) [] = if Nat.eqb c d && Nat.ltb c (length h) then f (nth d h []) else nth d h [].
Proof.
  revert c d. induction h as [|x h IH]; intros [|c] [|d]; try reflexivity.
  - cbn [upd_at nth Nat.eqb length]. rewrite andb_false_r. destruct d; reflexivity.
  - cbn [upd_at nth Nat.eqb length]. rewrite IH. reflexivity.
Qed.
(** what was set is what is read, and what value() reports; other names and other dictionaries stay *)
Theorem C116_progress_set_get : forall c h name v, c < length h ->
  ~ In name ("_stats"%string :: tp_methods) ->
  tp_get c name (tp_set c name v h) = Ok (TpValue v) /\
  dget (tp_value c (tp_set c name v h)) name = Some v /\
  (forall name', name' <> name -> dget (tp_value c (tp_set c name v h)) name' = dget (tp_value c h) name') /\
  (forall c', c' <> c -> tp_value c' (tp_set c name v h) = tp_value c' h).
Proof.
  intros c h name v Hc Hn. apply Nat.ltb_lt in Hc. unfold tp_value, tp_set, tp_get. rewrite !upd_at_nth, Nat.eqb_refl, Hc. cbn [andb].
  split.
  - destruct (String.eqb_spec name "_stats"); [exfalso; apply Hn; left; auto|].
    destruct (existsb (String.eqb name) tp_methods) eqn:E.
    + exfalso. apply existsb_exists in E. destruct E as (x & I & X). apply String.eqb_eq in X. subst. apply Hn. right. auto.
    + rewrite dget_dset_same. reflexivity.
  - split; [apply dget_dset_same|]. split; [intros; apply dget_dset_other; auto|].
    intros c' N. rewrite upd_at_nth. apply not_eq_sym, Nat.eqb_neq in N. rewrite N. reflexivity.
Qed.
(** collectors made with dictionaries of their own do not disturb each other, nor those made before *)
Theorem C116_progress_own : forall d h, snd (tp_new (Some d) h) = length h /\
  tp_value (snd (tp_new (Some d) h)) (fst (tp_new (Some d) h)) = d /\
  forall c, c < length h -> tp_value c (fst (tp_new (Some d) h)) = tp_value c h.
Proof.
  intros d h. cbn. unfold tp_value. split; [reflexivity|]. split; [rewrite app_nth2, Nat.sub_diag by lia; reflexivity|].
  intros. apply app_nth1. auto.
Qed.
(** collectors made without one all share the same: what one records the others report, also those made later *)
Theorem C116_progress_shared_refuted : forall h name v, h <> [] ->
  let c1 := snd (tp_new None h) in let h1 := tp_set c1 name v (fst (tp_new None h)) in
  let c2 := snd (tp_new None h1) in dget (tp_value c2 (fst (tp_new None h1))) name = Some v.
Proof. intros [|d h] name v H; [congruence|]. cbn. apply dget_dset_same. Qed.
(** a statistic named like a method or like the dictionary is recorded but cannot be read back as an attribute *)
Theorem C116_progress_names_refuted : forall c h v, c < length h ->
  tp_get c "value" (tp_set c "value" v h) = Ok (TpMethod "value") /\ dget (tp_value c (tp_set c "value" v h)) "value" = Some v.
Proof. intros c h v Hc. split; [reflexivity|]. apply Nat.ltb_lt in Hc. unfold tp_value, tp_set. rewrite upd_at_nth, Nat.eqb_refl, Hc. apply dget_dset_same. Qed.
(** the attribute _stats is the collector's own dictionary, even if a statistic was stored under that name; a name never
    stored raises AttributeError *)
Theorem C116_progress_stats : forall c h name, tp_get c "_stats" h = Ok (TpStats (tp_value c h)) /\
  (~ In name ("_stats"%string :: tp_methods) -> dget (tp_value c h) name = None -> tp_get c name h = Raise AttributeError).
Proof.
  intros c h name. split; [reflexivity|]. intros Hn E. unfold tp_get, tp_value in *. rewrite E.
  destruct (String.eqb_spec name "_stats"); [exfalso; apply Hn; left; auto|].
  destruct (existsb (String.eqb name) tp_methods) eqn:X; [|reflexivity].
  exfalso. apply existsb_exists in X. destruct X as (x & I & X). apply String.eqb_eq in X. subst. apply Hn. right. auto.
Qed.
Print Assumptions C116_ticket.
Print Assumptions C116_ticket_exists.
Print Assumptions C116_no_scheduler.
Print Assumptions C116_optimizer_of_pruned_run_refuted.
Print Assumptions C116_training_keeps_the_ticket.
Print Assumptions C116_unpruned_zero_frozen_refuted.
Print Assumptions C116_starts_at_epoch_one_refuted.
Print Assumptions C116_freeze_training_refuted.
Print Assumptions C116_freeze_all.
Print Assumptions C116_adjust_dropout.
Print Assumptions C116_every_dropout.
Print Assumptions C116_progress_set_get.
Print Assumptions C116_progress_own.
Print Assumptions C116_progress_shared_refuted.
Print Assumptions C116_progress_names_refuted.
Print Assumptions C116_progress_stats.
