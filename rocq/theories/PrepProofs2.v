(** A prepared model computes the same as the original, apart from rounding. *)
From Coq Require Import String List ZArith QArith Qabs Bool Arith Lia Lqa Wf_nat.
From Verif Require Import Base Names StructModel QuantModel QuantSpec QuantProofs RangeModel QzrModel PrepModel PrepSpec PrepProofs.
Import ListNotations.
Local Open Scope string_scope.
Open Scope list_scope.
Notation relu := RangeModel.relu.

(** * Running programs *)
Lemma exec_app f p1 : forall p2 ins env, exec f (p1 ++ p2) ins env = exec f p2 ins (exec f p1 ins env).
Proof. induction p1 as [|nd p1 IH]; intros; cbn; auto. Qed.
Lemma exec_ext f p : forall ins env, exists r, exec f p ins env = env ++ r /\ length r = length p.
Proof.
  induction p as [|nd p IH]; intros ins env; cbn; [exists []; rewrite app_nil_r; auto|].
  destruct (IH ins (env ++ [f nd (map (arg_val ins env) (n_args nd))])) as (r & -> & L). exists (f nd (map (arg_val ins env) (n_args nd)) :: r).
  rewrite <- app_assoc. cbn. auto.
Qed.
Lemma exec_nth f p ins i nd : (forall i nd a j, nth_error p i = Some nd -> In a (n_args nd) -> ar_src a = SOp j -> (j < i)%nat) ->
  nth_error p i = Some nd -> nth i (exec f p ins []) [] = f nd (map (arg_val ins (exec f p ins [])) (n_args nd)).
Proof.
  intros B H. destruct (nth_error_split _ _ H) as (p1 & p2 & E & L).
  set (env := exec f p1 ins []). assert (LE : length env = i). { unfold env. destruct (exec_ext f p1 ins []) as (r & -> & L1). cbn. lia. }
  assert (EX : exists r, exec f p ins [] = env ++ f nd (map (arg_val ins env) (n_args nd)) :: r).
  { rewrite E, exec_app. fold env. cbn. destruct (exec_ext f p2 ins (env ++ [f nd (map (arg_val ins env) (n_args nd))])) as (r & -> & _). exists r. rewrite <- app_assoc. reflexivity. }
  destruct EX as (r & EX). rewrite EX at 1. rewrite app_nth2 by lia. replace (i - length env)%nat with 0%nat by lia. cbn [nth].
  f_equal. apply map_ext_in. intros a Ia. rewrite EX. unfold arg_val. destruct (ar_src a) as [k|j] eqn:S; auto.
  specialize (B _ _ _ _ H Ia S). rewrite app_nth1 by lia. auto.
Qed.

(** * Picking elements *)
Lemma Forall2_nth_error {A B} (R : A -> B -> Prop) x y : Forall2 R x y -> forall i, match nth_error x i, nth_error y i with Some a, Some b => R a b | None, None => True | _, _ => False end.
Proof. induction 1; intros [|i]; cbn; auto. apply IHForall2. Qed.
Lemma pick_rel (R : Q -> Q -> Prop) l x y : Forall2 R x y -> Forall2 R (pick l x) (pick l y).
Proof.
  intro H. unfold pick. induction l as [|i l IH]; cbn; [constructor|]. apply Forall2_app; auto.
  pose proof (Forall2_nth_error R x y H i) as N. destruct (nth_error x i), (nth_error y i); try tauto; constructor; auto.
Qed.
Lemma Forall2_same {A} (R : A -> A -> Prop) l : (forall x, In x l -> R x x) -> Forall2 R l l.
Proof. induction l; intro H; constructor; cbn in *; auto. Qed.
Lemma Forall2_in_l {A B} (R S : A -> B -> Prop) x y : Forall2 R x y -> (forall a b, In a x -> R a b -> S a b) -> Forall2 S x y.
Proof. induction 1; intro K; constructor; [apply K; cbn; auto|apply IHForall2; intros; apply K; cbn; auto]. Qed.
Lemma Forall2_map {A B C D} (f : A -> C) (h : B -> D) (R : C -> D -> Prop) x y : Forall2 (fun a b => R (f a) (h b)) x y -> Forall2 R (map f x) (map h y).
Proof. induction 1; cbn; constructor; auto. Qed.
Lemma Forall2_map_r {A B C} (h : B -> C) (R : A -> C -> Prop) x y : Forall2 (fun a b => R a (h b)) x y -> Forall2 R x (map h y).
Proof. induction 1; cbn; constructor; auto. Qed.

(** * The graph of a program *)
Section Main.
Variables (mods : dict pmod) (p : program).
Hypothesis WF : wf_program mods p.

Lemma name_inj i j x y : nth_error p i = Some x -> nth_error p j = Some y -> n_name x = n_name y -> i = j.
Proof.
  intros H1 H2 E. eapply (proj1 (NoDup_nth_error (map n_name p)) (wf_names _ _ WF)).
  - rewrite map_length. apply nth_error_Some. congruence.
  - rewrite !nth_error_map, H1, H2. cbn. congruence.
Qed.
Lemma graph_keys : dkeys (graph p) = map n_name p.
Proof.
  unfold dkeys, graph. rewrite map_map.
  assert (K : forall (q : program) k, (forall i, nth_error p (k + i) = nth_error q i) ->
     map (fun i => fst (match nth_error p i with Some nd => (n_name nd, mkAdj (preds p nd) (succs p i)) | None => ("", mkAdj [] []) end)) (seq k (length q)) = map n_name q).
  { induction q as [|nd q IH]; intros k H; cbn; auto. pose proof (H 0%nat) as H0. rewrite Nat.add_0_r in H0. cbn in H0. rewrite H0. cbn. f_equal.
    apply IH. intro i. replace (S k + i)%nat with (k + S i)%nat by lia. apply H. }
  apply K. auto.
Qed.
Lemma graph_get i nd : nth_error p i = Some nd -> dget (graph p) (n_name nd) = Some (mkAdj (preds p nd) (succs p i)).
Proof.
  intro H. apply In_dget; [rewrite graph_keys; apply (wf_names _ _ WF)|]. unfold graph. apply in_map_iff. exists i. rewrite H. split; auto.
  apply in_seq. assert (i < length p)%nat by (apply nth_error_Some; congruence). lia.
Qed.
Lemma graph_get_inv n a : dget (graph p) n = Some a -> exists i nd, nth_error p i = Some nd /\ n_name nd = n /\ a = mkAdj (preds p nd) (succs p i).
Proof.
  intro H. apply dget_In in H. unfold graph in H. apply in_map_iff in H. destruct H as (i & E & I). apply in_seq in I.
  destruct (nth_error p i) as [nd|] eqn:N; [|apply nth_error_None in N; lia]. inversion E; subst. eauto.
Qed.
Lemma succ_in i c : In c p -> uses i c = true -> In (op_of c) (succs p i).
Proof. intros. unfold succs. apply in_map. apply filter_In. auto. Qed.
Lemma succ_one i s c : succs p i = [s] -> In c p -> uses i c = true -> s = op_of c.
Proof. intros H I U. pose proof (succ_in i c I U) as K. rewrite H in K. destruct K as [|[]]; auto. Qed.
Lemma succ_node i s : In s (succs p i) -> exists c, In c p /\ uses i c = true /\ s = op_of c.
Proof. unfold succs. rewrite in_map_iff. intros (c & E & H). apply filter_In in H. destruct H. eauto. Qed.
Lemma uses_arg i c : uses i c = true <-> exists a, In a (n_args c) /\ ar_src a = SOp i.
Proof.
  unfold uses. rewrite existsb_exists. split; intros (a & I & H); exists a; split; auto.
  - destruct (ar_src a); [discriminate|]. apply Nat.eqb_eq in H. congruence.
  - rewrite H. apply Nat.eqb_refl.
Qed.
Lemma same_name c d : In c p -> In d p -> n_name c = n_name d -> c = d.
Proof.
  intros I J E. apply In_nth_error in I, J. destruct I as (i & I), J as (j & J). pose proof (name_inj _ _ _ _ I J E). subst. congruence.
Qed.

(** * The preparation *)
Variables (g : pcfg) (st : dict lstats) (qm : dict qbits) (ov : dict kw) (st' : dict lstats) (ws : dict wrap).
Hypothesis HC : g_clip g = CNone.
Hypothesis HH : g_half g = false.
Hypothesis Hov : forall n k, In (n, k) ov -> k_half k = None /\ k_ident k = None.
Hypothesis HP : prepare g mods (graph p) st qm ov = Ok (st', ws).
Notation am := (graph p).
Notation ra := (relu_after mods am qm).

Lemma no_folds : folds mods = [].
Proof.
  destruct (folds mods) as [|(x, y) l] eqn:E; auto. exfalso. destruct (folds_In_inv mods x y) as (n & b & (m & r & I & F) & _); [rewrite E; cbn; auto|].
  rewrite (wf_no_bn _ _ WF _ _ I) in F. discriminate.
Qed.
Lemma prep_parts : stats_fusions mods am qm st = Ok st' /\ replace_all g mods am st' qm (fuse_relu mods am qm ov) = Ok ws.
Proof.
  unfold prepare in HP. apply bind_ok in HP. destruct HP as (s1 & H1 & H2). apply bind_ok in H2. destruct H2 as (s2 & H2 & H3). apply bind_ok in H3. destruct H3 as (w & H3 & H4).
  inversion H4; subst. rewrite bn_stats_pairs in H1 by (intros n m I; rewrite (wf_no_bn _ _ WF _ _ I); discriminate). rewrite no_folds in H1. cbn in H1. inversion H1; subst. auto.
Qed.
Lemma names_norm : NoDup (map (fun e : string * pmod => normalize_module_name (fst e)) mods).
Proof.
  assert (E : map (fun e : string * pmod => normalize_module_name (fst e)) mods = map fst mods).
  { apply map_ext_in. intros e I. apply (wf_plain _ _ WF). apply in_map; auto. }
  rewrite E. apply (wf_mods _ _ WF).
Qed.
Lemma plain n m : dget mods n = Some m -> normalize_module_name n = n.
Proof. intro H. apply dget_In in H. apply (wf_plain _ _ WF). apply (in_map fst) in H. auto. Qed.
Lemma entry_in n m : In (n, m) mods -> dget mods n = Some m.
Proof. apply In_dget. apply (wf_mods _ _ WF). Qed.

(** the recorded output range of a module after preparation *)
Lemma stats_after n m ls' : dget mods n = Some m -> dget st' n = Some ls' -> exists ls, dget st n = Some ls /\
  ls_output ls' = match tgt mods am qm (n, m) with Some (s, a) => clip_to (ls_output ls) (act_range a (st_max (ls_output ls))) | None => ls_output ls end.
Proof.
  intros G G'. destruct prep_parts as (H & _). unfold stats_fusions in H. destruct st as [|e0 st0] eqn:ST; [inversion H; subst; discriminate|]. rewrite <- ST in *. clear ST.
  pose proof (fusions_keys mods am qm mods _ _ H n) as K. destruct (dget st n) as [ls|] eqn:E; [|destruct K as (_ & K); specialize (K eq_refl); congruence].
  exists ls. split; auto. destruct (fusions_output mods am qm mods names_norm _ _ H n ls ls' E G') as (A & B).
  pose proof (plain _ _ G) as N. destruct (tgt mods am qm (n, m)) as [[s a]|] eqn:T.
  - apply (A (n, m) s a); auto. apply dget_In; auto.
  - apply B. intros (n', m') s a I E' T'. cbn [fst] in E'. pose proof (entry_in _ _ I) as G2. rewrite (plain _ _ G2) in E'. subst n'. congruence.
Qed.
Lemma stats_present n m s : st <> [] -> dget mods n = Some m -> single_successor qm am n m = Some s -> dmem st' n = true.
Proof.
  intros NE G S. destruct prep_parts as (H & _). unfold stats_fusions in H. destruct st as [|e0 st0] eqn:ST; [congruence|]. rewrite <- ST in *. clear ST.
  destruct (proj1 (fusions_succeed mods am qm mods st) (ex_intro _ _ H) (n, m) s (dget_In _ _ _ G) S) as (A & _). cbn [fst] in A. rewrite (plain _ _ G) in A.
  unfold dmem in *. destruct (dget st' n) eqn:E; auto. apply (fusions_keys mods am qm mods _ _ H n) in E. rewrite E in A. auto.
Qed.

(** ** Wrappers *)
Definition relu_like (m : pmod) : bool := match pm_type m with PtRelu | PtRelu6 => true | _ => false end.
Definition rlq_half (w : wrap) : bool := match w with WQuant _ h => h | WFake _ h _ => h | _ => false end.
Definition rlq_acts (w : wrap) : option Z := match w with WQuant a _ => a | WFake a _ _ => a | _ => None end.
Lemma wrapper n m : dget mods n = Some m -> exists q w, dget qm n = Some q /\ dget ws n = Some w /\
  (is_rlq w = true -> rlq_acts w = q_acts q /\ (rlq_half w = true -> ra (n, m) <> None \/ relu_like m = true) /\ (ra (n, m) <> None -> rlq_half w = true)) /\
  (w = WIdent -> relu_like m = true /\ (exists x mx, dget mods x = Some mx /\ ra (x, mx) = Some n) /\
     exists a o r w0, dget am n = Some a /\ a_preds a = o :: r /\ dget ws (go_name o) = Some w0 /\ is_rlq w0 = true).
Proof.
  intro G. destruct prep_parts as (_ & H). unfold replace_all in H.
  destruct (replace_get _ _ _ _ _ _ (wf_mods _ _ WF) _ _ H) as (_ & B). destruct (B n m (dget_In _ _ _ G)) as (q & w & d & Q1 & W & R & D). clear B.
  exists q, w. split; auto. split; auto.
  pose proof (fused_half mods am qm (wf_mods _ _ WF) ov Hov n m G) as KH.
  pose proof (fused_ident mods am qm (wf_mods _ _ WF) ov Hov n) as KI.
  set (k := getkw (fuse_relu mods am qm ov) n) in *.
  assert (HALF : dflt (k_half k) (g_half g) = match ra (n, m) with Some _ => true | None => false end).
  { rewrite KH, HH. destruct (ra (n, m)); auto. }
  assert (LIKE : relu_like m = match pm_type m with PtRelu | PtRelu6 => true | _ => false end) by reflexivity.
  unfold replace in R. rewrite HALF in R.
  assert (FP : forall o w, fp_wrapper o = Ok w -> exists z, w = WFp z).
  { intros [z|] w0; unfold fp_wrapper; [|discriminate]. destruct (existsb (Z.eqb z) _); [|discriminate]. intro X; inversion X; eauto. }
  assert (DONE : forall h : bool, (if h then true else false) = h) by (intros []; auto).
  assert (GOAL : forall h, w = WQuant (q_acts q) h \/ (exists b, w = WFake (q_acts q) h b) -> (h = true -> ra (n, m) <> None \/ relu_like m = true) -> (ra (n, m) <> None -> h = true) ->
    (is_rlq w = true -> rlq_acts w = q_acts q /\ (rlq_half w = true -> ra (n, m) <> None \/ relu_like m = true) /\ (ra (n, m) <> None -> rlq_half w = true)) /\
    (w = WIdent -> relu_like m = true /\ (exists x mx, dget mods x = Some mx /\ ra (x, mx) = Some n) /\
     exists a o r w0, dget am n = Some a /\ a_preds a = o :: r /\ dget ws (go_name o) = Some w0 /\ is_rlq w0 = true)).
  { intros h C P1 P2. split; [|intros ->; destruct C as [C|(b & C)]; discriminate]. intros _. destruct C as [->|(b & ->)]; cbn; auto. }
  assert (TRIV : is_rlq w = false -> w <> WIdent ->
    (is_rlq w = true -> rlq_acts w = q_acts q /\ (rlq_half w = true -> ra (n, m) <> None \/ relu_like m = true) /\ (ra (n, m) <> None -> rlq_half w = true)) /\
    (w = WIdent -> relu_like m = true /\ (exists x mx, dget mods x = Some mx /\ ra (x, mx) = Some n) /\
     exists a o r w0, dget am n = Some a /\ a_preds a = o :: r /\ dget ws (go_name o) = Some w0 /\ is_rlq w0 = true)).
  { intros A1 A2. split; [congruence|contradiction]. }
  assert (HB : forall hb, hb = match ra (n, m) with Some _ => true | None => false end -> (hb = true -> ra (n, m) <> None \/ relu_like m = true) /\ (ra (n, m) <> None -> hb = true)).
  { intros hb ->. destruct (ra (n, m)); split; intro X; try congruence; left; discriminate. }
  specialize (HB _ eq_refl). destruct HB as (HB1 & HB2).
  destruct ((match q_acts q, q_wts q with None, None => true | _, _ => false end) && kw_empty k).
  { assert (w = WSame) as -> by (destruct (pm_type m); inversion R; auto). apply TRIV; [auto|discriminate]. }
  assert (FPC : forall o, fp_wrapper o = Ok w -> is_rlq w = false /\ w <> WIdent) by (intros o X; apply FP in X; destruct X as (z & ->); split; [auto|discriminate]).
  assert (OTHER : forall rl, rl = relu_like m ->
     (do ident <- (if rl && dflt (k_ident k) false then
                     match dget am n with None => Raise KeyError | Some a => match a_preds a with [] => Raise IndexError | p0 :: _ => match dget d (go_name p0) with Some w => Ok (is_rlq w) | None => Raise KeyError end end end
                   else Ok false);
      if ident then Ok WIdent else if pm_kids m then Ok WSame else if negb (dflt (k_fake k) true) then fp_wrapper (dflt (k_fpq k) (g_fpq g))
      else Ok (WFake (q_acts q) (rl || match ra (n, m) with Some _ => true | None => false end) (dflt (k_qin k) true))) = Ok w ->
    (is_rlq w = true -> rlq_acts w = q_acts q /\ (rlq_half w = true -> ra (n, m) <> None \/ relu_like m = true) /\ (ra (n, m) <> None -> rlq_half w = true)) /\
    (w = WIdent -> relu_like m = true /\ (exists x mx, dget mods x = Some mx /\ ra (x, mx) = Some n) /\
     exists a o r w0, dget am n = Some a /\ a_preds a = o :: r /\ dget ws (go_name o) = Some w0 /\ is_rlq w0 = true)).
  { intros rl ERL RR. apply bind_ok in RR. destruct RR as (ident & I1 & I2). destruct ident.
    - inversion I2; subst w. split; [discriminate|]. intros _.
      destruct (rl && dflt (k_ident k) false) eqn:RI; [|discriminate]. apply andb_true_iff in RI. destruct RI as (R1 & R2). subst rl. split; auto.
      split. { apply KI. destruct (k_ident k) as [[]|]; auto; discriminate. }
      destruct (dget am n) as [a|]; [|discriminate]. destruct (a_preds a) as [|o r] eqn:P; [discriminate|]. destruct (dget d (go_name o)) as [w0|] eqn:DO; [|discriminate]. inversion I1 as [RL]. clear I1.
      exists a, o, r, w0. repeat split; auto. destruct (D (go_name o)) as [X|X]; [congruence|]. rewrite map_const_get in X. rewrite DO in X. destruct (dget mods (go_name o)); inversion X; subst w0; discriminate.
    - destruct (pm_kids m); [inversion I2; subst; apply TRIV; [auto|discriminate]|].
      destruct (negb (dflt (k_fake k) true)); [destruct (FPC _ I2); apply TRIV; auto|]. injection I2 as EW. eapply GOAL; [right; rewrite <- EW; eauto| |].
      + intro X. apply orb_true_iff in X. destruct X as [X|X]; [right; congruence|left; destruct (ra (n, m)); congruence].
      + intro X. apply orb_true_iff. right. destruct (ra (n, m)); congruence. }
  destruct (pm_type m) eqn:PT; try (apply (OTHER false); [unfold relu_like; rewrite PT; auto|exact R]); try (apply (OTHER true); [unfold relu_like; rewrite PT; auto|exact R]).
  - destruct (truthy _ && _); [destruct (FPC _ R); apply TRIV; auto|]. destruct (dflt (k_fake k) false || _); injection R as EW; (eapply GOAL; [rewrite <- EW; eauto|auto|auto]).
  - destruct (truthy _ && _); [destruct (FPC _ R); apply TRIV; auto|]. destruct (dflt (k_fake k) false); [injection R as EW; eapply GOAL; [rewrite <- EW; eauto|auto|auto]|].
    destruct (_ || _); injection R as EW; [eapply GOAL; [rewrite <- EW; eauto|auto|auto]|subst w; apply TRIV; [auto|discriminate]].
  - destruct (truthy _ && _); [destruct (FPC _ R); apply TRIV; auto|]. destruct (dflt (k_fake k) false); [injection R as EW; eapply GOAL; [rewrite <- EW; eauto|auto|auto]|].
    cbn [orb] in R. injection R as EW; eapply GOAL; [rewrite <- EW; eauto|auto|auto].
  - destruct (truthy _); [destruct (FPC _ R); apply TRIV; auto|]. inversion R; subst; apply TRIV; [auto|discriminate].
  - inversion R; subst; apply TRIV; [auto|discriminate].
  - inversion R; subst; apply TRIV; [auto|discriminate].
Qed.

(** ** The relation between the values of the two runs *)
Definition ident (nd : node) : bool := match n_mod nd with Some m => match dget ws m with Some WIdent => true | _ => false end | None => false end.
Definition plain_node (nd : node) : Prop := n_type nd <> "Relu" /\ is_relu6 mods (n_name nd) = false /\ n_type nd <> "Tanh" /\ n_type nd <> "Sigmoid".
Record cons_ok (nd : node) (x x' : Q) : Prop := {
  co_relu : n_type nd = "Relu" -> ident nd = false -> relu x' == relu x;
  co_relu_id : n_type nd = "Relu" -> ident nd = true -> x' == relu x;
  co_relu6 : is_relu6 mods (n_name nd) = true -> ident nd = false -> relu6 x' == relu6 x;
  co_relu6_id : is_relu6 mods (n_name nd) = true -> ident nd = true -> x' == relu6 x;
  co_tanh : n_type nd = "Tanh" -> - (4) <= x -> x <= 4 -> x' == x;
  co_sigmoid : n_type nd = "Sigmoid" -> - (6) <= x -> x <= 6 -> x' == x;
  co_other : plain_node nd -> x' == x }.
Definition free (i : nat) (nd : node) : Prop :=
  n_type nd <> "Split" /\ (n_mod nd = None \/ length (succs p i) <> 1%nat \/ exists s, succs p i = [s] /\ ~ In (go_type s) ["Relu"; "Clip"; "Tanh"; "Sigmoid"; "Split"]).
Record good (i : nat) (nd : node) (x x' : Q) : Prop := {
  go_cons : forall c, In c p -> uses i c = true -> n_type c <> "Split" -> cons_ok c x x';
  go_split : forall j c, nth_error p j = Some c -> uses i c = true -> n_type c = "Split" ->
    x' == x \/ (forall c2, In c2 p -> uses j c2 = true -> n_type c2 <> "Split" /\ cons_ok c2 x x');
  go_free : free i nd -> x' == x }.

Lemma relu6_node nd : In nd p -> is_relu6 mods (n_name nd) = true -> n_type nd = "Clip" /\ elementwise nd relu6.
Proof. intros I R. apply is_relu6_spec in R. destruct R as (m & G & T). eapply (wf_relu6 _ _ WF); eauto. Qed.
Lemma eq_cons nd x x' : In nd p -> ident nd = false -> x' == x -> cons_ok nd x x'.
Proof. intros I D E. constructor; intros; try congruence; auto; [apply relu_ext|apply relu6_ext]; auto. Qed.

(** the activation replaced by an identity comes after a layer that does its work *)
Lemma ident_pred c : In c p -> ident c = true -> exists i nd m pm w, nth_error p i = Some nd /\ n_mod nd = Some m /\ n_name nd = m /\ dget mods m = Some pm /\
  ra (m, pm) = Some (n_name c) /\ dget ws m = Some w /\ is_rlq w = true /\ (forall j, uses j c = true -> j = i) /\ uses i c = true.
Proof.
  intros I D. unfold ident in D. destruct (n_mod c) as [mc|] eqn:MC; [|discriminate]. destruct (dget ws mc) as [w|] eqn:W; [|discriminate]. destruct w; try discriminate.
  destruct (wf_call _ _ WF c mc I MC) as (NC & pmc & GC & _). destruct (wrapper _ _ GC) as (q & w & _ & W' & _ & WI). rewrite W in W'. inversion W'; subst w. clear W'.
  destruct (WI eq_refl) as (LK & (x & mx & GX & RX) & (a & o & r & w0 & A1 & A2 & A3 & A4)). clear WI.
  assert (EL : exists f, elementwise c f).
  { unfold relu_like in LK. destruct (pm_type pmc) eqn:PT; try discriminate.
    - exists relu. apply (wf_relu _ _ WF); auto. eapply (wf_relu_mod _ _ WF); eauto. rewrite NC; auto.
    - exists relu6. eapply (wf_relu6 _ _ WF); eauto. rewrite NC; eauto. }
  destruct EL as (f & L1 & _).
  (* the node x *)
  unfold relu_after in RX. cbn [fst snd] in RX. destruct (single_successor qm am x mx) as [s|] eqn:SS; [|discriminate].
  destruct (is_relu_any mods (go_name s)) eqn:RA; [|discriminate]. inversion RX as [SN]. rewrite SN in *.
  pose proof SS as SS0. apply (single_successor_spec mods) in SS0; auto. destruct SS0 as (_ & aa & GA & SA).
  destruct (graph_get_inv x aa GA) as (i & nd & NI & NN & EA). subst aa. cbn [a_succs] in SA.
  destruct (succ_node i s) as (c' & Ic' & Uc' & Es); [rewrite SA; cbn; auto|].
  assert (c' = c) as ->. { apply same_name; auto. rewrite NC, <- SN, Es. reflexivity. }
  assert (UN : forall j, uses j c = true -> j = i).
  { intros j U. apply uses_arg in U, Uc'. destruct U as (a1 & I1 & S1), Uc' as (a2 & I2 & S2). destruct (n_args c) as [|b [|? ?]]; cbn in L1; try discriminate.
    destruct I1 as [<-|[]], I2 as [<-|[]]. congruence. }
  assert (MN : n_mod nd = Some x).
  { destruct (n_mod nd) as [y|] eqn:MY; pose proof I as I0.
    - destruct (wf_call _ _ WF nd y (nth_error_In _ _ NI) MY) as (E & _). congruence.
    - pose proof (wf_other _ _ WF nd (nth_error_In _ _ NI) MY). rewrite NN in H. congruence. }
  (* the recorded predecessor is x *)
  assert (go_name o = x) as EO.
  { apply In_nth_error in I. destruct I as (ic & I). pose proof (graph_get _ _ I) as G2. rewrite NC in G2. rewrite G2 in A1. inversion A1; subst a. cbn [a_preds] in A2.
    unfold preds in A2. destruct (n_args c) as [|b [|? ?]] eqn:EA; cbn in L1; try discriminate. apply uses_arg in Uc'. rewrite EA in Uc'. destruct Uc' as (b' & [<-|[]] & SB).
    cbn in A2. rewrite SB in A2. rewrite NI in A2. cbn in A2. inversion A2; subst. reflexivity. }
  exists i, nd, x, mx, w0. rewrite EO in A3. repeat split; auto.
  unfold relu_after. cbn [fst snd]. rewrite SS. rewrite SN. rewrite RA. rewrite NC. auto.
Qed.

Hypothesis H6 : st <> [] \/ forall n m, In (n, m) mods -> pm_type m <> PtRelu6.

Lemma good_eq i nd x x' : nth_error p i = Some nd -> (forall c, In c p -> uses i c = true -> ident c = false) -> x' == x -> good i nd x x'.
Proof. intros N D E. constructor; auto. intros. apply eq_cons; auto. Qed.
Lemma no_ident_succ i nd : nth_error p i = Some nd -> (forall m pm, n_mod nd = Some m -> dget mods m = Some pm -> ra (m, pm) = None \/ (exists w, dget ws m = Some w /\ is_rlq w = false)) ->
  forall c, In c p -> uses i c = true -> ident c = false.
Proof.
  intros N H c I U. destruct (ident c) eqn:D; auto. exfalso. destruct (ident_pred c I D) as (i0 & nd0 & m & pm & w & N0 & M0 & _ & G & R & W & RL & UN & _).
  rewrite (UN _ U) in N. rewrite N in N0. inversion N0; subst nd0. destruct (H _ _ M0 G) as [X|(w' & X & Y)]; congruence.
Qed.

(** what the wrapper does to one element *)
Definition post (m : string) (w : wrap) (b : Q) : Q :=
  let r := if rlq_half w then relu b else b in
  match rlq_acts w with
  | None => r
  | Some bits => match dget st' m with None => r | Some ls => sat1 (saturation g bits (rlq_half w) (ls_output ls)) r end
  end.
Lemma wrapped_post m w f xs : is_rlq w = true -> normalize_module_name m = m -> wrapped g st' m w f xs = map (post m w) (f xs).
Proof.
  intros R N. unfold wrapped, post. destruct w; try discriminate; cbn [rlq_half rlq_acts].
  - rewrite N. destruct acts; [destruct (dget st' m)|]; destruct half; rewrite ?saturate_sat1, ?map_map; auto; symmetry; apply map_id.
  - rewrite N. destruct acts; [destruct (dget st' m)|]; destruct half; rewrite ?saturate_sat1, ?map_map; auto; symmetry; apply map_id.
Qed.
Lemma post_ext m w b b' : b == b' -> post m w b == post m w b'.
Proof.
  intro E. unfold post. assert (X : (if rlq_half w then relu b else b) == (if rlq_half w then relu b' else b')) by (destruct (rlq_half w); [apply relu_ext|]; auto).
  destruct (rlq_acts w); auto. destruct (dget st' m); auto. apply sat1_ext; auto.
Qed.

Lemma post_good i nd m pm w y : nth_error p i = Some nd -> n_mod nd = Some m -> dget mods m = Some pm -> dget ws m = Some w -> is_rlq w = true ->
  (forall ls, dget st m = Some ls -> st_min (ls_output ls) <= y /\ y <= st_max (ls_output ls)) -> (relu_like pm = true -> 0 <= y) ->
  good i nd y (post m w y).
Proof.
  intros N M G W RL RG POS.
  destruct (wf_call _ _ WF nd m (nth_error_In _ _ N) M) as (NM & _).
  destruct (wrapper _ _ G) as (q & w' & QM & W' & WR & _). rewrite W in W'. inversion W'; subst w'. clear W'. destruct (WR RL) as (WA & WH1 & WH2). clear WR.
  assert (AM : dget am m = Some (mkAdj (preds p nd) (succs p i))) by (rewrite <- NM; apply graph_get; auto).
  destruct (ra (m, pm)) as [s0|] eqn:RA.
  - (* followed by a ReLU or ReLU6 module *)
    specialize (WH2 ltac:(discriminate)). unfold relu_after in RA. cbn [fst snd] in RA. destruct (single_successor qm am m pm) as [s|] eqn:SS; [|discriminate].
    destruct (is_relu_any mods (go_name s)) eqn:RA1; [|discriminate]. inversion RA; subst s0. clear RA.
    pose proof SS as SS0. apply (single_successor_spec mods) in SS0; auto. destruct SS0 as ((pm' & q' & bits & P1 & P2 & P3 & P4) & aa & GA & SA). rewrite AM in GA. inversion GA; subst aa. cbn [a_succs] in SA. clear GA.
    rewrite QM in P2. inversion P2; subst q'. clear P2. rewrite P3 in WA.
    destruct (succ_node i s) as (c0 & Ic & Uc & ->); [rewrite SA; cbn; auto|]. cbn [op_of go_name] in RA1.
    assert (ONE : forall c, In c p -> uses i c = true -> c = c0).
    { intros c I U. apply same_name; auto. pose proof (succ_one i _ c SA I U) as E. injection E as E1 E2. congruence. }
    assert (PO : post m w y = match dget st' m with None => relu y | Some ls => sat1 (saturation g bits true (ls_output ls)) (relu y) end).
    { unfold post. rewrite WA, WH2. auto. }
    assert (CASES : (n_type c0 = "Relu" /\ is_relu6 mods (n_name c0) = false /\ post m w y == relu y) \/ (n_type c0 = "Clip" /\ is_relu6 mods (n_name c0) = true /\ post m w y == relu6 y)).
    { unfold is_relu_any in RA1. destruct (dget mods (n_name c0)) as [pc|] eqn:GC; [|discriminate]. destruct (pm_type pc) eqn:PT; try discriminate.
      - left. pose proof (wf_relu_mod _ _ WF c0 pc Ic GC PT) as T. split; auto. split; [unfold is_relu6; rewrite GC, PT; auto|].
        rewrite PO. destruct (dget st' m) as [ls'|] eqn:S'; [|reflexivity]. destruct (stats_after _ _ _ G S') as (ls & SG & SO).
        assert (TG : tgt mods am qm (m, pm) = Some (op_of c0, ARelu)).
        { unfold tgt. cbn [fst snd]. rewrite SS. unfold effective_type. cbn [op_of go_type]. rewrite T. reflexivity. }
        rewrite TG in SO. rewrite SO. unfold clip_to. cbn [act_range fst snd]. apply (sat_relu g bits true (ls_output ls) y HC (RG _ SG)).
      - right. destruct (wf_relu6 _ _ WF c0 pc Ic GC PT) as (T & _). split; auto. assert (R6 : is_relu6 mods (n_name c0) = true) by (unfold is_relu6; rewrite GC, PT; auto). split; auto.
        assert (NE : st <> []) by (destruct H6 as [|X]; auto; exfalso; eapply X; [apply dget_In; exact GC|auto]).
        pose proof (stats_present _ _ _ NE G SS) as SP. unfold dmem in SP. rewrite PO. destruct (dget st' m) as [ls'|] eqn:S'; [|discriminate].
        destruct (stats_after _ _ _ G S') as (ls & SG & SO).
        assert (TG : tgt mods am qm (m, pm) = Some (op_of c0, ARelu6)).
        { unfold tgt. cbn [fst snd]. rewrite SS. unfold effective_type. cbn [op_of go_type]. rewrite T. cbn [String.eqb Ascii.eqb Bool.eqb]. unfold tgt_of. cbn [op_of go_name]. rewrite R6. reflexivity. }
        rewrite TG in SO. rewrite SO. unfold clip_to. cbn [act_range fst snd]. apply (sat_relu6 g bits true (ls_output ls) y HC (RG _ SG)). }
    constructor.
    + intros c I U T. rewrite (ONE c I U) in *. destruct CASES as [(C1 & C2 & C3)|(C1 & C2 & C3)]; constructor; intros; try congruence; auto.
      * rewrite (relu_ext _ _ C3). apply relu_eq. unfold relu. apply qmax_r.
      * destruct H as (H & _). congruence.
      * rewrite (relu6_ext _ _ C3). destruct (relu6_eq y) as (Z1 & Z2 & Z3). destruct (Qlt_le_dec y 0); [rewrite (relu6_ext _ 0 (Z1 ltac:(lra))), Z1 by lra; reflexivity|].
        destruct (Qlt_le_dec y 6); [rewrite (relu6_ext _ y (Z2 ltac:(lra) ltac:(lra))); reflexivity|]. rewrite (relu6_ext _ 6 (Z3 ltac:(lra))), Z3 by lra. reflexivity.
      * destruct H as (_ & H & _). congruence.
    + intros j c NJ U T. exfalso. rewrite (ONE c (nth_error_In _ _ NJ) U) in T. destruct CASES as [(C1 & _)|(C1 & _)]; rewrite C1 in T; discriminate.
    + intros (_ & [F|[F|(s & F1 & F2)]]); [congruence|rewrite SA in F; cbn in F; congruence|]. exfalso. rewrite SA in F1. inversion F1; subst s. apply F2. cbn [op_of go_type].
      destruct CASES as [(-> & _)|(-> & _)]; cbn; auto.
  - (* no fused activation *)
    assert (NID : forall c, In c p -> uses i c = true -> ident c = false).
    { apply (no_ident_succ i nd N). intros m0 pm0 M0 G0. assert (m0 = m) by congruence. subst m0. assert (pm0 = pm) by congruence. subst. auto. }
    assert (HR : (if rlq_half w then relu y else y) == y).
    { destruct (rlq_half w); [|reflexivity]. destruct (WH1 eq_refl) as [X|X]; [congruence|]. apply relu_eq. auto. }
    destruct (rlq_acts w) as [bits|] eqn:ACTS.
    2:{ apply good_eq; auto. unfold post. rewrite ACTS. auto. }
    destruct (dget st' m) as [ls'|] eqn:S'.
    2:{ apply good_eq; auto. unfold post. rewrite ACTS, S'. auto. }
    destruct (stats_after _ _ _ G S') as (ls & SG & SO). specialize (RG _ SG).
    assert (PO : post m w y == sat1 (saturation g bits (rlq_half w) (ls_output ls')) y).
    { unfold post. rewrite ACTS, S'. apply sat1_ext. auto. }
    destruct (tgt mods am qm (m, pm)) as [[s a]|] eqn:TG.
    2:{ apply good_eq; auto. rewrite PO, SO. apply sat_plain; auto. }
    assert (TN : forall c, In c p -> n_type c = "Relu" \/ n_type c = "Tanh" \/ n_type c = "Sigmoid" -> is_relu6 mods (n_name c) = false).
    { intros c I T. destruct (is_relu6 mods (n_name c)) eqn:R; auto. destruct (relu6_node c I R) as (T2 & _). rewrite T2 in T. destruct T as [T|[T|T]]; discriminate. }
    assert (NR6 : is_relu6 mods (go_name s) = false -> True) by auto. clear NR6.
    apply tgt_spec in TG; auto. destruct TG as [a L (aa & GA & SA) A|a e L (aa & GA & SA) T E A]; rewrite AM in GA; inversion GA; subst aa; cbn [a_succs] in SA; clear GA.
    + destruct (succ_node i s) as (c0 & Ic & Uc & ->); [rewrite SA; cbn; auto|].
      assert (ONE : forall c, In c p -> uses i c = true -> c = c0).
      { intros c I U. apply same_name; auto. pose proof (succ_one i _ c SA I U) as X. injection X as E1 E2. congruence. }
      assert (TYPE : a <> ARelu6 /\ (a = ARelu -> n_type c0 = "Relu") /\ (a = ATanh -> n_type c0 = "Tanh") /\ (a = ASigmoid -> n_type c0 = "Sigmoid")).
      { destruct a; cbn in A; try (repeat split; intros; try discriminate; auto; fail). destruct A as (_ & R6). exfalso.
        assert (single_successor qm am m pm = Some (op_of c0)) as SS by (apply (single_successor_spec mods); auto; split; auto; eexists; split; [exact AM|auto]).
        unfold relu_after in RA. cbn [fst snd] in RA. rewrite SS in RA. destruct R6 as (mm & R1 & R2). cbn [op_of go_name] in R1, RA. unfold is_relu_any in RA. rewrite R1, R2 in RA. discriminate. }
      destruct TYPE as (T0 & T1 & T2 & T3). rewrite SO in PO. unfold clip_to in PO.
      constructor.
      * intros c I U T. rewrite (ONE c I U) in *. pose proof (NID _ Ic Uc) as ND. destruct a; [|congruence| |]; cbn [act_range fst snd] in PO.
        -- specialize (T1 eq_refl). pose proof (TN c0 Ic (or_introl T1)) as R6. constructor; intros; try congruence.
           ++ rewrite (relu_ext _ _ PO). apply (sat_relu g bits (rlq_half w) (ls_output ls) y HC RG).
           ++ destruct H as (H & _). congruence.
        -- specialize (T2 eq_refl). pose proof (TN c0 Ic (or_intror (or_introl T2))) as R6. constructor; intros; try congruence.
           ++ rewrite PO. apply sat_band; auto. lra.
           ++ destruct H as (_ & _ & H & _). congruence.
        -- specialize (T3 eq_refl). pose proof (TN c0 Ic (or_intror (or_intror T3))) as R6. constructor; intros; try congruence.
           ++ rewrite PO. apply sat_band; auto. lra.
           ++ destruct H as (_ & _ & _ & H). congruence.
      * intros j c NJ U T. exfalso. rewrite (ONE c (nth_error_In _ _ NJ) U) in T. destruct a; [rewrite T1 in T|congruence|rewrite T2 in T|rewrite T3 in T]; auto; discriminate.
      * intros (_ & [F|[F|(s & F1 & F2)]]); [congruence|rewrite SA in F; cbn in F; congruence|]. exfalso. rewrite SA in F1. inversion F1; subst s. apply F2. cbn [op_of go_type].
        destruct a; [rewrite T1|congruence|rewrite T2|rewrite T3]; auto; cbn; auto 6.
    + destruct (succ_node i s) as (c0 & Ic & Uc & ->); [rewrite SA; cbn; auto|]. cbn [op_of go_type go_name] in T, E, A.
      assert (ONE : forall c, In c p -> uses i c = true -> c = c0).
      { intros c I U. apply same_name; auto. pose proof (succ_one i _ c SA I U) as X. injection X as E1 E2. congruence. }
      destruct (wf_split _ _ WF c0 Ic T) as (M0 & _). pose proof (wf_other _ _ WF c0 Ic M0) as NG.
      destruct A as [A|(_ & _ & mm & X & _)]; [|congruence]. rewrite SO in PO. unfold clip_to in PO.
      constructor.
      * intros c I U TT. rewrite (ONE c I U) in TT. contradiction.
      * intros j c NJ U _. assert (c = c0) by (apply ONE; auto; eapply nth_error_In; eauto). subst c. right. rewrite (graph_get _ _ NJ) in E. inversion E; subst e. clear E. cbn [a_succs] in A.
        intros c2 I2 U2. pose proof (succ_in j c2 I2 U2) as IS.
        assert (ID2 : ident c2 = false). { apply (no_ident_succ j c0 NJ); auto. intros m0 pm0 MM. congruence. }
        destruct a; cbn [act_range fst snd] in PO; cbn in A.
        -- destruct (A _ IS) as [T2|[]]. cbn [op_of go_type] in T2. pose proof (TN c2 I2 (or_introl (eq_sym T2))) as R6. split; [rewrite <- T2; discriminate|]. constructor; intros; try congruence.
           ++ rewrite (relu_ext _ _ PO). apply (sat_relu g bits (rlq_half w) (ls_output ls) y HC RG).
           ++ destruct H as (H & _). congruence.
        -- destruct A.
        -- destruct A as (_ & A). destruct (A _ IS) as [T2|[]]. cbn [op_of go_type] in T2. pose proof (TN c2 I2 (or_intror (or_introl (eq_sym T2)))) as R6. split; [rewrite <- T2; discriminate|]. constructor; intros; try congruence.
           ++ rewrite PO. apply sat_band; auto. lra.
           ++ destruct H as (_ & _ & H & _). congruence.
        -- destruct A as (_ & _ & A). destruct (A _ IS) as [T2|[T2|[]]]; cbn [op_of go_type] in T2.
           ++ pose proof (TN c2 I2 (or_intror (or_intror (eq_sym T2)))) as R6. split; [rewrite <- T2; discriminate|]. constructor; intros; try congruence.
              ** rewrite PO. apply sat_band; auto. lra.
              ** destruct H as (_ & _ & _ & H). congruence.
           ++ pose proof (TN c2 I2 (or_intror (or_introl (eq_sym T2)))) as R6. split; [rewrite <- T2; discriminate|]. constructor; intros; try congruence.
              ** rewrite PO. apply sat_band; auto; lra.
              ** destruct H as (_ & _ & H & _). congruence.
      * intros (_ & [F|[F|(s & F1 & F2)]]); [congruence|rewrite SA in F; cbn in F; congruence|]. exfalso. rewrite SA in F1. inversion F1; subst s. apply F2. cbn [op_of go_type]. rewrite T. cbn; auto 6.
Qed.

(** ** The two runs *)
Variables (ins : list tensor).
Hypothesis HR : in_range p st ins.
Notation FE := (exec float_fun p ins []).
Notation PE := (exec (prepared_fun g st' ws) p ins []).
Definition rel (i : nat) (nd : node) : Prop := Forall2 (good i nd) (nth i FE []) (nth i PE []).

Lemma arg_rel i nd a : nth_error p i = Some nd -> In a (n_args nd) -> n_type nd <> "Split" ->
  (forall j d, (j < i)%nat -> nth_error p j = Some d -> rel j d) -> Forall2 (cons_ok nd) (arg_val ins FE a) (arg_val ins PE a).
Proof.
  intros N Ia T IH. unfold arg_val. pose proof (nth_error_In _ _ N) as Ind. destruct (ar_src a) as [k|j] eqn:S.
  - apply Forall2_same. intros x _. apply eq_cons; auto; [|reflexivity]. destruct (ident nd) eqn:D; auto. exfalso.
    destruct (ident_pred nd Ind D) as (i0 & nd0 & m & pm & w & N0 & M0 & NM & G & R & W & RL & UN & U0).
    assert (L : length (n_args nd) = 1%nat).
    { unfold relu_after in R. cbn [fst snd] in R. destruct (single_successor qm am m pm) as [s|]; [|discriminate]. destruct (is_relu_any mods (go_name s)) eqn:RA; [|discriminate]. inversion R as [E]. rewrite E in RA.
      unfold is_relu_any in RA. destruct (dget mods (n_name nd)) as [pc|] eqn:GC; [|discriminate]. destruct (pm_type pc) eqn:PT; try discriminate.
      - apply (wf_relu _ _ WF nd Ind (wf_relu_mod _ _ WF nd pc Ind GC PT)).
      - apply (wf_relu6 _ _ WF nd pc Ind GC PT). }
    apply uses_arg in U0. destruct U0 as (a0 & I0 & S0). destruct (n_args nd) as [|b [|? ?]]; cbn in L; try discriminate. destruct Ia as [<-|[]], I0 as [<-|[]]. congruence.
  - pose proof (wf_back _ _ WF _ _ _ _ N Ia S) as LT. destruct (nth_error p j) as [d|] eqn:ND.
    2:{ exfalso. apply nth_error_None in ND. assert (i < length p)%nat by (apply nth_error_Some; congruence). lia. }
    specialize (IH j d LT ND). unfold rel in IH.
    assert (K : Forall2 (cons_ok nd) (nth j FE []) (nth j PE [])).
    { eapply Forall2_in_l; [exact IH|]. intros x x' _ GD. apply (go_cons _ _ _ _ GD); auto. apply uses_arg. eauto. }
    destruct (ar_pick a); [apply pick_rel|]; auto.
Qed.

Lemma elementwise_args nd f : elementwise nd f -> exists a, n_args nd = [a].
Proof. intros (L & _). destruct (n_args nd) as [|a [|? ?]]; cbn in L; try discriminate. eauto. Qed.

Lemma base_rel i nd : nth_error p i = Some nd -> n_type nd <> "Split" -> (forall j d, (j < i)%nat -> nth_error p j = Some d -> rel j d) ->
  (ident nd = false -> teq (n_fun nd (map (arg_val ins FE) (n_args nd))) (n_fun nd (map (arg_val ins PE) (n_args nd)))) /\
  (ident nd = true -> teq (n_fun nd (map (arg_val ins FE) (n_args nd))) (hd [] (map (arg_val ins PE) (n_args nd)))).
Proof.
  intros N T IH. pose proof (nth_error_In _ _ N) as Ind.
  destruct (String.string_dec (n_type nd) "Relu") as [TR|TR].
  { pose proof (wf_relu _ _ WF nd Ind TR) as EL. destruct (elementwise_args _ _ EL) as (a & EA). destruct EL as (_ & EL). rewrite !EL. rewrite EA. cbn [map hd].
    pose proof (arg_rel i nd a N ltac:(rewrite EA; cbn; auto) T IH) as AR. split; intro D.
    - apply Forall2_map. eapply Forall2_in_l; [exact AR|]. cbn. intros x x' _ C. symmetry. apply (co_relu _ _ _ C); auto.
    - unfold teq. clear - AR D TR. induction AR; cbn; constructor; auto. symmetry. apply (co_relu_id _ _ _ H); auto. }
  destruct (is_relu6 mods (n_name nd)) eqn:R6.
  { destruct (relu6_node nd Ind R6) as (_ & EL). destruct (elementwise_args _ _ EL) as (a & EA). destruct EL as (_ & EL). rewrite !EL. rewrite EA. cbn [map hd].
    pose proof (arg_rel i nd a N ltac:(rewrite EA; cbn; auto) T IH) as AR. split; intro D.
    - apply Forall2_map. eapply Forall2_in_l; [exact AR|]. cbn. intros x x' _ C. symmetry. apply (co_relu6 _ _ _ C); auto.
    - unfold teq. clear - AR D R6. induction AR; cbn; constructor; auto. symmetry. apply (co_relu6_id _ _ _ H); auto. }
  split; intro D.
  - apply (wf_fun _ _ WF); auto.
    assert (AA : forall a, In a (n_args nd) -> teq (arg_val ins FE a) (arg_val ins PE a)).
    { intros a Ia. pose proof (arg_rel i nd a N Ia T IH) as AR.
      destruct (String.string_dec (n_type nd) "Tanh") as [TT|TT]; [|destruct (String.string_dec (n_type nd) "Sigmoid") as [TS|TS]].
      - pose proof (ir_tanh _ _ _ HR nd a Ind TT Ia) as W. unfold within in W. rewrite Forall_forall in W. eapply Forall2_in_l; [exact AR|]. cbn. intros x x' Ix C. symmetry.
        destruct (W x Ix). apply (co_tanh _ _ _ C); auto.
      - pose proof (ir_sigmoid _ _ _ HR nd a Ind TS Ia) as W. unfold within in W. rewrite Forall_forall in W. eapply Forall2_in_l; [exact AR|]. cbn. intros x x' Ix C. symmetry.
        destruct (W x Ix). apply (co_sigmoid _ _ _ C); auto.
      - eapply Forall2_in_l; [exact AR|]. cbn. intros x x' Ix C. symmetry. apply (co_other _ _ _ C). unfold plain_node. auto. }
    clear - AA. induction (n_args nd) as [|a l IHl]; cbn; constructor; [apply AA; cbn; auto|apply IHl; intros; apply AA; cbn; auto].
  - exfalso. destruct (ident_pred nd Ind D) as (i0 & nd0 & m & pm & w & N0 & M0 & NM & G & R & W & RL & UN & U0).
    unfold relu_after in R. cbn [fst snd] in R. destruct (single_successor qm am m pm) as [s|]; [|discriminate]. destruct (is_relu_any mods (go_name s)) eqn:RA; [|discriminate]. inversion R as [E]. rewrite E in RA.
    unfold is_relu_any in RA. unfold is_relu6 in R6. destruct (dget mods (n_name nd)) as [pc|] eqn:GC; [|discriminate]. destruct (pm_type pc) eqn:PT; try discriminate.
    apply TR. eapply (wf_relu_mod _ _ WF); eauto.
Qed.

Lemma rel_all : forall i nd, nth_error p i = Some nd -> rel i nd.
Proof.
  intro i. induction i as [i IH0] using lt_wf_ind. intros nd N. assert (IH : forall j d, (j < i)%nat -> nth_error p j = Some d -> rel j d) by (intros; apply IH0; auto). clear IH0.
  pose proof (nth_error_In _ _ N) as Ind. unfold rel. rewrite !(exec_nth _ p ins i nd (wf_back _ _ WF) N).
  destruct (String.string_dec (n_type nd) "Split") as [T|T].
  - (* a split *)
    destruct (wf_split _ _ WF nd Ind T) as (M & EL). destruct (elementwise_args _ _ EL) as (a & EA). destruct EL as (_ & EL).
    unfold prepared_fun, float_fun. rewrite M. rewrite !EL, EA. cbn [map hd]. rewrite !map_id.
    assert (NID : forall c, In c p -> uses i c = true -> ident c = false) by (apply (no_ident_succ i nd N); intros m pm MM; congruence).
    unfold arg_val. destruct (ar_src a) as [k|j] eqn:S.
    + apply Forall2_same. intros x _. apply good_eq; auto. reflexivity.
    + pose proof (wf_back _ _ WF _ _ a _ N ltac:(rewrite EA; cbn; auto) S) as LT. destruct (nth_error p j) as [d|] eqn:ND.
      2:{ exfalso. apply nth_error_None in ND. assert (i < length p)%nat by (apply nth_error_Some; congruence). lia. }
      specialize (IH j d LT ND). unfold rel in IH.
      assert (K : Forall2 (good i nd) (nth j FE []) (nth j PE [])).
      { eapply Forall2_in_l; [exact IH|]. intros x x' _ GD.
        assert (U : uses j nd = true) by (apply uses_arg; exists a; rewrite EA; cbn; auto).
        destruct (go_split _ _ _ _ GD i nd N U T) as [E|C]; [apply good_eq; auto|]. constructor.
        - intros c I U2 _. apply C; auto.
        - intros j2 c2 N2 U2 T2. exfalso. destruct (C c2 (nth_error_In _ _ N2) U2). contradiction.
        - intros (F & _). contradiction. }
      destruct (ar_pick a); [apply pick_rel|]; auto.
  - destruct (base_rel i nd N T IH) as (BF & BT). unfold prepared_fun. unfold float_fun at 1.
    destruct (n_mod nd) as [m|] eqn:M.
    2:{ assert (D : ident nd = false) by (unfold ident; rewrite M; auto). eapply Forall2_in_l; [exact (BF D)|]. cbn. intros x x' _ E. apply good_eq; auto; [|symmetry; auto].
        apply (no_ident_succ i nd N). intros m pm MM. congruence. }
    destruct (wf_call _ _ WF nd m Ind M) as (NM & pm & G & _). destruct (wrapper _ _ G) as (q & w & QM & W & _). rewrite W.
    destruct (is_rlq w) eqn:RL.
    + assert (D : ident nd = false) by (unfold ident; rewrite M, W; destruct w; auto; discriminate). specialize (BF D).
      rewrite wrapped_post by (auto; eapply plain; eauto). apply Forall2_map_r.
      eapply Forall2_in_l; [exact BF|]. cbn. intros x x' Ix E.
      assert (GD : good i nd x (post m w x)).
      { apply (post_good i nd m pm w x); auto.
        - intros ls SG. pose proof (ir_stats _ _ _ HR i nd m ls N M SG) as WI. unfold within in WI. rewrite Forall_forall in WI. apply WI.
          rewrite (exec_nth _ p ins i nd (wf_back _ _ WF) N). exact Ix.
        - intro LK. unfold relu_like in LK. destruct (pm_type pm) eqn:PT; try discriminate.
          + assert (TR : n_type nd = "Relu") by (eapply (wf_relu_mod _ _ WF); eauto; congruence).
            destruct (wf_relu _ _ WF nd Ind TR) as (_ & EL). rewrite EL in Ix. apply in_map_iff in Ix. destruct Ix as (z & <- & _). unfold relu. apply qmax_r.
          + destruct (wf_relu6 _ _ WF nd pm Ind ltac:(congruence) PT) as (_ & _ & EL). rewrite EL in Ix. apply in_map_iff in Ix. destruct Ix as (z & <- & _).
            destruct (relu6_eq z) as (Z1 & Z2 & Z3). destruct (Qlt_le_dec z 0); [rewrite Z1; lra|]. destruct (Qlt_le_dec z 6); [rewrite Z2; lra|rewrite Z3; lra]. }
      assert (PE' : post m w x' == post m w x) by (apply post_ext; symmetry; auto).
      constructor.
      * intros c I U TC. pose proof (go_cons _ _ _ _ GD c I U TC) as C. clear - C PE'. destruct C as [C1 C2 C3 C4 C5 C6 C7].
        constructor; intros; try (rewrite PE'; auto; fail); [rewrite (relu_ext _ _ PE')|rewrite (relu6_ext _ _ PE')]; auto.
      * intros j c NJ U TC. destruct (go_split _ _ _ _ GD j c NJ U TC) as [X|X]; [left; rewrite PE'; auto|right]. intros c2 I2 U2. destruct (X c2 I2 U2) as (X1 & C). split; auto. clear - C PE'. destruct C as [C1 C2 C3 C4 C5 C6 C7].
        constructor; intros; try (rewrite PE'; auto; fail); [rewrite (relu_ext _ _ PE')|rewrite (relu6_ext _ _ PE')]; auto.
      * intro F. rewrite PE'. apply (go_free _ _ _ _ GD); auto.
    + assert (NID : forall c, In c p -> uses i c = true -> ident c = false).
      { apply (no_ident_succ i nd N). intros m0 pm0 M0 G0. assert (m0 = m) by congruence. subst m0. right. eauto. }
      assert (VAL : teq (n_fun nd (map (arg_val ins FE) (n_args nd))) (wrapped g st' m w (n_fun nd) (map (arg_val ins PE) (n_args nd)))).
      { destruct w; try discriminate; unfold wrapped; try (apply BF; unfold ident; rewrite M, W; auto); apply BT; unfold ident; rewrite M, W; auto. }
      eapply Forall2_in_l; [exact VAL|]. cbn. intros x x' _ E. apply good_eq; auto. symmetry; auto.
Qed.

Lemma outputs_same outs : outputs_free p outs -> Forall2 teq (outputs float_fun p outs ins) (outputs (prepared_fun g st' ws) p outs ins).
Proof.
  intro H. unfold outputs. induction outs as [|a outs IH]; cbn; constructor.
  - unfold arg_val. destruct (ar_src a) as [k|i] eqn:S; [apply teq_refl|].
    assert (K : teq (nth i FE []) (nth i PE [])).
    { destruct (nth_error p i) as [nd|] eqn:N.
      - eapply Forall2_in_l; [exact (rel_all i nd N)|]. cbn. intros x x' _ GD. symmetry. apply (go_free _ _ _ _ GD). apply (H a i nd); cbn; auto.
      - apply nth_error_None in N. destruct (exec_ext float_fun p ins []) as (r1 & E1 & L1). destruct (exec_ext (prepared_fun g st' ws) p ins []) as (r2 & E2 & L2). rewrite E1, E2. cbn [app].
        rewrite !nth_overflow by lia. constructor. }
    destruct (ar_pick a); [apply pick_rel|]; auto.
  - apply IH. intros a0 i nd I. apply H. cbn; auto.
Qed.
End Main.
