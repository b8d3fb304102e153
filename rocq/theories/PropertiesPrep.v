(** C87, C88: preparing a model for post-training quantization. *)
From Coq Require Import String List ZArith QArith Qabs Bool Arith Lia Lqa.
From Verif Require Import Base Names StructModel QuantModel QuantSpec QuantProofs RangeModel QzrModel PrepModel PrepSpec PrepProofs PrepProofs2.
Import ListNotations.
Local Open Scope string_scope.
Open Scope list_scope.
Notation relu := RangeModel.relu.

(* ------------------------------------------------------------------------- *)
(** * C87: statistics *)
(** A layer into which a batch normalization was folded gets the output statistics recorded for the batch normalization, and keeps
    those of its inputs; the record of the batch normalization disappears; nothing else changes. *)
Theorem C87_folded_stats mods st st' : folds_distinct mods -> bn_stats mods st = Ok st' ->
  (forall n b, folded mods n b -> dget st' (normalize_module_name b) = None) /\
  (forall n b bs, folded mods n b -> dget st (normalize_module_name b) = Some bs -> exists ls, dget st (normalize_module_name n) = Some ls /\
     dget st' (normalize_module_name n) = Some (mkLs (ls_inputs ls) (ls_output bs))) /\
  (forall n b, folded mods n b -> dget st (normalize_module_name b) = None -> dget st' (normalize_module_name n) = dget st (normalize_module_name n)) /\
  (forall k, (forall n b, folded mods n b -> normalize_module_name n <> k /\ normalize_module_name b <> k) -> dget st' k = dget st k).
Proof.
  intros (ND & NE) H. rewrite bn_stats_pairs in H by auto. destruct (bn_pairs_get _ ND _ _ H) as (A & B & C & D).
  split; [|split; [|split]].
  - intros n b F. eapply A. apply folds_In; eauto.
  - intros n b bs F. apply B. apply folds_In; auto.
  - intros n b F. apply C. apply folds_In; auto.
  - intros k K. apply D; intro I; apply in_map_iff in I; destruct I as ((x, y) & E & I); cbn in E; subst; destruct (folds_In_inv _ _ _ I) as (n & b & F & E1 & E2); destruct (K n b F); congruence.
Qed.
(** It fails only when a batch normalization has statistics and its layer has none. *)
Theorem C87_folded_stats_succeed mods st : folds_distinct mods ->
  (exists st', bn_stats mods st = Ok st') <-> (forall n b, folded mods n b -> dmem st (normalize_module_name b) = true -> dmem st (normalize_module_name n) = true).
Proof.
  intros (ND & NE). rewrite bn_stats_pairs by auto. rewrite (bn_pairs_succeed _ ND). split.
  - intros H n b F. apply (H _ _ (folds_In _ _ _ F)).
  - intros H x y I. destruct (folds_In_inv _ _ _ I) as (n & b & F & <- & <-). apply H; auto.
Qed.

(** Output ranges: a layer with quantized output that is followed by nothing but an activation, directly or after a split, has its
    output range clipped to what matters to the activation; other output ranges stay. *)
Theorem C87_clipped_outputs mods am qm st st' : NoDup (map (fun e : string * pmod => normalize_module_name (fst e)) mods) ->
  stats_fusions mods am qm st = Ok st' -> forall k,
  (dget st k = None -> dget st' k = None) /\
  (forall ls, dget st k = Some ls -> exists ls', dget st' k = Some ls' /\
    (forall n s a, normalize_module_name n = k -> followed mods am qm n s a -> ls_output ls' = clip_to (ls_output ls) (act_range a (st_max (ls_output ls)))) /\
    ((forall n s a, normalize_module_name n = k -> ~ followed mods am qm n s a) -> ls_output ls' = ls_output ls)).
Proof.
  intros ND H k. assert (ND1 : NoDup (map fst mods)).
  { clear - ND. induction mods as [|e l IH]; cbn in *; constructor; inversion ND; subst; auto. intro I. apply H1. apply in_map_iff in I. destruct I as (e' & E & I). rewrite <- E. apply (in_map (fun e => normalize_module_name (fst e))); auto. }
  assert (FOL : forall n s a, followed mods am qm n s a -> exists m, In (n, m) mods /\ tgt mods am qm (n, m) = Some (s, a)).
  { intros n s a F. assert (exists m, dget mods n = Some m) as (m & G) by (destruct F as [? (m & ? & ? & G & _)|? ? (m & ? & ? & G & _)]; eauto).
    exists m. split; [apply dget_In; auto|]. apply tgt_spec; auto. }
  assert (FOL2 : forall e s a, In e mods -> tgt mods am qm e = Some (s, a) -> followed mods am qm (fst e) s a).
  { intros (n, m) s a I T. cbn. apply (tgt_spec mods qm am n m); auto. apply In_dget; auto. }
  unfold stats_fusions in H. destruct st as [|e0 st0] eqn:ST; [inversion H; subst; split; [auto|discriminate]|]. rewrite <- ST in *. clear ST.
  pose proof (fusions_keys mods am qm mods _ _ H) as K. split; [intro E; apply K; auto|]. intros ls G. destruct (keys_some _ _ K _ _ G) as (ls' & G'). exists ls'. split; auto.
  destruct (fusions_output mods am qm mods ND _ _ H k ls ls' G G') as (A & B). split.
  - intros n s a E F. destruct (FOL _ _ _ F) as (m & I & T). apply (A (n, m) s a); auto.
  - intro N. apply B. intros e s a I E T. apply (N (fst e) s a); auto.
Qed.
(** Input ranges: the first input of the activation gets the clipped range (if the activation is a module with statistics and is not
    reached through a split); other input ranges stay. *)
Theorem C87_clipped_inputs mods am qm st st' : NoDup (map (fun e : string * pmod => normalize_module_name (fst e)) mods) ->
  stats_fusions mods am qm st = Ok st' -> forall k ls ls', dget st k = Some ls -> dget st' k = Some ls' ->
  (forall i, i <> 0%nat \/ (forall n s a, followed mods am qm n s a -> normalize_module_name (go_name s) = k -> go_type s = "Split") ->
     input_stats (ls_inputs ls') i = input_stats (ls_inputs ls) i) /\
  (forall n s a lsn, followed mods am qm n s a -> normalize_module_name (go_name s) = k -> go_type s <> "Split" -> dget st (normalize_module_name n) = Some lsn ->
     (forall n2 s2 a2, followed mods am qm n2 s2 a2 -> normalize_module_name (go_name s2) = k -> go_type s2 <> "Split" -> n2 = n) ->
     input_stats (ls_inputs ls') 0 = Some (clip_to (ls_output lsn) (act_range a (st_max (ls_output lsn))))).
Proof.
  intros ND H k ls ls' G G'. assert (ND1 : NoDup (map fst mods)).
  { clear - ND. induction mods as [|e l IH]; cbn in *; constructor; inversion ND; subst; auto. intro I. apply H1. apply in_map_iff in I. destruct I as (e' & E & I). rewrite <- E. apply (in_map (fun e => normalize_module_name (fst e))); auto. }
  assert (FOL : forall n s a, followed mods am qm n s a -> exists m, In (n, m) mods /\ tgt mods am qm (n, m) = Some (s, a)).
  { intros n s a F. assert (exists m, dget mods n = Some m) as (m & G0) by (destruct F as [? (m & ? & ? & G0 & _)|? ? (m & ? & ? & G0 & _)]; eauto).
    exists m. split; [apply dget_In; auto|]. apply tgt_spec; auto. }
  assert (FOL2 : forall e s a, In e mods -> tgt mods am qm e = Some (s, a) -> followed mods am qm (fst e) s a).
  { intros (n, m) s a I T. cbn. apply (tgt_spec mods qm am n m); auto. apply In_dget; auto. }
  unfold stats_fusions in H. destruct st as [|e0 st0] eqn:ST; [discriminate|]. rewrite <- ST in *. clear ST. split.
  - intros i N. eapply fusions_inputs_other; eauto. destruct N as [N|N]; [auto|right]. intros e s a I T. apply (N (fst e) s a); auto.
  - intros n s a lsn F E NS GN U. destruct (FOL _ _ _ F) as (m & I & T). apply (fusions_inputs_set mods am qm mods ND _ _ H k ls ls' (n, m) s a lsn); auto.
    intros (n2, m2) s2 a2 I2 T2 E2 NS2. assert (n2 = n) by (apply (U n2 s2 a2); auto; apply (FOL2 (n2, m2)); auto). subst n2.
    apply (In_dget _ _ _ ND1) in I. apply (In_dget _ _ _ ND1) in I2. congruence.
Qed.
(** It fails only if a layer with one successor has no statistics, or the split after it is missing in the graph; without any statistics
    there is nothing to do. *)
Theorem C87_clipping_succeeds mods am qm st : NoDup (map fst mods) ->
  (exists st', stats_fusions mods am qm st = Ok st') <->
  (st = [] \/ forall n s, quantized_leaf mods qm n -> only_successor am n s -> dmem st (normalize_module_name n) = true /\ (go_type s = "Split" -> dmem am (go_name s) = true)).
Proof.
  intro ND. unfold stats_fusions. destruct st as [|e0 st0] eqn:ST; [split; [auto|eauto]|]. rewrite <- ST in *. assert (NE : st <> []) by (rewrite ST; discriminate). clear ST.
  rewrite fusions_succeed. split.
  - intro H. right. intros n s L O. destruct L as (m & L'). assert (G : dget mods n = Some m) by (destruct L' as (? & ? & ? & _); auto).
    apply (H (n, m) s); [apply dget_In; auto|]. apply (single_successor_spec mods); auto. split; [exists m|]; auto.
  - intros [H|H]; [contradiction|]. intros (n, m) s I S. cbn [fst snd] in *. apply (single_successor_spec mods) in S; [|apply In_dget; auto]. destruct S. apply H; auto.
Qed.
(** What is cut off does not matter: a value in the recorded range gives the same activation after it is cut to the clipped range. *)
Theorem C87_clipping_harmless s y : st_min s <= y -> y <= st_max s ->
  (let c := clip_to s (act_range ARelu (st_max s)) in relu (clamp y (st_min c) (st_max c)) == relu y) /\
  (let c := clip_to s (act_range ARelu6 (st_max s)) in relu6 (clamp y (st_min c) (st_max c)) == relu6 y) /\
  (let c := clip_to s (act_range ATanh (st_max s)) in - (4) <= y -> y <= 4 -> clamp y (st_min c) (st_max c) == y) /\
  (let c := clip_to s (act_range ASigmoid (st_max s)) in - (6) <= y -> y <= 6 -> clamp y (st_min c) (st_max c) == y).
Proof.
  intros L H. unfold clip_to. cbn [act_range fst snd].
  assert (NEG : st_max s < 0 -> forall hi, clip_stats s 0 hi = mkStats 0 0 0 0 (st_mean s) (st_std s) (st_b s)).
  { intros N hi. unfold clip_stats, Qltb. destruct (Qle_bool 0 (st_max s)) eqn:E; [apply Qle_bool_iff in E; lra|reflexivity]. }
  split; [|split; [|split]].
  - destruct (Qlt_le_dec (st_max s) 0) as [N|N].
    + rewrite NEG by auto. cbn. destruct (clamp_eq y 0 0 ltac:(lra)) as (P & _). rewrite (relu_ext _ 0) by (apply P; lra). destruct (relu_eq y) as (R & _). rewrite R by lra; try (apply relu_eq; lra).
    + destruct (clip_stats_range s 0 (st_max s) ltac:(lra) N) as (E1 & E2 & E3 & E4 & E5 & E6 & E7). specialize (E6 ltac:(lra)).
      destruct (clamp_eq y _ _ E1) as (P1 & P2 & P3). destruct (Qlt_le_dec y 0) as [Y|Y].
      * assert (st_min (clip_stats s 0 (st_max s)) == 0).
        { unfold clip_stats, Qltb. destruct (Qle_bool 0 (st_max s)) eqn:E; [|apply Qle_bool_ngt in E; lra]. cbn. destruct (Qle_bool (st_min s) (st_max s)) eqn:F; [|apply Qle_bool_ngt in F; lra]. cbn.
          destruct (qmax_spec 0 (st_min s)) as [[? ->]|[? ->]]; lra. }
        rewrite (relu_ext _ 0) by (rewrite P1; lra). destruct (relu_eq y) as (R & _). rewrite R by lra; try (apply relu_eq; lra).
      * apply relu_ext. destruct (E4 y ltac:(lra) ltac:(lra) ltac:(lra) ltac:(lra)). apply P3; auto.
  - set (h := qmin (st_max s) 6). destruct (Qlt_le_dec (st_max s) 0) as [N|N].
    + rewrite NEG by auto. cbn. destruct (clamp_eq y 0 0 ltac:(lra)) as (P & _). rewrite (relu6_ext _ 0) by (apply P; lra). destruct (relu6_eq y) as (R & _). rewrite R by lra; try (apply relu6_eq; lra).
    + assert (K : 0 <= h) by (unfold h; destruct (qmin_spec (st_max s) 6) as [[? ->]|[? ->]]; lra).
      assert (K2 : h <= st_max s) by apply qmin_l.
      destruct (clip_stats_range s 0 h ltac:(lra) K) as (E1 & E2 & E3 & E4 & E5 & E6 & E7). specialize (E6 K2).
      destruct (clamp_eq y _ _ E1) as (P1 & P2 & P3). destruct (Qlt_le_dec y 0) as [Y|Y]; [|destruct (Qlt_le_dec h y) as [Y2|Y2]].
      * assert (st_min (clip_stats s 0 h) == 0).
        { unfold clip_stats, Qltb. destruct (Qle_bool 0 (st_max s)) eqn:E; [|apply Qle_bool_ngt in E; lra]. cbn. destruct (Qle_bool (st_min s) h) eqn:F; [|apply Qle_bool_ngt in F; lra]. cbn.
          destruct (qmax_spec 0 (st_min s)) as [[? ->]|[? ->]]; lra. }
        rewrite (relu6_ext _ 0) by (rewrite P1; lra). destruct (relu6_eq y) as (R & _). rewrite R by lra; try (apply relu6_eq; lra).
      * assert (h == 6) by (unfold h in Y2 |- *; destruct (qmin_spec (st_max s) 6) as [[? e]|[? e]]; rewrite e in Y2 |- *; lra).
        rewrite (relu6_ext _ 6) by (rewrite P2; lra). destruct (relu6_eq y) as (_ & _ & R). rewrite R by lra; try (apply relu6_eq; lra).
      * apply relu6_ext. destruct (E4 y ltac:(lra) ltac:(lra) ltac:(lra) ltac:(lra)). apply P3; auto.
  - intros Y1 Y2. destruct (clip_stats_range s (- (4)) 4 ltac:(lra) ltac:(lra)) as (E1 & E2 & E3 & E4 & _). destruct (E4 y ltac:(lra) ltac:(lra) ltac:(lra) ltac:(lra)). apply clamp_eq; lra.
  - intros Y1 Y2. destruct (clip_stats_range s (- (6)) 6 ltac:(lra) ltac:(lra)) as (E1 & E2 & E3 & E4 & _). destruct (E4 y ltac:(lra) ltac:(lra) ltac:(lra) ltac:(lra)). apply clamp_eq; lra.
Qed.

(* ------------------------------------------------------------------------- *)
(** * C88: the prepared model *)
(** A prepared model (batch normalizations folded before, no clipping mode) computes the same outputs as the original apart from rounding,
    for all inputs on which no layer leaves its recorded range. *)
Theorem C88_prepared_computes mods p outs g st qm ov st' ws ins : wf_program mods p ->
  g_clip g = CNone -> g_half g = false -> (forall n k, In (n, k) ov -> k_half k = None /\ k_ident k = None) ->
  prepare g mods (graph p) st qm ov = Ok (st', ws) ->
  (st <> [] \/ forall n m, In (n, m) mods -> pm_type m <> PtRelu6) ->
  in_range p st ins -> outputs_free p outs ->
  Forall2 teq (outputs float_fun p outs ins) (outputs (prepared_fun g st' ws) p outs ins).
Proof. intros. eapply outputs_same; eauto. Qed.

(** A module is replaced by an identity only if it is a ReLU or ReLU6 whose only predecessor has a quantized output that goes nowhere else and was
    replaced by a wrapper that does the ReLU itself. *)
Theorem C88_identity_after_relu mods p g st qm ov st' ws : wf_program mods p ->
  g_half g = false -> (forall n k, In (n, k) ov -> k_half k = None /\ k_ident k = None) ->
  prepare g mods (graph p) st qm ov = Ok (st', ws) ->
  forall nd r, In nd p -> n_mod nd = Some r -> dget ws r = Some WIdent ->
  (exists pm, dget mods r = Some pm /\ (pm_type pm = PtRelu \/ pm_type pm = PtRelu6)) /\
  exists i ly m w, nth_error p i = Some ly /\ n_mod ly = Some m /\ (forall a, In a (n_args nd) -> ar_src a = SOp i) /\ succs p i = [op_of nd] /\
    (exists q bits, dget qm m = Some q /\ q_acts q = Some bits) /\ dget ws m = Some w /\ (exists a b, w = WQuant a true \/ w = WFake a true b).
Proof.
  intros WF HH Hov HP nd r I M W.
  assert (D : ident ws nd = true) by (unfold ident; rewrite M, W; auto).
  destruct (ident_pred mods p WF g st qm ov st' ws HH Hov HP nd I D) as (i & ly & m & pm & w & N & ML & NL & G & R & WM & RL & UN & U).
  destruct (wf_call _ _ WF nd r I M) as (NR & pr & GR & _). destruct (wrapper mods p WF g st qm ov st' ws HH Hov HP r pr GR) as (_ & w' & _ & W' & _ & WI). rewrite W in W'. inversion W'; subst w'.
  destruct (WI eq_refl) as (LK & _). split.
  { exists pr. split; auto. unfold relu_like in LK. destruct (pm_type pr); try discriminate; auto. }
  exists i, ly, m, w. split; auto. split; auto.
  pose proof R as R0. unfold relu_after in R0. cbn [fst snd] in R0. destruct (single_successor qm (graph p) m pm) as [s|] eqn:SS; [|discriminate]. pose proof SS as SS0. apply (single_successor_spec mods) in SS0; auto.
  destruct SS0 as ((pm' & q & bits & _ & Q1 & Q2 & _) & aa & GA & SA). rewrite <- NL in GA. rewrite (graph_get mods p WF i ly N) in GA. inversion GA; subst aa. cbn [a_succs] in SA.
  split.
  { intros a Ia. assert (L : length (n_args nd) = 1%nat).
    { unfold relu_like in LK. destruct (pm_type pr) eqn:PT; try discriminate.
      - apply (wf_relu _ _ WF nd I). eapply (wf_relu_mod _ _ WF nd pr); eauto. rewrite NR; auto.
      - apply (wf_relu6 _ _ WF nd pr I); auto. rewrite NR; auto. }
    apply uses_arg in U. destruct U as (a0 & I0 & S0). destruct (n_args nd) as [|b [|? ?]]; cbn in L; try discriminate. destruct Ia as [<-|[]], I0 as [<-|[]]. auto. }
  split. { rewrite SA. f_equal. apply (succ_one p i s nd SA I U). }
  split; [eauto|]. split; auto.
  destruct (wrapper mods p WF g st qm ov st' ws HH Hov HP m pm G) as (q' & w' & _ & W2 & WR & _). rewrite WM in W2. inversion W2; subst w'. destruct (WR RL) as (_ & _ & H2). specialize (H2 ltac:(congruence)).
  destruct w; try discriminate; cbn in H2; subst half; [exists acts, true; auto|exists acts, qin; auto].
Qed.

(* ------------------------------------------------------------------------- *)
(** * Examples *)
Definition st_ (a b : Q) : lstats := mkLs [] (mkStats a b a b 0 1 1).
Definition lin (a b : Q) (xs : list tensor) : tensor := map (fun x => a * x + b) (hd [] xs).
Definition softsign (x : Q) : Q := x / (1 + Qabs x).
Definition sop (i : nat) : arg := mkArg (SOp i) None.
Definition ex_prog : program :=
  [ mkNode "conv1" (Some "conv1") "Conv" [mkArg (SIn 0) None] (lin 2 (- (3)));
    mkNode "relu1" (Some "relu1") "Relu" [sop 0] (fun xs => map relu (hd [] xs));
    mkNode "conv2" (Some "conv2") "Conv" [sop 1] (lin 1 (- (3)));
    mkNode "split" None "Split" [sop 2] (fun xs => map (fun x => x) (hd [] xs));
    mkNode "tanh" None "Tanh" [mkArg (SOp 3) (Some [0%nat])] (fun xs => map softsign (hd [] xs));
    mkNode "sigmoid" None "Sigmoid" [mkArg (SOp 3) (Some [1%nat])] (fun xs => map softsign (hd [] xs));
    mkNode "add" (Some "add") "Add" [sop 4; sop 5] (fun xs => map2 Qplus (nth 0 xs []) (nth 1 xs []));
    mkNode "conv3" (Some "conv3") "Conv" [sop 6] (lin 100 20);
    mkNode "act6" (Some "act6") "Clip" [sop 7] (fun xs => map relu6 (hd [] xs)) ].
Definition pmd (t : ptype) : pmod := mkPmod t false None.
Definition ex_mods : dict pmod :=
  [("conv1", pmd PtParam); ("relu1", pmd PtRelu); ("conv2", pmd PtParam); ("add", pmd PtEltwise); ("conv3", pmd PtParam); ("act6", pmd PtRelu6)].
Definition ex_qm : dict qbits := map (fun e : string * pmod => (fst e, mkQb (Some 8%Z) (Some 8%Z) (Some 32%Z))) ex_mods.
Definition ex_st : dict lstats :=
  [("conv1", st_ (- (10)) 10); ("relu1", st_ 0 10); ("conv2", st_ (- (8)) 9); ("add", st_ (- (2)) 2); ("conv3", st_ (- (100)) 100); ("act6", st_ 0 6)].
Definition ex_cfg (m : lqmode) : pcfg := mkPcfg m CNone None false None.
Definition ex_ins : list tensor := [[1; 4]].
Definition ex_ws : dict wrap :=
  [("conv1", WQuant (Some 8%Z) true); ("relu1", WIdent); ("conv2", WQuant (Some 8%Z) false); ("add", WQuant (Some 8%Z) false); ("conv3", WQuant (Some 8%Z) true); ("act6", WIdent)].
Lemma lin_ext a b xs ys : Forall2 teq xs ys -> teq (lin a b xs) (lin a b ys).
Proof.
  intro H. unfold lin. assert (K : teq (hd [] xs) (hd [] ys)) by (destruct H; cbn; [constructor|auto]). apply Forall2_map. eapply Forall2_in_l; [exact K|]. cbn. intros x y _ E. rewrite E. reflexivity.
Qed.
Lemma map_ext_teq f xs ys : (forall x y, x == y -> f x == f y) -> Forall2 teq xs ys -> teq (map f (hd [] xs)) (map f (hd [] ys)).
Proof.
  intros F H. assert (K : teq (hd [] xs) (hd [] ys)) by (destruct H; cbn; [constructor|auto]). apply Forall2_map. eapply Forall2_in_l; [exact K|]. cbn. intros x y _ E. auto.
Qed.
Lemma softsign_ext x y : x == y -> softsign x == softsign y.
Proof. intro E. unfold softsign. rewrite E. reflexivity. Qed.
Lemma add_ext xs ys : Forall2 teq xs ys -> teq (map2 Qplus (nth 0 xs []) (nth 1 xs [])) (map2 Qplus (nth 0 ys []) (nth 1 ys [])).
Proof.
  intro H. assert (A : forall i, teq (nth i xs []) (nth i ys [])) by (clear - H; induction H; intros [|i]; cbn; auto; constructor).
  generalize (A 0%nat) (A 1%nat). generalize (nth 0 xs []) (nth 0 ys []) (nth 1 xs []) (nth 1 ys []). intros a b c d H1. revert c d. induction H1; intros c d H2; [constructor|].
  destruct H2; cbn; constructor; [|apply IHForall2; auto]. rewrite H0, H2. reflexivity.
Qed.
Ltac in_cases := repeat match goal with H : In _ (_ :: _) |- _ => destruct H as [<-|H] | H : In _ [] |- _ => destruct H | H : _ = _ \/ _ |- _ => destruct H as [<-|H] | H : False |- _ => destruct H end.
Lemma ex_wf : wf_program ex_mods ex_prog.
Proof.
  constructor.
  - cbn. repeat (constructor; [cbn; intuition discriminate|]). constructor.
  - cbn. repeat (constructor; [cbn; intuition discriminate|]). constructor.
  - intros n I. cbn in I. in_cases; reflexivity.
  - intros n m I. cbn in I. repeat (destruct I as [E|I]; [inversion E; reflexivity|]). destruct I.
  - intros nd m I M. unfold ex_prog in I. in_cases; cbn in M; inversion M; subst; (split; [reflexivity|eexists; split; reflexivity]).
  - intros nd I M. unfold ex_prog in I. in_cases; cbn in M; inversion M; reflexivity.
  - intros i nd a j N I S. do 9 (destruct i as [|i]; [cbn in N; inversion N; subst nd; cbn in I; in_cases; cbn in S; inversion S; lia|]). cbn in N. destruct i; discriminate.
  - intros nd xs ys I H. unfold ex_prog in I. in_cases; cbn [n_fun]; try (apply lin_ext; auto; fail); try (apply map_ext_teq; auto; intros; try apply relu_ext; try apply relu6_ext; try apply softsign_ext; auto; fail). apply add_ext; auto.
  - intros nd I T. unfold ex_prog in I. in_cases; cbn in T; try discriminate; split; auto.
  - intros nd pm I G PT. unfold ex_prog in I. in_cases; cbn in G; inversion G; subst; cbn in PT; try discriminate; reflexivity.
  - intros nd pm I G PT. unfold ex_prog in I. in_cases; cbn in G; inversion G; subst; cbn in PT; try discriminate; split; auto; split; auto.
  - intros nd I. unfold ex_prog in I. in_cases; cbn [n_type]; intros [T|T]; try discriminate; exists softsign; split; auto.
  - intros nd I T. unfold ex_prog in I. in_cases; cbn in T; try discriminate; split; auto; split; auto.
Qed.
Lemma ex_in_range : in_range ex_prog ex_st ex_ins.
Proof.
  constructor.
  - intros i nd m ls N M G.
    do 9 (destruct i as [|i]; [cbn in N; inversion N; subst nd; cbn in M; inversion M; subst m; cbn in G; inversion G; subst ls; repeat constructor; cbv; intro; discriminate|]). cbn in N. destruct i; discriminate.
  - intros nd a I T Ia. unfold ex_prog in I. in_cases; cbn in T; try discriminate. cbn in Ia. in_cases. repeat constructor; cbv; intro; discriminate.
  - intros nd a I T Ia. unfold ex_prog in I. in_cases; cbn in T; try discriminate. cbn in Ia. in_cases. repeat constructor; cbv; intro; discriminate.
Qed.
(** The hypotheses of C88 are met by a network with every kind of activation, in every mode. *)
Example ex_prepared m : exists st', prepare (ex_cfg m) ex_mods (graph ex_prog) ex_st ex_qm [] = Ok (st', ex_ws) /\
  dget st' "conv1" = Some (mkLs [] (mkStats 0 10 0 10 0 1 1)) /\ dget st' "conv2" = Some (mkLs [] (mkStats (- (6)) 6 (- (6)) 6 0 1 1)) /\ dget st' "conv3" = Some (mkLs [] (mkStats 0 6 0 6 0 1 1)) /\
  dget st' "relu1" = Some (mkLs [(0%nat, mkStats 0 10 0 10 0 1 1)] (mkStats 0 10 0 10 0 1 1)).
Proof. destruct m; eexists; (split; [vm_compute; reflexivity|repeat split; vm_compute; reflexivity]). Qed.
Example ex_computes m : exists st', prepare (ex_cfg m) ex_mods (graph ex_prog) ex_st ex_qm [] = Ok (st', ex_ws) /\
  Forall2 teq (outputs float_fun ex_prog [sop 8] ex_ins) (outputs (prepared_fun (ex_cfg m) st' ex_ws) ex_prog [sop 8] ex_ins) /\
  Forall2 teq (outputs float_fun ex_prog [sop 8] ex_ins) [[6]].
Proof.
  destruct (ex_prepared m) as (st' & H & _). exists st'. split; auto. split.
  - eapply C88_prepared_computes; try exact H; auto using ex_wf, ex_in_range.
    + intros n k [].
    + left. discriminate.
    + intros a i nd [<-|[]] S N. cbn in S. inversion S; subst i. cbn in N. inversion N; subst nd. split; [discriminate|]. right; left. cbn. discriminate.
  - vm_compute. repeat constructor; reflexivity.
Qed.
(** in the prepared network the layer before the ReLU gives the ReLU of its output *)
Example ex_layer_output : Forall2 teq (outputs float_fun ex_prog [sop 0; sop 1] ex_ins) [[- (1); 5]; [0; 5]] /\
  forall m st', prepare (ex_cfg m) ex_mods (graph ex_prog) ex_st ex_qm [] = Ok (st', ex_ws) ->
  Forall2 teq (outputs (prepared_fun (ex_cfg m) st' ex_ws) ex_prog [sop 0; sop 1] ex_ins) [[0; 5]; [0; 5]].
Proof.
  split; [vm_compute; repeat constructor; reflexivity|]. intros m st' H.
  assert (K : prepare (ex_cfg m) ex_mods (graph ex_prog) ex_st ex_qm [] = Ok (match prepare (ex_cfg SYM) ex_mods (graph ex_prog) ex_st ex_qm [] with Ok (s, _) => s | Raise _ => [] end, ex_ws)) by (destruct m; vm_compute; reflexivity).
  rewrite K in H. inversion H; subst st'. destruct m; vm_compute; repeat constructor; reflexivity.
Qed.

(** ** Where it fails *)
(** A model that also returns the output of a layer before a ReLU: the values below zero are lost. *)
Definition two_prog : program :=
  [ mkNode "conv" (Some "conv") "Conv" [mkArg (SIn 0) None] (lin 1 0); mkNode "relu" (Some "relu") "Relu" [sop 0] (fun xs => map relu (hd [] xs)) ].
Definition two_mods : dict pmod := [("conv", pmd PtParam); ("relu", pmd PtRelu)].
Definition all8 (mods : dict pmod) : dict qbits := map (fun e : string * pmod => (fst e, mkQb (Some 8%Z) (Some 8%Z) None)) mods.
Definition run_prep (g : pcfg) mods p st outs ins : res (list tensor) :=
  do r <- prepare g mods (graph p) st (all8 mods) []; Ok (outputs (prepared_fun g (fst r) (snd r)) p outs ins).
Theorem C88_also_returned_layer_refuted : exists p mods st outs ins, wf_program mods p /\ in_range p st ins /\ (forall n m, In (n, m) mods -> pm_type m <> PtRelu6) /\
  outputs float_fun p outs ins = [[- (1)]; [0]] /\ forall m, run_prep (ex_cfg m) mods p st outs ins = Ok [[0]; [0]].
Proof.
  exists two_prog, two_mods, [("conv", st_ (- (2)) 2); ("relu", st_ 0 2)], [sop 0; sop 1], [[- (1)]]. split; [|split; [|split; [|split]]].
  - constructor.
    + cbn. repeat (constructor; [cbn; intuition discriminate|]). constructor.
    + cbn. repeat (constructor; [cbn; intuition discriminate|]). constructor.
    + intros n I. cbn in I. in_cases; reflexivity.
    + intros n m I. cbn in I. repeat (destruct I as [E|I]; [inversion E; reflexivity|]). destruct I.
    + intros nd m I M. unfold two_prog in I. in_cases; cbn in M; inversion M; subst; (split; [reflexivity|eexists; split; reflexivity]).
    + intros nd I M. unfold two_prog in I. in_cases; cbn in M; inversion M; reflexivity.
    + intros i nd a j N I S. do 2 (destruct i as [|i]; [cbn in N; inversion N; subst nd; cbn in I; in_cases; cbn in S; inversion S; lia|]). cbn in N. destruct i; discriminate.
    + intros nd xs ys I H. unfold two_prog in I. in_cases; cbn [n_fun]; [apply lin_ext; auto|apply map_ext_teq; auto; apply relu_ext].
    + intros nd I T. unfold two_prog in I. in_cases; cbn in T; try discriminate; split; auto.
    + intros nd pm I G PT. unfold two_prog in I. in_cases; cbn in G; inversion G; subst; cbn in PT; try discriminate; reflexivity.
    + intros nd pm I G PT. unfold two_prog in I. in_cases; cbn in G; inversion G; subst; cbn in PT; discriminate.
    + intros nd I. unfold two_prog in I. in_cases; cbn [n_type]; intros [T|T]; discriminate.
    + intros nd I T. unfold two_prog in I. in_cases; cbn in T; discriminate.
  - constructor.
    + intros i nd m ls N M G. do 2 (destruct i as [|i]; [cbn in N; inversion N; subst nd; cbn in M; inversion M; subst m; cbn in G; inversion G; subst ls; repeat constructor; cbv; intro; discriminate|]). cbn in N. destruct i; discriminate.
    + intros nd a I T. unfold two_prog in I. in_cases; cbn in T; discriminate.
    + intros nd a I T. unfold two_prog in I. in_cases; cbn in T; discriminate.
  - intros n m I. cbn in I. repeat (destruct I as [E|I]; [inversion E; discriminate|]). destruct I.
  - reflexivity.
  - intros []; vm_compute; reflexivity.
Qed.
(** ReLU6 with dynamic quantization (no statistics): values above 6 come through. *)
Definition six_prog : program :=
  [ mkNode "conv" (Some "conv") "Conv" [mkArg (SIn 0) None] (lin 1 0); mkNode "act" (Some "act") "Clip" [sop 0] (fun xs => map relu6 (hd [] xs)) ].
Definition six_mods : dict pmod := [("conv", pmd PtParam); ("act", pmd PtRelu6)].
Theorem C88_relu6_dynamic_refuted : outputs float_fun six_prog [sop 1] [[9]] = [[6]] /\ forall m, run_prep (ex_cfg m) six_mods six_prog [] [sop 1] [[9]] = Ok [[9]].
Proof. split; [reflexivity|intros []; vm_compute; reflexivity]. Qed.
(** A ReLU used after two layers: it is removed, but only the first layer does its work. In the graph the second call has a name of its own. With a
    symmetric mode, values below zero come through after the second layer. *)
Definition shared_prog : program :=
  [ mkNode "conv1" (Some "conv1") "Conv" [mkArg (SIn 0) None] (lin 1 0); mkNode "relu" (Some "relu") "Relu" [sop 0] (fun xs => map relu (hd [] xs));
    mkNode "conv2" (Some "conv2") "Conv" [sop 1] (lin (- (1)) 0); mkNode "relu_1" (Some "relu") "Relu" [sop 2] (fun xs => map relu (hd [] xs)) ].
Definition shared_mods : dict pmod := [("conv1", pmd PtParam); ("relu", pmd PtRelu); ("conv2", pmd PtParam)].
Theorem C88_shared_relu_refuted : let st := [("conv1", st_ (- (2)) 2); ("relu", st_ 0 2); ("conv2", st_ (- (2)) 2)] in
  outputs float_fun shared_prog [sop 3] [[1]] = [[0]] /\
  run_prep (ex_cfg SYM) shared_mods shared_prog st [sop 3] [[1]] = Ok [[- (1)]] /\ run_prep (ex_cfg ASU) shared_mods shared_prog st [sop 3] [[1]] = Ok [[0]].
Proof. cbv zeta. split; [reflexivity|split; vm_compute; reflexivity]. Qed.
(** With a clipping mode the range of the layer before a ReLU6 is found from the mean and the deviation, and can go beyond 6. *)
Theorem C88_relu6_gauss_refuted : exists st, 
  outputs float_fun six_prog [sop 1] [[9]] = [[6]] /\ exists y, run_prep (mkPcfg ASU CGauss None false None) six_mods six_prog st [sop 1] [[9]] = Ok [[y]] /\ 6 < y.
Proof.
  exists [("conv", mkLs [] (mkStats (- (10)) 10 (- (10)) 10 4 10 10)); ("act", st_ 0 6)]. split; [reflexivity|].
  eexists. split; [vm_compute; reflexivity|]. vm_compute. reflexivity.
Qed.

(** Folding: the statistics of bn1 go to conv1, and bn1 is forgotten; layer 'fc' stays. *)
Example ex_folded : let mods := [("conv1", mkPmod PtParam false (Some ["bn1"])); ("bn1", pmd PtIdentity); ("fc", pmd PtParam)] in
  folds_distinct mods /\ folded mods "conv1" "bn1" /\
  bn_stats mods [("conv1", mkLs [(0%nat, mkStats 0 1 0 1 0 1 1)] (mkStats (- (5)) 5 0 0 0 1 1)); ("bn1", st_ (- (1)) 1); ("fc", st_ 0 3)] =
  Ok [("conv1", mkLs [(0%nat, mkStats 0 1 0 1 0 1 1)] (mkStats (- (1)) 1 (- (1)) 1 0 1 1)); ("fc", st_ 0 3)].
Proof.
  cbv zeta. split; [|split].
  - split; [vm_compute; repeat (constructor; [cbn; intuition discriminate|]); constructor|]. intros n m I. cbn in I. repeat (destruct I as [E|I]; [inversion E; discriminate|]). destruct I.
  - exists (mkPmod PtParam false (Some ["bn1"])), []. split; cbn; auto.
  - reflexivity.
Qed.
Example ex_folded_fails : bn_stats [("conv1", mkPmod PtParam false (Some ["bn1"]))] [("bn1", st_ 0 1)] = Raise KeyError.
Proof. reflexivity. Qed.
Example ex_followed : followed ex_mods (graph ex_prog) ex_qm "conv2" (mkOp "split" "Split") ASigmoid /\ followed ex_mods (graph ex_prog) ex_qm "conv3" (mkOp "act6" "Clip") ARelu6.
Proof.
  split.
  - apply (tgt_spec _ _ _ "conv2" (pmd PtParam)); reflexivity.
  - apply (tgt_spec _ _ _ "conv3" (pmd PtParam)); reflexivity.
Qed.

Print Assumptions C87_folded_stats.
Print Assumptions C87_folded_stats_succeed.
Print Assumptions C87_clipped_outputs.
Print Assumptions C87_clipped_inputs.
Print Assumptions C87_clipping_succeeds.
Print Assumptions C87_clipping_harmless.
Print Assumptions C88_prepared_computes.
Print Assumptions C88_identity_after_relu.
Print Assumptions C88_also_returned_layer_refuted.
Print Assumptions C88_relu6_dynamic_refuted.
Print Assumptions C88_shared_relu_refuted.
Print Assumptions C88_relu6_gauss_refuted.
