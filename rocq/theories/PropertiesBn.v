(** C34, C49, C50: batch-norm folding (sim_bn_fold.py, model_transforms.py). *)
From Coq Require Import String List ZArith QArith Qabs Bool Arith Lia Lqa Setoid.
From Verif Require Import Base Lists QuantModel RangeModel RangeWrapProofs BnModel BnSpec BnProofs BnGraphProofs.
Import ListNotations.
Open Scope Q_scope.

(** ** C34: folding preserves the evaluation-mode function *)

(** An unfrozen module in evaluation mode computes, at every output position of channel c,
    gamma_c * (y - mean_c) * rsqrt(var_c + eps) + beta_c where y is the output of the wrapped layer
    with its bias (gamma = 1, beta = 0 without affine parameters; no bias counts as 0). *)
Theorem C34_eval_forward sq rsq g x s :
  s_frozen s = false -> (forall p, In p g -> (fst p < length (bn_mean (s_bn s)))%nat) ->
  exists y, forward sq rsq idw idb g false x s = Ok (s, y) /\
    Forall2 (fun p v => let c := fst p in let n := s_bn s in
       v == (if bn_affine n then nth c (bn_gamma n) 0 else 1) *
            ((dot (nth c (s_w s) []) (gather x (snd p)) + (match s_b s with Some b => nth c b 0 | None => 0 end)) - nth c (bn_mean n) 0) *
            rsq (nth c (bn_var n) 0 + bn_eps n) + (if bn_affine n then nth c (bn_beta n) 0 else 0)) g y.
Proof.
  intros Hf Hg. unfold forward. rewrite Hf. eexists. split; [reflexivity|].
  unfold idw, idb. unfold layer. assert (H : forall l, incl l g -> Forall2 (fun p v => let c := fst p in let n := s_bn s in
       v == (if bn_affine n then nth c (bn_gamma n) 0 else 1) *
            ((dot (nth c (s_w s) []) (gather x (snd p)) + (match s_b s with Some b => nth c b 0 | None => 0 end)) - nth c (bn_mean n) 0) *
            rsq (nth c (bn_var n) 0 + bn_eps n) + (if bn_affine n then nth c (bn_beta n) 0 else 0)) l
      (map (layer_at (scale_rows (fold_factor rsq (s_bn s)) (s_w s)) (Some (fold_bias rsq (s_bn s) (s_b s))) x) l)); [|apply H; apply incl_refl].
  induction l as [|p l IH]; intro Hi; constructor; [|apply IH; intros z Hz; apply Hi; right; exact Hz].
  cbv zeta. rewrite layer_at_bia, scale_rows_nth, dot_scale. unfold bia at 1, fold_bias. rewrite nth_map_seq by (apply Hg, Hi; left; reflexivity).
  unfold fold_factor, rs_run, gam, bet, bia. ring.
Qed.

(** freeze() writes the folded weight and bias into the layer; from then on every forward, in
    training or evaluation mode, computes what the layer and the batch-norm computed in evaluation
    mode before, and changes nothing. *)
Theorem C34_freeze_preserves sq rsq g s : (forall p, In p g -> (fst p < length (bn_mean (s_bn s)))%nat) -> forall xs,
  (forall o, In o xs -> exists x, o = STrain x \/ o = SEval x) ->
  exists ys, srun sq rsq g xs (freeze rsq s) = Ok (freeze rsq s, ys) /\
    Forall2 (fun o y => forall x, o = STrain x \/ o = SEval x -> teq y (bn_eval rsq g (s_bn s) (layer g (s_w s) (s_b s) x))) xs ys.
Proof.
  intros Hg xs. induction xs as [|o xs IH]; intro Ho.
  - exists []. split; [reflexivity|constructor].
  - destruct IH as [ys [H1 H2]]; [intros o' Hin; apply Ho; right; exact Hin|].
    destruct (Ho o (or_introl eq_refl)) as (x & Hx).
    assert (E : exists y, sstep sq rsq g o (freeze rsq s) = Ok (freeze rsq s, y) /\ teq y (bn_eval rsq g (s_bn s) (layer g (s_w s) (s_b s) x))).
    { destruct Hx as [->| ->]; [apply (freeze_out sq rsq g true x s Hg)|apply (freeze_out sq rsq g false x s Hg)]. }
    destruct E as (y & E & Ht). exists (y :: ys). cbn [srun]. rewrite E. cbn [bind fst snd]. rewrite H1. cbn [bind fst snd].
    split; [reflexivity|constructor; [|exact H2]]. intros x' Hx'. replace x' with x; [exact Ht|]. destruct Hx as [->| ->]; destruct Hx' as [Hx'|Hx']; congruence.
Qed.

(** The constructor accepts exactly Linear/Conv1d + BatchNorm1d, Conv2d + BatchNorm2d, Conv3d +
    BatchNorm3d (and Conv2d + FrozenBatchNorm2d when it has the needed attributes), with tracked
    running statistics; a wrong pair is a TypeError, an untracked one a ValueError. *)
Theorem C34_constructor rsq pt nt tracks W b n d :
  match pt, nt with
  | TLinear, TBn1 | TConv1, TBn1 | TConv2, TBn2 | TConv3, TBn3 =>
      sfb_init rsq pt nt tracks true W b n d = if tracks then Ok (mkSfb W b n d false) else Raise ValueError
  | TConv2, TFrozenBn2 => sfb_init rsq pt nt tracks true W b n d = if tracks then Ok (freeze rsq (mkSfb W b n d false)) else Raise ValueError
  | _, _ => sfb_init rsq pt nt tracks true W b n d = Raise TypeError
  end.
Proof. destruct pt, nt, tracks; reflexivity. Qed.

(** fold_batch_norms' fold of one pair with inference=True: the returned layer computes the
    evaluation-mode function of the pair. *)
Theorem C34_fold_bn rsq g pt nt W b n s x :
  nt <> TFrozenBn2 -> (forall p, In p g -> (fst p < length (bn_mean n))%nat) ->
  fold_bn rsq true pt nt true true W b n = Ok (Some s) ->
  teq (layer g (s_w s) (s_b s) x) (bn_eval rsq g n (layer g W b x)).
Proof.
  intros Hf Hg H. assert (Es : s = freeze rsq (mkSfb W b n freeze_bn_delay_default false)).
  { unfold fold_bn in H. pose proof (C34_constructor rsq pt nt true W b n freeze_bn_delay_default) as Hc.
    destruct pt, nt; try congruence; rewrite Hc in H; try discriminate; injection H; intro; subst; reflexivity. }
  subst s. cbn [freeze s_w s_b s_bn]. apply eval_fold. exact Hg.
Qed.

(** An untracked batch-norm is left alone. *)
Theorem C34_untracked_not_folded rsq inf pt nt W b n : match pt, nt with
  | TLinear, TBn1 | TConv1, TBn1 | TConv2, TBn2 | TConv3, TBn3 => fold_bn rsq inf pt nt false true W b n = Ok None | _, _ => True end.
Proof. destruct pt, nt; reflexivity. Qed.

(** Finding: a FrozenBatchNorm2d is frozen by the constructor and then frozen again by
    fold_batch_norms(inference=True): gamma / sigma is applied twice and the output is wrong
    (here 8 instead of 4, with exact square roots). *)
Theorem C34_frozen_bn_folded_twice_refuted :
  exists rsq g W b n x s, (forall v, In v [4#1] -> rsq v * rsq v * v == 1) /\ nth 0 (bn_var n) 0 + bn_eps n == 4 /\
    fold_bn rsq true TConv2 TFrozenBn2 true true W b n = Ok (Some s) /\
    ~ teq (layer g (s_w s) (s_b s) x) (bn_eval rsq g n (layer g W b x)).
Proof.
  exists (fun _ => 1 # 2), [(0%nat, [Some 0%nat])], [[2 # 1]], None, (mkBn true [4 # 1] [0] [0] [3 # 1] 1 (Some (1 # 10)) 0), [1], 
    (freeze (fun _ => 1 # 2) (freeze (fun _ => 1 # 2) (mkSfb [[2 # 1]] None (mkBn true [4 # 1] [0] [0] [3 # 1] 1 (Some (1 # 10)) 0) freeze_bn_delay_default false))).
  split; [intros v [<-|[]]; reflexivity|]. split; [reflexivity|]. split; [reflexivity|].
  intro H. assert (E : (8 # 1) == (4 # 1)); [|discriminate E].
  pose proof (teq_nth _ _ 0%nat H) as H0. vm_compute in H0. discriminate H0.
Qed.

(** Finding: torchvision's FrozenBatchNorm2d (0.4.2, the pinned release) has no track_running_stats:
    the constructor then fails with AttributeError, which fold_batch_norms does not catch. *)
Theorem C34_frozen_bn_attribute_error rsq inf W b n : fold_bn rsq inf TConv2 TFrozenBn2 true false W b n = Raise AttributeError.
Proof. destruct inf; reflexivity. Qed.

(** ** C49: simulated folding during training is the unfused pair *)

(** For every history of training forwards, evaluation forwards and arbitrary parameter updates,
    as long as the number of training batches stays within freeze_bn_delay: the wrapper succeeds
    exactly as the layer followed by torch's batch-norm does, all outputs are equal, and at the end
    parameters and running statistics are equal. *)
Theorem C49_training_history_equiv sq rsq g k ops W b n delay :
  roots_ok sq rsq -> (2 <= k)%nat -> bn_ok n -> per_channel (length (bn_mean n)) k g -> (0 < length (bn_mean n))%nat ->
  (bn_batches n + trains ops <= delay)%Z ->
  exists s' ys r' ys', srun sq rsq g ops (mkSfb W b n delay false) = Ok (s', ys) /\ rrun rsq g ops (mkPair W b n) = Ok (r', ys') /\
    Forall2 teq ys ys' /\ s_w s' = r_w r' /\ s_b s' = r_b r' /\ bn_eqv (s_bn s') (r_bn r') /\ s_frozen s' = false /\
    bn_batches (s_bn s') = (bn_batches n + trains ops)%Z.
Proof.
  intros Hr Hk Hok HP HC Hd.
  destruct (sim_history sq rsq g k ops Hr Hk (mkSfb W b n delay false) (mkPair W b n)) as (s' & ys & r' & ys' & A1 & A2 & (B1 & B2 & B3 & B4) & A4 & A5 & A6 & A7 & A8).
  - split; [reflexivity|]. split; [reflexivity|]. split; [apply bn_eqv_refl|reflexivity].
  - exact Hok.
  - exact HP.
  - exact HC.
  - exact Hd.
  - exists s', ys, r', ys'. repeat (split; [assumption|]). exact A8.
Qed.

(** With one value per channel both refuse to train. *)
Theorem C49_single_value_raises sq rsq g W b n delay x :
  per_channel (length (bn_mean n)) 1 g -> (0 < length (bn_mean n))%nat ->
  forward sq rsq idw idb g true x (mkSfb W b n delay false) = Raise ZeroDivisionError /\
  rstep rsq g (STrain x) (mkPair W b n) = Raise ValueError.
Proof.
  intros HP HC. split.
  - unfold forward, batch_stats. cbn [s_frozen s_bn s_w s_b].
    replace (Qeq_bool _ 1) with true; [reflexivity|]. symmetry. apply Qeq_bool_iff. exact (cnt_k g W None x n 1 HP HC).
  - cbn [rstep r_w r_b r_bn]. unfold bn_train_ref.
    replace (existsb _ _) with true; [reflexivity|]. symmetry. apply existsb_exists. exists 0%nat. split; [apply in_seq; lia|].
    rewrite (filter_len_layer g W b x 0 _ 1 HP HC). reflexivity.
Qed.

(** The training forward that passes the delay freezes the module; what it leaves behind is the
    evaluation-mode function of the reference pair after the same training step: every later
    forward, in either mode, computes it. *)
Theorem C49_freezing_step sq rsq g k W b n delay x z tr :
  roots_ok sq rsq -> (2 <= k)%nat -> bn_ok n -> per_channel (length (bn_mean n)) k g -> (0 < length (bn_mean n))%nat ->
  (delay < bn_batches n + 1)%Z ->
  exists s y r y', forward sq rsq idw idb g true x (mkSfb W b n delay false) = Ok (s, y) /\ s_frozen s = true /\
    rstep rsq g (STrain x) (mkPair W b n) = Ok (r, y') /\
    exists v, forward sq rsq idw idb g tr z s = Ok (s, v) /\ teq v (bn_eval rsq g (r_bn r) (layer g W b z)).
Proof.
  intros Hr Hk Hok HP HC Hd.
  destruct (train_sim sq rsq g k Hr (mkSfb W b n (bn_batches n + 1)%Z false) (mkPair W b n) x) as (s1 & y1 & r & y' & A1 & A2 & A3 & A4 & A5 & A6 & A7 & A8); auto.
  { split; [reflexivity|]. split; [reflexivity|]. split; [apply bn_eqv_refl|reflexivity]. }
  { cbn. lia. }
  destruct (forward sq rsq idw idb g true x (mkSfb W b n delay false)) as [[s y]|er] eqn:E.
  2:{ exfalso. unfold forward, batch_stats in A1, E. cbn [s_frozen s_bn s_w s_b s_delay] in A1, E. destruct (Qeq_bool _ 1); [discriminate A1|discriminate E]. }
  assert (Es : s = freeze rsq (mkSfb (s_w s1) (s_b s1) (s_bn s1) delay false)).
  { unfold forward, batch_stats in A1, E. cbn [s_frozen s_bn s_w s_b s_delay] in A1, E. destruct (Qeq_bool _ 1); [discriminate A1|].
    replace (delay <? bn_batches n + 1)%Z with true in E by (symmetry; apply Z.ltb_lt; exact Hd).
    replace (bn_batches n + 1 <? bn_batches n + 1)%Z with false in A1 by (symmetry; apply Z.ltb_irrefl).
    cbn [bind] in A1, E.
    apply (f_equal (fun r => match r with Ok p => fst p | _ => s end)) in E. apply (f_equal (fun r => match r with Ok p => fst p | _ => s1 end)) in A1.
    cbn [fst] in A1, E. rewrite <- A1, <- E. reflexivity. }
  exists s, y, r, y'. split; [reflexivity|]. split; [rewrite Es; reflexivity|]. split; [exact A2|].
  destruct A3 as (B1 & B2 & B3 & _).
  assert (W1 : s_w s1 = W /\ s_b s1 = b). { cbn [rstep] in A2. apply bind_ok in A2. destruct A2 as (q & _ & A2). injection A2. intros _ <-. split; [exact B1|exact B2]. }
  destruct W1 as [W1 W2].
  destruct (freeze_out sq rsq g tr z (mkSfb (s_w s1) (s_b s1) (s_bn s1) delay false)) as (v & V1 & V2).
  { cbn [s_bn]. rewrite A6. intros p Hp. apply HP. exact Hp. }
  exists v. rewrite Es. split; [exact V1|]. eapply teq_trans; [exact V2|]. cbn [s_bn s_w s_b]. rewrite W1, W2.
  apply (bn_eval_eqv sq); [exact Hr|exact B3|apply teq_refl].
Qed.

(** Finding: the output of that very step is wrong: the weight it reads has just been folded in
    place, so gamma / sigma is applied twice. *)
Definition ex_g : geom := [(0%nat, [Some 0%nat]); (0%nat, [Some 1%nat])].
Definition ex_n : bn := mkBn true [4 # 1] [0] [0] [1] (3 # 1) (Some 0) 0.
Definition ex_root (v : Q) : Q := 2 # 1.
Definition ex_rroot (v : Q) : Q := 1 # 2.
Theorem C49_freezing_step_output_refuted :
  exists sq rsq g W b n delay x s y r y', roots_ok sq rsq /\ bn_ok n /\ per_channel (length (bn_mean n)) 2 g /\
    (delay < bn_batches n + 1)%Z /\
    forward sq rsq idw idb g true x (mkSfb W b n delay false) = Ok (s, y) /\
    rstep rsq g (STrain x) (mkPair W b n) = Ok (r, y') /\ ~ teq y y'.
Proof.
  exists ex_root, ex_rroot, ex_g, [[1]], None, ex_n, 0%Z, [1; -(1)].
  assert (HR : roots_ok ex_root ex_rroot) by (split; [intros; reflexivity|intros v _ E; discriminate E]).
  assert (HB : bn_ok ex_n) by (unfold bn_ok, ex_n; cbn; repeat split; try lia; try lra; repeat constructor; discriminate).
  assert (HP : per_channel (length (bn_mean ex_n)) 2 ex_g).
  { split; [intros p Hp; destruct Hp as [<-|[<-|[]]]; cbn; lia|]. split; [intros c Hc; cbn in Hc; replace c with 0%nat by lia; reflexivity|reflexivity]. }
  destruct (forward ex_root ex_rroot idw idb ex_g true [1; -(1)] (mkSfb [[1]] None ex_n 0 false)) as [[s y]|e] eqn:E; [|vm_compute in E; discriminate E].
  destruct (rstep ex_rroot ex_g (STrain [1; -(1)]) (mkPair [[1]] None ex_n)) as [[r y']|e] eqn:E'; [|vm_compute in E'; discriminate E'].
  exists s, y, r, y'. split; [exact HR|]. split; [exact HB|]. split; [exact HP|]. split; [cbn; lia|]. split; [reflexivity|]. split; [reflexivity|].
  apply (f_equal (fun r => match r with Ok p => snd p | _ => [] end)) in E, E'. cbn [snd] in E, E'. subst y y'.
  intro H. pose proof (teq_nth _ _ 0%nat H) as H0. vm_compute in H0. discriminate H0.
Qed.

(** Non-vacuity of C49: a two-channel batch, one training and one evaluation step. *)
Example C49_example : exists ops, trains ops = 2%Z /\ exists s ys, srun ex_root ex_rroot ex_g ops (mkSfb [[1]] (Some [5 # 1]) ex_n 10 false) = Ok (s, ys) /\
  teq (nth 2 ys []) [2 # 1; -(2) # 1] /\ bn_batches (s_bn s) = 2%Z.
Proof.
  exists [STrain [1; 3 # 1]; SUpdate [[1]] (Some [7 # 1]) [4 # 1] [0]; STrain [1; - (1)]].
  split; [reflexivity|]. eexists. eexists. split; [vm_compute; reflexivity|]. split; [repeat constructor|reflexivity].
Qed.

(** ** C50: fuse_modules *)

(** Every fused sequence consists of modules that are consecutive in the adjacency map, one for
    each entry of types_sequence and of that type. *)
Theorem C50_fused_consecutive {T} (typ : string -> option T) tseq adj : tseq <> [] -> forall sg, In sg (fused_sequences typ tseq adj) ->
  exists pre seg post, adj = pre ++ seg ++ post /\ map fst seg = sg /\ length seg = length tseq /\
    forall i, (i < length tseq)%nat -> exists t, typ (fst (nth i seg (EmptyString, []))) = Some t /\ nth i tseq (fun _ => false) t = true.
Proof.
  intros Hts sg Hin. apply (fused_inv typ tseq Hts adj [] [] []); [exists []; reflexivity|destruct tseq; [congruence|simpl; lia]|intros i Hi; simpl in Hi; lia|intros sg' []|exact Hin].
Qed.

(** For two disjoint types, every consecutive pair of matching modules whose first module has at
    most one successor is fused; and a fused pair's first module has at most one successor unless
    it directly follows a module of the first type. *)
Theorem C50_pairs_complete {T} (typ : string -> option T) p0 p1 adj pre a sa b sb post ta tb :
  (forall t, p0 t = true -> p1 t = false) -> adj = pre ++ (a, sa) :: (b, sb) :: post ->
  typ a = Some ta -> p0 ta = true -> typ b = Some tb -> p1 tb = true -> (length sa <= 1)%nat ->
  In [a; b] (fused_sequences typ [p0; p1] adj).
Proof.
  intros Hd E Ha Ha' Hb Hb' Hl. apply (pair_complete typ p0 p1 adj pre (a, sa) (b, sb) post Hd E); [exists ta; auto|exists tb; auto|exact Hl].
Qed.
Theorem C50_pairs_sound {T} (typ : string -> option T) (p0 p1 : T -> bool) adj sg :
  In sg (fused_sequences typ [p0; p1] adj) ->
  exists pre a sa b sb post ta tb, adj = pre ++ (a, sa) :: (b, sb) :: post /\ sg = [a; b] /\
    typ a = Some ta /\ p0 ta = true /\ typ b = Some tb /\ p1 tb = true /\
    ((length sa <= 1)%nat \/ exists pre' z sz tz, pre = pre' ++ [(z, sz)] /\ typ z = Some tz /\ p0 tz = true).
Proof.
  intro Hin. destruct (pair_sound typ p0 p1 adj [] [] [] (or_introl eq_refl) (fun sg H => match H with end) sg Hin)
    as (pre & [a sa] & [b sb] & post & Ea & -> & ((ta & Ha & Ha') & Hs) & (tb & Hb & Hb')).
  exists pre, a, sa, b, sb, post, ta, tb. repeat (split; [solve [assumption|reflexivity]|]).
  destruct Hs as [Hs|(pre' & [z sz] & -> & (tz & Hz & Hz'))]; [left; exact Hs|right; exists pre', z, sz, tz; auto].
Qed.

(** fold_batch_norms preserves the evaluation of the whole graph: for every graph in execution order
    whose layer/batch-norm neighbours are really connected (and no layer with several readers hides
    behind another layer), when folding succeeds every node's value is unchanged, except the own
    output of a layer directly followed by a batch-norm; names and connections are unchanged. *)
Theorem C50_fold_preserves_graph sq rsq inference gr gr' e :
  roots_ok sq rsq -> NoDup (map nd_name gr) -> types_ok gr -> ops_proper gr -> well_connected gr -> no_hidden_split gr ->
  fold_batch_norms rsq inference gr = Ok gr' ->
  map nd_name gr' = map nd_name gr /\ map nd_ins gr' = map nd_ins gr /\
  forall k, (forall a b, just_before gr a b -> layer_node a -> bn_node b -> k <> nd_name a) ->
    teq (eget (eval_graph sq rsq gr e) k) (eget (eval_graph sq rsq gr' e) k).
Proof.
  intros Hr Hnd Ht Hp Hwc Hns H. unfold fold_batch_norms in H.
  destruct (existsb _ gr); [|injection H; intros <-; split; [reflexivity|]; split; [reflexivity|intros; apply teq_refl]].
  assert (HI : Inv gr gr).
  { split; [reflexivity|]. split; [apply Forall_forall; intros nd Hin f Ef; apply (Hp nd f Hin Ef)|].
    intros p a b q E _ _. exists p, a, b, q. split; [exact E|]. split; [reflexivity|right; auto]. }
  destruct (fold_pairs sq rsq Hr inference gr e Hnd Ht Hwc Hns _ gr gr' HI (fused_pairs gr Hnd Ht) H) as ((S1 & _ & _) & K & HK & HA).
  split; [apply names_sig; exact S1|]. split; [apply (f_equal (map snd)) in S1; rewrite !map_map in S1; exact S1|].
  intros k Hk. apply HA. intro Hin. destruct (HK k Hin) as (a & b & J & La & Lb & E). exact (Hk a b J La Lb E).
Qed.

Lemma find_set_op gr k o k' nd : find_node gr k' = Some nd ->
  find_node (set_op gr k o) k' = Some (if String.eqb k k' then with_op nd o else nd).
Proof.
  unfold find_node, set_op. induction gr as [|n gr IH]; cbn [find map]; [discriminate|].
  destruct (String.eqb_spec k (nd_name n)) as [E|E]; cbn [nd_name]; destruct (String.eqb_spec k' (nd_name n)) as [E'|E'].
  - intro H. injection H. intros <-. rewrite E, E', String.eqb_refl. reflexivity.
  - exact IH.
  - intro H. injection H. intros <-. destruct (String.eqb_spec k k'); [congruence|reflexivity].
  - exact IH.
Qed.
Lemma fuse_keeps_id rsq inf gr sg gr' k nd : fuse_pair rsq inf gr sg = Ok gr' -> find_node gr k = Some nd -> nd_op nd = NId ->
  exists nd', find_node gr' k = Some nd' /\ nd_op nd' = NId.
Proof.
  intros H Hf Ho. assert (Hsame : Ok gr = Ok gr' -> exists nd', find_node gr' k = Some nd' /\ nd_op nd' = NId) by (intro E; injection E; intros <-; eauto).
  unfold fuse_pair in H. destruct sg as [|k1 [|k2 [|k3 sg]]]; try (apply Hsame; exact H).
  destruct (find_node gr k1) as [n1|] eqn:F1; [|apply Hsame; exact H]. destruct (find_node gr k2) as [n2|] eqn:F2; [|apply Hsame; exact H].
  destruct (nd_op n1) eqn:O1; try (apply Hsame; exact H). destruct (nd_op n2) eqn:O2; try (apply Hsame; exact H).
  apply bind_ok in H. destruct H as ([s|] & _ & H); [|apply Hsame; exact H]. injection H. intros <-.
  rewrite (find_set_op _ k2 NId k (if String.eqb k1 k then with_op nd (if inf then NLayer t g (s_w s) (s_b s) else NSim g s) else nd)) by (apply find_set_op; exact Hf).
  eexists. split; [reflexivity|]. destruct (String.eqb_spec k2 k); [reflexivity|]. destruct (String.eqb_spec k1 k); [|exact Ho]. subst k1. rewrite Hf in F1. injection F1. intros <-. congruence.
Qed.
Lemma foldM_keeps_id rsq inf sgs : forall gr gr' k nd, foldM (fuse_pair rsq inf) sgs gr = Ok gr' -> find_node gr k = Some nd -> nd_op nd = NId ->
  exists nd', find_node gr' k = Some nd' /\ nd_op nd' = NId.
Proof.
  induction sgs as [|sg sgs IH]; intros gr gr' k nd H Hf Ho; [injection H; intros <-; eauto|]. cbn [foldM] in H. apply bind_ok in H. destruct H as (g1 & H1 & H2).
  destruct (fuse_keeps_id rsq inf gr sg g1 k nd H1 Hf Ho) as (nd1 & F1 & O1). eapply IH; eauto.
Qed.

(** Folding does remove the batch-norms it should: one that tracks its statistics and directly
    follows a layer with at most one reader is an identity afterwards. *)
Theorem C50_fold_removes_bn sq rsq inference gr gr' a b t g W bb tb g' n :
  roots_ok sq rsq -> NoDup (map nd_name gr) -> types_ok gr -> ops_proper gr -> well_connected gr -> no_hidden_split gr ->
  fold_batch_norms rsq inference gr = Ok gr' -> just_before gr a b -> nd_module a = true -> nd_module b = true ->
  nd_op a = NLayer t g W bb -> nd_op b = NBn tb true g' n -> (length (succs gr (nd_name a)) <= 1)%nat ->
  exists nd, find_node gr' (nd_name b) = Some nd /\ nd_op nd = NId.
Proof.
  intros Hr Hnd Ht Hp Hwc Hns H (pre & post & Eg) Ma Mb Oa Ob Hl.
  assert (Ia : In a gr) by (rewrite Eg; apply in_or_app; right; left; reflexivity). assert (Ib : In b gr) by (rewrite Eg; apply in_or_app; right; right; left; reflexivity).
  pose proof (Ht a Ia) as Ta. pose proof (Ht b Ib) as Tb. rewrite Oa in Ta. rewrite Ob in Tb. destruct Tb as [Tb Tf].
  assert (Eg2 : gr = (pre ++ [a]) ++ b :: post) by (rewrite <- app_assoc; exact Eg).
  assert (Hfa : find_node gr (nd_name a) = Some a) by (apply (find_split gr pre a (b :: post) Hnd Eg)).
  assert (Hfb : find_node gr (nd_name b) = Some b) by (apply (find_split gr (pre ++ [a]) b post Hnd Eg2)).
  unfold fold_batch_norms in H. replace (existsb _ gr) with true in H by (symmetry; apply existsb_exists; exists b; split; [exact Ib|rewrite Mb, Ob; exact Tb]).
  assert (HIn : In [nd_name a; nd_name b] (fused_sequences (node_type gr) [is_foldable; is_batchnorm] (adj_of gr))).
  { apply (C50_pairs_complete (node_type gr) is_foldable is_batchnorm (adj_of gr) (map (fun nd => (nd_name nd, succs gr (nd_name nd))) pre) (nd_name a) (succs gr (nd_name a)) (nd_name b) (succs gr (nd_name b))
       (map (fun nd => (nd_name nd, succs gr (nd_name nd))) post) t tb); auto.
    - intros [] E; try discriminate; reflexivity.
    - exact (eq_trans (f_equal (map (fun nd => (nd_name nd, succs gr (nd_name nd)))) Eg) (map_app _ pre (a :: b :: post))).
    - unfold node_type. rewrite Hfa, Ma, Oa. reflexivity.
    - unfold node_type. rewrite Hfb, Mb, Ob. reflexivity. }
  pose proof (fused_pairs gr Hnd Ht) as Hpairs.
  assert (HI : Inv gr gr).
  { split; [reflexivity|]. split; [apply Forall_forall; intros nd Hin f Ef; apply (Hp nd f Hin Ef)|].
    intros p a0 b0 q E _ _. exists p, a0, b0, q. split; [exact E|]. split; [reflexivity|right; auto]. }
  revert HIn Hpairs H. generalize (fused_sequences (node_type gr) [is_foldable; is_batchnorm] (adj_of gr)). intros sgs HIn Hpairs H.
  apply in_split in HIn. destruct HIn as (s1 & s2 & ->). rewrite foldM_app in H. apply bind_ok in H. destruct H as (g1 & H1 & H2).
  cbn [foldM] in H2. apply bind_ok in H2. destruct H2 as (g2 & H2 & H3).
  destruct (fold_pairs sq rsq Hr inference gr [] Hnd Ht Hwc Hns s1 gr g1 HI (fun sg Hs => Hpairs sg (in_or_app _ _ _ (or_introl Hs))) H1) as (I1 & _).
  enough (Hgoal : exists nd, find_node g2 (nd_name b) = Some nd /\ nd_op nd = NId) by (destruct Hgoal as (nd & F & O); eapply foldM_keeps_id; eauto).
  assert (La : layer_node a) by (split; [exact Ma|eauto 10]). assert (Lb : bn_node b) by (split; [exact Mb|eauto 10]).
  destruct I1 as (S1 & S2 & S3). destruct (S3 pre a b post Eg La Lb) as (p' & a' & b' & q' & Ei & Hlen & Hc).
  assert (S1' := S1). rewrite Eg in S1'. destruct (sig_split g1 p' a' b' q' pre a b post S1' Ei Hlen) as (N1 & N2 & _ & _).
  assert (Hnd1 : NoDup (map nd_name g1)) by (rewrite (names_sig g1 gr S1); exact Hnd).
  pose proof (find_split g1 p' a' (b' :: q') Hnd1 Ei) as Fa. rewrite N1 in Fa.
  assert (Ei2 : g1 = (p' ++ [a']) ++ b' :: q') by (rewrite <- app_assoc; exact Ei).
  pose proof (find_split g1 (p' ++ [a']) b' q' Hnd1 Ei2) as Fb. rewrite N2 in Fb.
  destruct Hc as [Hid|[-> ->]]; [eapply fuse_keeps_id; eauto|].
  cbn [fuse_pair] in H2. rewrite Fa, Fb, Oa, Ob in H2. apply bind_ok in H2. destruct H2 as (r & Hfold & H2).
  destruct r as [s|].
  - injection H2. intros <-. rewrite (find_set_op _ (nd_name b) NId (nd_name b) (if String.eqb (nd_name a) (nd_name b) then with_op b (if inference then NLayer t g (s_w s) (s_b s) else NSim g s) else b))
      by (apply find_set_op; exact Fb). rewrite String.eqb_refl. eexists. split; reflexivity.
  - exfalso. unfold fold_bn in Hfold. pose proof (C34_constructor rsq t tb true W bb n freeze_bn_delay_default) as Hcs.
    destruct t, tb; try congruence; rewrite Hcs in Hfold; discriminate Hfold.
Qed.

(** Findings.  The scan never looks at which node follows which: a convolution and a batch-norm that
    merely execute one after the other are fused although the batch-norm reads another tensor; and a
    layer with several readers is fused when it directly follows another layer.  Both change the
    result of the graph. *)
Definition nl name W ins := mkNode name (NLayer TLinear [(0%nat, [Some 0%nat])] W None) true ins.
Definition nb name ins := mkNode name (NBn TBn1 true [(0%nat, [Some 0%nat])] (mkBn true [2 # 1] [1] [0] [3 # 1] 1 (Some 0) 0)) true ins.
Definition nsub name ins := mkNode name (NOther (fun l => map2 Qminus (nth 0 l []) (nth 1 l []))) false ins.
Local Open Scope string_scope.
Definition gr_unconnected : graph := [nl "fc" [[1]] ["x"]; nb "bn" ["x"]; nsub "out" ["bn"; "fc"]].
Definition gr_split : graph := [nl "fc0" [[1]] ["x"]; nl "fc" [[3 # 1]] ["fc0"]; nb "bn" ["fc"]; nsub "out" ["bn"; "fc"]].

Theorem C50_unconnected_fused_refuted :
  exists gr', fold_batch_norms ex_rroot true gr_unconnected = Ok gr' /\ succs gr_unconnected "fc" = ["out"] /\
    ~ teq (eget (eval_graph ex_root ex_rroot gr_unconnected [("x", [1])]) "out") (eget (eval_graph ex_root ex_rroot gr' [("x", [1])]) "out").
Proof.
  eexists. split; [vm_compute; reflexivity|]. split; [reflexivity|]. intro H. pose proof (teq_nth _ _ 0%nat H) as H0. vm_compute in H0. discriminate H0.
Qed.
Theorem C50_split_fused_refuted :
  exists gr', fold_batch_norms ex_rroot true gr_split = Ok gr' /\ length (succs gr_split "fc") = 2%nat /\
    ~ teq (eget (eval_graph ex_root ex_rroot gr_split [("x", [1])]) "out") (eget (eval_graph ex_root ex_rroot gr' [("x", [1])]) "out").
Proof.
  eexists. split; [vm_compute; reflexivity|]. split; [reflexivity|]. intro H. pose proof (teq_nth _ _ 0%nat H) as H0. vm_compute in H0. discriminate H0.
Qed.
(** Without the other layer in front, the same split is respected. *)
Example C50_split_respected : fold_batch_norms ex_rroot true [nl "fc" [[3 # 1]] ["x"]; nb "bn" ["fc"]; nsub "out" ["bn"; "fc"]] =
  Ok [nl "fc" [[3 # 1]] ["x"]; nb "bn" ["fc"]; nsub "out" ["bn"; "fc"]].
Proof. reflexivity. Qed.

(** The scan can miss a match when a type occurs twice in types_sequence: after A A A B, the
    sequence A A B is present but nothing is fused. *)
Theorem C50_overlapping_match_missed_refuted :
  exists (typ : string -> option nat) tseq adj pre seg post,
    adj = (pre ++ seg ++ post)%list /\ length seg = length tseq /\ Forall (fun e => length (snd e) = 1%nat) adj /\
    (forall i, (i < length tseq)%nat -> exists t, typ (fst (nth i seg ("", []))) = Some t /\ nth i tseq (fun _ => false) t = true) /\
    fused_sequences typ tseq adj = [].
Proof.
  exists (fun k => if String.eqb k "b" then Some 1%nat else Some 0%nat), [Nat.eqb 0; Nat.eqb 0; Nat.eqb 1],
    [("a1", ["a2"]); ("a2", ["a3"]); ("a3", ["b"]); ("b", ["o"])], [("a1", ["a2"])], [("a2", ["a3"]); ("a3", ["b"]); ("b", ["o"])], [].
  split; [reflexivity|]. split; [reflexivity|]. split; [repeat constructor|]. split; [|reflexivity].
  intros i Hi. destruct i as [|[|[|i]]]; [exists 0%nat|exists 0%nat|exists 1%nat|simpl in Hi; lia]; auto.
Qed.

(** Non-vacuity of C50: a chain x -> fc -> bn -> fc2 -> out meets all hypotheses and is folded. *)
Definition gr_chain : graph := [nl "fc" [[3 # 1]] ["x"]; nb "bn" ["fc"]; nl "fc2" [[5 # 1]] ["bn"]].
Example C50_example : well_connected gr_chain /\ no_hidden_split gr_chain /\ types_ok gr_chain /\
  exists gr', fold_batch_norms ex_rroot true gr_chain = Ok gr' /\ (exists nd, find_node gr' "bn" = Some nd /\ nd_op nd = NId) /\
  teq (eget (eval_graph ex_root ex_rroot gr' [("x", [2 # 1])]) "fc2") [35 # 1].
Proof.
  split; [|split; [|split]].
  - intros a b (pre & post & E) La Lb. destruct pre as [|x [|y [|z pre]]]; cbn in E; injection E; intros; subst.
    + split; [reflexivity|]. intros ta g W bb tb tr g' n Ea Eb. cbn in Ea, Eb. injection Ea. injection Eb. intros. subst. split; [reflexivity|]. intros p [<-|[]]. cbn. lia.
    + destruct Lb as (_ & t & tr & g & n & Eb & _). discriminate Eb.
    + discriminate.
    + destruct pre; discriminate.
  - intros z a b (pre & post & E) _ _ La _. destruct pre as [|x [|y [|w pre]]]; cbn in E; injection E; intros; subst; try discriminate.
    + destruct La as (_ & t & g & W & bb & Ea & _). discriminate Ea.
    + vm_compute. lia.
    + destruct pre; discriminate.
  - intros nd [<-|[<-|[<-|[]]]]; cbn; auto. split; [reflexivity|discriminate].
  - eexists. split; [vm_compute; reflexivity|]. split; [eexists; split; reflexivity|]. vm_compute. repeat constructor.
Qed.

Print Assumptions C34_eval_forward.
Print Assumptions C34_freeze_preserves.
Print Assumptions C34_constructor.
Print Assumptions C34_fold_bn.
Print Assumptions C34_untracked_not_folded.
Print Assumptions C34_frozen_bn_folded_twice_refuted.
Print Assumptions C34_frozen_bn_attribute_error.
Print Assumptions C49_training_history_equiv.
Print Assumptions C49_single_value_raises.
Print Assumptions C49_freezing_step.
Print Assumptions C49_freezing_step_output_refuted.
Print Assumptions C50_fused_consecutive.
Print Assumptions C50_pairs_complete.
Print Assumptions C50_pairs_sound.
Print Assumptions C50_fold_preserves_graph.
Print Assumptions C50_fold_removes_bn.
Print Assumptions C50_unconnected_fused_refuted.
Print Assumptions C50_split_fused_refuted.
Print Assumptions C50_overlapping_match_missed_refuted.
