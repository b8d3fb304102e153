(** C23 (findings and example) and C56: replaying recipes on a fresh model. *)
From Coq Require Import String List ZArith QArith Bool Arith Lia.
From Verif Require Import Base Lists StructModel ThinModel ThinSpec ThinProofs ThinExecProofs PropertiesThin.
Import ListNotations.
Local Open Scope nat_scope.

Definition q (n : nat) : Q := inject_Z (Z.of_nat n).
Definition ramp (n : nat) : list Q := map q (seq 0 n).
Definition lin_dir := D4 1 [1] [1; 2; 2; 2] [1; 4].
Definition lin_p (g m : option nd) := mkParam (mkND [1; 8] (ramp 8)) g true m.

(** C23 (finding): the mask of a linear layer behind a convolution is not cut like its weight: the weight keeps 4
    columns, the mask the single column numbered like the channel. *)
Theorem C23_linear_mask_refuted :
  forall junk, let k := ("fc", "weight")%string in
  exists ps ms p', exec_param junk None false ([(k, lin_p None None)], [(k, Some (mkND [1; 8] (ramp 8)))]) (k, [lin_dir]) = Ok (ps, ms) /\
  pget ps k = Some p' /\ p_data p' = mkND [1; 4] [q 4; q 5; q 6; q 7] /\ pget ms k = Some (Some (mkND [1; 1] [q 1])).
Proof. intros junk k. eexists _, _, _. split; [reflexivity|]. split; [reflexivity|]. split; reflexivity. Qed.

(** C23 (finding): its SGD momentum buffer keeps the single column numbered like the channel and is then
    enlarged with uninitialized memory. *)
Theorem C23_linear_momentum_refuted :
  forall junk, let t := mkND [1; 8] (ramp 8) in
  exists p', thin_param junk (Some true) (lin_p (Some t) (Some t)) lin_dir = Ok p' /\
  p_grad p' = Some (mkND [1; 4] [q 4; q 5; q 6; q 7]) /\ p_mom p' = Some (mkND [1; 4] [q 1; junk 1; junk 2; junk 3]).
Proof. intros junk t. eexists. split; [reflexivity|]. split; reflexivity. Qed.

(** C23 (finding): executing the recipe of a linear layer a second time raises RuntimeError. *)
Theorem C23_linear_again_refuted :
  forall junk, exists p', thin_param junk None (lin_p None None) lin_dir = Ok p' /\ thin_param junk None p' lin_dir = Raise RuntimeError.
Proof. intro junk. eexists. split; reflexivity. Qed.

(** C23 (finding): without a gradient (e.g. right after resuming) the momentum buffer keeps the old shape. *)
Theorem C23_momentum_without_gradient_refuted :
  forall junk, let t := mkND [2; 2] (ramp 4) in
  exists p', thin_param junk (Some true) (mkParam t None true (Some t)) (D2 0 [1]) = Ok p' /\
  p_data p' = mkND [1; 2] [q 2; q 3] /\ p_mom p' = Some t.
Proof. intros junk t. eexists. split; [reflexivity|]. split; reflexivity. Qed.

(** C23 (finding): two different selections of equal size along one dimension: the second is silently ignored. *)
Theorem C23_same_dimension_refuted :
  forall junk, let t := mkND [3] (ramp 3) in
  exists p1 p2, thin_param junk None (mkParam t None true None) (D2 0 [0; 1]) = Ok p1 /\ thin_param junk None p1 (D2 0 [1; 2]) = Ok p2 /\
  p_data p2 = mkND [2] [q 0; q 1].
Proof. intros junk t. eexists _, _. split; [reflexivity|]. split; reflexivity. Qed.

Local Open Scope string_scope.
Definition ex_m : mstate :=
  mkMs [("conv1", mkModule KConv [("in_channels", AInt 1); ("out_channels", AInt 3); ("groups", AInt 1)]);
        ("bn1", mkModule KBn [("num_features", AInt 3); ("running_mean", ATen (mkND [3] (ramp 3))); ("running_var", ATen (mkND [3] (ramp 3)))])]
       [(("conv1", "weight"), mkParam (mkND [3; 2; 1; 1] (ramp 6)) (Some (mkND [3; 2; 1; 1] (ramp 6))) true (Some (mkND [3; 2; 1; 1] (ramp 6))));
        (("bn1", "weight"), mkParam (mkND [3] (ramp 3)) None true None)].
Definition ex_r : recipe :=
  mkRecipe [("conv1", [("out_channels", MSet 2); ("in_channels", MSet 1)]); ("bn1", [("num_features", MSet 2); ("running_mean", MSel 0 [0; 2])])]
           [(("conv1", "weight"), [D2 0 [0; 2]; D2 1 [1]]); (("bn1", "weight"), [D2 0 [0; 2]])].
Definition ex_masks : pdict (option nd) := [(("conv1", "weight"), Some (mkND [3; 2; 1; 1] (ramp 6))); (("bn1", "weight"), None)].
Example C23_ex :
  recipe_fits (Some true) false ex_m ex_masks ex_r /\
  forall junk, exists m' ms', exec_recipe junk (Some true) false ex_m ex_masks ex_r = Ok (m', ms') /\
  option_map p_mom (pget (ms_params m') ("conv1", "weight")) = Some (Some (mkND [2; 1; 1; 1] [q 1; q 5])) /\
  pget ms' ("conv1", "weight") = Some (Some (mkND [2; 1; 1; 1] [q 1; q 5])).
Proof.
  split.
  - split; [discriminate|]. split; [repeat constructor; cbn; intuition discriminate|]. split.
    + intros k ds [I|[I|[]]]; injection I as <- <-; eexists; (split; [reflexivity|]); (split; [|split]).
      * split; [reflexivity|]. split; [intros t [= <-]; split; [split; reflexivity|discriminate]|intros t [= <-] _; split; reflexivity].
      * split; [repeat constructor; cbn; intuition discriminate|]. intros d [<-|[<-|[]]]; (split; [exact I|]); (split; [cbn; lia|]); cbn.
        -- exists (fun i => negb (Nat.eqb i 1)). reflexivity.
        -- exists (fun i => Nat.eqb i 1). reflexivity.
      * intros _. eexists. split; [reflexivity|]. intros t [= <-]. split; reflexivity.
      * split; [reflexivity|]. split; discriminate.
      * split; [repeat constructor; cbn; intuition discriminate|]. intros d [<-|[]]; (split; [exact I|]); (split; [cbn; lia|]); cbn.
        exists (fun i => negb (Nat.eqb i 1)). reflexivity.
      * intros _. eexists. split; [reflexivity|]. discriminate.
    + split; [repeat constructor; cbn; intuition discriminate|].
      intros n md [I|[I|[]]]; injection I as <- <-; eexists; (split; [reflexivity|]); (split; [repeat constructor; cbn; intuition discriminate|]);
        intros e [<-|[<-|[]]]; try exact I. cbn. eexists. split; [reflexivity|]. split; [reflexivity|]. split; [cbn; lia|]. exists (fun i => negb (Nat.eqb i 1)). reflexivity.
  - intro junk. eexists _, _. split; [reflexivity|]. split; reflexivity.
Qed.
Local Close Scope string_scope.

(** * C56: replaying the recipes of a checkpoint *)

(** the same architecture: same modules with the same integer attributes, same parameters, all tensors of equal shapes *)
Definition same_shape (a b : nd) : Prop := nd_shape a = nd_shape b /\ wf_nd a /\ wf_nd b.
Definition same_attr (a b : string * attr) : Prop :=
  fst a = fst b /\ match snd a, snd b with AInt x, AInt y => x = y | ATen s, ATen t => same_shape s t | _, _ => False end.
Definition same_module (a b : string * module) : Prop :=
  fst a = fst b /\ m_kind (snd a) = m_kind (snd b) /\ Forall2 same_attr (m_attrs (snd a)) (m_attrs (snd b)).
Definition same_param (a b : pname * param) : Prop := fst a = fst b /\ same_shape (p_data (snd a)) (p_data (snd b)).
Definition same_arch (m m' : mstate) : Prop :=
  Forall2 same_module (ms_mods m) (ms_mods m') /\ Forall2 same_param (ms_params m) (ms_params m').
(** a model on which no backward pass has run *)
Definition no_grads (m : mstate) : Prop := forall k p, In (k, p) (ms_params m) -> p_grad p = None.

Lemma sel_data_length : forall sh dim idx d, dim < length sh -> length d = numel sh -> (forall j, In j idx -> j < nth dim sh 0) ->
  length (sel_data sh dim idx d) = numel (set_nth sh dim (length idx)).
Proof.
  induction sh as [|n sh IH]; intros dim idx d L E J; simpl in L; [lia|]. rewrite numel_cons in E. destruct dim; simpl in *.
  - rewrite (flat_map_length' _ (numel sh)); auto. intros j Hj. eapply slice_len_le; eauto.
  - rewrite (flat_map_length' _ (numel (set_nth sh dim (length idx)))), seq_length; auto. intros j Hj. apply in_seq in Hj. apply IH; auto; [lia|]. eapply slice_len_le; eauto. lia.
Qed.
Lemma size_ok t k n : size t k = Ok n -> k < length (nd_shape t) /\ nth k (nd_shape t) 0 = n.
Proof.
  unfold size. destruct (nth_error (nd_shape t) k) eqn:E; [|discriminate]. intros [= ->]. split; [apply nth_error_Some; congruence|]. apply nth_error_nth with (d := 0) in E. auto.
Qed.
Lemma index_select_same t t' k idx r : same_shape t t' -> index_select t k idx = Ok r -> exists r', index_select t' k idx = Ok r' /\ same_shape r r'.
Proof.
  intros (S & W & W'). unfold index_select. assert (Z : size t k = size t' k) by (unfold size; rewrite S; auto). rewrite <- Z.
  destruct (size t k) as [n|] eqn:E; cbn [bind]; [|discriminate]. apply size_ok in E as [L E].
  destruct (forallb (fun j => j <? n) idx) eqn:F; [|discriminate]. intros [= <-]. eexists. split; [reflexivity|].
  assert (J : forall j, In j idx -> j < nth k (nd_shape t) 0) by (intros j Hj; rewrite E; apply Nat.ltb_lt; rewrite forallb_forall in F; auto).
  unfold same_shape, wf_nd in *. cbn [nd_shape nd_data]. split; [rewrite S; auto|]. split.
  - apply sel_data_length; auto.
  - rewrite <- S. apply sel_data_length; auto. congruence.
Qed.
Lemma view_same t t' sh r : same_shape t t' -> view t sh = Ok r -> exists r', view t' sh = Ok r' /\ same_shape r r'.
Proof.
  intros (S & W & W'). unfold view, wf_nd in *. destruct (Nat.eqb_spec (length (nd_data t)) (numel sh)); [|discriminate]. intros [= <-].
  replace (length (nd_data t')) with (numel sh) by congruence. rewrite Nat.eqb_refl. eexists. split; [reflexivity|]. unfold same_shape, wf_nd. cbn [nd_shape nd_data]. repeat split; congruence.
Qed.
Lemma size_same t t' k : same_shape t t' -> size t k = size t' k.
Proof. intros (S & _). unfold size. rewrite S. auto. Qed.

Ltac inv_ok H := match type of H with bind ?m _ = Ok _ => let x := fresh "x" in let E := fresh "E" in destruct m as [x|] eqn:E; cbn [bind] in H; [|discriminate] end.

Lemma thin_param_same junk junk' opt p p' d r :
  same_shape (p_data p) (p_data p') -> p_grad p' = None -> thin_param junk opt p d = Ok r ->
  exists r', thin_param junk' None p' d = Ok r' /\ same_shape (p_data r) (p_data r') /\ p_grad r' = None.
Proof.
  intros S G H. destruct d as [k idx|k idx v4 v2]; unfold thin_param in *.
  - rewrite <- (size_same _ _ k S). inv_ok H. cbn [bind].
    assert (D : exists d', (if x =? length idx then Ok (p_data p') else if length idx <? x then index_select (p_data p') k idx else Raise AssertionError) = Ok d' /\
       exists d0, (if x =? length idx then Ok (p_data p) else if length idx <? x then index_select (p_data p) k idx else Raise AssertionError) = Ok d0 /\ same_shape d0 d').
    { inv_ok H. clear H. destruct (x =? length idx).
      - injection E0 as <-. eauto.
      - destruct (length idx <? x); [|discriminate]. destruct (index_select_same _ _ _ _ _ S E0) as (r' & A & B). eauto. }
    destruct D as (d' & D1 & d0 & D2 & D3). rewrite D1. rewrite D2 in H. cbn [bind] in *. rewrite G.
    eexists. split; [reflexivity|]. cbn [p_data p_grad]. split; auto.
    destruct (p_grad p) as [gr|]; [|injection H as <-; auto]. inv_ok H. destruct (x0 =? length idx); [injection H as <-; auto|].
    inv_ok H. inv_ok H. inv_ok H. injection H as <-. auto.
  - inv_ok H. destruct (view_same _ _ _ _ S E) as (sv' & V & SV). rewrite V. cbn [bind]. rewrite <- (size_same _ _ k S). inv_ok H. cbn [bind].
    inv_ok H. rename x1 into qq.
    assert (D : exists q', (if x0 =? length idx then Ok p' else do data <- index_select sv' k idx; match p_grad p' with None => Ok (mkParam data None (p_tracked p') (p_mom p')) | Some gr =>
        do gv <- view gr v4; do k0 <- size gv k; if k0 =? length idx then Ok (mkParam data (Some gr) (p_tracked p') (p_mom p')) else
        do gr' <- index_select gv k idx; do og <- set_grad data gr'; do mom <- thin_momentum junk' None p' k idx (Some v2); Ok (mkParam data og (p_tracked p') mom) end) = Ok q'
        /\ same_shape (p_data qq) (p_data q') /\ p_grad q' = None).
    { destruct (x0 =? length idx); [injection E1 as <-; eauto|]. inv_ok E1. destruct (index_select_same _ _ _ _ _ SV E2) as (r' & A & B). rewrite A. cbn [bind]. rewrite G.
      eexists. split; [reflexivity|]. cbn [p_data p_grad]. split; auto. destruct (p_grad p) as [gr|]; [|injection E1 as <-; auto].
      inv_ok E1. inv_ok E1. destruct (x3 =? length idx); [injection E1 as <-; auto|]. inv_ok E1. inv_ok E1. inv_ok E1. injection E1 as <-. auto. }
    destruct D as (q' & Dq & Sq & Gq). rewrite Dq. cbn [bind]. inv_ok H. destruct (view_same _ _ _ _ Sq E2) as (d2 & V2 & S2). rewrite V2. cbn [bind]. rewrite Gq.
    eexists. split; [reflexivity|]. cbn [p_data p_grad]. split; auto. destruct (p_grad qq); [inv_ok H|]; injection H as <-; auto.
Qed.

(** parameters *)
Lemma pget_same k l l' : Forall2 same_param l l' -> match pget l k, pget l' k with Some p, Some p' => same_shape (p_data p) (p_data p') | None, None => True | _, _ => False end.
Proof.
  induction 1 as [|[k1 p1] [k2 p2] l l' (E & S) F IH]; simpl; auto. simpl in E, S. subst k2. destruct (pname_eqb k k1); auto.
Qed.
Lemma pset_same_arch k p p' l l' : Forall2 same_param l l' -> same_shape (p_data p) (p_data p') -> Forall2 same_param (pset l k p) (pset l' k p').
Proof.
  intros F S. induction F as [|[k1 p1] [k2 p2] l l' (E & S') F IH]; simpl; [constructor; [split; auto|constructor]|]. simpl in E, S'. subst k2.
  destruct (pname_eqb k k1); constructor; auto; split; auto.
Qed.
Lemma in_pset {A} (l : pdict A) k v e : In e (pset l k v) -> snd e = v \/ In e l.
Proof.
  induction l as [|[k' v'] l IH]; simpl; [intros [<-|[]]; auto|]. destruct (pname_eqb k k'); simpl; intros [<-|I]; auto. destruct (IH I); auto.
Qed.

Lemma exec_param_same junk junk' opt loaded e : forall (l : pdict param) masks (l' : pdict param) masks' (s : pdict param * pdict (option nd)),
  Forall2 same_param l l' -> (forall k p, In (k, p) l' -> p_grad p = None) ->
  exec_param junk opt loaded (l, masks) e = Ok s ->
  exists s' : pdict param, exec_param junk' None true (l', masks') e = Ok (s', masks') /\ Forall2 same_param (fst s) s' /\ (forall k p, In (k, p) s' -> p_grad p = None).
Proof.
  destruct e as [k ds]. unfold exec_param. cbn [fst snd]. intros l masks l' masks' s F G H.
  pose proof (pget_same k l l' F) as P. destruct (pget l k) as [p|] eqn:E; [|discriminate]. destruct (pget l' k) as [p'|] eqn:E'; [|destruct P]. clear P p p' E E'.
  revert l masks l' F G H. induction ds as [|d ds IH]; intros l masks l' F G H.
  - simpl in H. injection H as <-. exists l'. simpl. auto.
  - cbn [foldM fst snd] in *. pose proof (pget_same k l l' F) as P. destruct (pget l k) as [p|] eqn:E; [|discriminate]. destruct (pget l' k) as [p'|] eqn:E'; [|destruct P].
    inv_ok H. inv_ok E0. destruct (thin_param_same junk junk' opt p p' d _ P (G k p' (pget_in _ _ _ E')) E1) as (r' & T & S & N).
    rewrite T. cbn [bind]. change (thin_mask true masks' k d) with (Ok masks'). cbn [bind].
    inv_ok E0. injection E0 as <-. apply (IH _ _ _) with (3 := H).
    + apply pset_same_arch; auto.
    + intros k0 p0 I. apply in_pset in I as [X|I]; [simpl in X; subst; auto|]. eapply G; eauto.
Qed.

(** modules *)
Lemma dget_same_module n l l' : Forall2 same_module l l' -> match dget l n, dget l' n with Some x, Some x' => m_kind x = m_kind x' /\ Forall2 same_attr (m_attrs x) (m_attrs x') | None, None => True | _, _ => False end.
Proof. induction 1 as [|[k1 p1] [k2 p2] l l' (E & S) F IH]; simpl; auto. simpl in E, S. subst k2. destruct (String.eqb n k1); auto. Qed.
Lemma dset_same_module n x x' l l' : Forall2 same_module l l' -> m_kind x = m_kind x' -> Forall2 same_attr (m_attrs x) (m_attrs x') -> Forall2 same_module (dset l n x) (dset l' n x').
Proof.
  intros F K S. induction F as [|[k1 p1] [k2 p2] l l' (E & S') F IH]; simpl; [constructor; [split; auto|constructor]|]. simpl in E, S'. subst k2.
  destruct (String.eqb n k1); constructor; auto; split; auto.
Qed.
Lemma dget_same_attr n l l' : Forall2 same_attr l l' -> match dget l n, dget l' n with Some x, Some x' => same_attr (n, x) (n, x') | None, None => True | _, _ => False end.
Proof. induction 1 as [|[k1 p1] [k2 p2] l l' (E & S) F IH]; simpl; auto. simpl in E, S. subst k2. destruct (String.eqb n k1); auto. split; auto. Qed.
Lemma dset_same_attr n x x' l l' : Forall2 same_attr l l' -> same_attr (n, x) (n, x') -> Forall2 same_attr (dset l n x) (dset l' n x').
Proof.
  intros F S. induction F as [|[k1 p1] [k2 p2] l l' (E & S') F IH]; simpl; [constructor; [auto|constructor]|]. simpl in E, S'. subst k2.
  destruct (String.eqb n k1); constructor; auto; split; auto. apply S.
Qed.
Lemma exec_module_dir_same x x' k v r : m_kind x = m_kind x' -> Forall2 same_attr (m_attrs x) (m_attrs x') -> exec_module_dir x k v = Ok r ->
  exists r', exec_module_dir x' k v = Ok r' /\ m_kind r = m_kind r' /\ Forall2 same_attr (m_attrs r) (m_attrs r').
Proof.
  intros K F H. unfold exec_module_dir in *. destruct v as [n|dim idx].
  - injection H as <-. eexists. split; [reflexivity|]. cbn. split; auto. apply dset_same_attr; auto. split; auto. simpl. auto.
  - pose proof (dget_same_attr k _ _ F) as P. destruct (dget (m_attrs x) k) as [[|t]|]; try discriminate. destruct (dget (m_attrs x') k) as [[|t']|]; try (destruct P as [_ []]; fail); [|destruct P].
    destruct P as [_ P]. simpl in P. rewrite <- (size_same _ _ dim P). inv_ok H. cbn [bind]. destruct (x0 =? length idx); [injection H as <-; eauto|].
    inv_ok H. destruct (index_select_same _ _ _ _ _ P E0) as (r' & A & B). rewrite A. cbn [bind]. injection H as <-. eexists. split; [reflexivity|]. cbn. split; auto. apply dset_same_attr; auto. split; auto.
Qed.
Lemma exec_modules_same r : forall mods mods' s, Forall2 same_module mods mods' -> exec_modules mods r = Ok s ->
  exists s', exec_modules mods' r = Ok s' /\ Forall2 same_module s s'.
Proof.
  unfold exec_modules. induction (r_mods r) as [|[n md] l IH]; intros mods mods' s F H; [simpl in *; injection H as <-; eauto|].
  cbn [foldM fst snd] in *. inv_ok H.
  assert (X : exists x', foldM (fun mods (kv : string * mdir) => do x <- lookup mods n; do x' <- exec_module_dir x (fst kv) (snd kv); Ok (dset mods n x')) md mods' = Ok x' /\ Forall2 same_module x x').
  { clear H IH. revert mods mods' F E. induction md as [|[k v] md IH2]; intros mods mods' F E; [simpl in *; injection E as <-; eauto|].
    cbn [foldM fst snd] in *. inv_ok E. inv_ok E0. unfold lookup in *. pose proof (dget_same_module n _ _ F) as P.
    destruct (dget mods n) as [y|]; [|discriminate]. destruct (dget mods' n) as [y'|]; [|destruct P]. injection E1 as <-. destruct P as [P1 P2]. cbn [bind].
    inv_ok E0. destruct (exec_module_dir_same y y' k v _ P1 P2 E1) as (r' & A & B & C). rewrite A. cbn [bind]. injection E0 as <-.
    apply (IH2 _ _) with (2 := E). apply dset_same_module; auto. }
  destruct X as (x' & X1 & X2). rewrite X1. cbn [bind]. eapply IH; eauto.
Qed.

Lemma exec_recipe_same junk junk' opt loaded m masks masks' r m1 ms1 m' :
  same_arch m m' -> no_grads m' -> exec_recipe junk opt loaded m masks r = Ok (m1, ms1) ->
  exists m1', exec_recipe junk' None true m' masks' r = Ok (m1', masks') /\ same_arch m1 m1' /\ no_grads m1'.
Proof.
  intros (FM & FP) G H. unfold exec_recipe in *. inv_ok H. destruct (exec_modules_same r _ _ _ FM E) as (mods' & A & B). rewrite A. cbn [bind].
  destruct (r_params r) as [|e0 l0] eqn:El; [discriminate|]. rewrite <- El in *. clear El e0 l0. inv_ok H. injection H as <- <-.
  assert (X : exists s', foldM (exec_param junk' None true) (r_params r) (ms_params m', masks') = Ok (s', masks') /\ Forall2 same_param (fst x0) s' /\ (forall k p, In (k, p) s' -> p_grad p = None)).
  { clear A. revert FP G E0. unfold no_grads. generalize (ms_params m), (ms_params m'), masks. induction (r_params r) as [|e l IH]; intros ps ps' mk FP G E0.
    - simpl in *. injection E0 as <-. exists ps'. auto.
    - cbn [foldM] in *. inv_ok E0. destruct (exec_param_same junk junk' opt loaded e ps mk ps' masks' _ FP G E1) as (s' & A & B' & C).
      destruct x1 as [p1 k1]. destruct (IH p1 s' k1 B' C E0) as (s2 & I1 & I2 & I3). exists s2. rewrite A. cbn [bind]. auto. }
  destruct X as (s' & X1 & X2 & X3). rewrite X1. cbn [bind fst snd]. eexists. split; [reflexivity|]. split; [split; auto|exact X3].
Qed.

(** what happens to the model between the construction and the saving of the checkpoint: training (which does not change
    the architecture) and executions of recipes, whose list is saved *)
Inductive history : mstate -> mstate -> list recipe -> Prop :=
| HStart m : history m m []
| HTrain m m1 m2 rs : history m m1 rs -> same_arch m2 m1 -> history m m2 rs
| HThin m m1 m2 rs r junk opt loaded masks masks' : history m m1 rs -> exec_recipe junk opt loaded m1 masks r = Ok (m2, masks') -> history m m2 (rs ++ [r]).

Lemma same_shape_trans a b c : same_shape a b -> same_shape b c -> same_shape a c.
Proof. intros (A & B & C) (D & E & F). repeat split; auto. congruence. Qed.
Lemma Forall2_trans' {A} (R : A -> A -> Prop) : (forall a b c, R a b -> R b c -> R a c) -> forall l l' l'', Forall2 R l l' -> Forall2 R l' l'' -> Forall2 R l l''.
Proof. intros T l l' l'' F. revert l''. induction F; intros l2 G; inversion G; subst; constructor; eauto. Qed.
Lemma same_arch_trans a b c : same_arch a b -> same_arch b c -> same_arch a c.
Proof.
  intros (A & B) (C & D). split.
  - apply (Forall2_trans' same_module) with (2 := A); auto. intros x y z (E & K & F) (E' & K' & F'). split; [congruence|]. split; [congruence|].
    apply (Forall2_trans' same_attr) with (2 := F); auto. intros u v w (X & Y) (X' & Y'). split; [congruence|].
    destruct (snd u), (snd v), (snd w); try contradiction; [congruence|]. eapply same_shape_trans; eauto.
  - apply (Forall2_trans' same_param) with (2 := B); auto. intros x y z (E & F) (E' & F'). split; [congruence|]. eapply same_shape_trans; eauto.
Qed.

(** C56: executing the saved recipes, in order, on a fresh model of the original architecture succeeds, reaches exactly
    the architecture of the saved model, and leaves the loaded masks alone. *)
Theorem C56_replay :
  forall m0 m rs, history m0 m rs -> forall fresh masks junk, same_arch m0 fresh -> no_grads fresh ->
  exists m', exec_recipes junk fresh masks rs = Ok (m', masks) /\ same_arch m m' /\ no_grads m'.
Proof.
  intros m0 m rs H. induction H as [m|m m1 m2 rs H IH S|m m1 m2 rs r junk0 opt loaded mk mk' H IH E]; intros fresh masks junk SA NG.
  - exists fresh. simpl. auto.
  - destruct (IH fresh masks junk SA NG) as (m' & A & B & C). exists m'. split; auto. split; auto. eapply same_arch_trans; eauto.
  - destruct (IH fresh masks junk SA NG) as (m' & A & B & C). destruct (exec_recipe_same junk0 junk opt loaded m1 mk masks r m2 mk' m' B C E) as (m3 & D & F & G).
    exists m3. split; auto. unfold exec_recipes in *. rewrite foldM_app, A. cbn [bind foldM fst snd]. rewrite D. cbn [bind]. reflexivity.
Qed.

(** Beside C56: [apply_and_save] is how recipes get into the saved list.  Any sequence of thinning operations (starting
    from a model [m0] whose saved list is [saved0]) interleaved with training of the same architecture leaves a saved
    list whose replay is the history of the model. *)
Inductive thinned (m0 : mstate) (saved0 : list recipe) : mstate -> list recipe -> Prop :=
| Thin0 : thinned m0 saved0 m0 saved0
| ThinTrain m m' saved : thinned m0 saved0 m saved -> same_arch m' m -> thinned m0 saved0 m' saved
| ThinFilters m saved junk opt g masks m' masks' saved' : thinned m0 saved0 m saved ->
    remove_filters junk opt g m masks saved = Ok (m', masks', saved') -> thinned m0 saved0 m' saved'
| ThinChannels m saved junk opt g masks m' masks' saved' : thinned m0 saved0 m saved ->
    remove_channels junk opt g m masks saved = Ok (m', masks', saved') -> thinned m0 saved0 m' saved'.

(** C56: whatever filters and channels are removed, with any training in between, and whatever recipes were there to
    begin with, the list saved with the model, replayed on a fresh model of the original architecture, gives the
    architecture of the saved model. *)
Theorem C56_saved_recipes : forall m0 m saved, thinned m0 [] m saved ->
  forall fresh masks junk, same_arch m0 fresh -> no_grads fresh ->
  exists m', exec_recipes junk fresh masks saved = Ok (m', masks) /\ same_arch m m' /\ no_grads m'.
Proof.
  intros m0 m saved H. apply C56_replay.
  assert (S : forall m m' junk opt masks masks' saved saved' r, history m0 m saved ->
            apply_and_save junk opt m masks saved r = Ok (m', masks', saved') -> history m0 m' saved').
  { intros m1 m2 junk opt mk mk' sv sv' r Hh E. unfold apply_and_save in E.
    assert (K : exec_recipe junk opt false m1 mk r = Ok (m2, mk') /\ sv' = (sv ++ [r])%list \/ m2 = m1 /\ sv' = sv).
    { destruct (r_mods r), (r_params r); [injection E as <- <- <-; auto|left..]; inv_bind E; injection E as <- <- <-; rewrite H0, <- surjective_pairing; auto. }
    destruct K as [[K ->]|[-> ->]]; auto. eapply HThin; eauto. }
  induction H.
  - constructor.
  - eapply HTrain; eauto.
  - unfold remove_filters in H0. inv_bind H0. eapply S; eauto.
  - unfold remove_channels in H0. inv_bind H0. eapply S; eauto.
Qed.

Definition lin_m := mkMs [] [(("fc", "weight")%string, lin_p None None)].
Definition lin_m' := mkMs [] [(("fc", "weight")%string, mkParam (mkND [1; 8] (repeat 0%Q 8)) None true None)].
Example C56_ex : exists m, history lin_m m [mkRecipe [] [(("fc", "weight")%string, [lin_dir])]] /\ same_arch lin_m lin_m' /\ no_grads lin_m'.
Proof.
  eexists. split; [|split].
  - change [mkRecipe [] [(("fc", "weight")%string, [lin_dir])]] with ([] ++ [mkRecipe [] [(("fc", "weight")%string, [lin_dir])]]).
    eapply HThin with (junk := fun _ => 0%Q) (opt := None) (loaded := false) (masks := []); [apply HStart|]. vm_compute. reflexivity.
  - split; [constructor|]. constructor; [|constructor]. split; auto. split; [reflexivity|]. split; reflexivity.
  - intros k p [I|[]]. injection I as <- <-. reflexivity.
Qed.

Print Assumptions C23_execute.
Print Assumptions C23_execute_again.
Print Assumptions C23_only_sgd.
Print Assumptions C23_linear_execute.
Print Assumptions C23_linear_mask_refuted.
Print Assumptions C23_linear_momentum_refuted.
Print Assumptions C23_linear_again_refuted.
Print Assumptions C23_momentum_without_gradient_refuted.
Print Assumptions C23_same_dimension_refuted.
Print Assumptions C56_replay.
Print Assumptions C56_saved_recipes.
