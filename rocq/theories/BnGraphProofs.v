(** fold_batch_norms on a graph preserves the evaluation (C50). *)
From Coq Require Import String List ZArith QArith Qabs Bool Arith Lia Lqa Setoid.
From Verif Require Import Base Lists QuantModel RangeModel RangeWrapProofs BnModel BnSpec BnProofs.
Import ListNotations.
Open Scope Q_scope.

Definition sig (nd : node) := (nd_name nd, nd_module nd, nd_ins nd).

Lemma names_sig gr gr' : map sig gr = map sig gr' -> map nd_name gr = map nd_name gr'.
Proof. intro H. apply (f_equal (map (fun p => fst (fst p)))) in H. rewrite !map_map in H. exact H. Qed.
Lemma succs_sig gr : forall gr' k, map sig gr = map sig gr' -> succs gr k = succs gr' k.
Proof.
  induction gr as [|n gr IH]; destruct gr' as [|n' gr']; simpl; intros k H; try discriminate; auto.
  injection H. intros Hr Hi Hm Hn. unfold succs. cbn [filter]. rewrite Hi. specialize (IH gr' k Hr). unfold succs in IH.
  destruct (existsb (String.eqb k) (nd_ins n')); cbn [map]; rewrite IH; [rewrite Hn|]; reflexivity.
Qed.

Lemma find_split gr p n q : NoDup (map nd_name gr) -> gr = p ++ n :: q -> find_node gr (nd_name n) = Some n.
Proof.
  intros Hnd ->. unfold find_node. induction p as [|m p IH]; simpl; [rewrite String.eqb_refl; reflexivity|].
  simpl in Hnd. inversion Hnd; subst. destruct (String.eqb_spec (nd_name n) (nd_name m)) as [E|E].
  - exfalso. apply H1. rewrite map_app. apply in_or_app. right. left. exact E.
  - apply IH. exact H2.
Qed.
Lemma set_op_notin gr k o : ~ In k (map nd_name gr) -> set_op gr k o = gr.
Proof.
  induction gr as [|n gr IH]; simpl; intro H; auto. destruct (String.eqb_spec k (nd_name n)); [exfalso; auto|]. rewrite IH; auto.
Qed.
Definition with_op (nd : node) (o : node_op) := mkNode (nd_name nd) o (nd_module nd) (nd_ins nd).
Lemma set_op_split p n q o : NoDup (map nd_name (p ++ n :: q)) -> set_op (p ++ n :: q) (nd_name n) o = p ++ with_op n o :: q.
Proof.
  intro H. unfold set_op. rewrite map_app. cbn [map]. rewrite String.eqb_refl. rewrite map_app in H. cbn [map] in H.
  apply NoDup_remove_2 in H. assert (Hp : ~ In (nd_name n) (map nd_name p)) by (intro; apply H, in_or_app; auto).
  assert (Hq : ~ In (nd_name n) (map nd_name q)) by (intro; apply H, in_or_app; auto).
  pose proof (set_op_notin p _ o Hp) as E1. pose proof (set_op_notin q _ o Hq) as E2. unfold set_op in E1, E2. rewrite E1, E2. reflexivity.
Qed.

Section Fold.
Variables (sq rsq : Q -> Q).
Hypothesis Hr : roots_ok sq rsq.

(** one fusion preserves the values outside the fused layer's own output *)
Lemma fuse_one p a b q ka kb o1 t1 g W bb t2 tr n e :
  ka = nd_name a -> kb = nd_name b -> ka <> kb ->
  nd_op a = NLayer t1 g W bb -> nd_op b = NBn t2 tr g n -> nd_ins b = [ka] ->
  (forall x, In x g -> (fst x < feats n)%nat) ->
  (forall x, teq (eval_node sq rsq o1 [x]) (bn_eval rsq g n (layer g W bb x))) ->
  (forall l, eval_node sq rsq o1 l = eval_node sq rsq o1 [nth 0 l []]) ->
  Forall proper_node q -> (forall nd, In nd q -> ~ In ka (nd_ins nd)) ->
  agree [ka] (eval_graph sq rsq (p ++ a :: b :: q) e) (eval_graph sq rsq (p ++ with_op a o1 :: with_op b NId :: q) e).
Proof using Hr.
  intros -> -> Hne Ea Eb Eins Hg Ho Hh Hp Hq. rewrite !eval_graph_app. cbn [eval_graph].
  set (e0 := eval_graph sq rsq p e). unfold with_op. cbn [nd_name nd_op nd_ins]. rewrite Ea, Eb, Eins. cbn [map].
  apply eval_agree; [exact Hr|exact Hp|intros nd k Hn Hk [<-|[]]; exact (Hq nd Hn Hk)|].
  intros k Hk. rewrite !eget_dset_same.
  destruct (string_dec (nd_name b) k) as [E|E].
  - subst k. rewrite !eget_dset_same. cbn [eval_node nth]. rewrite Hh. apply teq_sym.
    eapply teq_trans; [apply Ho|]. destruct (map (eget e0) (nd_ins a)); apply teq_refl.
  - assert (E2 : nd_name a <> k) by (intro E'; apply Hk; left; exact E').
    rewrite 2 (eget_dset_other _ (nd_name b) k) by exact E. rewrite 2 (eget_dset_other _ (nd_name a) k) by exact E2. apply teq_refl.
Qed.

Definition Inv (gr0 gri : graph) : Prop :=
  map sig gri = map sig gr0 /\ Forall proper_node gri /\
  forall p a b q, gr0 = p ++ a :: b :: q -> layer_node a -> bn_node b ->
    exists p' a' b' q', gri = p' ++ a' :: b' :: q' /\ length p' = length p /\ (nd_op b' = NId \/ (a' = a /\ b' = b)).

Lemma sig_split gri p' a' b' q' p a b q : map sig gri = map sig (p ++ a :: b :: q) -> gri = p' ++ a' :: b' :: q' -> length p' = length p ->
  nd_name a' = nd_name a /\ nd_name b' = nd_name b /\ nd_ins b' = nd_ins b /\ map sig q' = map sig q.
Proof.
  intros H -> Hl. revert p' Hl H. induction p as [|x p IH]; intros [|y p'] Hl H; simpl in *; try lia.
  - injection H. intros. auto.
  - injection H. intros H' _ _ _. apply (IH p'); [lia|exact H'].
Qed.

Lemma filter_readers_one (q : graph) k : (length (map nd_name (filter (fun nd => existsb (String.eqb k) (nd_ins nd)) q)) <= 0)%nat ->
  forall nd, In nd q -> ~ In k (nd_ins nd).
Proof.
  intros H nd Hn Hk. rewrite map_length in H. destruct (filter (fun nd => existsb (String.eqb k) (nd_ins nd)) q) as [|x l] eqn:E; [|simpl in H; lia].
  assert (In nd []) by (rewrite <- E; apply filter_In; split; [exact Hn|apply existsb_exists; exists k; split; [exact Hk|apply String.eqb_refl]]). destruct H0.
Qed.

Lemma folded_sem inference t1 t2 tr g W bb n s :
  t2 <> TFrozenBn2 -> (forall x, In x g -> (fst x < feats n)%nat) ->
  fold_bn rsq inference t1 t2 tr true W bb n = Ok (Some s) ->
  let o1 := if inference then NLayer t1 g (s_w s) (s_b s) else NSim g s in
  (forall x, teq (eval_node sq rsq o1 [x]) (bn_eval rsq g n (layer g W bb x))) /\
  (forall l, eval_node sq rsq o1 l = eval_node sq rsq o1 [nth 0 l []]) /\
  (forall nd, proper_node (with_op nd o1)).
Proof using Hr.
  intros Hf Hg H. unfold fold_bn, sfb_init in H.
  assert (Es : s = (let s0 := mkSfb W bb n freeze_bn_delay_default false in if inference then freeze rsq s0 else s0)).
  { destruct t2; try congruence; destruct (verify_module_types t1 _); cbn in H; try (destruct e; discriminate);
      destruct tr; cbn in H; try discriminate; injection H; intro; subst s; reflexivity. }
  subst s. destruct inference; cbn [eval_node nth].
  - split; [|split]; [|intro l; destruct l; reflexivity|intros nd f E; discriminate]. intro x. cbn [freeze s_w s_b s_bn]. apply eval_fold. exact Hg.
  - split; [|split]; [|intro l; destruct l; reflexivity|intros nd f E; discriminate]. intro x. cbn. apply eval_fold. exact Hg.
Qed.

Lemma NoDup_mid_ne (p : graph) a b q : NoDup (map nd_name (p ++ a :: b :: q)) -> nd_name a <> nd_name b.
Proof.
  rewrite map_app. cbn [map]. intros H E. apply NoDup_remove_2 in H. apply H. apply in_or_app. right. left. symmetry. exact E.
Qed.

Lemma app_inj_len {A} (a b c d : list A) : a ++ b = c ++ d -> length a = length c -> a = c /\ b = d.
Proof.
  revert c. induction a as [|x a IH]; destruct c as [|y c]; simpl; intros H Hl; try lia; auto.
  injection H. intros H' ->. destruct (IH c H') as [-> ->]; [lia|auto].
Qed.

Lemma Inv_set gr0 gri p a b q o1 : Inv gr0 gri -> gr0 = p ++ a :: b :: q -> bn_node b -> layer_node a ->
  forall p' q', gri = p' ++ a :: b :: q' -> length p' = length p -> proper_node (with_op a o1) ->
  Inv gr0 (p' ++ with_op a o1 :: with_op b NId :: q').
Proof.
  intros (H1 & H2 & H3) E0 Hb Ha p' q' Ei Hl Ho. split; [|split].
  - rewrite <- H1, Ei. rewrite !map_app. reflexivity.
  - rewrite Ei in H2. rewrite Forall_app in *. destruct H2 as [F1 F2]. apply Forall_inv_tail in F2. apply Forall_inv_tail in F2. split; [exact F1|]. constructor; [exact Ho|].
    constructor; [intros f E; discriminate|exact F2].
  - intros p1 a1 b1 q1 E1 La Lb. destruct (H3 p1 a1 b1 q1 E1 La Lb) as (p2 & a2 & b2 & q2 & E2 & Hl2 & Hc).
    destruct (Nat.lt_trichotomy (length p1) (length p)) as [Hlt|[Heq|Hgt]].
    + (* the other pair lies before; it may touch position length p only as b1 = a: impossible *)
      assert (Hs : (S (length p1) < length p)%nat).
      { destruct (Nat.eq_dec (S (length p1)) (length p)) as [E|E]; [|lia]. exfalso.
        rewrite E0 in E1. replace (p1 ++ a1 :: b1 :: q1) with ((p1 ++ [a1]) ++ b1 :: q1) in E1 by (rewrite <- app_assoc; reflexivity).
        apply app_inj_len in E1; [|rewrite app_length; simpl; lia]. destruct E1 as [_ E1]. injection E1. intros _ <-.
        destruct Ha as (_ & t & g & W & bb & Ea & _). destruct Lb as (_ & t' & tr & g' & n' & Eb & _). congruence. }
      rewrite E2 in Ei.
      (* p' = p2 ++ a2 :: b2 :: r *)
      assert (Hr2 : exists r, p' = p2 ++ a2 :: b2 :: r).
      { assert (Hp2 : (S (length p2) < length p')%nat) by lia. clear - Ei Hp2. revert p' Ei Hp2. induction p2 as [|x p2 IH]; intros [|y p'] Ei H; simpl in *; try lia.
        - destruct p' as [|z p']; simpl in *; [lia|]. injection Ei. intros _ -> ->. exists p'. reflexivity.
        - injection Ei. intros Ei' ->. destruct (IH p' Ei') as [r ->]; [lia|]. exists r. reflexivity. }
      destruct Hr2 as [r ->]. exists p2, a2, b2, (r ++ with_op a o1 :: with_op b NId :: q'). split; [rewrite <- app_assoc; reflexivity|]. split; [exact Hl2|exact Hc].
    + exists p', (with_op a o1), (with_op b NId), q'. split; [reflexivity|]. split; [congruence|]. left. reflexivity.
    + assert (Hs : (S (length p) < length p1)%nat).
      { destruct (Nat.eq_dec (S (length p)) (length p1)) as [E|E]; [|lia]. exfalso.
        rewrite E0 in E1. replace (p ++ a :: b :: q) with ((p ++ [a]) ++ b :: q) in E1 by (rewrite <- app_assoc; reflexivity).
        apply app_inj_len in E1; [|rewrite app_length; simpl; lia]. destruct E1 as [_ E1]. injection E1. intros _ <-.
        destruct La as (_ & t & g & W & bb & Ea & _). destruct Hb as (_ & t' & tr & g' & n' & Eb & _). congruence. }
      rewrite E2 in Ei.
      assert (Hr2 : exists r, p2 = p' ++ a :: b :: r /\ q' = r ++ a2 :: b2 :: q2).
      { assert (Hp2 : (S (length p') < length p2)%nat) by lia. clear - Ei Hp2. revert p2 Ei Hp2. induction p' as [|x p' IH]; intros [|y p2] Ei H; simpl in *; try lia.
        - destruct p2 as [|z p2]; simpl in *; [lia|]. injection Ei. intros <- -> ->. exists p2. auto.
        - injection Ei. intros Ei' ->. destruct (IH p2 Ei') as [r [-> ->]]; [lia|]. exists r. auto. }
      destruct Hr2 as (r & -> & ->). exists (p' ++ with_op a o1 :: with_op b NId :: r), a2, b2, q2.
      split; [rewrite <- app_assoc; reflexivity|]. split; [rewrite <- Hl2, !app_length; reflexivity|exact Hc].
Qed.

(** a fused sequence found by the scan, in graph terms *)
Definition pair_of (gr0 : graph) (sg : list string) : Prop :=
  exists p a b q, gr0 = p ++ a :: b :: q /\ sg = [nd_name a; nd_name b] /\ layer_node a /\ bn_node b /\
    ((length (succs gr0 (nd_name a)) <= 1)%nat \/ exists p' z, p = p' ++ [z] /\ layer_node z).

Lemma map_split {A B} (f : A -> B) l pre x post : map f l = pre ++ x :: post -> exists p a q, l = p ++ a :: q /\ map f p = pre /\ x = f a /\ map f q = post.
Proof.
  revert pre. induction l as [|n l IH]; intros pre H; [destruct pre; discriminate|].
  destruct pre as [|y pre]; simpl in H; injection H; intros H' Hx.
  - exists [], n, l. simpl. auto.
  - destruct (IH pre H') as (p & a & q & -> & <- & Hx' & Hq). exists (n :: p), a, q. simpl. rewrite Hx. auto.
Qed.
Lemma adj_split gr pre x post : adj_of gr = pre ++ x :: post -> exists p a q, gr = p ++ a :: q /\ map (fun nd => (nd_name nd, succs gr (nd_name nd))) p = pre /\
   x = (nd_name a, succs gr (nd_name a)) /\ map (fun nd => (nd_name nd, succs gr (nd_name nd))) q = post.
Proof. intro H. exact (map_split _ _ _ _ _ H). Qed.

Lemma has_layer gr nd l p q : NoDup (map nd_name gr) -> types_ok gr -> gr = p ++ nd :: q -> has (node_type gr) is_foldable (nd_name nd, l) -> layer_node nd.
Proof.
  intros Hnd Ht Eg (t & E & Hf). cbn [fst] in E. unfold node_type in E. rewrite (find_split gr p nd q Hnd Eg) in E.
  destruct (nd_module nd) eqn:Em; [|discriminate]. injection E. intros <-. assert (Hin : In nd gr) by (rewrite Eg; apply in_or_app; right; left; reflexivity).
  specialize (Ht nd Hin). split; [exact Em|]. destruct (nd_op nd) as [t' g' W' b'|t' tr' g' n'| |g' s'|f']; cbn in Hf; try discriminate; [eauto 10|destruct Ht; destruct t'; discriminate].
Qed.
Lemma has_bn gr nd l p q : NoDup (map nd_name gr) -> types_ok gr -> gr = p ++ nd :: q -> has (node_type gr) is_batchnorm (nd_name nd, l) -> bn_node nd.
Proof.
  intros Hnd Ht Eg (t & E & Hf). cbn [fst] in E. unfold node_type in E. rewrite (find_split gr p nd q Hnd Eg) in E.
  destruct (nd_module nd) eqn:Em; [|discriminate]. injection E. intros <-. assert (Hin : In nd gr) by (rewrite Eg; apply in_or_app; right; left; reflexivity).
  specialize (Ht nd Hin). split; [exact Em|]. destruct (nd_op nd) as [t' g' W' b'|t' tr' g' n'| |g' s'|f']; cbn in Hf; try discriminate; [destruct t'; discriminate|eauto 10].
Qed.

Lemma fused_pairs gr : NoDup (map nd_name gr) -> types_ok gr -> forall sg, In sg (fused_sequences (node_type gr) [is_foldable; is_batchnorm] (adj_of gr)) -> pair_of gr sg.
Proof.
  intros Hnd Ht sg Hin. unfold fused_sequences in Hin.
  destruct (pair_sound (node_type gr) is_foldable is_batchnorm (adj_of gr) [] [] [] (or_introl eq_refl) (fun sg H => match H with end) sg Hin)
    as (pre & x & y & post & Ea & -> & (Hx & Hs) & Hy). cbn [app] in Ea.
  destruct (adj_split gr pre x (y :: post) Ea) as (p & a & q & Eg & Ep & -> & Eq).
  destruct q as [|b q]; [discriminate|]. cbn [map] in Eq. injection Eq. intros _ <-.
  exists p, a, b, q. split; [exact Eg|]. split; [reflexivity|]. split; [eapply has_layer; eauto|].
  split; [apply (has_bn gr b (succs gr (nd_name b)) (p ++ [a]) q Hnd Ht); [rewrite <- app_assoc; exact Eg|exact Hy]|].
  destruct Hs as [Hs|(pre' & z & -> & Hz)]; [left; exact Hs|]. right.
  destruct (exists_last (l := p)) as (p' & zn & ->); [intro E; subst p; destruct pre'; discriminate|].
  rewrite map_app in Ep. cbn [map] in Ep. apply app_inj_tail in Ep. destruct Ep as [_ <-].
  exists p', zn. split; [reflexivity|]. apply (has_layer gr zn (succs gr (nd_name zn)) p' (a :: b :: q) Hnd Ht); [rewrite Eg, <- app_assoc; reflexivity|exact Hz].
Qed.

Lemma agree_trans K1 K2 e1 e2 e3 : agree K1 e1 e2 -> agree K2 e2 e3 -> agree (K1 ++ K2) e1 e3.
Proof. intros H1 H2 k Hk. eapply teq_trans; [apply H1|apply H2]; intro; apply Hk, in_or_app; auto. Qed.

Lemma fold_pairs inference gr0 e : NoDup (map nd_name gr0) -> types_ok gr0 -> well_connected gr0 -> no_hidden_split gr0 ->
  forall sgs gri gr', Inv gr0 gri -> (forall sg, In sg sgs -> pair_of gr0 sg) ->
  foldM (fuse_pair rsq inference) sgs gri = Ok gr' ->
  Inv gr0 gr' /\ exists K, (forall k, In k K -> exists a b, just_before gr0 a b /\ layer_node a /\ bn_node b /\ k = nd_name a) /\
    agree K (eval_graph sq rsq gri e) (eval_graph sq rsq gr' e).
Proof using Hr.
  intros Hnd Ht Hwc Hns. induction sgs as [|sg sgs IH]; intros gri gr' HI Hp H.
  - injection H. intros <-. split; [exact HI|]. exists []. split; [intros k []|]. intros k _. apply teq_refl.
  - cbn [foldM] in H. apply bind_ok in H. destruct H as (gr1 & H1 & H2).
    assert (Hstep : Inv gr0 gr1 /\ exists K, (forall k, In k K -> exists a b, just_before gr0 a b /\ layer_node a /\ bn_node b /\ k = nd_name a) /\
      agree K (eval_graph sq rsq gri e) (eval_graph sq rsq gr1 e)).
    { assert (Hsame : gr1 = gri -> Inv gr0 gr1 /\ exists K, (forall k, In k K -> exists a b, just_before gr0 a b /\ layer_node a /\ bn_node b /\ k = nd_name a) /\
        agree K (eval_graph sq rsq gri e) (eval_graph sq rsq gr1 e)) by (intros ->; split; [exact HI|]; exists []; split; [intros k []|intros k _; apply teq_refl]).
      destruct (Hp sg (or_introl eq_refl)) as (p & a & b & q & Eg & -> & La & Lb & Hsucc).
      pose proof HI as (S1 & S2 & S3). destruct (S3 p a b q Eg La Lb) as (p' & a' & b' & q' & Ei & Hl & Hc).
      rewrite Eg in S1. destruct (sig_split gri p' a' b' q' p a b q S1 Ei Hl) as (N1 & N2 & N3 & N4). rewrite <- Eg in S1.
      assert (Hndi : NoDup (map nd_name gri)) by (rewrite (names_sig gri gr0 S1); exact Hnd).
      cbn [fuse_pair] in H1. rewrite <- N1, <- N2 in H1.
      rewrite (find_split gri p' a' (b' :: q') Hndi Ei) in H1.
      assert (Ei2 : gri = (p' ++ [a']) ++ b' :: q') by (rewrite <- app_assoc; exact Ei).
      rewrite (find_split gri (p' ++ [a']) b' q' Hndi Ei2) in H1.
      destruct Hc as [Hid|[-> ->]].
      { rewrite Hid in H1. destruct (nd_op a'); injection H1; intro E; apply Hsame; symmetry; exact E. }
      assert (Hjb : just_before gr0 a b) by (exists p, q; exact Eg).
      destruct (Hwc a b Hjb La Lb) as [Hins Hgeo].
      pose proof La as (_ & t1 & g & W & bb & Ea & _). pose proof Lb as (_ & t2 & tr & g' & n & Eb & Hbt).
      destruct (Hgeo _ _ _ _ _ _ _ _ Ea Eb) as [-> Hg]. rewrite Ea, Eb in H1.
      assert (Hfz : t2 <> TFrozenBn2). { specialize (Ht b). rewrite Eb in Ht. apply Ht. rewrite Eg. apply in_or_app. right. right. left. reflexivity. }
      apply bind_ok in H1. destruct H1 as (r & Hfold & H1). destruct r as [s|]; [|injection H1; intro E; apply Hsame; symmetry; exact E].
      destruct (folded_sem inference t1 t2 tr g W bb n s Hfz Hg Hfold) as (O1 & O2 & O3).
      set (o1 := if inference then NLayer t1 g (s_w s) (s_b s) else NSim g s) in *.
      injection H1. intro E. clear H1.
      assert (Eset : gr1 = p' ++ with_op a o1 :: with_op b NId :: q').
      { rewrite <- E, Ei. rewrite (set_op_split p' a (b :: q') o1) by (rewrite <- Ei; exact Hndi).
        replace (p' ++ with_op a o1 :: b :: q') with ((p' ++ [with_op a o1]) ++ b :: q') by (rewrite <- app_assoc; reflexivity).
        rewrite set_op_split; [rewrite <- app_assoc; reflexivity|]. rewrite <- app_assoc. rewrite Ei in Hndi. rewrite !map_app in *. exact Hndi. }
      split; [rewrite Eset; apply (Inv_set gr0 gri p a b q o1 HI Eg Lb La p' q' Ei Hl (O3 a))|].
      exists [nd_name a]. split; [intros k [<-|[]]; exists a, b; auto|].
      assert (Hsu : (length (succs gr0 (nd_name a)) <= 1)%nat).
      { destruct Hsucc as [Hs|(pp & z & -> & Lz)]; [exact Hs|]. apply (Hns z a b); auto. exists pp, (b :: q). rewrite Eg, <- app_assoc. reflexivity. }
      rewrite Eset, Ei. apply (fuse_one p' a b q' (nd_name a) (nd_name b) o1 t1 g W bb t2 tr n e); auto.
      - rewrite Ei in Hndi. apply (NoDup_mid_ne p' a b q' Hndi).
      - rewrite Ei in S2. apply Forall_app in S2. destruct S2 as [_ S2]. apply Forall_inv_tail in S2. apply Forall_inv_tail in S2. exact S2.
      - apply filter_readers_one. rewrite <- (succs_sig gri gr0 (nd_name a) S1) in Hsu. rewrite Ei in Hsu. unfold succs in Hsu.
        rewrite filter_app, map_app, app_length in Hsu. cbn [filter] in Hsu. rewrite Hins in Hsu. cbn [existsb] in Hsu. rewrite String.eqb_refl in Hsu. cbn [orb] in Hsu.
        destruct (existsb (String.eqb (nd_name a)) (nd_ins a)); cbn [map length] in Hsu; lia. }
    destruct Hstep as (I1 & K1 & HK1 & A1).
    destruct (IH gr1 gr' I1 (fun sg H => Hp sg (or_intror H)) H2) as (I2 & K2 & HK2 & A2).
    split; [exact I2|]. exists (K1 ++ K2). split; [intros k Hk; apply in_app_or in Hk; destruct Hk; auto|]. eapply agree_trans; eauto.
Qed.
End Fold.
