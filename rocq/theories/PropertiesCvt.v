(** C78: conversion of a whole model to native PyTorch quantization. *)
From Coq Require Import String List ZArith QArith Bool Arith Lia.
From Verif Require Import Base Lists StructModel QuantModel RangeModel PtqModel CvtModel CvtSpec.
Import ListNotations.

Section Cvt.
Variables (V : Type) (isq : V -> bool) (quantize : Q * Z -> V -> V) (dequantize : V -> V).
Hypothesis Hq : forall c v, isq (quantize c v) = true.
Hypothesis Hd : forall v, isq (dequantize v) = false.

Notation dtree := (dtree V). Notation ctree := (ctree V). Notation kind := (kind V). Notation instr := (instr V).
Notation run := (run V isq quantize dequantize). Notation step := (step V isq quantize dequantize).
Notation clookup := (clookup V). Notation dlookup := (dlookup V). Notation apply_pre := (apply_pre V isq quantize dequantize).

(** the childless modules, with their paths *)
Inductive leaf_at : dtree -> path -> kind -> Prop :=
| LA_here k : leaf_at (DLeaf V k) [] k
| LA_in n c cs p k : In (n, c) cs -> leaf_at c p k -> leaf_at (DNode V cs) (n :: p) k.

(* ---- list lemmas ---- *)
Lemma nth_error_ext {A} (a b : list A) : (forall i, nth_error a i = nth_error b i) -> a = b.
Proof.
  revert b. induction a as [|x a IH]; intros [|y b] H; auto; [specialize (H 0%nat); discriminate|specialize (H 0%nat); discriminate|].
  pose proof (H 0%nat) as E. cbn [nth_error] in E. injection E as ->. f_equal. apply IH. intro i. apply (H (S i)).
Qed.
Lemma mapM_eq {A B} (f : A -> res B) l : mapM f l = match l with [] => Ok [] | a :: r => do b <- f a; do bs <- mapM f r; Ok (b :: bs) end.
Proof. destruct l; reflexivity. Qed.

Lemma mapM_fetch_pat env env' a : map isq env = map isq env' ->
  (forall args, mapM (fetch V env) a = Ok args -> exists args', mapM (fetch V env') a = Ok args' /\ map isq args' = map isq args) /\
  (forall e, mapM (fetch V env) a = Raise e -> mapM (fetch V env') a = Raise e).
Proof.
  intro H.
  assert (F : forall i, match nth_error env i, nth_error env' i with Some v, Some w => isq v = isq w | None, None => True | _, _ => False end).
  { intro i. pose proof (nth_error_map isq i env) as E1. pose proof (nth_error_map isq i env') as E2. rewrite H in E1. rewrite E2 in E1.
    destruct (nth_error env i), (nth_error env' i); cbn [option_map] in E1; try discriminate; auto. congruence. }
  induction a as [|i a [IH1 IH2]]; cbn [mapM].
  - split; [|discriminate]. intros args E. injection E as <-. exists []. auto.
  - specialize (F i). unfold fetch at 1 3 5 7. destruct (nth_error env i) as [v|], (nth_error env' i) as [w|]; try contradiction; cbn [bind].
    + split.
      * intros args E. inv_bind E. injection E as <-. destruct (IH1 _ H0) as (args' & E' & P). rewrite E'. cbn [bind]. eexists. split; [reflexivity|].
        cbn [map]. congruence.
      * intros e E. destruct (mapM (fetch V env) a) eqn:K; cbn [bind] in E; [discriminate|]. rewrite (IH2 _ eq_refl). exact E.
    + split; [discriminate|auto].
Qed.

(* ---- modules ---- *)
Lemma conv_leaf_fn eng k q f : conv_leaf V eng k = Ok (q, f) -> f = match kind_fn V k with Some g => g | None => ident V end.
Proof. destruct k; cbn [conv_leaf kind_fn]; intro H; [inv_bind H|..]; congruence. Qed.

Fixpoint cgo (eng : engine) (l : list (string * dtree)) : res (list (string * ctree)) :=
  match l with [] => Ok [] | (n, c) :: r => do c' <- convert V eng c; do r' <- cgo eng r; Ok ((n, c') :: r') end.
Lemma convert_node eng cs : convert V eng (DNode V cs) = do cs' <- cgo eng cs; Ok (CNode V cs').
Proof. cbn [convert]. match goal with |- bind (?F cs) _ = _ => assert (E : forall l, F l = cgo eng l) end.
  { induction l as [|[n c] l IH]; cbn [cgo]; [reflexivity|]. rewrite <- IH. reflexivity. }
  rewrite E. reflexivity.
Qed.
Fixpoint kgo (recs : list (path * list bool)) (pfx : path) (l : list (string * ctree)) : res (list (string * ctree)) :=
  match l with [] => Ok [] | (n, c) :: r => do c' <- cleanup V recs (pfx ++ [n])%list c; do r' <- kgo recs pfx r; Ok ((n, c') :: r') end.
Lemma cleanup_node recs pfx cs : cleanup V recs pfx (CNode V cs) = do cs' <- kgo recs pfx cs; Ok (CNode V cs').
Proof. cbn [cleanup]. match goal with |- bind (?F cs) _ = _ => assert (E : forall l, F l = kgo recs pfx l) end.
  { induction l as [|[n c] l IH]; cbn [kgo]; [reflexivity|]. rewrite <- IH. reflexivity. }
  rewrite E. reflexivity.
Qed.
Fixpoint lgo (n : string) (r : path) (l : list (string * ctree)) : option (pre * fn V) :=
  match l with [] => None | (k, c) :: l' => if String.eqb n k then clookup c r else lgo n r l' end.
Lemma clookup_node cs n r : clookup (CNode V cs) (n :: r) = lgo n r cs.
Proof. cbn [CvtModel.clookup]. induction cs as [|[k c] l IH]; cbn [lgo]; [reflexivity|]. rewrite <- IH. reflexivity. Qed.
Fixpoint dgo (n : string) (r : path) (l : list (string * dtree)) : option kind :=
  match l with [] => None | (k, c) :: l' => if String.eqb n k then dlookup c r else dgo n r l' end.
Lemma dlookup_node cs n r : dlookup (DNode V cs) (n :: r) = dgo n r cs.
Proof. cbn [CvtSpec.dlookup]. induction cs as [|[k c] l IH]; cbn [dgo]; [reflexivity|]. rewrite <- IH. reflexivity. Qed.

Lemma convert_lookup eng p : forall t c, convert V eng t = Ok c ->
  match dlookup t p with
  | None => clookup c p = None
  | Some k => exists qf, conv_leaf V eng k = Ok qf /\ clookup c p = Some qf
  end.
Proof.
  induction p as [|n p IH]; intros t c H; destruct t as [k|cs].
  - cbn [convert] in H. inv_bind H. injection H as <-. cbn. exists x. split; auto. destruct x; reflexivity.
  - rewrite convert_node in H. inv_bind H. injection H as <-. reflexivity.
  - cbn [convert] in H. inv_bind H. injection H as <-. reflexivity.
  - rewrite convert_node in H. inv_bind H. injection H as <-. rewrite dlookup_node, clookup_node.
    revert x H0. induction cs as [|[k t] cs IHc]; intros x H0; cbn [cgo] in H0.
    + injection H0 as <-. reflexivity.
    + inv_bind H0. inv_bind H0. injection H0 as <-. cbn [dgo lgo]. destruct (String.eqb n k); [apply IH; auto|apply IHc; auto].
Qed.
Lemma cleanup_lookup recs p : forall pfx c c', cleanup V recs pfx c = Ok c' ->
  match clookup c p with
  | None => clookup c' p = None
  | Some (q, f) => exists q', clean_leaf q (seen recs (pfx ++ p)%list) = Ok q' /\ clookup c' p = Some (q', f)
  end.
Proof.
  induction p as [|n p IH]; intros pfx c c' H; destruct c as [q f|cs].
  - cbn [cleanup] in H. inv_bind H. injection H as <-. cbn. rewrite app_nil_r. eauto.
  - rewrite cleanup_node in H. inv_bind H. injection H as <-. reflexivity.
  - cbn [cleanup] in H. inv_bind H. injection H as <-. reflexivity.
  - rewrite cleanup_node in H. inv_bind H. injection H as <-. rewrite !clookup_node.
    revert x H0. induction cs as [|[k t] cs IHc]; intros x H0; cbn [kgo] in H0.
    + injection H0 as <-. reflexivity.
    + inv_bind H0. inv_bind H0. injection H0 as <-. cbn [lgo]. destruct (String.eqb n k) eqn:E.
      * apply String.eqb_eq in E. subst k. specialize (IH (pfx ++ [n])%list t x0 H). rewrite <- app_assoc in IH. exact IH.
      * apply IHc; auto.
Qed.

(* ---- what stands in front of a module ---- *)
Lemma apply_pre_pat q a b : map isq a = map isq b -> map isq (apply_pre q a) = map isq (apply_pre q b).
Proof using Hq Hd.
  destruct q as [|qs|]; cbn [CvtModel.apply_pre]; auto.
  - generalize 0%nat. revert b. induction a as [|v a IH]; intros [|w b] i H; try discriminate; auto. cbn [map] in H. injection H as E H.
    cbn [quant_args map]. rewrite (IH b (S i) H). f_equal.
    destruct (find _ qs) as [e|]; auto. rewrite <- E. destruct (isq v) eqn:Ev; [congruence|]. rewrite !Hq. reflexivity.
  - intros H. revert b H. induction a as [|v a IH]; intros [|w b] H; try discriminate; auto. cbn [map] in *. injection H as E H.
    rewrite (IH b H), <- E. f_equal. destruct (isq v) eqn:Ev; rewrite ?Hd; congruence.
Qed.
Lemma quant_args_ext qs qs' : forall a i, (forall j v, nth_error a j = Some v -> isq v = false ->
    find (fun e : nat * (Q * Z) => Nat.eqb (fst e) (i + j)) qs = find (fun e => Nat.eqb (fst e) (i + j)) qs') ->
  quant_args V isq quantize i qs a = quant_args V isq quantize i qs' a.
Proof.
  induction a as [|v a IH]; intros i H; cbn [quant_args]; auto. f_equal.
  - destruct (isq v) eqn:E; [destruct (find _ qs), (find _ qs'); auto|]. specialize (H 0%nat v eq_refl E). rewrite Nat.add_0_r in H. rewrite H. reflexivity.
  - apply IH. intros j w Hj Hw. specialize (H (S j) w Hj Hw). rewrite Nat.add_succ_r in H. exact H.
Qed.
Lemma quant_args_nil : forall a i, quant_args V isq quantize i [] a = a.
Proof. induction a; intro i; cbn [quant_args find]; congruence. Qed.
Lemma find_filter {A} (P R : A -> bool) l : (forall x, In x l -> P x = true -> R x = true) -> find P (filter R l) = find P l.
Proof.
  induction l as [|x l IH]; intro H; auto. cbn [filter find]. destruct (P x) eqn:E.
  - rewrite (H x (or_introl eq_refl) E). cbn [find]. rewrite E. reflexivity.
  - destruct (R x); cbn [find]; rewrite ?E; apply IH; intros; apply H; simpl; auto.
Qed.
Lemma clean_same q q' a : clean_leaf q (Some (map isq a)) = Ok q' -> apply_pre q' a = apply_pre q a.
Proof.
  destruct q as [|qs|]; cbn [clean_leaf]; intro H.
  - injection H as <-. reflexivity.
  - set (qs' := filter _ qs) in H.
    assert (E : quant_args V isq quantize 0 qs' a = quant_args V isq quantize 0 qs a).
    { apply quant_args_ext. intros j v Hj Hv. cbn [Nat.add]. apply find_filter. intros e _ He. apply Nat.eqb_eq in He. rewrite He.
      erewrite nth_error_nth; [|apply map_nth_error; exact Hj]. rewrite Hv. reflexivity. }
    cbn [CvtModel.apply_pre]. rewrite <- E. destruct qs' eqn:Eq; injection H as <-; cbn [CvtModel.apply_pre]; auto. rewrite quant_args_nil. reflexivity.
  - destruct (existsb (fun b => b) (map isq a)) eqn:E; injection H as <-; auto. cbn [CvtModel.apply_pre].
    induction a as [|v a IH]; auto. cbn [map existsb] in E. apply orb_false_iff in E. destruct E as [E1 E2]. cbn [map]. rewrite E1, <- IH; auto.
Qed.

(* ---- the run of the cleaned model ---- *)
Definition sfn (f : fn V) := static_fn V isq f.
Definition stat_tree (c : ctree) (l : list instr) : Prop :=
  (forall p q f, clookup c p = Some (q, f) -> sfn f) /\ (forall f a, In (IFun V f a) l -> sfn f).

Lemma run_clean R c c' : cleanup V R [] c = Ok c' -> forall l d x d' recs,
  stat_tree c l -> run c l d = Ok (d', recs) -> map isq d = map isq x -> (forall p bs, In (p, bs) recs -> seen R p = Some bs) ->
  run c' l x = run c l x /\ forall e rr, run c l x = Ok (e, rr) -> map isq e = map isq d'.
Proof using Hq Hd.
  intro Hc. induction l as [|i l IH]; intros d x d' recs Hst Hr Hp Hs; cbn [CvtModel.run] in *.
  - injection Hr as <- <-. split; auto. intros e rr E. injection E as <- <-. auto.
  - inv_bind Hr. inv_bind Hr. destruct x0 as [d1 r1]. destruct x1 as [d2 r2]. cbn [fst snd] in *. injection Hr as <- <-.
    assert (Hst' : stat_tree c l) by (destruct Hst as [S1 S2]; split; auto; intros f a Hin; apply (S2 f a); right; auto).
    assert (Hs' : forall p bs, In (p, bs) r2 -> seen R p = Some bs) by (intros; apply Hs, in_or_app; auto).
    assert (K : step c' x i = step c x i /\ forall e rr, step c x i = Ok (e, rr) -> map isq e = map isq d1).
    { destruct i as [p a|f a]; cbn [CvtModel.step] in *.
      - inv_bind H. destruct (mapM_fetch_pat d x a Hp) as [F1 F2]. destruct (F1 _ H1) as (args' & E' & P'). rewrite E'. cbn [bind].
        pose proof (cleanup_lookup R p [] c c' Hc) as L. destruct (clookup c p) as [[q f]|] eqn:El; [|discriminate].
        destruct L as (q' & L1 & L2). rewrite L2. inv_bind H. injection H as <- <-. cbn [app] in L1.
        assert (Hsp : seen R p = Some (map isq x0)) by (apply Hs; apply in_or_app; left; simpl; auto).
        rewrite Hsp, <- P' in L1. rewrite (clean_same q q' args' L1). split; auto.
        intros e rr E. inv_bind E. injection E as <- <-. rewrite !map_app. f_equal; [auto|]. cbn [map]. f_equal.
        destruct Hst as [S1 _]. specialize (S1 p q f El). apply (S1 (apply_pre q args') (apply_pre q x0)); auto. apply apply_pre_pat; auto.
      - inv_bind H. destruct (mapM_fetch_pat d x a Hp) as [F1 F2]. destruct (F1 _ H1) as (args' & E' & P'). rewrite E'. cbn [bind]. split; auto.
        inv_bind H. injection H as <- <-. intros e rr E. inv_bind E. injection E as <- <-. rewrite !map_app. f_equal; auto. cbn [map]. f_equal.
        destruct Hst as [_ S2]. apply (S2 f a (or_introl eq_refl) args' x0); auto. }
    destruct K as [K1 K2]. rewrite K1. destruct (step c x i) as [[x1 rr1]|e0] eqn:Es; cbn [bind fst snd]; [|split; [auto|discriminate]].
    destruct (IH d1 x1 d2 r2 Hst' H0 (eq_sym (K2 _ _ eq_refl)) Hs') as [G1 G2]. rewrite G1. split; auto.
    intros e rr E. inv_bind E. injection E as <- <-. apply (G2 (fst x0) (snd x0)). rewrite H1. destruct x0; reflexivity.
Qed.

Lemma path_eqb_refl p : path_eqb p p = true.
Proof. unfold path_eqb. destruct (list_eq_dec string_dec p p); congruence. Qed.
Lemma path_eqb_eq p q : path_eqb p q = true -> p = q.
Proof. unfold path_eqb. destruct (list_eq_dec string_dec p q); congruence. Qed.
Lemma seen_nodup R p bs : NoDup (map fst R) -> In (p, bs) R -> seen R p = Some bs.
Proof.
  intros Hn Hin. unfold seen. destruct (find (fun e => path_eqb p (fst e)) (rev R)) as [[p' b']|] eqn:E.
  - apply find_some in E. destruct E as [E1 E2]. apply path_eqb_eq in E2. cbn [fst snd] in *. subst p'. apply in_rev in E1.
    f_equal. clear - Hn Hin E1. induction R as [|[a b] R IH]; [contradiction|]. cbn [map fst] in Hn. inversion Hn; subst.
    destruct Hin as [Hin|Hin], E1 as [E1|E1]; try congruence; auto.
    + injection Hin as -> ->. exfalso. apply H1. apply (in_map fst _ _ E1).
    + injection E1 as -> ->. exfalso. apply H1. apply (in_map fst _ _ Hin).
  - exfalso. pose proof (find_none _ _ E (p, bs) (proj1 (in_rev _ _) Hin)) as K. cbn [fst] in K. rewrite path_eqb_refl in K. discriminate.
Qed.
Lemma seen_none R p : ~ In p (map fst R) -> seen R p = None.
Proof.
  intro H. unfold seen. destruct (find (fun e => path_eqb p (fst e)) (rev R)) as [e|] eqn:E; auto.
  apply find_some in E. destruct E as [E1 E2]. apply path_eqb_eq in E2. apply in_rev in E1. exfalso. apply H. subst p. apply in_map. auto.
Qed.
Lemma seen_some R p : In p (map fst R) -> exists bs, seen R p = Some bs.
Proof.
  intro H. unfold seen. destruct (find (fun e => path_eqb p (fst e)) (rev R)) as [e|] eqn:E; eauto.
  apply in_map_iff in H. destruct H as ([p' b] & E1 & E2). cbn [fst] in E1. subst p'. apply in_rev in E2.
  pose proof (find_none _ _ E _ E2) as K. cbn [fst] in K. rewrite path_eqb_refl in K. discriminate.
Qed.
Lemma run_recs c l : forall x e recs, run c l x = Ok (e, recs) -> map fst recs = calls V l.
Proof.
  induction l as [|i l IH]; intros x e recs H; cbn [CvtModel.run] in H.
  - injection H as <- <-. reflexivity.
  - inv_bind H. inv_bind H. injection H as <- <-. rewrite map_app. unfold calls in *. cbn [flat_map]. destruct x1 as [e1 r1]. cbn [snd]. rewrite (IH _ _ _ H1).
    f_equal. destruct i as [p a|f a]; cbn [CvtModel.step] in H0.
    + inv_bind H0. destruct (clookup c p) as [[q f]|]; [|discriminate]. inv_bind H0. injection H0 as <-. reflexivity.
    + inv_bind H0. inv_bind H0. injection H0 as <-. reflexivity.
Qed.

(* ---- the reference ---- *)
Lemma mapM_find eng fb qs : mapM (conv_fallback eng) fb = Ok qs -> forall i,
  match find (fun e => Nat.eqb (fst e) i) fb with
  | None => find (fun e => Nat.eqb (fst e) i) qs = None
  | Some (j, (p, bits, m)) => j = i /\ exists c, qparams_to_pytorch [p] bits m QUInt8 (need_reduce_range eng m QUInt8) = Ok [c] /\
      find (fun e => Nat.eqb (fst e) i) qs = Some (i, c)
  end.
Proof.
  revert qs. induction fb as [|[j [[p bits] m]] fb IH]; intros qs H i; cbn [mapM] in H.
  - injection H as <-. reflexivity.
  - inv_bind H. inv_bind H. injection H as <-. cbn [conv_fallback] in H0. inv_bind H0. inv_bind H0. injection H0 as <-.
    cbn [find fst]. destruct (Nat.eqb j i) eqn:E.
    + apply Nat.eqb_eq in E. subst j. split; auto. exists x2. split; auto. rewrite H. destruct x1 as [|y [|]]; try discriminate. cbn [one_param] in H2. congruence.
    + apply IH. auto.
Qed.
Lemma quant_args_len qs : forall a i, length (quant_args V isq quantize i qs a) = length a.
Proof. induction a; intro i; cbn [quant_args length]; auto. Qed.
Lemma quant_args_nth qs : forall a i j v, nth_error a j = Some v -> nth_error (quant_args V isq quantize i qs a) j =
  Some (match find (fun e => Nat.eqb (fst e) (i + j)) qs with Some e => if isq v then v else quantize (snd e) v | None => v end).
Proof.
  induction a as [|w a IH]; intros i [|j] v H; cbn [nth_error] in H; try discriminate; cbn [quant_args nth_error].
  - injection H as ->. rewrite Nat.add_0_r. reflexivity.
  - rewrite (IH (S i) j v H). rewrite Nat.add_succ_r. reflexivity.
Qed.
Lemma ref_call_iff eng k qf args r : conv_leaf V eng k = Ok qf -> (ref_call V isq quantize dequantize eng k args r <-> r = snd qf (apply_pre (fst qf) args)).
Proof.
  destruct k as [fb f|f|f| |f]; cbn [conv_leaf ref_call]; intro H.
  - inv_bind H. injection H as <-. cbn [fst snd CvtModel.apply_pre]. pose proof (mapM_find eng fb x H0) as F. split.
    + intros (args' & L & A & ->). f_equal. apply nth_error_ext. intro i.
      destruct (nth_error args i) as [v|] eqn:Ev.
      * rewrite (quant_args_nth x args 0 i v Ev). cbn [Nat.add].
        destruct (nth_error args' i) as [w|] eqn:Ew.
        2:{ apply nth_error_None in Ew. assert (i < length args)%nat by (apply nth_error_Some; congruence). lia. }
        f_equal. destruct (A i v w Ev Ew) as (A1 & A2 & A3). specialize (F i).
        destruct (find (fun e => Nat.eqb (fst e) i) fb) as [[j [[p bits] m]]|] eqn:Ef.
        -- destruct F as (-> & c & F1 & F2). rewrite F2. cbn [snd]. destruct (isq v) eqn:Eq; auto. apply (A3 eq_refl p bits m c); auto.
        -- rewrite F. destruct (isq v) eqn:Eq; auto. apply A2; auto. intros e He. pose proof (find_none _ _ Ef e He) as K. apply Nat.eqb_neq in K. auto.
      * apply nth_error_None in Ev. transitivity (@None V); [|symmetry]; apply nth_error_None; [lia|rewrite quant_args_len; auto].
    + intros ->. exists (quant_args V isq quantize 0 x args). split; [apply quant_args_len|]. split; auto.
      intros i v w Ev Ew. rewrite (quant_args_nth x args 0 i v Ev) in Ew. cbn [Nat.add] in Ew. injection Ew as <-. specialize (F i).
      destruct (find (fun e => Nat.eqb (fst e) i) fb) as [[j [[p bits] m]]|] eqn:Ef.
      * destruct F as (-> & c & F1 & F2). rewrite F2. cbn [snd]. split; [intros ->; auto|]. split.
        -- intros Eq N. exfalso. apply find_some in Ef. destruct Ef as [Ef _]. apply (N _ Ef). reflexivity.
        -- intros -> p' bits' m' c' E C. rewrite E in Ef. injection Ef as -> -> ->. rewrite F1 in C. injection C as ->. reflexivity.
      * rewrite F. split; auto. split; auto. intros _ p' bits' m' c' E. rewrite E in Ef. discriminate.
  - injection H as <-. reflexivity.
  - injection H as <-. reflexivity.
  - injection H as <-. reflexivity.
  - injection H as <-. reflexivity.
Qed.
Lemma run_ref eng t c : convert V eng t = Ok c -> forall l x e, (exists rr, run c l x = Ok (e, rr)) <-> ref_run V isq quantize dequantize eng t l x e.
Proof.
  intro Hc. induction l as [|i l IH]; intros x e.
  - split; [intros (rr & H); cbn [CvtModel.run] in H; injection H as -> _; constructor|]. intro H. inversion H; subst. exists []. reflexivity.
  - split.
    + intros (rr & H). cbn [CvtModel.run] in H. inv_bind H. inv_bind H. assert (Ee : fst x1 = e) by congruence. clear H.
      assert (IHr : ref_run V isq quantize dequantize eng t l (fst x0) e) by (apply IH; exists (snd x1); rewrite H1, <- Ee; destruct x1; reflexivity).
      destruct i as [p a|f a]; cbn [CvtModel.step] in H0.
      * inv_bind H0. pose proof (convert_lookup eng p t c Hc) as L. destruct (dlookup t p) as [k|] eqn:Ek.
        2:{ rewrite L in H0. discriminate. }
        destruct L as ([q f] & L1 & L2). rewrite L2 in H0. inv_bind H0. injection H0 as <-. cbn [fst] in IHr.
        econstructor; eauto. apply (ref_call_iff eng k (q, f) x2 (Ok x3) L1). cbn [fst snd]. auto.
      * inv_bind H0. inv_bind H0. injection H0 as <-. econstructor; eauto.
    + intro H. inversion H; subst.
      * match goal with X : ref_run _ _ _ _ _ _ l _ e |- _ => apply IH in X; destruct X as (rr & XX) end.
        pose proof (convert_lookup eng p t c Hc) as L. rewrite H3 in L. destruct L as ([q f] & L1 & L2).
        match goal with X : ref_call _ _ _ _ _ _ _ _ |- _ => apply (ref_call_iff eng k (q, f) args (Ok v) L1) in X; cbn [fst snd] in X; rename X into Y end.
        eexists. cbn [CvtModel.run CvtModel.step]. rewrite H2. cbn [bind]. rewrite L2, <- Y. cbn [bind fst snd]. rewrite XX. cbn [bind]. reflexivity.
      * match goal with X : ref_run _ _ _ _ _ _ l _ e |- _ => apply IH in X; destruct X as (rr & XX) end.
        eexists. cbn [CvtModel.run CvtModel.step]. rewrite H2. cbn [bind]. rewrite H3. cbn [bind fst snd]. rewrite XX. cbn [bind]. reflexivity.
Qed.

Lemma fetch_ok env i v : fetch V env i = Ok v <-> nth_error env i = Some v.
Proof. unfold fetch. destruct (nth_error env i); split; intro H; try discriminate; congruence. Qed.

(** C78: the converted model returns, for every input quantized like the dummy input, exactly what the given model's
    native modules compute on quantized arguments and its other modules on float arguments, as a float tensor - if
    being quantized does not depend on the data and no module is called twice. *)
Theorem C78_equivalent :
  forall backend eng t g dummy m x, engine_of backend = Some eng ->
  convert_model V isq quantize dequantize true backend t g (Some dummy) = Ok m ->
  static V isq t g -> NoDup (calls V (g_instrs V g)) -> map isq x = map isq dummy ->
  forall v, run_model V isq quantize dequantize m g x = Ok v <->
    exists env out, ref_run V isq quantize dequantize eng t (g_instrs V g) x env /\ nth_error env (g_out V g) = Some out /\
      v = to_float V isq dequantize out.
Proof using Hq Hd.
  intros backend eng t g dummy m x He H [St1 St2] Hn Hp v. unfold convert_model in H. cbn [negb] in H. rewrite He in H. inv_bind H.
  rename x0 into c. unfold remove_redundant in H. inv_bind H. inv_bind H. inv_bind H. injection H as <-. destruct x0 as [d' recs]. cbn [fst snd] in *.
  assert (Hs : forall p bs, In (p, bs) recs -> seen recs p = Some bs).
  { intros p bs Hin. apply seen_nodup; auto. rewrite (run_recs _ _ _ _ _ H1). exact Hn. }
  assert (Hst : stat_tree c (g_instrs V g)).
  { split; auto. intros p q f El. pose proof (convert_lookup eng p t c H0) as L. destruct (dlookup t p) as [k|] eqn:Ek; [|congruence].
    destruct L as (qf & L1 & L2). rewrite El in L2. injection L2 as <-. pose proof (conv_leaf_fn eng k q f L1) as Ef.
    destruct (kind_fn V k) as [f'|] eqn:Ekf; subst f; [apply (St1 p k f' Ek Ekf)|].
    intros a b u w Hab Hu Hw. unfold ident in *. destruct a as [|a0 [|]]; try discriminate. destruct b as [|b0 [|]]; try discriminate.
    cbn [map] in Hab. congruence. }
  destruct (run_clean recs c x2 H3 (g_instrs V g) dummy x d' recs Hst H1 (eq_sym Hp) Hs) as [R1 R2].
  unfold run_model. cbn [m_tree m_deq]. rewrite R1.
  assert (Hout : forall e rr out, run c (g_instrs V g) x = Ok (e, rr) -> nth_error e (g_out V g) = Some out -> isq out = isq x1).
  { intros e rr out E Eo. specialize (R2 e rr E). apply fetch_ok in H2. apply (map_nth_error isq) in Eo. apply (map_nth_error isq) in H2. rewrite R2, H2 in Eo. congruence. }
  split.
  - intro E. inv_bind E. destruct x0 as [e rr]. cbn [fst] in *. inv_bind E. apply fetch_ok in H4. injection E as <-. exists e, x0.
    split; [apply (run_ref eng t c H0); eauto|]. split; auto. unfold to_float. rewrite (Hout e rr x0 H H4). reflexivity.
  - intros (env & out & E1 & E2 & ->). apply (run_ref eng t c H0) in E1. destruct E1 as (rr & E1). rewrite E1. cbn [bind fst].
    rewrite (proj2 (fetch_ok env (g_out V g) out) E2). cbn [bind]. unfold to_float. rewrite (Hout env rr out E1 E2). reflexivity.
Qed.

(** C78: its output is never quantized. *)
Theorem C78_float_output :
  forall backend eng t g dummy m x v, engine_of backend = Some eng ->
  convert_model V isq quantize dequantize true backend t g (Some dummy) = Ok m ->
  static V isq t g -> NoDup (calls V (g_instrs V g)) -> map isq x = map isq dummy ->
  run_model V isq quantize dequantize m g x = Ok v -> isq v = false.
Proof using Hq Hd.
  intros backend eng t g dummy m x v He H St Hn Hp Hr. apply (C78_equivalent backend eng t g dummy m x He H St Hn Hp) in Hr.
  destruct Hr as (env & out & _ & _ & ->). unfold to_float. destruct (isq out) eqn:E; auto.
Qed.

(** modules that get a quantize or de-quantize step *)
Definition stepped (k : kind) : Prop := match k with KWrap _ _ _ | KFake _ _ | KLeaf _ _ => True | _ => False end.

(* the trees, seen by their leaves *)
Inductive cleaf_at : ctree -> path -> pre -> Prop :=
| CA_here q f : cleaf_at (CLeaf V q f) [] q
| CA_in n c cs p q : In (n, c) cs -> cleaf_at c p q -> cleaf_at (CNode V cs) (n :: p) q.
Lemma convert_leaf eng t p k : leaf_at t p k -> forall c, convert V eng t = Ok c -> exists qf, conv_leaf V eng k = Ok qf /\ cleaf_at c p (fst qf).
Proof.
  induction 1 as [k|n t cs p k Hin Hl IH]; intros c H.
  - cbn [convert] in H. inv_bind H. injection H as <-. exists x. split; auto. constructor.
  - rewrite convert_node in H. inv_bind H. injection H as <-.
    assert (E : exists c', In (n, c') x /\ convert V eng t = Ok c').
    { clear - Hin H0. revert x H0. induction cs as [|[k' t'] cs IHc]; intros x H0; [contradiction|]. cbn [cgo] in H0. inv_bind H0. inv_bind H0. injection H0 as <-.
      destruct Hin as [Hin|Hin].
      - injection Hin as -> ->. exists x0. split; simpl; auto.
      - destruct (IHc Hin _ H1) as (c' & A & B). exists c'. split; simpl; auto. }
    destruct E as (c' & E1 & E2). destruct (IH c' E2) as (qf & A & B). exists qf. split; auto. econstructor; eauto.
Qed.
Fixpoint csize (c : ctree) : nat := match c with CLeaf _ _ _ => 1 | CNode _ cs => S (fold_right (fun x n => csize (snd x) + n) 0 cs) end%nat.
Lemma csize_in n (c : ctree) cs : In (n, c) cs -> (csize c <= fold_right (fun (x : string * ctree) k => csize (snd x) + k) 0 cs)%nat.
Proof. induction cs as [|x cs IH]; simpl; [contradiction|]. intros [->|H]; simpl; [lia|specialize (IH H); lia]. Qed.
Lemma cleanup_cases recs : forall n c, (csize c <= n)%nat -> forall pfx,
  (exists c', cleanup V recs pfx c = Ok c') \/
  (cleanup V recs pfx c = Raise AttributeError /\ exists p q, cleaf_at c p q /\ q <> PNone /\ seen recs (pfx ++ p)%list = None).
Proof.
  induction n as [|n IH]; intros c Hn pfx; [destruct c; simpl in Hn; lia|]. destruct c as [q f|cs].
  - cbn [cleanup]. destruct q as [|qs|]; cbn [clean_leaf].
    + left. eexists. reflexivity.
    + destruct (seen recs pfx) eqn:E; [left; eexists; reflexivity|right; split; auto]. exists [], (PQuant qs). split; [constructor|]. split; [discriminate|].
      rewrite app_nil_r. auto.
    + destruct (seen recs pfx) eqn:E; [left; eexists; reflexivity|right; split; auto]. exists [], PDeq. split; [constructor|]. split; [discriminate|].
      rewrite app_nil_r. auto.
  - rewrite cleanup_node.
    assert (G : (exists cs', kgo recs pfx cs = Ok cs') \/
      (kgo recs pfx cs = Raise AttributeError /\ exists nm c p q, In (nm, c) cs /\ cleaf_at c p q /\ q <> PNone /\ seen recs (pfx ++ nm :: p)%list = None)).
    { assert (Hb : forall nm c, In (nm, c) cs -> (csize c <= n)%nat) by (intros nm c Hin; pose proof (csize_in nm c cs Hin); cbn [csize] in Hn; lia).
      clear Hn. induction cs as [|[nm c] cs IHc]; cbn [kgo].
      - left. eexists. reflexivity.
      - destruct (IH c (Hb nm c (or_introl eq_refl)) (pfx ++ [nm])%list) as [(c' & ->)|(-> & p & q & A & B & C)]; cbn [bind].
        + destruct IHc as [(cs' & ->)|(-> & nm' & c0 & p & q & A & B)]; [intros; eapply Hb; right; eauto|left; eexists; reflexivity|].
          right. split; auto. exists nm', c0, p, q. split; simpl; auto.
        + right. split; auto. exists nm, c, p, q. rewrite <- app_assoc in C. simpl. auto. }
    destruct G as [(cs' & ->)|(-> & nm & c & p & q & A & B & C & D)]; cbn [bind]; [left; eexists; reflexivity|].
    right. split; auto. exists (nm :: p), q. split; [econstructor; eauto|auto].
Qed.
Lemma convert_leaf_inv eng c p q : cleaf_at c p q -> forall t, convert V eng t = Ok c -> exists k qf, leaf_at t p k /\ conv_leaf V eng k = Ok qf /\ fst qf = q.
Proof.
  induction 1 as [q f|n c cs p q Hin Hl IH]; intros t H; destruct t as [k|ts].
  - cbn [convert] in H. inv_bind H. injection H as <- <-. exists k, x. split; [constructor|auto].
  - rewrite convert_node in H. inv_bind H. discriminate.
  - cbn [convert] in H. inv_bind H. discriminate.
  - rewrite convert_node in H. inv_bind H. injection H as <-.
    assert (E : exists t', In (n, t') ts /\ convert V eng t' = Ok c).
    { clear - Hin H0. revert x H0 Hin. induction ts as [|[k' t'] ts IHc]; intros x H0 Hin; cbn [cgo] in H0.
      - injection H0 as <-. contradiction.
      - inv_bind H0. inv_bind H0. injection H0 as <-. destruct Hin as [Hin|Hin].
        + injection Hin as -> ->. exists t'. split; simpl; auto.
        + destruct (IHc _ H1 Hin) as (t0 & A & B). exists t0. split; simpl; auto. }
    destruct E as (t' & E1 & E2). destruct (IH t' E2) as (k & qf & A & B & C). exists k, qf. split; [econstructor; eauto|auto].
Qed.
Lemma stepped_pre eng k qf : conv_leaf V eng k = Ok qf -> (stepped k <-> fst qf <> PNone).
Proof.
  destruct k; cbn [conv_leaf stepped]; intro H; [inv_bind H|..]; injection H as <-; cbn [fst]; split; intro; auto; try discriminate; congruence.
Qed.
Lemma cleanup_unseen recs c p q : cleaf_at c p q -> q <> PNone -> forall pfx, seen recs (pfx ++ p)%list = None -> forall c', cleanup V recs pfx c <> Ok c'.
Proof.
  induction 1 as [q f|n c cs p q Hin Hl IH]; intros Hq' pfx Hs c' H.
  - cbn [cleanup] in H. rewrite app_nil_r in Hs. rewrite Hs in H. destruct q; try congruence; discriminate.
  - rewrite cleanup_node in H. inv_bind H. clear H. revert x H0. induction cs as [|[k t] cs IHc]; [contradiction|]. intros x H0. cbn [kgo] in H0. inv_bind H0. inv_bind H0.
    destruct Hin as [Hin|Hin].
    + injection Hin as -> ->. apply (IH Hq' (pfx ++ [n])%list) in H; auto. rewrite <- app_assoc. exact Hs.
    + eapply IHc; eauto.
Qed.

(** C78: when the given model runs on the dummy input, the conversion succeeds iff all fallback parameters convert and
    every module that gets a quantize or de-quantize step is called; otherwise, with parameters that convert, it
    raises AttributeError. *)
Theorem C78_all_modules_called :
  forall backend eng t g dummy c env rr out, engine_of backend = Some eng -> convert V eng t = Ok c ->
  run c (g_instrs V g) dummy = Ok (env, rr) -> nth_error env (g_out V g) = Some out ->
  ((exists m, convert_model V isq quantize dequantize true backend t g (Some dummy) = Ok m) <->
    forall p k, leaf_at t p k -> stepped k -> In p (calls V (g_instrs V g))) /\
  (forall e, convert_model V isq quantize dequantize true backend t g (Some dummy) = Raise e -> e = AttributeError).
Proof.
  intros backend eng t g dummy c env rr out He Hc Hr Ho.
  assert (E : convert_model V isq quantize dequantize true backend t g (Some dummy) = do t' <- cleanup V rr [] c; Ok (mkCm V t' (isq out))).
  { unfold convert_model. cbn [negb]. rewrite He, Hc. cbn [bind]. unfold remove_redundant. rewrite Hr. cbn [bind fst snd].
    rewrite (proj2 (fetch_ok env _ out) Ho). reflexivity. }
  rewrite E. pose proof (run_recs _ _ _ _ _ Hr) as Erec. destruct (cleanup_cases rr (csize c) c (Nat.le_refl _) []) as [(c' & Hk)|(Hk & p & q & A & B & D)].
  - rewrite Hk. cbn [bind]. split; [|discriminate]. split; [|intros _; eexists; reflexivity]. intros _ p k Hl Hs.
    destruct (convert_leaf eng t p k Hl c Hc) as (qf & L1 & L2). apply (stepped_pre eng k qf L1) in Hs.
    destruct (in_dec (list_eq_dec string_dec) p (calls V (g_instrs V g))) as [|N]; auto. exfalso.
    rewrite <- Erec in N. apply (cleanup_unseen rr c p (fst qf) L2 Hs [] (seen_none rr p N) c' Hk).
  - rewrite Hk. cbn [bind]. split; [|intros e K; congruence]. split; [intros (m & K); discriminate|]. intro K. exfalso.
    destruct (convert_leaf_inv eng c p q A t Hc) as (k & qf & L1 & L2 & <-). apply (stepped_pre eng k qf L2) in B.
    specialize (K p k L1 B). rewrite <- Erec in K. apply seen_some in K. destruct K as (bs & K). cbn [app] in D. congruence.
Qed.

(** C78: with 8-bit fallback parameters the first pass never fails. *)
Theorem C78_eight_bits_convert :
  forall eng t, (forall p fb f, leaf_at t p (KWrap V fb f) -> forall i q bits m, In (i, (q, bits, m)) fb -> bits = 8%Z) ->
  exists c, convert V eng t = Ok c.
Proof.
  intros eng.
  assert (L : forall k, (forall fb f, k = KWrap V fb f -> forall i q bits m, In (i, (q, bits, m)) fb -> bits = 8%Z) -> exists qf, conv_leaf V eng k = Ok qf).
  { intros k H. destruct k as [fb f|f|f| |f]; cbn [conv_leaf]; try (eexists; reflexivity).
    assert (M : exists qs, mapM (conv_fallback eng) fb = Ok qs).
    { specialize (H fb f eq_refl). induction fb as [|[i [[q bits] m]] fb IH]; cbn [mapM]; [eexists; reflexivity|].
      rewrite (H i q bits m (or_introl eq_refl)). cbn [conv_fallback].
      assert (Q1 : exists c, qparams_to_pytorch [q] 8 m QUInt8 (need_reduce_range eng m QUInt8) = Ok [c]).
      { unfold qparams_to_pytorch. cbn [tdtype_eqb]. destruct (is_sym (PM m)); cbn [andb]; [eexists; reflexivity|].
        destruct (need_reduce_range eng m QUInt8); cbn [Z.eqb Pos.eqb negb map]; eexists; reflexivity. }
      destruct Q1 as (c & ->). cbn [bind one_param]. destruct IH as (qs & ->); [intros; eapply H; right; eauto|]. eexists. reflexivity. }
    destruct M as (qs & ->). eexists. reflexivity. }
  fix IH 1. intros t H. destruct t as [k|cs].
  - destruct (L k) as (qf & E).
    { intros fb f -> i q bits m Hin. apply (H [] fb f (LA_here _) i q bits m Hin). }
    cbn [convert]. rewrite E. eexists. reflexivity.
  - rewrite convert_node. assert (G : exists cs', cgo eng cs = Ok cs').
    { assert (H' : forall n c, In (n, c) cs -> forall p fb f, leaf_at c p (KWrap V fb f) -> forall i q bits m, In (i, (q, bits, m)) fb -> bits = 8%Z).
      { intros n c Hin p fb f Hl. apply (H (n :: p) fb f). econstructor; eauto. }
      clear H. revert H'. induction cs as [|[n c] cs IHc]; intro H'; cbn [cgo]; [eexists; reflexivity|].
      destruct (IH c (H' n c (or_introl eq_refl))) as (c' & ->). destruct IHc as (cs' & ->); [intros; eapply H'; [right|..]; eauto|]. eexists. reflexivity. }
    destruct G as (cs' & ->). eexists. reflexivity.
Qed.

(** C78: what is refused beforehand. *)
Theorem C78_refused :
  forall is_ptq backend t g dummy, is_ptq = false \/ dummy = None \/ (backend <> "fbgemm" /\ backend <> "qnnpack")%string ->
  convert_model V isq quantize dequantize is_ptq backend t g dummy = Raise ValueError.
Proof.
  intros is_ptq backend t g dummy H. unfold convert_model. destruct is_ptq; cbn [negb]; auto. destruct dummy; auto.
  destruct H as [H|[H|[H1 H2]]]; try discriminate. unfold engine_of. destruct (String.eqb_spec backend "fbgemm"); [contradiction|].
  destruct (String.eqb_spec backend "qnnpack"); [contradiction|]. reflexivity.
Qed.
End Cvt.

(* ---- a concrete instance: a tensor is a flag and its values ---- *)
Definition xV : Type := (bool * list Q)%type.
Definition x_q (c : Q * Z) (v : xV) : xV := (true, map (fun x => Zq (Z.min (Z.max (rhe (x / fst c) + snd c) 0) 255 - snd c)%Z * fst c) (snd v)).
Definition x_dq (v : xV) : xV := (false, snd v).
(** a native quantized module: refuses float tensors *)
Definition x_native (k : Q) : fn xV := fun a => match a with [(true, v)] => Ok (true, map (Qmult k) v) | _ => Raise RuntimeError end.
(** a float module: refuses quantized tensors *)
Definition x_float : fn xV := fun a => match a with [(false, v)] => Ok (false, map (Qplus 1) v) | _ => Raise RuntimeError end.
Definition x_fb : list (nat * (Q * Q * Z * lqmode)) := [(0%nat, ((255 # 4), 0, 8%Z, ASU))].
Definition x_tree : dtree xV :=
  DNode xV [("conv"%string, DLeaf xV (KWrap xV x_fb (x_native 2)));
            ("block"%string, DNode xV [("soft"%string, DLeaf xV (KLeaf xV x_float)); ("id"%string, DLeaf xV (KIdent xV))]);
            ("fc"%string, DLeaf xV (KWrap xV x_fb (x_native 3)))].
Definition x_prog : program xV :=
  mkProg xV [ICall xV ["conv"%string] [0%nat]; ICall xV ["block"; "id"]%string [1%nat]; ICall xV ["block"; "soft"]%string [2%nat]; ICall xV ["fc"%string] [3%nat]] 4.

Example C78_ex :
  exists m, convert_model xV fst x_q x_dq true "fbgemm" x_tree x_prog (Some [(false, [1; 2])]) = Ok m /\
    static xV fst x_tree x_prog /\ NoDup (calls xV (g_instrs xV x_prog)) /\
    (exists v, run_model xV fst x_q x_dq m x_prog [(false, [4; 1])] = Ok (false, v) /\ map Qred v = [3060#127; 1152#127]) /\
    (* the de-quantization of "soft" stays, the output is de-quantized *) m_deq xV m = true.
Proof.
  eexists. split; [reflexivity|]. split.
  - assert (N : forall k, static_fn xV fst (x_native k)).
    { intros k a b u v H Ha Hb. destruct a as [|[[] ?] [|]]; try discriminate. destruct b as [|[[] ?] [|]]; try discriminate.
      injection Ha as <-. injection Hb as <-. reflexivity. }
    assert (F : static_fn xV fst x_float).
    { intros a b u v H Ha Hb. destruct a as [|[[] ?] [|]]; try discriminate. destruct b as [|[[] ?] [|]]; try discriminate.
      injection Ha as <-. injection Hb as <-. reflexivity. }
    split.
    + intros p k f Hl Hf. destruct p as [|n p]; [discriminate|]. cbn [dlookup x_tree] in Hl.
      destruct (String.eqb n "conv"); [destruct p; [|discriminate]; injection Hl as <-; injection Hf as <-; apply N|].
      destruct (String.eqb n "block").
      * destruct p as [|n' p]; [discriminate|]. destruct (String.eqb n' "soft"); [destruct p; [|discriminate]; injection Hl as <-; injection Hf as <-; apply F|].
        destruct (String.eqb n' "id"); [destruct p; [|discriminate]; injection Hl as <-; discriminate|discriminate].
      * destruct (String.eqb n "fc"); [destruct p; [|discriminate]; injection Hl as <-; injection Hf as <-; apply N|discriminate].
    + intros f a H. cbn in H. intuition discriminate.
  - split; [cbn; repeat constructor; cbn; intuition discriminate|]. split; [|reflexivity].
    eexists. split; [vm_compute; reflexivity|]. vm_compute. reflexivity.
Qed.

Definition get_c (r : res (ctree xV)) : ctree xV := match r with Ok c => c | Raise _ => CNode xV [] end.

(** C78: a module called twice: the second call decides; when its argument is quantized, the quantizer is removed and the
    first call - with a float argument - fails, on every input, although the given model computes. *)
Theorem C78_reused_module_refuted :
  let t := DNode xV [("m"%string, DLeaf xV (KWrap xV x_fb (x_native 2)))] in
  let g := mkProg xV [ICall xV ["m"%string] [0%nat]; ICall xV ["m"%string] [1%nat]] 2 in
  exists m, convert_model xV fst x_q x_dq true "fbgemm" t g (Some [(false, [1])]) = Ok m /\
  (exists env, ref_run xV fst x_q x_dq FBGEMM t (g_instrs xV g) [(false, [1])] env) /\
  forall v, run_model xV fst x_q x_dq m g [(false, v)] = Raise RuntimeError.
Proof.
  eexists. split; [reflexivity|]. split; [|intro v; reflexivity].
  eexists. apply (run_ref xV fst x_q x_dq FBGEMM _ (get_c (convert xV FBGEMM (DNode xV [("m"%string, DLeaf xV (KWrap xV x_fb (x_native 2)))])))) ; [reflexivity|].
  eexists. reflexivity.
Qed.

(** C78: a module that the dummy forward does not call (an auxiliary classifier, say) makes the conversion fail. *)
Example C78_uncalled_ex :
  convert_model xV fst x_q x_dq true "fbgemm" x_tree
    (mkProg xV [ICall xV ["conv"%string] [0%nat]; ICall xV ["fc"%string] [1%nat]] 2) (Some [(false, [1])]) = Raise AttributeError.
Proof. reflexivity. Qed.

Print Assumptions C78_equivalent.
Print Assumptions C78_float_output.
Print Assumptions C78_all_modules_called.
Print Assumptions C78_eight_bits_convert.
Print Assumptions C78_refused.
Print Assumptions C78_reused_module_refuted.
