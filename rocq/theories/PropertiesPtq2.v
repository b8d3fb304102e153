(** C76: conversion of quantized tensors to PyTorch; C77: conversion of a quantized layer. *)
From Coq Require Import String List ZArith QArith Qabs Qround Qpower Bool Arith Lia Lqa Setoid Morphisms.
From Verif Require Import Base Lists StructModel QuantModel QuantSpec QuantProofs PropertiesQuant RangeModel RangeSpec RangeProofs RangeWrapProofs PropertiesRange PtqModel PtqSpec PtqProofs PropertiesPtq.
Import ListNotations.

Lemma bc_pick {A} (l : list A) c : (length l = 1 \/ c < length l)%nat ->
  exists p, In p l /\ (forall d, bc d l c = p) /\ forall B (f : A -> B) d, bc d (map f l) c = f p.
Proof.
  intro H. destruct l as [|a [|b r]].
  - simpl in H. lia.
  - exists a. simpl. auto.
  - assert (Hc : (c < length (a :: b :: r))%nat) by (destruct H; auto; discriminate).
    destruct (nth_error (a :: b :: r) c) as [p|] eqn:E; [|apply nth_error_None in E; lia].
    exists p. split; [eapply nth_error_In; eauto|]. split.
    + intro d. unfold bc. apply nth_error_nth. auto.
    + intros B f d. change (bc d (map f (a :: b :: r)) c) with (nth c (map f (a :: b :: r)) d).
      apply nth_error_nth. apply map_nth_error. auto.
Qed.
Lemma map2_map_r {A B C} (f : A -> B -> C) (g : A -> B) l : map2 f l (map g l) = map (fun x => f x (g x)) l.
Proof. induction l; simpl; congruence. Qed.
Lemma mapi_rel {A B C} (f : nat -> A -> B) (g : nat -> A -> C) (R : B -> C -> Prop) l c0 :
  (forall c a, (c0 <= c < c0 + length l)%nat -> In a l -> R (f c a) (g c a)) -> Forall2 R (mapi f c0 l) (mapi g c0 l).
Proof.
  revert c0. induction l as [|a l IH]; intros c0 H; simpl; constructor.
  - apply H; simpl; [lia|auto].
  - apply IH. intros c b Hc Hb. apply H; simpl in *; [lia|auto].
Qed.
Lemma mapi_mapi {A B C} (f : nat -> B -> C) (g : nat -> A -> B) l c0 : mapi f c0 (mapi g c0 l) = mapi (fun c a => f c (g c a)) c0 l.
Proof. revert c0. induction l; intro c0; simpl; congruence. Qed.
Lemma mapi_Forall {A B} (f : nat -> A -> B) (P : B -> Prop) l c0 :
  (forall c a, (c0 <= c < c0 + length l)%nat -> In a l -> P (f c a)) -> Forall P (mapi f c0 l).
Proof.
  revert c0. induction l as [|a l IH]; intros c0 H; simpl; constructor.
  - apply H; simpl; [lia|auto].
  - apply IH. intros c b Hc Hb. apply H; simpl in *; [lia|auto].
Qed.
Lemma Forall2_map_pt {A B C} (f : A -> B) (g : A -> C) (R : B -> C -> Prop) l : (forall a, In a l -> R (f a) (g a)) -> Forall2 R (map f l) (map g l).
Proof. induction l; simpl; intro H; constructor; auto. Qed.

Lemma is_int_Zq x z : x == Zq z -> is_int x = true.
Proof. intro H. unfold is_int. apply Qeq_bool_iff. rewrite (tlong_Zq x z H). auto. Qed.
Lemma is_int_inv x : is_int x = true -> exists z, x == Zq z.
Proof. unfold is_int. intro H. apply Qeq_bool_iff in H. eauto. Qed.

Lemma wrap_id dt z : dt8 dt -> (dt_min dt <= z <= dt_max dt)%Z -> wrap_int dt z = z.
Proof. intros [-> | ->] H; unfold wrap_int, dt_min, dt_max in *; [rewrite Z.mod_small|rewrite Z.mod_small]; lia. Qed.

(** the parameters of a tensor: positive scale, integral zero-point, 0 for the symmetric modes *)
Definition par_ok (m : lqmode) (p : Q * Q) : Prop := 0 < fst p /\ (is_sym (PM m) = true -> snd p == 0) /\ exists k, snd p == Zq k.
(** an element of Distiller's quantized tensor *)
Definition q_elem (bits : Z) (m : lqmode) (x : Q) : Prop :=
  exists q, x == Zq q /\ (fst (mode_range bits (PM m)) <= q <= snd (mode_range bits (PM m)))%Z.

Lemma par_ok_k m p : par_ok m p -> exists k, snd p == Zq k /\ (is_sym (PM m) = true -> k = 0%Z).
Proof.
  intros (_ & H0 & k & Hk). exists k. split; auto. intro Hs. specialize (H0 Hs). rewrite Hk in H0. apply (Zq_inj k 0). exact H0.
Qed.

(** C76: for up to 8 bits, every mode, both 8-bit dtypes, per-tensor or per-channel parameters: the PyTorch tensor holds
    integers of its dtype and stands for exactly the values Distiller's tensor stands for. *)
Theorem C76_same_values :
  forall t par bits m dt pc, (1 <= bits <= 8)%Z -> dt8 dt ->
  Forall (Forall (q_elem bits m)) t -> Forall (par_ok m) par ->
  (length par = 1%nat \/ (pc = true /\ length par = length t)) -> (length par <> 0)%nat ->
  exists r, quantized_tensor_to_pytorch t par bits m dt pc = Ok r /\
    qparams_to_pytorch par bits m dt false = Ok (pt_par r) /\
    Forall (Forall (fun z => (dt_min dt <= z <= dt_max dt)%Z)) (pt_int r) /\
    Forall2 (Forall2 Qeq) (pt_value r) (dequant_rows par t).
Proof.
  intros t par bits m dt pc Hb Hd Ht Hp Hl Hl0.
  assert (Hd' : dt <> QInt32) by (destruct Hd as [-> | ->]; discriminate).
  set (cp := map (convert1 bits m dt) par).
  assert (Eq : qparams_to_pytorch par bits m dt false = Ok cp).
  { unfold qparams_to_pytorch. assert (tdtype_eqb dt QInt32 = false) as -> by (destruct Hd as [-> | ->]; reflexivity).
    destruct (is_sym (PM m) && tdtype_eqb dt QUInt8); reflexivity. }
  set (zd := map (fun p => Zq (- snd (convert1 bits m dt p)) - snd p) par).
  set (data := mapi (fun c row => map (fun x => wrap_int dt (tlong (x - bc 0 zd c))) row) 0 t).
  assert (Hint : forallb (forallb is_int) t = true).
  { apply forallb_forall. intros row Hr. apply forallb_forall. intros x Hx. rewrite Forall_forall in Ht. specialize (Ht row Hr).
    rewrite Forall_forall in Ht. destruct (Ht x Hx) as (q & E & _). eapply is_int_Zq; eauto. }
  assert (Ec : quantized_tensor_to_pytorch t par bits m dt pc = Ok (mkPt data cp)).
  { unfold quantized_tensor_to_pytorch. rewrite Hint. cbn [negb]. rewrite Eq. cbn [bind].
    unfold cp. rewrite map2_map_r. fold cp zd data.
    destruct (pc && Nat.ltb 1 (length par)) eqn:E; auto.
    assert (L1 : length par = 1%nat).
    { destruct Hl as [|[-> _]]; auto. cbn [andb] in E. apply Nat.ltb_ge in E. lia. }
    assert (length cp = 1%nat) by (unfold cp; rewrite map_length; auto). destruct cp as [|p [|]]; simpl in *; try discriminate; auto. }
  exists (mkPt data cp). split; auto. split; [exact Eq|]. cbn [pt_int].
  (* one element *)
  assert (Hel : forall c row x, (0 <= c < 0 + length t)%nat -> In row t -> In x row ->
     exists p k q, In p par /\ snd p == Zq k /\ 0 < fst p /\ (forall d, bc d par c = p) /\
       bc (1, 0%Z) cp c = (1 / fst p, (pt_off bits m dt - k)%Z) /\ x == Zq q /\
       wrap_int dt (tlong (x - bc 0 zd c)) = (q + pt_off bits m dt)%Z /\ (dt_min dt <= q + pt_off bits m dt <= dt_max dt)%Z).
  { intros c row x Hc Hr Hx. destruct (bc_pick par c) as (p & Hin & Hb1 & Hb2); [destruct Hl as [|[_ ->]]; lia|].
    rewrite Forall_forall in Hp. pose proof (Hp p Hin) as Hpk. pose proof Hpk as (Hs & _). destruct (par_ok_k m p Hpk) as (k & Hk & Hk0).
    rewrite Forall_forall in Ht. specialize (Ht row Hr). rewrite Forall_forall in Ht. destruct (Ht x Hx) as (q & Eqx & Hq).
    pose proof (convert1_eq bits m dt (fst p) (snd p) k Hd' Hk Hk0) as Ecv. rewrite <- surjective_pairing in Ecv.
    exists p, k, q. split; auto. split; auto. split; auto. split; auto. split; [unfold cp; rewrite (Hb2 _ (convert1 bits m dt)); exact Ecv|].
    split; auto.
    assert (Hrg : (dt_min dt <= q + pt_off bits m dt <= dt_max dt)%Z) by (destruct (frame bits m dt Hb Hd) as [(F1 & F2 & F3) _]; lia).
    split; auto. unfold zd. rewrite (Hb2 _ (fun p => Zq (- snd (convert1 bits m dt p)) - snd p)), Ecv. cbn [snd].
    rewrite (tlong_Zq _ (q + pt_off bits m dt)).
    - apply wrap_id; auto.
    - rewrite Eqx, Hk, Zq_opp, Zq_minus, Zq_plus. ring. }
  split.
  - apply mapi_Forall. intros c row Hc Hr. rewrite Forall_map. apply Forall_forall. intros x Hx.
    destruct (Hel c row x Hc Hr Hx) as (p & k & q & _ & _ & _ & _ & _ & _ & E & R). rewrite E. exact R.
  - unfold pt_value, dequant_rows. cbn [pt_int pt_par]. unfold data. rewrite mapi_mapi. apply mapi_rel. intros c row Hc Hr.
    rewrite map_map. apply Forall2_map_pt. intros x Hx.
    destruct (Hel c row x Hc Hr Hx) as (p & k & q & _ & Hk & Hs & Hb1 & Hb2 & Hxq & E & _).
    rewrite E, Hb2. unfold scale_of, zp_of, t_dequantize, linear_dequantize. rewrite Hb1. cbn [fst snd].
    rewrite Hk, Hxq, !Zq_minus, Zq_plus. field. lra.
Qed.

(** C76: a tensor that is not integral is refused; so are several scales without per_channel. *)
Theorem C76_refused :
  forall t par bits m dt pc,
  ((exists row x, In row t /\ In x row /\ forall z, ~ x == Zq z) -> quantized_tensor_to_pytorch t par bits m dt pc = Raise AssertionError) /\
  (dt8 dt -> pc = false -> (1 < length par)%nat -> forall r, quantized_tensor_to_pytorch t par bits m dt pc <> Ok r).
Proof.
  intros t par bits m dt pc. unfold quantized_tensor_to_pytorch. split.
  - intros (row & x & Hr & Hx & Hz).
    assert (forallb (forallb is_int) t = false) as ->; auto.
    apply not_true_is_false. intro K. rewrite forallb_forall in K. specialize (K row Hr). rewrite forallb_forall in K.
    destruct (is_int_inv _ (K x Hx)) as (z & E). apply (Hz z E).
  - intros Hd -> Hl r H. destruct (negb _); [discriminate|]. inv_bind H. cbn [andb] in H.
    destruct (proj1 (C75_per_channel par bits m dt false) x H0) as [L _].
    destruct x as [|a [|b x]]; try discriminate. simpl in L. lia.
Qed.

Example C76_ex :
  exists r, quantized_tensor_to_pytorch [[-128; 127]; [0; 5]] [(2, -3); (4, 100)] 8 ASS QUInt8 true = Ok r /\
    pt_int r = [[0; 255]; [128; 133]]%Z /\ map snd (pt_par r) = [131; 28]%Z /\
    Forall (Forall (q_elem 8 ASS)) [[-128; 127]; [0; 5]] /\ Forall (par_ok ASS) [(2, -3); (4, 100)].
Proof.
  eexists. split; [reflexivity|]. repeat split; try reflexivity.
  - repeat constructor; [exists (-128)%Z|exists 127%Z|exists 0%Z|exists 5%Z]; vm_compute; split; try reflexivity; split; discriminate.
  - repeat constructor; cbn; try discriminate; [exists (-3)%Z|exists 100%Z]; reflexivity.
Qed.

(** C76: the documentation of the function lists torch.qint32 among the results; it is always refused. *)
Theorem C76_qint32_refuted :
  forall t par bits m pc, exists e, quantized_tensor_to_pytorch t par bits m QInt32 pc = Raise e.
Proof. intros. unfold quantized_tensor_to_pytorch. destruct (negb _); eexists; reflexivity. Qed.

(* ------------------------------------------------------------------------- *)
Section Layer.
Variables (cfg : pcfg) (g : geom) (W : list (list Q)) (b0 : option (list Q)) (sx : Q).
Hypothesis Hacts : p_acts cfg = Some 8%Z.
Let asym := negb (is_sym (PM (p_mode_w cfg))).

Lemma plain_run ops : forall sh s s', plain_history sx ops -> preset_of cfg = true -> inv cfg W (sh && asym) s -> inv_static cfg b0 sx s ->
  (w_forwards s <> 0%nat -> w_readjust s = false) -> (w_forwards s = 0%nat -> w_bias s = b0) -> pw_run cfg g ops s = Ok s' ->
  inv cfg W (forward_since_save ops sh && asym) s' /\ inv_static cfg b0 sx s' /\ w_par s' = w_par s /\ w_out s' = w_out s /\
  (w_forwards s' <> 0%nat -> w_readjust s' = false) /\
  (w_forwards s' = 0%nat -> w_bias s' = b0) /\
  (w_forwards s' = 0%nat <-> w_forwards s = 0%nat /\ existsb is_forward ops = false).
Proof using Hacts.
  induction ops as [|o ops IH]; intros sh s s' Hpl Hp Hi Hs Hr Hb H; cbn [pw_run foldM] in H.
  - injection H as <-. cbn [forward_since_save existsb]. repeat split; auto; try apply Hi; try apply Hs; tauto.
  - inv_bind H. assert (Hpl' : plain_history sx ops) by (intros o' Ho'; apply Hpl; right; auto).
    destruct (Hpl o (or_introl eq_refl)) as [-> | (md & xx & -> & Hsx)]; cbn [pw_step] in H0.
    + injection H0 as <-. unfold pw_state_dict in H. rewrite Hacts in H. cbn [forward_since_save existsb is_forward orb].
      pose proof Hi as [K1 K2 K3 K4 K5 K6 K7]. rewrite K5 in H. destruct (sh && asym) eqn:E.
      * match type of H with foldM _ _ ?s1 = _ => set (x1 := s1) in H end.
        assert (J : inv cfg W (false && asym) x1).
        { constructor; unfold x1; cbn [w_float w_par w_shifted w_weight andb]; auto.
          eapply rows_eq_trans; [apply shift_rows_ext; exact K7|]. apply shift_unshift. }
        assert (J2 : inv_static cfg b0 sx x1) by (destruct Hs; constructor; auto).
        destruct (IH false x1 s' Hpl' Hp J J2 Hr Hb H) as (A1 & A2 & A3 & A4 & A5 & A6 & A7). repeat split; auto; try apply A1; try apply A2; tauto.
      * assert (J : inv cfg W (false && asym) s) by exact Hi.
        destruct (IH false s s' Hpl' Hp J Hs Hr Hb H) as (A1 & A2 & A3 & A4 & A5 & A6 & A7). repeat split; auto; try apply A1; try apply A2; tauto.
    + inv_bind H0. assert (Hx : x = fst x0) by congruence. rewrite Hx in H. clear Hx H0 x. cbn [forward_since_save existsb is_forward orb].
      assert (G1 : good_history asym (eq sx) (sh && asym) [OpForward md xx]) by (cbn [good_history]; auto).
      assert (St : pw_step cfg g s (OpForward md xx) = Ok (fst x0)) by (cbn [pw_step]; rewrite H1; reflexivity).
      pose proof (step_static cfg g b0 sx 8 Hacts (sh && asym) s (OpForward md xx) (fst x0) [] Hp G1 Hs St) as J2.
      unfold pw_forward in H1. rewrite Hacts in H1. unfold quantized_forward in H1. rewrite Hp in H1. cbn [bind] in H1.
      destruct (par_stable cfg (q_scale md) s) as (P1 & P2 & P3 & P4 & P5).
      pose proof (shift_inv _ _ _ _ (adjust_inv cfg W (q_scale md) _ _ Hi)) as K. fold asym in K.
      assert (Ea : (sh && asym || asym) = (true && asym)) by (destruct sh, asym; auto). rewrite Ea in K.
      set (s1 := shift_once cfg (adjust cfg (q_scale md) s)) in *.
      assert (Ex : fst x0 = mkPw (w_weight s1) (w_float s1) (w_par s1) (w_bias s1) (w_fp_bias s1) (w_base_b s1) (w_b_par s1) (w_out s1)
               (w_accum_scale s1) (w_shifted s1) (S (w_forwards s1)) (w_readjust s1)).
      { injection H1 as <-. reflexivity. }
      assert (J : inv cfg W (true && asym) (fst x0)).
      { rewrite Ex. destruct K as [K1 K2 K3 K4 K5 K6 K7]. constructor; auto. }
      assert (Jr : w_forwards (fst x0) <> 0%nat -> w_readjust (fst x0) = false).
      { intros _. rewrite Ex. cbn [w_readjust]. unfold s1, shift_once, adjust. rewrite Hp.
        destruct (Nat.eqb (w_forwards s) 0) eqn:E0; cbn [orb]; destruct (w_readjust s) eqn:E1;
          destruct (negb (is_sym _) && negb _); cbn [w_readjust]; auto; exfalso; apply Nat.eqb_neq in E0; specialize (Hr E0); congruence. }
      assert (Jb : w_forwards (fst x0) = 0%nat -> w_bias (fst x0) = b0) by (rewrite Ex; cbn [w_forwards]; discriminate).
      destruct (IH true (fst x0) s' Hpl' Hp J J2 Jr Jb H) as (A1 & A2 & A3 & A4 & A5 & A6 & A7).
      assert (E1 : w_par (fst x0) = w_par s /\ w_out (fst x0) = w_out s /\ w_forwards (fst x0) <> 0%nat).
      { rewrite Ex. cbn [w_par w_out w_forwards]. rewrite P1, P2. auto. }
      destruct E1 as (E1 & E2 & E3).
      split; [exact A1|]. split; [exact A2|]. split; [congruence|]. split; [congruence|]. split; [exact A5|]. split; [exact A6|].
      split; [intro K0; apply A7 in K0; destruct K0; contradiction|intros [_ K0]; discriminate].
Qed.
End Layer.

Lemma quant_rows_elems bits m par W : (1 <= bits)%Z -> Forall (Forall (q_elem bits m)) (quant_rows bits m par W).
Proof.
  intro Hb. unfold quant_rows. apply mapi_Forall. intros c row _ _. rewrite Forall_map. apply Forall_forall. intros x _.
  destruct (quant_Z x (scale_of par c) (zp_of par c) (fst (mode_range bits (PM m))) (snd (mode_range bits (PM m)))) as (q & E & R).
  { pose proof (mode_range_le bits (PM m) Hb). lia. }
  exists q. rewrite E. split; [reflexivity|auto].
Qed.
Lemma q_elem_rows_eq bits m a b : rows_eq a b -> Forall (Forall (q_elem bits m)) b -> Forall (Forall (q_elem bits m)) a.
Proof.
  intros H Hb. induction H as [|x y a b Hxy Hab IH]; constructor.
  - apply Forall_inv in Hb. clear - Hxy Hb. induction Hxy as [|u v l l' Huv Hll IH]; constructor.
    + apply Forall_inv in Hb. destruct Hb as (q & E & R). exists q. split; auto. rewrite Huv. auto.
    + apply IH. eapply Forall_inv_tail; eauto.
  - apply IH. eapply Forall_inv_tail; eauto.
Qed.
Lemma dequant_rows_ext par a b : rows_eq a b -> rows_eq (dequant_rows par a) (dequant_rows par b).
Proof.
  intro H. unfold dequant_rows. apply (mapi_F2 (Forall2 Qeq)); auto. intros c x y Hxy. induction Hxy; simpl; constructor; auto.
  unfold linear_dequantize. rewrite H0. reflexivity.
Qed.
Lemma dequant_quant bits m par W : dequant_rows par (quant_rows bits m par W) = weight_fq bits m par W.
Proof.
  unfold dequant_rows, quant_rows, weight_fq. cbv zeta. generalize 0%nat. induction W as [|r W IH]; intro c; cbn [mapi]; [reflexivity|].
  rewrite IH, map_map. reflexivity.
Qed.
