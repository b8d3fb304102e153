(** The post-training wrapper: invariant over histories and the arithmetic of a forward. *)
From Coq Require Import String List ZArith QArith Qabs Qround Qpower Bool Arith Lia Lqa Setoid Morphisms.
From Verif Require Import Base Lists StructModel QuantModel QuantSpec QuantProofs PropertiesQuant RangeModel RangeSpec RangeProofs.
Import ListNotations.

(** * Lists *)
Lemma mapi_length {A B} (f : nat -> A -> B) k l : length (mapi f k l) = length l.
Proof. revert k; induction l; intro k; simpl; auto. Qed.
Lemma mapi_nth {A B} (f : nat -> A -> B) k l c da db : (c < length l)%nat -> nth c (mapi f k l) db = f (k + c)%nat (nth c l da).
Proof.
  revert k c; induction l as [|a l IH]; intros k c H; simpl in *; [lia|]. destruct c; simpl.
  - f_equal. lia.
  - rewrite IH by lia. f_equal. lia.
Qed.
Lemma mapi_F2 {A A' B B'} (R : A -> A' -> Prop) (S : B -> B' -> Prop) f g l l' :
  (forall c x y, R x y -> S (f c x) (g c y)) -> Forall2 R l l' -> forall k, Forall2 S (mapi f k l) (mapi g k l').
Proof. intros H HF. induction HF; intro k; simpl; constructor; auto. Qed.
Lemma mapi_mapi {A B C} (f : nat -> B -> C) (g : nat -> A -> B) l k : mapi f k (mapi g k l) = mapi (fun c x => f c (g c x)) k l.
Proof. revert k; induction l; intro k; simpl; f_equal; auto. Qed.
Lemma F2_map_l {A B C} (R : B -> C -> Prop) (f : A -> B) l l' : Forall2 (fun x y => R (f x) y) l l' -> Forall2 R (map f l) l'.
Proof. induction 1; simpl; constructor; auto. Qed.
Lemma F2_map_same {A B} (R : B -> B -> Prop) (f g : A -> B) l : (forall x, In x l -> R (f x) (g x)) -> Forall2 R (map f l) (map g l).
Proof. induction l; intro H; simpl; constructor; auto. apply H; left; auto. apply IHl; intros; apply H; right; auto. Qed.
Lemma F2_refl {A} (R : A -> A -> Prop) l : (forall x, R x x) -> Forall2 R l l.
Proof. intro H; induction l; constructor; auto. Qed.
Lemma F2_trans {A} (R : A -> A -> Prop) : (forall x y z, R x y -> R y z -> R x z) -> forall a b c, Forall2 R a b -> Forall2 R b c -> Forall2 R a c.
Proof. intros HR a b c H. revert c. induction H; intros c Hc; inversion Hc; subst; constructor; eauto. Qed.
Lemma F2_nth {A B} (R : A -> B -> Prop) l l' i da db : Forall2 R l l' -> (i < length l)%nat -> R (nth i l da) (nth i l' db).
Proof. intro H. revert i. induction H; intros i Hi; simpl in *; [lia|]. destruct i; auto. apply IHForall2. lia. Qed.
Lemma map2_nth_error {A B C} (f : A -> B -> C) a b i x y : nth_error a i = Some x -> nth_error b i = Some y -> nth_error (map2 f a b) i = Some (f x y).
Proof. revert b i; induction a as [|u a IH]; intros [|v b] [|i]; simpl; try discriminate; intros; try congruence. apply IH; auto. Qed.

Lemma F2_length {A B} {R : A -> B -> Prop} {l l'} : Forall2 R l l' -> length l = length l'.
Proof. induction 1; simpl; auto. Qed.

Definition rows_eq (a b : list (list Q)) : Prop := Forall2 (Forall2 Qeq) a b.
Lemma rows_eq_refl a : rows_eq a a.
Proof. apply F2_refl. intro. apply F2_refl. intro. reflexivity. Qed.
Lemma rows_eq_trans a b c : rows_eq a b -> rows_eq b c -> rows_eq a c.
Proof. apply F2_trans. intros x y z. apply F2_trans. intros u v w Hu Hv. rewrite Hu; auto. Qed.
Lemma F2_sym {A} (R : A -> A -> Prop) : (forall x y, R x y -> R y x) -> forall a b, Forall2 R a b -> Forall2 R b a.
Proof. intros HR a b H. induction H; constructor; auto. Qed.
Lemma rows_eq_sym a b : rows_eq a b -> rows_eq b a.
Proof. apply F2_sym. intros x y. apply F2_sym. intros u v Hu. symmetry; auto. Qed.

Lemma shift_rows_ext sgn par a b : rows_eq a b -> rows_eq (shift_rows sgn par a) (shift_rows sgn par b).
Proof.
  intro H. unfold shift_rows. apply (mapi_F2 (Forall2 Qeq)); auto. intros c x y Hxy. induction Hxy; simpl; constructor; auto.
  rewrite H0. reflexivity.
Qed.
Lemma shift_unshift par a : rows_eq (shift_rows (-1) par (shift_rows 1 par a)) a.
Proof.
  unfold shift_rows. rewrite mapi_mapi. generalize 0%nat. induction a as [|r a IH]; intro k; simpl; constructor; [|apply IH].
  rewrite map_map. induction r; simpl; constructor; auto. ring.
Qed.
Lemma shift_zero sgn par a : (forall c, zp_of par c == 0) -> rows_eq (shift_rows sgn par a) a.
Proof.
  intro H. unfold shift_rows. generalize 0%nat. induction a as [|r a IH]; intro k; simpl; constructor; [|apply IH].
  induction r; simpl; constructor; auto. rewrite H. ring.
Qed.

Lemma bc_Forall {A} (P : A -> Prop) d l c : Forall P l -> P d -> P (bc d l c).
Proof.
  intros H Hd. unfold bc. destruct l as [|x [|y l]].
  - destruct c; auto.
  - inversion H; auto.
  - destruct (nth_in_or_default c (x :: y :: l) d) as [K|K]; [|rewrite K; auto].
    rewrite Forall_forall in H. auto.
Qed.
Lemma bc_map {A B} (f : A -> B) d d' l c : (length l = 1%nat \/ c < length l)%nat -> bc d' (map f l) c = f (bc d l c).
Proof.
  intro H. unfold bc. destruct l as [|x [|y l]].
  - simpl in H. lia.
  - reflexivity.
  - simpl in H. change (map f (x :: y :: l)) with (f x :: f y :: map f l). cbv beta iota.
    change (f x :: f y :: map f l) with (map f (x :: y :: l)).
    rewrite nth_indep with (d' := f d) by (rewrite map_length; simpl; lia). apply map_nth.
Qed.

(** * Dot products *)
Lemma dot_scaled a b w w' x x' : Forall2 (fun u v => u == a * v) w w' -> Forall2 (fun u v => u == b * v) x x' ->
  dot w x == a * b * dot w' x'.
Proof.
  intro H. revert x x'. induction H; intros x0 x0' Hx; [unfold dot; simpl; ring|].
  inversion Hx; subst; [unfold dot; simpl; ring|]. specialize (IHForall2 _ _ H2). unfold dot in *. simpl. rewrite H, H1.
  change (fold_right Qplus 0 (map2 Qmult l l0)) with (qsum (map2 Qmult l l0)).
  change (fold_right Qplus 0 (map2 Qmult l' l'0)) with (qsum (map2 Qmult l' l'0)). rewrite IHForall2. ring.
Qed.
Lemma gather_scaled b x x' win : Forall2 (fun u v => u == b * v) x x' -> Forall2 (fun u v => u == b * v) (gather x win) (gather x' win).
Proof.
  intro H. unfold gather. induction win as [|o win IH]; simpl; constructor; auto.
  cbv beta. clear IH. destruct o as [i|]; [|ring]. revert i. induction H; intros [|i]; simpl; auto; ring.
Qed.

Section Wrap.
Variables (cfg : pcfg) (g : geom) (W : list (list Q)) (b0 : option (list Q)) (sx : Q).
Hypothesis Hacc : (1 <= p_accum cfg)%Z.
Let asym := negb (is_sym (PM (p_mode_w cfg))).
Let ar := accum_range cfg.
Definition Wq (par : list (Q * Q)) := quant_rows (p_wts cfg) (p_mode_w cfg) par W.

(** what does not depend on the activations being quantized statically or dynamically *)
Record inv (sh : bool) (s : pw) : Prop := mkInv {
  i_float : w_float s = W;
  i_len : length (w_par s) = 1%nat \/ length (w_par s) = length W;
  i_pos : Forall (fun p => 0 < fst p) (w_par s);
  i_zp : asym = false -> Forall (fun p => snd p == 0) (w_par s);
  i_sh : w_shifted s = sh;
  i_sym : asym = false -> sh = false;
  i_w : rows_eq (w_weight s) (if sh then shift_rows 1 (w_par s) (Wq (w_par s)) else Wq (w_par s)) }.

Record inv_static (s : pw) : Prop := mkInvS {
  is_fp : w_fp_bias s = b0;
  is_none : w_bias s = None <-> b0 = None;
  is_adj : w_forwards s <> 0%nat -> w_readjust s = false ->
           w_accum_scale s = get_accum_scale cfg sx (w_par s) /\
           w_bias s = option_map (quant_bias ar (get_accum_scale cfg sx (w_par s))) b0 }.

Record inv_dyn (bp : Q * Q) (s : pw) : Prop := mkInvD {
  id_bp : w_b_par s = bp;
  id_none : w_bias s = None <-> b0 = None;
  id_base : w_base_b s = option_map (map (fun x => linear_quantize_clamp x (fst bp) (snd bp) (Zq (fst ar)) (Zq (snd ar)))) b0 }.

Lemma zp_zero par c : Forall (fun p : Q * Q => snd p == 0) par -> zp_of par c == 0.
Proof using. intro H. unfold zp_of. apply (bc_Forall (fun p => snd p == 0)); auto. reflexivity. Qed.
Lemma scale_pos par c : Forall (fun p : Q * Q => 0 < fst p) par -> 0 < scale_of par c.
Proof using. intro H. unfold scale_of. apply (bc_Forall (fun p => 0 < fst p)); auto. reflexivity. Qed.

Lemma adjust_inv sh s : inv sh s -> inv sh (adjust cfg sx s).
Proof using.
  intros [I1 I2 I3 I4 I5 I6 I7]. unfold adjust. destruct (preset_of cfg); [destruct (Nat.eqb _ _ || _)|]; constructor; auto.
Qed.
Lemma shift_inv sh s : inv sh s -> inv (sh || asym) (shift_once cfg s).
Proof using.
  intros [I1 I2 I3 I4 I5 I6 I7]. unfold shift_once. fold asym. rewrite I5.
  destruct asym eqn:Ea, sh eqn:Es; cbn [andb negb orb]; constructor; cbn [w_float w_par w_shifted w_weight]; auto; try (intro; congruence).
  apply shift_rows_ext; auto.
Qed.

Lemma forward_weight s sh : inv sh s -> rows_eq (w_weight (shift_once cfg (adjust cfg sx s))) (shift_rows 1 (w_par s) (Wq (w_par s))).
Proof using.
  intro H. pose proof (shift_inv _ _ (adjust_inv _ _ H)) as K. destruct K as [K1 K2 K3 K4 K5 K6 K7].
  assert (Ep : w_par (shift_once cfg (adjust cfg sx s)) = w_par s).
  { unfold shift_once, adjust. destruct (preset_of cfg); [destruct (Nat.eqb _ _ || _)|]; destruct (negb _ && negb _); reflexivity. }
  rewrite Ep in *. destruct (sh || asym) eqn:E; auto.
  apply orb_false_iff in E. destruct E as [_ E]. eapply rows_eq_trans; [exact K7|]. apply rows_eq_sym, shift_zero.
  intro c. apply zp_zero. auto.
Qed.

(** the wrapper state after the adjustments of a forward *)
Lemma adjust_static s : preset_of cfg = true -> inv_static s ->
  w_accum_scale (adjust cfg sx s) = get_accum_scale cfg sx (w_par s) /\
  w_bias (adjust cfg sx s) = option_map (quant_bias ar (get_accum_scale cfg sx (w_par s))) b0.
Proof using.
  intros Hp [I1 I2 I3]. unfold adjust. rewrite Hp. destruct (Nat.eqb (w_forwards s) 0 || w_readjust s) eqn:E.
  - cbn [w_accum_scale w_bias]. split; auto. rewrite I1. destruct b0 as [bv|]; cbn [option_map].
    + destruct (w_bias s) eqn:Eb; [reflexivity|]. destruct I2 as [I2 _]. specialize (I2 eq_refl). discriminate.
    + destruct I2 as [_ I2]. specialize (I2 eq_refl). rewrite I2. reflexivity.
  - apply orb_false_iff in E. destruct E as [E1 E2]. apply Nat.eqb_neq in E1. auto.
Qed.

(** one element of the accumulator *)
Definition blin (md : qmd) (x : list Q) (par : list (Q * Q)) (c : nat) (win : list (option nat)) : Q :=
  dot (nth c (weight_fq (p_wts cfg) (p_mode_w cfg) par W) []) (gather (input_fq md x) win).

Lemma accum_dot Wt md x par c win : Forall (fun p : Q * Q => 0 < fst p) par -> 0 < q_scale md -> (c < length W)%nat ->
  rows_eq Wt (shift_rows 1 par (Wq par)) ->
  dot (nth c Wt []) (gather (map (fun v => v + q_zp md) (map (fun v => linear_quantize_clamp v (q_scale md) (q_zp md) (Zq (q_lo md)) (Zq (q_hi md))) x)) win)
  == scale_of par c * q_scale md * blin md x par c win.
Proof using.
  intros Hpos Hsx Hc Hw. unfold blin. pose proof (scale_pos par c Hpos) as Hs. apply dot_scaled.
  - assert (Hlen : length Wt = length W).
    { rewrite (F2_length Hw). unfold shift_rows, Wq, quant_rows. rewrite !mapi_length. reflexivity. }
    assert (Hr : Forall2 Qeq (nth c Wt []) (nth c (shift_rows 1 par (Wq par)) [])) by (apply F2_nth; [exact Hw|lia]).
    assert (E2 : nth c (shift_rows 1 par (Wq par)) [] = map (fun u => linear_quantize_clamp u (scale_of par c) (zp_of par c)
              (Zq (fst (mode_range (p_wts cfg) (PM (p_mode_w cfg))))) (Zq (snd (mode_range (p_wts cfg) (PM (p_mode_w cfg))))) + 1 * zp_of par c) (nth c W [])).
    { unfold shift_rows, Wq, quant_rows. rewrite mapi_mapi. rewrite (mapi_nth _ 0 W c [] []) by auto. rewrite map_map. reflexivity. }
    assert (E3 : nth c (weight_fq (p_wts cfg) (p_mode_w cfg) par W) [] = map (fun u => fq u (scale_of par c) (zp_of par c)
              (fst (mode_range (p_wts cfg) (PM (p_mode_w cfg)))) (snd (mode_range (p_wts cfg) (PM (p_mode_w cfg))))) (nth c W [])).
    { unfold weight_fq. rewrite (mapi_nth _ 0 W c [] []) by auto. reflexivity. }
    rewrite E3. rewrite E2 in Hr. clear - Hr Hs.
    set (row := nth c W []) in *. clearbody row. revert Hr. generalize (nth c Wt []). induction row as [|u row IH]; intros l Hr; inversion Hr as [|? ? ? ? Hh Ht]; subst; simpl; constructor; auto.
    rewrite Hh. unfold fq, linear_dequantize. field. lra.
  - apply gather_scaled. unfold input_fq. rewrite map_map. clear - Hsx. induction x as [|v x IH]; simpl; constructor; auto.
    unfold fq, linear_dequantize. field. lra.
Qed.
End Wrap.
