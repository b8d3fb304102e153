(** C93, the whole model. *)
From Coq Require Import String Ascii List ZArith QArith Qabs Qpower Bool Arith Lia Lqa.
From Verif Require Import Base Lists Names StructModel QuantModel QuantProofs RangeModel QzrModel PrepModel EmbModel ReplModel ReplSpec PropertiesRepl LapqModel LapqSpec LapqProofs LinitModel LinitSpec.
Import ListNotations.
Local Open Scope string_scope.
Open Scope list_scope.

Section M.
Variable wts_params : option Z -> lqmode -> clipmode -> option Q -> bool -> res unit.
Variable emb_params : Z -> lqmode -> clipmode -> option Q -> bool -> res unit.
Let run := run_factory wts_params emb_params.

Definition chg (w : okw) (oc : option (enumv clipmode)) (inp : option (list (nat * override))) : okw :=
  mkOkw (w_perch w) (w_mode w) (w_fp16 w) (w_approx w) oc (w_nstds w) (w_half w) inp (w_auto w) (w_fpq w) (w_fake w) (w_ident w) (w_qin w) (w_other w).
Definition emp_inputs (acts : option Z) (i : option (list (nat * override))) : option (list (nat * override)) :=
  match acts with None => i | Some _ => option_map (map (fun e : nat * override => (fst e, Custom None None None None))) i end.
Lemma emp_ok acts i : emptied_overrides acts (dflt i []) (dflt (emp_inputs acts i) []).
Proof.
  unfold emptied_overrides, emp_inputs. destruct acts as [b|], i as [l|]; cbn [option_map dflt map]; repeat split; try congruence; auto.
  - rewrite map_map. reflexivity.
  - intros _ k o H. apply in_map_iff in H. destruct H as ([k' o'] & [= <- <-] & _). reflexivity.
  - intros _ k o [].
Qed.
Definition same_form (c : clipmode) (r r' : rwrap) : Prop :=
  match r, r' with
  | RParam s b ac pc sv al, RParam s' b' ac' pc' sv' al' => same_but c s s' /\ (b', ac', pc', sv', al') = (b, ac, pc, sv, al)
  | RNonParam s, RNonParam s' => same_but c s s'
  | RFake s d q, RFake s' d' q' => same_but c s s' /\ d' = d /\ q' = q
  | _, _ => False
  end.
Definition clip_arg (z : pq) (oc : option (enumv clipmode)) : res clipmode :=
  verify_enum clip_named (match oc with Some v => if falsy_enum v then ENum (z_clip z) else v | None => ENum (z_clip z) end).
Lemma rerun z f t kids st pw pw' q w oc r r' : factory_of t = Some f ->
  run z f t kids st pw q w = Ok r -> int_wrapper r = true ->
  run z f t kids st pw' q (chg w oc (emp_inputs (q_acts q) (w_inputs w))) = Ok r' ->
  ((t = PtRelu \/ t = PtRelu6) /\ w_ident w = Some true /\ r' = RIdent /\ pw' = Ok true) \/
  (exists c, clip_arg z oc = Ok c /\ same_form c r r' /\ forall c0, clip_arg z (w_clip w) = Ok c0 -> match r with RParam s _ _ _ _ _ | RNonParam s | RFake s _ _ => a_clip s = c0 | _ => True end) \/
  (exists b m cl n h sv st' cl', r = REmb b m cl n h sv st' /\ r' = REmb b m cl' n h sv st' /\ (if z_also z then cl = dflt (w_clip w) (ENum (z_clip z)) /\ cl' = dflt oc (ENum (z_clip z)) else cl = cl')).
Proof.
  intros Ef H Hi H'. unfold run, run_factory in H, H'. destruct (existsb _ (wkeys w)); [discriminate|]. destruct (existsb _ (wkeys _)); [discriminate|].
  cbn [chg w_perch w_mode w_fp16 w_approx w_clip w_nstds w_half w_inputs w_auto w_fpq w_fake w_ident w_qin] in H'.
  fold (clip_arg z oc) in H'. fold (clip_arg z (w_clip w)) in H.
  pose proof (emp_ok (q_acts q) (w_inputs w)) as Em. set (inp := dflt (w_inputs w) []) in *. set (inp' := dflt (emp_inputs (q_acts q) (w_inputs w)) []) in *. clearbody inp inp'.
  set (fpq := check_fp16 _ _) in *. clearbody fpq.
  destruct f.
  - destruct (fpq_true fpq && negb (dflt (w_fake w) false)); [inv_bind H; injection H as <-; discriminate|].
    inv_bind H. inv_bind H. inv_bind H'. inv_bind H'. assert (x2 = x0) by congruence. subst x2.
    destruct (dflt (w_fake w) false || acts_only q).
    + apply fake_init_inv in H. destruct H as (s & d & -> & D & K1 & K2 & K3 & K4 & K5 & K6 & K7 & K8 & _).
      apply fake_init_inv in H'. destruct H' as (s' & d' & -> & D' & L1 & L2 & L3 & L4 & L5 & L6 & L7 & L8 & _). cbn in *.
      right; left. exists x1. split; auto. split.
      * split; [|split; [destruct (fpq_true fpq); congruence|auto]]. unfold same_but. rewrite K1, K2, K4, K5, K6, K7, K8, L1, L2, L3, L4, L5, L6, L7, L8. auto 10.
      * intros c0 Hc. congruence.
    + unfold param_init in H, H'. inv_bind H. inv_bind H'. destruct (q_wts q); [|discriminate]. inv_bind H. inv_bind H'. injection H as <-. injection H' as <-.
      right; left. exists x1. split; auto. split; [split; [unfold same_but; cbn; auto 10|reflexivity]|cbn; congruence].
  - destruct (fpq_true fpq && negb (dflt (w_fake w) false)); [inv_bind H; injection H as <-; discriminate|].
    inv_bind H. inv_bind H'.
    destruct (dflt (w_fake w) false).
    + apply fake_init_inv in H. destruct H as (s & d & -> & D & K1 & K2 & K3 & K4 & K5 & K6 & K7 & K8 & _).
      apply fake_init_inv in H'. destruct H' as (s' & d' & -> & D' & L1 & L2 & L3 & L4 & L5 & L6 & L7 & L8 & _). cbn in *.
      right; left. exists x0. split; auto. split.
      * split; [|split; [destruct (fpq_true fpq); congruence|auto]]. unfold same_but. rewrite K1, K2, K4, K5, K6, K7, K8, L1, L2, L3, L4, L5, L6, L7, L8. auto 10.
      * intros c0 Hc. congruence.
    + assert (E : exists u s, r = RNonParam s /\ s = u /\ u = mkWset (q_acts q) (z_mode z) x (dflt (w_nstds w) (z_nstds z)) (dflt (w_half w) (z_half z)) (dflt (w_approx w) (z_approx z)) inp (dflt (w_auto w) (z_auto z)) st).
      { unfold non_param_init in H. destruct t, st; cbn [a_stats] in H; try (inv_bind H); injection H as <-; try discriminate; eauto. }
      assert (E' : exists s', (r' = RNonParam s' \/ (r' = RSame /\ t = PtEltwise /\ st = None)) /\ s' = mkWset (q_acts q) (z_mode z) x0 (dflt (w_nstds w) (z_nstds z)) (dflt (w_half w) (z_half z)) (dflt (w_approx w) (z_approx z)) inp' (dflt (w_auto w) (z_auto z)) st).
      { unfold non_param_init in H'. destruct t, st; cbn [a_stats] in H'; try (inv_bind H'); injection H' as <-; first [eexists; split; [left; reflexivity|reflexivity] | eexists; split; [right; auto|reflexivity]]. }
      destruct E as (u & s & -> & -> & ->), E' as (s' & [->|(-> & -> & ->)] & ->).
      * right; left. exists x0. split; auto. split; [unfold same_form, same_but; cbn; auto 10|cbn; congruence].
      * discriminate H.
  - destruct (fpq_true fpq); [inv_bind H; injection H as <-; discriminate|].
    unfold emb_wrap in H, H'. destruct (q_wts q); [|discriminate]. inv_bind H. inv_bind H'. injection H as <-. injection H' as <-.
    right; right. destruct (z_also z); do 8 eexists; (split; [reflexivity|]); (split; [reflexivity|]); auto.
  - inv_bind H. destruct x; [injection H as <-; discriminate|]. inv_bind H'. destruct x.
    { injection H' as <-. left. destruct t, (w_ident w) as [[]|]; cbn in H1; try discriminate; auto. }
    destruct kids; [injection H as <-; discriminate|].
    destruct (negb (dflt (w_fake w) true)); [inv_bind H; injection H as <-; discriminate|].
    inv_bind H. inv_bind H'.
    apply fake_init_inv in H. destruct H as (s & d & -> & D & K1 & K2 & K3 & K4 & K5 & K6 & K7 & K8 & _).
    apply fake_init_inv in H'. destruct H' as (s' & d' & -> & D' & L1 & L2 & L3 & L4 & L5 & L6 & L7 & L8 & _). cbn in *.
    right; left. exists x0. split; auto. split.
    * split; [|split; [destruct (fpq_true fpq); congruence|auto]]. unfold same_but. rewrite K1, K2, K4, K5, K6, K7, K8, L1, L2, L3, L4, L5, L6, L7, L8. auto 10.
    * intros c0 Hc. congruence.
Qed.

Variable pred_wrapped : string -> res bool.
Variable opt_layer : string -> nat -> rwrap -> res unit.

Lemma emptied_plain q r w : int_wrapper r = true -> exists inp, emptied q r w = chg w (w_clip w) inp /\
  ((exists b m cl n h sv st, r = REmb b m cl n h sv st) \/ inp = emp_inputs (q_acts q) (w_inputs w)).
Proof.
  unfold emptied, after_init, chg, emp_inputs. destruct w; destruct r; try discriminate; destruct (q_acts q); cbn; eauto 12.
Qed.
Lemma emb_factory z f t kids st pw q w b m cl n h sv st' : run z f t kids st pw q w = Ok (REmb b m cl n h sv st') -> f = FEmb.
Proof.
  unfold run, run_factory. intro H. destruct (existsb _ _); [discriminate|]. destruct f; auto; exfalso.
  - destruct (_ && _) in H; [inv_bind H; discriminate|]. inv_bind H. inv_bind H. destruct (_ || _) in H.
    + apply fake_init_inv in H. destruct H as (? & ? & ? & _). discriminate.
    + unfold param_init in H. inv_bind H. destruct (q_wts q); [|discriminate]. inv_bind H. discriminate.
  - destruct (_ && _) in H; [inv_bind H; discriminate|]. inv_bind H. destruct (dflt (w_fake w) false).
    + apply fake_init_inv in H. destruct H as (? & ? & ? & _). discriminate.
    + unfold non_param_init in H. destruct t, st; cbn [a_stats] in H; try (inv_bind H); discriminate.
  - inv_bind H. destruct x; [discriminate|]. destruct kids; [discriminate|]. destruct (negb _); [inv_bind H; discriminate|]. inv_bind H.
    apply fake_init_inv in H. destruct H as (? & ? & ? & _). discriminate.
Qed.
Lemma emb_rerun z t kids st pw pw' q w oc inp b m cl n h sv st' r' :
  run z FEmb t kids st pw q w = Ok (REmb b m cl n h sv st') -> run z FEmb t kids st pw' q (chg w oc inp) = Ok r' ->
  exists cl', r' = REmb b m cl' n h sv st' /\ (if z_also z then cl = dflt (w_clip w) (ENum (z_clip z)) /\ cl' = dflt oc (ENum (z_clip z)) else cl = cl').
Proof.
  unfold run, run_factory. intros H H'. destruct (existsb _ (wkeys w)); [discriminate|]. destruct (existsb _ (wkeys _)); [discriminate|].
  cbn [chg w_perch w_mode w_fp16 w_approx w_clip w_nstds w_half w_inputs w_auto w_fpq w_fake w_ident w_qin] in H'.
  set (fpq := check_fp16 _ _) in *. clearbody fpq. destruct (fpq_true fpq); [inv_bind H; discriminate|].
  unfold emb_wrap in H, H'. destruct (q_wts q); [|discriminate]. inv_bind H. inv_bind H'. injection H as <- <- <- <- <- <- <-. injection H' as <-.
  destruct (z_also z); eauto.
Qed.

(** C93: the wrapper of a layer is made anew: with a clipping mode, all its settings but this mode (and the contents of the
    input overrides) are as before; with a loss, all of them (but the contents of the input overrides). *)
Theorem C93_layer z name m l l' : prepared wts_params emb_params z l -> int_wrapper (sl_wrap l) = true ->
  init_layer wts_params emb_params pred_wrapped opt_layer z name m l = Ok l' ->
  (sl_type l', sl_kids l', sl_stats l', sl_q l') = (sl_type l, sl_kids l, sl_stats l, sl_q l) /\
  (((sl_type l = PtRelu \/ sl_type l = PtRelu6) /\ pred_wrapped name = Ok true /\ sl_wrap l' = sl_wrap l) \/
   match m with IClip c => reclipped (z_also z) c (sl_wrap l) (sl_wrap l') | ILoss _ => rebuilt (sl_wrap l) (sl_wrap l') end).
Proof.
  intros (w0 & pw & R & A) I H. unfold init_layer in H. unfold replacement in R. destruct (factory_of (sl_type l)) as [f|] eqn:Ef; [|discriminate].
  destruct (_ && _) in R; [injection R as R; rewrite <- R in I; discriminate|]. inv_bind H.
  destruct (emptied_plain (sl_q l) (sl_wrap l) w0 I) as (inp & Ei & Ci). rewrite A, Ei in H0.
  set (oc := match m with IClip c => Some (ENum c) | ILoss _ => w_clip w0 end).
  assert (H1 : run z f (sl_type l) (sl_kids l) (sl_stats l) (pred_wrapped name) (sl_q l) (chg w0 oc inp) = Ok x) by (unfold oc; destruct m; exact H0). clear H0.
  assert (L : forall r, negb (int_wrapper r) = true -> x = r -> (sl_type l', sl_kids l', sl_stats l', sl_q l') = (sl_type l, sl_kids l, sl_stats l, sl_q l) /\ sl_wrap l' = sl_wrap l).
  { intros r N ->. rewrite N in H. injection H as <-. auto. }
  assert (L' : int_wrapper x = true -> (sl_type l', sl_kids l', sl_stats l', sl_q l') = (sl_type l, sl_kids l, sl_stats l, sl_q l) /\ sl_wrap l' = x).
  { intro N. rewrite N in H. cbn [negb] in H. inv_bind H. injection H as <-. auto. }
  clear H. destruct Ci as [(b & mo & cl & n & h & sv & st' & Er)| ->].
  - rewrite Er in R. pose proof (emb_factory _ _ _ _ _ _ _ _ _ _ _ _ _ _ _ R). subst f.
    destruct (emb_rerun _ _ _ _ _ _ _ _ _ _ _ _ _ _ _ _ _ _ R H1) as (cl' & -> & C). destruct (L' eq_refl) as [-> ->]. split; auto. right. rewrite Er.
    destruct m; cbn; unfold oc, dflt in C; destruct (z_also z); try (destruct C); subst; auto.
  - destruct (rerun _ _ _ _ _ _ _ _ _ _ _ _ Ef R I H1) as [(T & _ & Ex & P)|[(c & C & S & D)|(b & mo & cl & n & h & sv & st' & cl' & Er & Ex & C)]].
    + destruct (L RIdent eq_refl Ex) as [-> ->]. auto.
    + assert (N : int_wrapper x = true) by (destruct (sl_wrap l), x; cbn in S |- *; tauto). destruct (L' N) as [-> ->]. split; auto. right.
      destruct m as [c1|p]; unfold oc in C.
      * unfold clip_arg in C. cbn in C. injection C as <-. destruct (sl_wrap l), x; cbn in S |- *; tauto.
      * specialize (D c C). destruct (sl_wrap l), x; cbn in S |- *; try tauto; rewrite D; tauto.
    + subst x. destruct (L' eq_refl) as [-> ->]. split; auto. right. rewrite Er.
      destruct m; cbn; unfold oc, dflt in C; destruct (z_also z); try (destruct C); subst; auto.
Qed.

(** C93: in the model, exactly the integer wrappers of the given layers are touched, each with its own mode. *)
Theorem C93_model z a order ms ms' : NoDup order ->
  (forall n l, dget ms n = Some l -> int_wrapper (sl_wrap l) = true -> prepared wts_params emb_params z l) ->
  init_model wts_params emb_params pred_wrapped opt_layer z a order ms = Ok ms' ->
  map fst ms' = map fst ms /\
  forall n l, dget ms n = Some l -> exists l', dget ms' n = Some l' /\
    ((~ In n order \/ int_wrapper (sl_wrap l) = false) -> l' = l) /\
    (In n order -> int_wrapper (sl_wrap l) = true -> exists m, mode_for a n = Ok m /\
       (sl_type l', sl_kids l', sl_stats l', sl_q l') = (sl_type l, sl_kids l, sl_stats l, sl_q l) /\
       (((sl_type l = PtRelu \/ sl_type l = PtRelu6) /\ pred_wrapped n = Ok true /\ sl_wrap l' = sl_wrap l) \/
        match m with IClip c => reclipped (z_also z) c (sl_wrap l) (sl_wrap l') | ILoss _ => rebuilt (sl_wrap l) (sl_wrap l') end)).
Proof.
  intros Nd Pr H. unfold init_model in H.
  assert (G : forall order cur, NoDup order -> (forall n, In n order -> dget cur n = dget ms n) ->
    foldM (init_step wts_params emb_params pred_wrapped opt_layer z a ms) order cur = Ok ms' ->
    map fst ms' = map fst cur /\ forall n l, dget cur n = Some l ->
      (~ In n order -> dget ms' n = Some l) /\
      (In n order -> exists l', dget ms' n = Some l' /\ (int_wrapper (sl_wrap l) = false -> l' = l) /\
        (int_wrapper (sl_wrap l) = true -> exists m, mode_for a n = Ok m /\ init_layer wts_params emb_params pred_wrapped opt_layer z n m l = Ok l'))).
  { clear order Nd H. induction order as [|n0 order IH]; intros cur Nd Eq H; cbn [foldM] in H.
    - injection H as <-. split; auto. intros n l Hl. split; auto. intros [].
    - inv_bind H. inversion Nd as [|? ? Nn Nd']; subst. unfold init_step in H0. rewrite (Eq n0) in H0 by (left; auto).
      destruct (dget ms n0) as [l0|] eqn:E0; [|discriminate].
      assert (C : x = cur /\ int_wrapper (sl_wrap l0) = false \/ exists m l1, int_wrapper (sl_wrap l0) = true /\ mode_for a n0 = Ok m /\ init_layer wts_params emb_params pred_wrapped opt_layer z n0 m l0 = Ok l1 /\ x = dset cur n0 l1).
      { destruct (int_wrapper (sl_wrap l0)); cbn [negb] in H0; [|injection H0 as <-; auto]. inv_bind H0. inv_bind H0. injection H0 as <-. right. eauto 10. }
      clear H0. assert (C0 : dget cur n0 = Some l0) by (rewrite <- E0; apply Eq; left; auto).
      destruct C as [[-> Cf]|(m & l1 & Ct & Cm & Cl & ->)].
      + destruct (IH cur Nd') as [I1 I2]; auto. { intros; apply Eq; right; auto. } split; auto. intros n l Hl. destruct (I2 n l Hl) as [J1 J2]. split.
        * intro N. apply J1. intro; apply N; right; auto.
        * intros [<-|Hn]; [|auto]. assert (l0 = l) by congruence. subst l0. exists l. split; [apply J1; auto|]. split; auto. intro; congruence.
      + destruct (IH (dset cur n0 l1) Nd') as [I1 I2]; auto.
        { intros n Hn. rewrite dget_dset_other; [apply Eq; right; auto|]. intros ->. tauto. }
        split. { rewrite I1. apply dset_keys_mem. destruct (in_dec string_dec n0 (dkeys cur)) as [|K]; auto. apply dget_None_notin in K. congruence. }
        intros n l Hl. destruct (string_dec n n0) as [->|Ne].
        * assert (l0 = l) by congruence. subst l0. destruct (I2 n0 l1 (dget_dset_same _ _ _)) as [J1 J2]. split; [intro N; exfalso; apply N; left; auto|].
          intros _. exists l1. split; [apply J1; auto|]. split; [congruence|]. intros _. eauto.
        * destruct (I2 n l) as [J1 J2]; [rewrite dget_dset_other; auto|]. split; [intro N; apply J1; intro; apply N; right; auto|]. intros [<-|Hn]; [congruence|auto]. }
  destruct (G order ms Nd (fun _ _ => eq_refl) H) as [G1 G2]. split; auto. intros n l Hl. destruct (G2 n l Hl) as [J1 J2].
  destruct (in_dec string_dec n order) as [Hn|Hn].
  - destruct (J2 Hn) as (l' & E & K1 & K2). exists l'. split; auto. split.
    + intros [N|N]; [tauto|auto].
    + intros _ Hi. destruct (K2 Hi) as (m & Hm & Hl'). exists m. split; auto. apply (C93_layer z n m l l'); auto. eapply Pr; eauto.
  - exists l. split; auto. split; auto. tauto.
Qed.
End M.

(** a ReLU, a linear layer and an addition that is not quantized; the linear layer and the ReLU are initialised *)
Definition ex_w0 : okw := mkOkw None None None None None None None (Some [(0%nat, FromOutput)]) None None None None None [].
Definition ex_mk := replacement (fun _ _ _ _ _ => Ok tt) (fun _ _ _ _ _ => Ok tt) ex_pq.
Definition ex_slot (t : ptype) (q : qbits) (w : okw) : slot :=
  let r := match ex_mk t false (Some ex_ls) (Ok false) q w with Ok r => r | Raise _ => RSame end in
  mkSlot t false (Some ex_ls) q (emptied q r w) r.
Definition ex_none : okw := mkOkw None None None None None None None None None None None None None [].
Definition ex_ms : dict slot := [("fc", ex_slot PtParam ex_q8 ex_w0); ("relu", ex_slot PtRelu ex_q8 ex_none); ("add", ex_slot PtEltwise (mkQb None None None) ex_none)].
Example C93_ex_model : exists ms' s s',
  (forall n l, dget ex_ms n = Some l -> int_wrapper (sl_wrap l) = true -> prepared (fun _ _ _ _ _ => Ok tt) (fun _ _ _ _ _ => Ok tt) ex_pq l) /\
  init_model (fun _ _ _ _ _ => Ok tt) (fun _ _ _ _ _ => Ok tt) (fun _ => Ok false) (fun _ _ _ => Ok tt) ex_pq
    (MDictOf [("fc", IClip CLaplace); ("relu", ILoss 2)]) ["fc"; "relu"; "add"] ex_ms = Ok ms' /\
  option_map sl_wrap (dget ms' "fc") = Some s' /\ option_map sl_wrap (dget ex_ms "fc") = Some s /\ reclipped (z_also ex_pq) CLaplace s s' /\ s' <> s.
Proof.
  eexists _, _, _. split.
  { intros n l H _. unfold ex_ms in H. cbn [dget] in H.
    destruct (String.eqb n "fc"); [injection H as <-; exists ex_w0, (Ok false); split; vm_compute; reflexivity|].
    destruct (String.eqb n "relu"); [injection H as <-; exists ex_none, (Ok false); split; vm_compute; reflexivity|].
    destruct (String.eqb n "add"); [injection H as <-; exists ex_none, (Ok false); split; vm_compute; reflexivity|discriminate]. }
  split; [vm_compute; reflexivity|]. split; [reflexivity|]. split; [vm_compute; reflexivity|]. split; [|discriminate].
  vm_compute. repeat split; try discriminate. intros _ i o [[= <- <-]|[]]. reflexivity.
Qed.
Print Assumptions C93_layer.
Print Assumptions C93_model.
