(** C33: activation range tracking and fake quantization in quantization-aware training. *)
From Coq Require Import String List ZArith QArith Qabs Qround Qpower Bool Arith Lia Lqa Setoid Morphisms.
From Verif Require Import Base Lists StructModel QuantModel QuantSpec QuantProofs PropertiesQuant RangeModel RangeSpec RangeProofs RangeWrapProofs PropertiesRange.
Import ListNotations.

Lemma qpow_S d n : Qpower d (Z.of_nat (S n)) == d * Qpower d (Z.of_nat n).
Proof.
  destruct n as [|n]; [simpl; ring|].
  change (Z.of_nat (S (S n))) with (Z.pos (Pos.of_succ_nat (S n))). change (Z.of_nat (S n)) with (Z.pos (Pos.of_succ_nat n)).
  cbn [Pos.of_succ_nat Qpower]. rewrite <- Pos.add_1_l. rewrite Qpower_plus_positive. reflexivity.
Qed.
Lemma qpow_bounds d n : 0 <= d -> d < 1 -> 0 <= Qpower d (Z.of_nat n) /\ Qpower d (Z.of_nat n) <= 1.
Proof.
  intros H0 H1. induction n as [|n IH]; [split; discriminate|]. rewrite qpow_S. destruct IH as [A B]. split.
  - apply Qmult_le_0_compat; auto.
  - assert (d * Qpower d (Z.of_nat n) <= 1 * Qpower d (Z.of_nat n)) by (apply Qmult_le_compat_r; lra). lra.
Qed.
Lemma qpow_lt d n : 0 <= d -> d < 1 -> Qpower d (Z.of_nat (S n)) < 1.
Proof.
  intros H0 H1. rewrite qpow_S. destruct (qpow_bounds d n H0 H1) as [A B].
  assert (d * Qpower d (Z.of_nat n) <= d * 1). { rewrite (Qmult_comm d), (Qmult_comm d). apply Qmult_le_compat_r; auto. } lra.
Qed.

(** Observations, in order, through update_ema. *)
Definition ema_run (d : Q) (vs : list Q) : Q * Q * Z :=
  fold_left (fun (s : Q * Q * Z) v => let '(b, _, k) := s in let r := update_ema b v d (k + 1) in (fst r, snd r, (k + 1)%Z)) vs (0, 0, 0%Z).

(** weight of the observation made [i] steps ago *)
Definition ema_weight (d : Q) (i : nat) : Q := (1 - d) * Qpower d (Z.of_nat i).

Fixpoint hist_sum (d : Q) (rvs : list Q) : Q := match rvs with [] => 0 | v :: r => (1 - d) * v + d * hist_sum d r end.

Lemma hist_sum_weights d rvs : hist_sum d rvs == qsum (map (fun i => ema_weight d i * nth i rvs 0) (seq 0 (length rvs))).
Proof.
  induction rvs as [|v r IH]; [reflexivity|]. cbn [hist_sum length seq map]. rewrite <- seq_shift, map_map. cbn [nth].
  change (qsum (?a :: ?l)) with (a + qsum l).
  assert (E : forall l, qsum (map (fun x => ema_weight d (S x) * nth x r 0) l) == d * qsum (map (fun i => ema_weight d i * nth i r 0) l)).
  { induction l as [|i l IHl]; cbn [map]; [unfold qsum; cbn [fold_right]; ring|].
    change (qsum (?a :: ?l)) with (a + qsum l). rewrite IHl. unfold ema_weight. rewrite qpow_S. ring. }
  rewrite E, <- IH. unfold ema_weight. simpl (Qpower d (Z.of_nat 0)). ring.
Qed.
Lemma weight_sum d n : qsum (map (ema_weight d) (seq 0 n)) == 1 - Qpower d (Z.of_nat n).
Proof.
  induction n as [|n IH]; [reflexivity|]. rewrite seq_S, map_app, qpow_S. cbn [map plus].
  assert (Ea : forall a b, qsum (a ++ b) == qsum a + qsum b).
  { intros a b. induction a as [|x a IHa]; cbn [app]; [unfold qsum at 2; cbn [fold_right]; ring|].
    change (qsum (?a :: ?l)) with (a + qsum l). rewrite IHa. ring. }
  rewrite Ea, IH. unfold ema_weight, qsum. cbn [fold_right]. ring.
Qed.

Lemma ema_run_eq d vs : ema_run d vs = ema_run d vs /\ fst (fst (ema_run d vs)) == hist_sum d (rev vs) /\ snd (ema_run d vs) = Z.of_nat (length vs) /\
  (vs <> [] -> snd (fst (ema_run d vs)) = fst (fst (ema_run d vs)) / (1 - Qpower d (Z.of_nat (length vs)))).
Proof.
  split; auto. induction vs as [|v vs IH] using rev_ind; [repeat split; auto; congruence|].
  unfold ema_run in *. rewrite fold_left_app, rev_app_distr, app_length. cbn [fold_left rev app hist_sum length].
  destruct (fold_left _ vs (0, 0, 0%Z)) as [[b e] k]. cbn [fst snd] in IH. destruct IH as (IH1 & IH2 & _).
  cbn [update_ema fst snd]. unfold update_ema. cbn [fst snd]. split; [rewrite IH1; ring|].
  replace (Z.of_nat (length vs + 1)) with (k + 1)%Z by lia. split; auto.
Qed.

(** C33: the bias-corrected moving average of any non-empty observation sequence is the weighted average
    with weights proportional to decay^age, hence lies between the observed extremes, and larger
    observations give a larger average. *)
Theorem C33_ema_average :
  forall d vs, 0 <= d -> d < 1 -> vs <> [] ->
  let n := length vs in
  let e := snd (fst (ema_run d vs)) in
  let w := fun i => ema_weight d i / (1 - Qpower d (Z.of_nat n)) in
  e == qsum (map (fun i => w i * nth i (rev vs) 0) (seq 0 n)) /\
  (forall i, 0 <= w i) /\ qsum (map w (seq 0 n)) == 1 /\
  (forall lo hi, (forall v, In v vs -> lo <= v <= hi) -> lo <= e <= hi) /\
  (forall vs', Forall2 Qle vs vs' -> e <= snd (fst (ema_run d vs'))).
Proof.
  intros d vs H0 H1 Hne n e w.
  destruct (ema_run_eq d vs) as (_ & E1 & _ & E2). specialize (E2 Hne). fold n in E2.
  set (D := 1 - Qpower d (Z.of_nat n)) in *.
  assert (HD : 0 < D).
  { unfold D, n. destruct vs as [|v vs]; [congruence|]. pose proof (qpow_lt d (length vs) H0 H1). cbn [length]. lra. }
  assert (Hd : forall f l, qsum (map (fun i : nat => f i / D) l) == qsum (map f l) / D).
  { intros f l. induction l as [|i l IH]; cbn [map]; [unfold qsum; cbn [fold_right]; field; lra|].
    change (qsum (?a :: ?l)) with (a + qsum l). rewrite IH. field. lra. }
  assert (Hw0 : forall i, 0 <= ema_weight d i).
  { intro i. unfold ema_weight. apply Qmult_le_0_compat; [lra|]. apply qpow_bounds; auto. }
  assert (Hform : e == qsum (map (fun i => w i * nth i (rev vs) 0) (seq 0 n))).
  { unfold e. rewrite E2, E1, hist_sum_weights. fold D. rewrite rev_length. fold n.
    rewrite <- (Hd (fun i => ema_weight d i * nth i (rev vs) 0)).
    clear. induction (seq 0 n) as [|i l IH]; [reflexivity|]. cbn [map]. change (qsum (?a :: ?l)) with (a + qsum l). rewrite IH.
    unfold w, Qdiv. ring. }
  assert (Hwn : forall i, 0 <= w i) by (intro i; unfold w; fold D; apply Qle_shift_div_l; auto; rewrite Qmult_0_l; auto).
  assert (Hsum : qsum (map w (seq 0 n)) == 1).
  { unfold w. fold D. rewrite (Hd (ema_weight d)), weight_sum. fold D. field. lra. }
  split; auto. split; auto. split; auto. split.
  - intros lo hi Hb.
    assert (Hi : forall i, In i (seq 0 n) -> lo <= nth i (rev vs) 0 <= hi).
    { intros i Hi. apply in_seq in Hi. apply Hb. apply in_rev. apply nth_In. rewrite rev_length. unfold n in Hi. lia. }
    rewrite Hform.
    assert (K : lo * qsum (map w (seq 0 n)) <= qsum (map (fun i => w i * nth i (rev vs) 0) (seq 0 n)) <= hi * qsum (map w (seq 0 n))).
    { clear - Hi Hwn. induction (seq 0 n) as [|i l IH]; [unfold qsum; cbn [map fold_right]; lra|].
      cbn [map]. change (qsum (?a :: ?l)) with (a + qsum l).
      destruct (Hi i (or_introl eq_refl)) as [A B]. destruct IH as [C1 C2]; [intros; apply Hi; right; auto|].
      assert (w i * lo <= w i * nth i (rev vs) 0). { rewrite (Qmult_comm (w i)), (Qmult_comm (w i)). apply Qmult_le_compat_r; auto. }
      assert (w i * nth i (rev vs) 0 <= w i * hi). { rewrite (Qmult_comm (w i)), (Qmult_comm (w i) hi). apply Qmult_le_compat_r; auto. }
      split; lra. }
    rewrite Hsum in K. lra.
  - intros vs' HF. unfold e. assert (Hne' : vs' <> []) by (destruct HF; congruence).
    destruct (ema_run_eq d vs') as (_ & F1 & _ & F2). specialize (F2 Hne').
    assert (Hl : length vs' = n) by (symmetry; apply (F2_length HF)). rewrite Hl in F2. fold D in F2.
    rewrite E2, F2, E1, F1. apply Qdiv_le_compat; auto.
    assert (HR : Forall2 Qle (rev vs) (rev vs')).
    { clear - HF. induction HF; cbn [rev]; auto. apply Forall2_app; auto. }
    clear - HR H0 H1. induction HR as [|a b l l' Hab HR IH]; cbn [hist_sum]; [lra|].
    assert ((1 - d) * a <= (1 - d) * b). { rewrite (Qmult_comm (1 - d)), (Qmult_comm (1 - d)). apply Qmult_le_compat_r; lra. }
    assert (d * hist_sum d l <= d * hist_sum d l'). { rewrite (Qmult_comm d), (Qmult_comm d). apply Qmult_le_compat_r; auto. }
    lra.
Qed.

(** * Fake quantization over a history of training and evaluation forwards *)
Definition flq_run (bits : Z) (m : pymode) (d : Q) (h : list (bool * list Q)) (s : flq) : res flq :=
  foldM (fun s tx => do r <- flq_forward bits m d true (fst tx) (snd tx) s; Ok (fst r)) h s.

(** the inputs seen in training *)
Definition trained (h : list (bool * list Q)) : list (list Q) := map snd (filter fst h).

Lemma params_from_range_ok bits m mn mx : mn <= mx -> exists p, params_from_range bits m mn mx = Ok p.
Proof.
  intro H. unfold params_from_range. destruct (is_sym m).
  - unfold sym_params. cbn [existsb map].
    assert (Qltb (qmax (Qabs mn) (Qabs mx)) 0 = false) as ->.
    { apply Qltb_ge. pose proof (qmax_l (Qabs mn) (Qabs mx)). pose proof (Qabs_nonneg mn). lra. }
    cbn [orb bind first_param]. eauto.
  - unfold asym_params. cbn [combine existsb fst snd map2]. assert (Qltb mx mn = false) as -> by (apply Qltb_ge; auto).
    cbn [orb bind first_param]. eauto.
Qed.

Definition is_min (l : list Q) (m : Q) : Prop := In m l /\ forall x, In x l -> m <= x.
Definition is_max (l : list Q) (m : Q) : Prop := In m l /\ forall x, In x l -> x <= m.

(** C33: any history of forwards succeeds when the training inputs are not empty; evaluation changes
    nothing; the tracked minimum and maximum are the moving averages of the training inputs' minima
    and maxima, so the range is never inverted, and scale and zero point are those of that range. *)
Theorem C33_tracking :
  forall bits m d h, 0 <= d -> d < 1 -> (forall x, In x (trained h) -> x <> []) ->
  exists s mins maxs, flq_run bits m d h flq_init = Ok s /\
    Forall2 is_min (trained h) mins /\ Forall2 is_max (trained h) maxs /\
    f_iter s = Z.of_nat (length (trained h)) /\
    f_min s = snd (fst (ema_run d mins)) /\ f_max s = snd (fst (ema_run d maxs)) /\ f_min s <= f_max s /\
    (trained h <> [] -> params_from_range bits m (f_min s) (f_max s) = Ok (f_scale s, f_zp s)) /\
    (trained h = [] -> s = flq_init) /\
    (forall deq x, exists out, flq_forward bits m d deq false x s = Ok (s, out)).
Proof.
  intros bits m d h H0 H1 Hne.
  assert (K : exists s mins maxs, flq_run bits m d h flq_init = Ok s /\
    Forall2 is_min (trained h) mins /\ Forall2 is_max (trained h) maxs /\
    (f_minb s, f_min s, f_iter s) = ema_run d mins /\ (f_maxb s, f_max s, f_iter s) = ema_run d maxs /\
    (trained h <> [] -> params_from_range bits m (f_min s) (f_max s) = Ok (f_scale s, f_zp s)) /\
    (trained h = [] -> s = flq_init)).
  { induction h as [|[tr x] h IH] using rev_ind.
    - exists flq_init, [], []. repeat split; auto; try constructor. intro K; exfalso; apply K; reflexivity.
    - assert (Et : trained (h ++ [(tr, x)]) = trained h ++ (if tr then [x] else [])).
      { unfold trained. rewrite filter_app, map_app. destruct tr; reflexivity. }
      rewrite Et in *. destruct IH as (s & mins & maxs & R & F1 & F2 & E1 & E2 & P & Q); [intros y Hy; apply Hne; apply in_or_app; auto|].
      destruct tr.
      + destruct x as [|x0 x]; [exfalso; apply (Hne []); [apply in_or_app; right; left; reflexivity|reflexivity]|].
        set (mn := fold_left qmin x x0). set (mx := fold_left qmax x x0).
        assert (Rmn : row_min (x0 :: x) = Ok mn) by reflexivity. assert (Rmx : row_max (x0 :: x) = Ok mx) by reflexivity.
        pose proof (row_min_spec _ _ Rmn) as Smn. pose proof (row_max_spec _ _ Rmx) as Smx.
        set (a := update_ema (f_minb s) mn d (f_iter s + 1)). set (b := update_ema (f_maxb s) mx d (f_iter s + 1)).
        assert (G1 : ema_run d (mins ++ [mn]) = (fst a, snd a, (f_iter s + 1)%Z)).
        { unfold ema_run in *. rewrite fold_left_app, <- E1. reflexivity. }
        assert (G2 : ema_run d (maxs ++ [mx]) = (fst b, snd b, (f_iter s + 1)%Z)).
        { unfold ema_run in *. rewrite fold_left_app, <- E2. reflexivity. }
        assert (F1' : Forall2 is_min (trained h ++ [x0 :: x]) (mins ++ [mn])) by (apply Forall2_app; auto).
        assert (F2' : Forall2 is_max (trained h ++ [x0 :: x]) (maxs ++ [mx])) by (apply Forall2_app; auto).
        assert (Hle : snd a <= snd b).
        { assert (HF : Forall2 Qle (mins ++ [mn]) (maxs ++ [mx])).
          { clear - F1' F2'. revert F1' F2'. generalize (trained h ++ [x0 :: x]) (mins ++ [mn]) (maxs ++ [mx]). intros l p q F1. revert q.
            induction F1; intros q F2; inversion F2 as [|? ? ? ? J]; subst; constructor; auto. destruct H as [I1 I2], J as [J1 J2]. auto. }
          assert (Hn : mins ++ [mn] <> []) by (destruct mins; discriminate).
          destruct (C33_ema_average d (mins ++ [mn]) H0 H1 Hn) as (_ & _ & _ & _ & M). specialize (M _ HF).
          rewrite G1, G2 in M. exact M. }
        destruct (params_from_range_ok bits m _ _ Hle) as ((sc & z) & Hp).
        exists (mkFlq (fst a) (snd a) (fst b) (snd b) (f_iter s + 1) sc z), (mins ++ [mn]), (maxs ++ [mx]).
        cbn [f_minb f_min f_iter f_maxb f_max f_scale f_zp].
        split. { unfold flq_run in *. rewrite foldM_app, R. cbn [bind foldM fst snd]. unfold flq_forward, flq_train. rewrite Rmn, Rmx. cbn [bind]. fold a b. rewrite Hp. reflexivity. }
        split; auto. split; auto. split; auto. split; auto. split; auto.
        intro K. destruct (trained h); discriminate.
      + rewrite app_nil_r in *. exists s, mins, maxs. split; [|tauto].
        unfold flq_run in *. rewrite foldM_app, R. cbn [bind foldM fst snd flq_forward]. reflexivity. }
  destruct K as (s & mins & maxs & R & F1 & F2 & E1 & E2 & P & Q).
  exists s, mins, maxs. split; auto. split; auto. split; auto.
  destruct (ema_run_eq d mins) as (_ & _ & N1 & _). rewrite <- E1 in N1. cbn [snd] in N1.
  split; [rewrite N1; f_equal; symmetry; apply (F2_length F1)|].
  rewrite <- E1, <- E2. cbn [fst snd]. split; auto. split; auto. split.
  - destruct (trained h) as [|x0 h0] eqn:Eh.
    + rewrite Q by auto. cbn. lra.
    + assert (HF : Forall2 Qle mins maxs).
      { clear - F1 F2. revert F1 F2. generalize (x0 :: h0). intros l F1. revert maxs.
        induction F1; intros q F2; inversion F2 as [|? ? ? ? J]; subst; constructor; auto. destruct H as [I1 I2], J as [J1 J2]. auto. }
      assert (Hn : mins <> []) by (inversion F1; discriminate).
      destruct (C33_ema_average d mins H0 H1 Hn) as (_ & _ & _ & _ & M). specialize (M _ HF). rewrite <- E1, <- E2 in M. exact M.
  - split; auto. split; auto. intros deq x. eexists. reflexivity.
Qed.

Lemma params_from_range_levels bits lm mn mx s z : (2 <= bits)%Z -> mn <= mx -> params_from_range bits (PM lm) mn mx = Ok (s, z) ->
  let r := mode_range bits (PM lm) in
  let lo := if is_sym (PM lm) then - qmax (Qabs mn) (Qabs mx) else mn in
  let hi := if is_sym (PM lm) then qmax (Qabs mn) (Qabs mx) else mx in
  0 < s /\ lo <= hi /\ Zq (fst r) - (1#2) <= s * lo - z /\ s * hi - z <= Zq (snd r) + (1#2) /\
  (lm = SYMR -> Zq (fst r) <= s * lo - z /\ s * hi - z <= Zq (snd r)).
Proof.
  intros Hb Hm H r lo hi. unfold params_from_range in H. inv_bind H.
  pose proof (pow2_split bits ltac:(lia)) as Hsp. pose proof (pow2_ge2 (bits - 1) ltac:(lia)) as Hp2.
  unfold r, mode_range, lo, hi. clear r lo hi. destruct (is_sym (PM lm)) eqn:Es.
  - assert (Hsg : negb (mode_is (PM lm) ASU) = true) by (destruct lm; try discriminate; reflexivity). rewrite Hsg.
    set (sat := qmax (Qabs mn) (Qabs mx)) in *.
    assert (Hsat : 0 <= sat) by (pose proof (qmax_l (Qabs mn) (Qabs mx)); pose proof (Qabs_nonneg mn); unfold sat; lra).
    assert (Hx : (s, z) = sym1 bits (mode_is (PM lm) SYMR) sat).
    { unfold sym_params in H0. destruct (existsb _ _); [discriminate|]. injection H0 as <-. exact (eq_sym (f_equal (fun r => match r with Ok p => p | _ => (0, 0) end) H)). }
    clear H H0. set (n := sym_n bits (mode_is (PM lm) SYMR)) in *.
    assert (Hs : s = n / (if Qeq_bool sat 0 then n else sat)) by exact (f_equal fst Hx).
    assert (Hz : 0 = z) by exact (eq_sym (f_equal snd Hx)). clear Hx.
    assert (Hn : 0 < n /\ n <= Zq (2 ^ (bits - 1) - 1) + (1#2) /\ (lm = SYMR -> n <= Zq (2 ^ (bits - 1) - 1))).
    { unfold n, sym_n. destruct (mode_is (PM lm) SYMR) eqn:Em.
      - assert (0 < Zq (2 ^ (bits - 1) - 1)) by (apply Zq_pos; lia). repeat split; intros; lra.
      - assert (E : Zq (2 ^ bits - 1) / 2 == Zq (2 ^ (bits - 1) - 1) + (1#2)).
        { rewrite Hsp, !Zq_minus, Zq_mult. change (Zq 2) with 2. change (Zq 1) with 1. field. }
        rewrite E. assert (0 < Zq (2 ^ (bits - 1) - 1)) by (apply Zq_pos; lia). repeat split; try lra. intros ->. discriminate. }
    destruct Hn as (Hn & Hn1 & Hn2).
    assert (K : 0 < s /\ s * sat <= n).
    { rewrite Hs. destruct (Qeq_bool sat 0) eqn:E0.
      - apply Qeq_bool_iff in E0. split; [apply Qlt_shift_div_l; lra|]. rewrite E0. lra.
      - assert (0 < sat). { destruct (Qlt_le_dec 0 sat); auto. assert (Qeq_bool sat 0 = true) by (apply Qeq_bool_iff; lra). congruence. }
        split; [apply Qlt_shift_div_l; lra|]. assert (n / sat * sat == n) by (field; lra). lra. }
    destruct K as [K1 K2]. unfold get_quantized_range. cbn [fst snd].
    set (h := Zq (2 ^ (bits - 1) - 1)) in *.
    assert (El : Zq (if mode_is (PM lm) SYMR then - (2 ^ (bits - 1) - 1) else - (2 ^ (bits - 1) - 1) - 1) <= - h /\
                 (lm = SYMR -> Zq (if mode_is (PM lm) SYMR then - (2 ^ (bits - 1) - 1) else - (2 ^ (bits - 1) - 1) - 1) == - h)).
    { unfold h. split.
      - assert (E : - Zq (2 ^ (bits - 1) - 1) == Zq (- (2 ^ (bits - 1) - 1))) by (unfold Zq; rewrite inject_Z_opp; reflexivity).
        rewrite E. apply (proj1 (Zq_le _ _)). destruct (mode_is (PM lm) SYMR); lia.
      - intros ->. cbn [mode_is lqmode_eqb]. unfold Zq. rewrite inject_Z_opp. reflexivity. }
    destruct El as [El1 El2]. split; auto. split; [lra|].
    assert (E2 : s * - sat - z == - (s * sat)) by (rewrite <- Hz; ring).
    assert (E3 : s * sat - z == s * sat) by (rewrite <- Hz; ring). rewrite E2, E3.
    split; [lra|]. split; [lra|]. intro Em. rewrite (El2 Em). specialize (Hn2 Em). lra.
  - assert (Hsg : negb (mode_is (PM lm) ASU) = mode_is (PM lm) ASS /\ mode_is (PM lm) SYMR = false) by (destruct lm; try discriminate; auto).
    destruct Hsg as [Hsg Hsr]. rewrite Hsg, Hsr. set (sg := mode_is (PM lm) ASS) in *.
    assert (Hx : (s, z) = asym1 bits true sg mn mx).
    { unfold asym_params in H0. destruct (existsb _ _); [discriminate|]. injection H0 as <-. exact (eq_sym (f_equal (fun r => match r with Ok p => p | _ => (0, 0) end) H)). }
    clear H H0. pose proof (asym1_eq bits sg mn mx ltac:(lia)) as HA. cbv zeta in HA.
    destruct HA as (s' & z' & k & Ea & Hs & Hz & Hk & Hl & Hh & Hdeg & Hnd). rewrite Ea in Hx. injection Hx as -> ->. clear Ea.
    set (lo := qmin mn 0) in *. set (hi := qmax mx 0) in *. set (off := if sg then (2 ^ (bits - 1))%Z else 0%Z) in *.
    pose proof (rhe_bounds (s' * lo)) as [B1 B2]. rewrite <- Hk in B1, B2.
    assert (Er : Zq (fst (get_quantized_range bits sg false)) == - Zq off /\ Zq (snd (get_quantized_range bits sg false)) == Zq (2 ^ bits - 1) - Zq off).
    { unfold get_quantized_range, off. destruct sg; cbn [fst snd].
      - rewrite <- Zq_minus. split.
        + replace (- (2 ^ (bits - 1) - 1) - 1)%Z with (- 2 ^ (bits - 1))%Z by lia. unfold Zq. rewrite inject_Z_opp. reflexivity.
        + replace (2 ^ bits - 1 - 2 ^ (bits - 1))%Z with (2 ^ (bits - 1) - 1)%Z by lia. reflexivity.
      - change (Zq 0) with 0. split; ring. }
    destruct Er as [Er1 Er2].
    assert (M1 : s' * lo <= s' * mn). { rewrite (Qmult_comm s'), (Qmult_comm s'). apply Qmult_le_compat_r; [apply qmin_l|lra]. }
    assert (M2 : s' * mx <= s' * hi). { rewrite (Qmult_comm s'), (Qmult_comm s'). apply Qmult_le_compat_r; [apply qmax_l|lra]. }
    rewrite Zq_plus in Hz.
    assert (M3 : s' * hi - s' * lo <= Zq (2 ^ bits - 1)).
    { destruct (Qeq_dec hi lo) as [E|E].
      - destruct (Hdeg E) as (D1 & D2 & D3). rewrite D2, D3. assert (0 < Zq (2 ^ bits - 1)) by (apply Zq_pos; lia). lra.
      - specialize (Hnd E). lra. }
    split; auto. split; auto. rewrite Er1, Er2, Hz. split; [lra|]. split; [lra|]. intros ->. discriminate.
Qed.

(** C33: after any history with at least one training forward, each output of an evaluation forward is
    within half a quantization step of the input clipped to the tracked range (made symmetric in the
    symmetric modes), and is one of 2^bits + 1 levels; in the restricted symmetric mode the level fits
    the quantized range. *)
Theorem C33_fake_quant_error :
  forall bits lm d h s, (2 <= bits)%Z -> 0 <= d -> d < 1 -> (forall x, In x (trained h) -> x <> []) -> trained h <> [] ->
  flq_run bits (PM lm) d h flq_init = Ok s ->
  let r := mode_range bits (PM lm) in
  let lo := if is_sym (PM lm) then - qmax (Qabs (f_min s)) (Qabs (f_max s)) else f_min s in
  let hi := if is_sym (PM lm) then qmax (Qabs (f_min s)) (Qabs (f_max s)) else f_max s in
  0 < f_scale s /\ lo <= hi /\
  forall x out, flq_forward bits (PM lm) d true false x s = Ok (s, out) ->
  length out = length x /\
  forall i, (i < length x)%nat ->
    exists q, nth i out 0 = linear_dequantize (Zq q) (f_scale s) (f_zp s) /\
    (fst r <= q <= snd r + 1)%Z /\ (lm = SYMR -> (q <= snd r)%Z) /\
    forall c, is_clamp (nth i x 0) lo hi c -> Qabs (nth i out 0 - c) <= 1 / (2 * f_scale s).
Proof.
  intros bits lm d h s Hb H0 H1 Hne Hh Hr r lo hi.
  destruct (C33_tracking bits (PM lm) d h H0 H1 Hne) as (s' & mins & maxs & R & _ & _ & _ & _ & _ & Hle & P & _).
  rewrite Hr in R. injection R as <-. specialize (P Hh).
  destruct (params_from_range_levels bits lm _ _ _ _ Hb Hle P) as (L1 & L2 & L3 & L4 & L5). fold r lo hi in L2, L3, L4, L5.
  split; auto. split; auto. intros x out Hf. unfold flq_forward in Hf. cbn [bind] in Hf. injection Hf as <-.
  unfold flq_out. rewrite map_length. split; auto. intros i Hi.
  set (f := fun v => quantize_ste _ _ _ _).
  rewrite nth_indep with (d' := f 0) by (rewrite map_length; auto). rewrite (map_nth f).
  assert (Ef : forall v, f v = linear_dequantize (Zq (linear_quantize (clamp v lo hi) (f_scale s) (f_zp s))) (f_scale s) (f_zp s)).
  { intro v. unfold f, lo, hi, quantize_ste. destruct (is_sym (PM lm)); reflexivity. }
  rewrite Ef. set (cv := clamp (nth i x 0) lo hi).
  pose proof (clamp_is_clamp (nth i x 0) lo hi L2) as Hcv. fold cv in Hcv.
  exists (linear_quantize cv (f_scale s) (f_zp s)). split; auto.
  destruct Hcv as (C1 & C2 & C3 & C4 & C5).
  assert (M1 : f_scale s * lo <= f_scale s * cv). { apply Qmult_le_l; auto. }
  assert (M2 : f_scale s * cv <= f_scale s * hi). { apply Qmult_le_l; auto. }
  split; [|split].
  - unfold linear_quantize. split.
    + assert (K : (rhe (Zq (fst r - 1) + (1#2)) <= rhe (f_scale s * cv - f_zp s))%Z).
      { apply rhe_mono. rewrite Zq_minus. change (Zq 1) with 1. lra. }
      rewrite rhe_tie in K. destruct (Z.even (fst r - 1)) eqn:Ee; [|lia].
      destruct lm; try (exfalso; revert Ee; unfold r, mode_range, get_quantized_range; cbn [mode_is lqmode_eqb negb fst];
        pose proof (pow2_split (bits - 1) ltac:(lia)) as E; rewrite ?E; intro Ee; apply Z.even_spec in Ee; destruct Ee; lia).
      destruct (L5 eq_refl) as [K5 _]. apply rhe_ge. lra.
    + assert (K : (rhe (f_scale s * cv - f_zp s) <= rhe (Zq (snd r) + (1#2)))%Z) by (apply rhe_mono; lra).
      rewrite rhe_tie in K. destruct (Z.even (snd r)); lia.
  - intro E. destruct (L5 E) as [_ K5]. unfold linear_quantize. apply rhe_le. lra.
  - intros c (D1 & D2 & D3 & D4 & D5).
    assert (Ec : c == cv).
    { destruct (Qlt_le_dec (nth i x 0) lo) as [X|X]; [rewrite C3, D3 by lra; reflexivity|].
      destruct (Qlt_le_dec hi (nth i x 0)) as [Y|Y]; [rewrite C4, D4 by lra; reflexivity|]. rewrite C5, D5 by auto. reflexivity. }
    rewrite Ec. unfold linear_quantize, linear_dequantize. pose proof (rhe_err (f_scale s * cv - f_zp s)) as K.
    set (q := Zq (rhe (f_scale s * cv - f_zp s))) in *.
    assert (E : (q + f_zp s) / f_scale s - cv == (q - (f_scale s * cv - f_zp s)) / f_scale s) by (field; lra).
    rewrite E, Qabs_div_pos by auto.
    assert (E2 : 1 / (2 * f_scale s) == (1#2) / f_scale s) by (field; lra). rewrite E2. apply Qdiv_le_compat; auto.
Qed.

(** Finding: in the (unrestricted) symmetric mode the level of the largest tracked value is 2^(bits-1),
    one more than the largest quantized value. *)
Theorem C33_symmetric_level_overflow_refuted :
  ~ (forall bits lm d h s x out, (2 <= bits)%Z -> 0 <= d -> d < 1 -> (forall x, In x (trained h) -> x <> []) -> trained h <> [] ->
     flq_run bits (PM lm) d h flq_init = Ok s -> flq_forward bits (PM lm) d true false x s = Ok (s, out) ->
     forall i, (i < length x)%nat -> nth i out 0 <= linear_dequantize (Zq (snd (mode_range bits (PM lm)))) (f_scale s) (f_zp s)).
Proof.
  intro H.
  specialize (H 8%Z SYM 0 [(true, [-(1); 1])]). 
  destruct (flq_run 8 (PM SYM) 0 [(true, [-(1); 1])] flq_init) as [s0|] eqn:E; [|vm_compute in E; discriminate].
  specialize (H s0 [1] (flq_out (PM SYM) true s0 [1]) ltac:(lia) ltac:(lra) ltac:(lra)).
  assert (K : nth 0 (flq_out (PM SYM) true s0 [1]) 0 <= linear_dequantize (Zq (snd (mode_range 8 (PM SYM)))) (f_scale s0) (f_zp s0)).
  { apply H; auto.
    - intros x [<-|[]]. discriminate.
    - discriminate. }
  vm_compute in E. injection E as <-. vm_compute in K. contradiction K. reflexivity.
Qed.

(** Finding: before any training forward, evaluation returns 0 for every input. *)
Theorem C33_untrained_outputs_zero :
  forall bits m d x s out, flq_forward bits m d true false x flq_init = Ok (s, out) -> s = flq_init /\ Forall (fun o => o == 0) out /\ length out = length x.
Proof.
  intros bits m d x s out H. unfold flq_forward in H. cbn [bind] in H. injection H as <- <-.
  split; auto. split; [|unfold flq_out; apply map_length].
  unfold flq_out. apply Forall_forall. intros o Ho. apply in_map_iff in Ho. destruct Ho as (v & <- & _).
  set (r := if is_sym m then _ else _).
  assert (Er : fst r == 0 /\ snd r == 0) by (unfold r; destruct (is_sym m); split; reflexivity).
  destruct Er as [E1 E2].
  assert (Ec : clamp v (fst r) (snd r) == 0).
  { destruct (clamp_is_clamp v (fst r) (snd r) ltac:(lra)) as (A & B & _). lra. }
  unfold quantize_ste, linear_quantize, linear_dequantize. cbn [f_scale f_zp flq_init].
  rewrite (rhe_Proper _ 0) by (rewrite Ec; ring). reflexivity.
Qed.

(** Finding: given the (activations, weights) pair of modes, the tracker quantizes asymmetrically and
    unsigned whatever the pair says. *)
Theorem C33_mode_pair_is_asymmetric_unsigned :
  forall bits a w d h s, flq_run bits (PPair a w) d h s = flq_run bits (PM ASU) d h s.
Proof. intros. reflexivity. Qed.

Example C33_example : exists s, flq_run 8 (PM ASU) (1#2) [(true, [-(1); 1]); (false, [7]); (true, [0; 5]); (true, [2])] flq_init = Ok s /\
  f_min s == 1 /\ f_max s == (19#7) /\ f_iter s = 3%Z.
Proof. eexists. split; [vm_compute; reflexivity|]. vm_compute. auto. Qed.
Print Assumptions C33_ema_average.
Print Assumptions C33_tracking.
Print Assumptions C33_fake_quant_error.
Print Assumptions C33_symmetric_level_overflow_refuted.
Print Assumptions C33_untrained_outputs_zero.
Print Assumptions C33_mode_pair_is_asymmetric_unsigned.

(** C33: the weights used by the forward in quantization-aware training are within half a quantization
    step of the float weights, channel by channel. *)
Theorem C33_qat_weight_error :
  forall bits a w pc emb dims rows out, (1 <= bits)%Z -> qat_param bits a w pc emb dims rows = Ok out ->
  length out = length rows /\
  exists par, (length par = if negb emb && pc && (Nat.eqb dims 2 || Nat.eqb dims 4) then length rows else 1%nat) /\
  forall c i, (c < length rows)%nat -> (i < length (nth c rows []))%nat ->
    0 < scale_of par c /\ (exists q, nth i (nth c out []) 0 == (Zq q + zp_of par c) / scale_of par c) /\
    Qabs (nth i (nth c out []) 0 - nth i (nth c rows []) 0) <= 1 / (2 * scale_of par c).
Proof.
  intros bits a w pc emb dims rows out Hb H. unfold qat_param in H. set (pch := negb emb && pc && _) in *.
  inv_bind H. injection H as <-. rewrite mapi_length. split; auto. exists x.
  change (params_from_rows rows bits (PPair a w) pch) with (params_from_rows rows bits (PM ASU) pch) in H0.
  assert (Hok : mode_ok bits (PM ASU)) by (split; auto; discriminate).
  destruct (params_from_rows_spec _ _ _ _ _ Hok H0) as (L & F & _). split; auto.
  intros c i Hc Hi. rewrite (mapi_nth _ 0 rows c [] []) by auto. cbn [Nat.add].
  set (s := scale_of x c). set (z := zp_of x c).
  assert (Hs : 0 < s).
  { unfold s, scale_of. apply (bc_Forall (fun p : Q * Q => 0 < fst p)); [|reflexivity]. eapply Forall_impl; [|exact F]. cbv beta. tauto. }
  rewrite nth_indep with (d' := quantize_ste 0 s z true) by (rewrite map_length; auto).
  rewrite (map_nth (fun v => quantize_ste v s z true)). set (v := nth i (nth c rows []) 0).
  split; auto. unfold quantize_ste, linear_dequantize, linear_quantize. split; [eexists; reflexivity|].
  pose proof (rhe_err (s * v - z)) as K. set (q := Zq (rhe (s * v - z))) in *.
  assert (E : (q + z) / s - v == (q - (s * v - z)) / s) by (field; lra).
  rewrite E, Qabs_div_pos by auto.
  assert (E2 : 1 / (2 * s) == (1#2) / s) by (field; lra). rewrite E2. apply Qdiv_le_compat; auto.
Qed.

(** Finding: the weights mode configured by the user has no effect in quantization-aware training. *)
Theorem C33_qat_mode_ignored :
  forall bits a w a' w' pc emb dims rows, qat_param bits a w pc emb dims rows = qat_param bits a' w' pc emb dims rows.
Proof. reflexivity. Qed.
Print Assumptions C33_qat_weight_error.
Print Assumptions C33_qat_mode_ignored.
