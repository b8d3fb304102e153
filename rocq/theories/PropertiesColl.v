(** C58: calibration statistics; C59: averaged minima and maxima; C60: collection contexts;
    C62: weighted meters and activation sparsity.  (Over Coq's real numbers.) *)
From Coq Require Import String List Reals Arith Bool Lia Lra Permutation.
From Verif Require Import Base CollModel CollSpec CollProofs.
Import ListNotations.
Open Scope R_scope.

(* ------------------------------------------------------------------------- *)
(** * C58 *)

(** C58: one tensor.  After a first pass over the batches [bs1] and a second over [bs2] (each with at least
    one value, no sample empty, values within the float range) the record holds the exact minimum, maximum
    and mean of the first pass, and the root-mean-square and mean absolute distance of the second pass's
    values from that mean, however the values are cut into batches. *)
Theorem C58_record_statistics : forall big bs1 bs2 r1 r2,
  Forall (fun x => Rabs x <= big) (values bs1) -> Forall shaped bs1 -> values bs1 <> [] -> values bs2 <> [] ->
  foldM (update_record false) bs1 (rec0 big) = Ok r1 ->
  foldM (update_record true) bs2 (zero_numel r1) = Ok r2 ->
  is_min (values bs1) (r_min r2) /\ is_max (values bs1) (r_max r2) /\ r_mean r2 = mean (values bs1) /\
  r_std r2 = rms_from (mean (values bs1)) (values bs2) /\ r_b r2 = mad_from (mean (values bs1)) (values bs2) /\
  r_numel r2 = length (values bs2).
Proof. exact two_passes. Qed.

Lemma describes_perm big bs1 bs2 r1 r2 :
  Forall (fun x => Rabs x <= big) (values bs1) -> Forall shaped bs1 -> values bs1 <> [] -> Permutation (values bs1) (values bs2) ->
  foldM (update_record false) bs1 (rec0 big) = Ok r1 ->
  foldM (update_record true) bs2 (zero_numel r1) = Ok r2 -> describes (values bs1) r2.
Proof.
  intros Hb Hs Hn Hp H1 H2.
  assert (Hn2 : values bs2 <> []) by (intro E; rewrite E in Hp; apply Permutation_sym, Permutation_nil in Hp; auto).
  destruct (two_passes big bs1 bs2 r1 r2 Hb Hs Hn Hn2 H1 H2) as (A & B & C & D & E & _).
  split; [exact A|]. split; [exact B|]. split; [exact C|]. rewrite D, E. unfold rms_from, mad_from.
  split; [f_equal|]; apply mean_perm, Permutation_map, Permutation_sym; auto.
Qed.

Lemma update_all_spec sec bs : forall rs rs', update_all sec rs bs = Ok rs' ->
  length rs' = length rs /\ (length bs <= length rs)%nat /\
  forall k d, (k < length bs)%nat -> update_record sec (nth k rs d) (nth k bs []) = Ok (nth k rs' d).
Proof.
  induction bs as [|b bs IH]; intros rs rs' H.
  - destruct rs; injection H as <-; simpl; repeat split; auto; try lia; intros; lia.
  - destruct rs as [|r rs]; [discriminate|]. cbn [update_all] in H. inv_bind H. inv_bind H. injection H as <-.
    destruct (IH _ _ H1) as (A & B & C). simpl. repeat split; auto; try lia. intros [|k] d Hk; auto. apply C. lia.
Qed.

Lemma nth_const {A B} (d : B) (l : list A) : forall k, nth k (map (fun _ => d) l) d = d.
Proof. induction l; intros [|k]; simpl; auto. Qed.

Lemma quant_fold big check sec n cs : forall q q', (forall c, In c cs -> length (c_inputs c) = n) ->
  (q_inputs q = [] \/ length (q_inputs q) = n) ->
  foldM (quant_cb big check sec) cs q = Ok q' ->
  foldM (update_record sec) (map c_output cs) (q_output q) = Ok (q_output q') /\
  (cs <> [] \/ length (q_inputs q) = n -> length (q_inputs q') = n) /\
  (q_inputs q' = [] \/ length (q_inputs q') = n) /\
  forall k, (k < n)%nat ->
    foldM (update_record sec) (map (fun c => nth k (c_inputs c) []) cs) (nth k (q_inputs q) (rec0 big)) = Ok (nth k (q_inputs q') (rec0 big)).
Proof.
  induction cs as [|c cs IH]; intros q q' Hn Hq H.
  - injection H as <-. repeat split; auto. intros [K|K]; [congruence|auto].
  - cbn [foldM] in H. inv_bind H. rename x into q1. unfold quant_cb in H0. destruct (check && c_inplace c); [discriminate|].
    inv_bind H0. inv_bind H0. injection H0 as <-.
    assert (Hc : length (c_inputs c) = n) by (apply Hn; left; auto).
    set (rs := match q_inputs q with [] => map (fun _ => rec0 big) (c_inputs c) | r :: l0 => r :: l0 end) in *.
    assert (Hrs : length rs = n /\ forall k, (k < n)%nat -> nth k rs (rec0 big) = nth k (q_inputs q) (rec0 big)).
    { unfold rs. destruct (q_inputs q) eqn:Eq.
      - split; [rewrite map_length; auto|]. intros k Hk. rewrite nth_const. destruct k; auto.
      - destruct Hq as [Hq|Hq]; [discriminate|]. auto. }
    destruct Hrs as [Hr1 Hr2]. destruct (update_all_spec _ _ _ _ H1) as (A & B & C).
    destruct (IH (mkQrec x x0) q' ltac:(intros c0 Hc0; apply Hn; right; auto) ltac:(right; cbn [q_inputs]; rewrite A; exact Hr1) H) as (D1 & D2 & D3 & D4).
    cbn [q_inputs q_output] in *. cbn [map foldM]. split; [|split; [|split]].
    + rewrite H2. exact D1.
    + intros _. apply D2. right. lia.
    + auto.
    + intros k Hk. rewrite <- Hr2 by auto. rewrite C by lia. cbn [bind]. apply D4; auto.
Qed.

Lemma second_recs (f : nat -> option qrec) (l : list cmod) : NoDup (map cm_id l) -> forall i,
  fold_left (fun f m => set_rec f (cm_id m) (option_map quant_second (f (cm_id m)))) l f i =
  if in_dec Nat.eq_dec i (map cm_id l) then option_map quant_second (f i) else f i.
Proof.
  revert f. induction l as [|m l IH]; intros f Hnd i; [reflexivity|]. cbn [fold_left map] in *. inversion Hnd; subst.
  rewrite (IH _ H2). destruct (Nat.eq_dec (cm_id m) i) as [E|E].
  - subst i. rewrite set_rec_same. destruct (in_dec Nat.eq_dec (cm_id m) (map cm_id l)); [tauto|].
    destruct (in_dec Nat.eq_dec (cm_id m) (cm_id m :: map cm_id l)) as [_|N]; auto. exfalso. apply N. left; auto.
  - rewrite set_rec_other by auto. destruct (in_dec Nat.eq_dec i (map cm_id l)) as [K|K].
    + destruct (in_dec Nat.eq_dec i (cm_id m :: map cm_id l)) as [_|N]; auto. exfalso. apply N. right; auto.
    + destruct (in_dec Nat.eq_dec i (cm_id m :: map cm_id l)) as [[N|N]|_]; auto; tauto.
Qed.

Lemma seen_once {Call} hooks i (body : list (cop Call)) : NoDup hooks -> In i hooks -> seen hooks i body = calls i body.
Proof.
  intros Hnd Hi. unfold seen. rewrite (proj1 (NoDup_count_occ' Nat.eq_dec hooks) Hnd i Hi).
  induction (calls i body) as [|c l IH]; cbn [flat_map repeat app]; [|f_equal; exact IH]; auto.
Qed.

Lemma nth_zero big k l : nth k (map zero_numel l) (rec0 big) = zero_numel (nth k l (rec0 big)).
Proof. change (rec0 big) with (zero_numel (rec0 big)) at 1. apply map_nth. Qed.

(** C58: the whole model.  If collect_quant_stats succeeds (on any model in which no collected module is
    registered twice, from any earlier state of the collector without hooks), then for every collected module
    that was called, the record of its output and of each of its inputs describes exactly the values those
    tensors took over all its calls, provided the second pass sees the same values (in any order and in any
    division into batches). *)
Theorem C58_collect_quant_stats : forall big check model evs1 evs2 s s' i n,
  NoDup (map cm_id (collected model)) -> In i (map cm_id (collected model)) ->
  Forall is_fwd evs1 -> Forall is_fwd evs2 -> k_second s = false ->
  collect_quant_stats big check model [] evs1 evs2 s = (s', None) ->
  let cs1 := calls i evs1 in
  let cs2 := calls i evs2 in
  cs1 <> [] ->
  (forall c, In c (cs1 ++ cs2) -> length (c_inputs c) = n) ->
  (forall c b, In c cs1 -> In b (c_output c :: c_inputs c) -> shaped b /\ b <> [] /\ Forall (fun x => Rabs x <= big) (concat b)) ->
  Permutation (output_values cs1) (output_values cs2) ->
  (forall k, (k < n)%nat -> Permutation (input_values k cs1) (input_values k cs2)) ->
  exists q, k_recs s' i = Some q /\ describes (output_values cs1) (q_output q) /\ length (q_inputs q) = n /\
    forall k, (k < n)%nat -> describes (input_values k cs1) (nth k (q_inputs q) (rec0 big)).
Proof.
  intros big check model evs1 evs2 s s' i n Hnd Hi Hf1 Hf2 Hsec H cs1 cs2 Hne Hn Hw Hpo Hpi.
  unfold collect_quant_stats, context, quant_body in H.
  change (Reset :: Start [] :: (evs1 ++ [StartSecond] ++ evs2 ++ [StopSecond]) ++ [Stop])%list
    with ([Reset; Start []] ++ (evs1 ++ [StartSecond] ++ evs2 ++ [StopSecond]) ++ [Stop])%list in H.
  rewrite run_app in H.
  destruct (crun (qrec0 big) (quant_cb big check) false quant_second model [Reset; Start []] s) as (s0 & [e|]) eqn:E0; [discriminate|].
  apply context_begin in E0; [|intros j Hj; apply ids_order, Hj].
  destruct E0 as (_ & A1 & A2 & A3 & _). cbn [regs] in *. change (ids model model) with (map cm_id (collected model)) in *.
  rewrite <- app_assoc, run_app in H.
  destruct (crun (qrec0 big) (quant_cb big check) false quant_second model evs1 s0) as (s1 & [e|]) eqn:E1; [discriminate|].
  apply run_fwds in E1; auto. destruct E1 as (B1 & B2 & _ & B4).
  rewrite <- app_assoc in H. cbn [app] in H. cbn [crun] in H.
  destruct (cstep (qrec0 big) (quant_cb big check) false quant_second model s1 StartSecond) as (s2 & [e|]) eqn:E2; [discriminate|].
  cbn [cstep] in E2. destruct (forallb _ _); [|discriminate]. injection E2 as <-.
  rewrite <- app_assoc, run_app in H.
  match type of H with context [crun _ _ _ _ _ evs2 ?x] => set (s2 := x) in * end.
  destruct (crun (qrec0 big) (quant_cb big check) false quant_second model evs2 s2) as (s3 & [e|]) eqn:E3; [discriminate|].
  apply run_fwds in E3; auto. destruct E3 as (C1 & C2 & _ & C4).
  cbn [app crun cstep] in H. injection H as <-. cbn [k_recs].
  destruct (B4 i (qrec0 big) (A3 i Hi)) as (q1 & D1 & D2). rewrite A1, seen_once in D1 by auto. rewrite A2, Hsec in D1. fold cs1 in D1.
  assert (D3 : k_recs s2 i = Some (quant_second q1)).
  { unfold s2. cbn [k_recs]. rewrite second_recs by auto. destruct (in_dec _ _ _); [|tauto]. rewrite D2. reflexivity. }
  destruct (C4 i _ D3) as (q2 & F1 & F2).
  assert (K : k_hooks s2 = map cm_id (collected model)) by (unfold s2; cbn; congruence).
  rewrite K, seen_once in F1 by auto. change (k_second s2) with true in F1. fold cs2 in F1.
  exists q2. split; [exact F2|].
  destruct (quant_fold big check false n cs1 (qrec0 big) q1 ltac:(intros c Hc; apply Hn, in_or_app; auto) (or_introl eq_refl) D1) as (G1 & G2 & G3 & G4).
  specialize (G2 (or_introl Hne)).
  destruct (quant_fold big check true n cs2 (quant_second q1) q2 ltac:(intros c Hc; apply Hn, in_or_app; auto)
             ltac:(right; cbn; rewrite map_length; auto) F1) as (I1 & I2 & _ & I4).
  cbn [q_output q_inputs quant_second] in *. rewrite map_length in I2.
  assert (Hval : forall (f : qcall -> batch), (forall c, In c cs1 -> In (f c) (c_output c :: c_inputs c)) ->
            Forall (fun x => Rabs x <= big) (values (map f cs1)) /\ Forall shaped (map f cs1) /\ values (map f cs1) <> []).
  { intros f Hf. split; [|split].
    - unfold values. rewrite map_map. apply Forall_forall. intros x Hx. apply in_concat in Hx. destruct Hx as (l & Hl & Hx).
      apply in_map_iff in Hl. destruct Hl as (c & <- & Hc). destruct (Hw c _ Hc (Hf c Hc)) as (_ & _ & W). rewrite Forall_forall in W. auto.
    - apply Forall_forall. intros b Hb. apply in_map_iff in Hb. destruct Hb as (c & <- & Hc). apply (Hw c _ Hc (Hf c Hc)).
    - destruct cs1 as [|c l]; [congruence|]. destruct (Hw c (f c) (or_introl eq_refl) (Hf c (or_introl eq_refl))) as (W1 & W2 & _).
      unfold values. cbn [map concat]. intro E. apply app_eq_nil in E. destruct E as [E _]. destruct (f c) as [|x b]; [congruence|].
      inversion W1; subst. destruct x; [congruence|discriminate]. }
  split; [|split; [auto|]].
  - destruct (Hval c_output ltac:(intros; left; auto)) as (V1 & V2 & V3).
    eapply describes_perm; eauto.
  - intros k Hk. destruct (Hval (fun c => nth k (c_inputs c) [])) as (V1 & V2 & V3).
    { intros c Hc. right. apply nth_In. rewrite Hn; auto. apply in_or_app; auto. }
    specialize (G4 k Hk). cbn [q_inputs qrec0] in G4. replace (nth k [] (rec0 big)) with (rec0 big) in G4 by (destruct k; auto).
    specialize (I4 k Hk). rewrite nth_zero in I4. eapply describes_perm; [exact V1|exact V2|exact V3|exact (Hpi k Hk)|exact G4|exact I4].
Qed.

(** C58: once it succeeds, the collector has no hook left and is back to the first pass: it can be used again. *)
Theorem C58_reusable : forall big check model names evs1 evs2 s s',
  collect_quant_stats big check model names evs1 evs2 s = (s', None) -> k_hooks s' = [] /\ k_second s' = false.
Proof.
  intros big check model names evs1 evs2 s s' H. unfold collect_quant_stats, context, quant_body in H.
  change (Reset :: Start names :: (evs1 ++ [StartSecond] ++ evs2 ++ [StopSecond]) ++ [Stop])%list
    with ([Reset; Start names] ++ (evs1 ++ [StartSecond] ++ evs2 ++ [StopSecond]) ++ [Stop])%list in H.
  replace ([Reset; Start names] ++ (evs1 ++ [StartSecond] ++ evs2 ++ [StopSecond]) ++ [Stop])%list
    with (([Reset; Start names] ++ evs1 ++ [StartSecond] ++ evs2) ++ [StopSecond; Stop])%list in H by (rewrite <- !app_assoc; reflexivity).
  rewrite run_app in H. destruct (crun _ _ _ _ _ (_ ++ _)%list s) as (s0 & [e|]); [discriminate|]. cbn [crun cstep] in H. injection H as <-. auto.
Qed.

(** C58 finding: collect_quant_stats with modules_to_collect fails in general: the second pass insists on
    the statistics of every module of the model that could be collected, so it raises RuntimeError (or the
    first pass raised before) as soon as the list leaves one out that was never collected before; and the
    hooks of the listed modules stay registered. *)
Theorem C58_modules_to_collect_refuted : forall big check model names evs1 evs2 s j,
  coherent model -> In j (map cm_id (collected model)) -> ~ In j (regs model names) -> k_recs s j = None -> k_hooks s = [] ->
  Forall is_fwd evs1 ->
  exists s' e, collect_quant_stats big check model names evs1 evs2 s = (s', Some e) /\
    (forall s1, crun (qrec0 big) (quant_cb big check) false quant_second model (Reset :: Start names :: evs1) s = (s1, None) ->
       e = RuntimeError /\ k_hooks s' = regs model names).
Proof.
  intros big check model names evs1 evs2 s j Hc Hj Hnj Hrj Hh Hf. unfold collect_quant_stats, context, quant_body.
  change (Reset :: Start names :: (evs1 ++ [StartSecond] ++ evs2 ++ [StopSecond]) ++ [Stop])%list
    with ([Reset; Start names] ++ (evs1 ++ [StartSecond] ++ evs2 ++ [StopSecond]) ++ [Stop])%list.
  change (Reset :: Start names :: evs1) with ([Reset; Start names] ++ evs1)%list. rewrite !run_app.
  destruct (crun (qrec0 big) (quant_cb big check) false quant_second model [Reset; Start names] s) as (s0 & [e|]) eqn:E0.
  { exists s0, e. split; auto. discriminate. }
  apply context_begin in E0; [|intros i Hi; apply ids_order, (regs_incl model names Hc i Hi)].
  destruct E0 as (_ & A1 & _ & _ & A5 & _). rewrite <- app_assoc, run_app.
  destruct (crun (qrec0 big) (quant_cb big check) false quant_second model evs1 s0) as (s1 & [e|]) eqn:E1.
  { exists s1, e. split; auto. discriminate. }
  apply run_fwds in E1; auto. destruct E1 as (B1 & _ & B3 & _).
  cbn [app crun cstep]. 
  assert (F : forallb (fun m => match k_recs s1 (cm_id m) with Some _ => true | None => false end) (collected model) = false).
  { destruct (forallb _ _) eqn:F; auto. exfalso. rewrite forallb_forall in F. apply in_map_iff in Hj. destruct Hj as (m & <- & Hm).
    specialize (F m Hm). rewrite (B3 _ (A5 _ Hnj Hrj)) in F. discriminate. }
  rewrite F. exists s1, RuntimeError. split; auto. intros s2 _. split; auto. congruence.
Qed.

(** C58 finding: a collected module that is never called in the first pass is reported all the same, with a
    minimum (the largest float) above its maximum (the smallest). *)
Theorem C58_never_called_refuted : forall big check model evs1 evs2 s s' i,
  NoDup (map cm_id (collected model)) -> In i (map cm_id (collected model)) ->
  Forall is_fwd evs1 -> Forall is_fwd evs2 -> 0 < big ->
  collect_quant_stats big check model [] evs1 evs2 s = (s', None) ->
  calls i evs1 = [] -> calls i evs2 = [] ->
  exists q, In (i, q) (value model s') /\ r_min (q_output q) = big /\ r_max (q_output q) = - big /\ r_max (q_output q) < r_min (q_output q).
Proof.
  intros big check model evs1 evs2 s s' i Hnd Hi Hf1 Hf2 Hb H Hc1 Hc2.
  unfold collect_quant_stats, context, quant_body in H.
  change (Reset :: Start [] :: (evs1 ++ [StartSecond] ++ evs2 ++ [StopSecond]) ++ [Stop])%list
    with ([Reset; Start []] ++ (evs1 ++ [StartSecond] ++ evs2 ++ [StopSecond]) ++ [Stop])%list in H.
  rewrite run_app in H.
  destruct (crun (qrec0 big) (quant_cb big check) false quant_second model [Reset; Start []] s) as (s0 & [e|]) eqn:E0; [discriminate|].
  apply context_begin in E0; [|intros j Hj; apply ids_order, Hj].
  destruct E0 as (_ & A1 & A2 & A3 & _). cbn [regs] in *. change (ids model model) with (map cm_id (collected model)) in *.
  rewrite <- app_assoc, run_app in H.
  destruct (crun (qrec0 big) (quant_cb big check) false quant_second model evs1 s0) as (s1 & [e|]) eqn:E1; [discriminate|].
  apply run_fwds in E1; auto. destruct E1 as (B1 & B2 & _ & B4).
  rewrite <- app_assoc in H. cbn [app] in H. cbn [crun] in H.
  destruct (cstep (qrec0 big) (quant_cb big check) false quant_second model s1 StartSecond) as (s2 & [e|]) eqn:E2; [discriminate|].
  cbn [cstep] in E2. destruct (forallb _ _); [|discriminate]. injection E2 as <-.
  rewrite <- app_assoc, run_app in H.
  match type of H with context [crun _ _ _ _ _ evs2 ?x] => set (s2 := x) in * end.
  destruct (crun (qrec0 big) (quant_cb big check) false quant_second model evs2 s2) as (s3 & [e|]) eqn:E3; [discriminate|].
  apply run_fwds in E3; auto. destruct E3 as (C1 & C2 & _ & C4).
  cbn [app crun cstep] in H. injection H as <-.
  destruct (B4 i (qrec0 big) (A3 i Hi)) as (q1 & D1 & D2). unfold seen in D1. rewrite Hc1 in D1. injection D1 as <-.
  assert (D3 : k_recs s2 i = Some (quant_second (qrec0 big))).
  { unfold s2. cbn [k_recs]. rewrite second_recs by auto. destruct (in_dec _ _ _); [|tauto]. rewrite D2. reflexivity. }
  destruct (C4 i _ D3) as (q2 & F1 & F2). unfold seen in F1. rewrite Hc2 in F1. injection F1 as <-.
  eexists. split.
  - unfold value. apply in_flat_map. exists i. split; [apply nodup_In, ids_order; exact Hi|]. cbn [k_recs]. rewrite F2. left. reflexivity.
  - cbn. repeat split; lra.
Qed.

(* ------------------------------------------------------------------------- *)
(** * C59: avg_min and avg_max *)

(** the per-sample minima (or the batch minimum, for one-value samples) that enter avg_min *)
Definition sample_minima (bs : list batch) : list R := concat (map (per_sample min_of) bs).
Definition sample_maxima (bs : list batch) : list R := concat (map (per_sample max_of) bs).

(** C59: with a single batch, avg_min and avg_max are the averages of the per-sample minima and maxima. *)
Theorem C59_single_batch : forall big b r,
  update_record false (rec0 big) b = Ok r ->
  r_avg_min r = mean (sample_minima [b]) /\ r_avg_max r = mean (sample_maxima [b]).
Proof.
  intros big b r H. unfold update_record in H. destruct (Nat.eqb _ 0); [discriminate|]. injection H as <-.
  cbn [r_avg_min r_avg_max]. unfold sample_minima, sample_maxima. cbn [map concat]. rewrite !app_nil_r.
  unfold running_mean, mean. cbn [rec0 r_avg_min r_avg_max r_numel INR]. rewrite !Rmult_0_l, !Rplus_0_l. auto.
Qed.

Lemma rsum_bounds lo hi l : Forall (fun x => lo <= x <= hi) l -> INR (length l) * lo <= rsum l <= INR (length l) * hi.
Proof. induction 1; [simpl; lra|]. cbn [length rsum fold_right]. rewrite S_INR. fold (rsum l). lra. Qed.

Lemma running_mean_bounds lo hi v prev n : v <> [] -> Forall (fun x => lo <= x <= hi) v -> (n = O \/ lo <= prev <= hi) ->
  lo <= running_mean v prev n <= hi.
Proof.
  intros Hv Hf Hp. unfold running_mean. pose proof (rsum_bounds _ _ _ Hf) as [B1 B2].
  assert (L : 0 < INR (length v)) by (apply INR_pos; destruct v; [congruence|simpl; lia]).
  assert (N : 0 <= INR n) by apply pos_INR.
  assert (P : INR n * lo <= INR n * prev <= INR n * hi).
  { destruct Hp as [->|Hp]; [simpl; lra|]. split; apply Rmult_le_compat_l; lra. }
  split.
  - apply (Rmult_le_reg_r (INR n + INR (length v))); [lra|]. unfold Rdiv. rewrite Rmult_assoc, Rinv_l by lra. lra.
  - apply (Rmult_le_reg_r (INR n + INR (length v))); [lra|]. unfold Rdiv. rewrite Rmult_assoc, Rinv_l by lra. lra.
Qed.

(** C59: over any number of batches, avg_min and avg_max stay within the range of the per-sample minima and
    maxima. *)
Theorem C59_bounds : forall big bs r lo hi,
  bs <> [] -> Forall (fun b => b <> []) bs ->
  foldM (update_record false) bs (rec0 big) = Ok r ->
  (Forall (fun x => lo <= x <= hi) (sample_minima bs) -> lo <= r_avg_min r <= hi) /\
  (Forall (fun x => lo <= x <= hi) (sample_maxima bs) -> lo <= r_avg_max r <= hi).
Proof.
  intros big bs r lo hi Hne Hb H.
  assert (G : forall bs r0 r, Forall (fun b => b <> []) bs -> foldM (update_record false) bs r0 = Ok r ->
     (Forall (fun x => lo <= x <= hi) (sample_minima bs) -> (r_numel r0 = O \/ lo <= r_avg_min r0 <= hi) ->
        (bs = [] \/ lo <= r_avg_min r <= hi)) /\
     (Forall (fun x => lo <= x <= hi) (sample_maxima bs) -> (r_numel r0 = O \/ lo <= r_avg_max r0 <= hi) ->
        (bs = [] \/ lo <= r_avg_max r <= hi))).
  { clear. induction bs as [|b bs IH]; intros r0 r Hb H; [split; auto|].
    inversion Hb; subst. cbn [foldM] in H. inv_bind H. destruct (IH _ _ H3 H) as [I1 I2].
    unfold update_record in H0. destruct (Nat.eqb _ 0) eqn:E; [discriminate|]. injection H0 as <-. cbn [r_numel r_avg_min r_avg_max] in *.
    assert (PS : forall f, per_sample f b <> []).
    { intro f. unfold per_sample.
 destruct (Nat.eqb (length (concat b)) (length b)).
 congruence.
 intro K. apply map_eq_nil in K. congruence. }
    split; intros Hf Hp; right; unfold sample_minima, sample_maxima in Hf; cbn [map concat] in Hf; apply Forall_app in Hf; destruct Hf as [Hf1 Hf2];
      pose proof (running_mean_bounds _ _ _ _ _ (PS _) Hf1 Hp) as K.
    - destruct (I1 Hf2 (or_intror K)) as [->|]; auto; cbn [foldM] in H; injection H as <-; exact K.
    - destruct (I2 Hf2 (or_intror K)) as [->|]; auto; cbn [foldM] in H; injection H as <-; exact K. }
  destruct (G bs (rec0 big) r Hb H) as [G1 G2]. split; intro Hf; [destruct (G1 Hf)|destruct (G2 Hf)]; auto; congruence.
Qed.

(** C59: what the averages really are.  A batch of B samples after N values (not N samples) moves avg_min
    by the fraction B / (N + B) towards the batch's average. *)
Theorem C59_actual_update : forall r b r', update_record false r b = Ok r' -> b <> [] ->
  let B := INR (length (per_sample min_of b)) in let N := INR (r_numel r) in
  0 < N + B /\ r_avg_min r' = r_avg_min r + B / (N + B) * (mean (per_sample min_of b) - r_avg_min r).
Proof.
  intros r b r' H Hb B N. unfold update_record in H. destruct (Nat.eqb _ 0); [discriminate|]. injection H as <-. cbn [r_avg_min].
  assert (0 < B). { unfold B, per_sample. destruct (Nat.eqb _ _); [simpl; lra|]. apply INR_pos. rewrite map_length. destruct b; [congruence|simpl; lia]. }
  assert (0 <= N) by apply pos_INR. split; [lra|]. unfold running_mean, mean. fold B N. field. lra.
Qed.

(** C59 finding: over several batches avg_min is not the average of the per-sample minima: the values of
    the samples seen before, rather than the samples, are counted.  Two batches of one two-value sample
    each, with minima 0 and 6: the average is 3, avg_min is 2. *)
Theorem C59_average_refuted :
  ~ (forall big bs r, Forall shaped bs -> bs <> [] -> Forall (fun b => b <> []) bs ->
      Forall (fun x => Rabs x <= big) (values bs) ->
      foldM (update_record false) bs (rec0 big) = Ok r -> r_avg_min r = mean (sample_minima bs)).
Proof.
  intro H. specialize (H 10 [[[0; 1]]; [[6; 7]]]).
  destruct (foldM (update_record false) [[[0; 1]]; [[6; 7]]] (rec0 10)) as [r|] eqn:E; [|discriminate].
  specialize (H r). cbn in E. injection E as E.
  assert (K : r_avg_min r = 2).
  { rewrite <- E. cbn [r_avg_min]. unfold running_mean. cbn. rewrite !Rmin_left by lra. field. }
  rewrite H in K; auto.
  - unfold sample_minima, mean in K. cbn in K. rewrite !Rmin_left in K by lra. lra.
  - repeat constructor; discriminate.
  - discriminate.
  - repeat constructor; discriminate.
  - unfold values. cbn. repeat constructor; rewrite Rabs_pos_eq; lra.
Qed.

(* ------------------------------------------------------------------------- *)
(** * C60: collection contexts *)

Lemma au_trans a b c : at_or_under a b -> at_or_under b c -> at_or_under a c.
Proof. intros H1 H2. induction H2; [auto|]. eapply AuKid; eauto. Qed.
Lemma coherent_kid m n c : coherent_under m -> In (n, c) (cm_kids m) -> coherent_under c.
Proof. intros H Hc x Hx. apply H. apply (au_trans m c); auto. eapply AuKid; [constructor|eauto]. Qed.

Fixpoint cmod_ind' (P : cmod -> Prop) (h : forall i w e kids, Forall (fun k => P (snd k)) kids -> P (CMod i w e kids)) (m : cmod) : P m :=
  match m with
  | CMod i w e kids => h i w e kids ((fix go (l : list (string * cmod)) : Forall (fun k => P (snd k)) l :=
      match l with [] => Forall_nil _ | k :: l => Forall_cons _ (cmod_ind' P h (snd k)) (go l) end) kids)
  end.

Lemma au_inv i w e kids x : at_or_under (CMod i w e kids) x -> x = CMod i w e kids \/ exists n c, In (n, c) kids /\ at_or_under c x.
Proof.
  induction 1 as [|x n c H [->|(n' & c' & A & B)] Hc]; [auto| |].
  - right. exists n, c. split; [exact Hc|constructor].
  - right. exists n', c'. split; auto. eapply AuKid; eauto.
Qed.

Lemma order_under m : coherent_under m -> forall x, In x (apply_order m) <-> at_or_under m x.
Proof.
  induction m as [i w e kids IH] using cmod_ind'. intros Hc x. cbn [apply_order].
  set (go := fix go (l : list (string * cmod)) (memo : list nat) : list cmod := _).
  assert (G : forall l memo, (forall k, In k l -> In k kids) -> Forall (fun k => coherent_under (snd k) -> forall x, In x (apply_order (snd k)) <-> at_or_under (snd k) x) l ->
            (forall j, In j memo -> exists n c, In (n, c) kids /\ cm_id c = j) ->
            (In x (go l memo) -> exists n c, In (n, c) l /\ at_or_under c x) /\
            ((exists n c, In (n, c) l /\ at_or_under c x) -> In x (go l memo) \/ exists n c, In (n, c) kids /\ In (cm_id c) memo /\ at_or_under c x)).
  { intro l. induction l as [|(n, c) l IHl]; intros memo Hin F Hm; [split; [intros []|intros (n & c & [] & _)]|].
    inversion F as [|? ? Fc F']; subst. cbn [snd] in Fc.
    assert (Cc : coherent_under c) by (eapply coherent_kid; [exact Hc|apply (Hin (n, c)); left; auto]). cbn [go]. fold go.
    destruct (mem (cm_id c) memo) eqn:Em.
    - destruct (IHl memo ltac:(intros; apply Hin; right; auto) F' Hm) as (A & B). split.
      + intro H. destruct (A H) as (n' & c' & H1 & H2). exists n', c'. split; auto. right; auto.
      + intros (n' & c' & [E|H1] & H2); [|apply B; eauto]. injection E as <- <-. right. exists n, c. split; [apply Hin; left; auto|]. split; auto.
        unfold mem in Em. apply existsb_exists in Em. destruct Em as (j & Hj & Ej). apply Nat.eqb_eq in Ej. subst j. auto.
    - destruct (IHl (cm_id c :: memo) ltac:(intros; apply Hin; right; auto) F') as (A & B).
      { intros j [<-|Hj]; [|auto]. exists n, c. split; auto. apply Hin. left; auto. }
      split.
      + intro H. apply in_app_or in H. destruct H as [H|H].
        * exists n, c. split; [left; auto|]. apply (Fc Cc). auto.
        * destruct (A H) as (n' & c' & H1 & H2). exists n', c'. split; auto. right; auto.
      + intros (n' & c' & [E|H1] & H2).
        * injection E as <- <-. left. apply in_or_app. left. apply (Fc Cc). auto.
        * destruct (B ltac:(eauto)) as [H|(n2 & c2 & K1 & [K2|K2] & K3)]; [left; apply in_or_app; right; auto| |right; eauto].
          left. apply in_or_app. left. apply (Fc Cc).
          assert (c2 = c) as -> by (apply (Hc (CMod i w e kids) (AuRefl _) n2 c2 n c); auto; apply (Hin (n, c)); left; auto). auto. }
  destruct (G kids [] ltac:(auto) IH ltac:(intros j [])) as (A & B). split.
  - intro H. apply in_app_or in H. destruct H as [H|[<-|[]]]; [|constructor]. destruct (A H) as (n & c & H1 & H2). apply (au_trans _ c); auto. eapply AuKid; [constructor|eauto].
  - intro H. apply in_or_app. destruct (au_inv _ _ _ _ _ H) as [->|H']; [right; left; auto|]. destruct (B H') as [K|(n & c & _ & [] & _)]. left; auto.
Qed.

Lemma wrapped_spec m i : In i (wrapped_ids m) <-> is_wrapped m i.
Proof.
  induction m as [j w e kids IH] using cmod_ind'. cbn [wrapped_ids]. rewrite in_app_iff. split.
  - intros [H|H].
    + destruct w; [|destruct H]. apply in_map_iff in H. destruct H as ((n, c) & E & H). apply filter_In in H. destruct H as (H & Hn). cbn in E, Hn. apply String.eqb_eq in Hn. subst n.
      exists j, e, kids, c. split; [constructor|]. auto.
    + apply in_concat in H. destruct H as (l & Hl & H). apply in_map_iff in Hl. destruct Hl as ((n, c) & <- & Hk). rewrite Forall_forall in IH. apply (IH _ Hk) in H. cbn [snd] in H.
      destruct H as (j' & e' & kids' & c' & A & B & C). exists j', e', kids', c'. split; auto. apply (au_trans _ c); auto. eapply AuKid; [constructor|exact Hk].
  - intros (j' & e' & kids' & c' & A & B & C). destruct (au_inv _ _ _ _ _ A) as [E|(n & c & Hk & Hu)].
    + injection E as <- <- <- <-. left. apply in_map_iff. exists ("wrapped_module"%string, c'). split; auto. apply filter_In. split; auto.
    + right. apply in_concat. exists (wrapped_ids c). split; [apply in_map_iff; exists (n, c); auto|]. rewrite Forall_forall in IH. apply (IH _ Hk). exists j', e', kids', c'. auto.
Qed.

Lemma find_under path : forall m x, find_module m path = Some x -> at_or_under m x.
Proof.
  induction path as [|p path IH]; intros m x H; [injection H as <-; constructor|]. cbn [find_module] in H.
  assert (K : exists n c, In (n, c) (cm_kids m) /\ find_module c path = Some x).
  { revert H. generalize (cm_kids m). intro l. induction l as [|(k, c) l IHl]; [discriminate|]. destruct (String.eqb p k).
    - intro H. exists k, c. split; auto. left; auto.
    - intro H. destruct (IHl H) as (n & c' & A & B). exists n, c'. split; auto. right; auto. }
  destruct K as (n & c & A & B). apply (au_trans _ c); [eapply AuKid; [constructor|eauto]|auto].
Qed.

(** C60: which modules are collected.  A module object is registered iff it is at or under one of the listed modules (or
    anywhere in the model when there is no list), is a leaf or a quantization wrapper, is of a collected class, and is not
    the module that a quantization wrapper of the model wraps. *)
Theorem C60_collected_modules : forall model names i, coherent_under model ->
  (forall n, In n names -> find_module model n <> None) ->
  (In i (regs model names) <->
   exists m w kids, (names = [] /\ m = model \/ exists n, In n names /\ find_module model n = Some m) /\
     at_or_under m (CMod i w true kids) /\ (kids = [] \/ w = true) /\ ~ is_wrapped model i).
Proof.
  intros model names i Hc Hn.
  assert (I : forall m, at_or_under model m -> (In i (ids model m) <-> exists w kids, at_or_under m (CMod i w true kids) /\ (kids = [] \/ w = true) /\ ~ is_wrapped model i)).
  { intros m Hm. assert (Cm : coherent_under m) by (intros x Hx; apply Hc; apply (au_trans _ m); auto).
    unfold ids. rewrite in_map_iff. split.
    - intros (x & Ex & Hx). apply filter_In in Hx. destruct Hx as (Hx & Hs). apply (order_under m Cm) in Hx. destruct x as [j w e kids]. cbn in Ex. subst j.
      unfold should_collect in Hs. apply andb_prop in Hs. destruct Hs as (Hs & He). apply andb_prop in Hs. destruct Hs as (Hd & Hk). subst e. exists w, kids. split; auto. split.
      + destruct kids; auto.
      + intro K. apply wrapped_spec in K. apply negb_true_iff in Hd. assert (mem i (dont model) = true); [|congruence]. apply existsb_exists. exists i. split; auto. apply Nat.eqb_refl.
    - intros (w & kids & H & Hk & Hw). exists (CMod i w true kids). split; auto. apply filter_In. split; [apply (order_under m Cm); auto|].
      unfold should_collect. rewrite andb_true_r. apply andb_true_intro. split.
      + apply negb_true_iff. apply Bool.not_true_iff_false. intro K. apply existsb_exists in K. destruct K as (j & Hj & E). apply Nat.eqb_eq in E. subst j. apply Hw, wrapped_spec. exact Hj.
      + destruct Hk as [->| ->]; auto. destruct kids; auto. }
  unfold regs. destruct names as [|n0 names].
  - rewrite (I model (AuRefl _)). split.
    + intros (w & kids & H). exists model, w, kids. split; auto.
    + intros (m & w & kids & [(_ & ->)|(n & [] & _)] & H). eauto.
  - rewrite in_flat_map. split.
    + intros (n & Hin & H). destruct (find_module model n) as [m|] eqn:Ef; [|destruct H]. apply (I m (find_under _ _ _ Ef)) in H. destruct H as (w & kids & H). exists m, w, kids. split; auto. right. eauto.
    + intros (m & w & kids & [(K & _)|(n & Hin & Ef)] & H); [discriminate|]. exists n. split; auto. rewrite Ef. apply (I m (find_under _ _ _ Ef)). eauto.
Qed.

Section C60.
  Context {Rc Call : Type}.
  Variables (init : Rc) (cb : bool -> Rc -> Call -> res Rc) (keeps : bool) (second : Rc -> Rc) (model : cmod).

  (** C60: whatever happened before, a context that ends normally leaves no hook behind; the record of each
      module it collected is the one of a fresh collector that saw exactly the calls of that module inside the
      context, once per registration of the module; modules that were neither asked for nor collected before
      have no record, and the old records of other modules of the model were erased. *)
Theorem C60_context : forall names body s s', coherent model -> Forall is_fwd body ->
    context init cb keeps second model names body s = (s', None) ->
    k_hooks s = [] /\ k_hooks s' = [] /\ k_second s' = k_second s /\
    (forall i, In i (regs model names) -> exists r,
       foldM (cb (k_second s)) (seen (regs model names) i body) init = Ok r /\ k_recs s' i = Some r) /\
    (forall i, ~ In i (regs model names) -> k_recs s i = None -> k_recs s' i = None) /\
    (forall i, ~ In i (regs model names) -> In i (map cm_id (apply_order model)) -> k_recs s i <> None -> k_recs s' i = Some init).
  Proof.
    intros names body s s' Hc Hf H. unfold context in H.
    change (Reset :: Start names :: body ++ [Stop])%list with ([Reset; Start names] ++ body ++ [Stop])%list in H.
    rewrite run_app in H. destruct (crun init cb keeps second model [Reset; Start names] s) as (s0 & [e|]) eqn:E0; [discriminate|].
    apply context_begin in E0; [|intros i Hi; apply ids_order, (regs_incl model names Hc i Hi)].
    destruct E0 as (A0 & A1 & A2 & A3 & A4 & A5). rewrite run_app in H.
    destruct (crun init cb keeps second model body s0) as (s1 & [e|]) eqn:E1; [discriminate|].
    apply run_fwds in E1; auto. destruct E1 as (B1 & B2 & B3 & B4). cbn [crun cstep] in H. injection H as <-. cbn [k_hooks k_second k_recs].
    split; auto. split; auto. split; [congruence|]. split; [|split].
    - intros i Hi. destruct (B4 i init (A3 i Hi)) as (r & C1 & C2). exists r. rewrite A2, A1 in C1. auto.
    - intros i Hi Hn. apply B3. auto.
    - intros i Hi Hin Hn. destruct (B4 i init (A5 i Hi Hin Hn)) as (r & C1 & C2). rewrite C2. rewrite A1 in C1. unfold seen in C1.
      rewrite (proj1 (count_occ_not_In Nat.eq_dec _ _) Hi) in C1. cbn [repeat] in C1.
      assert (Z : flat_map (fun _ : Call => @nil Call) (calls i body) = []) by (induction (calls i body); auto).
      rewrite Z in C1. injection C1 as <-. auto.
  Qed.

  (** C60: when no module object is registered twice, each collected module's record is exactly the fold of its
      calls. *)
Theorem C60_each_call_once : forall names body s s' i, coherent model -> Forall is_fwd body ->
    context init cb keeps second model names body s = (s', None) -> NoDup (regs model names) -> In i (regs model names) ->
    exists r, foldM (cb (k_second s)) (calls i body) init = Ok r /\ k_recs s' i = Some r.
  Proof.
    intros names body s s' i Hc Hf H Hnd Hi. destruct (C60_context names body s s' Hc Hf H) as (_ & _ & _ & A & _).
    destruct (A i Hi) as (r & B1 & B2). rewrite seen_once in B1 by auto. eauto.
  Qed.

  (** C60: once the context has ended, running the model changes nothing and raises nothing. *)
Theorem C60_not_observing_after : forall names body s s' later, coherent model -> Forall is_fwd body ->
    context init cb keeps second model names body s = (s', None) -> Forall is_fwd later ->
    crun init cb keeps second model later s' = (s', None).
  Proof.
    intros names body s s' later Hc Hf H Hl. destruct (C60_context names body s s' Hc Hf H) as (_ & A & _).
    induction Hl as [|o l Ho Hl IH]; [reflexivity|]. destruct o; try contradiction. cbn [crun cstep]. rewrite A. cbn [count_occ run_hooks]. exact IH.
  Qed.

  (** C60: a context can be entered again after it ended: what the second reports does not depend on the first
      or on anything in between. *)
Theorem C60_independent_of_history : forall names body sa sb sa' sb' i, coherent model -> Forall is_fwd body ->
    k_second sa = k_second sb ->
    context init cb keeps second model names body sa = (sa', None) -> context init cb keeps second model names body sb = (sb', None) ->
    In i (regs model names) -> k_recs sa' i = k_recs sb' i.
  Proof.
    intros names body sa sb sa' sb' i Hc Hf Hs Ha Hb Hi.
    destruct (C60_context _ _ _ _ Hc Hf Ha) as (_ & _ & _ & A & _). destruct (C60_context _ _ _ _ Hc Hf Hb) as (_ & _ & _ & B & _).
    destruct (A i Hi) as (r & A1 & A2). destruct (B i Hi) as (r' & B1 & B2). rewrite Hs in A1. congruence.
  Qed.

  (** C60 finding: an exception inside the context leaves every hook registered (no try/finally), and from then
      on any attempt to enter a context with this collector raises AssertionError. *)
Theorem C60_exception_leaves_hooks_refuted : forall names body e s, coherent model -> Forall is_fwd body ->
    forall s1, crun init cb keeps second model (Reset :: Start names :: body) s = (s1, None) -> regs model names <> [] ->
    exists s', context init cb keeps second model names (body ++ [Fail e]) s = (s', Some e) /\ k_hooks s' = regs model names /\
      forall names' body', exists s2, context init cb keeps second model names' body' s' = (s2, Some AssertionError).
  Proof.
    intros names body e s Hc Hf s1 H Hne.
    change (Reset :: Start names :: body) with ([Reset; Start names] ++ body)%list in H. rewrite run_app in H.
    unfold context. change (Reset :: Start names :: (body ++ [Fail e]) ++ [Stop])%list with ([Reset; Start names] ++ (body ++ [Fail e]) ++ [Stop])%list.
    rewrite run_app.
    destruct (crun init cb keeps second model [Reset; Start names] s) as (s0 & [e0|]) eqn:E0; [discriminate|].
    apply context_begin in E0; [|intros i Hi; apply ids_order, (regs_incl model names Hc i Hi)].
    destruct E0 as (A0 & A1 & _). rewrite <- app_assoc, run_app, H.
    apply run_fwds in H; auto. destruct H as (B1 & _). exists s1. cbn [app crun cstep]. split; [reflexivity|]. split; [congruence|].
    intros names' body'. cbn [crun]. change (cstep init cb keeps second model s1 Reset) with (reset init model s1, @None exn). cbv iota.
    destruct (k_hooks s1) as [|h l] eqn:K; [congruence|].
    unfold cstep. destruct names'; cbn [reset k_hooks]; rewrite K; eexists; reflexivity.
  Qed.
End C60.

(** a model in which the same leaf object is used in two containers *)
Definition shared_leaf := CMod 3 false true [].
Definition two_users := CMod 0 false false [("a"%string, CMod 1 false false [("relu"%string, shared_leaf)]);
                                            ("b"%string, CMod 2 false false [("relu"%string, shared_leaf)])].
(** C60 finding: a module object reachable through two containers is registered twice, so each of its calls is
    recorded twice (a raw-activations collector returns every output doubled). *)
Theorem C60_shared_module_twice_refuted : forall x s, k_hooks s = [] ->
  coherent two_users /\
  exists s', context (RawList []) raw_cb false (fun r => r) two_users [] [Fwd 3 x] s = (s', None) /\ k_recs s' 3%nat = Some (RawList [x; x]).
Proof.
  intros x s Hs. split.
  - intros path m Hp n1 c1 n2 c2 H1 H2 He.
    destruct path as [|p0 path]; [injection Hp as <-|].
    { cbn in H1, H2. destruct H1 as [H1|[H1|[]]], H2 as [H2|[H2|[]]]; injection H1 as <- <-; injection H2 as <- <-; cbn in He; auto; discriminate. }
    cbn in Hp. destruct (String.eqb p0 "a").
    + destruct path as [|p1 path]; [injection Hp as <-|].
      { cbn in H1, H2. destruct H1 as [H1|[]], H2 as [H2|[]]. congruence. }
      cbn in Hp. destruct (String.eqb p1 "relu"); [|discriminate]. destruct path; [injection Hp as <-; destruct H1|discriminate].
    + destruct (String.eqb p0 "b"); [|discriminate]. destruct path as [|p1 path]; [injection Hp as <-|].
      { cbn in H1, H2. destruct H1 as [H1|[]], H2 as [H2|[]]. congruence. }
      cbn in Hp. destruct (String.eqb p1 "relu"); [|discriminate]. destruct path; [injection Hp as <-; destruct H1|discriminate].
  - unfold context. cbn [crun]. change (cstep (RawList []) raw_cb false (fun r => r) two_users s Reset) with (reset (RawList []) two_users s, @None exn).
    cbv iota. cbn [app crun]. unfold cstep at 1. cbn [reset k_hooks]. rewrite Hs.
    set (s1 := start_apply (RawList []) false two_users two_users _).
    assert (Hk : k_hooks s1 = [3; 3]%nat).
    { unfold s1, start_apply. pose proof (start_fold (RawList []) false two_users (apply_order two_users) (reset (RawList []) two_users s)) as K.
      cbv zeta in K. destruct K as (K & _). rewrite K. cbn [reset k_hooks]. rewrite Hs. reflexivity. }
    assert (Hr : k_recs s1 3%nat = Some (RawList [])).
    { unfold s1, start_apply. pose proof (start_fold (RawList []) false two_users (apply_order two_users) (reset (RawList []) two_users s)) as K.
      cbv zeta in K. destruct K as (_ & _ & _ & K). rewrite K by (vm_compute; auto). destruct (k_recs _ _); auto. }
    cbn [cstep crun]. rewrite Hk. change (count_occ Nat.eq_dec [3; 3]%nat 3%nat) with 2%nat.
    unfold run_hooks. rewrite Hr. cbn [raw_cb k_recs]. rewrite set_rec_same. cbn. eexists. split; [reflexivity|]. cbn. reflexivity.
Qed.

(** C60: the raw-activations collector returns the outputs of each collected module, stacked in the order of the
    calls, if they all have one shape. *)
Theorem C60_raw_outputs : forall model names body (s s' : cstate raw) i sh, coherent model -> Forall is_fwd body ->
  context (RawList []) raw_cb false (fun r => r) model names body s = (s', None) -> NoDup (regs model names) -> In i (regs model names) ->
  calls i body <> [] -> (forall c, In c (calls i body) -> fst c = sh) ->
  exists r, k_recs s' i = Some r /\ raw_value r = Ok (RawTensor sh (map snd (calls i body))).
Proof.
  intros model names body s s' i sh Hc Hf H Hnd Hi Hne Hsh.
  destruct (C60_each_call_once (RawList []) raw_cb false (fun r => r) model names body s s' i Hc Hf H Hnd Hi) as (r & A & B).
  exists r. split; [exact B|].
  assert (G : forall cs l, foldM (raw_cb (k_second s)) cs (RawList l) = Ok (RawList (l ++ cs))).
  { induction cs as [|c cs IH]; intro l; [cbn; rewrite app_nil_r; auto|]. cbn [foldM raw_cb bind]. rewrite IH, <- app_assoc. reflexivity. }
  rewrite G in A. injection A as <-. cbn [app]. destruct (calls i body) as [|(sh0, d) l] eqn:E; [congruence|]. cbn [raw_value map snd].
  pose proof (Hsh _ (or_introl eq_refl)) as E0. cbn in E0. subst sh0.
  rewrite (proj2 (forallb_forall _ _)); [reflexivity|]. intros x Hx. rewrite (Hsh x (or_intror Hx)). destruct (list_eq_dec _ _ _); congruence.
Qed.
(** C60 finding: if the outputs of a module do not all have one shape (a last, smaller batch), value() and save()
    of the raw-activations collector raise RuntimeError; and once value() has returned, a further call of the
    model inside the context raises AttributeError. *)
Theorem C60_raw_unequal_refuted : forall c1 c2 cs, fst c1 <> fst c2 ->
  exists r, foldM (raw_cb false) (c1 :: c2 :: cs) (RawList []) = Ok r /\ raw_value r = Raise RuntimeError.
Proof.
  intros c1 c2 cs H.
  assert (G : forall cs l, foldM (raw_cb false) cs (RawList l) = Ok (RawList (l ++ cs))).
  { induction cs0 as [|c cs0 IH]; intro l; [cbn; rewrite app_nil_r; auto|]. cbn [foldM raw_cb bind]. rewrite IH, <- app_assoc. reflexivity. }
  rewrite G. eexists. split; [reflexivity|]. destruct c1 as (sh, d). cbn [app raw_value forallb]. cbn [fst] in H.
  destruct (list_eq_dec Nat.eq_dec (fst c2) sh); [congruence|]. reflexivity.
Qed.
Theorem C60_raw_value_then_forward_refuted : forall l r c, l <> [] -> raw_value (RawList l) = Ok r -> raw_cb false r c = Raise AttributeError.
Proof.
  intros [|(sh, d) l] r c Hl H; [congruence|]. cbn [raw_value] in H. destruct (forallb _ _); [|discriminate]. injection H as <-. reflexivity.
Qed.

(* ------------------------------------------------------------------------- *)
(** * C62: weighted meters, activation sparsity *)

(** the weighted sum, the total weight, and the weighted sum of squared distances from [c], of a history of add(v, n) *)
Definition wtotal (h : list (R * nat)) : nat := fold_right (fun x a => (snd x + a)%nat) 0%nat h.
Definition wsum (h : list (R * nat)) : R := rsum (map (fun x => fst x * INR (snd x)) h).
Definition wdev (c : R) (h : list (R * nat)) : R := rsum (map (fun x => INR (snd x) * (fst x - c) ^ 2) h).

Lemma wtotal_app a b : wtotal (a ++ b) = (wtotal a + wtotal b)%nat.
Proof. induction a; simpl; [|rewrite IHa]; lia. Qed.
Lemma wsum_app a b : wsum (a ++ b) = wsum a + wsum b.
Proof. unfold wsum. rewrite map_app, rsum_app. auto. Qed.
Lemma wdev_app c a b : wdev c (a ++ b) = wdev c a + wdev c b.
Proof. unfold wdev. rewrite map_app, rsum_app. auto. Qed.
Lemma wdev_shift h : forall c d, wdev d h = wdev c h - 2 * (d - c) * (wsum h - c * INR (wtotal h)) + INR (wtotal h) * (d - c) ^ 2.
Proof.
  induction h as [|(v, n) h IH]; intros c d; [unfold wdev, wsum; simpl; lra|].
  change ((v, n) :: h) with ([(v, n)] ++ h)%list. rewrite !wdev_app, wsum_app, wtotal_app, plus_INR, (IH c d).
  unfold wdev, wsum, wtotal. cbn [map rsum fold_right fst snd]. rewrite Nat.add_0_r. lra.
Qed.

Definition meter_inv (h : list (R * nat)) (m : meter) : Prop :=
  w_n m = wtotal h /\ w_sum m = wsum h /\
  (h <> [] -> 0 < INR (wtotal h) /\ w_mean m = wsum h / INR (wtotal h) /\ w_mean_old m = w_mean m /\ w_ms m = wdev (w_mean m) h) /\
  (match h with [] | [_] => w_std m = None | _ => w_std m = Some (sqrt (w_ms m / (INR (wtotal h) - 1))) end).

Lemma meter_step h m v n m' : meter_inv h m -> meter_add m v n = Ok m' -> meter_inv (h ++ [(v, n)]) m'.
Proof.
  intros (I1 & I2 & I3 & I4) H. unfold meter_add in H. destruct (Nat.eqb_spec n 0) as [|Hn]; [discriminate|].
  assert (Pn : 0 < INR n) by (apply INR_pos; lia).
  assert (Ht : wtotal (h ++ [(v, n)]) = (wtotal h + n)%nat) by (rewrite wtotal_app; unfold wtotal; simpl; lia).
  assert (Hs : wsum (h ++ [(v, n)]) = wsum h + v * INR n) by (rewrite wsum_app; unfold wsum; simpl; lra).
  destruct (Nat.eqb_spec (w_n m) 0) as [E|E]; injection H as <-; unfold meter_inv; rewrite Ht, Hs; cbn [w_n w_sum w_mean w_mean_old w_ms w_std].
  - assert (h = []) as ->.
    { destruct h as [|x h]; auto. destruct (I3 ltac:(discriminate)) as (P & _). rewrite <- I1, E in P. simpl in P. lra. }
    cbn [wtotal wsum] in *. split; [rewrite I1; auto|]. split; [rewrite I2; auto|]. split; [|reflexivity].
    intros _. unfold wsum, wdev. cbn. fold (INR n). split; [auto|]. split; [field; lra|]. split; [auto|]. ring.
  - assert (Hne : h <> []) by (intros ->; auto). destruct (I3 Hne) as (P & J1 & J2 & J3).
    split; [rewrite I1; auto|]. split; [rewrite I2; auto|]. rewrite plus_INR, I1. rewrite plus_INR. split.
    + intros _. split; [lra|]. split; [rewrite J2, J1; field; lra|]. split; [auto|].
      set (mu' := w_mean_old m + INR n * (v - w_mean_old m) / (INR (wtotal h) + INR n)).
      rewrite wdev_app, (wdev_shift h (w_mean m) mu'), J3, J2.
      assert (W : wsum h = w_mean m * INR (wtotal h)) by (rewrite J1; field; lra). rewrite W.
      unfold wdev at 3. cbn [map rsum fold_right fst snd]. unfold mu'. rewrite J2. field. lra.
    + destruct h as [|a [|b h]]; [congruence| |]; cbn [app]; reflexivity.
Qed.

(** C62: after any history of add(value, n): the meter holds the total weight, the weighted sum, the exact weighted
    mean, and (from the second add on) the standard deviation with denominator total weight - 1, as if each value
    had been added n times. *)
Theorem C62_meter : forall h m, foldM (fun m x => meter_add m (fst x) (snd x)) h meter0 = Ok m ->
  w_n m = wtotal h /\ w_sum m = wsum h /\ (h <> [] -> w_mean m = wsum h / INR (wtotal h)) /\
  ((2 <= length h)%nat -> w_std m = Some (sqrt (wdev (w_mean m) h / (INR (wtotal h) - 1)))) /\
  ((length h <= 1)%nat -> w_std m = None).
Proof.
  intros h m H.
  assert (G : forall h h0 m0 m, meter_inv h0 m0 -> foldM (fun m x => meter_add m (fst x) (snd x)) h m0 = Ok m -> meter_inv (h0 ++ h) m).
  { clear. induction h as [|(v, n) h IH]; intros h0 m0 m I H; [injection H as <-; rewrite app_nil_r; auto|].
    cbn [foldM fst snd] in H. inv_bind H. replace (h0 ++ (v, n) :: h)%list with ((h0 ++ [(v, n)]) ++ h)%list by (rewrite <- app_assoc; auto).
    eapply IH; [|exact H]. eapply meter_step; eauto. }
  assert (I0 : meter_inv [] meter0) by (unfold meter_inv, wsum; simpl; repeat split; auto; congruence).
  destruct (G h [] meter0 m I0 H) as (A1 & A2 & A3 & A4). cbn [app] in *. split; auto. split; auto.
  split; [intro Hne; destruct (A3 Hne) as (_ & B & _); auto|]. split.
  - intro L. destruct h as [|a [|b h]]; simpl in L; try lia. destruct (A3 ltac:(discriminate)) as (_ & _ & _ & B). rewrite A4, B. auto.
  - intro L. destruct h as [|a [|b h]]; simpl in L; try lia; auto.
Qed.

(** the meter accepts exactly positive weights *)
Theorem C62_meter_total : forall h, Forall (fun x => (0 < snd x)%nat) h -> exists m, foldM (fun m x => meter_add m (fst x) (snd x)) h meter0 = Ok m.
Proof.
  intros h. generalize meter0. induction h as [|(v, n) h IH]; intros m0 Hf; [eexists; reflexivity|]. inversion Hf; subst. cbn in H1.
  cbn [foldM fst snd]. unfold meter_add. destruct (Nat.eqb_spec n 0); [lia|]. destruct (Nat.eqb (w_n m0) 0); cbn [bind]; apply IH; auto.
Qed.

Lemma zeros_app a b : zeros (a ++ b) = (zeros a + zeros b)%nat.
Proof. unfold zeros. rewrite filter_app, app_length. auto. Qed.
Lemma zeros_le a : (zeros a <= length a)%nat.
Proof. unfold zeros. induction a as [|x a IH]; [auto|]. cbn [filter]. destruct (Req_EM_T x 0); simpl; lia. Qed.

Lemma n_zeros_eq l z : n_zeros l z -> z = zeros l.
Proof.
  unfold zeros. induction 1; cbn [filter]; auto.
  - destruct (Req_EM_T 0 0); [cbn; congruence|congruence].
  - destruct (Req_EM_T x 0); [congruence|auto].
Qed.

(** C62: the activation sparsity reported for a module over any number of calls (of any sizes) is the percentage of
    zeros among all the values of its outputs. *)
Theorem C62_activation_sparsity : forall acts z m, n_zeros (concat acts) z -> acts <> [] -> Forall (fun a => a <> []) acts ->
  foldM (fun m x => meter_add m (fst x) (snd x)) (map (fun a => (sparsity_pct a, length a)) acts) meter0 = Ok m ->
  w_mean m = 100 * INR z / INR (length (concat acts)).
Proof.
  intros acts z m Hz Hne Hf H. rewrite (n_zeros_eq _ _ Hz). clear z Hz. destruct (C62_meter _ _ H) as (_ & _ & A & _). rewrite A by (destruct acts; [congruence|discriminate]). clear A H.
  assert (T : wtotal (map (fun a => (sparsity_pct a, length a)) acts) = length (concat acts)).
  { clear. induction acts as [|a l IH]; [auto|]. cbn [map concat]. rewrite app_length. cbn [wtotal fold_right snd]. fold (wtotal (map (fun a => (sparsity_pct a, length a)) l)). lia. }
  rewrite T. f_equal. clear T m Hne. induction acts as [|a l IH]; [unfold wsum; simpl; lra|]. inversion Hf; subst.
  cbn [map concat]. rewrite zeros_app, plus_INR. change (?x :: ?y) with ([x] ++ y)%list. rewrite wsum_app, IH by auto.
  unfold wsum. cbn [map rsum fold_right fst snd]. unfold sparsity_pct. rewrite minus_INR by apply zeros_le.
  assert (0 < INR (length a)) by (apply INR_pos; destruct a; [congruence|simpl; lia]). field. lra.
Qed.

(* ------------------------------------------------------------------------- *)
(** * The hypotheses hold in concrete, non-trivial cases *)

(** a convolution (0) followed by a ReLU (1), in a sequential container *)
Definition net2 := CMod 9 false false [("conv"%string, CMod 0 false true []); ("relu"%string, CMod 1 false true [])].
Definition st0 : cstate qrec := mkC [] (fun _ => None) false.
Definition call_a := mkCall [[[1; -1]; [2; 0]]] [[1; 0]; [2; 0]] false.
Definition call_b := mkCall [[[-3; 5]]] [[0; 5]] false.
Example C58_ex_success : exists s', collect_quant_stats 1000 true net2 [] [Fwd 1 call_a; Fwd 1 call_b] [Fwd 1 call_a; Fwd 1 call_b] st0 = (s', None).
Proof. eexists. reflexivity. Qed.
Example C58_ex_hyps : NoDup (map cm_id (collected net2)) /\ In 1%nat (map cm_id (collected net2)) /\
  calls 1 [Fwd 1 call_a; Fwd 1 call_b] <> [] /\
  (forall c, In c [call_a; call_b] -> length (c_inputs c) = 1%nat) /\
  (forall c b, In c [call_a; call_b] -> In b (c_output c :: c_inputs c) -> shaped b /\ b <> [] /\ Forall (fun x => Rabs x <= 1000) (concat b)).
Proof.
  split; [vm_compute; repeat constructor; simpl; intuition discriminate|]. split; [vm_compute; auto|]. split; [discriminate|].
  split; [intros c [<-|[<-|[]]]; reflexivity|].
  intros c b [<-|[<-|[]]] [<-|[<-|[]]]; (split; [repeat constructor; discriminate|split; [discriminate|cbn; repeat constructor; unfold Rabs; destruct (Rcase_abs _); lra]]).
Qed.
Example C58_ex_list : coherent net2 /\ In 0%nat (map cm_id (collected net2)) /\ ~ In 0%nat (regs net2 [["relu"%string]]) /\ k_recs st0 0%nat = None.
Proof.
  split; [|vm_compute; intuition discriminate].
  intros path m Hp n1 c1 n2 c2 H1 H2 He. destruct path as [|p0 path]; [injection Hp as <-|].
  { cbn in H1, H2. destruct H1 as [H1|[H1|[]]], H2 as [H2|[H2|[]]]; injection H1 as <- <-; injection H2 as <- <-; cbn in He; auto; discriminate. }
  cbn in Hp. destruct (String.eqb p0 "conv").
  { destruct path; [injection Hp as <-; destruct H1|discriminate]. }
  destruct (String.eqb p0 "relu"); [|discriminate]. destruct path; [injection Hp as <-; destruct H1|discriminate].
Qed.
Example C60_ex : exists s', context (RawList []) raw_cb false (fun r => r) net2 [["relu"%string]]
    [Fwd 0 ([2%nat], [1; 2]); Fwd 1 ([2%nat], [0; 2]); Fwd 0 ([2%nat], [3; 4]); Fwd 1 ([2%nat], [3; 4])] (mkC [] (fun i => if Nat.eqb i 1 then Some (RawTensor [1%nat] [[7]]) else None) false) = (s', None)
  /\ k_recs s' 1%nat = Some (RawList [([2%nat], [0; 2]); ([2%nat], [3; 4])]).
Proof. eexists. split; reflexivity. Qed.
(** a quantization wrapper (5) of a convolution (0), and a ReLU (1): the wrapper and the ReLU are collected *)
Definition net3 := CMod 9 false true [("conv"%string, CMod 5 true true [("wrapped_module"%string, CMod 0 false true [])]); ("relu"%string, CMod 1 false true [])].
Example C60_ex_wrapped : regs net3 [] = [5; 1]%nat /\ is_wrapped net3 0.
Proof.
  split; [reflexivity|]. exists 5%nat, true, [("wrapped_module"%string, CMod 0 false true [])], (CMod 0 false true []). repeat split; [|left; auto].
  eapply AuKid; [constructor|]. left. reflexivity.
Qed.
Example C60_ex_coherent : coherent_under net3.
Proof.
  intros x Hx n1 c1 n2 c2 H1 H2 He. apply au_inv in Hx. destruct Hx as [->|(n & c & [E|[E|[]]] & Hx)].
  - cbn in H1, H2. destruct H1 as [H1|[H1|[]]], H2 as [H2|[H2|[]]]; injection H1 as <- <-; injection H2 as <- <-; cbn in He; auto; discriminate.
  - injection E as <- <-. apply au_inv in Hx. destruct Hx as [->|(n & c & [E|[]] & Hx)].
    + destruct H1 as [H1|[]], H2 as [H2|[]]. injection H1 as <- <-. injection H2 as <- <-. auto.
    + injection E as <- <-. apply au_inv in Hx. destruct Hx as [->|(n & c & [] & Hx)]. destruct H1.
  - injection E as <- <-. apply au_inv in Hx. destruct Hx as [->|(n & c & [] & Hx)]. destruct H1.
Qed.
Example C62_ex_zeros : n_zeros (concat [[0; 2]; [0; 0]]) 3.
Proof. cbn. apply NzZero. apply NzOther; [lra|]. apply NzZero, NzZero, NzNil. Qed.
Example C62_ex : exists m, foldM (fun m x => meter_add m (fst x) (snd x)) [(50, 2%nat); (0, 6%nat)] meter0 = Ok m.
Proof. apply C62_meter_total. repeat constructor. Qed.

Print Assumptions C58_record_statistics.
Print Assumptions C58_collect_quant_stats.
Print Assumptions C58_modules_to_collect_refuted.
Print Assumptions C58_never_called_refuted.
Print Assumptions C59_single_batch.
Print Assumptions C59_bounds.
Print Assumptions C59_actual_update.
Print Assumptions C59_average_refuted.
Print Assumptions C58_reusable.
Print Assumptions C60_collected_modules.
Print Assumptions C60_context.
Print Assumptions C60_each_call_once.
Print Assumptions C60_not_observing_after.
Print Assumptions C60_independent_of_history.
Print Assumptions C60_exception_leaves_hooks_refuted.
Print Assumptions C60_shared_module_twice_refuted.
Print Assumptions C60_raw_outputs.
Print Assumptions C60_raw_unequal_refuted.
Print Assumptions C60_raw_value_then_forward_refuted.
Print Assumptions C62_meter.
Print Assumptions C62_meter_total.
Print Assumptions C62_activation_sparsity.
