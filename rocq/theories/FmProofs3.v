(** Proofs for the feature-map reconstruction pruner: the weights written back. *)
From Coq Require Import String List ZArith QArith Qabs Qround Bool Arith Lia Lqa.
From Verif Require Import Base Lists SchedModel PrunerModel StructModel StructSpec StructProofs FmModel FmSpec FmProofs FmProofs2.
Import ListNotations.
Open Scope list_scope.
Open Scope nat_scope.

(** a weights tensor of a convolution, or of a fully connected layer (kernel 1 x 1) *)
Definition wshape (p : nd) (F C h w : nat) : Prop :=
  nd_ok p /\ 0 < F /\ 0 < C /\ 0 < h /\ 0 < w /\
  (nd_shape p = [F; C; h; w] \/ (nd_shape p = [F; C] /\ h = 1 /\ w = 1)).

Lemma div_block a K q : q < K -> (a * K + q) / K = a /\ (a * K + q) mod K = q.
Proof.
  intros H. rewrite Nat.div_add_l, (Nat.div_small q K) by lia. rewrite (Nat.add_comm (a * K) q), Nat.mod_add, (Nat.mod_small q K) by lia. lia.
Qed.

Lemma wt_index p F C h w f c i j : wshape p F C h w -> i < h -> j < w ->
  wt p f c i j = nth ((f * C + c) * (h * w) + (i * w + j)) (nd_data p) 0%Q.
Proof.
  intros (_ & _ & _ & _ & _ & [E|(E & -> & ->)]) Hi Hj; unfold wt; rewrite E; f_equal; nia.
Qed.

Lemma len_data p F C h w : wshape p F C h w -> length (nd_data p) = F * C * (h * w).
Proof. intros (Hok & _ & _ & _ & _ & [E|(E & -> & ->)]); unfold nd_ok in Hok; rewrite Hok, E; cbn; lia. Qed.

Lemma index_bound F C K f c q : f < F -> c < C -> q < K -> (f * C + c) * K + q < F * C * K.
Proof. intros. apply idx_lt; auto. apply idx_lt; auto. Qed.

Lemma masked_wt p m F C h w bm f c i j : wshape p F C h w -> expand_binary_map p TChannels bm = Ok m -> length bm = C ->
  f < F -> c < C -> i < h -> j < w ->
  wt (masked p m) f c i j = (wt p f c i j * nth c bm 0)%Q.
Proof.
  intros Hw He Hb Hf Hc Hi Hj. assert (HL := len_data _ _ _ _ _ Hw).
  assert (Hm : wshape (masked p m) F C h w /\ length (nd_data m) = F * C * (h * w) /\
    nth ((f * C + c) * (h * w) + (i * w + j)) (nd_data m) 0%Q = nth c bm 0%Q).
  { destruct Hw as (Hok & H1 & H2 & H3 & H4 & Hs).
    assert (E : exists m0, expand_binary_map p TChannels bm = Ok m0 /\ nd_shape m0 = nd_shape p /\ nd_ok m0 /\
        nth ((f * C + c) * (h * w) + (i * w + j)) (nd_data m0) 0%Q = nth c bm 0%Q).
    { destruct Hs as [Hs|(Hs & -> & ->)].
      - destruct (expand_channels_ok p F C h w Hs Hok ltac:(auto) bm Hb) as (m0 & E0 & E1 & E2 & E3).
        exists m0. repeat split; auto. rewrite <- (E3 f c i j) by auto. unfold at4. f_equal. nia.
      - destruct (expand_cols_ok p F C Hs Hok ltac:(auto) TChannels bm ltac:(auto) Hb) as (m0 & E0 & E1 & E2 & E3).
        exists m0. repeat split; auto. rewrite <- (E3 f c) by auto. unfold at2. f_equal. nia. }
    destruct E as (m0 & E0 & E1 & E2 & E3). assert (m0 = m) by congruence. subst m0.
    assert (EL : length (nd_data m) = F * C * (h * w)).
    { unfold nd_ok in E2. rewrite E2, E1. unfold nd_ok in Hok. rewrite <- Hok. exact HL. }
    split; [|split; [exact EL|exact E3]].
    repeat split; auto.
    unfold nd_ok, masked. cbn [nd_data nd_shape]. unfold nd_ok in Hok. rewrite <- Hok. unfold tmul.
    transitivity (Nat.min (length (nd_data p)) (length (nd_data m))); [|lia].
    clear. generalize (nd_data p) (nd_data m). induction l; intros l'; [reflexivity|]. destruct l'; [reflexivity|]. cbn. now rewrite IHl. }
  destruct Hm as (Hm & HLm & HV).
  rewrite (wt_index (masked p m) F C h w), (wt_index p F C h w), <- HV by auto.
  unfold masked, tmul. cbn [nd_data]. assert (Hi' : (f * C + c) * (h * w) + (i * w + j) < F * C * (h * w)) by (apply index_bound; auto; nia).
  rewrite <- (tab_of_list 0%Q (nd_data p)) at 1. rewrite <- (tab_of_list 0%Q (nd_data m)) at 1. rewrite HL, HLm.
  rewrite map2_tab. rewrite tab_nth by auto. reflexivity.
Qed.

Lemma write_back_wt p p' F C h w idx coef : wshape p F C h w -> write_back p idx coef = Ok p' ->
  wshape p' F C h w /\ nd_shape p' = nd_shape p /\ matrix F (length idx * (h * w)) coef /\
  forall f c i j, f < F -> c < C -> i < h -> j < w ->
    wt p' f c i j = match find_pos c idx with
                    | Some pos => nth (pos * (h * w) + (i * w + j)) (nth f coef []) 0%Q
                    | None => wt p f c i j
                    end.
Proof.
  intros Hw H. assert (HL := len_data _ _ _ _ _ Hw).
  assert (E : length coef = F /\ Forall (fun r => length r = length idx * (h * w)) coef /\
     p' = mkND (nd_shape p) (tab (length (nd_data p)) (fun i =>
            let c := i / (h * w) mod C in
            match find_pos c idx with
            | Some pos => nth (pos * (h * w) + i mod (h * w)) (nth (i / (h * w * C)) coef []) 0%Q
            | None => nth i (nd_data p) 0%Q
            end))).
  { destruct Hw as (_ & _ & _ & _ & _ & Hs). unfold write_back in H. destruct Hs as [Hs|(Hs & -> & ->)]; rewrite Hs in *;
    (destruct (Nat.eqb_spec (length coef) F) as [EF|]; [|discriminate]);
    (destruct (forallb _ coef) eqn:EA; [|discriminate]);
    (split; [auto|]); (split; [|apply (f_equal (fun r => match r with Ok a => a | _ => p' end)) in H; symmetry; exact H]);
    rewrite forallb_forall in EA; apply Forall_forall; intros r Hr; apply Nat.eqb_eq; [exact (EA r Hr)|rewrite (Nat.mul_1_r 1); exact (EA r Hr)]. }
  destruct E as (EF & EA & E).
  assert (Hw' : wshape p' F C h w).
  { destruct Hw as (Hok & H1 & H2 & H3 & H4 & Hs). subst p'. repeat split; auto. unfold nd_ok in *. cbn [nd_shape nd_data].
    now rewrite tab_length. }
  split; [exact Hw'|]. split; [now subst p'|]. split; [split; auto|].
  intros f c i j Hf Hc Hi Hj. rewrite (wt_index p' F C h w), (wt_index p F C h w) by auto. subst p'. cbn [nd_data].
  assert (Hq : i * w + j < h * w) by nia.
  rewrite tab_nth by (rewrite HL; apply index_bound; auto). cbv zeta.
  destruct (div_block (f * C + c) (h * w) (i * w + j) Hq) as [D1 D2]. rewrite D1, D2.
  destruct (div_block f C c Hc) as [D3 D4]. rewrite <- Nat.div_div, D1, D3, D4 by lia. reflexivity.
Qed.

Lemma keep_above_01 mags b bm : keep_above mags b = Ok bm -> length bm = length mags /\ forall c, (nth c bm 0 = 0 \/ nth c bm 0 = 1)%Q.
Proof.
  unfold keep_above. destruct (last_elem b); [|discriminate]. cbn [bind]. intros H.
  assert (E : bm = map (fun m => b2q (Qltb a m)) mags) by congruence. subst bm. split; [apply map_length|].
  clear H. induction mags; intros c; [destruct c; now left|]. destruct c; cbn [map nth]; [destruct (Qltb a a0); [now right|now left]|apply IHmags].
Qed.

Lemma kept_in bm c : In c (kept bm) <-> c < length bm /\ ~ (nth c bm 0 == 0)%Q.
Proof.
  unfold kept. rewrite filter_In, in_seq. split.
  - intros [H1 H2]. split; [lia|]. intros E. apply Qeq_bool_iff in E. rewrite E in H2. discriminate.
  - intros [H1 H2]. split; [lia|]. destruct (Qeq_bool (nth c bm 0%Q) 0) eqn:E; [|reflexivity]. exfalso. apply H2. now apply Qeq_bool_eq.
Qed.

(** the masked new weights: the coefficients where the channel is kept, zero elsewhere *)
Lemma final_wt p p' m F C h w bm coef : wshape p F C h w -> length bm = C ->
  (forall c, (nth c bm 0 = 0 \/ nth c bm 0 = 1)%Q) ->
  write_back p (kept bm) coef = Ok p' -> expand_binary_map p' TChannels bm = Ok m ->
  (forall f c q, f < F -> c < C -> q < h * w -> (nth c bm 0 == 0)%Q -> (wt (masked p' m) f c (q / w)%nat (q mod w)%nat == 0)%Q) /\
  (forall f j, f < F -> j < length (kept bm) * (h * w) ->
     (nth j (nth f coef []) 0 == wt (masked p' m) f (nth (j / (h * w)) (kept bm) 0%nat) (j mod (h * w) / w)%nat ((j mod (h * w)) mod w)%nat)%Q).
Proof.
  intros Hw Hb H01 HWB HE. destruct (write_back_wt _ _ _ _ _ _ _ _ Hw HWB) as (Hw' & _ & _ & HV).
  assert (Hpos := Hw). destruct Hpos as (_ & H1 & H2 & H3 & H4 & _). split.
  - intros f c q Hf Hc Hq Hz. assert (q / w < h) by (apply Nat.div_lt_upper_bound; nia). assert (q mod w < w) by (apply Nat.mod_upper_bound; lia).
    rewrite (masked_wt p' m F C h w bm) by auto. rewrite Hz. ring.
  - intros f j Hf Hj. set (pos := j / (h * w)). assert (Hpos : pos < length (kept bm)) by (apply Nat.div_lt_upper_bound; nia).
    assert (Hr : j mod (h * w) < h * w) by (apply Nat.mod_upper_bound; nia).
    set (q := j mod (h * w)) in *. assert (Hqi : q / w < h) by (apply Nat.div_lt_upper_bound; nia).
    assert (Hqj : q mod w < w) by (apply Nat.mod_upper_bound; lia).
    assert (Hin : In (nth pos (kept bm) 0) (kept bm)) by (apply nth_In; auto).
    assert (Hc : nth pos (kept bm) 0 < C) by (rewrite <- Hb; apply kept_lt; auto).
    rewrite (masked_wt p' m F C h w bm) by auto. rewrite HV by auto. rewrite find_pos_nth by (auto using kept_nodup).
    apply kept_in in Hin. destruct Hin as [_ Hnz]. destruct (H01 (nth pos (kept bm) 0)) as [E|E]; [rewrite E in Hnz; exfalso; apply Hnz; reflexivity|].
    rewrite E, Qmult_1_r. replace (pos * (h * w) + (q / w * w + q mod w)) with j; [reflexivity|].
    rewrite (Nat.mul_comm (q / w) w). rewrite <- (Nat.div_mod q w) by lia. unfold pos, q. rewrite (Nat.mul_comm _ (h * w)). apply Nat.div_mod. nia.
Qed.

Lemma fit_coef solver X Y coef : fit solver X Y = Ok coef -> coef = solver X Y /\ X <> [].
Proof. unfold fit. destruct X; [discriminate|]. destruct (_ || _); [discriminate|]. intros E. split; [congruence|discriminate]. Qed.

Lemma reconstruct_inv solver frac p layer kernel X Y mag gs rf noise bm p' m want :
  rank_and_reconstruct solver frac p layer kernel want (Some [(layer, (X, Y))]) None mag gs rf noise = Ok (Some (bm, p', m)) ->
  exists mags bk rows, rank_channels p gs mag frac rf noise = Ok (Some (bk, mags)) /\ keep_above mags bk = Ok bm /\
    x_rows (if Nat.eqb (ndim p) 4 then OpConv kernel else OpFc) bm X = Ok rows /\
    rows <> [] /\
    write_back p (kept bm) (solver rows Y) = Ok p' /\
    (want = true -> exists m', m = Some m' /\ expand_binary_map p' TChannels bm = Ok m').
Proof.
  unfold rank_and_reconstruct. cbn [dget]. rewrite String.eqb_refl. intros H.
  destruct (rank_channels p gs mag frac rf noise) as [[[bk mags]|]|] eqn:ER; cbn [bind] in H; try discriminate.
  destruct (keep_above mags bk) as [bm0|] eqn:EK; cbn [bind] in H; [|discriminate].
  destruct (x_rows _ bm0 X) as [rows|] eqn:EX; cbn [bind] in H; [|discriminate].
  destruct (fit solver rows Y) as [coef|] eqn:EF; cbn [bind] in H; [|discriminate].
  destruct (write_back p (kept bm0) coef) as [p0|] eqn:EW; cbn [bind] in H; [|discriminate].
  apply fit_coef in EF. destruct EF as [-> Hne].
  destruct want.
  - destruct (expand_binary_map p0 TChannels bm0) as [m0|] eqn:EE; cbn [bind] in H; [|discriminate].
    assert (bm0 = bm /\ p0 = p' /\ Some m0 = m) as (-> & -> & <-) by (repeat split; congruence).
    exists mags, bk, rows. repeat split; auto. intros _. eauto.
  - assert (bm0 = bm /\ p0 = p') as (-> & ->) by (repeat split; congruence).
    exists mags, bk, rows. repeat split; auto. discriminate.
Qed.

Lemma uses_kept_supported F C h w bm v : 0 < w -> uses_kept F C h w bm v -> supported F C (h * w) w bm v.
Proof.
  intros Hw H f c q Hf Hc Hq Hz. apply H; auto; [apply Nat.div_lt_upper_bound; nia|apply Nat.mod_upper_bound; lia].
Qed.

Lemma x_rows_conv_len g C P bm l rows : x_rows (OpConv (kh g, kw g)) bm (mkS (cols_of g C) P l) = Ok rows -> 0 < kh g * kw g ->
  length bm = C /\ kept bm <> [] /\ (rows <> [] -> 0 < P).
Proof.
  intros H HK. unfold cols_of in *.
  assert (Hd' : (kh g = 1 /\ kw g = 1) \/ ~ (kh g = 1 /\ kw g = 1)) by lia.
  destruct Hd' as [[Ea Eb]|Hne].
  - rewrite Ea, Eb in H. cbn [x_rows s_cols s_pts s_at] in H. rewrite ?Nat.mul_1_r in H.
    destruct (Nat.eqb_spec C (length bm)); [|discriminate]. destruct (Nat.eqb_spec (length (kept bm)) 0); [discriminate|].
    repeat split; auto; [intros E; rewrite E in n; cbn in n; lia|].
    intros Hr. destruct P; [|lia]. exfalso. apply Hr. assert (rows = flat_map (fun a : nat -> nat -> Q => tab 0 (fun p : nat => map (fun c : nat => a c p) (kept bm))) l) by congruence.
    subst rows. clear. induction l; auto.
  - rewrite x_rows_gen in H by auto. cbn [s_cols s_pts s_at] in H.
    destruct (Nat.eqb_spec (length l) 0); [discriminate|]. destruct (Nat.eqb_spec (kh g * kw g) 0); [discriminate|].
    destruct (Nat.eqb_spec P 0); [discriminate|]. cbn [orb] in H. rewrite Nat.mod_mul, Nat.div_mul in H by lia. cbn [Nat.eqb negb] in H.
    destruct (Nat.eqb_spec C (length bm)); [|discriminate]. destruct (Nat.eqb_spec (length (kept bm)) 0); [discriminate|].
    repeat split; auto; [|lia]. intros E; rewrite E in *; cbn in *; lia.
Qed.
