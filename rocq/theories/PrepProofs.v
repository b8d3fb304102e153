(** Lemmas about the preparation of post-training quantization. *)
From Coq Require Import String List ZArith QArith Qabs Bool Arith Lia Lqa.
From Verif Require Import Base Names StructModel QuantModel QuantSpec QuantProofs RangeModel QzrModel PrepModel PrepSpec.
Import ListNotations.
Local Open Scope string_scope.
Open Scope list_scope.
Notation relu := RangeModel.relu.

(** * Ranges *)
Lemma clamp_eq x lo hi : lo <= hi -> (x <= lo -> clamp x lo hi == lo) /\ (hi <= x -> clamp x lo hi == hi) /\ (lo <= x -> x <= hi -> clamp x lo hi == x).
Proof.
  intro H. unfold clamp.
  destruct (qmax_spec x lo) as [[A E]|[A E]]; rewrite E;
  match goal with |- context [qmin ?u hi] => destruct (qmin_spec u hi) as [[B F]|[B F]]; rewrite F end; repeat split; intros; lra.
Qed.
Lemma relu_eq x : (x <= 0 -> relu x == 0) /\ (0 <= x -> relu x == x).
Proof. unfold relu. destruct (qmax_spec x 0) as [[A E]|[A E]]; rewrite E; split; intros; lra. Qed.
Lemma relu6_eq x : (x <= 0 -> relu6 x == 0) /\ (0 <= x -> x <= 6 -> relu6 x == x) /\ (6 <= x -> relu6 x == 6).
Proof.
  unfold relu6. destruct (qmax_spec x 0) as [[A E]|[A E]]; rewrite E;
  match goal with |- context [qmin ?u 6] => destruct (qmin_spec u 6) as [[B F]|[B F]]; rewrite F end; repeat split; intros; lra.
Qed.
Lemma clamp_ext x y lo hi : x == y -> clamp x lo hi == clamp y lo hi.
Proof.
  intro H. unfold clamp.
  destruct (qmax_spec x lo) as [[A E]|[A E]], (qmax_spec y lo) as [[A' E']|[A' E']]; rewrite E, E';
  repeat match goal with |- context [qmin ?u hi] => destruct (qmin_spec u hi) as [[? ->]|[? ->]] end; lra.
Qed.
Lemma relu_ext x y : x == y -> relu x == relu y.
Proof. intro H. unfold relu. destruct (qmax_spec x 0) as [[A E]|[A E]], (qmax_spec y 0) as [[A' E']|[A' E']]; rewrite E, E'; lra. Qed.
Lemma relu6_ext x y : x == y -> relu6 x == relu6 y.
Proof.
  intro H. destruct (relu6_eq x) as (A & B & C), (relu6_eq y) as (A' & B' & C').
  destruct (Qlt_le_dec x 0); [rewrite A, A'; lra|]. destruct (Qlt_le_dec x 6); [rewrite B, B'; lra|rewrite C, C'; lra].
Qed.

(** The range that is represented contains 0 and the recorded range; without a symmetric mode that is all, and with one
    and a range of non-negative numbers it is not wider above. *)
Lemma saturation_none g bits half s : g_clip g = CNone -> exists lo hi, saturation g bits half s = Some (lo, hi) /\
  lo <= 0 /\ 0 <= hi /\ lo <= st_min s /\ st_max s <= hi /\ (0 <= st_min s -> st_min s <= st_max s -> hi == st_max s).
Proof.
  intro C. unfold saturation, stats_range. rewrite C.
  destruct (is_sym (PM (g_mode g))).
  - set (M := qmax _ _). exists (- M), M. split; [reflexivity|].
    assert (A : Qabs (st_min s) <= M) by apply qmax_l. assert (B : Qabs (st_max s) <= M) by apply qmax_r.
    pose proof (Qle_Qabs (st_max s)) as K1. pose proof (Qle_Qabs (- st_min s)) as K2. rewrite Qabs_opp in K2.
    pose proof (Qabs_nonneg (st_min s)) as K3.
    split; [lra|]. split; [lra|]. split; [lra|]. split; [lra|].
    intros H1 H2. unfold M. pose proof (Qabs_pos _ H1) as E1. assert (0 <= st_max s) as H3 by lra. pose proof (Qabs_pos _ H3) as E2.
    destruct (qmax_spec (Qabs (st_min s)) (Qabs (st_max s))) as [[? ->]|[? ->]]; lra.
  - exists (qmin (st_min s) 0), (qmax (st_max s) 0). split; [reflexivity|].
    pose proof (qmin_l (st_min s) 0). pose proof (qmin_r (st_min s) 0). pose proof (qmax_l (st_max s) 0). pose proof (qmax_r (st_max s) 0).
    split; [auto|]. split; [auto|]. split; [auto|]. split; [auto|]. intros H3 H4.
    destruct (qmax_spec (st_max s) 0) as [[? ->]|[? ->]]; lra.
Qed.

Lemma clip_stats_range s lo hi : st_min s <= st_max s -> lo <= hi ->
  let c := clip_stats s lo hi in st_min c <= st_max c /\ lo <= st_min c /\ st_max c <= hi /\
  (forall y, st_min s <= y -> y <= st_max s -> lo <= y -> y <= hi -> st_min c <= y /\ y <= st_max c) /\
  (st_max s <= lo -> st_max c == lo) /\ (hi <= st_max s -> st_max c == hi) /\ (lo <= st_max s -> st_max s <= hi -> st_max c == st_max s).
Proof.
  intros H H'. unfold clip_stats. unfold Qltb.
  destruct (Qle_bool lo (st_max s)) eqn:E1; cbn.
  - apply Qle_bool_iff in E1. destruct (Qle_bool (st_min s) hi) eqn:E2; cbn.
    + apply Qle_bool_iff in E2.
      destruct (qmax_spec lo (st_min s)) as [[? ->]|[? ->]], (qmin_spec hi (st_max s)) as [[? ->]|[? ->]]; repeat split; intros; lra.
    + apply Qle_bool_ngt in E2. repeat split; intros; lra.
  - apply Qle_bool_ngt in E1. repeat split; intros; lra.
Qed.

(** What the saturation does to a value in the recorded range *)
Definition sat1 (r : option (Q * Q)) (x : Q) : Q := match r with Some (lo, hi) => clamp x lo hi | None => x end.
Lemma saturate_sat1 r t : saturate r t = map (sat1 r) t.
Proof. destruct r as [[lo hi]|]; cbn; auto. unfold saturate. symmetry. apply map_id. Qed.
Lemma sat1_ext r x y : x == y -> sat1 r x == sat1 r y.
Proof. destruct r as [[lo hi]|]; cbn; auto. apply clamp_ext. Qed.

Section Sat.
Variables (g : pcfg) (bits : Z) (half : bool) (s : stats) (y : Q).
Hypothesis HC : g_clip g = CNone.
Hypothesis Hy : st_min s <= y /\ y <= st_max s.
Notation sat c := (sat1 (saturation g bits half c)).

Lemma sat_plain : sat s y == y.
Proof. destruct (saturation_none g bits half s HC) as (lo & hi & -> & A & B & C & D & _). cbn. apply clamp_eq; lra. Qed.
Lemma sat_relu : relu (sat (clip_stats s 0 (st_max s)) y) == relu y /\ sat (clip_stats s 0 (st_max s)) (relu y) == relu y.
Proof.
  destruct (saturation_none g bits half (clip_stats s 0 (st_max s)) HC) as (lo & hi & -> & A & B & C & D & _). cbn.
  destruct (Qlt_le_dec (st_max s) 0) as [N|N].
  - assert (Z0 : relu y == 0) by (apply relu_eq; lra). split.
    + rewrite Z0. destruct (clamp_eq y lo hi ltac:(lra)) as (P1 & P2 & P3). apply relu_eq.
      destruct (Qlt_le_dec y lo); [rewrite P1; lra|rewrite P3; lra].
    + rewrite (clamp_ext _ 0 _ _ Z0), Z0. apply clamp_eq; lra.
  - destruct (clip_stats_range s 0 (st_max s) ltac:(lra) N) as (E1 & E2 & E3 & E4 & E5 & E6 & E7). rewrite E6 in D by lra.
    destruct (clamp_eq y lo hi ltac:(lra)) as (P1 & P2 & P3). destruct (relu_eq y) as (R1 & R2). split.
    + destruct (Qlt_le_dec y 0) as [Y|Y].
      * rewrite R1 by lra. apply relu_eq. destruct (Qlt_le_dec y lo); [rewrite P1; lra|rewrite P3; lra].
      * apply relu_ext. apply P3; lra.
    + assert (0 <= relu y <= st_max s) by (destruct (Qlt_le_dec y 0); [rewrite R1 by lra; lra|rewrite R2 by lra; lra]).
      apply clamp_eq; lra.
Qed.
Lemma sat_relu6 : sat (clip_stats s 0 (qmin (st_max s) 6)) (relu y) == relu6 y.
Proof.
  destruct (saturation_none g bits half (clip_stats s 0 (qmin (st_max s) 6)) HC) as (lo & hi & -> & A & B & C & D & E). cbn.
  destruct (relu_eq y) as (R1 & R2). destruct (relu6_eq y) as (S1 & S2 & S3).
  destruct (Qlt_le_dec (st_max s) 0) as [N|N].
  - assert (Z0 : relu y == 0) by (apply relu_eq; lra). rewrite (clamp_ext _ 0 _ _ Z0). rewrite S1 by lra. apply clamp_eq; lra.
  - assert (K : 0 <= qmin (st_max s) 6) by (destruct (qmin_spec (st_max s) 6) as [[? ->]|[? ->]]; lra).
    destruct (clip_stats_range s 0 (qmin (st_max s) 6) ltac:(lra) K) as (E1 & E2 & E3 & E4 & E5 & E6 & E7).
    rewrite E6 in D, E by apply qmin_l. specialize (E E2). rewrite E6 in E1 by apply qmin_l. specialize (E E1).
    destruct (Qlt_le_dec y 0) as [Y|Y].
    + rewrite (clamp_ext _ 0 _ _ (R1 ltac:(lra))). rewrite S1 by lra. apply clamp_eq; lra.
    + rewrite (clamp_ext _ y _ _ (R2 Y)). destruct (Qlt_le_dec y 6) as [Y6|Y6].
      * rewrite S2 by lra. apply clamp_eq; try lra. rewrite E. destruct (qmin_spec (st_max s) 6) as [[? ->]|[? ->]]; lra.
      * rewrite S3 by lra. assert (Q6 : qmin (st_max s) 6 == 6) by (destruct (qmin_spec (st_max s) 6) as [[? ->]|[? ->]]; lra).
        rewrite Q6 in E. destruct (clamp_eq y lo hi ltac:(lra)) as (P1 & P2 & P3). rewrite P2; lra.
Qed.
Lemma sat_band k : 0 <= k -> - k <= y -> y <= k -> sat (clip_stats s (- k) k) y == y.
Proof.
  intros K Y1 Y2. destruct (saturation_none g bits half (clip_stats s (- k) k) HC) as (lo & hi & -> & A & B & C & D & _). cbn.
  destruct (clip_stats_range s (- k) k ltac:(lra) ltac:(lra)) as (E1 & E2 & E3 & E4 & E5 & E6 & E7).
  destruct (E4 y ltac:(lra) ltac:(lra) Y1 Y2). apply clamp_eq; lra.
Qed.
End Sat.

(** * The clipping of statistics *)
Definition tgt_of (mods : dict pmod) (s : gop) (ty : string) : option act :=
  if String.eqb ty "Relu" then Some ARelu else if String.eqb ty "Sigmoid" then Some ASigmoid else if String.eqb ty "Tanh" then Some ATanh
  else if is_relu6 mods (go_name s) then Some ARelu6 else None.
Lemma clip_bounds_tgt mods s ty mx : clip_bounds mods s ty mx = option_map (fun a => act_range a mx) (tgt_of mods s ty).
Proof.
  unfold clip_bounds, tgt_of. destruct (String.eqb ty "Relu"); [reflexivity|]. destruct (String.eqb ty "Sigmoid"); [reflexivity|].
  destruct (String.eqb ty "Tanh"); [reflexivity|]. destruct (is_relu6 mods (go_name s)); reflexivity.
Qed.
Definition tgt (mods : dict pmod) (am : dict adjent) (qm : dict qbits) (e : string * pmod) : option (gop * act) :=
  match single_successor qm am (fst e) (snd e) with
  | None => None
  | Some s => match effective_type am s with
              | Ok ty => match tgt_of mods s ty with Some a => Some (s, a) | None => None end
              | Raise _ => None
              end
  end.

Lemma all_of_spec types ops : all_of types ops = true <-> forall o, In o ops -> In (go_type o) types.
Proof.
  unfold all_of. rewrite forallb_forall. split; intros H o Ho; specialize (H o Ho).
  - apply existsb_exists in H. destruct H as (x & Hx & E). apply String.eqb_eq in E. subst; auto.
  - apply existsb_exists. exists (go_type o). split; auto. apply String.eqb_refl.
Qed.
Lemma all_of_false types ops : all_of types ops = false <-> ~ forall o, In o ops -> In (go_type o) types.
Proof. rewrite <- all_of_spec. destruct (all_of types ops); split; intro; congruence. Qed.
Lemma is_relu6_spec mods n : is_relu6 mods n = true <-> exists m, dget mods n = Some m /\ pm_type m = PtRelu6.
Proof.
  unfold is_relu6. destruct (dget mods n) as [m|]; [|split; [discriminate|intros (m & H & _); discriminate]].
  split; [destruct (pm_type m) eqn:E; intro; try discriminate; eauto|].
  intros (m' & H & E). inversion H; subst. rewrite E. auto.
Qed.
Lemma single_successor_spec mods qm am n m s : dget mods n = Some m ->
  single_successor qm am n m = Some s <-> quantized_leaf mods qm n /\ only_successor am n s.
Proof.
  intro G. unfold single_successor, quantized_leaf, only_successor. split.
  - destruct (dget qm n) as [[[b|] w bi]|] eqn:Q1; try discriminate.
    destruct (pm_kids m && _) eqn:K; [discriminate|]. destruct (dget am n) as [a|] eqn:A; [|discriminate].
    destruct (a_succs a) as [|x [|? ?]] eqn:S; try discriminate. intro H; inversion H; subst.
    split; [|eauto]. exists m, (mkQb (Some b) w bi), b. repeat split; auto.
    destruct (pm_kids m); [|auto]. destruct (pm_type m); cbn in K; try discriminate. auto.
  - intros ((m' & q & b & E1 & E2 & E3 & E4) & a & A & S). rewrite G in E1. inversion E1; subst m'. rewrite E2. destruct q as [ac w bi]. cbn in E3. subst ac.
    assert (pm_kids m && negb (match pm_type m with PtSim => true | _ => false end) = false) as ->.
    { destruct E4 as [->| ->]; [reflexivity|apply andb_false_r]. }
    rewrite A, S. reflexivity.
Qed.

Lemma split_act_det ops a b : split_act ops a -> split_act ops b -> a = b.
Proof.
  destruct a, b; cbn; try tauto; intros; repeat match goal with H : _ /\ _ |- _ => destruct H end; try (exfalso; auto; fail); auto.
  all: exfalso; match goal with H : ~ _ |- _ => solve [auto] end.
Qed.
Lemma effective_split am s e : go_type s = "Split" -> dget am (go_name s) = Some e ->
  exists ty, effective_type am s = Ok ty /\
    ((ty = "Relu" /\ split_act (a_succs e) ARelu) \/ (ty = "Tanh" /\ split_act (a_succs e) ATanh) \/ (ty = "Sigmoid" /\ split_act (a_succs e) ASigmoid)
     \/ (ty = "Split" /\ forall b, ~ split_act (a_succs e) b)).
Proof.
  intros T G. unfold effective_type. rewrite T. cbn [String.eqb]. rewrite G.
  change (String.eqb "Split" "Split") with true. cbv iota. eexists; split; [reflexivity|].
  destruct (all_of ["Relu"] (a_succs e)) eqn:E1.
  - left. split; auto. rewrite all_of_spec in E1. auto.
  - destruct (all_of ["Tanh"] (a_succs e)) eqn:E2.
    + right; left. split; auto. rewrite all_of_false in E1. rewrite all_of_spec in E2. cbn. auto.
    + rewrite all_of_false in E1; rewrite all_of_false in E2. destruct (all_of ["Sigmoid"; "Tanh"] (a_succs e)) eqn:E3.
      * right; right; left. split; auto. rewrite all_of_spec in E3. cbn. auto.
      * rewrite all_of_false in E3. right; right; right. split; auto. intros [| | |]; cbn; try tauto.
Qed.
Lemma tgt_spec mods qm am n m s a : dget mods n = Some m -> tgt mods am qm (n, m) = Some (s, a) <-> followed mods am qm n s a.
Proof.
  intro G. unfold tgt. cbn [fst snd]. split.
  - destruct (single_successor qm am n m) as [s'|] eqn:S; [|discriminate]. pose proof S as S0. apply (single_successor_spec mods) in S; auto. destruct S as (L & O).
    destruct (String.eqb_spec (go_type s') "Split") as [T|T].
    + destruct (dget am (go_name s')) as [e|] eqn:E.
      * destruct (effective_split am s' e T E) as (ty & -> & C). unfold tgt_of.
        destruct C as [(-> & C)|[(-> & C)|[(-> & C)|(-> & C)]]]; cbn [String.eqb Ascii.eqb Bool.eqb].
        -- intro H; inversion H; subst. eapply fol_split; eauto.
        -- intro H; inversion H; subst. eapply fol_split; eauto.
        -- intro H; inversion H; subst. eapply fol_split; eauto.
        -- change (String.eqb "Split" "Relu") with false. change (String.eqb "Split" "Sigmoid") with false. change (String.eqb "Split" "Tanh") with false. cbv iota.
           destruct (is_relu6 mods (go_name s')) eqn:R; [|discriminate]. intro H; inversion H; subst. apply is_relu6_spec in R.
           eapply fol_split; eauto.
      * unfold effective_type. rewrite T, E. change (String.eqb "Split" "Split") with true. discriminate.
    + unfold effective_type. destruct (String.eqb_spec (go_type s') "Split") as [|_]; [contradiction|]. unfold tgt_of.
      destruct (String.eqb_spec (go_type s') "Relu"); [intro H; inversion H; subst; apply fol_direct; auto|].
      destruct (String.eqb_spec (go_type s') "Sigmoid"); [intro H; inversion H; subst; apply fol_direct; auto|].
      destruct (String.eqb_spec (go_type s') "Tanh"); [intro H; inversion H; subst; apply fol_direct; auto|].
      destruct (is_relu6 mods (go_name s')) eqn:R; [|discriminate]. intro H; inversion H; subst. apply is_relu6_spec in R.
      apply fol_direct; auto. cbn. split; auto. intuition congruence.
  - intros F. destruct F as [a L O A|a e L O T E A].
    + assert (single_successor qm am n m = Some s) as -> by (apply (single_successor_spec mods); auto).
      assert (T : go_type s <> "Split").
      { destruct a; cbn in A; try (rewrite A; discriminate). destruct A as (A & _). intro X; apply A; rewrite X; cbn; auto. }
      unfold effective_type. destruct (String.eqb_spec (go_type s) "Split") as [|_]; [contradiction|]. unfold tgt_of.
      destruct a; cbn in A.
      * rewrite A. reflexivity.
      * destruct A as (A & R). apply is_relu6_spec in R. rewrite R.
        destruct (String.eqb_spec (go_type s) "Relu"); [exfalso; apply A; intuition|].
        destruct (String.eqb_spec (go_type s) "Sigmoid"); [exfalso; apply A; intuition|].
        destruct (String.eqb_spec (go_type s) "Tanh"); [exfalso; apply A; intuition|]. reflexivity.
      * rewrite A. reflexivity.
      * rewrite A. reflexivity.
    + assert (single_successor qm am n m = Some s) as -> by (apply (single_successor_spec mods); auto).
      destruct (effective_split am s e T E) as (ty & -> & C). unfold tgt_of.
      destruct A as [A|(A & -> & R)].
      * destruct C as [(-> & C)|[(-> & C)|[(-> & C)|(-> & C)]]]; [| | |exfalso; eapply C; eauto]; pose proof (split_act_det _ _ _ A C) as ->; reflexivity.
      * destruct C as [(-> & C)|[(-> & C)|[(-> & C)|(-> & C)]]]; try (exfalso; eapply A; eauto; fail).
        apply is_relu6_spec in R. cbn. rewrite R. reflexivity.
Qed.

Notation norm := normalize_module_name.
Lemma input_nset_same d i v : input_stats (nset d i v) i = Some v.
Proof.
  induction d as [|(j, w) d IH]; cbn; [rewrite Nat.eqb_refl; auto|].
  destruct (Nat.eqb_spec i j); cbn; [subst; rewrite Nat.eqb_refl; auto|]. destruct (Nat.eqb_spec j i); [congruence|auto].
Qed.
Lemma input_nset_other d i j v : i <> j -> input_stats (nset d i v) j = input_stats d j.
Proof.
  intro H. induction d as [|(k, w) d IH]; cbn; [destruct (Nat.eqb_spec i j); [congruence|auto]|].
  destruct (Nat.eqb_spec i k); cbn; [subst; destruct (Nat.eqb_spec k j); [congruence|auto]|]. destruct (Nat.eqb_spec k j); auto.
Qed.

(** One step, with the activation it finds *)
Definition clipped (st : dict lstats) (n : string) (s : gop) (ls : lstats) (out : stats) : dict lstats :=
  let st := dset st (norm n) (mkLs (ls_inputs ls) out) in
  if String.eqb (go_type s) "Split" then st
  else match dget st (norm (go_name s)) with
       | None => st
       | Some ss => dset st (norm (go_name s)) (mkLs (nset (ls_inputs ss) 0 out) (ls_output ss))
       end.
Lemma fusion_step_ok mods am qm st e st' : fusion_step mods am qm st e = Ok st' ->
  match tgt mods am qm e with
  | None => st' = st
  | Some (s, a) => exists ls, dget st (norm (fst e)) = Some ls /\
      st' = clipped st (fst e) s ls (clip_to (ls_output ls) (act_range a (st_max (ls_output ls))))
  end.
Proof.
  unfold fusion_step, tgt. destruct (single_successor qm am (fst e) (snd e)) as [s|]; [|intro H; inversion H; auto].
  destruct (dget st (norm (fst e))) as [ls|] eqn:G; [|discriminate].
  destruct (effective_type am s) as [ty|] eqn:T; [|discriminate]. cbn [bind]. rewrite clip_bounds_tgt.
  destruct (tgt_of mods s ty) as [a|]; cbn [option_map]; [|intro H; inversion H; auto].
  intro H. exists ls. split; auto. unfold clipped, clip_to. destruct (act_range a (st_max (ls_output ls))) as [lo hi]. cbn [fst snd].
  destruct (String.eqb (go_type s) "Split"); [inversion H; auto|].
  match type of H with context [dget ?d ?k] => destruct (dget d k) end; inversion H; auto.
Qed.
Lemma fusion_step_succeeds mods am qm st e :
  (exists st', fusion_step mods am qm st e = Ok st') <->
  (forall s, single_successor qm am (fst e) (snd e) = Some s -> dmem st (norm (fst e)) = true /\ (go_type s = "Split" -> dmem am (go_name s) = true)).
Proof.
  unfold fusion_step, dmem. destruct (single_successor qm am (fst e) (snd e)) as [s|]; [|split; [discriminate|eauto]].
  split.
  - intros (st' & H) s0 E. inversion E; subst s0. destruct (dget st (norm (fst e))); [|discriminate]. split; auto.
    intro T. unfold effective_type in H. rewrite T in H. change (String.eqb "Split" "Split") with true in H. cbv iota in H.
    destruct (dget am (go_name s)); auto. discriminate.
  - intro H. destruct (H s eq_refl) as (A & B). destruct (dget st (norm (fst e))) as [ls|]; [|discriminate].
    assert (exists ty, effective_type am s = Ok ty) as (ty & ->).
    { unfold effective_type. destruct (String.eqb_spec (go_type s) "Split") as [T|]; [|eauto]. specialize (B T). destruct (dget am (go_name s)); [eauto|discriminate]. }
    cbn [bind]. destruct (clip_bounds mods s ty _) as [[lo hi]|]; [|eauto]. destruct (String.eqb (go_type s) "Split"); [eauto|].
    match goal with |- context [dget ?d ?k] => destruct (dget d k) end; eauto.
Qed.

Lemma clipped_keys st n s ls out k : dget st (norm n) = Some ls -> dget (clipped st n s ls out) k = None <-> dget st k = None.
Proof.
  intro G. assert (K : forall k, dget (dset st (norm n) (mkLs (ls_inputs ls) out)) k = None <-> dget st k = None).
  { intro k0. destruct (String.string_dec (norm n) k0) as [<-|N]; [rewrite dget_dset_same, G; split; discriminate|rewrite dget_dset_other; auto; tauto]. }
  unfold clipped. destruct (String.eqb (go_type s) "Split"); [apply K|].
  match goal with |- context [match dget ?d ?x with _ => _ end] => destruct (dget d x) as [ss|] eqn:D end; [|apply K].
  destruct (String.string_dec (norm (go_name s)) k) as [<-|N].
  - rewrite dget_dset_same, <- K, D. split; discriminate.
  - rewrite dget_dset_other by auto. apply K.
Qed.
Lemma clipped_output st n s ls out k l l' : dget st (norm n) = Some ls -> dget st k = Some l -> dget (clipped st n s ls out) k = Some l' ->
  ls_output l' = if String.eqb (norm n) k then out else ls_output l.
Proof.
  intros G D. assert (K : forall x l1, dget (dset st (norm n) (mkLs (ls_inputs ls) out)) x = Some l1 -> forall l0, dget st x = Some l0 -> ls_output l1 = if String.eqb (norm n) x then out else ls_output l0).
  { intros x l1 H1 l0 H0. destruct (String.eqb_spec (norm n) x) as [<-|N]; [rewrite dget_dset_same in H1; inversion H1; auto|rewrite dget_dset_other in H1; auto; congruence]. }
  unfold clipped. destruct (String.eqb (go_type s) "Split"); [intro; eapply K; eauto|].
  match goal with |- context [match dget ?d ?x with _ => _ end] => destruct (dget d x) as [ss|] eqn:E end; [|intro; eapply K; eauto].
  destruct (String.string_dec (norm (go_name s)) k) as [Y|N].
  - rewrite Y in *. rewrite dget_dset_same. intro H; inversion H. cbn. eapply K; eauto.
  - rewrite dget_dset_other by auto. intro; eapply K; eauto.
Qed.
Lemma clipped_inputs st n s ls out k l l' i : dget st (norm n) = Some ls -> dget st k = Some l -> dget (clipped st n s ls out) k = Some l' ->
  input_stats (ls_inputs l') i =
  if String.eqb (norm (go_name s)) k && negb (String.eqb (go_type s) "Split") && Nat.eqb i 0 then Some out else input_stats (ls_inputs l) i.
Proof.
  intros G D. assert (K : forall x l1, dget (dset st (norm n) (mkLs (ls_inputs ls) out)) x = Some l1 -> forall l0, dget st x = Some l0 -> ls_inputs l1 = ls_inputs l0).
  { intros x l1 H1 l0 H0. destruct (String.eqb_spec (norm n) x) as [<-|N]; [rewrite dget_dset_same in H1; inversion H1; cbn; congruence|rewrite dget_dset_other in H1; auto; congruence]. }
  unfold clipped. destruct (String.eqb (go_type s) "Split"); [rewrite andb_false_r; cbn; intro; erewrite K; eauto|]. rewrite andb_true_r.
  match goal with |- context [match dget ?d ?x with _ => _ end] => destruct (dget d x) as [ss|] eqn:E end.
  - destruct (String.eqb_spec (norm (go_name s)) k) as [Y|N].
    + rewrite Y in *. rewrite dget_dset_same. intro H; inversion H. cbn. rewrite <- (K _ _ E _ D). destruct (Nat.eqb_spec i 0) as [->|I0]; [apply input_nset_same|apply input_nset_other; auto].
    + rewrite dget_dset_other by auto. cbn. intro; erewrite K; eauto.
  - destruct (String.eqb_spec (norm (go_name s)) k) as [Y|N]; cbn.
    + rewrite Y in *. intro H. congruence.
    + intro; erewrite K; eauto.
Qed.

Section Fusions.
Variables (mods : dict pmod) (am : dict adjent) (qm : dict qbits).
Notation T := (tgt mods am qm).

Lemma fusions_keys l : forall st st', foldM (fusion_step mods am qm) l st = Ok st' -> forall k, dget st' k = None <-> dget st k = None.
Proof.
  induction l as [|e l IH]; intros st st' H k; cbn [foldM] in H.
  - inversion H; tauto.
  - apply bind_ok in H. destruct H as (s1 & H1 & H2). rewrite (IH _ _ H2 k). apply fusion_step_ok in H1.
    destruct (T e) as [[s a]|]; [|subst; tauto]. destruct H1 as (ls & G & ->). apply clipped_keys; auto.
Qed.
Lemma keys_some {A B} (d : dict A) (d' : dict B) : (forall k, dget d' k = None <-> dget d k = None) -> forall k v, dget d k = Some v -> exists v', dget d' k = Some v'.
Proof. intros H k v G. destruct (dget d' k) eqn:E; eauto. apply H in E. congruence. Qed.
Lemma fusions_output l : NoDup (map (fun e => norm (fst e)) l) -> forall st st', foldM (fusion_step mods am qm) l st = Ok st' ->
  forall k ls ls', dget st k = Some ls -> dget st' k = Some ls' ->
  (forall e s a, In e l -> norm (fst e) = k -> T e = Some (s, a) -> ls_output ls' = clip_to (ls_output ls) (act_range a (st_max (ls_output ls)))) /\
  ((forall e s a, In e l -> norm (fst e) = k -> T e <> Some (s, a)) -> ls_output ls' = ls_output ls).
Proof.
  induction l as [|e l IH]; intros ND st st' H k ls ls' G G'; cbn [foldM] in H.
  - inversion H; subst. split; [intros e s a []|intros; congruence].
  - apply bind_ok in H. destruct H as (s1 & H1 & H2). inversion ND as [|? ? NI ND']; subst.
    pose proof (fusion_step_ok _ _ _ _ _ _ H1) as S.
    assert (K1 : forall k, dget s1 k = None <-> dget st k = None).
    { intro k0. destruct (T e) as [[s a]|]; [|subst; tauto]. destruct S as (x & Gx & ->). apply clipped_keys; auto. }
    destruct (keys_some _ _ K1 _ _ G) as (l1 & G1). destruct (IH ND' _ _ H2 _ _ _ G1 G') as (A & B).
    assert (OUT : ls_output l1 = match T e with Some (s, a) => if String.eqb (norm (fst e)) k then clip_to (ls_output ls) (act_range a (st_max (ls_output ls))) else ls_output ls | None => ls_output ls end).
    { destruct (T e) as [[s a]|]; [|subst; congruence]. destruct S as (x & Gx & ->). rewrite (clipped_output _ _ _ _ _ _ _ _ Gx G G1).
      destruct (String.eqb_spec (norm (fst e)) k) as [<-|]; auto. rewrite G in Gx. inversion Gx; auto. }
    assert (LATER : norm (fst e) = k -> ls_output ls' = ls_output l1).
    { intro E. apply B. intros e0 s0 a0 I0 E0 _. apply NI. rewrite E, <- E0. apply (in_map (fun e => norm (fst e))); auto. }
    split.
    + intros e0 s0 a0 [<-|I0] E0 T0.
      * rewrite (LATER E0), OUT, T0. destruct (String.eqb_spec (norm (fst e)) k); [auto|contradiction].
      * rewrite (A _ _ _ I0 E0 T0).
        assert (ls_output l1 = ls_output ls) as ->; auto. rewrite OUT. destruct (T e) as [[s a]|]; auto.
        destruct (String.eqb_spec (norm (fst e)) k) as [E|]; auto. exfalso. apply NI. rewrite E, <- E0. apply (in_map (fun e => norm (fst e))); auto.
    + intro N. rewrite B by (intros; apply N; cbn; auto). rewrite OUT. destruct (T e) as [[s a]|] eqn:TE; auto.
      destruct (String.eqb_spec (norm (fst e)) k) as [E|]; auto. exfalso. eapply (N e s a); cbn; auto.
Qed.
Lemma fusions_inputs_other l : forall st st', foldM (fusion_step mods am qm) l st = Ok st' ->
  forall k ls ls' i, dget st k = Some ls -> dget st' k = Some ls' ->
  (i <> 0%nat \/ forall e s a, In e l -> T e = Some (s, a) -> norm (go_name s) = k -> go_type s = "Split") ->
  input_stats (ls_inputs ls') i = input_stats (ls_inputs ls) i.
Proof.
  induction l as [|e l IH]; intros st st' H k ls ls' i G G' N; cbn [foldM] in H.
  - inversion H; subst. congruence.
  - apply bind_ok in H. destruct H as (s1 & H1 & H2). pose proof (fusion_step_ok _ _ _ _ _ _ H1) as S.
    assert (K1 : forall k, dget s1 k = None <-> dget st k = None).
    { intro k0. destruct (T e) as [[s a]|]; [|subst; tauto]. destruct S as (x & Gx & ->). apply clipped_keys; auto. }
    destruct (keys_some _ _ K1 _ _ G) as (l1 & G1).
    rewrite (IH _ _ H2 _ _ _ _ G1 G'); [|destruct N as [N|N]; [auto|right; intros; eapply N; cbn; eauto]].
    destruct (T e) as [[s a]|] eqn:TE; [|subst; congruence]. destruct S as (x & Gx & ->). rewrite (clipped_inputs _ _ _ _ _ _ _ _ _ Gx G G1).
    destruct (String.eqb_spec (norm (go_name s)) k) as [E|]; [|auto]. destruct N as [N|N].
    + destruct (Nat.eqb_spec i 0); [contradiction|]. rewrite andb_false_r. auto.
    + rewrite (N e s a) by (cbn; auto). auto.
Qed.
Lemma fusions_inputs_set l : NoDup (map (fun e => norm (fst e)) l) -> forall st st', foldM (fusion_step mods am qm) l st = Ok st' ->
  forall k ls ls' e s a lsn, dget st k = Some ls -> dget st' k = Some ls' ->
  In e l -> T e = Some (s, a) -> norm (go_name s) = k -> go_type s <> "Split" -> dget st (norm (fst e)) = Some lsn ->
  (forall e2 s2 a2, In e2 l -> T e2 = Some (s2, a2) -> norm (go_name s2) = k -> go_type s2 <> "Split" -> e2 = e) ->
  input_stats (ls_inputs ls') 0 = Some (clip_to (ls_output lsn) (act_range a (st_max (ls_output lsn)))).
Proof.
  induction l as [|e l IH]; intros ND st st' H k ls ls' e0 s0 a0 lsn G G' I0 T0 E0 NS GN U; cbn [foldM] in H; [destruct I0|].
  apply bind_ok in H. destruct H as (s1 & H1 & H2). inversion ND as [|? ? NI ND']; subst.
  pose proof (fusion_step_ok _ _ _ _ _ _ H1) as S.
  assert (K1 : forall k, dget s1 k = None <-> dget st k = None).
  { intro k0. destruct (T e) as [[s a]|]; [|subst; tauto]. destruct S as (x & Gx & ->). apply clipped_keys; auto. }
  destruct (keys_some _ _ K1 _ _ G) as (l1 & G1).
  destruct I0 as [<-|I0].
  - rewrite (fusions_inputs_other _ _ _ H2 _ _ _ 0%nat G1 G').
    + rewrite T0 in S. destruct S as (x & Gx & ->). rewrite (clipped_inputs _ _ _ _ _ _ _ _ 0%nat Gx G G1).
      rewrite String.eqb_refl. destruct (String.eqb_spec (go_type s0) "Split"); [contradiction|]. cbn. rewrite GN in Gx. inversion Gx; auto.
    + right. intros e2 s2 a2 I2 T2 E2. destruct (String.string_dec (go_type s2) "Split"); auto. exfalso.
      assert (e2 = e) as -> by (eapply U; cbn; eauto). apply NI. apply (in_map (fun e => norm (fst e))); auto.
  - destruct (keys_some _ _ K1 _ _ GN) as (ln1 & GN1).
    assert (ls_output ln1 = ls_output lsn) as EO.
    { destruct (T e) as [[s a]|]; [|subst; congruence]. destruct S as (x & Gx & ->). rewrite (clipped_output _ _ _ _ _ _ _ _ Gx GN GN1).
      destruct (String.eqb_spec (norm (fst e)) (norm (fst e0))) as [E|]; auto. exfalso. apply NI. rewrite E. apply (in_map (fun e => norm (fst e))); auto. }
    rewrite <- EO. apply (IH ND' _ _ H2 _ _ _ e0 s0 a0 ln1 G1 G' I0 T0 eq_refl NS GN1). intros e2 s2 a2 I2 T2 E2 S2. apply (U e2 s2 a2); cbn; auto.
Qed.
Lemma fusions_succeed l : forall st,
  (exists st', foldM (fusion_step mods am qm) l st = Ok st') <->
  (forall e s, In e l -> single_successor qm am (fst e) (snd e) = Some s -> dmem st (norm (fst e)) = true /\ (go_type s = "Split" -> dmem am (go_name s) = true)).
Proof.
  induction l as [|e l IH]; intro st; cbn [foldM].
  - split; [intros _ e s []|eauto].
  - assert (KM : forall s1, fusion_step mods am qm st e = Ok s1 -> forall k, dmem s1 k = dmem st k).
    { intros s1 H1 k. pose proof (fusions_keys [e] st s1) as F. cbn [foldM] in F. rewrite H1 in F. specialize (F eq_refl k). unfold dmem.
      destruct (dget s1 k), (dget st k); auto; destruct F as (F1 & F2); [specialize (F2 eq_refl)|specialize (F1 eq_refl)]; discriminate. }
    split.
    + intros (st' & H). apply bind_ok in H. destruct H as (s1 & H1 & H2). intros e0 s [<-|I0] S.
      * apply (proj1 (fusion_step_succeeds mods am qm st e)); eauto.
      * rewrite <- (KM _ H1). eapply (proj1 (IH s1)); eauto.
    + intro H. destruct (proj2 (fusion_step_succeeds mods am qm st e)) as (s1 & H1); [intros s S; apply H; cbn; auto|].
      rewrite H1. cbn [bind]. apply IH. intros e0 s I0 S. rewrite (KM _ H1). apply H; cbn; auto.
Qed.
End Fusions.

(** * Statistics of folded batch normalizations *)
Lemma dget_dpop {A} (d : dict A) k x : dget (dpop d k) x = if String.eqb k x then None else dget d x.
Proof.
  induction d as [|(y, v) d IH]; unfold dpop in *; cbn [filter dget fst]; [destruct (String.eqb k x); auto|].
  destruct (String.eqb_spec k y) as [<-|N]; cbn [negb dget].
  - rewrite IH. destruct (String.eqb_spec k x) as [|N2]; auto. destruct (String.eqb_spec x k); [congruence|auto].
  - rewrite IH. destruct (String.eqb_spec x y) as [->|]; auto. destruct (String.eqb_spec k y); [contradiction|auto].
Qed.
Lemma folds_In mods n b : folded mods n b -> In (norm n, norm b) (folds mods).
Proof. intros (m & r & I & E). unfold folds. apply in_flat_map. exists (n, m). cbn. rewrite E. cbn; auto. Qed.
Lemma folds_In_inv mods x y : In (x, y) (folds mods) -> exists n b, folded mods n b /\ norm n = x /\ norm b = y.
Proof.
  unfold folds. rewrite in_flat_map. intros ((n, m) & I & H). cbn in H. destruct (pm_fused m) as [[|b r]|] eqn:E; [destruct H| |destruct H]. destruct H as [H|[]].
  inversion H; subst. exists n, b. repeat split; auto. exists m, r; auto.
Qed.

Definition bn_pair (st : dict lstats) (p : string * string) : res (dict lstats) :=
  match dget st (snd p) with
  | None => Ok st
  | Some bs => match dget (dpop st (snd p)) (fst p) with
               | None => Raise KeyError
               | Some ls => Ok (dset (dpop st (snd p)) (fst p) (mkLs (ls_inputs ls) (ls_output bs)))
               end
  end.
Lemma bn_steps_pairs mods : (forall n m, In (n, m) mods -> pm_fused m <> Some []) -> forall st, foldM bn_step mods st = foldM bn_pair (folds mods) st.
Proof.
  induction mods as [|(n, m) mods IH]; intros H st; [reflexivity|].
  assert (IH' := IH (fun n0 m0 I0 => H n0 m0 (or_intror I0))). clear IH.
  cbn [foldM]. unfold bn_step at 1. cbn [fst snd]. unfold folds. cbn [flat_map snd fst]. fold (folds mods).
  destruct (pm_fused m) as [[|b r]|] eqn:E; [exfalso; apply (H n m); cbn; auto| |cbn [bind app]; apply IH'].
  cbn [app foldM]. unfold bn_pair at 1. cbn [fst snd]. destruct (dget st (norm b)) as [bs|]; [|cbn [bind]; apply IH'].
  destruct (dget (dpop st (norm b)) (norm n)); [|reflexivity]. cbn [bind]. apply IH'.
Qed.

Lemma bn_pair_get st x y s1 : x <> y -> bn_pair st (x, y) = Ok s1 -> forall k,
  dget s1 k = match dget st y with
              | None => dget st k
              | Some bs => if String.eqb y k then None else if String.eqb x k then match dget st x with Some ls => Some (mkLs (ls_inputs ls) (ls_output bs)) | None => None end else dget st k
              end.
Proof.
  intros N H k. unfold bn_pair in H. cbn [fst snd] in H. destruct (dget st y) as [bs|]; [|inversion H; auto].
  rewrite dget_dpop in H. destruct (String.eqb_spec y x) as [|_]; [congruence|].
  destruct (dget st x) as [ls|]; [|discriminate]. inversion H; subst. clear H.
  destruct (String.eqb_spec x k) as [<-|N2].
  - rewrite dget_dset_same. destruct (String.eqb_spec y x) as [|_]; [congruence|auto].
  - rewrite dget_dset_other by auto. rewrite dget_dpop. auto.
Qed.
Lemma bn_pairs_get F : NoDup (map fst F ++ map snd F) -> forall st st', foldM bn_pair F st = Ok st' ->
  (forall x y, In (x, y) F -> dget st' y = None) /\
  (forall x y bs, In (x, y) F -> dget st y = Some bs -> exists ls, dget st x = Some ls /\ dget st' x = Some (mkLs (ls_inputs ls) (ls_output bs))) /\
  (forall x y, In (x, y) F -> dget st y = None -> dget st' x = dget st x) /\
  (forall k, ~ In k (map fst F) -> ~ In k (map snd F) -> dget st' k = dget st k).
Proof.
  induction F as [|(x, y) F IH]; intros ND st st' H; cbn [foldM] in H.
  - inversion H; subst. repeat split; intros; try contradiction; auto.
  - apply bind_ok in H. destruct H as (s1 & H1 & H2). cbn in ND. inversion ND as [|? ? NX ND']; subst.
    rewrite in_app_iff in NX. cbn in NX.
    assert (NY : ~ In y (map fst F ++ map snd F) /\ NoDup (map fst F ++ map snd F)) by (split; [eapply NoDup_remove_2|eapply NoDup_remove_1]; eauto).
    destruct NY as (NY & ND2). rewrite in_app_iff in NY.
    assert (XY : x <> y) by (intros ->; tauto).
    pose proof (bn_pair_get _ _ _ _ XY H1) as G. destruct (IH ND2 _ _ H2) as (A & B & C & D).
    assert (KEEP : forall k, In k (map fst F) \/ In k (map snd F) -> dget s1 k = dget st k).
    { intros k K. rewrite G. destruct (dget st y); auto. destruct (String.eqb_spec y k) as [<-|]; [tauto|]. destruct (String.eqb_spec x k) as [<-|]; [tauto|auto]. }
    assert (KX : forall x0 y0, In (x0, y0) F -> dget s1 x0 = dget st x0) by (intros x0 y0 I0; apply KEEP; left; apply (in_map fst) in I0; auto).
    assert (KY : forall x0 y0, In (x0, y0) F -> dget s1 y0 = dget st y0) by (intros x0 y0 I0; apply KEEP; right; apply (in_map snd) in I0; auto).
    split; [|split; [|split]].
    + intros x0 y0 [E|I0]; [inversion E; subst x0 y0|eauto]. rewrite D by tauto. rewrite G. destruct (dget st y) eqn:Y; [rewrite String.eqb_refl|]; auto.
    + intros x0 y0 bs [E|I0] Y.
      * inversion E; subst x0 y0. rewrite D by tauto. rewrite G, Y, String.eqb_refl. destruct (String.eqb_spec y x) as [|_]; [congruence|].
        unfold bn_pair in H1. cbn [fst snd] in H1. rewrite Y, dget_dpop in H1. destruct (String.eqb_spec y x) as [|_]; [congruence|].
        destruct (dget st x) as [ls|]; [eauto|discriminate].
      * rewrite <- (KX _ _ I0). apply (B _ y0); auto. rewrite (KY _ _ I0); auto.
    + intros x0 y0 [E|I0] Y.
      * inversion E; subst x0 y0. rewrite D by tauto. rewrite G, Y. auto.
      * rewrite (C _ _ I0); [apply (KX _ _ I0)|rewrite (KY _ _ I0); auto].
    + intros k K1 K2. cbn in K1, K2. rewrite D by tauto. rewrite G. destruct (dget st y); auto.
      destruct (String.eqb_spec y k); [tauto|]. destruct (String.eqb_spec x k); [tauto|auto].
Qed.
Lemma bn_pairs_succeed F : NoDup (map fst F ++ map snd F) -> forall st,
  (exists st', foldM bn_pair F st = Ok st') <-> (forall x y, In (x, y) F -> dmem st y = true -> dmem st x = true).
Proof.
  induction F as [|(x, y) F IH]; intros ND st; cbn [foldM].
  - split; [intros _ ? ? []|eauto].
  - cbn in ND. inversion ND as [|? ? NX ND']; subst. rewrite in_app_iff in NX. cbn in NX.
    assert (NY : ~ In y (map fst F ++ map snd F) /\ NoDup (map fst F ++ map snd F)) by (split; [eapply NoDup_remove_2|eapply NoDup_remove_1]; eauto).
    destruct NY as (NY & ND2). rewrite in_app_iff in NY.
    assert (XY : x <> y) by (intros ->; tauto).
    assert (KEEP : forall s1, bn_pair st (x, y) = Ok s1 -> forall k, In k (map fst F) \/ In k (map snd F) -> dmem s1 k = dmem st k).
    { intros s1 H1 k K. unfold dmem. rewrite (bn_pair_get _ _ _ _ XY H1 k). destruct (dget st y); auto.
      destruct (String.eqb_spec y k) as [<-|]; [tauto|]. destruct (String.eqb_spec x k) as [<-|]; [tauto|auto]. }
    assert (FIRST : (exists s1, bn_pair st (x, y) = Ok s1) <-> (dmem st y = true -> dmem st x = true)).
    { unfold bn_pair, dmem. cbn [fst snd]. destruct (dget st y); [|split; [discriminate|eauto]]. rewrite dget_dpop. destruct (String.eqb_spec y x); [congruence|].
      destruct (dget st x); [split; eauto|]. split; [intros (? & ?); discriminate|intro X; specialize (X eq_refl); discriminate]. }
    split.
    + intros (st' & H). apply bind_ok in H. destruct H as (s1 & H1 & H2). intros x0 y0 [E|I0].
      * inversion E; subst x0 y0. apply FIRST; eauto.
      * rewrite <- (KEEP _ H1 x0), <- (KEEP _ H1 y0); [eapply (proj1 (IH ND2 s1)); eauto| |]; [right; apply (in_map snd) in I0|left; apply (in_map fst) in I0]; auto.
    + intro H. destruct (proj2 FIRST (H _ _ (or_introl eq_refl))) as (s1 & H1). rewrite H1. cbn [bind]. apply (IH ND2). intros x0 y0 I0.
      rewrite (KEEP _ H1 x0), (KEEP _ H1 y0); [apply H; cbn; auto| |]; [right; apply (in_map snd) in I0|left; apply (in_map fst) in I0]; auto.
Qed.
Lemma bn_stats_pairs mods st : (forall n m, In (n, m) mods -> pm_fused m <> Some []) -> bn_stats mods st = foldM bn_pair (folds mods) st.
Proof.
  intro H. unfold bn_stats. destruct st as [|p st]; [|apply bn_steps_pairs; auto].
  induction (folds mods) as [|(x, y) F IH]; [reflexivity|]. cbn [foldM]. unfold bn_pair at 1. cbn. auto.
Qed.

(** * Fusing ReLUs *)
Lemma getkw_dset ov n k x : getkw (dset ov n k) x = if String.eqb n x then k else getkw ov x.
Proof. unfold getkw. destruct (String.eqb_spec n x) as [<-|N]; [rewrite dget_dset_same|rewrite dget_dset_other]; auto. Qed.

Section Fuse.
Variables (mods : dict pmod) (am : dict adjent) (qm : dict qbits).
(** the ReLU that follows a module *)
Definition relu_after (e : string * pmod) : option string :=
  match single_successor qm am (fst e) (snd e) with
  | Some s => if is_relu_any mods (go_name s) then Some (go_name s) else None
  | None => None
  end.
Definition is_some_eq (o : option string) (n : string) : bool := match o with Some x => String.eqb x n | None => false end.
Lemma fuse_step_spec ov e n :
  let k := getkw (fuse_step mods am qm ov e) n in let k0 := getkw ov n in
  k_half k = (if String.eqb (fst e) n && (match relu_after e with Some _ => true | None => false end) then Some true else k_half k0) /\
  k_ident k = (if is_some_eq (relu_after e) n then Some true else k_ident k0) /\
  k_fake k = k_fake k0 /\ k_fpq k = k_fpq k0 /\ k_qin k = k_qin k0 /\ k_more k = k_more k0.
Proof.
  cbv zeta. unfold fuse_step, relu_after. destruct (single_successor qm am (fst e) (snd e)) as [s|]; [|rewrite andb_false_r; cbn; repeat split; auto].
  destruct (is_relu_any mods (go_name s)); cbn [is_some_eq].
  - rewrite andb_true_r. rewrite !getkw_dset.
    destruct (String.eqb_spec (fst e) n) as [E1|N1]; destruct (String.eqb_spec (go_name s) n) as [E2|N2]; rewrite ?E1, ?E2;
      repeat (match goal with |- context [String.eqb ?a ?b] => destruct (String.eqb_spec a b) end; try congruence); cbn; repeat split; auto; congruence.
  - rewrite andb_false_r. rewrite getkw_dset. destruct (String.eqb_spec (fst e) n) as [<-|N1]; repeat split; auto.
Qed.
Lemma fuse_fold l : forall ov n,
  let k := getkw (fold_left (fuse_step mods am qm) l ov) n in let k0 := getkw ov n in
  k_half k = (if existsb (fun e : string * pmod => String.eqb (fst e) n && (match relu_after e with Some _ => true | None => false end)) l then Some true else k_half k0) /\
  k_ident k = (if existsb (fun e => is_some_eq (relu_after e) n) l then Some true else k_ident k0) /\
  k_fake k = k_fake k0 /\ k_fpq k = k_fpq k0 /\ k_qin k = k_qin k0 /\ k_more k = k_more k0.
Proof.
  induction l as [|e l IH]; intros ov n; cbv zeta; cbn [fold_left existsb]; [repeat split; auto|].
  destruct (IH (fuse_step mods am qm ov e) n) as (A1 & A2 & A3 & A4 & A5 & A6). destruct (fuse_step_spec ov e n) as (B1 & B2 & B3 & B4 & B5 & B6).
  rewrite A1, A2, A3, A4, A5, A6, B1, B2, B3, B4, B5, B6. repeat split; auto.
  - destruct (String.eqb (fst e) n && match relu_after e with Some _ => true | None => false end); cbn [orb]; match goal with |- context [existsb ?f l] => destruct (existsb f l) end; auto.
  - destruct (is_some_eq (relu_after e) n); cbn [orb]; match goal with |- context [existsb ?f l] => destruct (existsb f l) end; auto.
Qed.

Hypothesis HND : NoDup (map fst mods).
Lemma entry n m : In (n, m) mods -> dget mods n = Some m.
Proof. apply In_dget; auto. Qed.
Variable ov : dict kw.
Hypothesis Hov : forall n k, In (n, k) ov -> k_half k = None /\ k_ident k = None.
Lemma ov_get n : k_half (getkw ov n) = None /\ k_ident (getkw ov n) = None.
Proof. unfold getkw. destruct (dget ov n) as [k|] eqn:E; [|auto]. apply dget_In in E. eauto. Qed.
Lemma fused_half n m : dget mods n = Some m ->
  k_half (getkw (fuse_relu mods am qm ov) n) = match relu_after (n, m) with Some _ => Some true | None => None end.
Proof.
  intro G. unfold fuse_relu. destruct (fuse_fold mods ov n) as (A & _). rewrite A. destruct (ov_get n) as (-> & _).
  destruct (existsb _ mods) eqn:E.
  - apply existsb_exists in E. destruct E as ((n', m') & I & E). cbn [fst] in E. apply andb_true_iff in E. destruct E as (E1 & E2).
    apply String.eqb_eq in E1. rewrite E1 in *. apply entry in I. assert (m' = m) by congruence. subst m'. destruct (relu_after (n, m)); auto; discriminate.
  - destruct (relu_after (n, m)) eqn:R; auto. exfalso. apply dget_In in G. rewrite <- not_true_iff_false in E. apply E. apply existsb_exists. exists (n, m). split; auto.
    cbn [fst]. rewrite String.eqb_refl, R. auto.
Qed.
Lemma fused_ident n : k_ident (getkw (fuse_relu mods am qm ov) n) = Some true -> exists x m, dget mods x = Some m /\ relu_after (x, m) = Some n.
Proof.
  unfold fuse_relu. destruct (fuse_fold mods ov n) as (_ & A & _). rewrite A. destruct (ov_get n) as (_ & ->).
  destruct (existsb _ mods) eqn:E; [|discriminate]. intros _.
  apply existsb_exists in E. destruct E as ((x, m) & I & E). exists x, m. split; [apply entry; auto|]. unfold is_some_eq in E.
  destruct (relu_after (x, m)); [|discriminate]. apply String.eqb_eq in E. subst; auto.
Qed.
Lemma fused_ident_iff n : k_ident (getkw (fuse_relu mods am qm ov) n) = Some true \/ k_ident (getkw (fuse_relu mods am qm ov) n) = None.
Proof.
  unfold fuse_relu. destruct (fuse_fold mods ov n) as (_ & A & _). rewrite A. destruct (ov_get n) as (_ & ->). destruct (existsb _ mods); auto.
Qed.
End Fuse.

(** * The wrappers *)
Lemma replace_get g am st qm ov l : NoDup (map fst l) -> forall done ws, foldM (replace_step g am st qm ov) l done = Ok ws ->
  (forall n, ~ In n (map fst l) -> dget ws n = dget done n) /\
  (forall n m, In (n, m) l -> exists q w d, dget qm n = Some q /\ dget ws n = Some w /\
     replace g am st d n m q (getkw ov n) = Ok w /\ forall x, dget d x = dget ws x \/ (dget d x = dget done x)).
Proof.
  induction l as [|(n, m) l IH]; intros ND done ws H; cbn [foldM] in H.
  - inversion H; subst. split; [auto|intros ? ? []].
  - apply bind_ok in H. destruct H as (d1 & H1 & H2). inversion ND as [|? ? NI ND']; subst. destruct (IH ND' _ _ H2) as (A & B).
    unfold replace_step in H1. cbn [fst snd] in H1. destruct (dget qm n) as [q|] eqn:Q; [|discriminate]. apply bind_ok in H1. destruct H1 as (w & R & E). inversion E; subst d1; clear E.
    split.
    + intros x X. cbn in X. rewrite A by tauto. apply dget_dset_other. tauto.
    + intros n0 m0 [E|I].
      * inversion E; subst. exists q, w, done. repeat split; auto. rewrite A by auto. apply dget_dset_same.
      * destruct (B _ _ I) as (q0 & w0 & d & B1 & B2 & B3 & B4). exists q0, w0, d. repeat split; auto. intro x. destruct (B4 x) as [->| ->]; auto.
        destruct (String.string_dec n x) as [<-|N]; [left; symmetry; apply A; auto|right; apply dget_dset_other; auto].
Qed.
Lemma map_const_get {A B} (l : dict A) (b : B) n : dget (map (fun e : string * A => (fst e, b)) l) n = match dget l n with Some _ => Some b | None => None end.
Proof. induction l as [|(k, v) l IH]; cbn; auto. destruct (String.eqb n k); auto. Qed.
