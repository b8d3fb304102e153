(** Lemmas about rebuilding quantizers. *)
From Coq Require Import String List ZArith QArith Qabs Bool Arith Lia Lqa.
From Verif Require Import Base Names StructModel QuantModel RangeModel QzrModel PrepModel PrepSpec PrepProofs ReplModel RebModel.
Import ListNotations.
Local Open Scope string_scope.
Open Scope list_scope.

Lemma mode_roundtrip m : quant_mode (mode_dict m) = Ok m.
Proof. destruct m as [a w]. destruct a, w; reflexivity. Qed.
Lemma clip_roundtrip c : verify_enum clip_named (as_clip (VStr (clip_name c))) = Ok c.
Proof. destruct c; reflexivity. Qed.

Lemma bind_inv {A B} (m : res A) (f : A -> res B) b : bind m f = Ok b -> exists a, m = Ok a /\ f a = Ok b.
Proof. destruct m; cbn; [eauto|discriminate]. Qed.

(** ** filling in the arguments *)
Lemma fill_get s kw e : fill s kw = Ok e -> forall k, known s k = true ->
  dget e k = match dget kw k with
             | Some v => Some v
             | None => match dget s k with Some (Some v) => Some v | _ => None end
             end.
Proof.
  revert e. induction s as [|[k0 d] s IH]; intros e H k K; [discriminate|]. cbn [fill] in H.
  apply bind_inv in H. destruct H as (v & Hv & H). apply bind_inv in H. destruct H as (e' & He & H). injection H as <-.
  cbn [dget]. cbn [known existsb fst] in K. destruct (String.eqb_spec k k0) as [E|N].
  - subst k0. destruct (dget kw k); [congruence|]. destruct d; [congruence|discriminate].
  - apply IH; auto.
Qed.
Lemma call_arg s kw e k : call s kw = Ok e -> known s k = true ->
  arg e k = match dget kw k with
            | Some v => v
            | None => match dget s k with Some (Some v) => v | _ => VNone end
            end.
Proof.
  unfold call, arg. intros H K. destruct (forallb _ kw); [|discriminate]. rewrite (fill_get _ _ _ H _ K).
  destruct (dget kw k); auto. destruct (dget s k) as [[v|]|]; auto.
Qed.

Lemma base_init_shape c o a w b ov copy r : base_init c o a w b ov copy = Ok r ->
  exists d d', (ov = VNone /\ d = [] \/ ov = VODict d) /\ bits_entries (a, w, b) d = Ok d' /\ (copy && is_none o = false) /\
    r = (mkQuant c o (a, w, b) d' copy [],
         mkMeta c [("bits_activations", a); ("bits_weights", w); ("bits_bias", b); ("overrides", VODict d)]).
Proof.
  unfold base_init. intros H. apply bind_inv in H. destruct H as (d & Hd & H).
  destruct (copy && is_none o) eqn:E; [discriminate|]. apply bind_inv in H. destruct H as (d' & Hd' & H). injection H as <-.
  exists d, d'. split; [|auto]. destruct ov; try discriminate; injection Hd as <-; auto.
Qed.

(** ** statistics prepared twice *)
Lemma dset_same {A} (d : dict A) k v : dget d k = Some v -> dset d k v = d.
Proof.
  induction d as [|(k', v') d IH]; cbn; [discriminate|]. destruct (String.eqb_spec k k') as [->|N]; [congruence|].
  intro H. rewrite IH; auto.
Qed.
Lemma dkeys_dset {A} (d : dict A) k v w : dget d k = Some w -> dkeys (dset d k v) = dkeys d.
Proof.
  induction d as [|(k', v') d IH]; cbn; [discriminate|]. destruct (String.eqb k k'); intro H; cbn; [auto|]. f_equal. apply IH; auto.
Qed.
Lemma dict_ext {A} (d1 d2 : dict A) : NoDup (dkeys d1) -> dkeys d1 = dkeys d2 -> (forall k, dget d1 k = dget d2 k) -> d1 = d2.
Proof.
  revert d2. induction d1 as [|(k, v) d1 IH]; intros [|(k2, v2) d2] ND E G; cbn in *; try discriminate; auto.
  injection E as <- E. inversion ND as [|? ? NI ND']; subst. pose proof (G k) as Gk. rewrite String.eqb_refl in Gk. injection Gk as <-.
  f_equal. apply IH; auto. intro x. specialize (G x). destruct (String.eqb_spec x k) as [EX|NX]; [|exact G]. subst x.
  assert (NK : forall (d : dict A) y, ~ In y (dkeys d) -> dget d y = None).
  { clear. induction d as [|(a, b) d IH]; cbn; auto. intros y N. destruct (String.eqb_spec y a) as [->|]; [exfalso; auto|]. apply IH; auto. }
  rewrite !NK; auto. unfold dkeys in *. rewrite <- E. auto.
Qed.

Lemma qmax_idem a b : qmax a (qmax a b) = qmax a b.
Proof. unfold qmax. destruct (Qle_bool a b) eqn:E; [rewrite E; auto|]. destruct (Qle_bool a a); auto. Qed.
Lemma qmin_idem a b : qmin a (qmin a b) = qmin a b.
Proof. unfold qmin. destruct (Qle_bool a b) eqn:E; [destruct (Qle_bool a a); auto|]. rewrite E; auto. Qed.
Lemma Qleb_refl a : Qle_bool a a = true.
Proof. apply Qle_bool_iff. apply Qle_refl. Qed.
Lemma Qltb_irr a : Qltb a a = false.
Proof. unfold Qltb. rewrite Qleb_refl. reflexivity. Qed.
Lemma qmax_same a : qmax a a = a. Proof. unfold qmax. rewrite Qleb_refl. auto. Qed.
Lemma qmin_same a : qmin a a = a. Proof. unfold qmin. rewrite Qleb_refl. auto. Qed.

Lemma clip_band_idem lo hi s : (lo < hi)%Q -> clip_stats (clip_stats s lo hi) lo hi = clip_stats s lo hi.
Proof.
  intros L. unfold clip_stats at 2 3. unfold Qltb.
  assert (LB : Qle_bool lo hi = true) by (apply Qle_bool_iff; lra).
  assert (LN : Qle_bool hi lo = false) by (destruct (Qle_bool hi lo) eqn:E; auto; apply Qle_bool_iff in E; lra).
  destruct (Qle_bool lo (st_max s)) eqn:E1; cbn [negb].
  2: { unfold clip_stats, Qltb. cbn [st_min st_max st_avg_min st_avg_max st_mean st_std st_b]. rewrite Qleb_refl, LB. cbn [negb].
       rewrite qmax_same. unfold qmin. rewrite LN. reflexivity. }
  destruct (Qle_bool (st_min s) hi) eqn:E2; cbn [negb].
  - unfold clip_stats, Qltb. cbn [st_min st_max st_avg_min st_avg_max st_mean st_std st_b].
    replace (Qle_bool lo (qmin hi (st_max s))) with true by (symmetry; unfold qmin; destruct (Qle_bool hi (st_max s)); auto).
    replace (Qle_bool (qmax lo (st_min s)) hi) with true by (symmetry; unfold qmax; destruct (Qle_bool lo (st_min s)); auto).
    cbn [negb]. rewrite !qmax_idem, !qmin_idem. reflexivity.
  - unfold clip_stats, Qltb. cbn [st_min st_max st_avg_min st_avg_max st_mean st_std st_b]. rewrite Qleb_refl, LB. cbn [negb].
    rewrite qmin_same. unfold qmax. rewrite LB. reflexivity.
Qed.
Lemma clip_idem a s : let c := clip_to s (act_range a (st_max s)) in clip_to c (act_range a (st_max c)) = c.
Proof.
  cbv zeta. unfold clip_to. destruct a; cbn [act_range fst snd].
  - unfold clip_stats at 1 3 4. unfold Qltb. destruct (Qle_bool 0 (st_max s)) eqn:E1; cbn [negb].
    2: { unfold clip_stats, Qltb. cbn [st_min st_max st_avg_min st_avg_max st_mean st_std st_b]. rewrite E1. reflexivity. }
    destruct (Qle_bool (st_min s) (st_max s)) eqn:E2; cbn [negb]; unfold clip_stats, Qltb; rewrite E1, E2;
      cbn [negb st_min st_max st_avg_min st_avg_max st_mean st_std st_b].
    + rewrite !qmin_same, E1.
      replace (Qle_bool (qmax 0 (st_min s)) (st_max s)) with true by (symmetry; unfold qmax; destruct (Qle_bool 0 (st_min s)); auto).
      cbn [negb]. rewrite !qmax_idem, !qmin_idem. reflexivity.
    + rewrite E1, Qleb_refl. cbn [negb]. unfold qmax. rewrite E1, qmin_same. reflexivity.
  - set (hi := qmin (st_max s) 6).
    destruct (Qle_bool 0 (st_max s)) eqn:E1.
    2: { assert (C : clip_stats s 0 hi = mkStats 0 0 0 0 (st_mean s) (st_std s) (st_b s)).
         { unfold clip_stats, Qltb. rewrite E1. reflexivity. }
         rewrite C. reflexivity. }
    assert (H0 : Qle_bool 0 hi = true) by (unfold hi, qmin; destruct (Qle_bool (st_max s) 6); auto).
    assert (HH : qmin hi 6 = hi).
    { unfold hi, qmin. destruct (Qle_bool (st_max s) 6) eqn:E; [rewrite E|]; reflexivity. }
    assert (HM : st_max (clip_stats s 0 hi) = hi).
    { unfold clip_stats, Qltb. rewrite E1. cbn [negb]. destruct (Qle_bool (st_min s) hi); cbn [negb st_max]; auto.
      unfold hi, qmin. destruct (Qle_bool (st_max s) 6) eqn:E; [rewrite Qleb_refl; auto|].
      destruct (Qle_bool 6 (st_max s)) eqn:E6; auto. exfalso.
      assert (~ st_max s <= 6)%Q by (rewrite <- Qle_bool_iff; congruence). assert (~ 6 <= st_max s)%Q by (rewrite <- Qle_bool_iff; congruence). lra. }
    rewrite HM, HH. clearbody hi. unfold clip_stats at 2 3. unfold Qltb. rewrite E1. cbn [negb].
    unfold clip_stats, Qltb in HM. rewrite E1 in HM. cbn [negb] in HM.
    destruct (Qle_bool (st_min s) hi) eqn:E2; cbn [negb st_max] in *; unfold clip_stats, Qltb;
      cbn [st_min st_max st_avg_min st_avg_max st_mean st_std st_b].
    + rewrite HM, H0.
      replace (Qle_bool (qmax 0 (st_min s)) hi) with true by (symmetry; unfold qmax; destruct (Qle_bool 0 (st_min s)); auto).
      cbn [negb]. rewrite !qmax_idem, !qmin_idem, qmin_same. reflexivity.
    + rewrite H0, Qleb_refl. cbn [negb]. unfold qmax. rewrite H0, qmin_same. reflexivity.
  - apply clip_band_idem. lra.
  - apply clip_band_idem. lra.
Qed.

Lemma nset_nset {A} (d : list (nat * A)) i a b : nset (nset d i a) i b = nset d i b.
Proof.
  induction d as [|(j, w) d IH]; cbn; [rewrite Nat.eqb_refl; auto|].
  destruct (Nat.eqb_spec i j) as [E|N]; cbn; [subst; rewrite Nat.eqb_refl; auto|]. destruct (Nat.eqb_spec i j); [contradiction|]. rewrite IH; auto.
Qed.

(** what a step does to each record *)
Lemma clipped_get st n s ls out k : dget st (norm n) = Some ls ->
  dget (clipped st n s ls out) k =
  match dget st k with
  | None => None
  | Some l => Some (mkLs (if String.eqb (norm (go_name s)) k && negb (String.eqb (go_type s) "Split") then nset (ls_inputs l) 0 out else ls_inputs l)
                         (if String.eqb (norm n) k then out else ls_output l))
  end.
Proof.
  intros G.
  assert (K : dget (dset st (norm n) (mkLs (ls_inputs ls) out)) k =
    match dget st k with None => None | Some l => Some (mkLs (ls_inputs l) (if String.eqb (norm n) k then out else ls_output l)) end).
  { destruct (String.eqb_spec (norm n) k) as [<-|N].
    - rewrite dget_dset_same, G. reflexivity.
    - rewrite dget_dset_other by auto. destruct (dget st k) as [[i o]|]; reflexivity. }
  unfold clipped. destruct (String.eqb (go_type s) "Split"); cbn [negb]; [rewrite andb_false_r; rewrite K; destruct (dget st k); auto|].
  rewrite andb_true_r.
  destruct (String.eqb_spec (norm (go_name s)) k) as [E|N].
  - rewrite E, K. destruct (dget st k) as [l|] eqn:D; [|rewrite K; reflexivity].
    rewrite dget_dset_same. reflexivity.
  - destruct (dget (dset st (norm n) (mkLs (ls_inputs ls) out)) (norm (go_name s))).
    + rewrite dget_dset_other by auto. exact K.
    + exact K.
Qed.
Lemma clipped_dkeys st n s ls out : dget st (norm n) = Some ls -> dkeys (clipped st n s ls out) = dkeys st.
Proof.
  intros G. unfold clipped. destruct (String.eqb (go_type s) "Split"); [eapply dkeys_dset; eauto|].
  destruct (dget (dset st (norm n) (mkLs (ls_inputs ls) out)) (norm (go_name s))) as [ss|] eqn:D.
  - rewrite (dkeys_dset _ _ _ _ D). eapply dkeys_dset; eauto.
  - eapply dkeys_dset; eauto.
Qed.

Section Twice.
Variables (mods : dict pmod) (am : dict adjent) (qm : dict qbits).
Notation T := (tgt mods am qm).
Notation step := (fusion_step mods am qm).

Lemma fusions_dkeys l : forall st st', foldM step l st = Ok st' -> dkeys st' = dkeys st.
Proof.
  induction l as [|e l IH]; intros st st' H; cbn [foldM] in H; [injection H as <-; auto|].
  apply bind_ok in H. destruct H as (s1 & H1 & H2). rewrite (IH _ _ H2). apply fusion_step_ok in H1.
  destruct (T e) as [[s a]|]; [|subst; auto]. destruct H1 as (ls & G & ->). apply clipped_dkeys; auto.
Qed.

Definition writes (e : string * pmod) (k : string) : Prop := exists s a, T e = Some (s, a) /\ norm (go_name s) = k /\ go_type s <> "Split".
Lemma writes_dec e k : {writes e k} + {~ writes e k}.
Proof.
  unfold writes. destruct (T e) as [[s a]|]; [|right; intros (? & ? & ? & _); discriminate].
  destruct (String.string_dec (norm (go_name s)) k); [|right; intros (? & ? & [= <- <-] & E & _); contradiction].
  destruct (String.string_dec (go_type s) "Split"); [right; intros (? & ? & [= <- <-] & _ & E); contradiction|left; eauto].
Qed.
Lemma writes_later l k : (exists e, In e l /\ writes e k) \/ (forall e, In e l -> ~ writes e k).
Proof.
  induction l as [|e l IH]; [right; intros e []|]. destruct (writes_dec e k); [left; exists e; cbn; auto|].
  destruct IH as [(e' & I & W)|N]; [left; exists e'; cbn; auto|]. right. intros e' [<-|I]; auto.
Qed.
Lemma untouched_inputs l : forall st st', foldM step l st = Ok st' -> forall k, (forall e, In e l -> ~ writes e k) ->
  forall ls ls', dget st k = Some ls -> dget st' k = Some ls' -> ls_inputs ls' = ls_inputs ls.
Proof.
  induction l as [|e l IH]; intros st st' H k N ls ls' G G'; cbn [foldM] in H; [congruence|].
  apply bind_ok in H. destruct H as (s1 & H1 & H2). apply fusion_step_ok in H1.
  destruct (T e) as [[s a]|] eqn:TE.
  - destruct H1 as (x & Gx & E1). pose proof (clipped_get st (fst e) s x (clip_to (ls_output x) (act_range a (st_max (ls_output x)))) k Gx) as C.
    rewrite <- E1, G in C. rewrite (IH _ _ H2 k (fun e I => N e (or_intror I)) _ _ C G'). cbn [ls_inputs].
    destruct (String.eqb_spec (norm (go_name s)) k) as [EK|]; auto. destruct (String.eqb_spec (go_type s) "Split") as [|NS]; auto.
    exfalso. apply (N e (or_introl eq_refl)). exists s, a. auto.
  - subst s1. apply (IH _ _ H2 k (fun e I => N e (or_intror I)) _ _ G G').
Qed.

(** state [t] of a second run against the end [fin] of the first, when [l] is still to come *)
Definition matches (fin t : dict lstats) (l : list (string * pmod)) : Prop :=
  dkeys t = dkeys fin /\
  forall k, match dget fin k, dget t k with
            | None, None => True
            | Some f, Some x => ls_output x = ls_output f /\ (forall v, nset (ls_inputs x) 0 v = nset (ls_inputs f) 0 v) /\
                                ((exists e, In e l /\ writes e k) \/ ls_inputs x = ls_inputs f)
            | _, _ => False
            end.

Lemma second_run l : NoDup (map (fun e => norm (fst e)) l) -> forall s fin t, foldM step l s = Ok fin -> matches fin t l ->
  exists t', foldM step l t = Ok t' /\ matches fin t' [].
Proof.
  induction l as [|e l IH]; intros ND s fin t H M; cbn [foldM] in *.
  - exists t. auto.
  - inversion ND as [|? ? NI ND']; subst. apply bind_ok in H. destruct H as (s1 & H1 & H2).
    pose proof (fusion_step_ok _ _ _ _ _ _ H1) as S1.
    assert (KF : forall k, dget fin k = None <-> dget s k = None).
    { intro k. apply (fusions_keys mods am qm (e :: l)). cbn [foldM]. rewrite H1. exact H2. }
    assert (ST : exists t1, step t e = Ok t1).
    { apply fusion_step_succeeds. intros su SU. destruct (proj1 (fusion_step_succeeds mods am qm s e) (ex_intro _ _ H1) su SU) as (A & B).
      split; auto. unfold dmem in *. destruct (dget s (norm (fst e))) eqn:D; [|discriminate].
      destruct M as (_ & M). specialize (M (norm (fst e))). destruct (dget fin (norm (fst e))) eqn:F; [|apply KF in F; congruence].
      destruct (dget t (norm (fst e))); [auto|contradiction]. }
    destruct ST as (t1 & ST). rewrite ST. cbn [bind]. apply (IH ND' s1); auto.
    pose proof (fusion_step_ok _ _ _ _ _ _ ST) as S2. destruct M as (MK & M).
    destruct (T e) as [[su a]|] eqn:TE.
    + destruct S1 as (ls & G & E1). destruct S2 as (lt & Gt & E2).
      (* the output of this layer at the end of the first run *)
      assert (FO : exists lf, dget fin (norm (fst e)) = Some lf /\ ls_output lf = clip_to (ls_output ls) (act_range a (st_max (ls_output ls)))).
      { destruct (dget fin (norm (fst e))) as [lf|] eqn:F; [|apply KF in F; congruence]. exists lf. split; auto.
        assert (Hf : foldM step (e :: l) s = Ok fin) by (cbn [foldM]; rewrite H1; exact H2).
        destruct (fusions_output mods am qm (e :: l) ND s fin Hf _ _ _ G F) as (A & _). apply (A e su a); cbn; auto. }
      destruct FO as (lf & F & FO).
      assert (OT : clip_to (ls_output lt) (act_range a (st_max (ls_output lt))) = ls_output lf).
      { pose proof (M (norm (fst e))) as Mn. rewrite F, Gt in Mn. destruct Mn as (-> & _). rewrite FO. apply clip_idem. }
      split; [subst t1; rewrite clipped_dkeys; auto|].
      intro k. pose proof (M k) as Mk. subst t1. rewrite (clipped_get _ _ _ _ _ _ Gt), OT.
      destruct (dget fin k) as [f|] eqn:Fk, (dget t k) as [x|] eqn:Xk; try contradiction; auto.
      destruct Mk as (M1 & M2 & M3). cbn [ls_output ls_inputs]. split.
      { destruct (String.eqb_spec (norm (fst e)) k) as [E|]; auto. rewrite E in F. congruence. }
      destruct (String.eqb_spec (norm (go_name su)) k) as [EK|NK]; cbn [andb].
      * destruct (String.eqb_spec (go_type su) "Split") as [SP|NS]; cbn [negb].
        -- split; auto. destruct M3 as [(e' & [<-|I] & W)|M3]; auto.
           ++ exfalso. destruct W as (? & ? & TE' & _ & N). rewrite TE in TE'. injection TE' as <- <-. contradiction.
           ++ left; eauto.
        -- split; [intro v; rewrite nset_nset; auto|].
           destruct (writes_later l k) as [W|NW]; [auto|right]. rewrite M2.
           (* this is the last write *)
           assert (G1 : exists l1, dget s k = Some l1) by (destruct (dget s k) eqn:D; eauto; apply KF in D; congruence).
           destruct G1 as (l1 & G1).
           pose proof (clipped_get s (fst e) su ls (clip_to (ls_output ls) (act_range a (st_max (ls_output ls)))) k G) as C.
           rewrite <- E1, G1, <- FO in C. rewrite (proj2 (String.eqb_eq _ _) EK) in C.
           destruct (String.eqb_spec (go_type su) "Split") as [|_]; [contradiction|]. cbn [negb andb] in C.
           rewrite (untouched_inputs l _ _ H2 k NW _ _ C Fk). cbn [ls_inputs]. apply nset_nset.
      * split; auto. destruct M3 as [(e' & [<-|I] & W)|M3]; auto.
        -- exfalso. destruct W as (? & ? & TE' & N & _). rewrite TE in TE'. injection TE' as <- <-. contradiction.
        -- left; eauto.
    + subst t1. split; auto. intro k. specialize (M k). destruct (dget fin k), (dget t k); auto.
      destruct M as (A & B & [(e' & [<-|I] & W)|C]); repeat split; auto.
      * exfalso. destruct W as (? & ? & TE' & _). congruence.
      * left; eauto.
Qed.

Lemma fusions_twice st st' : NoDup (map (fun e : string * pmod => norm (fst e)) mods) -> NoDup (dkeys st) ->
  stats_fusions mods am qm st = Ok st' -> stats_fusions mods am qm st' = Ok st'.
Proof.
  intros ND NDK H. unfold stats_fusions in *. destruct st' as [|e' r'] eqn:ES; auto.
  assert (H' : foldM step mods st = Ok st').
  { destruct st; [discriminate|]. subst st'. exact H. }
  rewrite <- ES. clear H. destruct (second_run mods ND st st' st' H') as (t & A & B).
  - split; auto. intro k. destruct (dget st' k); auto.
  - rewrite A. f_equal. destruct B as (BK & B). apply dict_ext.
    + rewrite BK, (fusions_dkeys _ _ _ H'). auto.
    + auto.
    + intro k. specialize (B k). destruct (dget st' k) as [f|], (dget t k) as [x|]; auto; try contradiction.
      destruct B as (B1 & _ & [(e & [] & _)|B3]). destruct f, x. cbn in *. congruence.
Qed.
End Twice.

Lemma bn_absent mods : forall l st, incl l mods -> (forall n m, In (n, m) mods -> pm_fused m <> Some []) ->
  (forall n b, folded mods n b -> dget st (norm b) = None) -> foldM bn_step l st = Ok st.
Proof.
  induction l as [|(n, m) l IH]; intros st I NE H; [reflexivity|]. cbn [foldM]. unfold bn_step at 1. cbn [fst snd].
  assert (In (n, m) mods) as In0 by (apply I; cbn; auto).
  destruct (pm_fused m) as [[|b r]|] eqn:F.
  - exfalso. eapply NE; eauto.
  - rewrite (H n b) by (exists m, r; auto). cbn [bind]. apply IH; auto. intros x X; apply I; cbn; auto.
  - cbn [bind]. apply IH; auto. intros x X; apply I; cbn; auto.
Qed.
Lemma bn_nodup mods st st' : (forall n m, In (n, m) mods -> pm_fused m <> Some []) -> NoDup (dkeys st) -> bn_stats mods st = Ok st' -> NoDup (dkeys st').
Proof.
  intros NE ND H. rewrite bn_stats_pairs in H by auto. clear NE. revert st st' ND H. induction (folds mods) as [|(x, y) F IH]; intros st st' ND H; cbn [foldM] in H; [congruence|].
  apply bind_ok in H. destruct H as (s1 & H1 & H2). apply (IH s1); auto. unfold bn_pair in H1. cbn [fst snd] in H1.
  destruct (dget st y); [|congruence]. destruct (dget (dpop st y) x) as [ls|] eqn:G; [|discriminate]. injection H1 as <-.
  rewrite (dkeys_dset _ _ _ _ G). unfold dpop, dkeys. clear - ND. induction st as [|(k, v) st IH]; cbn; [constructor|].
  inversion ND; subst. destruct (negb (String.eqb y k)); cbn; auto. constructor; auto. intro I. apply H1. apply in_map_iff in I.
  destruct I as (p & E & I). apply filter_In in I. apply in_map_iff. exists p. tauto.
Qed.
