(** C99: early exits attached to a model. *)
From Coq Require Import String List Bool Arith Lia.
From Verif Require Import Base Lists Names QzrModel QzrSpec QzrProofs EeModel EeSpec EeProofs.
Import ListNotations.
Local Open Scope string_scope.
Open Scope list_scope.

Section Ee.
Variable T : Type.
Notation emod := (emod T).
Notation sys := (sys T).

(** ** Specification *)
(** A manager and a model before anything is attached *)
Definition fresh (m : emod) : sys := mkSys [] m (fun _ => None) 0.
(** exits as given by the user: names and branches *)
Definition def (exits : list (path * emod)) : list (string * emod) := map (fun e => (join_dot (fst e), snd e)) exits.
(** what a proper definition of exits is: every name that of a module of the model (not of the whole model), no one inside another *)
Definition exit_ok (m : emod) (e : path * emod) : Prop :=
  fst e <> [] /\ Forall good_name (fst e) /\ mod_at m (fst e) <> None /\ plain (snd e) /\ good (snd e).
Definition proper (m : emod) (exits : list (path * emod)) : Prop :=
  plain m /\ good m /\ Forall (exit_ok m) exits /\ ForallOrdPairs (fun a b => apart (fst a) (fst b)) exits.
(** a history of deleting outputs and forward passes, and the inputs since the last deletion *)
Inductive op := ODelete | OForward (x : T).
Definition do_op (s : sys) (o : op) : res sys := match o with ODelete => delete_exits_outputs s | OForward x => do r <- forward s x; Ok (fst r) end.
Definition history (s : sys) (ops : list op) : res sys := foldM do_op ops s.
Fixpoint since (ops : list op) (acc : list T) : list T := match ops with [] => acc | ODelete :: l => since l [] | OForward x :: l => since l (acc ++ [x]) end.

(** ** Proofs *)
Notation plist := (plist T).
Fixpoint number (k : nat) (exits : list (path * emod)) : plist := match exits with [] => [] | e :: l => (fst e, (k, snd e)) :: number (S k) l end.
Lemma number_in k exits p i b : In (p, (i, b)) (number k exits) -> k <= i < k + length exits /\ nth_error exits (i - k) = Some (p, b).
Proof.
  revert k. induction exits as [|[p0 b0] l IH]; intros k H; [destruct H|]. cbn [number fst snd length] in *. destruct H as [H|H].
  - injection H as -> -> ->. split; [lia|]. rewrite Nat.sub_diag. reflexivity.
  - apply IH in H. destruct H as [H1 H2]. split; [lia|]. replace (i - k) with (S (i - S k)) by lia. exact H2.
Qed.
Lemma in_number k exits j p b : nth_error exits j = Some (p, b) -> In (p, (k + j, b)) (number k exits).
Proof.
  revert k j. induction exits as [|[p0 b0] l IH]; intros k [|j] H; try discriminate; cbn [number nth_error fst snd] in *.
  - injection H as -> ->. left. rewrite Nat.add_0_r. reflexivity.
  - right. replace (k + S j) with (S k + j) by lia. apply IH. exact H.
Qed.
Lemma lookup_app (E F : plist) p : lookup T (E ++ F) p = match lookup T E p with Some x => Some x | None => lookup T F p end.
Proof. induction E as [|e E IH]; [reflexivity|]. cbn [app]. rewrite !lookup_cons. destruct (path_dec (fst e) p); auto. Qed.
Lemma lookup_none (E : plist) p : (forall e, In e E -> fst e <> p) -> lookup T E p = None.
Proof. induction E as [|e E IH]; intro H; [reflexivity|]. rewrite lookup_cons. destruct (path_dec (fst e) p) as [K|]; [exfalso; apply (H e); auto; left; auto|apply IH; intros; apply H; right; auto]. Qed.

Lemma attach_lemma m : good m -> forall exits E s, s_model s = att T E [] m -> (forall e, In e E -> good (snd (snd e))) ->
  Forall (fun e => fst e <> [] /\ Forall good_name (fst e) /\ mod_at m (fst e) <> None /\ good (snd e)) exits ->
  (forall e x, In e E -> In x exits -> ~ is_prefix (fst e) (fst x)) -> ForallOrdPairs (fun a b => ~ is_prefix (fst a) (fst b)) exits ->
  exists outs, attach_exits s (def exits) = (mkSys (s_points s ++ map fst (def exits)) (att T (rev (number (s_next s) exits) ++ E) [] m) outs (s_next s + length exits), None) /\
    forall i, s_outs s i = None -> outs i = None.
Proof.
  intro G. induction exits as [|[p b] l IH]; intros E s Es GE Ok1 Pre Pp.
  - exists (s_outs s). cbn. rewrite app_nil_r, Nat.add_0_r, <- Es. split; [destruct s; reflexivity|auto].
  - inversion Ok1 as [|? ? (N1 & N2 & N3 & N4) Ok2]; subst. cbn [fst snd] in *. inversion Pp as [|? ? Pp1 Pp2]; subst. cbn [fst] in Pp1.
    assert (NoE : forall p1 p2, p = p1 ++ p2 -> lookup T E ([] ++ p1) = None).
    { intros p1 p2 ->. apply lookup_none. intros e He K. apply (Pre e (p1 ++ p2, b) He (or_introl eq_refl)). cbn [fst]. exists p2. cbn [app] in K. congruence. }
    destruct (mod_at m p) as [sub|] eqn:Ep; [|congruence].
    cbn [def map fst snd attach_exits]. unfold attach_one. cbn [add_point s_model s_points s_outs s_next]. rewrite Es.
    rewrite find_module_at by (auto using good_att). rewrite mod_at_att by (intros p1 p2 Hp _; eapply NoE; eauto). rewrite Ep. cbn [option_map app].
    assert (Sp : split_dot (join_dot p) = p) by (apply split_join; auto; eapply Forall_impl; [|exact N2]; intros a [_ Ha]; exact Ha).
    rewrite Sp. pose proof (set_att T E (s_next s) b p [] m sub G Ep NoE) as Sa. cbn [app] in Sa. rewrite Sa.
    set (s1 := mkSys _ _ _ _). destruct (IH ((p, (s_next s, b)) :: E) s1) as (outs & A & O); auto.
    { intros e [<-|He]; [exact N4|auto]. }
    { intros e x [<-|He] Hx; [cbn [fst]; rewrite Forall_forall in Pp1; auto|]. apply Pre; auto. right; auto. }
    exists outs. fold (def l). rewrite A. cbn [s1 s_points s_next number fst snd length]. split.
    + f_equal. f_equal; [rewrite <- app_assoc; reflexivity| |lia]. cbn [rev]. rewrite <- app_assoc. reflexivity.
    + intros i Hi. apply O. cbn [s1 s_outs]. unfold set_out. destruct (Nat.eqb i (s_next s)); auto.
Qed.

Lemma nodup_paths (exits : list (path * emod)) : ForallOrdPairs (fun a b => apart (fst a) (fst b)) exits -> NoDup (map fst exits).
Proof.
  induction 1 as [|a l H _ IH]; cbn; constructor; auto. intro K. apply in_map_iff in K. destruct K as (x & E & I). rewrite Forall_forall in H. destruct (H x I) as [A _]. apply A. exists []. rewrite app_nil_r. auto.
Qed.
Lemma number_paths k exits : map fst (number k exits) = map fst exits.
Proof. revert k. induction exits as [|e l IH]; intro k; [reflexivity|]. cbn [number map fst]. rewrite IH. reflexivity. Qed.
Lemma lookup_nodup (E : plist) p x : NoDup (map fst E) -> In (p, x) E -> lookup T E p = Some x.
Proof.
  induction E as [|[q y] E IH]; intros N I; [destruct I|]. rewrite lookup_cons. cbn [fst snd map] in *. inversion N as [|? ? N1 N2]; subst. destruct I as [I|I].
  - injection I as -> ->. destruct (path_dec p p); congruence.
  - destruct (path_dec q p) as [->|]; [exfalso; apply N1; apply (in_map fst) in I; exact I|auto].
Qed.

Section Attached.
Variable m : emod.
Variable exits : list (path * emod).
Hypothesis P : proper m exits.
Definition EE : plist := rev (number 0 exits) ++ [].
Lemma EE_nodup : NoDup (map fst EE).
Proof. unfold EE. rewrite app_nil_r, map_rev. apply NoDup_rev. rewrite number_paths. apply nodup_paths. apply P. Qed.
Lemma EE_in p i b : In (p, (i, b)) EE <-> nth_error exits i = Some (p, b).
Proof.
  unfold EE. rewrite app_nil_r, <- in_rev. split; intro H; [apply number_in in H; rewrite Nat.sub_0_r in H; apply H|]. apply (in_number 0) in H. exact H.
Qed.
Lemma EE_lookup p i b : lookup T EE p = Some (i, b) <-> nth_error exits i = Some (p, b).
Proof. rewrite <- EE_in. split; [apply lookup_In|apply lookup_nodup; apply EE_nodup]. Qed.

Lemma attached : exists outs, attach_exits (fresh m) (def exits) = (mkSys (map fst (def exits)) (att T EE [] m) outs (length exits), None) /\ forall i, outs i = None.
Proof.
  destruct P as (Pm & G & Ok1 & Pp).
  destruct (attach_lemma m G exits [] (fresh m)) as (outs & A & O).
  - cbn. rewrite att_nil. reflexivity.
  - intros e [].
  - eapply Forall_impl; [|exact Ok1]. unfold exit_ok. tauto.
  - intros e x [].
  - clear - Pp. induction Pp as [|a l H _ IH]; constructor; auto. eapply Forall_impl; [|exact H]. intros b [K _]. exact K.
  - exists outs. cbn [fresh s_points s_next app Nat.add] in A. split; [exact A|]. intro i. apply O. reflexivity.
Qed.

Definition here (s : sys) : Prop := s_points s = map fst (def exits) /\ s_model s = att T EE [] m.
Lemma get_branch_here s j p b : here s -> nth_error exits j = Some (p, b) -> exists c, get_branch (s_model s) (join_dot p) = Ok c /\ ekd c = KBranch j.
Proof.
  intros [_ Hm] Hj. destruct P as (Pm & G & Ok1 & Pp). rewrite Hm. pose proof (nth_error_In _ _ Hj) as Hin. rewrite Forall_forall in Ok1. destruct (Ok1 _ Hin) as (N1 & N2 & N3 & N4 & N5). cbn [fst snd] in *.
  unfold get_branch, split_module_name. assert (Sp : split_dot (join_dot p) = p) by (apply split_join; auto; eapply Forall_impl; [|exact N2]; intros a [_ Ha]; exact Ha); rewrite Sp.
  destruct (exists_last N1) as (p0 & n & ->). rewrite removelast_last, last_last.
  assert (Gp0 : Forall good_name p0) by (apply Forall_app in N2; apply N2).
  assert (GE : forall e, In e EE -> good (snd (snd e))). { intros [q [i c]] He. apply EE_in in He. apply nth_error_In in He. destruct (Ok1 _ He) as (_ & _ & _ & _ & K). exact K. }
  assert (NoE : forall p1 p2, p0 ++ [n] = p1 ++ p2 -> p2 <> [] -> lookup T EE ([] ++ p1) = None).
  { intros p1 p2 Hp Hne. apply lookup_none. intros [q [i c]] He K. cbn [fst] in K. cbn [app] in K. subst q. apply EE_in in He.
    assert (Ap : forall i j p q b c, nth_error exits i = Some (p, b) -> nth_error exits j = Some (q, c) -> i <> j -> apart p q).
    { clear - Pp. induction Pp as [|a l H _ IH]; intros i j p q b c Hi Hj Ne; [destruct i; discriminate|]. destruct i as [|i], j as [|j]; cbn [nth_error] in *.
      - congruence.
      - injection Hi as ->. rewrite Forall_forall in H. apply (H (q, c)). eapply nth_error_In; eauto.
      - injection Hj as ->. rewrite Forall_forall in H. destruct (H (p, b)) as [K1 K2]; [eapply nth_error_In; eauto|]. split; auto.
      - eapply IH; eauto. }
    destruct (Nat.eq_dec i j) as [->|Ne].
    - rewrite Hj in He. injection He as He _. rewrite He in Hp. rewrite <- (app_nil_r p1) in Hp at 1. apply app_inv_head in Hp. congruence.
    - destruct (Ap _ _ _ _ _ _ He Hj Ne) as [K _]. apply K. exists p2. congruence. }
  rewrite find_module_at by (auto using good_att). rewrite mod_at_att.
  2:{ intros p1 p2 -> Hne. apply (NoE p1 (p2 ++ [n])); [rewrite app_assoc; reflexivity|destruct p2; discriminate]. }
  cbn [app]. assert (Split : forall l (mm : emod), mod_at mm (l ++ [n]) = match mod_at mm l with Some d => dget (ekids d) n | None => None end).
  { induction l as [|a l IHl]; intro mm; cbn [mod_at app]; [destruct (dget (ekids mm) n); reflexivity|]. destruct (dget (ekids mm) a); auto. }
  rewrite Split in N3. destruct (mod_at m p0) as [[k kids]|]; [|congruence]. cbn [option_map ekids] in *. rewrite att_eq.
  pose proof (NoE p0 [n] eq_refl ltac:(discriminate)) as L0. cbn [app] in L0. rewrite L0. cbn [ekids]. rewrite dget_att_kids. destruct (dget kids n) as [[k1 kids1]|]; [|congruence]. cbn [option_map].
  rewrite att_eq. apply EE_lookup in Hj. rewrite Hj. eexists. split; reflexivity.
Qed.

(** cached outputs *)
Definition outputs_in (tr : list (path * T)) (p : path) : list T := map snd (filter (fun qv => if path_dec (fst qv) p then true else false) tr).
Definition expected (vs : list T) (b : emod) : option T := match last_opt vs with Some v => match run b v with Ok (w, _) => Some w | Raise _ => None end | None => None end.
Lemma last_opt_app {A} (l : list A) x : last_opt (l ++ [x]) = Some x.
Proof. unfold last_opt. rewrite rev_app_distr. reflexivity. Qed.
Lemma outputs_in_app a b p : outputs_in (a ++ b) p = outputs_in a p ++ outputs_in b p.
Proof. unfold outputs_in. rewrite filter_app, map_app. reflexivity. Qed.
Lemma cached tr : fine T EE tr -> forall o j p b, nth_error exits j = Some (p, b) ->
  fold_left (fun o iy => set_out o (fst iy) (Some (snd iy))) (flat_map (ev T EE) tr) o j = match last_opt (outputs_in tr p) with Some v => match run b v with Ok (w, _) => Some w | Raise _ => None end | None => o j end.
Proof.
  intros F o j p b Hj. destruct P as (_ & _ & Ok1 & _). rewrite Forall_forall in Ok1. induction tr as [|[q v] tr IH] using rev_ind; [reflexivity|]. apply fine_app in F. destruct F as [F0 F1].
  rewrite flat_map_app, fold_left_app, outputs_in_app. cbn [flat_map]. rewrite app_nil_r. set (o1 := fold_left _ _ o) in *. unfold ev at 1. cbn [fst snd].
  destruct (lookup T EE q) as [[i c]|] eqn:L.
  - destruct (F1 q v i c (or_introl eq_refl) L) as ([w e] & R). rewrite R. apply EE_lookup in L. pose proof (nth_error_In _ _ L) as Hin. destruct (Ok1 _ Hin) as (_ & _ & _ & Pc & _). cbn [snd] in Pc.
    destruct (run_plain T c [] v w e Pc R) as [-> _]. cbn [app fold_left fst snd]. unfold set_out. destruct (Nat.eqb_spec j i) as [->|Ne].
    + rewrite Hj in L. injection L as <- <-. unfold outputs_in at 2. cbn [filter fst]. destruct (path_dec p p); [|congruence]. cbn [map snd]. rewrite last_opt_app, R. reflexivity.
    + unfold outputs_in at 2. cbn [filter fst]. destruct (path_dec q p) as [->|]; [|cbn [map]; rewrite app_nil_r; apply IH; auto]. exfalso. apply EE_lookup in L. apply EE_lookup in Hj. congruence.
  - cbn [fold_left]. unfold outputs_in at 2. cbn [filter fst]. destruct (path_dec q p) as [->|]; [|cbn [map]; rewrite app_nil_r; apply IH; auto]. exfalso. apply EE_lookup in Hj. congruence.
Qed.

Lemma set_outs_here s o : here s -> here (set_outs s o).
Proof. intros [A B]. split; auto. Qed.
Lemma delete_here s : here s -> exists s', delete_exits_outputs s = Ok s' /\ here s' /\ forall j, j < length exits -> s_outs s' j = None.
Proof.
  intro H. unfold delete_exits_outputs. pose proof H as [Hp _]. rewrite Hp.
  assert (L : forall l s0, here s0 -> (forall e, In e l -> In e exits) ->
    exists s', foldM (fun s n => do c <- get_branch (s_model s) n; Ok (match ekd c with KBranch i => set_outs s (set_out (s_outs s) i None) | _ => s end)) (map fst (def l)) s0 = Ok s' /\ here s' /\
      (forall j, s_outs s0 j = None -> s_outs s' j = None) /\ forall j e, nth_error exits j = Some e -> In e l -> s_outs s' j = None).
  { induction l as [|[p b] l IH]; intros s0 H0 I; cbn [def map fst foldM].
    - exists s0. repeat split; auto; try apply H0. intros j e _ [].
    - assert (Hin : In (p, b) exits) by (apply I; left; auto). apply In_nth_error in Hin. destruct Hin as (j & Hj). destruct (get_branch_here s0 j p b H0 Hj) as (c & -> & Kc). cbn [bind]. rewrite Kc.
      destruct (IH (set_outs s0 (set_out (s_outs s0) j None)) (set_outs_here _ _ H0)) as (s' & A & B & C & D); [intros; apply I; right; auto|]. exists s'. split; [exact A|]. split; [exact B|]. cbn [set_outs s_outs] in C. split.
      + intros i Hi. apply C. unfold set_out. destruct (Nat.eqb i j); auto.
      + intros i e Hi [<-|Hl]; [|eapply D; eauto]. assert (i = j). { apply EE_lookup in Hi. apply EE_lookup in Hj. congruence. } subst i. apply C. unfold set_out. rewrite Nat.eqb_refl. reflexivity. }
  destruct (L exits s H ltac:(auto)) as (s' & A & B & _ & D). exists s'. split; [exact A|]. split; [exact B|]. intros j Hj. destruct (nth_error exits j) as [e|] eqn:E; [|apply nth_error_None in E; lia]. eapply D; eauto. eapply nth_error_In; eauto.
Qed.
Lemma outputs_at_snoc p xs x : outputs_at m p (xs ++ [x]) = outputs_at m p xs ++ match trace [] m x with Ok (_, tr) => outputs_in tr p | Raise _ => [] end.
Proof. unfold outputs_at. rewrite flat_map_app. cbn [flat_map]. rewrite app_nil_r. reflexivity. Qed.
Definition inv (s : sys) (xs : list T) : Prop := here s /\ (forall j p b, nth_error exits j = Some (p, b) -> s_outs s j = expected (outputs_at m p xs) b) /\
  forall j p b v, nth_error exits j = Some (p, b) -> In v (outputs_at m p xs) -> exists w, run b v = Ok (w, []).
Lemma forward_inv s xs x s' y : inv s xs -> forward s x = Ok (s', y) -> inv s' (xs ++ [x]) /\ exists tr, trace [] m x = Ok (y, tr).
Proof.
  intros (H & O & Fi) Hf. unfold forward in Hf. destruct (run (s_model s) x) as [[y0 e]|] eqn:R; [|discriminate]. cbn [bind fst snd] in Hf. injection Hf as <- <-. pose proof H as [_ Hm]. rewrite Hm in R.
  destruct P as (Pm & _ & Ok1 & _). destruct (att_run T EE m Pm [] x y0 e R) as (tr & Tr & F). pose proof (run_att T EE m Pm [] x y0 tr Tr F) as R2. rewrite R in R2. injection R2 as ->.
  split; [|eauto]. split; [apply set_outs_here; auto|]. split.
  - intros j p b Hj. cbn [set_outs s_outs]. rewrite (cached tr F _ j p b Hj). rewrite outputs_at_snoc, Tr. unfold expected.
    destruct (outputs_in tr p) as [|v0 l] eqn:Eo using rev_ind.
    + cbn. rewrite app_nil_r. apply O. exact Hj.
    + rewrite app_assoc, !last_opt_app. reflexivity.
  - intros j p b v Hj Hv. rewrite outputs_at_snoc, Tr in Hv. apply in_app_iff in Hv. destruct Hv as [Hv|Hv]; [eapply Fi; eauto|]. unfold outputs_in in Hv. apply in_map_iff in Hv. destruct Hv as ([q v'] & Ev & Hq). cbn [snd] in Ev. subst v'.
    apply filter_In in Hq. destruct Hq as [Hq Hd]. cbn [fst] in Hd. destruct (path_dec q p) as [->|]; [|discriminate]. destruct (F p v j b Hq) as ([w e] & Rb); [apply EE_lookup; exact Hj|].
    rewrite Forall_forall in Ok1. destruct (Ok1 _ (nth_error_In _ _ Hj)) as (_ & _ & _ & Pb & _). destruct (run_plain T b [] v w e Pb Rb) as [-> _]. eauto.
Qed.
Lemma history_inv ops : forall s xs s', inv s xs -> history s ops = Ok s' -> inv s' (since ops xs).
Proof.
  induction ops as [|o ops IH]; intros s xs s' I H; cbn in H; [injection H as <-; exact I|]. destruct (do_op s o) as [s1|] eqn:D; [|discriminate]. cbn [bind] in H. fold (history s1 ops) in H. destruct o as [|x]; cbn [since].
  - apply (IH s1 []); auto. destruct I as (Hh & _). destruct (delete_here s Hh) as (s2 & D2 & H2 & N2). cbn [do_op] in D. rewrite D2 in D. injection D as <-. split; [exact H2|]. split.
    + intros j p b Hj. apply N2. apply nth_error_Some. congruence.
    + intros j p b v _ [].
  - cbn [do_op] in D. destruct (forward s x) as [[s2 y]|] eqn:Fw; [|discriminate]. cbn [bind fst] in D. injection D as <-. apply (IH s2); auto. eapply forward_inv; eauto.
Qed.
Lemma start_inv s : attach_exits (fresh m) (def exits) = (s, None) -> inv s [].
Proof.
  intro H. destruct attached as (outs & A & O). rewrite A in H. injection H as <-. split; [split; reflexivity|]. split; [intros; apply O|]. intros j p b v _ [].
Qed.
Lemma get_spec s xs : inv s xs -> forall l acc, (forall e, In e l -> In e exits) ->
  foldM (fun acc n => do c <- get_branch (s_model s) n; match ekd c with KBranch i => match s_outs s i with Some y => Ok (acc ++ [y]) | None => Raise AssertionError end | _ => Raise AttributeError end) (map fst (def l)) acc =
  match foldM (fun acc e => match expected (outputs_at m (fst e) xs) (snd e) with Some y => Ok (acc ++ [y]) | None => Raise AssertionError end) l acc with Ok r => Ok r | Raise e => Raise e end.
Proof.
  intros (H & O & _). induction l as [|[p b] l IH]; intros acc I; cbn [def map fst foldM snd]; [reflexivity|]. assert (Hin : In (p, b) exits) by (apply I; left; auto). apply In_nth_error in Hin. destruct Hin as (j & Hj).
  destruct (get_branch_here s j p b H Hj) as (c & -> & Kc). cbn [bind]. rewrite Kc, (O j p b Hj). destruct (expected (outputs_at m p xs) b); cbn [bind]; [|reflexivity]. apply IH. intros; apply I; right; auto.
Qed.
End Attached.

(** Exits are attached if they name modules none of which is inside another. *)
Theorem C99_attach : forall m exits, proper m exits -> exists s, attach_exits (fresh m) (def exits) = (s, None).
Proof. intros m exits P. destruct (attached m exits P) as (outs & A & _). eauto. Qed.

(** The model still computes what it computed. *)
Theorem C99_same_function : forall m exits s, proper m exits -> attach_exits (fresh m) (def exits) = (s, None) ->
  (forall x y e, run (s_model s) x = Ok (y, e) -> exists e', run m x = Ok (y, e')) /\
  (forall x y e, run m x = Ok (y, e) -> (forall p b v, In (p, b) exits -> exists r, run b v = Ok r) -> exists e', run (s_model s) x = Ok (y, e')).
Proof.
  intros m exits s P A. destruct (start_inv m exits P s A) as ([_ Hm] & _). rewrite Hm. pose proof P as (Pm & _). split.
  - intros x y e R. destruct (att_run T (EE exits) m Pm [] x y e R) as (tr & Tr & _). exists []. eapply plain_run; eauto.
  - intros x y e R Tot. destruct (run_plain T m [] x y e Pm R) as [_ (tr & Tr)]. exists (flat_map (ev T (EE exits)) tr). apply run_att; auto.
    intros q v i b _ L. apply (EE_lookup m exits P) in L. apply (Tot q). eapply nth_error_In; eauto.
Qed.

(** After any history of forward passes and deletions, the outputs collected are, in the order of the exits, those of the
    branches on the last output of their modules since the last deletion; if one of the modules has not been called since,
    collecting fails. *)
Theorem C99_outputs : forall m exits s ops s', proper m exits -> attach_exits (fresh m) (def exits) = (s, None) -> history s ops = Ok s' ->
  (forall ys, get_exits_outputs s' = Ok ys <->
     Forall2 (fun e y => exists v, last_opt (outputs_at m (fst e) (since ops [])) = Some v /\ run (snd e) v = Ok (y, [])) exits ys) /\
  ((exists e, In e exits /\ outputs_at m (fst e) (since ops []) = []) -> get_exits_outputs s' = Raise AssertionError).
Proof.
  intros m exits s ops s' P A H. pose proof (history_inv m exits P ops s [] s' (start_inv m exits P s A) H) as I. set (xs := since ops []) in *.
  assert (G : get_exits_outputs s' = match foldM (fun acc e => match expected (outputs_at m (fst e) xs) (snd e) with Some y => Ok (acc ++ [y]) | None => Raise AssertionError end) exits [] with Ok r => Ok r | Raise e => Raise e end).
  { unfold get_exits_outputs. pose proof I as ([Hp _] & _). rewrite Hp. apply (get_spec m exits P s' xs I); auto. }
  rewrite G. destruct I as (_ & _ & Fi). split.
  - assert (L : forall l acc ys, (forall e, In e l -> In e exits) ->
      (foldM (fun acc e => match expected (outputs_at m (fst e) xs) (snd e) with Some y => Ok (acc ++ [y]) | None => Raise AssertionError end) l acc = Ok ys <->
       exists zs, ys = acc ++ zs /\ Forall2 (fun e y => exists v, last_opt (outputs_at m (fst e) xs) = Some v /\ run (snd e) v = Ok (y, [])) l zs)).
    { induction l as [|[p b] l IH]; intros acc ys Hl; cbn [foldM fst snd].
      - split; [intro K; injection K as <-; exists []; rewrite app_nil_r; auto|]. intros (zs & -> & F2). inversion F2; subst. rewrite app_nil_r. reflexivity.
      - assert (Hin : In (p, b) exits) by (apply Hl; left; auto). apply In_nth_error in Hin. destruct Hin as (j & Hj).
        assert (Ex : forall v, last_opt (outputs_at m p xs) = Some v -> exists w, run b v = Ok (w, [])).
        { intros v Hv. apply (Fi j p b v Hj). unfold last_opt in Hv. destruct (rev (outputs_at m p xs)) as [|z r] eqn:Er; [discriminate|]. injection Hv as <-. apply in_rev. rewrite Er. left; auto. }
        unfold expected. destruct (last_opt (outputs_at m p xs)) as [v|] eqn:Lv; cbn [bind].
        + destruct (Ex v eq_refl) as (w & Rw). rewrite Rw. cbn [bind]. rewrite IH by (intros; apply Hl; right; auto). split.
          * intros (zs & -> & F2). exists (w :: zs). rewrite <- app_assoc. split; [reflexivity|]. constructor; auto. cbn [fst snd]. eauto.
          * intros (zs & -> & F2). inversion F2 as [|? z ? zs' (v' & Ev & Rz) F3]; subst. cbn [fst snd] in *. rewrite Lv in Ev. injection Ev as <-. rewrite Rw in Rz. injection Rz as <-. exists zs'. rewrite <- app_assoc. auto.
        + split; [discriminate|]. intros (zs & _ & F2). inversion F2 as [|? z ? zs' (v' & Ev & Rz) F3]; subst. cbn [fst] in Ev. congruence. }
    intro ys. specialize (L exits [] ys ltac:(auto)). cbn [app] in L. destruct (foldM _ exits []) as [r|ex].
    + rewrite L. split; [intros (zs & -> & F2); exact F2|intro F2; exists ys; auto].
    + split; [discriminate|]. intro F2. exfalso. assert (K : Raise ex = Ok ys) by (apply L; exists ys; auto). discriminate.
  - intros (e & He & En). assert (L : forall l acc, In e l -> foldM (fun acc e => match expected (outputs_at m (fst e) xs) (snd e) with Some y => Ok (acc ++ [y]) | None => Raise AssertionError end) l acc = Raise AssertionError).
    { induction l as [|a l IH]; intros acc Hl; [destruct Hl|destruct Hl as [->|Hl]]; cbn [foldM].
      - unfold expected. rewrite En. reflexivity.
      - destruct (expected _ _); cbn [bind]; [apply IH; auto|reflexivity]. }
    rewrite L by exact He. reflexivity.
Qed.

(** The forward function of the early-exit models, after any history: the outputs of all exits for this input, then the result;
    nothing is left from earlier passes. *)
Theorem C99_forward : forall m exits s ops s' x s'' ys, proper m exits -> attach_exits (fresh m) (def exits) = (s, None) -> history s ops = Ok s' ->
  ee_forward s' x = Ok (s'', ys) ->
  exists y zs, ys = zs ++ [y] /\ run m x = Ok (y, []) /\
    Forall2 (fun e z => exists v, last_opt (outputs_at m (fst e) [x]) = Some v /\ run (snd e) v = Ok (z, [])) exits zs.
Proof.
  intros m exits s ops s' x s'' ys P A H E. unfold ee_forward in E. destruct (delete_exits_outputs s') as [s1|] eqn:D; [|discriminate]. cbn [bind] in E.
  destruct (forward s1 x) as [[s2 y]|] eqn:F; [|discriminate]. cbn [bind fst snd] in E. destruct (get_exits_outputs s2) as [zs|] eqn:Gz; [|discriminate]. cbn [bind] in E. injection E as <- <-.
  assert (H2 : history s (ops ++ [ODelete; OForward x]) = Ok s2).
  { unfold history in *. clear - H D F. revert s H. induction ops as [|o ops IH]; intros s H; cbn [app foldM] in *.
    - injection H as ->. cbn [do_op]. rewrite D. cbn [bind]. rewrite F. reflexivity.
    - destruct (do_op s o); [|discriminate]. cbn [bind] in *. auto. }
  assert (Si : forall ops acc, since (ops ++ [ODelete; OForward x]) acc = [x]) by (clear; induction ops as [|[|z] ops IH]; intro acc; cbn [app since]; auto).
  destruct (C99_outputs m exits s _ s2 P A H2) as [O _]. rewrite Si in O. exists y, zs. split; [reflexivity|]. split; [|apply O; exact Gz].
  pose proof (history_inv m exits P ops s [] s' (start_inv m exits P s A) H) as I.
  assert (I1 : inv m exits s1 []).
  { apply (history_inv m exits P [ODelete] s' (since ops []) s1 I). cbn. rewrite D. reflexivity. }
  destruct (forward_inv m exits P s1 [] x s2 y I1 F) as [_ (tr & Tr)]. eapply plain_run; eauto. apply P.
Qed.
(** it fails only if the model or a branch fails, or an exit module is not called *)
Theorem C99_forward_succeeds : forall m exits s ops s' x y e, proper m exits -> attach_exits (fresh m) (def exits) = (s, None) -> history s ops = Ok s' ->
  run m x = Ok (y, e) -> (forall p b v, In (p, b) exits -> exists r, run b v = Ok r) -> (forall p b, In (p, b) exits -> outputs_at m p [x] <> []) ->
  exists r, ee_forward s' x = Ok r.
Proof.
  intros m exits s ops s' x y e P A H R Tot Called. unfold ee_forward.
  pose proof (history_inv m exits P ops s [] s' (start_inv m exits P s A) H) as I. destruct (delete_here m exits P s') as (s1 & D & H1 & _); [apply I|]. rewrite D. cbn [bind].
  assert (I1 : inv m exits s1 []) by (apply (history_inv m exits P [ODelete] s' (since ops []) s1 I); cbn; rewrite D; reflexivity).
  assert (Fw : exists s2 y2, forward s1 x = Ok (s2, y2)).
  { unfold forward. destruct H1 as [_ Hm]. rewrite Hm. pose proof P as (Pm & _). destruct (run_plain T m [] x y e Pm R) as [_ (tr & Tr)].
    rewrite (run_att T (EE exits) m Pm [] x y tr Tr); [cbn [bind fst snd]; eauto|]. intros q v i b _ L. apply (EE_lookup m exits P) in L. apply (Tot q). eapply nth_error_In; eauto. }
  destruct Fw as (s2 & y2 & F). rewrite F. cbn [bind fst snd]. destruct (forward_inv m exits P s1 [] x s2 y2 I1 F) as [I2 _]. cbn [app] in I2.
  unfold get_exits_outputs. pose proof I2 as ([Hp _] & _ & Fi). rewrite Hp, (get_spec m exits P s2 [x] I2) by auto.
  assert (L : forall l acc, (forall e, In e l -> In e exits) -> exists r, foldM (fun acc e => match expected (outputs_at m (fst e) [x]) (snd e) with Some y => Ok (acc ++ [y]) | None => Raise AssertionError end) l acc = Ok r).
  { induction l as [|[p b] l IH]; intros acc Hl; cbn [foldM fst snd]; [eauto|]. assert (Hin : In (p, b) exits) by (apply Hl; left; auto). pose proof (Called p b Hin) as Ne. apply In_nth_error in Hin. destruct Hin as (j & Hj).
    unfold expected, last_opt. destruct (rev (outputs_at m p [x])) as [|v r] eqn:Er.
    - exfalso. apply Ne. rewrite <- (rev_involutive (outputs_at m p [x])), Er. reflexivity.
    - destruct (Fi j p b v Hj) as (w & ->); [apply in_rev; rewrite Er; left; auto|]. cbn [bind]. apply IH. intros; apply Hl; right; auto. }
  destruct (L exits [] ltac:(auto)) as (r & ->). cbn [bind]. eauto.
Qed.

(** ** Failures and findings *)
(** An exit that names nothing is refused; the exits before it stay attached, and the name is remembered all the same. *)
Theorem C99_unknown : forall m p b, good m -> Forall good_name p -> mod_at m p = None ->
  exists s, attach_exits (fresh m) [(join_dot p, b)] = (s, Some AssertionError) /\ s_model s = m /\ s_points s = [join_dot p].
Proof. intros m p b G Gp N. cbn [attach_exits]. unfold attach_one. cbn [add_point fresh s_model s_points]. rewrite find_module_at by auto. rewrite N. eexists. split; [reflexivity|]. auto. Qed.

(** An exit inside another cannot be used, whichever is attached first: after the outer one the inner one is not found, and the
    other way round attaching works but collecting and deleting outputs fail. *)
Theorem C99_nested_refuted : forall m p n b1 b2, plain m -> good m -> good b1 -> good b2 -> p <> [] -> Forall good_name (p ++ [n]) -> mod_at m (p ++ [n]) <> None ->
  n <> "branched_module" -> n <> "branch_net" ->
  snd (attach_exits (fresh m) [(join_dot p, b1); (join_dot (p ++ [n]), b2)]) = Some AssertionError /\
  exists s, attach_exits (fresh m) [(join_dot (p ++ [n]), b2); (join_dot p, b1)] = (s, None) /\
    get_exits_outputs s = Raise AttributeError /\ delete_exits_outputs s = Raise AttributeError.
Proof.
  intros m p n b1 b2 Pm G G1 G2 Np Gp Hm N1 N2. pose proof Gp as Gp'. apply Forall_app in Gp'. destruct Gp' as [Gpp Gn].
  assert (Split : forall l (mm : emod), mod_at mm (l ++ [n]) = match mod_at mm l with Some d => dget (ekids d) n | None => None end).
  { induction l as [|a l IHl]; intro mm; cbn [mod_at app]; [destruct (dget (ekids mm) n); reflexivity|]. destruct (dget (ekids mm) a); auto. }
  assert (Hp : mod_at m p <> None) by (rewrite Split in Hm; destruct (mod_at m p); congruence).
  assert (At : forall E, (forall p1 p2, p = p1 ++ p2 -> p2 <> [] -> lookup T E p1 = None) -> forall i b, lookup T E p = Some (i, b) -> exists c, mod_at (att T E [] m) p = Some (branch_point i c b)).
  { intros E NoE i b L. rewrite mod_at_att by exact NoE. destruct (mod_at m p) as [[k kids]|]; [|congruence]. cbn [option_map app]. rewrite att_eq, L. eauto. }
  split.
  - destruct (attach_lemma m G [(p, b1)] [] (fresh m)) as (outs & A & _).
    { cbn. rewrite att_nil. reflexivity. } { intros e []. } { constructor; [|constructor]. cbn. auto. } { intros e x []. } { repeat constructor. }
    cbn [def map fst snd] in A. change [(join_dot p, b1); (join_dot (p ++ [n]), b2)] with ([(join_dot p, b1)] ++ [(join_dot (p ++ [n]), b2)]).
    assert (App : forall l1 l2 s0 s1, attach_exits s0 l1 = (s1, None) -> attach_exits (T := T) s0 (l1 ++ l2) = attach_exits s1 l2).
    { clear. induction l1 as [|[a b] l1 IH]; intros l2 s0 s1 H; cbn [app attach_exits] in *; [congruence|]. destruct (attach_one s0 a b) as [s2 [e|]]; [discriminate|auto]. }
    rewrite (App _ _ _ _ A). cbn [attach_exits]. unfold attach_one. cbn [add_point s_model]. rewrite find_module_at; [|exact Gp|].
    2:{ apply good_att; auto. intros e He. cbn in He. destruct He as [<-|[]]. exact G1. }
    rewrite Split. destruct (At (rev (number (s_next (fresh m)) [(p, b1)]) ++ [])) with (i := 0) (b := b1) as (c & ->).
    { intros p1 p2 -> Ne. apply lookup_none. intros e He. cbn in He. destruct He as [<-|[]]. cbn [fst]. intro K. apply (f_equal (@length _)) in K. rewrite app_length in K. destruct p2; [congruence|]. cbn in K. lia. }
    { cbn [number rev app fst snd s_next fresh]. rewrite lookup_cons. cbn [fst snd]. destruct (path_dec p p); [reflexivity|congruence]. }
    cbn [branch_point ekids dget]. destruct (String.eqb_spec n "branched_module"); [congruence|]. destruct (String.eqb_spec n "branch_net"); [congruence|]. reflexivity.
  - destruct (attach_lemma m G [(p ++ [n], b2); (p, b1)] [] (fresh m)) as (outs & A & _).
    { cbn. rewrite att_nil. reflexivity. } { intros e []. }
    { constructor; [|constructor; [|constructor]]; cbn [fst snd]; auto. split; [destruct p; discriminate|]. auto. }
    { intros e x []. } { constructor; [|repeat constructor]. constructor; [|constructor]. cbn [fst]. intros (r & K). apply (f_equal (@length _)) in K. rewrite !app_length in K. cbn in K. lia. }
    cbn [def map fst snd] in A. eexists. split; [exact A|]. cbn [s_points fresh app s_next] in *.
    set (E := rev (number 0 [(p ++ [n], b2); (p, b1)]) ++ []) in *.
    assert (Lp : lookup T E p = Some (1, b1)). { unfold E. cbn [number rev app fst snd]. rewrite lookup_cons. cbn [fst snd]. destruct (path_dec p p); [reflexivity|congruence]. }
    assert (NoE : forall p1 p2, p = p1 ++ p2 -> p2 <> [] -> lookup T E p1 = None).
    { intros p1 p2 -> Ne. apply lookup_none. intros e He. unfold E in He. cbn in He. destruct p2 as [|z p2]; [congruence|]. destruct He as [<-|[<-|[]]]; cbn [fst]; intro K; apply (f_equal (@length _)) in K; rewrite ?app_length in K; cbn in K; lia. }
    assert (Gb : get_branch (att T E [] m) (join_dot (p ++ [n])) = Raise AttributeError).
    { unfold get_branch, split_module_name. rewrite split_join; [|destruct p; discriminate|eapply Forall_impl; [|exact Gp]; intros a [_ Ha]; exact Ha]. rewrite removelast_last, last_last.
      rewrite find_module_at; [|exact Gpp|]. 2:{ apply good_att; auto. intros e He. unfold E in He. cbn in He. destruct He as [<-|[<-|[]]]; auto. }
      destruct (At E NoE 1 b1 Lp) as (c & ->). cbn [branch_point ekids dget ekd]. destruct (String.eqb_spec n "branched_module"); [congruence|]. destruct (String.eqb_spec n "branch_net"); [congruence|]. reflexivity. }
    split; unfold get_exits_outputs, delete_exits_outputs; cbn [s_points s_model foldM map]; rewrite Gb; reflexivity.
Qed.

End Ee.

(** ** Examples and concrete findings *)
Definition add1 := EMod (T := nat) (KLeaf (fun x => Ok (S x))) [].
Definition dbl := EMod (T := nat) (KLeaf (fun x => Ok (2 * x))) [].
Definition block := EMod (T := nat) (KNode [("conv", 0); ("relu", 1); ("conv", 2)]) [("conv", dbl); ("relu", add1)].
Definition net := EMod (T := nat) (KNode [("layer1", 0); ("layer2", 1); ("fc", 2)]) [("layer1", block); ("layer2", block); ("fc", add1)].
Definition exits := [(["layer1"; "relu"], dbl); (["layer2"], add1); (["layer1"; "conv"], add1)].
Lemma net_plain : plain net.
Proof. unfold net, block, add1, dbl. repeat (constructor; [discriminate|]; cbn [In]; intros ? ? K; repeat (destruct K as [K|K]; [injection K as <- <-|]); try destruct K); constructor; try discriminate; intros ? ? []. Qed.
Lemma net_good : good net.
Proof.
  unfold net, block, add1, dbl.
  repeat (constructor; [repeat constructor; discriminate|repeat constructor; cbn; intuition discriminate|]; cbn [In]; intros ? ? K; repeat (destruct K as [K|K]; [injection K as <- <-|]); try destruct K).
Qed.
Lemma leaf_plain f : plain (T := nat) (EMod (KLeaf f) []).
Proof. constructor; [discriminate|intros ? ? []]. Qed.
Lemma leaf_good f : good (T := nat) (EMod (KLeaf f) []).
Proof. constructor; [constructor|constructor|intros ? ? []]. Qed.
Example C99_run : proper nat net exits /\ exists s, attach_exits (fresh nat net) (def nat exits) = (s, None) /\
  run net 5 = Ok (91, []) /\
  exists s', ee_forward s 5 = Ok (s', [22; 91; 23; 91]) /\
  exists s'', ee_forward s' 0 = Ok (s'', [2; 11; 3; 11]) /\ get_exits_outputs s' = Ok [22; 91; 23].
Proof.
  split.
  - split; [apply net_plain|]. split; [apply net_good|]. split.
    + repeat constructor; try discriminate; try (apply leaf_plain); try (apply leaf_good); try (intros ? ? []).
    + repeat constructor; cbn [fst]; intros (r & K); discriminate.
  - eexists. split; [vm_compute; reflexivity|]. split; [reflexivity|]. eexists. split; [vm_compute; reflexivity|]. eexists. split; vm_compute; reflexivity.
Qed.
(** Two exits at the same module: the output of the second branch is collected twice, that of the first is lost. *)
Theorem C99_same_exit_refuted : exists s s', attach_exits (fresh nat net) [("layer1.relu", dbl); ("layer1.relu", add1)] = (s, None) /\
  ee_forward s 5 = Ok (s', [12; 12; 91]) /\ run dbl 11 = Ok (22, []).
Proof. eexists. eexists. split; [vm_compute; reflexivity|]. split; [vm_compute; reflexivity|reflexivity]. Qed.
(** After the model has been put into DataParallel, exits at its own children are found, those deeper inside are not. *)
Definition wrap (s : sys nat) : sys nat := mkSys (s_points s) (EMod KDp [("module", s_model s)]) (s_outs s) (s_next s).
Theorem C99_data_parallel_refuted :
  (exists s s', attach_exits (fresh nat net) [("layer2", add1)] = (s, None) /\ ee_forward (wrap s) 5 = Ok (s', [91; 91])) /\
  (exists s, attach_exits (fresh nat net) [("layer1.relu", add1)] = (s, None) /\ get_exits_outputs (wrap s) = Raise AttributeError /\ ee_forward (wrap s) 5 = Raise AttributeError).
Proof. split; [eexists; eexists; split; vm_compute; reflexivity|]. eexists. split; [vm_compute; reflexivity|]. split; vm_compute; reflexivity. Qed.

Print Assumptions C99_attach.
Print Assumptions C99_same_function.
Print Assumptions C99_outputs.
Print Assumptions C99_forward.
Print Assumptions C99_forward_succeeds.
Print Assumptions C99_unknown.
Print Assumptions C99_nested_refuted.
Print Assumptions C99_same_exit_refuted.
Print Assumptions C99_data_parallel_refuted.
