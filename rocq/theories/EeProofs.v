(** Proofs about early exits. *)
From Coq Require Import String List Bool Arith Lia.
From Verif Require Import Base Lists Names QzrModel QzrSpec QzrProofs EeModel EeSpec.
Import ListNotations.
Local Open Scope string_scope.
Open Scope list_scope.

Section Proofs.
Variable T : Type.
Notation emod := (emod T).

Lemma emod_ind' (P : emod -> Prop) : (forall k kids, Forall (fun nc => P (snd nc)) kids -> P (EMod k kids)) -> forall m, P m.
Proof.
  intro H. fix IH 1. intros [k kids]. apply H. induction kids as [|nc kids IHk]; constructor; [apply IH|exact IHk].
Qed.
Lemma good_kid k kids n c : good (EMod k kids) -> In (n, c) kids -> good (T := T) c.
Proof. intros H I. inversion H; subst. eauto. Qed.
Lemma plain_kid k kids n c : plain (EMod k kids) -> In (n, c) kids -> plain (T := T) c.
Proof. intros H I. inversion H; subst. eauto. Qed.

(** ** Names *)
Definition go_named (prefix : string) := fix go (l : list (string * emod)) := match l with [] => [] | (n, c) :: l => named_modules (sub_name prefix n) c ++ go l end.
Lemma named_eq prefix k kids : named_modules prefix (EMod k kids) = (prefix, EMod k kids) :: go_named prefix kids.
Proof. reflexivity. Qed.
Lemma named_names m : forall q, Forall good_name q -> good m -> forall n c, In (n, c) (named_modules (T := T) (join_dot q) m) -> exists r, Forall good_name r /\ n = join_dot (q ++ r).
Proof.
  induction m as [k kids IH] using emod_ind'. intros q Gq G n c H. rewrite named_eq in H. destruct H as [H|H].
  - injection H as <- _. exists []. rewrite app_nil_r. auto.
  - inversion G as [? ? Gn Nd Gk]; subst. assert (L : forall l, incl l kids -> In (n, c) (go_named (join_dot q) l) -> exists r, Forall good_name r /\ n = join_dot (q ++ r)).
    { induction l as [|[n' c'] l IHl]; intros I J; [destruct J|]. cbn [go_named] in J. apply in_app_iff in J. assert (I' : In (n', c') kids) by (apply I; left; auto).
      assert (Gn' : good_name n') by (rewrite Forall_forall in Gn; apply Gn; apply (in_map fst) in I'; exact I'). destruct J as [J|J].
      - rewrite sub_name_join in J by auto. rewrite Forall_forall in IH. destruct (IH _ I' (q ++ [n']) ltac:(apply Forall_app; auto) (Gk _ _ I') n c J) as (r & Gr & ->).
        exists (n' :: r). split; [constructor; auto|]. rewrite <- app_assoc. reflexivity.
      - apply IHl; auto. intros z Hz; apply I; right; auto. }
    apply (L kids); auto. intros z Hz; auto.
Qed.
Lemma find_app {A} (f : A -> bool) l m : find f (l ++ m) = match find f l with Some x => Some x | None => find f m end.
Proof. induction l as [|x l IH]; cbn [app find]; auto. destruct (f x); auto. Qed.
Lemma find_none_all {A} (f : A -> bool) l : (forall x, In x l -> f x = false) -> find f l = None.
Proof. induction l as [|x l IH]; intro H; cbn [find]; auto. rewrite (H x) by (left; auto). apply IH. intros; apply H; right; auto. Qed.
Lemma find_named m : forall q p, Forall good_name q -> Forall good_name p -> good m ->
  find (fun nm => String.eqb (fst nm) (join_dot (q ++ p))) (named_modules (T := T) (join_dot q) m) = option_map (pair (join_dot (q ++ p))) (mod_at m p).
Proof.
  induction m as [k kids IH] using emod_ind'. intros q p Gq Gp G. rewrite named_eq. cbn [find fst]. destruct p as [|n p].
  - rewrite app_nil_r, String.eqb_refl. reflexivity.
  - destruct (String.eqb_spec (join_dot q) (join_dot (q ++ n :: p))) as [E|_].
    { exfalso. apply join_inj_good in E; auto; [|apply Forall_app; auto]. apply (f_equal (@length _)) in E. rewrite app_length in E. cbn in E. lia. }
    inversion G as [? ? Gn Nd Gk]; subst. cbn [mod_at ekids]. clear G. revert Gn Nd Gk IH. induction kids as [|[n' c'] kids IHk]; intros Gn Nd Gk IH; [reflexivity|].
    cbn [go_named dget]. rewrite find_app. cbn [map fst] in Gn, Nd. inversion Gn as [|? ? Gn1 Gn2]; subst. inversion Nd as [|? ? Nd1 Nd2]; subst. inversion IH as [|? ? IH1 IH2]; subst. cbn [snd] in IH1.
    rewrite sub_name_join by auto. destruct (String.eqb_spec n n') as [<-|Ne].
    + assert (Hgo : find (fun nm => String.eqb (fst nm) (join_dot (q ++ n :: p))) (go_named (join_dot q) kids) = None).
      { apply find_none_all. intros [nm c] Hin. cbn [fst]. destruct (String.eqb_spec nm (join_dot (q ++ n :: p))) as [->|]; auto. exfalso. clear - Hin Gq Gp Gn2 Nd1 Gk.
        induction kids as [|[n2 c2] kids IHk]; [destruct Hin|]. cbn [go_named] in Hin. apply in_app_iff in Hin. cbn [map fst] in *. inversion Gn2; subst. destruct Hin as [Hin|Hin].
        - rewrite sub_name_join in Hin by auto. apply named_names in Hin; [|apply Forall_app; auto|eapply (Gk n2); right; left; reflexivity]. destruct Hin as (r & Gr & E).
          apply join_inj_good in E; [|apply Forall_app; auto|apply Forall_app; split; [apply Forall_app; auto|auto]]. rewrite <- app_assoc in E. apply app_inv_head in E. injection E as -> _. apply Nd1. left; auto.
        - apply IHk; auto.
          + intros n3 c3 [I|I]; [apply (Gk n3); left; auto|apply (Gk n3); right; right; auto].
          + intro K; apply Nd1; right; auto. }
      replace (q ++ n :: p) with ((q ++ [n]) ++ p) in * by (rewrite <- app_assoc; reflexivity). rewrite IH1; [|apply Forall_app; inversion Gp; auto|inversion Gp; auto|eapply Gk; left; reflexivity].
      destruct (mod_at c' p); cbn [option_map]; [reflexivity|exact Hgo].
    + rewrite find_none_all.
      2:{ intros [nm c] Hin. cbn [fst]. destruct (String.eqb_spec nm (join_dot (q ++ n :: p))) as [->|]; auto. exfalso.
          apply named_names in Hin; [|apply Forall_app; auto|eapply (Gk n'); left; reflexivity]. destruct Hin as (r & Gr & E).
          apply join_inj_good in E; [|apply Forall_app; auto|apply Forall_app; split; [apply Forall_app; auto|auto]]. rewrite <- app_assoc in E. apply app_inv_head in E. injection E as -> _. congruence. }
      apply IHk; auto. intros n3 c3 I; apply (Gk n3); right; auto.
Qed.
Lemma find_module_at m p : Forall good_name p -> good m -> find_module (T := T) m (join_dot p) = mod_at m p.
Proof.
  intros Gp G. unfold find_module. pose proof (find_named m [] p ltac:(constructor) Gp G) as H. cbn [app join_dot] in H. rewrite H. destruct (mod_at m p); reflexivity.
Qed.

(** ** The model with exits *)
Definition plist := list (path * (nat * emod)).
Definition lookup (E : plist) (p : path) : option (nat * emod) := option_map snd (find (fun e : path * (nat * emod) => if path_dec (fst e) p then true else false) E).
Lemma lookup_cons e E p : lookup (e :: E) p = if path_dec (fst e) p then Some (snd e) else lookup E p.
Proof. unfold lookup. cbn [find]. destruct (path_dec (fst e) p); reflexivity. Qed.
Lemma lookup_In E p x : lookup E p = Some x -> In (p, x) E.
Proof.
  induction E as [|[q y] E IH]; [discriminate|]. rewrite lookup_cons. cbn [fst snd]. destruct (path_dec q p); [intros K; injection K as ->; subst; left; auto|right; auto].
Qed.
Fixpoint att (E : plist) (q : path) (m : emod) {struct m} : emod :=
  match m with
  | EMod k kids =>
      let m' := EMod k ((fix go (l : list (string * emod)) := match l with [] => [] | (n, c) :: l => (n, att E (q ++ [n]) c) :: go l end) kids) in
      match lookup E q with Some (i, b) => branch_point i m' b | None => m' end
  end.
Definition att_kids (E : plist) (q : path) (kids : list (string * emod)) := map (fun nc => (fst nc, att E (q ++ [fst nc]) (snd nc))) kids.
Lemma att_eq E q k kids : att E q (EMod k kids) =
  match lookup E q with Some (i, b) => branch_point i (EMod k (att_kids E q kids)) b | None => EMod k (att_kids E q kids) end.
Proof.
  cbn [att]. assert (H : forall l, (fix go (l : list (string * emod)) := match l with [] => [] | (n, c) :: l => (n, att E (q ++ [n]) c) :: go l end) l = att_kids E q l)
    by (induction l as [|[n c] l IH]; [reflexivity|unfold att_kids; cbn [map fst snd]; rewrite IH; reflexivity]).
  rewrite H. reflexivity.
Qed.
Lemma dget_att_kids E q kids n : dget (att_kids E q kids) n = option_map (att E (q ++ [n])) (dget kids n).
Proof.
  unfold att_kids. induction kids as [|[n' c] kids IH]; [reflexivity|]. cbn [map dget fst snd]. destruct (String.eqb_spec n n') as [->|]; [reflexivity|exact IH].
Qed.
Lemma att_ext E E' m : forall q, (forall r, lookup E (q ++ r) = lookup E' (q ++ r)) -> att E q m = att E' q m.
Proof.
  induction m as [k kids IH] using emod_ind'. intros q H. rewrite !att_eq. pose proof (H []) as H0. rewrite app_nil_r in H0. rewrite <- H0.
  assert (K : att_kids E q kids = att_kids E' q kids).
  { unfold att_kids. apply map_ext_in. intros [n c] I. cbn [fst snd]. f_equal. rewrite Forall_forall in IH. apply (IH _ I). intro r. rewrite <- app_assoc. apply H. }
  rewrite K. reflexivity.
Qed.
Lemma att_nil m q : att [] q m = m.
Proof.
  revert q. induction m as [k kids IH] using emod_ind'. intro q. rewrite att_eq. cbn. f_equal. unfold att_kids. rewrite <- (map_id kids) at 2. apply map_ext_in. intros [n c] I. cbn [fst snd]. f_equal.
  rewrite Forall_forall in IH. apply (IH _ I).
Qed.
Lemma mod_at_att E p : forall q m, (forall p1 p2, p = p1 ++ p2 -> p2 <> [] -> lookup E (q ++ p1) = None) -> mod_at (att E q m) p = option_map (att E (q ++ p)) (mod_at m p).
Proof.
  induction p as [|n p IH]; intros q [k kids] H; [rewrite app_nil_r; reflexivity|]. rewrite att_eq. pose proof (H [] (n :: p) eq_refl ltac:(discriminate)) as H0. rewrite app_nil_r in H0. rewrite H0.
  cbn [mod_at ekids]. rewrite dget_att_kids. destruct (dget kids n) as [c|]; [|reflexivity]. cbn [option_map]. rewrite IH.
  - rewrite <- app_assoc. reflexivity.
  - intros p1 p2 -> N. rewrite <- app_assoc. apply (H (n :: p1) p2); auto.
Qed.
Lemma set_att E i b p : forall q m sub, good m -> mod_at m p = Some sub -> (forall p1 p2, p = p1 ++ p2 -> lookup E (q ++ p1) = None) ->
  set_module (att E q m) p (branch_point i (att E (q ++ p) sub) b) = att ((q ++ p, (i, b)) :: E) q m.
Proof.
  induction p as [|n p IH]; intros q [k kids] sub G Hs H.
  - cbn in Hs. injection Hs as <-. cbn [set_module]. rewrite app_nil_r. rewrite !att_eq, lookup_cons. cbn [fst snd]. destruct (path_dec q q); [|congruence].
    pose proof (H [] [] eq_refl) as H0. rewrite app_nil_r in H0. rewrite H0. do 2 f_equal.
    unfold att_kids. apply map_ext_in. intros [n c] I. cbn [fst snd]. f_equal. apply att_ext. intro r. rewrite lookup_cons. cbn [fst]. destruct (path_dec q ((q ++ [n]) ++ r)) as [K|]; auto.
    exfalso. apply (f_equal (@length _)) in K. rewrite !app_length in K. cbn in K. lia.
  - pose proof (H [] (n :: p) eq_refl) as H0. rewrite app_nil_r in H0. rewrite !att_eq, H0, lookup_cons. cbn [fst]. destruct (path_dec (q ++ n :: p) q) as [K|_].
    { exfalso. apply (f_equal (@length _)) in K. rewrite app_length in K. cbn in K. lia. }
    rewrite H0. cbn [set_module ekd ekids]. f_equal. unfold att_kids. rewrite map_map. apply map_ext_in. intros [n' c] I. cbn [fst snd]. f_equal.
    inversion G as [? ? Gn Nd Gk]; subst. cbn [mod_at ekids] in Hs. destruct (String.eqb_spec n n') as [<-|Ne].
    + rewrite (In_dget kids n c) in Hs by auto. replace (q ++ n :: p) with ((q ++ [n]) ++ p) by (rewrite <- app_assoc; reflexivity). apply IH; [eapply Gk; eauto|exact Hs|].
      intros p1 p2 ->. rewrite <- app_assoc. apply (H (n :: p1) p2). reflexivity.
    + apply att_ext. intro r. rewrite lookup_cons. cbn [fst]. destruct (path_dec (q ++ n :: p) ((q ++ [n']) ++ r)) as [K|]; auto. exfalso. rewrite <- app_assoc in K. apply app_inv_head in K. injection K as K _. congruence.
Qed.
Lemma good_branch i m b : good m -> good b -> good (T := T) (branch_point i m b).
Proof.
  intros Gm Gb. constructor; cbn [map fst].
  - repeat constructor; discriminate.
  - repeat constructor; cbn; intuition discriminate.
  - intros n c [K|[K|[]]]; injection K as <- <-; auto.
Qed.
Lemma good_att E m : (forall e, In e E -> good (snd (snd e))) -> good m -> forall q, good (att E q m).
Proof.
  intro HE. induction m as [k kids IH] using emod_ind'. intros G q. rewrite att_eq. inversion G as [? ? Gn Nd Gk]; subst.
  assert (Gm : good (EMod k (att_kids E q kids))).
  { assert (Kn : map fst (att_kids E q kids) = map fst kids) by (unfold att_kids; rewrite map_map; reflexivity). constructor; [rewrite Kn; auto|rewrite Kn; auto|].
    intros n c I. unfold att_kids in I. apply in_map_iff in I. destruct I as ([n' c'] & Eq & I). cbn [fst snd] in Eq. injection Eq as <- <-. rewrite Forall_forall in IH. apply (IH _ I). eapply Gk; eauto. }
  destruct (lookup E q) as [[i b]|] eqn:L; [|exact Gm]. apply good_branch; [exact Gm|]. apply lookup_In in L. apply (HE _ L).
Qed.

(** ** Forward passes *)
Definition go_run (n : string) (v : T) := fix go (l : list (string * emod)) := match l with [] => Raise AttributeError | (n', c) :: l => if String.eqb n n' then run c v else go l end.
Definition go_trace (p : path) (n : string) (v : T) := fix go (l : list (string * emod)) := match l with [] => Raise AttributeError | (n', c) :: l => if String.eqb n n' then trace (p ++ [n']) c v else go l end.
Lemma go_run_dget n v l : go_run n v l = match dget l n with Some c => run c v | None => Raise AttributeError end.
Proof. induction l as [|[n' c] l IH]; [reflexivity|]. cbn [go_run dget]. destruct (String.eqb n n'); [reflexivity|exact IH]. Qed.
Lemma go_trace_dget p n v l : go_trace p n v l = match dget l n with Some c => trace (p ++ [n]) c v | None => Raise AttributeError end.
Proof. induction l as [|[n' c] l IH]; [reflexivity|]. cbn [go_trace dget]. destruct (String.eqb_spec n n') as [->|]; [reflexivity|exact IH]. Qed.
Definition call_run (kids : list (string * emod)) n v := match dget kids n with Some c => run c v | None => Raise AttributeError end.
Definition call_trace (p : path) (kids : list (string * emod)) n v := match dget kids n with Some c => trace (p ++ [n]) c v | None => Raise AttributeError end.
Lemma foldM_ext {A S} (f g : S -> A -> res S) : (forall s a, f s a = g s a) -> forall l s, foldM f l s = foldM g l s.
Proof. intros H l. induction l as [|a l IH]; intro s; [reflexivity|]. cbn [foldM]. rewrite H. destruct (g s a); cbn [bind]; auto. Qed.
Lemma run_eq k kids x : run (EMod k kids) x =
  match k with
  | KLeaf f => do y <- f x; Ok (y, [])
  | KNode body =>
      do r <- foldM (fun st (s : string * nat) => do v <- value (fst st) (snd s); do r <- call_run kids (fst s) v; Ok (fst st ++ [fst r], snd st ++ snd r)) body ([x], []);
      Ok (last (fst r) x, snd r)
  | KBranch i => do r1 <- call_run kids "branched_module" x; do r2 <- call_run kids "branch_net" (fst r1); Ok (fst r1, snd r1 ++ snd r2 ++ [(i, fst r2)])
  | KDp => call_run kids "module" x
  end.
Proof.
  cbn [run]. destruct k as [f|body|i|]; [reflexivity| | |].
  - match goal with |- bind (foldM ?f body _) _ = bind (foldM ?g body _) _ => rewrite (foldM_ext f g); [reflexivity|] end. intros s a. destruct (value (fst s) (snd a)); [|reflexivity]. cbn [bind]. fold (go_run (fst a) a0). rewrite go_run_dget. reflexivity.
  - fold (go_run "branched_module" x). rewrite go_run_dget. fold (call_run kids "branched_module" x). destruct (call_run kids "branched_module" x) as [r1|]; [|reflexivity]. cbn [bind]. fold (go_run "branch_net" (fst r1)). rewrite go_run_dget. reflexivity.
  - fold (go_run "module" x). rewrite go_run_dget. reflexivity.
Qed.
Lemma trace_eq p k kids x : trace p (EMod k kids) x =
  do r <- match k with
          | KLeaf f => do y <- f x; Ok (y, [])
          | KNode body =>
              do r <- foldM (fun st (s : string * nat) => do v <- value (fst st) (snd s); do r <- call_trace p kids (fst s) v; Ok (fst st ++ [fst r], snd st ++ snd r)) body ([x], []);
              Ok (last (fst r) x, snd r)
          | KBranch i => do r1 <- call_trace p kids "branched_module" x; do r2 <- call_trace p kids "branch_net" (fst r1); Ok (fst r1, snd r1 ++ snd r2)
          | KDp => call_trace p kids "module" x
          end;
  Ok (fst r, snd r ++ [(p, fst r)]).
Proof.
  cbn [trace]. f_equal. destruct k as [f|body|i|]; [reflexivity| | |].
  - match goal with |- bind (foldM ?f body _) _ = bind (foldM ?g body _) _ => rewrite (foldM_ext f g); [reflexivity|] end. intros s a. destruct (value (fst s) (snd a)); [|reflexivity]. cbn [bind]. fold (go_trace p (fst a) a0). rewrite go_trace_dget. reflexivity.
  - fold (go_trace p "branched_module" x). rewrite go_trace_dget. fold (call_trace p kids "branched_module" x). destruct (call_trace p kids "branched_module" x) as [r1|]; [|reflexivity]. cbn [bind]. fold (go_trace p "branch_net" (fst r1)). rewrite go_trace_dget. reflexivity.
  - fold (go_trace p "module" x). rewrite go_trace_dget. reflexivity.
Qed.

(** what the exits add to a pass *)
Definition ev (E : plist) (qv : path * T) : list (nat * T) :=
  match lookup E (fst qv) with Some (i, b) => match run b (snd qv) with Ok (w, e) => e ++ [(i, w)] | Raise _ => [] end | None => [] end.
Definition fine (E : plist) (tr : list (path * T)) : Prop := forall q v i b, In (q, v) tr -> lookup E q = Some (i, b) -> exists r, run b v = Ok r.
Lemma fine_app E a b : fine E (a ++ b) <-> fine E a /\ fine E b.
Proof. unfold fine. setoid_rewrite in_app_iff. split; [intro H; split; intros; eapply H; eauto|intros [H1 H2] q v i c [K|K] L; eauto]. Qed.
Lemma flat_map_app2 {A B} (f : A -> list B) a b : flat_map f (a ++ b) = flat_map f a ++ flat_map f b.
Proof. apply flat_map_app. Qed.

(** pass of the model with exits, from the trace of the model; if a branch fails the pass fails *)
Lemma run_att E m : plain m -> forall q x y tr, trace q m x = Ok (y, tr) -> fine E tr -> run (att E q m) x = Ok (y, flat_map (ev E) tr).
Proof.
  induction m as [k kids IH] using emod_ind'. intros P q x y tr H F. inversion P as [? ? Pk Pc]; subst. rewrite trace_eq in H.
  match type of H with bind ?u _ = _ => destruct u as [[y0 tr0]|] eqn:U; [|discriminate] end. cbn [bind fst snd] in H. injection H as -> <-. apply fine_app in F. destruct F as [F0 F1].
  assert (C : forall n v y1 t1, call_trace q kids n v = Ok (y1, t1) -> fine E t1 -> call_run (att_kids E q kids) n v = Ok (y1, flat_map (ev E) t1)).
  { intros n v y1 t1 Hc Hf. unfold call_trace in Hc. unfold call_run. rewrite dget_att_kids. destruct (dget kids n) as [c|] eqn:D; [|discriminate]. cbn [option_map].
    apply dget_In in D. rewrite Forall_forall in IH. apply (IH _ D); auto. eapply Pc; eauto. }
  assert (B : run (EMod k (att_kids E q kids)) x = Ok (y, flat_map (ev E) tr0)).
  { rewrite run_eq. destruct k as [f|body|i|].
    - destruct (f x) as [z|]; [|discriminate]. cbn [bind] in *. injection U as -> <-. reflexivity.
    - match type of U with bind ?u _ = _ => destruct u as [[vs t]|] eqn:V; [|discriminate] end. cbn [bind fst snd] in U. injection U as <- <-.
      assert (L : forall body st st', foldM (fun st (s : string * nat) => do v <- value (fst st) (snd s); do r <- call_trace q kids (fst s) v; Ok (fst st ++ [fst r], snd st ++ snd r)) body st = Ok st' -> fine E (snd st') ->
        fine E (snd st) /\ foldM (fun st (s : string * nat) => do v <- value (fst st) (snd s); do r <- call_run (att_kids E q kids) (fst s) v; Ok (fst st ++ [fst r], snd st ++ snd r)) body (fst st, flat_map (ev E) (snd st)) = Ok (fst st', flat_map (ev E) (snd st'))).
      { clear - C. induction body as [|s body IHb]; intros st st' H F; cbn [foldM] in *; [injection H as <-; auto|].
        destruct (value (fst st) (snd s)) as [v|] eqn:Ev; [|discriminate]. cbn [bind] in H. destruct (call_trace q kids (fst s) v) as [[y1 t1]|] eqn:Ec; [|discriminate]. cbn [bind fst snd] in H.
        destruct (IHb _ _ H F) as [F' R]. cbn [fst snd] in F', R. apply fine_app in F'. destruct F' as [F1 F2]. split; [exact F1|]. cbn [fst snd]. rewrite Ev. cbn [bind]. rewrite (C _ _ _ _ Ec F2). cbn [bind fst snd]. rewrite <- flat_map_app2. exact R. }
      destruct (L _ _ _ V F0) as [_ R]. cbn [fst snd flat_map] in R. rewrite R. reflexivity.
    - exfalso. apply (Pk i). reflexivity.
    - apply C; auto. }
  rewrite att_eq, flat_map_app2. cbn [flat_map]. rewrite app_nil_r. destruct (lookup E q) as [[i b]|] eqn:Lq.
  - destruct (F1 q y i b (or_introl eq_refl) Lq) as ((w & e) & Hw). assert (Z : ev E (q, y) = e ++ [(i, w)]) by (unfold ev; cbn [fst snd]; rewrite Lq, Hw; reflexivity). rewrite Z. unfold branch_point. rewrite run_eq. unfold call_run at 1. cbn [dget String.eqb Ascii.eqb Bool.eqb]. rewrite B. cbn [bind fst snd].
    unfold call_run. cbn [dget String.eqb Ascii.eqb Bool.eqb]. rewrite Hw. cbn [bind fst snd app]. reflexivity.
  - rewrite B. assert (Z : ev E (q, y) = []) by (unfold ev; cbn [fst]; rewrite Lq; reflexivity). rewrite Z, app_nil_r. reflexivity.
Qed.
(** and back *)
Lemma att_run E m : plain m -> forall q x y e, run (att E q m) x = Ok (y, e) -> exists tr, trace q m x = Ok (y, tr) /\ fine E tr.
Proof.
  induction m as [k kids IH] using emod_ind'. intros P q x y e H. inversion P as [? ? Pk Pc]; subst.
  assert (C : forall n v y1 t1, call_run (att_kids E q kids) n v = Ok (y1, t1) -> exists tr, call_trace q kids n v = Ok (y1, tr) /\ fine E tr).
  { intros n v y1 t1 Hc. unfold call_run in Hc. unfold call_trace. rewrite dget_att_kids in Hc. destruct (dget kids n) as [c|] eqn:D; [|discriminate]. cbn [option_map] in Hc.
    apply dget_In in D. rewrite Forall_forall in IH. eapply (IH _ D); eauto. }
  assert (B : forall y e, run (EMod k (att_kids E q kids)) x = Ok (y, e) -> exists tr, trace q (EMod k kids) x = Ok (y, tr ++ [(q, y)]) /\ fine E tr).
  { clear H y e. intros y e H. rewrite run_eq in H. rewrite trace_eq. destruct k as [f|body|i|].
    - destruct (f x) as [z|]; [|discriminate]. cbn [bind fst snd] in *. injection H as -> <-. exists []. split; [reflexivity|intros ? ? ? ? []].
    - match type of H with bind ?u _ = _ => destruct u as [[vs t]|] eqn:V; [|discriminate] end. cbn [bind fst snd] in H. injection H as <- <-.
      assert (L : forall body vs0 t0 t0' vs1 t1, fine E t0' -> foldM (fun st (s : string * nat) => do v <- value (fst st) (snd s); do r <- call_run (att_kids E q kids) (fst s) v; Ok (fst st ++ [fst r], snd st ++ snd r)) body (vs0, t0) = Ok (vs1, t1) ->
        exists t1', foldM (fun st (s : string * nat) => do v <- value (fst st) (snd s); do r <- call_trace q kids (fst s) v; Ok (fst st ++ [fst r], snd st ++ snd r)) body (vs0, t0') = Ok (vs1, t1') /\ fine E t1').
      { clear - C. induction body as [|s body IHb]; intros vs0 t0 t0' vs1 t1 F H; cbn [foldM] in *; [injection H as <- _; eauto|]. cbn [fst snd] in *.
        destruct (value vs0 (snd s)) as [v|]; [|discriminate]. cbn [bind] in *. destruct (call_run (att_kids E q kids) (fst s) v) as [[y1 t]|] eqn:Ec; [|discriminate]. cbn [bind fst snd] in H.
        destruct (C _ _ _ _ Ec) as (tr & -> & F'). cbn [bind fst snd]. eapply IHb; eauto. apply fine_app; auto. }
      destruct (L _ _ _ [] _ _ ltac:(intros ? ? ? ? []) V) as (t' & -> & F'). cbn [bind fst snd]. eauto.
    - exfalso. apply (Pk i). reflexivity.
    - destruct (C _ _ _ _ H) as (tr & -> & F'). cbn [bind fst snd]. eauto. }
  rewrite att_eq in H. destruct (lookup E q) as [[i b]|] eqn:Lq.
  - unfold branch_point in H. rewrite run_eq in H. unfold call_run at 1 in H. cbn [dget String.eqb Ascii.eqb Bool.eqb] in H.
    destruct (run (EMod k (att_kids E q kids)) x) as [[y1 e1]|] eqn:R; [|discriminate]. cbn [bind fst snd] in H. unfold call_run in H. cbn [dget String.eqb Ascii.eqb Bool.eqb] in H.
    destruct (run b y1) as [[w e2]|] eqn:Rb; [|discriminate]. cbn [bind] in H. injection H as <- _. destruct (B _ _ eq_refl) as (tr & Et & F). exists (tr ++ [(q, y1)]). split; [exact Et|]. apply fine_app. split; [exact F|].
    intros q' v i' b' [K|[]] L. injection K as <- <-. rewrite Lq in L. injection L as <- <-. eauto.
  - destruct (B _ _ H) as (tr & Et & F). exists (tr ++ [(q, y)]). split; [exact Et|]. apply fine_app. split; [exact F|]. intros q' v i' b' [K|[]] L. injection K as <- <-. congruence.
Qed.
(** a model without branch points: [run] and [trace] agree *)
Lemma plain_run m q x y tr : plain m -> trace (T := T) q m x = Ok (y, tr) -> run m x = Ok (y, []).
Proof.
  intros P H. pose proof (run_att [] m P q x y tr H) as K. rewrite att_nil in K. rewrite K; [|intros r v i b _ L; discriminate]. f_equal. f_equal. clear. induction tr as [|a tr IH]; [reflexivity|exact IH].
Qed.
Lemma run_plain m q x y e : plain m -> run (T := T) m x = Ok (y, e) -> e = [] /\ exists tr, trace q m x = Ok (y, tr).
Proof.
  intros P H. assert (K : exists tr, trace q m x = Ok (y, tr)) by (destruct (att_run [] m P q x y e) as (tr & K & _); [rewrite att_nil; exact H|eauto]). split; [|exact K]. destruct K as (tr & K). apply plain_run in K; auto. congruence.
Qed.
End Proofs.
