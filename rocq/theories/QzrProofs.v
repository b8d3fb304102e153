(** Proofs about the quantizer's traversal of a model (C54). *)
From Coq Require Import String Ascii List ZArith Bool Arith Lia FinFun.
From Verif Require Import Base Names QzrModel QzrSpec.
Import ListNotations.
Local Open Scope string_scope.
Local Open Scope list_scope.

Section NmodInd.
  Variable P : nmod -> Prop.
  Hypothesis H : forall i t p kids, Forall (fun nc => P (snd nc)) kids -> P (Mod i t p kids).
  Fixpoint nmod_ind' (m : nmod) : P m :=
    match m with
    | Mod i t p kids => H i t p kids ((fix go l : Forall (fun nc => P (snd nc)) l :=
        match l with [] => Forall_nil _ | nc :: l => Forall_cons nc (nmod_ind' (snd nc)) (go l) end) kids)
    end.
End NmodInd.

(** * Names and paths *)
Notation nodots := (Forall (fun n => no_dot n = true)).
Lemma good_nodots p : Forall good_name p -> nodots p.
Proof. intro H. eapply Forall_impl; [|exact H]. intros n [_ A]. exact A. Qed.

Lemma join_inj p q : p <> [] -> q <> [] -> nodots p -> nodots q -> join_dot p = join_dot q -> p = q.
Proof. intros. rewrite <- (split_join p), <- (split_join q) by auto. congruence. Qed.
Lemma join_nonempty p : p <> [] -> Forall good_name p -> join_dot p <> "".
Proof.
  destruct p as [|n [|n' p]]; intros H G; [congruence| |]; inversion G as [|? ? [A _] _]; subst; simpl; auto.
  destruct n; [congruence|]. simpl. discriminate.
Qed.
Lemma join_inj_good p q : Forall good_name p -> Forall good_name q -> join_dot p = join_dot q -> p = q.
Proof.
  intros G1 G2 E. destruct p as [|n p], q as [|n' q]; auto.
  - exfalso. symmetry in E. eapply join_nonempty; [|exact G2|exact E]. discriminate.
  - exfalso. eapply join_nonempty; [|exact G1|exact E]. discriminate.
  - apply join_inj; auto using good_nodots; discriminate.
Qed.
Lemma join_snoc p n : p <> [] -> join_dot (p ++ [n]) = (join_dot p ++ "." ++ n)%string.
Proof.
  induction p as [|a p IH]; [congruence|]. intros _. destruct p as [|b p]; [reflexivity|].
  change ((a :: b :: p) ++ [n]) with (a :: ((b :: p) ++ [n])).
  assert (E : forall x l, l <> [] -> join_dot (x :: l) = (x ++ "." ++ join_dot l)%string) by (intros x [|y l] K; [congruence|reflexivity]).
  rewrite E by discriminate. rewrite IH by discriminate. rewrite (E a (b :: p)) by discriminate.
  assert (AS : forall u v w : string, ((u ++ v) ++ w = u ++ (v ++ w))%string) by (induction u; intros; simpl; congruence).
  rewrite !AS. reflexivity.
Qed.
Lemma sub_name_join p n : Forall good_name p -> sub_name (join_dot p) n = join_dot (p ++ [n]).
Proof.
  intro G. destruct p as [|a p]; [reflexivity|]. rewrite join_snoc by discriminate.
  assert (K : join_dot (a :: p) <> "") by (apply join_nonempty; auto; discriminate).
  unfold sub_name. destruct (join_dot (a :: p)); [congruence|reflexivity].
Qed.
Definition pfx (p : list string) : string := match p with [] => "" | _ => (join_dot p ++ ".")%string end.
Lemma pfx_join p n : (pfx p ++ n)%string = join_dot (p ++ [n]).
Proof.
  destruct p as [|a p]; [reflexivity|]. rewrite join_snoc by discriminate. unfold pfx.
  assert (AS : forall u v w : string, ((u ++ v) ++ w = u ++ (v ++ w))%string) by (induction u; intros; simpl; congruence).
  rewrite AS. reflexivity.
Qed.
Lemma pfx_snoc p n : (join_dot (p ++ [n]) ++ ".")%string = pfx (p ++ [n]).
Proof. destruct p; reflexivity. Qed.

(** * Identities *)
Lemma all_modules_path m : forall path, all_modules m path = map (fun pm => (path ++ fst pm, snd pm)) (all_modules m []).
Proof.
  induction m as [i t p kids IH] using nmod_ind'. intro path. cbn [all_modules map]. rewrite app_nil_r. cbn [fst snd]. f_equal.
  rewrite concat_map, !map_map. cbn [fst snd]. f_equal. apply map_ext_in. intros [n c] I. cbn [fst snd].
  rewrite Forall_forall in IH. specialize (IH (n, c) I). cbn [snd] in IH.
  rewrite (IH (path ++ [n])), (IH ([] ++ [n])). rewrite map_map. apply map_ext. intros [q c']. cbn [fst snd]. rewrite <- !app_assoc. reflexivity.
Qed.
Lemma ids_path m path : map (fun pm => mid (snd pm)) (all_modules m path) = ids m.
Proof. unfold ids. rewrite (all_modules_path m path), map_map. reflexivity. Qed.
Lemma ids_eq i t p kids : ids (Mod i t p kids) = i :: concat (map (fun nc => ids (snd nc)) kids).
Proof.
  unfold ids at 1. cbn [all_modules map snd mid]. f_equal. rewrite concat_map, map_map. f_equal. apply map_ext. intro nc. apply ids_path.
Qed.
Lemma mid_ids m : In (mid m) (ids m).
Proof. destruct m. rewrite ids_eq. left; reflexivity. Qed.
Definition kids_ids (l : list (string * nmod)) : list nat := concat (map (fun nc => ids (snd nc)) l).
Definition below (l : list (string * nmod)) (path : list string) : list (list string * nmod) :=
  concat (map (fun nc => all_modules (snd nc) (path ++ [fst nc])) l).
Lemma all_modules_eq m path : all_modules m path = (path, m) :: below (mkids m) path.
Proof. destruct m. reflexivity. Qed.
Lemma all_modules_prefix m path p c : In (p, c) (all_modules m path) -> exists r, p = path ++ r /\ In (r, c) (all_modules m []).
Proof.
  rewrite (all_modules_path m path), in_map_iff. intros ([r c'] & E & I). cbn [fst snd] in E. injection E as <- <-. eauto.
Qed.
Lemma below_prefix l path p c : In (p, c) (below l path) -> exists n k r, In (n, k) l /\ p = path ++ n :: r /\ In (r, c) (all_modules k []).
Proof.
  unfold below. rewrite in_concat. intros (x & A & B). apply in_map_iff in A as ([n k] & <- & I). cbn [fst snd] in B.
  apply all_modules_prefix in B as (r & -> & B). exists n, k, r. rewrite <- app_assoc. auto.
Qed.

Lemma good_model_kid i t p kids n c : good_model (Mod i t p kids) -> In (n, c) kids -> good_model c.
Proof.
  intros H I q k K. apply (H (n :: q) k). rewrite all_modules_eq. right. cbn [mkids]. unfold below. apply in_concat.
  exists (all_modules c ([] ++ [n])). split; [apply in_map_iff; exists (n, c); auto|].
  rewrite all_modules_path. apply in_map_iff. exists (q, k). auto.
Qed.
Lemma good_model_root m : good_model m -> good_kids m.
Proof. intro H. apply (H [] m). rewrite all_modules_eq. left; reflexivity. Qed.
Lemma good_paths m : good_model m -> forall p c, In (p, c) (all_modules m []) -> Forall good_name p.
Proof.
  induction m as [i t ps kids IH] using nmod_ind'. intros G p c I. rewrite all_modules_eq in I. destruct I as [[= <- <-]|I]; [constructor|].
  apply below_prefix in I as (n & k & r & A & -> & B). cbn [mkids] in A. simpl. constructor.
  - destruct (good_model_root _ G) as [K _]. rewrite Forall_forall in K. apply K. apply in_map_iff. exists (n, k). auto.
  - rewrite Forall_forall in IH. apply (IH (n, k) A (good_model_kid _ _ _ _ _ _ G A) r c B).
Qed.

Lemma NoDup_app_intro {A} (l1 l2 : list A) : NoDup l1 -> NoDup l2 -> (forall x, In x l1 -> ~ In x l2) -> NoDup (l1 ++ l2).
Proof.
  induction l1 as [|a l1 IH]; intros H1 H2 H; simpl; auto. inversion H1; subst. constructor.
  - rewrite in_app_iff. intros [K|K]; auto. apply (H a); simpl; auto.
  - apply IH; auto. intros x I. apply H. right; auto.
Qed.
Lemma NoDup_app_parts {A} (l1 l2 : list A) : NoDup (l1 ++ l2) -> NoDup l1 /\ NoDup l2 /\ (forall x, In x l1 -> ~ In x l2).
Proof.
  induction l1 as [|a l1 IH]; simpl; intro H; [repeat split; auto; constructor|].
  inversion H as [|? ? H1 H2]; subst. destruct (IH H2) as (A1 & A2 & A3). rewrite in_app_iff in H1. repeat split; auto.
  - constructor; tauto.
  - intros x [<-|I]; auto.
Qed.

Lemma paths_NoDup m : good_model m -> NoDup (map fst (all_modules m [])).
Proof.
  induction m as [i t ps kids IH] using nmod_ind'. intro G. rewrite all_modules_eq. cbn [map fst mkids]. constructor.
  - rewrite in_map_iff. intros ([p c] & E & I). cbn [fst] in E. subst p. apply below_prefix in I as (n & k & r & _ & E & _). discriminate.
  - destruct (good_model_root _ G) as [_ K]. cbn [mkids] in K.
    assert (G' : forall n c, In (n, c) kids -> good_model c) by (intros; eapply good_model_kid; eauto). clear G.
    induction kids as [|[n c] l IHl]; [constructor|]. unfold below. cbn [map concat fst snd]. rewrite map_app.
    inversion IH; subst. inversion K; subst. apply NoDup_app_intro.
    + rewrite all_modules_path, map_map. cbn [fst].
      assert (E : map (fun x : list string * nmod => ([] ++ [n]) ++ fst x) (all_modules c []) = map (cons n) (map fst (all_modules c []))) by (rewrite map_map; reflexivity).
      rewrite E. apply Injective_map_NoDup; [intros ? ? [=]; auto|]. apply H1. apply (G' n c). left; auto.
    + apply IHl; auto. intros. eapply G'. right; eauto.
    + intros x A B. apply in_map_iff in A as ([p1 c1] & <- & A). apply in_map_iff in B as ([p2 c2] & E & B). cbn [fst] in *. subst p2.
      apply all_modules_prefix in A as (r & -> & _). apply below_prefix in B as (n' & k & r' & I & E & _). simpl in E. injection E as <- <-.
      apply H3. apply in_map_iff. exists (n, k). auto.
Qed.

(** * named_modules of an unshared model lists every module *)
Lemma mem_nat_In x l : mem_nat x l = true <-> In x l.
Proof. unfold mem_nat. rewrite existsb_exists. split; [intros (y & I & E); apply Nat.eqb_eq in E as ->; auto|intro I; exists x; rewrite Nat.eqb_refl; auto]. Qed.

Definition go_modules (prefix : string) := fix go (l : list (string * nmod)) (memo : list nat) : list (string * nmod) * list nat :=
  match l with
  | [] => ([], memo)
  | (n, c) :: l =>
      let '(r1, memo) := named_modules_from c (sub_name prefix n) memo in
      let '(r2, memo) := go l memo in
      ((r1 ++ r2)%list, memo)
  end.
Lemma named_modules_from_eq m prefix memo : named_modules_from m prefix memo =
  if mem_nat (mid m) memo then ([], memo)
  else let '(l, memo) := go_modules prefix (mkids m) (mid m :: memo) in ((prefix, m) :: l, memo).
Proof. destruct m; reflexivity. Qed.

Definition named (pm : list string * nmod) : string * nmod := (join_dot (fst pm), snd pm).
Lemma named_modules_from_spec m : forall path memo, Forall good_name path -> good_model m -> NoDup (ids m) -> (forall i, In i (ids m) -> ~ In i memo) ->
  exists memo', named_modules_from m (join_dot path) memo = (map named (all_modules m path), memo') /\
  forall i, In i memo' <-> In i memo \/ In i (ids m).
Proof.
  induction m as [i t ps kids IH] using nmod_ind'. intros path memo Gp G Hn Hm.
  rewrite named_modules_from_eq. cbn [mid mkids].
  destruct (mem_nat i memo) eqn:E; [exfalso; apply mem_nat_In in E; apply (Hm i); auto; rewrite ids_eq; left; auto|].
  assert (L : forall l memo0, (forall nc, In nc l -> In nc kids) -> NoDup (kids_ids l) -> (forall j, In j (kids_ids l) -> ~ In j memo0) ->
     exists memo', go_modules (join_dot path) l memo0 = (map named (below l path), memo') /\ forall j, In j memo' <-> In j memo0 \/ In j (kids_ids l)).
  { induction l as [|[n c] l IHl]; intros memo0 Hl Nd Hd.
    - exists memo0. split; [reflexivity|]. intro j. simpl. tauto.
    - cbn [go_modules]. unfold kids_ids in Nd, Hd. cbn [map concat snd] in Nd, Hd. apply NoDup_app_parts in Nd as (N1 & N2 & N3).
      rewrite sub_name_join by auto. rewrite Forall_forall in IH.
      assert (Ic : In (n, c) kids) by (apply Hl; left; auto).
      assert (Gn : Forall good_name (path ++ [n])).
      { apply Forall_app. split; auto. constructor; auto. destruct (good_model_root _ G) as [K _]. rewrite Forall_forall in K. apply K. apply in_map_iff. exists (n, c). auto. }
      destruct (IH (n, c) Ic (path ++ [n]) memo0 Gn (good_model_kid _ _ _ _ _ _ G Ic) N1) as (memo1 & E1 & M1).
      { intros j J. apply Hd. apply in_or_app. auto. }
      cbn [snd] in E1. rewrite E1.
      destruct (IHl memo1) as (memo2 & E2 & M2); auto.
      { intros nc J. apply Hl. right; auto. }
      { intros j J K. apply M1 in K as [K|K]; [apply (Hd j); auto; apply in_or_app; auto|]. apply (N3 j K J). }
      rewrite E2. exists memo2. split.
      + unfold below. cbn [map concat fst snd]. rewrite map_app. reflexivity.
      + intro j. rewrite M2, M1. cbn [snd]. unfold kids_ids. cbn [map concat snd]. rewrite in_app_iff. tauto. }
  rewrite ids_eq in Hn, Hm. inversion Hn as [|? ? N1 N2]; subst.
  destruct (L kids (i :: memo)) as (memo' & E1 & M1); auto.
  { intros j J [<-|K]; [apply N1; auto|]. apply (Hm j); auto. right; auto. }
  rewrite E1. exists memo'. split.
  - rewrite all_modules_eq. reflexivity.
  - intro j. rewrite M1, ids_eq. simpl. unfold kids_ids. tauto.
Qed.
Lemma named_modules_spec m : good_model m -> unshared m -> named_modules m = map named (all_modules m []).
Proof.
  intros G U. unfold named_modules. destruct (named_modules_from_spec m [] [] ltac:(constructor) G U) as (memo & E & _); [tauto|].
  simpl in E. rewrite E. reflexivity.
Qed.
