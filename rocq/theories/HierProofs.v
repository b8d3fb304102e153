(** Proofs about names in a module hierarchy (C107). *)
From Coq Require Import String Ascii List Arith Bool Lia.
From Verif Require Import Base Names HierModel HierSpec.
Import ListNotations.
Local Open Scope string_scope.
Open Scope list_scope.
Open Scope nat_scope.

Lemma dotted_join : forall p, dotted p = join_dot p. Proof. reflexivity. Qed.

Lemma plain_no_dot : forall k, plain k -> no_dot k = true.
Proof.
  intros k [_ H]. induction k as [|c k IH]; [reflexivity|]. cbn. destruct (Ascii.eqb_spec c dot) as [->|N].
  - exfalso. apply (H "" k). reflexivity.
  - cbn. apply IH. intros s1 s2 E. apply (H (String c s1) s2). cbn. now rewrite E.
Qed.

Lemma app_not_nil : forall k s, k <> "" -> (k ++ s)%string <> "". Proof. intros [|c k] s H; [contradiction|discriminate]. Qed.

Lemma dotted_nil : forall p, Forall plain p -> dotted p = "" -> p = [].
Proof.
  intros [|k [|k' p]] HF H; [reflexivity| |]; inversion HF as [|? ? [Hk _] _]; subst; exfalso; [now apply Hk|]. revert H. cbn [dotted]. now apply app_not_nil.
Qed.

Lemma sapp_assoc : forall a b c, ((a ++ b) ++ c = a ++ (b ++ c))%string. Proof. induction a; intros; cbn; [reflexivity|now rewrite IHa]. Qed.

Lemma dotted_snoc : forall p k, Forall plain p -> dotted (p ++ [k]) = (dotted p ++ (if String.eqb (dotted p) "" then "" else ".") ++ k)%string.
Proof.
  intros p k HF. destruct (String.eqb_spec (dotted p) "") as [E|E].
  - apply dotted_nil in E; [|exact HF]. subst. reflexivity.
  - induction p as [|a p IH]; [contradiction|]. inversion HF as [|? ? Ha HF']; subst. destruct p as [|b p]; [reflexivity|].
    change (dotted ((a :: b :: p) ++ [k])) with (a ++ "." ++ dotted ((b :: p) ++ [k]))%string. change (dotted (a :: b :: p)) with (a ++ "." ++ dotted (b :: p))%string.
    rewrite IH; [|exact HF'|]; [now rewrite !sapp_assoc|]. intro E'. apply dotted_nil in E'; [discriminate E'|exact HF'].
Qed.

Lemma dotted_inj : forall p q, Forall plain p -> Forall plain q -> dotted p = dotted q -> p = q.
Proof.
  intros p q Hp Hq E. destruct (list_eq_dec string_dec p []) as [->|Np]; [symmetry; apply dotted_nil; [exact Hq|now rewrite <- E]|].
  destruct (list_eq_dec string_dec q []) as [->|Nq]; [apply dotted_nil; [exact Hp|now rewrite E]|].
  rewrite <- (split_join p), <- (split_join q); auto; [change join_dot with dotted; now rewrite E| |]; eapply Forall_impl; try eassumption; intros; now apply plain_no_dot.
Qed.

(* ------------------------------------------------------------------ the traversal *)
Inductive W : mtree -> list string -> list nat -> list (list string * nat) -> list nat -> Prop :=
| W_seen : forall i kids p memo, In i memo -> W (Mod i kids) p memo [] memo
| W_new : forall i kids p memo l memo', ~ In i memo -> WK kids p (i :: memo) l memo' -> W (Mod i kids) p memo ((p, i) :: l) memo'
with WK : list (string * mtree) -> list string -> list nat -> list (list string * nat) -> list nat -> Prop :=
| WK_nil : forall p memo, WK [] p memo [] memo
| WK_cons : forall k c ks p memo l1 m1 l2 m2, W c (p ++ [k]) memo l1 m1 -> WK ks p m1 l2 m2 -> WK ((k, c) :: ks) p memo (l1 ++ l2) m2.
Scheme W_mut := Induction for W Sort Prop with WK_mut := Induction for WK Sort Prop.
Combined Scheme W_WK from W_mut, WK_mut.

Definition out (l : list (list string * nat)) : list (string * nat) := map (fun q => (dotted (fst q), snd q)) l.

Lemma existsb_In : forall i memo, existsb (Nat.eqb i) memo = true <-> In i memo.
Proof. intros i memo. rewrite existsb_exists. split; [intros (x & Hx & E); apply Nat.eqb_eq in E; now subst|intro H; exists i; split; [exact H|apply Nat.eqb_refl]]. Qed.

Fixpoint named_W (t : mtree) : proper t -> forall p memo, Forall plain p -> exists l, W t p memo l (snd (named t (dotted p) memo)) /\ fst (named t (dotted p) memo) = out l.
Proof.
  destruct t as [i kids]. intros HP p memo Hp. inversion HP as [? ? _ HK]; subst. cbn [named].
  destruct (existsb (Nat.eqb i) memo) eqn:E.
  { exists []. split; [apply W_seen; now apply existsb_In|reflexivity]. }
  set (go := fix go (ks : list (string * mtree)) (memo : list nat) : list (string * nat) * list nat := match ks with [] => ([], memo) | (k, c) :: ks' => let a := named c (dotted p ++ (if String.eqb (dotted p) "" then "" else ".") ++ k)%string memo in let b := go ks' (snd a) in (fst a ++ fst b, snd b) end).
  assert (HG : forall m0, exists l, WK kids p m0 l (snd (go kids m0)) /\ fst (go kids m0) = out l).
  { clear E. clear memo HP. induction kids as [|[k c] ks IHk]; intro m0.
    - exists []. split; [constructor|reflexivity].
    - assert (Hc := HK k c (or_introl eq_refl)). destruct Hc as [Hk Hc].
      destruct (named_W c Hc (p ++ [k]) m0) as (l1 & W1 & E1). { apply Forall_app. split; [exact Hp|now constructor]. }
      rewrite dotted_snoc in W1, E1 by exact Hp.
      destruct (IHk (fun k' c' H => HK k' c' (or_intror H)) (snd (named c (dotted p ++ (if String.eqb (dotted p) "" then "" else ".") ++ k)%string m0))) as (l2 & W2 & E2).
      exists (l1 ++ l2). cbn [go]. cbv zeta. split; [eapply WK_cons; eassumption|]. cbn [fst]. rewrite E1. unfold out in *. rewrite map_app. now rewrite <- E2. }
  destruct (HG (i :: memo)) as (l & Hw & El). exists ((p, i) :: l). cbv zeta. cbn [fst snd]. split.
  - apply W_new; [|exact Hw]. intro H. apply existsb_In in H. congruence.
  - rewrite El. reflexivity.
Qed.

Lemma NoDup_app_ : forall {A} (a b : list A), NoDup a -> NoDup b -> (forall x, In x a -> ~ In x b) -> NoDup (a ++ b).
Proof.
  intros A a b Ha Hb H. induction a as [|x a IH]; [exact Hb|]. inversion Ha as [|? ? N Ha']; subst. cbn. constructor.
  - intro HI. apply in_app_or in HI. destruct HI as [HI|HI]; [contradiction|]. apply (H x); [now left|exact HI].
  - apply IH; [exact Ha'|]. intros y Hy. apply H. now right.
Qed.

Lemma W_ids :
  (forall t p memo l m', W t p memo l m' -> NoDup (map snd l) /\ (forall i, In i (map snd l) -> ~ In i memo) /\ (forall i, In i m' <-> In i memo \/ In i (map snd l))) /\
  (forall ks p memo l m', WK ks p memo l m' -> NoDup (map snd l) /\ (forall i, In i (map snd l) -> ~ In i memo) /\ (forall i, In i m' <-> In i memo \/ In i (map snd l))).
Proof.
  apply W_WK; cbn [map].
  - intros. repeat split; [constructor|intros _ []|intro; now left|intros [H|[]]; exact H].
  - intros i kids p memo l memo' Hi HW (H1 & H2 & H3). repeat split.
    + cbn. constructor; [intro H; apply (H2 i H); now left|exact H1].
    + intros j [<-|Hj]; [exact Hi|]. intro H. apply (H2 j Hj). now right.
    + intro H. apply H3 in H. cbn in *. tauto.
    + intro H. apply H3. cbn in *. tauto.
  - intros. repeat split; [constructor|intros _ []|intro; now left|intros [H|[]]; exact H].
  - intros k c ks p memo l1 m1 l2 m2 HW1 (A1 & A2 & A3) HW2 (B1 & B2 & B3). rewrite map_app. repeat split.
    + apply NoDup_app_; [exact A1|exact B1|]. intros x Hx H. apply (B2 x H). apply A3. now right.
    + intros x Hx H. apply in_app_or in Hx. destruct Hx as [Hx|Hx]; [now apply (A2 x)|]. apply (B2 x Hx). apply A3. now left.
    + intro H. rewrite in_app_iff. apply B3 in H. destruct H as [H|H]; [apply A3 in H|]; tauto.
    + intro H. rewrite in_app_iff in H. apply B3. rewrite A3. tauto.
Qed.

Lemma find_kid : forall ks k (c : mtree), NoDup (map fst ks) -> In (k, c) ks -> find (fun p : string * mtree => String.eqb (fst p) k) ks = Some (k, c).
Proof.
  induction ks as [|[k' c'] ks IH]; intros k c HN HI; [contradiction|]. cbn in *. inversion HN as [|? ? N HN']; subst. destruct HI as [E|HI].
  - injection E as -> ->. now rewrite String.eqb_refl.
  - destruct (String.eqb_spec k' k) as [E|_]; [|now apply IH]. subst. exfalso. apply N. change k with (fst (k, c)). now apply in_map.
Qed.

Lemma W_sound :
  (forall t p memo l m', W t p memo l m' -> proper t -> forall q i, In (q, i) l -> exists r s, q = p ++ r /\ Forall plain r /\ reached t r = Some s /\ ident_of s = i) /\
  (forall ks p memo l m', WK ks p memo l m' -> NoDup (map fst ks) -> (forall k c, In (k, c) ks -> plain k /\ proper c) -> forall q i, In (q, i) l -> exists k c r s, q = p ++ k :: r /\ In (k, c) ks /\ Forall plain (k :: r) /\ reached c r = Some s /\ ident_of s = i).
Proof.
  apply W_WK.
  - intros i kids p memo _ _ q j [].
  - intros i kids p memo l memo' Hi HW IH HP q j [E|HI].
    + injection E as <- <-. exists [], (Mod i kids). rewrite app_nil_r. repeat split. constructor.
    + inversion HP as [? ? HN HK]; subst. destruct (IH HN HK q j HI) as (k & c & r & s & -> & Hk & Hr & Hs & Ei). exists (k :: r), s. repeat split; auto.
      cbn [reached kids_of]. rewrite (find_kid kids k c HN Hk). exact Hs.
  - intros p memo _ _ q i [].
  - intros k c ks p memo l1 m1 l2 m2 HW1 IH1 HW2 IH2 HN HK q i HI. apply in_app_or in HI. destruct HI as [HI|HI].
    + destruct (HK k c (or_introl eq_refl)) as [Hk Hc]. destruct (IH1 Hc q i HI) as (r & s & -> & Hr & Hs & Ei). exists k, c, r, s. rewrite <- app_assoc. repeat split; auto. now left.
    + inversion HN as [|? ? _ HN']; subst. destruct (IH2 HN' (fun k' c' H => HK k' c' (or_intror H)) q i HI) as (k' & c' & r & s & -> & Hk' & Hr & Hs & Ei). exists k', c', r, s. repeat split; auto. now right.
Qed.

Lemma W_nodup :
  (forall t p memo l m', W t p memo l m' -> proper t -> NoDup (map fst l)) /\
  (forall ks p memo l m', WK ks p memo l m' -> NoDup (map fst ks) -> (forall k c, In (k, c) ks -> plain k /\ proper c) -> NoDup (map fst l)).
Proof.
  apply W_WK.
  - constructor.
  - intros i kids p memo l memo' Hi HW IH HP. inversion HP as [? ? HN HK]; subst. cbn. constructor; [|now apply IH].
    intro H. apply in_map_iff in H. destruct H as ([q j] & E & HI). cbn in E. subst q. destruct (proj2 W_sound _ _ _ _ _ HW HN HK p j HI) as (k & c & r & s & E & _).
    apply (f_equal (@length string)) in E. rewrite app_length in E. cbn in E. lia.
  - constructor.
  - intros k c ks p memo l1 m1 l2 m2 HW1 IH1 HW2 IH2 HN HK. rewrite map_app. inversion HN as [|? ? N HN']; subst.
    assert (HK' := fun k' c' H => HK k' c' (or_intror H)). destruct (HK k c (or_introl eq_refl)) as [Hk Hc].
    apply NoDup_app_; [now apply IH1|now apply IH2|]. intros q H1 H2. apply in_map_iff in H1, H2. destruct H1 as ([q1 j1] & E1 & H1). destruct H2 as ([q2 j2] & E2 & H2). cbn in E1, E2. subst q1 q2.
    destruct (proj1 W_sound _ _ _ _ _ HW1 Hc q j1 H1) as (r1 & _ & Eq1 & _). destruct (proj2 W_sound _ _ _ _ _ HW2 HN' HK' q j2 H2) as (k2 & c2 & r2 & _ & Eq2 & Hk2 & _).
    rewrite Eq1, <- app_assoc in Eq2. apply app_inv_head in Eq2. cbn in Eq2. injection Eq2 as Ek _. apply N. cbn. rewrite Ek. change k2 with (fst (k2, c2)). now apply in_map.
Qed.

(** the module above a listed one is listed *)
Lemma W_parent :
  (forall t p memo l m', W t p memo l m' -> forall q i, In (q, i) l -> q = p \/ exists q0 k j, q = q0 ++ [k] /\ In (q0, j) l) /\
  (forall ks p memo l m', WK ks p memo l m' -> forall q i, In (q, i) l -> exists q0 k, q = q0 ++ [k] /\ (q0 = p \/ exists j, In (q0, j) l)).
Proof.
  apply W_WK.
  - intros i kids p memo _ q j [].
  - intros i kids p memo l memo' Hi HW IH q j [E|HI]; [injection E as <- <-; now left|]. right. destruct (IH q j HI) as (q0 & k & -> & [->|(j0 & H0)]).
    + exists p, k, i. split; [reflexivity|now left].
    + exists q0, k, j0. split; [reflexivity|now right].
  - intros p memo q i [].
  - intros k c ks p memo l1 m1 l2 m2 HW1 IH1 HW2 IH2 q i HI. apply in_app_or in HI. destruct HI as [HI|HI].
    + destruct (IH1 q i HI) as [->|(q0 & k0 & j & -> & H0)]; [exists p, k; auto|]. exists q0, k0. split; [reflexivity|right]. exists j. apply in_or_app. now left.
    + destruct (IH2 q i HI) as (q0 & k0 & -> & [->|(j & H0)]); [exists p, k0; auto|]. exists q0, k0. split; [reflexivity|right]. exists j. apply in_or_app. now right.
Qed.

(* ------------------------------------------------------------------ what named_modules lists *)
Lemma listed : forall t, proper t -> exists l,
  named_modules t = out l /\ NoDup (map snd l) /\ NoDup (map fst l) /\ NoDup (map fst (named_modules t)) /\ hd_error l = Some ([], ident_of t) /\
  (forall q i, In (q, i) l -> Forall plain q /\ exists s, reached t q = Some s /\ ident_of s = i) /\
  (forall q k i, In (q ++ [k], i) l -> exists j, In (q, j) l).
Proof.
  intros t HP. destruct (named_W t HP [] [] ltac:(constructor)) as (l & HW & E). change (dotted []) with "" in *. exists l.
  assert (HS : forall q i, In (q, i) l -> Forall plain q /\ exists s, reached t q = Some s /\ ident_of s = i).
  { intros q i HI. destruct (proj1 W_sound _ _ _ _ _ HW HP q i HI) as (r & s & -> & Hr & Hs & Ei). cbn. split; [exact Hr|]. now exists s. }
  assert (HN := proj1 W_nodup _ _ _ _ _ HW HP).
  repeat split.
  - exact E.
  - apply (proj1 W_ids _ _ _ _ _ HW).
  - exact HN.
  - unfold named_modules. rewrite E. unfold out. rewrite map_map. cbn [fst]. rewrite <- (map_map fst dotted). clear - HN HS.
    assert (HA : forall q, In q (map fst l) -> Forall plain q). { intros q H. apply in_map_iff in H. destruct H as ([q' i] & <- & H). now apply (HS q' i). }
    clear HS. induction (map fst l) as [|q qs IH]; [constructor|]. inversion HN as [|? ? N HN']; subst. cbn. constructor.
    + intro H. apply in_map_iff in H. destruct H as (q' & Eq & H). apply N. rewrite <- (dotted_inj q' q); auto; apply HA; [now right|now left].
    + apply IH; [exact HN'|]. intros; apply HA; now right.
  - inversion HW; subst; [contradiction|]. reflexivity.
  - apply (HS q i H).
  - apply (HS q i H).
  - intros q k i HI. destruct (proj1 W_parent _ _ _ _ _ HW _ i HI) as [E0|(q0 & k0 & j & E0 & H0)].
    + destruct q; discriminate E0.
    + apply app_inj_tail in E0. destruct E0 as [<- _]. now exists j.
Qed.

(* ------------------------------------------------------------------ assigning and finding *)
Lemma assign_get : forall (l : list (string * nat)) s i, NoDup (map snd l) ->
  (forall n, In (n, i) l -> fold_left (fun s0 (p : string * nat) => set_fq s0 (snd p) (fst p)) l s i = Some n) /\
  (~ In i (map snd l) -> fold_left (fun s0 (p : string * nat) => set_fq s0 (snd p) (fst p)) l s i = s i).
Proof.
  induction l as [|[n0 i0] l IH]; intros s i HN; [split; [intros n []|reflexivity]|]. cbn in HN. inversion HN as [|? ? N HN']; subst. cbn [fold_left fst snd]. split.
  - intros n [E|HI].
    + injection E as -> ->. rewrite (proj2 (IH _ _ HN') N). unfold set_fq. now rewrite Nat.eqb_refl.
    + now apply (proj1 (IH _ _ HN')).
  - intro H. rewrite (proj2 (IH _ _ HN')) by (intro; apply H; now right). unfold set_fq. destruct (Nat.eqb_spec i i0) as [E|]; [|reflexivity]. exfalso. apply H. left. now symmetry.
Qed.

Lemma NoDup_fst_unique : forall {A B} (l : list (A * B)) a b b', NoDup (map fst l) -> In (a, b) l -> In (a, b') l -> b = b'.
Proof.
  induction l as [|[x y] l IH]; intros a b b' HN H1 H2; [contradiction|]. cbn in HN. inversion HN as [|? ? N HN']; subst.
  destruct H1 as [E1|H1]; destruct H2 as [E2|H2]; [congruence|exfalso; injection E1 as -> ->; apply N; change a with (fst (a, b')); now apply in_map|exfalso; injection E2 as -> ->; apply N; change a with (fst (a, b)); now apply in_map|eapply IH; eassumption].
Qed.

Lemma find_iff : forall t s, proper t -> forall n i, find_module_by_fq_name t (assign_layer_fq_names t s) n = Some i <-> In (n, i) (named_modules t).
Proof.
  intros t s HP n i. destruct (listed t HP) as (l & E & HI & _ & HF & _).
  assert (HN : NoDup (map snd (named_modules t))). { rewrite E. unfold out. rewrite map_map. exact HI. }
  assert (HA : forall j m, In (m, j) (named_modules t) -> assign_layer_fq_names t s j = Some m) by (intros; unfold assign_layer_fq_names; now apply (assign_get (named_modules t) s j HN)).
  unfold find_module_by_fq_name, modules. split.
  - intro H. apply find_some in H. destruct H as [H1 H2]. apply in_map_iff in H1. destruct H1 as ([m j] & Ej & H1). cbn in Ej. subst j. rewrite (HA i m H1) in H2. apply String.eqb_eq in H2. now subst.
  - intro H. destruct (find _ _) as [j|] eqn:Ef.
    + apply find_some in Ef. destruct Ef as [H1 H2]. apply in_map_iff in H1. destruct H1 as ([m j'] & Ej & H1). cbn in Ej. subst j'. rewrite (HA j m H1) in H2. apply String.eqb_eq in H2. subst m.
      f_equal. eapply NoDup_fst_unique; eassumption.
    + exfalso. eapply find_none in Ef; [|apply in_map_iff; exists (n, i); split; [reflexivity|exact H]]. cbn in Ef. rewrite (HA i n H), String.eqb_refl in Ef. discriminate Ef.
Qed.

(* ------------------------------------------------------------------ setting *)
Lemma lookup_iff : forall (d : list (string * nat)) n i, NoDup (map fst d) -> (lookup d n = Some i <-> In (n, i) d).
Proof.
  intros d n i HN. unfold lookup. split.
  - destruct (find _ (rev d)) as [[m j]|] eqn:Ef; [|discriminate]. intro E. injection E as <-. apply find_some in Ef. destruct Ef as [H1 H2]. apply in_rev in H1. cbn in *. apply String.eqb_eq in H2. now subst.
  - intro H. destruct (find _ (rev d)) as [[m j]|] eqn:Ef.
    + apply find_some in Ef. destruct Ef as [H1 H2]. apply in_rev in H1. cbn in *. apply String.eqb_eq in H2. subst. f_equal. eapply NoDup_fst_unique; eassumption.
    + exfalso. eapply find_none in Ef; [|apply -> in_rev; exact H]. cbn in Ef. rewrite String.eqb_refl in Ef. discriminate Ef.
Qed.

Lemma existsb_name : forall (d : list (string * nat)) n, existsb (fun p : string * nat => String.eqb (fst p) n) d = true <-> exists i, In (n, i) d.
Proof.
  intros d n. rewrite existsb_exists. split.
  - intros ([m j] & H & E). cbn in E. apply String.eqb_eq in E. subst. now exists j.
  - intros (i & H). exists (n, i). split; [exact H|apply String.eqb_refl].
Qed.

Fixpoint glued (q : list string) (a : string) : string := match q with [] => a | k :: q' => (k ++ glued q' a)%string end.

Lemma glued_snoc : forall q k a, glued (q ++ [k]) a = glued q (k ++ a)%string. Proof. induction q; intros; cbn; [reflexivity|now rewrite IHq]. Qed.

Lemma climb_ok : forall d p q attr, Forall plain (p ++ q) -> (p = [] \/ exists i, In (dotted p, i) d) ->
  (forall q1 q2, q = q1 ++ q2 -> q1 <> [] -> forall i, ~ In (dotted (p ++ q1), i) d) ->
  climb d (rev (p ++ q)) attr = (dotted p, glued q attr).
Proof.
  intros d p q. induction q as [|k q IH] using rev_ind; intros attr HF Hp HQ.
  - rewrite app_nil_r in *. cbn [glued]. destruct p as [|k p] using rev_ind; [reflexivity|]. clear IHp. rewrite rev_app_distr. cbn [rev app climb].
    destruct Hp as [E|(i & Hi)]; [destruct p; discriminate E|]. rewrite rev_involutive. change join_dot with dotted.
    replace (existsb _ d) with true; [now rewrite orb_true_r|]. symmetry. apply existsb_name. now exists i.
  - rewrite app_assoc, rev_app_distr. cbn [rev app climb]. rewrite rev_involutive. change join_dot with dotted. rewrite <- app_assoc.
    destruct (String.eqb_spec (dotted (p ++ q ++ [k])) "") as [E|_].
    + apply dotted_nil in E; [|exact HF]. destruct p; destruct q; discriminate E.
    + cbn [orb]. destruct (existsb _ d) eqn:Ee; [|].
      * exfalso. apply existsb_name in Ee. destruct Ee as (i & Hi). apply (HQ (q ++ [k]) [] ltac:(now rewrite app_nil_r) ltac:(destruct q; discriminate) i Hi).
      * rewrite IH; [now rewrite glued_snoc|rewrite app_assoc in HF; now apply Forall_app in HF|exact Hp|].
        intros q1 q2 E N. apply (HQ q1 (q2 ++ [k])); [now rewrite app_assoc, <- E|exact N].
Qed.

Lemma setattr_ok : forall t p q a, proper t -> Forall plain (p ++ q) -> no_dot a = true ->
  forall i, In (dotted p, i) (named_modules t) ->
  (forall q1 q2, q = q1 ++ q2 -> q1 <> [] -> forall i, ~ In (dotted (p ++ q1), i) (named_modules t)) ->
  model_setattr t (dotted (p ++ q ++ [a])) = Ok (i, glued q a).
Proof.
  intros t p q a HP HF Ha i Hi HQ. unfold model_setattr.
  assert (ES : split_dot (dotted (p ++ q ++ [a])) = p ++ q ++ [a]).
  { change dotted with join_dot. apply split_join; [destruct p; destruct q; discriminate|]. rewrite app_assoc. apply Forall_app. split; [|now constructor]. eapply Forall_impl; [|exact HF]. intros; now apply plain_no_dot. }
  rewrite ES, app_assoc, rev_app_distr. cbn [rev app tl hd].
  rewrite (climb_ok _ p q a HF (or_intror (ex_intro _ i Hi)) HQ). cbn [fst snd].
  destruct (listed t HP) as (l & _ & _ & _ & HN & _). rewrite (proj2 (lookup_iff _ (dotted p) i HN) Hi). reflexivity.
Qed.
