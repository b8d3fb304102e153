(** Recipes as sets of directives. *)
From Coq Require Import String List ZArith QArith Bool Arith Lia.
From Verif Require Import Base Lists StructModel ThinModel ThinSpec ThinProofs ThinExecProofs.
Import ListNotations.
Local Open Scope nat_scope.

Lemma directives_equal_eq a b : directives_equal a b = true <-> a = b.
Proof.
  destruct a as [d i|d i v w], b as [d' i'|d' i' v' w']; simpl; try (split; discriminate).
  - rewrite andb_true_iff, Nat.eqb_eq, list_eqb_eq. split; [intros [-> ->]; auto|intros [= -> ->]; auto].
  - rewrite !andb_true_iff, Nat.eqb_eq, !list_eqb_eq. split; [intros [[[-> ->] ->] ->]; auto|intros [= -> -> -> ->]; auto].
Qed.

Definition has (r : recipe) (k : pname) (d : pdir) : Prop := exists ds, pget (r_params r) k = Some ds /\ In d ds.
Definition mhas (r : recipe) (n a : string) (v : mdir) : Prop := exists md, dget (r_mods r) n = Some md /\ dget md a = Some v.
Definition grows (r r' : recipe) : Prop := (forall k d, has r k d -> has r' k d) /\ (forall n a v, mhas r n a v -> mhas r' n a v).
Lemma grows_refl r : grows r r. Proof. split; auto. Qed.
Lemma grows_trans a b c : grows a b -> grows b c -> grows a c. Proof. intros [A B] [C D]. split; auto. Qed.

Lemma dget_In {A} (d : dict A) k v : dget d k = Some v -> In (k, v) d.
Proof. induction d as [|[k' v'] d IH]; simpl; [discriminate|]. destruct (String.eqb_spec k k'); [intros [= <-]; subst; auto|auto]. Qed.
Lemma dget_nodup {A} (d : dict A) k v : NoDup (map fst d) -> In (k, v) d -> dget d k = Some v.
Proof.
  induction d as [|[k' v'] d IH]; simpl; intros N I; [tauto|]. inversion N; subst. destruct (String.eqb_spec k k') as [->|ne].
  - destruct I as [E|I]; [congruence|]. exfalso. apply H1. apply in_map_iff. exists (k', v). auto.
  - destruct I as [E|I]; [congruence|]. auto.
Qed.
Lemma dset_keys_nodup {A} (d : dict A) k v : NoDup (map fst d) -> NoDup (map fst (dset d k v)).
Proof.
  assert (G : forall d, forall x, In x (map fst (dset d k v)) -> x = k \/ In x (map fst d)).
  { induction d0 as [|[k' v'] d0 IH]; simpl; [intros x [<-|[]]; auto|]. intros x. destruct (String.eqb_spec k k'); simpl; intros [<-|I]; auto. destruct (IH x I); auto. }
  induction d as [|[k' v'] d IH]; simpl; intros N; [repeat constructor; intros []|]. inversion N; subst. destruct (String.eqb_spec k k') as [->|ne]; simpl; constructor; auto.
  intro I. destruct (G _ _ I) as [->|J]; auto.
Qed.
Lemma in_dset {A} (d : dict A) k v x y : NoDup (map fst d) -> In (x, y) (dset d k v) -> (x = k /\ y = v) \/ In (x, y) d.
Proof.
  intros N I. apply (dget_nodup _ _ _ (dset_keys_nodup d k v N)) in I. destruct (string_dec k x) as [->|ne].
  - rewrite dget_dset_eq in I. injection I as ->. auto.
  - rewrite dget_dset_neq in I by auto. right. apply dget_In; auto.
Qed.
Lemma pset_keys_nodup {A} (d : pdict A) k v : NoDup (map fst d) -> NoDup (map fst (pset d k v)).
Proof.
  assert (G : forall d, forall x, In x (map fst (pset d k v)) -> x = k \/ In x (map fst d)).
  { induction d0 as [|[k' v'] d0 IH]; simpl; [intros x [<-|[]]; auto|]. intros x. destruct (pname_eqb k k'); simpl; intros [<-|I]; auto. destruct (IH x I); auto. }
  induction d as [|[k' v'] d IH]; simpl; intros N; [repeat constructor; intros []|]. inversion N; subst. destruct (pname_eqb k k') eqn:E; simpl; constructor; auto.
  intro I. destruct (G _ _ I) as [->|J]; auto. rewrite pname_eqb_refl in E. discriminate.
Qed.

Section Wanted.
  Variable wanted : pname -> pdir -> Prop.
  Variable mwanted : string -> string -> mdir -> Prop.
  Hypothesis mfun : forall n a v v', mwanted n a v -> mwanted n a v' -> v = v'.

  Record sound (r : recipe) : Prop := {
    so_pkeys : NoDup (map fst (r_params r));
    so_params : forall k ds, pget (r_params r) k = Some ds -> NoDup ds /\ ds <> [] /\ forall d, In d ds -> wanted k d;
    so_mkeys : NoDup (map fst (r_mods r));
    so_mods : forall n md, dget (r_mods r) n = Some md -> NoDup (map fst md) /\ forall a v, In (a, v) md -> mwanted n a v;
    so_mne : forall n md, dget (r_mods r) n = Some md -> md <> []
  }.
  Definition good (r r' : recipe) : Prop := sound r' /\ grows r r'.
  Lemma good_refl r : sound r -> good r r. Proof. intro S. split; auto. apply grows_refl. Qed.
  Lemma good_trans a b c : good a b -> good b c -> good a c. Proof. intros [A B] [C D]. split; auto. eapply grows_trans; eauto. Qed.

  Lemma sound_empty : sound empty_recipe.
  Proof. constructor; simpl; try constructor; discriminate. Qed.

  Lemma append_param_ok r k d : sound r -> wanted k d -> good r (append_param r k d) /\ has (append_param r k d) k d.
  Proof.
    intros S W. unfold append_param. set (ds := match pget (r_params r) k with Some l => l | None => [] end).
    destruct (existsb _ ds) eqn:E.
    - apply existsb_exists in E as (d' & I & E). apply directives_equal_eq in E. subst d'. split; [apply good_refl; auto|].
      unfold ds in I. destruct (pget (r_params r) k) as [l|] eqn:G; [|destruct I]. exists l. auto.
    - assert (N : ~ In d ds). { intro I. assert (existsb (fun d' => directives_equal d' d) ds = true); [|congruence]. apply existsb_exists. exists d. split; auto. apply directives_equal_eq; auto. }
      split; [split|].
      + constructor; cbn [r_params r_mods]; try apply S.
        * apply pset_keys_nodup. apply S.
        * intros k' ds' G. destruct (pname_eqb k k') eqn:Ek.
          -- apply pname_eqb_eq in Ek. subst k'. rewrite pget_pset_same in G. injection G as <-. split; [|split].
             ++ assert (Nd : NoDup ds) by (unfold ds; destruct (pget (r_params r) k) eqn:G; [apply (so_params r S k); auto|constructor]).
                clear -N Nd. induction ds as [|a l IH]; simpl; [repeat constructor; auto|]. inversion Nd; subst. constructor; [|apply IH; auto; intro; apply N; right; auto].
                rewrite in_app_iff. intros [I|[<-|[]]]; auto. apply N; left; auto.
             ++ destruct ds; discriminate.
             ++ intros d' I. apply in_app_or in I as [I|[<-|[]]]; auto. unfold ds in I. destruct (pget (r_params r) k) eqn:G; [|destruct I]. eapply (so_params r S k); eauto.
          -- rewrite pget_pset_other in G by (intro; subst; rewrite pname_eqb_refl in Ek; discriminate). apply (so_params r S); auto.
      + split; [|auto]. intros k' d' (l & G & I). destruct (pname_eqb k k') eqn:Ek.
        * apply pname_eqb_eq in Ek. subst k'. exists (ds ++ [d]). cbn [r_params]. rewrite pget_pset_same. split; auto. apply in_or_app. left. unfold ds. rewrite G. auto.
        * exists l. cbn [r_params]. rewrite pget_pset_other by (intro; subst; rewrite pname_eqb_refl in Ek; discriminate). auto.
      + exists (ds ++ [d]). cbn [r_params]. rewrite pget_pset_same. split; auto. apply in_or_app. right; left; auto.
  Qed.
  Lemma append_if_ok b r k d : sound r -> (b = true -> wanted k d) -> good r (append_if b r k d) /\ (b = true -> has (append_if b r k d) k d).
  Proof. intros S W. unfold append_if. destruct b; [destruct (append_param_ok r k d); auto|]. split; [apply good_refl; auto|discriminate]. Qed.
  Lemma set_param_ok r k d : sound r -> wanted k d -> (forall d', wanted k d' -> d' = d) -> good r (set_param r k [d]) /\ has (set_param r k [d]) k d.
  Proof.
    intros S W U. unfold set_param. split; [split|].
    - constructor; cbn [r_params r_mods]; try apply S.
      + apply pset_keys_nodup. apply S.
      + intros k' ds G. destruct (pname_eqb k k') eqn:Ek.
        * apply pname_eqb_eq in Ek. subst k'. rewrite pget_pset_same in G. injection G as <-. split; [repeat constructor; intros []|]. split; [discriminate|]. intros d' [<-|[]]. auto.
        * rewrite pget_pset_other in G by (intro; subst; rewrite pname_eqb_refl in Ek; discriminate). apply (so_params r S); auto.
    - split; [|auto]. intros k' d' (l & G & I). destruct (pname_eqb k k') eqn:Ek.
      + apply pname_eqb_eq in Ek. subst k'. exists [d]. cbn [r_params]. rewrite pget_pset_same. split; auto. left. symmetry. apply U. eapply (so_params r S k); eauto.
      + exists l. cbn [r_params]. rewrite pget_pset_other by (intro; subst; rewrite pname_eqb_refl in Ek; discriminate). auto.
    - exists [d]. cbn [r_params]. rewrite pget_pset_same. split; auto. left; auto.
  Qed.
  Lemma append_module_ok r n a v : sound r -> mwanted n a v -> good r (append_module r n a v) /\ mhas (append_module r n a v) n a v.
  Proof.
    intros S W. unfold append_module. set (md := match dget (r_mods r) n with Some x => x | None => [] end).
    assert (Nd : NoDup (map fst md) /\ forall a v, In (a, v) md -> mwanted n a v) by (unfold md; destruct (dget (r_mods r) n) eqn:G; [apply (so_mods r S n); auto|split; [constructor|intros ? ? []]]).
    split; [split|].
    - constructor; cbn [r_params r_mods]; try apply S.
      + apply dset_keys_nodup. apply S.
      + intros n' md' G. destruct (string_dec n n') as [->|ne].
        * rewrite dget_dset_eq in G. injection G as <-. split; [apply dset_keys_nodup; apply Nd|]. intros a' v' I. apply in_dset in I as [[-> ->]|I]; auto; apply Nd; auto.
        * rewrite dget_dset_neq in G by auto. apply (so_mods r S); auto.
      + intros n' md' G. destruct (string_dec n n') as [->|ne].
        * rewrite dget_dset_eq in G. injection G as <-. destruct md as [|[x y] md0]; simpl; [discriminate|]. destruct (String.eqb a x); discriminate.
        * rewrite dget_dset_neq in G by auto. apply (so_mne r S n'); auto.
    - split; [auto|]. intros n' a' v' (l & G & I). destruct (string_dec n n') as [->|ne].
      + exists (dset md a v). cbn [r_mods]. rewrite dget_dset_eq. split; auto. destruct (string_dec a a') as [->|na].
        * rewrite dget_dset_eq. f_equal. apply (mfun n' a'); auto. apply Nd. unfold md. rewrite G. apply dget_In; auto.
        * rewrite dget_dset_neq by auto. unfold md. rewrite G. auto.
      + exists l. cbn [r_mods]. rewrite dget_dset_neq by auto. auto.
    - exists (dset md a v). cbn [r_mods]. rewrite !dget_dset_eq. auto.
  Qed.
End Wanted.
