(** Proofs about the replacement of the module lists. *)
From Coq Require Import String Ascii List Bool Arith Lia.
From Verif Require Import Base Names QzrModel QzrSpec QzrProofs SgModel SgSpec SgProofs SgNames SgListModel SgListSpec.
Import ListNotations.
Open Scope list_scope.

Section Ind.
  Variable P : mtree -> Prop.
  Hypothesis HM : forall id kids, Forall (fun nc => P (snd nc)) kids -> P (MMod id kids).
  Hypothesis HL : forall items, Forall P items -> P (MList items).
  Fixpoint mtree_ind' (t : mtree) : P t :=
    match t with
    | MMod id kids => HM id kids ((fix go (l : list (string * mtree)) : Forall (fun nc => P (snd nc)) l :=
        match l with [] => Forall_nil _ | nc :: l => Forall_cons _ (mtree_ind' (snd nc)) (go l) end) kids)
    | MList items => HL items ((fix go (l : list mtree) : Forall P l := match l with [] => Forall_nil _ | c :: l => Forall_cons _ (mtree_ind' c) (go l) end) items)
    end.
End Ind.

Definition conv_kids : list (string * mtree) -> res (list (string * mtree)) :=
  fix go (l : list (string * mtree)) : res (list (string * mtree)) :=
    match l with [] => Ok [] | (n, c) :: l => do c <- convert c; do r <- go l; Ok ((n, c) :: r) end.
Definition conv_items : list mtree -> res (list mtree) :=
  fix go (l : list mtree) : res (list mtree) := match l with [] => Ok [] | c :: l => do c <- convert c; do r <- go l; Ok (c :: r) end.
Lemma convert_mod id kids : convert (MMod id kids) = do kids <- conv_kids kids; do kids <- convert_kids kids; Ok (MMod id kids).
Proof. reflexivity. Qed.
Lemma convert_list items : convert (MList items) = do items <- conv_items items; Ok (MList items).
Proof. reflexivity. Qed.
Definition flat_items (name : string) : nat -> list mtree -> list (string * mtree) :=
  fix go (i : nat) (l : list mtree) : list (string * mtree) := match l with [] => [] | x :: l => flat (name ++ "_" ++ dec i)%string x ++ go (S i) l end.
Lemma flat_list name items : flat name (MList items) = flat_items name 0 items.
Proof. reflexivity. Qed.
Definition paths_kids (path : list string) : list (string * mtree) -> list (list string * nat) :=
  fix go (l : list (string * mtree)) := match l with [] => [] | (n, c) :: l => mpaths (path ++ [n]) c ++ go l end.
Definition paths_items (path : list string) : nat -> list mtree -> list (list string * nat) :=
  fix go (i : nat) (l : list mtree) := match l with [] => [] | c :: l => mpaths (path ++ [dec i]) c ++ go (S i) l end.
Lemma mpaths_mod path id kids : mpaths path (MMod id kids) = (path, id) :: paths_kids path kids. Proof. reflexivity. Qed.
Lemma mpaths_list path items : mpaths path (MList items) = paths_items path 0 items. Proof. reflexivity. Qed.
Definition mods_kids (prefix : string) : list (string * mtree) -> list (string * nat) :=
  fix go (l : list (string * mtree)) := match l with [] => [] | (n, c) :: l => modules_of (sub_name prefix n) c ++ go l end.
Definition mods_items (prefix : string) : nat -> list mtree -> list (string * nat) :=
  fix go (i : nat) (l : list mtree) := match l with [] => [] | c :: l => modules_of (sub_name prefix (dec i)) c ++ go (S i) l end.
Lemma modules_mod prefix id kids : modules_of prefix (MMod id kids) = (prefix, id) :: mods_kids prefix kids. Proof. reflexivity. Qed.
Lemma modules_list prefix items : modules_of prefix (MList items) = mods_items prefix 0 items. Proof. reflexivity. Qed.

(** numbers are good names *)
Lemma dec_aux_good fuel : forall n s, no_dot s = true -> no_dot (dec_aux fuel n s) = true.
Proof.
  induction fuel as [|fuel IH]; intros n s H; auto. cbn [dec_aux].
  assert (K : no_dot (String (digit (n mod 10)) s) = true).
  { cbn [no_dot]. rewrite H, andb_true_r. apply negb_true_iff. apply Ascii.eqb_neq. intro E. apply (f_equal nat_of_ascii) in E. unfold digit in E.
    assert (n mod 10 < 10) by (apply Nat.mod_upper_bound; lia). rewrite nat_ascii_embedding in E by lia. change (nat_of_ascii dot) with 46 in E. lia. }
  destruct (Nat.ltb n 10); auto.
Qed.
Lemma dec_aux_nonempty fuel : forall n s, s <> EmptyString -> dec_aux fuel n s <> EmptyString.
Proof. induction fuel as [|fuel IH]; intros n s H; auto. cbn [dec_aux]. destruct (Nat.ltb n 10); [discriminate|]. apply IH. discriminate. Qed.
Lemma dec_good n : good_name (dec n).
Proof.
  split; [|apply dec_aux_good; reflexivity]. change (dec n) with (dec_aux (S n) n EmptyString). cbn [dec_aux]. destruct (Nat.ltb n 10); [discriminate|]. apply dec_aux_nonempty. discriminate.
Qed.
Lemma no_dot_app a b : no_dot (a ++ b)%string = no_dot a && no_dot b.
Proof. induction a; cbn; auto. rewrite IHa, andb_assoc. auto. Qed.
Lemma item_good name i : good_name name -> good_name (name ++ "_" ++ dec i)%string.
Proof. intros (A & B). destruct (dec_good i) as (_ & D). split; [destruct name; [congruence|discriminate]|]. rewrite !no_dot_app, B, D. reflexivity. Qed.

(** strings and paths *)
Lemma modules_paths t : forall path, Forall good_name path -> good_tree t -> modules_of (join_dot path) t = map (fun p => (join_dot (fst p), snd p)) (mpaths path t).
Proof.
  induction t as [id kids IH|items IH] using mtree_ind'; intros path Gp G.
  - rewrite modules_mod, mpaths_mod. cbn [map fst snd]. f_equal. inversion G as [? ? Gn _ _ Gk|]; subst. clear G.
    induction kids as [|(n, c) kids IHk]; auto. cbn [mods_kids paths_kids]. inversion IH; inversion Gk; inversion Gn; subst. rewrite map_app. f_equal; [|apply IHk; auto].
    rewrite sub_name_join by auto. cbn [snd] in *. apply H1; auto. apply Forall_app. auto.
  - rewrite modules_list, mpaths_list. inversion G as [|? Gi]; subst. clear G. generalize 0.
    induction items as [|c items IHi]; intro i; auto. cbn [mods_items paths_items]. inversion IH; inversion Gi; subst. rewrite map_app. f_equal; [|apply IHi; auto].
    rewrite sub_name_join by auto. apply H1; auto. apply Forall_app. split; auto. constructor; [apply dec_good|auto].
Qed.
Lemma mpaths_prefix t : forall path p i, good_tree t -> In (p, i) (mpaths path t) -> exists r, p = path ++ r /\ Forall good_name r.
Proof.
  induction t as [id kids IH|items IH] using mtree_ind'; intros path p i G H.
  - rewrite mpaths_mod in H. destruct H as [H|H]; [injection H as <- <-; exists []; rewrite app_nil_r; auto|]. inversion G as [? ? Gn _ _ Gk|]; subst. clear G.
    induction kids as [|(n, c) kids IHk]; [destruct H|]. cbn [paths_kids] in H. inversion IH; inversion Gk; inversion Gn; subst. apply in_app_or in H. destruct H as [H|H]; [|apply IHk; auto].
    cbn [snd] in *. destruct (H2 _ _ _ H6 H) as (r & -> & Gr). exists (n :: r). rewrite <- app_assoc. split; auto.
  - rewrite mpaths_list in H. inversion G as [|? Gi]; subst. clear G. revert H. generalize 0.
    induction items as [|c items IHi]; intros j H; [destruct H|]. cbn [paths_items] in H. inversion IH; inversion Gi; subst. apply in_app_or in H. destruct H as [H|H]; [|eapply IHi; eauto].
    destruct (H2 _ _ _ H6 H) as (r & -> & Gr). exists (dec j :: r). rewrite <- app_assoc. split; auto. constructor; auto. apply dec_good.
Qed.
Lemma paths_kids_head path kids p i : Forall (fun nc => good_tree (snd nc)) kids -> In (p, i) (paths_kids path kids) -> exists n r, In n (map fst kids) /\ p = path ++ n :: r.
Proof.
  intro G. induction kids as [|(n, c) kids IH]; intro H; [destruct H|]. inversion G; subst. cbn [paths_kids] in H. apply in_app_or in H. destruct H as [H|H].
  - destruct (mpaths_prefix _ _ _ _ H2 H) as (r & -> & _). exists n, r. rewrite <- app_assoc. split; [left; auto|auto].
  - destruct (IH H3 H) as (n' & r & I & E). exists n', r. split; [right; auto|auto].
Qed.
Lemma paths_items_head path items : forall j p i, Forall good_tree items -> In (p, i) (paths_items path j items) -> exists k r, j <= k /\ p = path ++ dec k :: r.
Proof.
  induction items as [|c items IH]; intros j p i G H; [destruct H|]. inversion G; subst. cbn [paths_items] in H. apply in_app_or in H. destruct H as [H|H].
  - destruct (mpaths_prefix _ _ _ _ H2 H) as (r & -> & _). exists j, r. rewrite <- app_assoc. auto.
  - destruct (IH _ _ _ H3 H) as (k & r & L & E). exists k, r. split; [lia|auto].
Qed.
Lemma app_head_inj {A} (p : list A) a b r r' : p ++ a :: r = p ++ b :: r' -> a = b.
Proof. intro H. apply app_inv_head in H. congruence. Qed.
Lemma mpaths_NoDup t : forall path, good_tree t -> NoDup (map fst (mpaths path t)).
Proof.
  induction t as [id kids IH|items IH] using mtree_ind'; intros path G.
  - rewrite mpaths_mod. cbn [map fst]. inversion G as [? ? Gn Nk _ Gk|]; subst. clear G. constructor.
    + intro H. apply in_map_iff in H. destruct H as ((p & i) & E & H). cbn in E. subst p. apply paths_kids_head in H; auto. destruct H as (n & r & _ & E). rewrite <- (app_nil_r path) in E at 1. apply app_inv_head in E. discriminate.
    + clear Gn. induction kids as [|(n, c) kids IHk]; [constructor|]. inversion IH; inversion Nk; inversion Gk; subst. cbn [paths_kids]. rewrite map_app. apply NoDup_app_intro; auto.
      intros x H H'. apply in_map_iff in H. destruct H as ((p & i) & <- & H). apply in_map_iff in H'. destruct H' as ((p' & i') & E & H'). cbn in E. subst p'. cbn [fst] in *.
      apply mpaths_prefix in H; auto. destruct H as (r & -> & _). apply paths_kids_head in H'; auto. destruct H' as (n' & r' & I & E). rewrite <- app_assoc in E. cbn in E. apply app_head_inj in E. subst n'. auto.
  - rewrite mpaths_list. inversion G as [|? Gi]; subst. clear G. generalize 0. induction items as [|c items IHi]; intro j; [constructor|]. inversion IH; inversion Gi; subst. cbn [paths_items]. rewrite map_app.
    apply NoDup_app_intro; auto. intros x H H'. apply in_map_iff in H. destruct H as ((p & i) & <- & H). apply in_map_iff in H'. destruct H' as ((p' & i') & E & H'). cbn in E. subst p'. cbn [fst] in *.
    apply mpaths_prefix in H; auto. destruct H as (r & -> & _). apply paths_items_head in H'; auto. destruct H' as (k & r' & L & E). rewrite <- app_assoc in E. cbn in E. apply app_head_inj in E. apply dec_inj in E. lia.
Qed.
Lemma modules_NoDup t : good_tree t -> NoDup (map fst (modules_of EmptyString t)).
Proof.
  intro G. change EmptyString with (join_dot []). rewrite modules_paths by auto. rewrite map_map. cbn [fst].
  assert (E : map (fun x : list string * nat => join_dot (fst x)) (mpaths [] t) = map join_dot (map fst (mpaths [] t))) by (rewrite map_map; auto). rewrite E.
  assert (Gd : forall p, In p (map fst (mpaths [] t)) -> Forall good_name p).
  { intros p H. apply in_map_iff in H. destruct H as ((q & i) & <- & H). apply mpaths_prefix in H; auto. destruct H as (r & -> & Gr). auto. }
  assert (N := mpaths_NoDup t [] G). revert Gd N. generalize (map fst (mpaths [] t)). induction l as [|p l IH]; intros Gd N; cbn; [constructor|]. inversion N; subst. constructor.
  - intro H. apply in_map_iff in H. destruct H as (q & E' & H). apply join_inj_good in E'; [subst; auto|apply Gd; right; auto|apply Gd; left; auto].
  - apply IH; auto. intros; apply Gd; right; auto.
Qed.

(** dictionaries of distinct keys *)
Lemma to_dict_app {A} (l : list (string * A)) : forall d, NoDup (map fst d ++ map fst l) -> fold_left (fun d nv => dset d (fst nv) (snd nv)) l d = d ++ l.
Proof.
  induction l as [|(k, v) l IH]; intros d N; cbn [fold_left]; [rewrite app_nil_r; auto|]. cbn [fst snd].
  assert (Nk : ~ In k (dkeys d)). { cbn in N. apply NoDup_remove_2 in N. intro H. apply N. apply in_or_app. auto. }
  rewrite dset_new by auto. rewrite IH; [rewrite <- app_assoc; reflexivity|]. rewrite map_app, <- app_assoc. exact N.
Qed.
Lemma to_dict_id {A} (l : list (string * A)) : NoDup (map fst l) -> to_dict l = l.
Proof. intro N. unfold to_dict. rewrite to_dict_app; auto. Qed.

(** the conversion *)
Lemma add_modules l : forall d attrs, NoDup (dkeys d ++ map fst l) -> (forall n, In n (map fst l) -> ~ In n attrs) -> foldM add_module l (d, attrs) = Ok (d ++ l, attrs).
Proof.
  induction l as [|(n, t) l IH]; intros d attrs N D; cbn [foldM]; [rewrite app_nil_r; auto|]. unfold add_module at 1. cbn [fst snd].
  assert (S : smem n attrs = false). { destruct (smem n attrs) eqn:E; auto. apply smem_In in E. exfalso. apply (D n); cbn; auto. }
  rewrite S. cbn [andb bind]. assert (Nk : ~ In n (dkeys d)). { cbn in N. apply NoDup_remove_2 in N. intro H. apply N. apply in_or_app. auto. }
  rewrite dset_new by auto. rewrite IH; [rewrite <- app_assoc; reflexivity| |intros; apply D; right; auto]. unfold dkeys in *. rewrite map_app, <- app_assoc. exact N.
Qed.
Definition flats (kids : list (string * mtree)) : list (string * mtree) := flat_map (fun nc => flat (fst nc) (snd nc)) kids.
Lemma flats_names kids : map fst (flats kids) = flat_names kids.
Proof. unfold flats, flat_names. induction kids as [|nc kids IH]; cbn; auto. rewrite map_app, IH. auto. Qed.
Lemma NoDup_mid {A} (a b c d : list A) : NoDup ((a ++ b) ++ (c ++ d)) -> NoDup (a ++ c).
Proof.
  intro H. apply NoDup_app_parts in H. destruct H as (H1 & H2 & H3). apply NoDup_app_parts in H1. destruct H1 as (H1 & _ & _). apply NoDup_app_parts in H2. destruct H2 as (H2 & _ & _).
  apply NoDup_app_intro; auto. intros x Hx Hc. apply (H3 x); apply in_or_app; auto.
Qed.
Lemma convert_kids_ok kids : forall d attrs, NoDup ((dkeys d ++ flat_names kids) ++ (attrs ++ list_names kids)) ->
  exists attrs', foldM convert_child kids (d, attrs) = Ok (d ++ flats kids, attrs').
Proof.
  induction kids as [|(n, t) kids IH]; intros d attrs N; cbn [foldM]; [exists attrs; cbn; rewrite app_nil_r; auto|].
  destruct (NoDup_app_parts _ _ N) as (N1 & N2 & N3). destruct t as [id ks|items]; cbn [convert_child fst snd].
  - cbn [flat_names flat_map fst snd flat map app list_names filter is_list] in *. assert (Nk : ~ In n (dkeys d)). { apply NoDup_remove_2 in N1. intro H. apply N1. apply in_or_app. auto. }
    rewrite dset_new by auto. cbn [bind].
    assert (Na : ~ In n attrs). { intro H. apply (N3 n); [apply in_or_app; right; left; auto|apply in_or_app; auto]. }
    assert (E : filter (fun x => negb (String.eqb x n)) attrs = attrs).
    { clear - Na. induction attrs as [|a l IH]; cbn; auto. destruct (String.eqb_spec a n); [subst; exfalso; apply Na; left; auto|]. cbn. f_equal. apply IH. intro; apply Na; right; auto. }
    rewrite E. destruct (IH (d ++ [(n, MMod id ks)]) attrs) as (attrs' & E'); [unfold dkeys; rewrite map_app, <- (app_assoc (map fst d)); exact N|].
    exists attrs'. rewrite E', <- app_assoc. reflexivity.
  - cbn [flat_names flat_map fst snd list_names filter is_list map] in N, N1, N2, N3. fold (flat_names kids) in N, N1, N3. fold (list_names kids) in N, N2, N3.
    set (fl := flat n (MList items)) in *.
    rewrite (add_modules fl d attrs).
    2:{ apply NoDup_app_parts in N1. destruct N1 as (Nd & Nf & Dj). apply NoDup_app_parts in Nf. destruct Nf as (Nf & _ & _). apply NoDup_app_intro; auto. intros x Hx Hf. apply (Dj x); auto. apply in_or_app; auto. }
    2:{ intros x Hx Ha. apply (N3 x); apply in_or_app; [right; apply in_or_app|]; auto. }
    cbn [bind fst snd].
    assert (Nm : dmem (d ++ fl) n = false).
    { unfold dmem. destruct (dget (d ++ fl) n) eqn:E; auto. apply dget_In in E. apply (in_map fst) in E. cbn [fst] in E. rewrite map_app in E. exfalso. apply (N3 n); [|apply in_or_app; right; left; auto].
      apply in_app_or in E. apply in_or_app. destruct E; [left; auto|right; apply in_or_app; auto]. }
    rewrite Nm. cbn [bind]. destruct (IH (d ++ fl) (n :: attrs)) as (attrs' & E').
    { apply NoDup_app_intro.
      - unfold dkeys. rewrite map_app, <- app_assoc. exact N1.
      - cbn [app]. apply (Permutation.Permutation_NoDup (l := attrs ++ n :: list_names kids)); auto. apply Permutation.Permutation_sym, Permutation.Permutation_middle.
      - intros x Hx Ha. apply (N3 x); [unfold dkeys in Hx; rewrite map_app, <- app_assoc in Hx; auto|]. cbn in Ha. destruct Ha as [<-|Ha]; [apply in_or_app; right; left; auto|].
        apply in_app_or in Ha. apply in_or_app. destruct Ha; [auto|right; right; auto]. }
    exists attrs'. rewrite E'. unfold flats. cbn [flat_map fst snd]. fold fl. rewrite <- app_assoc. reflexivity.
Qed.

(** a converted tree has the same identities in the same order *)
Fixpoint idents (t : mtree) : list nat :=
  match t with
  | MMod id kids => id :: flat_map (fun nc => idents (snd nc)) kids
  | MList items => flat_map idents items
  end.
Lemma modules_idents t : forall prefix, map snd (modules_of prefix t) = idents t.
Proof.
  induction t as [id kids IH|items IH] using mtree_ind'; intro prefix.
  - rewrite modules_mod. cbn [map snd idents]. f_equal. induction kids as [|(n, c) kids IHk]; auto. inversion IH; subst. cbn [mods_kids flat_map snd] in *. rewrite map_app, H1, IHk; auto.
  - rewrite modules_list. cbn [idents]. generalize 0. induction items as [|c items IHi]; intro j; auto. inversion IH; subst. cbn [mods_items flat_map]. rewrite map_app, H1, IHi; auto.
Qed.
Lemma flat_idents t : forall n, flat_map (fun nc => idents (snd nc)) (flat n t) = idents t.
Proof.
  induction t as [id kids IH|items IH] using mtree_ind'; intro n.
  - cbn. rewrite app_nil_r. reflexivity.
  - rewrite flat_list. cbn [idents]. generalize 0. induction items as [|c items IHi]; intro j; auto. inversion IH; subst. cbn [flat_items flat_map]. rewrite flat_map_app, H1, IHi; auto.
Qed.
Lemma flat_mods t : forall n, Forall (fun nc => is_list (snd nc) = false) (flat n t).
Proof.
  induction t as [id kids IH|items IH] using mtree_ind'; intro n; [repeat constructor|]. rewrite flat_list. generalize 0. induction items as [|c items IHi]; intro j; [constructor|]. inversion IH; subst. cbn [flat_items]. apply Forall_app. auto.
Qed.
(** trees without lists below the root *)
Inductive listless : mtree -> Prop := LL id kids : Forall (fun nc => listless (snd nc)) kids -> listless (MMod id kids).
Inductive all_items : mtree -> Prop :=
| AiMod id kids : listless (MMod id kids) -> all_items (MMod id kids)
| AiList items : Forall all_items items -> all_items (MList items).
Lemma flat_listless t : forall n, all_items t -> Forall (fun nc => listless (snd nc)) (flat n t).
Proof.
  induction t as [id kids IH|items IH] using mtree_ind'; intros n A.
  - inversion A; subst. constructor; [exact H0|constructor].
  - inversion A as [|? F]; subst. rewrite flat_list. generalize 0. clear A. induction items as [|c items IHi]; intro j; [constructor|]. inversion IH; inversion F; subst. cbn [flat_items]. apply Forall_app. auto.
Qed.
(** the names in a converted container depend only on the shape of the lists *)
Fixpoint shape_eq (t t' : mtree) : Prop :=
  match t, t' with
  | MMod _ _, MMod _ _ => True
  | MList a, MList b => (fix go (a b : list mtree) : Prop := match a, b with [], [] => True | x :: a, y :: b => shape_eq x y /\ go a b | _, _ => False end) a b
  | _, _ => False
  end.
Definition shape_items := fix go (a b : list mtree) : Prop := match a, b with [], [] => True | x :: a, y :: b => shape_eq x y /\ go a b | _, _ => False end.
Lemma shape_flat t : forall t' n, shape_eq t t' -> map fst (flat n t) = map fst (flat n t').
Proof.
  induction t as [id kids IH|items IH] using mtree_ind'; intros [id' kids'|items'] n H; cbn in H; try tauto; auto.
  rewrite !flat_list. fold shape_items in H. generalize 0. revert items' H. induction items as [|c items IHi]; intros [|c' items'] H j; cbn in H; try tauto; auto. inversion IH; subst. destruct H as (H & H'). cbn [flat_items]. rewrite !map_app. f_equal; auto.
Qed.
Lemma convert_good t : good_tree t -> exists t', convert t = Ok t' /\ shape_eq t t' /\ idents t' = idents t /\ all_items t' /\ good_tree t'.
Proof.
  induction t as [id kids IH|items IH] using mtree_ind'; intro G.
  - rewrite convert_mod. inversion G as [? ? Gn Nk Nf Gk|]; subst. clear G.
    assert (K : exists kids', conv_kids kids = Ok kids' /\ map fst kids' = map fst kids /\ flat_names kids' = flat_names kids /\ list_names kids' = list_names kids /\
      flat_map (fun nc => idents (snd nc)) kids' = flat_map (fun nc => idents (snd nc)) kids /\ Forall (fun nc => all_items (snd nc)) kids' /\ Forall (fun nc => good_tree (snd nc)) kids').
    { clear Gn Nk Nf. induction kids as [|(n, c) kids IHk]; [exists []; repeat split; auto|]. inversion IH; inversion Gk; subst. cbn [snd] in *.
      destruct (H1 H5) as (c' & E & Sh & Id & Al & Go). destruct (IHk H2 H6) as (kids' & E' & A1 & A2 & A3 & A4 & A5 & A6). exists ((n, c') :: kids'). cbn [conv_kids]. rewrite E. cbn [bind]. rewrite E'. cbn [bind].
      split; [reflexivity|]. split; [cbn; f_equal; auto|]. split; [unfold flat_names in *; cbn; rewrite A2, (shape_flat c c' n Sh); auto|].
      split; [unfold list_names in *; cbn; destruct c, c'; cbn in *; try tauto; f_equal; auto|]. split; [cbn; rewrite Id, A4; auto|]. split; constructor; auto. }
    destruct K as (kids' & E & A1 & A2 & A3 & A4 & A5 & A6). rewrite E. cbn [bind].
    destruct (convert_kids_ok kids' [] []) as (attrs & E'); [cbn; rewrite A2, A3; auto|].
    assert (Ec : convert_kids kids' = Ok (flats kids')) by (unfold convert_kids; etransitivity; [apply (f_equal (fun x => bind x (fun st => Ok (fst st))) E')|reflexivity]).
    rewrite Ec. cbn [bind]. eexists. split; [reflexivity|]. split; [exact I|].
    assert (Fl : Forall (fun nc => listless (snd nc)) (flats kids')).
    { unfold flats. clear - A5. induction kids' as [|(n, c) l IH]; cbn; [constructor|]. inversion A5; subst. apply Forall_app. split; [apply flat_listless; auto|auto]. }
    split; [cbn; f_equal; rewrite <- A4; unfold flats; clear; induction kids' as [|(n, c) l IH]; cbn; auto; rewrite flat_map_app, IH, flat_idents; auto|].
    split; [constructor; constructor; exact Fl|].
    assert (Fg : Forall (fun nc => good_tree (snd nc)) (flats kids')).
    { unfold flats. clear - A6. induction kids' as [|(n, c) l IH]; cbn; [constructor|]. inversion A6; subst. apply Forall_app. split; auto. cbn [snd] in H1. clear - H1. revert n.
      induction c as [id kids IH|items IH] using mtree_ind'; intro n; [constructor; [exact H1|constructor]|]. inversion H1 as [|? F]; subst. rewrite flat_list. generalize 0. clear H1. induction items as [|c items IHi]; intro j; [constructor|]. inversion IH; inversion F; subst. cbn [flat_items]. apply Forall_app. auto. }
    assert (Nn : Forall good_name (map fst (flats kids'))).
    { rewrite <- A1 in Gn. unfold flats. clear - Gn. induction kids' as [|(n, c) l IH]; cbn; [constructor|]. inversion Gn; subst. rewrite map_app. apply Forall_app. split; auto. cbn [fst] in H1. clear - H1. revert n H1.
      induction c as [id kids IH|items IH] using mtree_ind'; intros n Hn; [constructor; [exact Hn|constructor]|]. rewrite flat_list. generalize 0. induction items as [|c items IHi]; intro j; [constructor|]. inversion IH; subst. cbn [flat_items]. rewrite map_app. apply Forall_app. split; auto. apply H1, item_good; auto. }
    assert (Lf : list_names (flats kids') = []).
    { unfold list_names, flats. clear. induction kids' as [|(n, c) l IH]; cbn; auto. rewrite filter_app, map_app, IH, app_nil_r. assert (F := flat_mods c n). induction (flat n c) as [|x r IHr]; auto. inversion F; subst. cbn. rewrite H1. auto. }
    assert (Ff : flat_names (flats kids') = map fst (flats kids')).
    { clear. unfold flats. induction kids' as [|(n, c) l IH]; cbn; auto. unfold flat_names in *. rewrite flat_map_app, map_app, IH. f_equal. assert (F := flat_mods c n). induction (flat n c) as [|(x, y) r IHr]; auto. inversion F; subst. cbn in *. destruct y; [|discriminate]. cbn. f_equal. auto. }
    constructor; auto.
    + rewrite flats_names, A2. apply NoDup_app_parts in Nf. tauto.
    + rewrite Lf, app_nil_r, Ff, flats_names, A2. apply NoDup_app_parts in Nf. tauto.
  - rewrite convert_list. inversion G as [|? Gi]; subst. clear G.
    assert (K : exists items', conv_items items = Ok items' /\ shape_items items items' /\ flat_map idents items' = flat_map idents items /\ Forall all_items items' /\ Forall good_tree items').
    { induction items as [|c items IHi]; [exists []; repeat split; auto|]. inversion IH; inversion Gi; subst. destruct (H1 H5) as (c' & E & Sh & Id & Al & Go). destruct (IHi H2 H6) as (items' & E' & A1 & A2 & A3 & A4).
      exists (c' :: items'). cbn [conv_items]. rewrite E. cbn [bind]. rewrite E'. cbn [bind]. split; [reflexivity|]. split; [split; auto|]. split; [cbn; rewrite Id, A2; auto|]. split; constructor; auto. }
    destruct K as (items' & E & A1 & A2 & A3 & A4). rewrite E. cbn [bind]. eexists. split; [reflexivity|]. split; [exact A1|]. split; [exact A2|]. split; constructor; auto.
Qed.
