(** C35: bit widths and overrides of a quantizer. *)
From Coq Require Import String Ascii List ZArith Bool Arith Lia.
From Verif Require Import Base Names QzrModel QzrSpec.
Import ListNotations.
Local Open Scope string_scope.

(** * The matcher decides the matching relation *)
Lemma rm_shrink r p q : rm r p q -> q = p \/ (String.length (snd q) < String.length (snd p))%nat.
Proof.
  induction 1; cbn [snd String.length] in *; auto; try (right; lia).
  - destruct IHrm1 as [->|A], IHrm2 as [->|B]; auto. right; lia.
  - destruct IHrm1 as [->|A], IHrm2 as [->|B]; auto. right; lia.
Qed.

Lemma step_chr_spec f b s q : In q (step_chr f (b, s)) <-> exists c s', s = String c s' /\ f c = true /\ q = (false, s').
Proof.
  unfold step_chr. cbn [snd]. destruct s as [|c s]; [simpl; split; [tauto|intros (? & ? & [=] & _)]|].
  destruct (f c) eqn:E; simpl; split.
  - intros [<-|[]]. eauto.
  - intros (c' & s' & [= -> ->] & _ & ->). auto.
  - tauto.
  - intros (c' & s' & [= -> ->] & K & _). congruence.
Qed.

Lemma star_sound r n : (forall p q, In q (ends r p) -> rm r p q) -> forall p q, In q (star_ends (ends r) n p) -> rm (RStar r) p q.
Proof.
  intro H. induction n as [|n IH]; intros p q; simpl.
  - intros [<-|[]]. constructor.
  - intros [<-|K]; [constructor|]. apply in_flat_map in K as (o & A & B).
    destruct (Nat.ltb _ _); [|contradiction]. eapply rm_star_s; eauto.
Qed.
Lemma star_complete r : (forall p q, rm r p q -> In q (ends r p)) -> forall p q, rm (RStar r) p q ->
  forall n, (String.length (snd p) <= n)%nat -> In q (star_ends (ends r) n p).
Proof.
  intros H p q K. remember (RStar r) as r' eqn:E. induction K; try discriminate; injection E as ->; intros n Hn.
  - destruct n; left; reflexivity.
  - destruct (rm_shrink _ _ _ K1) as [->|L]; [apply IHK2; auto|].
    destruct n as [|n]; [lia|]. right. apply in_flat_map. exists q. split; auto.
    replace (Nat.ltb _ _) with true by (symmetry; apply Nat.ltb_lt; auto). apply IHK2; auto. lia.
Qed.

Lemma ends_rm r : forall p q, In q (ends r p) <-> rm r p q.
Proof.
  induction r; intros [b s] q; cbn [ends].
  - rewrite step_chr_spec. split.
    + intros (c' & s' & -> & E & ->). apply Ascii.eqb_eq in E as ->. constructor.
    + intro H. inversion H; subst. exists c, s0. rewrite Ascii.eqb_refl. auto.
  - rewrite step_chr_spec. split.
    + intros (c' & s' & -> & E & ->). constructor. intros ->. rewrite Ascii.eqb_refl in E. discriminate.
    + intro H. inversion H; subst. exists c, s0. repeat split; auto. apply negb_true_iff, Ascii.eqb_neq. auto.
  - rewrite step_chr_spec. split.
    + intros (c' & s' & -> & E & ->). apply existsb_exists in E as (x & I & E). apply Ascii.eqb_eq in E as ->. constructor; auto.
    + intro H. inversion H; subst. exists c, s0. repeat split; auto. apply existsb_exists. exists c. rewrite Ascii.eqb_refl. auto.
  - simpl. split; [intros [<-|[]]; constructor|intro H; inversion H; auto].
  - rewrite in_flat_map. split.
    + intros (o & A & B). apply IHr1 in A. apply IHr2 in B. econstructor; eauto.
    + intro H. inversion H; subst. exists q0. rewrite IHr1, IHr2. auto.
  - rewrite in_app_iff, IHr1, IHr2. split; [intros [A|A]; [apply rm_alt_l|apply rm_alt_r]; auto|intro H; inversion H; auto].
  - split.
    + apply star_sound. intros. apply IHr; auto.
    + intro H. apply star_complete; auto. intros. apply IHr; auto.
  - rewrite IHr. split; [constructor; auto|intro H; inversion H; auto].
  - cbn [fst]. destruct b; simpl; split.
    + intros [<-|[]]. constructor.
    + intro H. inversion H; auto.
    + tauto.
    + intro H. inversion H.
  - cbn [snd]. unfold at_eol. split.
    + destruct s as [|c [|? ?]]; simpl; [intros [<-|[]]; constructor| |contradiction].
      destruct (Ascii.eqb c newline) eqn:E; [|contradiction]. apply Ascii.eqb_eq in E as ->. intros [<-|[]]. constructor.
    + intro H. inversion H; subst; simpl; auto.
Qed.

Lemma re_match_spec r s : re_match r s = true <-> exists q, rm r (true, s) q.
Proof.
  unfold re_match. split.
  - destruct (ends r (true, s)) as [|q l] eqn:E; [discriminate|]. intros _. exists q. apply ends_rm. rewrite E. left; reflexivity.
  - intros (q & H). apply ends_rm in H. destruct (ends r (true, s)); auto.
Qed.

(** a match leaves a suffix of the text *)
Lemma rm_suffix r p q : rm r p q -> exists u, snd p = u ++ snd q.
Proof.
  induction 1; cbn [snd] in *; try (now exists ""); try (now exists (String c "")).
  - destruct IHrm1 as (u & ->), IHrm2 as (v & ->). exists (u ++ v). clear. induction u; simpl; congruence.
  - auto.
  - auto.
  - destruct IHrm1 as (u & ->), IHrm2 as (v & ->). exists (u ++ v). clear. induction u; simpl; congruence.
  - auto.
Qed.

Lemma plain_suffix u v : plain (u ++ v) = true -> plain v = true.
Proof. induction u; simpl; auto. intro H. apply andb_true_iff in H as [_ H]. auto. Qed.

(** a simple pattern matches, as the quantizer compiles it, exactly the names it matches as a whole *)
Lemma simple_match p n : snd p = [] -> plain n = true -> (re_match (wrap_pat p) n = true <-> matches_all (fst p) n).
Proof.
  intros Hp Hn. rewrite re_match_spec. unfold wrap_pat. rewrite Hp. cbn [eol_last]. split.
  - intros (q & H). inversion H as [| | | | | | | | |? ? ? A| | |]; subst. inversion A as [| | | |? ? ? ? ? B C| | | | | | | |]; subst.
    inversion B as [| | | |? ? ? ? ? D E| | | | | | | |]; subst. inversion D; subst.
    inversion C; subst; [eexists; eauto|].
    exfalso. apply rm_suffix in E. destruct E as (u & E). cbn [snd] in E. subst n. apply plain_suffix in Hn. discriminate.
  - intros (b & H). exists (b, ""). repeat econstructor; eauto.
Qed.

Lemma first_group_simple l n : Forall simple_pat (map fst l) -> plain n = true ->
  match first_group (map fst l) n with
  | Some g => exists p e, nth_error l g = Some (p, e) /\ first_match l n e
  | None => no_match l n
  end.
Proof.
  intros H Hn. induction l as [|[p e] l IH]; cbn [map first_group fst].
  - intros p e [].
  - inversion H as [|? ? [H1 H2] H3]; subst. specialize (IH H3).
    destruct (re_match (wrap_pat p) n) eqn:E.
    + exists p, e. split; auto. exists O, p. split; auto. split; [apply simple_match; auto|]. intros j p' e' Hj. lia.
    + assert (N : ~ matches_all (fst p) n) by (rewrite <- simple_match by auto; congruence).
      assert (G : (ngroups (wrap_pat p) = 1)%nat) by (unfold wrap_pat; rewrite H1; simpl; rewrite H2; reflexivity).
      rewrite G.
      destruct (first_group (map fst l) n) as [g|]; cbn [option_map].
      * destruct IH as (p' & e' & A & i & p'' & B & C & D). exists p', e'.
        split; [exact A|]. exists (S i), p''. split; [exact B|]. split; auto.
        intros j p3 e3 Hj. destruct j as [|j]; simpl; [intros [= <- <-]; auto|]. intro K. eapply D; eauto. lia.
      * intros p' e' [[= <- <-]|I]; auto. apply (IH p' e'); auto.
Qed.

(** * Literal keys match themselves *)
Lemma sapp_assoc u v w : (u ++ v) ++ w = u ++ (v ++ w).
Proof. induction u; simpl; congruence. Qed.
Lemma sapp_nil u : u ++ "" = u.
Proof. induction u; simpl; congruence. Qed.
Lemma plain_app u v : plain (u ++ v) = plain u && plain v.
Proof. induction u; simpl; auto. rewrite IHu, andb_assoc. reflexivity. Qed.

Lemma plain_text_rm r : plain (rtext r) = true -> forall b s, exists b', rm r (b, rtext r ++ s) (b', s).
Proof.
  induction r; intros H b s; cbn [rtext] in *.
  - unfold esc in *. destruct (special c) eqn:E; [discriminate|]. simpl. exists false. constructor.
  - exists false. simpl. constructor. discriminate.
  - discriminate.
  - exists b. constructor.
  - rewrite plain_app in H. apply andb_true_iff in H as [H1 H2]. rewrite sapp_assoc.
    destruct (IHr1 H1 b (rtext r2 ++ s)) as (b1 & A). destruct (IHr2 H2 b1 s) as (b2 & B). exists b2. econstructor; eauto.
  - discriminate.
  - discriminate.
  - discriminate.
  - discriminate.
  - discriminate.
Qed.

Lemma pat_text_bar l : forall t, l <> [] -> plain (fold_left (fun s r => s ++ "|" ++ rtext r) l t) = false.
Proof.
  intros t Hl. destruct l as [|r l]; [congruence|]. clear Hl. revert t. simpl.
  assert (G : forall l t, plain t = false -> plain (fold_left (fun s r => s ++ "|" ++ rtext r) l t) = false).
  { clear. induction l as [|r l IH]; intros t H; simpl; auto. apply IH. rewrite plain_app, H. reflexivity. }
  intro t. apply G. rewrite plain_app. simpl. rewrite andb_false_r. reflexivity.
Qed.

Lemma literal_matches p n : pat_text p = n -> plain n = true -> snd p = [] /\ matches_all (fst p) n.
Proof.
  intros E Hn. destruct p as [r l]. cbn [fst snd]. unfold pat_text in E. cbn [fst snd] in E.
  destruct l as [|r' l]; [|exfalso; rewrite <- E, pat_text_bar in Hn; discriminate].
  split; auto. cbn [fold_left] in E. subst n. destruct (plain_text_rm r Hn true "") as (b & H). rewrite sapp_nil in H. exists b. auto.
Qed.

Lemma get_literal_spec l n : match get_literal l n with
  | Some e => literal_key l n e
  | None => forall p e, In (p, e) l -> pat_text p <> n end.
Proof.
  induction l as [|[p e] l IH]; simpl; [intros p e []|].
  destruct (String.eqb (pat_text p) n) eqn:E.
  - apply String.eqb_eq in E. exists p. split; auto. left; auto.
  - apply String.eqb_neq in E. destruct (get_literal l n).
    + destruct IH as (p' & A & B). exists p'. split; auto. right; auto.
    + intros p' e' [[= <- <-]|I]; auto. apply (IH p' e' I).
Qed.

Lemma literal_unique l n e e' : NoDup (map (fun pe => pat_text (fst pe)) l) -> literal_key l n e -> literal_key l n e' -> e = e'.
Proof.
  intros H (p & A & B) (p' & A' & B'). induction l as [|[p0 e0] l IH]; [destruct A|].
  inversion H as [|? ? H1 H2]; subst. destruct A as [[= -> ->]|A], A' as [[= -> ->]|A']; auto.
  - exfalso. apply H1. apply in_map_iff. exists (p', e'). split; auto.
  - exfalso. apply H1. apply in_map_iff. exists (p, e). split; auto.
Qed.

(** * C35 *)
(** C35: with patterns free of capturing groups and top-level alternations, every module gets exactly the
    bits and arguments of the override whose key is the module's name (without DataParallel's prefix),
    else of the first override whose pattern matches the whole name, else the defaults and no
    arguments. *)
Theorem C35_override_choice :
  forall d (l : overrides') full, Forall simple_pat (map fst l) -> NoDup (map (fun pe => pat_text (fst pe)) l) ->
  plain (name_to_match full) = true ->
  let n := name_to_match full in
  exists b k, module_entry d l full = Ok (b, k) /\
  (forall e, literal_key l n e -> b = e_bits e /\ k = e_rest e) /\
  (forall e, (forall e', ~ literal_key l n e') -> first_match l n e -> b = e_bits e /\ k = e_rest e) /\
  (no_match l n -> b = d /\ k = []).
Proof.
  intros d l full Hs Hu Hn n. unfold module_entry. fold n. fold n in Hn.
  pose proof (first_group_simple l n Hs Hn) as G. pose proof (get_literal_spec l n) as L.
  assert (U : forall e e', first_match l n e -> first_match l n e' -> e = e').
  { intros e e' (i & p & A & B & C) (i' & p' & A' & B' & C').
    destruct (Nat.lt_trichotomy i i') as [K|[->|K]]; [exfalso; eapply C'; eauto|congruence|exfalso; eapply C; eauto]. }
  assert (LM : forall e, literal_key l n e -> ~ no_match l n).
  { intros e (p & A & B) K. apply (K p e A). apply (literal_matches p n); auto. }
  assert (FM : forall e, first_match l n e -> ~ no_match l n).
  { intros e (i & p & A & B & _) K. apply nth_error_In in A. apply (K p e A B). }
  destruct (first_group (map fst l) n) as [g|].
  - destruct G as (p & e & A & B). destruct (get_literal l n) as [e0|].
    + cbn [bind]. exists (e_bits e0), (e_rest e0). split; auto. repeat split.
      * pose proof (literal_unique l n e0 e1 Hu L H). congruence.
      * pose proof (literal_unique l n e0 e1 Hu L H). congruence.
      * exfalso. apply (H e0 L).
      * exfalso. apply (H e0 L).
      * exfalso. apply (LM e0 L H).
      * exfalso. apply (LM e0 L H).
    + rewrite A. cbn [bind]. exists (e_bits e), (e_rest e). split; auto. repeat split.
      * exfalso. destruct H as (p' & I & E). apply (L p' e0 I E).
      * exfalso. destruct H as (p' & I & E). apply (L p' e0 I E).
      * rewrite (U _ _ B H0). reflexivity.
      * rewrite (U _ _ B H0). reflexivity.
      * exfalso. apply (FM e B H).
      * exfalso. apply (FM e B H).
  - destruct (get_literal l n) as [e0|] eqn:El.
    + exfalso. apply (LM e0 L G).
    + exists d, []. split; auto. repeat split.
      * exfalso. destruct H as (p' & I & E). apply (L p' e I E).
      * exfalso. destruct H as (p' & I & E). apply (L p' e I E).
      * exfalso. apply (FM e H0 G).
      * exfalso. apply (FM e H0 G).
Qed.

(** C35: when no key is the module's own name, or the first matching override is the one with that key,
    the first match wins. *)
Theorem C35_first_match_wins :
  forall d (l : overrides') full e, Forall simple_pat (map fst l) -> NoDup (map (fun pe => pat_text (fst pe)) l) ->
  plain (name_to_match full) = true ->
  first_match l (name_to_match full) e ->
  (forall e', literal_key l (name_to_match full) e' -> e' = e) ->
  module_entry d l full = Ok (e_bits e, e_rest e).
Proof.
  intros d l full e Hs Hu Hn F L.
  destruct (C35_override_choice d l full Hs Hu Hn) as (b & k & E & A & B & _). rewrite E.
  pose proof (get_literal_spec l (name_to_match full)) as G. destruct (get_literal l (name_to_match full)) as [e0|].
  - destruct (A e0 G) as [-> ->]. rewrite (L e0 G). reflexivity.
  - destruct (B e) as [-> ->]; auto. intros e' (p & I & K). apply (G p e' I K).
Qed.

(** helpers for the examples *)
Definition chars (s : string) : regex := fold_right (fun c r => RCat (RChr c) r) REps (list_ascii_of_string s).
Definition lit (s : string) : pat := (chars s, []).
Definition anything : regex := RStar RAny.
Definition b8 : qbits := mkQb (Some 8%Z) (Some 8%Z) None.
Definition b4 : qbits := mkQb (Some 4%Z) (Some 4%Z) None.
Definition b2 : qbits := mkQb (Some 2%Z) (Some 2%Z) None.
Definition ov (b : qbits) : ovr' := mkOvr' b [].

(** C35 (finding): the documentation says that the first matching pattern wins.  It does not when a later key
    is the module's name itself: {'conv.*': 4 bits, 'conv1': 2 bits} gives conv1 2 bits. *)
Theorem C35_first_match_refuted :
  exists (l : overrides') e, Forall simple_pat (map fst l) /\ NoDup (map (fun pe => pat_text (fst pe)) l) /\
  first_match l (name_to_match "conv1") e /\ e_bits e = b4 /\ module_entry b8 l "conv1" = Ok (b2, []).
Proof.
  exists [((RCat (chars "conv") anything, []), ov b4); (lit "conv1", ov b2)], (ov b4).
  split; [repeat constructor|]. split; [repeat constructor; simpl; intuition discriminate|].
  split; [|split; [reflexivity|vm_compute; reflexivity]].
  exists O. eexists. split; [reflexivity|]. split; [|intros; lia].
  apply simple_match; vm_compute; reflexivity.
Qed.

(** C35 (finding): with capturing groups in a pattern the overrides of the patterns after it are looked up at
    the wrong position: the number of groups before shifts the choice. *)
Theorem C35_group_shift :
  forall d (l1 : overrides') p e l2 full, let n := name_to_match full in
  (forall p' e', In (p', e') l1 -> re_match (wrap_pat p') n = false) -> re_match (wrap_pat p) n = true ->
  (forall e', ~ literal_key (l1 ++ (p, e) :: l2)%list n e') ->
  let g := (fold_right (fun pe s => ngroups (wrap_pat (fst pe)) + s) O l1)%nat in
  module_entry d (l1 ++ (p, e) :: l2)%list full =
    match nth_error (l1 ++ (p, e) :: l2)%list g with Some (_, e') => Ok (e_bits e', e_rest e') | None => Raise IndexError end.
Proof.
  intros d l1 p e l2 full n H1 H2 H3 g. unfold module_entry. fold n.
  assert (E : first_group (map fst (l1 ++ (p, e) :: l2)%list) n = Some g).
  { unfold g. clear g H3. induction l1 as [|[p' e'] l1 IH]; simpl.
    - rewrite H2. reflexivity.
    - rewrite (H1 p' e') by (left; auto). rewrite IH by (intros; eapply H1; right; eauto). reflexivity. }
  rewrite E. pose proof (get_literal_spec (l1 ++ (p, e) :: l2)%list n) as G.
  destruct (get_literal _ n) as [e0|]; [exfalso; apply (H3 e0 G)|]. destruct (nth_error _ g) as [[p' e']|]; reflexivity.
Qed.
Theorem C35_capturing_groups_refuted :
  (* {'(conv|fc)1': 4 bits, 'relu.*': 2 bits}: relu1 crashes *)
  (let l := [((RCat (RGrp (RAlt (chars "conv") (chars "fc"))) (chars "1"), []), ov b4); ((RCat (chars "relu") anything, []), ov b2)] in
   matches_all (RCat (chars "relu") anything) "relu1" /\ module_entry b8 l "relu1" = Raise IndexError) /\
  (* {'(conv|fc)1': 4 bits, 'relu.*': 2 bits, 'pool.*': 8 bits}: relu1 gets the bits of pool *)
  (let l := [((RCat (RGrp (RAlt (chars "conv") (chars "fc"))) (chars "1"), []), ov b4); ((RCat (chars "relu") anything, []), ov b2);
             ((RCat (chars "pool") anything, []), ov b8)] in
   first_match l "relu1" (ov b2) /\ module_entry b4 l "relu1" = Ok (b8, [])).
Proof.
  assert (M : matches_all (RCat (chars "relu") anything) "relu1").
  { apply (simple_match (RCat (chars "relu") anything, []) "relu1"); vm_compute; reflexivity. }
  split; [split; [exact M|vm_compute; reflexivity]|]. split; [|vm_compute; reflexivity].
  exists 1%nat. eexists. split; [reflexivity|]. split; [exact M|]. intros j p' e' Hj E.
  assert (j = O) as -> by lia. injection E as <- <-. intro K.
  apply (simple_match (RCat (RGrp (RAlt (chars "conv") (chars "fc"))) (chars "1"), []) "relu1") in K; [vm_compute in K; discriminate|reflexivity..].
Qed.

(** C35 (finding): a pattern with an alternation at its top level is only anchored at its two ends:
    'conv1|fc' also applies to conv10. *)
Theorem C35_alternation_refuted :
  let p : pat := (chars "conv1", [chars "fc"]) in
  pat_text p = "conv1|fc" /\
  ~ matches_all (fst p) "conv10" /\ (forall r, In r (snd p) -> ~ matches_all r "conv10") /\
  module_entry b8 [(p, ov b4)] "conv10" = Ok (b4, []).
Proof.
  cbv zeta. split; [reflexivity|].
  assert (F : forall r, r = chars "conv1" \/ r = chars "fc" -> ~ matches_all r "conv10").
  { intros r Hr K. apply (simple_match (r, []) "conv10") in K; [|reflexivity..]. destruct Hr as [->| ->]; vm_compute in K; discriminate. }
  split; [apply F; auto|]. split; [intros r [<-|[]]; apply F; auto|]. vm_compute. reflexivity.
Qed.

(** C35: DataParallel's prefix is ignored. *)
Theorem C35_data_parallel :
  forall d l n, name_to_match n = n -> module_entry d l ("module." ++ n) = module_entry d l n.
Proof. intros d l n H. unfold module_entry. rewrite H. unfold name_to_match. simpl. destruct n; reflexivity. Qed.

(** C35 (finding): a part of a name that merely ends in 'module' is removed too: the layer submodule.conv is
    matched as "subconv", so the override for submodule.conv is ignored. *)
Theorem C35_module_prefix_refuted :
  name_to_match "submodule.conv" = "subconv" /\
  matches_all (chars "submodule.conv") "submodule.conv" /\
  module_entry b8 [(lit "submodule.conv", ov b4)] "submodule.conv" = Ok (b8, []).
Proof.
  split; [reflexivity|]. split; [|vm_compute; reflexivity].
  apply (simple_match (chars "submodule.conv", []) "submodule.conv"); vm_compute; reflexivity.
Qed.

(** C35: constructor errors. *)
Theorem C35_constructor_errors :
  forall d l ord opt fp m,
  (ord = false -> qzr_init d l ord opt fp m = Raise TypeError) /\
  (ord = true -> fp = true -> opt = false -> qzr_init d l ord opt fp m = Raise ValueError) /\
  (ord = true -> (fp = true -> opt = true) -> (exists po, In po (dflt l []) /\ o_deprecated (snd po) = true) ->
     qzr_init d l ord opt fp m = Raise ValueError).
Proof.
  intros d l ord opt fp m. unfold qzr_init. repeat split.
  - intros ->. reflexivity.
  - intros -> -> ->. reflexivity.
  - intros -> Ho (po & I & D). cbn [negb]. replace (fp && negb opt) with false by (destruct fp, opt; auto; discriminate (Ho eq_refl)).
    assert (E : mapsM (fun po0 : pat * ovr => do e <- resolve d (snd po0); Ok (fst po0, e)) (dflt l []) = Raise ValueError).
    { induction (dflt l []) as [|a r IH]; [destruct I|]. cbn [mapsM].
      destruct I as [->|I].
      - unfold resolve at 1. rewrite D. reflexivity.
      - destruct (resolve d (snd a)) as [x|e] eqn:R; [cbn [bind]; rewrite IH by auto; reflexivity|].
        unfold resolve in R. destruct (o_deprecated (snd a)); [|discriminate]. injection R as <-. reflexivity. }
    rewrite E. reflexivity.
Qed.

(** C35: a missing bit-width key means the default; a key with value None means "do not quantize". *)
Theorem C35_resolution :
  forall d o, o_deprecated o = false -> exists e, resolve d o = Ok e /\ e_rest e = o_rest o /\
  (q_acts (e_bits e) = match o_acts o with Some v => v | None => q_acts d end) /\
  (q_wts (e_bits e) = match o_wts o with Some v => v | None => q_wts d end) /\
  (q_bias (e_bits e) = match o_bias o with Some v => v | None => q_bias d end).
Proof. intros d o H. unfold resolve. rewrite H. eexists. split; [reflexivity|]. cbn. auto. Qed.

Example C35_ex :
  let l := [((RCat (chars "sub1.") anything, []), ov b4); (lit "conv1", ov b2)] in
  Forall simple_pat (map fst l) /\ NoDup (map (fun pe => pat_text (fst pe)) l) /\ plain "sub1.conv1" = true /\
  module_entry b8 l "module.sub1.conv1" = Ok (b4, []) /\ module_entry b8 l "conv1" = Ok (b2, []) /\ module_entry b8 l "fc" = Ok (b8, []).
Proof.
  cbv zeta. split; [repeat constructor|]. split; [repeat constructor; simpl; intuition discriminate|]. repeat split; vm_compute; reflexivity.
Qed.

Print Assumptions C35_override_choice.
Print Assumptions C35_first_match_wins.
Print Assumptions C35_first_match_refuted.
Print Assumptions C35_group_shift.
Print Assumptions C35_capturing_groups_refuted.
Print Assumptions C35_alternation_refuted.
Print Assumptions C35_data_parallel.
Print Assumptions C35_module_prefix_refuted.
Print Assumptions C35_constructor_errors.
Print Assumptions C35_resolution.
