(** Creation of models (C100), input shapes (C101). *)
From Coq Require Import String Ascii List ZArith Bool Arith Lia.
From Verif Require Import Base Lists Names CrModel CrSpec.
Import ListNotations.
Local Open Scope string_scope.
Open Scope list_scope.

(** * C101: input shapes *)
Lemma shape_ind' (P : shape -> Prop) : (forall z, P (SInt z)) -> (forall l, Forall P l -> P (STup l)) -> P SOther -> forall s, P s.
Proof.
  intros A B C. fix IH 1. intros [z|l|]; [apply A| |apply C]. apply B. induction l as [|s l IHl]; constructor; [apply IH|exact IHl].
Qed.
Lemma mapM_ok {A B} (f : A -> res B) l r : mapM f l = Ok r <-> Forall2 (fun a b => f a = Ok b) l r.
Proof.
  revert r. induction l as [|a l IH]; intro r; cbn [mapM].
  - split; [intro H; injection H as <-; constructor|]. intro H. inversion H. reflexivity.
  - fold (mapM f l). split.
    + destruct (f a) as [b|] eqn:E; [|discriminate]. cbn [bind]. destruct (mapM f l) as [bs|] eqn:E2; [|discriminate]. cbn [bind]. intro H. injection H as <-. constructor; auto. apply IH. reflexivity.
    + intro H. inversion H as [|? b ? bs Hb Hbs]; subst. rewrite Hb. cbn [bind]. apply IH in Hbs. rewrite Hbs. reflexivity.
Qed.
Lemma all_ints l : forallb is_int l = true -> exists zs, l = map SInt zs.
Proof.
  induction l as [|[z|l'|] l IH]; cbn; intro H; try discriminate; [exists []; reflexivity|]. destruct (IH H) as (zs & ->). exists (z :: zs). reflexivity.
Qed.
Lemma forallb_ints zs : forallb is_int (map SInt zs) = true.
Proof. induction zs; auto. Qed.
Lemma neg_ints zs : existsb neg (map SInt zs) = false <-> Forall (fun z => (0 <= z)%Z) zs.
Proof.
  induction zs as [|z zs IH]; cbn; [split; auto|]. rewrite orb_false_iff, IH, Z.ltb_ge. split; [intros [A B]; constructor; auto|]. intro H. inversion H; auto.
Qed.
Lemma val_recurse_spec s : (forall r, val_recurse s = Ok r -> r = s /\ valid_shape s) /\ (valid_shape s -> val_recurse s = Ok s) /\
  (forall e, val_recurse s = Raise e -> e = ValueError \/ e = TypeError).
Proof.
  induction s as [z|l IH|] using shape_ind'; cbn [val_recurse].
  - repeat split; try discriminate; try (intros e H; injection H as <-; auto). intro H. inversion H.
  - rewrite Forall_forall in IH. repeat split.
    + intros. destruct (forallb is_int l) eqn:Ei.
      * destruct (existsb neg l); [discriminate|]. congruence.
      * destruct (forallb is_tup l); [|discriminate]. destruct (mapM val_recurse l) as [r'|] eqn:Em; [|discriminate]. cbn [bind] in H. injection H as <-. f_equal. apply mapM_ok in Em. clear - IH Em. induction Em as [|a b l r H _ IHm]; [reflexivity|]. f_equal.
        -- destruct (IH a (or_introl eq_refl)) as (A & _). apply A in H. apply H.
        -- apply IHm. intros x Hx. apply IH. right; auto.
    + destruct (forallb is_int l) eqn:Ei.
      * destruct (existsb neg l) eqn:En; [discriminate|]. destruct (all_ints l Ei) as (zs & ->). constructor. apply neg_ints. exact En.
      * destruct (forallb is_tup l); [|discriminate]. destruct (mapM val_recurse l) as [r'|] eqn:Em; [|discriminate]. apply vs_tuple. apply mapM_ok in Em. clear - IH Em. induction Em as [|a b l r H _ IHm]; constructor.
        -- destruct (IH a (or_introl eq_refl)) as (A & _). apply A in H. apply H.
        -- apply IHm. intros x Hx. apply IH. right; auto.
    + intro V. inversion V as [zs Hz Heq|l' Hl Heq]; subst.
      * rewrite forallb_ints. apply neg_ints in Hz. rewrite Hz. reflexivity.
      * destruct (forallb is_int l) eqn:Ei.
        -- destruct l as [|[z|l'|] l]; [reflexivity|inversion Hl as [|? ? V1 _]; inversion V1|discriminate|discriminate].
        -- assert (Et : forallb is_tup l = true). { apply forallb_forall. intros x Hx. rewrite Forall_forall in Hl. specialize (Hl x Hx). inversion Hl; reflexivity. }
           rewrite Et. assert (Em : mapM val_recurse l = Ok l). { apply mapM_ok. clear - IH Hl. induction Hl as [|a l Ha _ IHl]; constructor; [apply IH; [left; auto|exact Ha]|]. apply IHl. intros x Hx. apply IH. right; auto. }
           rewrite Em. reflexivity.
    + intros e. destruct (forallb is_int l) eqn:Ei; [destruct (existsb neg l); [|discriminate]; intro H; injection H as <-; auto|].
      destruct (forallb is_tup l); [|intro H; injection H as <-; auto]. clear Ei. destruct (mapM val_recurse l) as [r|e'] eqn:Em; [discriminate|]. cbn [bind]. intro H. injection H as <-.
      induction l as [|a l IHl]; [discriminate|]. cbn [mapM] in Em. fold (mapM val_recurse l) in Em. destruct (val_recurse a) as [b|ea] eqn:Ea.
      * cbn [bind] in Em. destruct (mapM val_recurse l) as [bs|el]; [discriminate|]. cbn [bind] in Em. apply IHl; auto. intros x Hx. apply IH. right; auto.
      * cbn [bind] in Em. injection Em as <-. destruct (IH a (or_introl eq_refl)) as (_ & _ & A). apply A. exact Ea.
  - repeat split; try discriminate; try (intros e H; injection H as <-; auto). intro H. inversion H.
Qed.
Lemma create_recurse_spec s d : valid_shape s -> (create_recurse s = Ok d <-> shaped s d).
Proof.
  revert d. induction s as [z|l IH|] using shape_ind'; intros d V; [inversion V| |inversion V]. cbn [create_recurse]. rewrite Forall_forall in IH.
  assert (Tens : forall zs, Forall (fun z => (0 <= z)%Z) zs -> dims_of (map SInt zs) = Ok zs).
  { intros zs Hz. apply mapM_ok. induction Hz as [|z zs Hz _ IHz]; constructor; auto. rewrite (proj2 (Z.ltb_ge _ _) Hz). reflexivity. }
  destruct (forallb is_int l) eqn:Ei.
  - destruct (all_ints l Ei) as (zs & ->). assert (Hz : Forall (fun z => (0 <= z)%Z) zs).
    { apply neg_ints. destruct (val_recurse_spec (STup (map SInt zs))) as (_ & A & _). specialize (A V). cbn [val_recurse] in A. rewrite Ei in A. destruct (existsb neg (map SInt zs)); [discriminate|reflexivity]. }
    rewrite (Tens zs Hz). cbn [bind]. split.
    + intro H. injection H as <-. constructor.
    + intro H. inversion H as [l' Heq|l' r Ne F2 Heq]; subst.
      * f_equal. f_equal. clear - Heq. revert l' Heq. induction zs as [|z zs IHz]; intros [|z' l'] Heq; try discriminate; [reflexivity|]. cbn [map] in Heq. injection Heq as -> Heq. f_equal. auto.
      * exfalso. destruct zs as [|z zs]; [apply Ne; reflexivity|]. cbn [map] in F2. inversion F2 as [|? ? ? ? S1 _]. inversion S1.
  - assert (Hl : Forall valid_shape l). { inversion V as [zs Hz Heq|l' Hl Heq]; subst; [rewrite forallb_ints in Ei; discriminate|exact Hl]. } rewrite Forall_forall in Hl.
    assert (E : forall r, mapM create_recurse l = Ok r <-> Forall2 shaped l r).
    { intro r. rewrite mapM_ok. clear - IH Hl. split; intro H; induction H as [|a b l r Hab _ IHr]; constructor; try (apply IHr; intros x Hx; [apply IH|apply Hl]; right; auto).
      - apply IH; [left; auto|apply Hl; left; auto|exact Hab].
      - apply IH; [left; auto|apply Hl; left; auto|exact Hab]. }
    split.
    + destruct (mapM create_recurse l) as [r|]; [|discriminate]. cbn [bind]. intro H. injection H as <-. constructor; [intros ->; discriminate|]. apply E. reflexivity.
    + intro H. inversion H as [l' Heq|l' r Ne F2 Heq]; subst; [rewrite forallb_ints in Ei; discriminate|]. apply E in F2. rewrite F2. reflexivity.
Qed.
Lemma shaped_exists s : valid_shape s -> exists d, shaped s d.
Proof.
  induction s as [z|l IH|] using shape_ind'; intro V; inversion V as [zs Hz Heq|l' Hl Heq]; subst; [exists (DTensor zs); constructor|].
  destruct l as [|a l]; [exists (DTensor []); apply (sh_tensor [])|]. assert (E : exists r, Forall2 shaped (a :: l) r).
  { clear V. induction IH as [|x l' Hx _ IHl]; [exists []; constructor|]. inversion Hl as [|? ? V1 V2]; subst. destruct (Hx V1) as (d & Hd). destruct (IHl V2) as (r & Hr). exists (d :: r). constructor; auto. }
  destruct E as (r & Hr). exists (DTup r). constructor; [discriminate|exact Hr].
Qed.

(** A dummy input is made exactly for valid shapes, and has the shape asked for: tuples in tuples, tensors of the given sizes. *)
Theorem C101_dummy_input : forall s d, get_dummy_input None (Some s) = Ok d <-> valid_shape s /\ shaped s d.
Proof.
  intros s d. unfold get_dummy_input. cbn [validate]. destruct (val_recurse_spec s) as (A & B & _). split.
  - intro H. destruct (is_tup s); [|discriminate]. destruct (val_recurse s) as [r|] eqn:E; [|discriminate]. cbn [bind] in H. destruct (A r eq_refl) as [-> V]. split; [exact V|]. apply create_recurse_spec; auto.
  - intros [V Sh]. assert (T : is_tup s = true) by (inversion V; reflexivity). rewrite T, (B V). cbn [bind]. apply create_recurse_spec; auto.
Qed.
Theorem C101_valid_has_input : forall s, valid_shape s -> exists d, get_dummy_input None (Some s) = Ok d.
Proof. intros s V. destruct (shaped_exists s V) as (d & Hd). exists d. apply C101_dummy_input. auto. Qed.
(** other shapes: TypeError, or ValueError (negative sizes) *)
Theorem C101_refused : forall s, ~ valid_shape s -> get_dummy_input None (Some s) = Raise TypeError \/ get_dummy_input None (Some s) = Raise ValueError.
Proof.
  intros s N. unfold get_dummy_input. cbn [validate]. destruct (is_tup s); [|left; reflexivity]. destruct (val_recurse_spec s) as (A & _ & C). destruct (val_recurse s) as [r|e] eqn:E; [exfalso; apply N; eapply A; eauto|]. destruct (C e eq_refl) as [-> | ->]; auto.
Qed.
Theorem C101_negative : forall l, Exists (fun z => (z < 0)%Z) l -> get_dummy_input None (Some (STup (map SInt l))) = Raise ValueError.
Proof.
  intros l H. unfold get_dummy_input. cbn [validate is_tup val_recurse]. rewrite forallb_ints. destruct (existsb neg (map SInt l)) eqn:E; [reflexivity|]. apply neg_ints in E. exfalso. apply Exists_exists in H. destruct H as (z & Hz & Lt). rewrite Forall_forall in E. specialize (E z Hz). lia.
Qed.
(** The name of a data set comes first; an empty name counts as none, any other unknown name is refused whatever the shape. *)
Theorem C101_dataset : forall sh,
  get_dummy_input (Some "imagenet") sh = Ok (DTensor [1; 3; 224; 224]%Z) /\
  get_dummy_input (Some "cifar10") sh = Ok (DTensor [1; 3; 32; 32]%Z) /\
  get_dummy_input (Some "mnist") sh = Ok (DTensor [1; 1; 28; 28]%Z) /\
  get_dummy_input (Some "") sh = get_dummy_input None sh /\
  get_dummy_input None None = Raise ValueError /\
  forall d, ~ In d ["imagenet"; "cifar10"; "mnist"; ""] -> get_dummy_input (Some d) sh = Raise ValueError.
Proof.
  intro sh. repeat split. intros d N. destruct d as [|c d]; [exfalso; apply N; cbn; tauto|]. unfold get_dummy_input, validate, dataset_shape.
  destruct (String.eqb_spec (String c d) "imagenet") as [E|_]; [rewrite E in N; cbn in N; tauto|]. destruct (String.eqb_spec (String c d) "cifar10") as [E|_]; [rewrite E in N; cbn in N; tauto|].
  destruct (String.eqb_spec (String c d) "mnist") as [E|_]; [rewrite E in N; cbn in N; tauto|]. reflexivity.
Qed.
Example C101_nested : get_dummy_input None (Some (STup [ints [2; 3]%Z; STup [ints [4]%Z; ints []]])) = Ok (DTup [DTensor [2; 3]%Z; DTup [DTensor [4]%Z; DTensor []]]) /\
  valid_shape (STup [ints [2; 3]%Z; STup [ints [4]%Z; ints []]]) /\
  get_dummy_input None (Some (STup [SInt 1; ints [2]%Z])) = Raise TypeError.
Proof.
  split; [reflexivity|]. split; [|reflexivity]. apply vs_tuple. constructor; [apply vs_tensor; repeat constructor; lia|]. constructor; [|constructor]. apply vs_tuple. constructor; [apply vs_tensor; repeat constructor; lia|]. constructor; [apply (vs_tensor []); constructor|constructor].
Qed.

(** * C100: creation of models *)
Section Create.
Variable K : Type.
Notation packages := (packages K). Notation net := (net K). Notation extensions := (extensions K). Notation created := (created K).

Lemma mem_In s l : mem s l = true <-> In s l.
Proof. unfold mem. rewrite existsb_exists. split; [intros (x & Hx & E); apply String.eqb_eq in E; subst; exact Hx|]. intro H. exists s. rewrite String.eqb_refl. auto. Qed.
Lemma mem_not s l : mem s l = false <-> ~ In s l.
Proof. rewrite <- mem_In. destruct (mem s l); split; congruence. Qed.

Lemma res_in a : In a own_resnets -> mem a RESNET_SYMS = true.
Proof. intro H. apply mem_In. exact H. Qed.
Lemma res_not a : ~ In a own_resnets -> mem a RESNET_SYMS = false.
Proof. intro H. apply mem_not. exact H. Qed.
(** what the packages have under this name: a network, nothing (ValueError), or another exception; a network's [cadene] flag *)
Definition cad (o : origin) : bool := match o with FromCadene => true | _ => false end.
Lemma imagenet_builtin (P : packages) pre arch o (n : net) : builtin P pre "imagenet" arch o n -> create_imagenet P arch pre = Ok (n, cad o) /\ o <> FromUser.
Proof.
  intro B. unfold create_imagenet. inversion B as [a e n' Hin He Hc|a f n' Nin Hf Hc|a e n' Hp Nt He Hc|a f n' Nt Hx Hf Hc| |]; subst.
  - split; [|discriminate]. rewrite (res_in _ Hin), He, Hc. reflexivity.
  - split; [|discriminate]. rewrite (res_not _ Nin), Hf, Hc. reflexivity.
  - split; [|discriminate]. destruct Nt as (Nin & Nt). rewrite (res_not _ Nin). destruct Nt as [Nt|[Nt _]]; [|discriminate]. rewrite Nt. cbn [bind]. rewrite He, Hc. reflexivity.
  - split; [|discriminate]. destruct Nt as (Nin & Nt). rewrite (res_not _ Nin).
    assert (E : match dget (p_tv P) arch with
                | Some f => match f pre (is_inception arch) with
                            | Ok n => Ok (Some (if String.eqb arch "mobilenet_v2" then p_patch P n else n))
                            | Raise NotImplementedError => if pre then Ok None else Raise NotImplementedError
                            | Raise e => Raise e end
                | None => Ok None end = Ok None).
    { destruct Nt as [Nt|(-> & g & Hg & Rg)]; [rewrite Nt; reflexivity|]. rewrite Hg, Rg. reflexivity. }
    rewrite E. cbn [bind]. destruct Hx as [-> | Hx].
    + destruct (dget (p_extra P) arch); cbn [bind]; rewrite Hf, Hc; reflexivity.
    + rewrite Hx. cbn [bind]. rewrite Hf, Hc. reflexivity.
Qed.
Lemma imagenet_inv (P : packages) pre arch (n : net) c : create_imagenet P arch pre = Ok (n, c) -> exists o, builtin P pre "imagenet" arch o n /\ c = cad o.
Proof.
  unfold create_imagenet. destruct (mem arch RESNET_SYMS) eqn:M.
  - apply mem_In in M. destruct (dget (p_extra P) arch) as [e|] eqn:He; [|discriminate]. destruct (callp e pre) as [n'|] eqn:Hc; [|discriminate]. cbn [bind]. intro H. injection H as -> <-. exists FromDistiller. split; [eapply b_resnet; eauto|reflexivity].
  - apply mem_not in M. set (tv := match dget (p_tv P) arch with Some _ => _ | None => _ end).
    assert (T : (exists f n', dget (p_tv P) arch = Some f /\ f pre (is_inception arch) = Ok n' /\ tv = Ok (Some (if String.eqb arch "mobilenet_v2" then p_patch P n' else n'))) \/ (not_in_torchvision P pre arch /\ tv = Ok None) \/ exists e, tv = Raise e).
    { unfold tv. destruct (dget (p_tv P) arch) as [f|] eqn:Hf; [|right; left; split; [split; auto|reflexivity]]. destruct (f pre (is_inception arch)) as [n'|e] eqn:Hc; [left; eauto|]. right. destruct e; try (right; eauto; fail). destruct pre; [|right; eauto]. left. split; [|reflexivity]. split; [exact M|]. right. split; auto. exists f. auto. }
    destruct T as [(f & n' & Hf & Hc & ->)|[(Nt & ->)|(e & ->)]]; cbn [bind]; [| |discriminate].
    + intro H. injection H as <- <-. exists FromTorchvision. split; [eapply b_torchvision; eauto|reflexivity].
    + destruct (dget (p_extra P) arch) as [e|] eqn:He; [destruct pre|]; cbn [bind].
      * destruct (dget (p_cadene P) arch) as [f|] eqn:Hf; [|discriminate]. destruct (f true) as [n'|] eqn:Hc; [|discriminate]. cbn [bind]. intro H. injection H as -> <-. exists FromCadene. split; [eapply b_cadene; eauto|reflexivity].
      * destruct (call0 e) as [n'|] eqn:Hc; [|discriminate]. cbn [bind]. intro H. injection H as -> <-. exists FromDistiller. split; [eapply b_extra; eauto|reflexivity].
      * destruct (dget (p_cadene P) arch) as [f|] eqn:Hf; [|discriminate]. destruct (f pre) as [n'|] eqn:Hc; [|discriminate]. cbn [bind]. intro H. injection H as -> <-. exists FromCadene. split; [eapply b_cadene; eauto|reflexivity].
Qed.
Lemma small_ok (d : dict (entry K)) arch pre n : create_small d arch pre = Ok n <-> pre = false /\ exists e, dget d arch = Some e /\ call0 e = Ok n.
Proof.
  unfold create_small. destruct pre; [split; [discriminate|intros [H _]; discriminate]|]. destruct (dget d arch) as [e|]; [|split; [discriminate|intros (_ & e & H & _); discriminate]].
  destruct (call0 e) as [n'|x] eqn:E; [|destruct x; split; try discriminate; intros (_ & e' & H & Hc); injection H as <-; congruence]. split; [intro H; injection H as ->; split; eauto|]. intros (_ & e' & H & Hc). injection H as <-. congruence.
Qed.
Lemma network_builtin (P : packages) E pre ds arch o (n : net) : builtin P pre ds arch o n -> create_network P E pre ds arch = Ok (n, cad o).
Proof.
  intro B. unfold create_network. inversion B as [a e n' Hin He Hc|a f n' Nin Hf Hc|a e n' Hp Nt He Hc|a f n' Nt Hx Hf Hc|a e n' Hp He Hc|a e n' Hp He Hc]; try (subst ds; change (String.eqb "imagenet" "imagenet") with true; destruct (imagenet_builtin P pre arch o n) as [A _]; [subst; exact B|]; cbn [andb]; subst; rewrite A; reflexivity).
  - assert (A : create_small (p_cifar P) arch pre = Ok n) by (apply small_ok; eauto). change (String.eqb "cifar10" "imagenet") with false. change (String.eqb "cifar10" "cifar10") with true. cbn [andb]. rewrite A. reflexivity.
  - assert (A : create_small (p_mnist P) arch pre = Ok n) by (apply small_ok; eauto). change (String.eqb "mnist" "imagenet") with false. change (String.eqb "mnist" "cifar10") with false. rewrite A. reflexivity.
Qed.
Lemma network_inv (P : packages) E pre ds arch (n : net) c : In ds SUPPORTED_DATASETS -> create_network P E pre ds arch = Ok (n, c) ->
  exists o, c = cad o /\ (builtin P pre ds arch o n \/ o = FromUser /\ extension E arch ds = Some (Ok n)).
Proof.
  intros Hds H. unfold create_network in H.
  assert (L : forall r, (forall n c, r = Ok (n, c) -> exists o, builtin P pre ds arch o n /\ c = cad o) ->
     match r with Raise ValueError => match extension E arch ds with Some f => do n <- f; Ok (n, false) | None => Raise ValueError end | _ => r end = Ok (n, c) ->
     exists o, c = cad o /\ (builtin P pre ds arch o n \/ o = FromUser /\ extension E arch ds = Some (Ok n))).
  { intros r Hr Hm. destruct r as [[n' c']|e].
    - injection Hm as -> ->. destruct (Hr n c eq_refl) as (o & B & ->). eauto.
    - destruct e; try discriminate. destruct (extension E arch ds) as [f|] eqn:Ee; [|discriminate]. destruct f as [n'|]; [|discriminate]. cbn [bind] in Hm. injection Hm as -> <-. exists FromUser. auto. }
  apply L in H; [exact H|]. clear L H. intros n' c' Hr. destruct Hds as [<-|[<-|[<-|[]]]].
  - change (String.eqb "imagenet" "imagenet") with true in Hr. cbn iota in Hr. apply imagenet_inv in Hr. exact Hr.
  - change (String.eqb "cifar10" "imagenet") with false in Hr. change (String.eqb "cifar10" "cifar10") with true in Hr. cbn iota in Hr. destruct (create_small (p_cifar P) arch pre) as [m|] eqn:S; [|discriminate]. cbn [bind] in Hr. injection Hr as -> <-. apply small_ok in S. destruct S as (-> & e & He & Hc). exists FromDistiller. split; [eapply b_cifar; eauto|reflexivity].
  - change (String.eqb "mnist" "imagenet") with false in Hr. change (String.eqb "mnist" "cifar10") with false in Hr. cbn iota in Hr. destruct (create_small (p_mnist P) arch pre) as [m|] eqn:S; [|discriminate]. cbn [bind] in Hr. injection Hr as -> <-. apply small_ok in S. destruct S as (-> & e & He & Hc). exists FromDistiller. split; [eapply b_mnist; eauto|reflexivity].
Qed.
Lemma network_absent (P : packages) E pre ds arch : absent P pre ds arch ->
  create_network P E pre ds arch = match extension E arch ds with Some f => do n <- f; Ok (n, false) | None => Raise ValueError end.
Proof.
  intro A. unfold create_network. inversion A as [a Nt Hx Hc|a Hx|a Hx]; subst.
  - change (String.eqb "imagenet" "imagenet") with true. cbn iota. assert (R : create_imagenet P arch pre = Raise ValueError); [|rewrite R; reflexivity].
    unfold create_imagenet. destruct Nt as (Nin & Nt). rewrite (res_not _ Nin).
    assert (T : match dget (p_tv P) arch with
                | Some f => match f pre (is_inception arch) with
                            | Ok n => Ok (Some (if String.eqb arch "mobilenet_v2" then p_patch P n else n))
                            | Raise NotImplementedError => if pre then Ok None else Raise NotImplementedError
                            | Raise e => Raise e end
                | None => Ok None end = Ok None).
    { destruct Nt as [Nt|(-> & g & Hg & Rg)]; [rewrite Nt; reflexivity|]. rewrite Hg, Rg. reflexivity. }
    rewrite T. cbn [bind]. destruct Hx as [-> | Hx]; [destruct (dget (p_extra P) arch)|rewrite Hx]; cbn [bind]; rewrite Hc; reflexivity.
  - change (String.eqb "cifar10" "imagenet") with false. change (String.eqb "cifar10" "cifar10") with true. cbn iota. unfold create_small. destruct Hx as [-> | Hx]; [reflexivity|]. rewrite Hx. destruct pre; reflexivity.
  - change (String.eqb "mnist" "imagenet") with false. change (String.eqb "mnist" "cifar10") with false. cbn iota. unfold create_small. destruct Hx as [-> | Hx]; [reflexivity|]. rewrite Hx. destruct pre; reflexivity.
Qed.

(** the model on the GPU? in DataParallel, and where? its input shape *)
Definition on_gpu (cuda : bool) (ids : option Z) : Prop := cuda = true /\ ids <> Some (-1)%Z.
Definition split_features (arch : string) : Prop := (exists r, arch = "alexnet" ++ r)%string \/ (exists r, arch = "vgg" ++ r)%string.
Definition placed (cuda : bool) (ids : option Z) (parallel : bool) (arch : string) (pl : placement) : Prop :=
  match pl with
  | Plain => ~ (on_gpu cuda ids /\ parallel = true)
  | Features => on_gpu cuda ids /\ parallel = true /\ split_features arch
  | Whole => on_gpu cuda ids /\ parallel = true /\ ~ split_features arch
  end.
Definition default_shape (ds arch : string) (o : origin) (pre : bool) (n : net) (s : shape) : Prop :=
  if cad o && pre then exists l, n_size n = Some l /\ s = ints (1%Z :: l)
  else if String.eqb arch "inception_v3" then s = ints [1; 3; 299; 299]%Z
  else dataset_shape ds = Ok s.
Definition has_shape (ds arch : string) (o : origin) (pre : bool) (n : net) (pl : placement) (s : shape) : Prop :=
  match pl, n_shape n with
  | Plain, Some own | Features, Some own => s = own
  | _, _ => default_shape ds arch o pre n s
  end.
Lemma prefix_spec p s : String.prefix p s = true <-> exists r, s = (p ++ r)%string.
Proof.
  revert s. induction p as [|a p IH]; intros [|b s]; cbn.
  - split; eauto.
  - split; eauto.
  - split; [discriminate|]. intros (r & H). discriminate.
  - destruct (ascii_dec a b) as [->|Ne].
    + rewrite IH. split; intros (r & H); exists r; congruence.
    + split; [discriminate|]. intros (r & H). injection H as -> _. congruence.
Qed.
Lemma feat_spec arch : startswith "alexnet" arch || startswith "vgg" arch = true <-> split_features arch.
Proof. unfold startswith. rewrite orb_true_iff, !prefix_spec. reflexivity. Qed.
Lemma gpu_spec cuda ids : cuda && negb (match ids with Some i => (i =? -1)%Z | None => false end) = true <-> on_gpu cuda ids.
Proof.
  unfold on_gpu. rewrite andb_true_iff, negb_true_iff. destruct ids as [i|]; [rewrite Z.eqb_neq|]; split; intros [A B]; split; auto; congruence.
Qed.
Lemma supported ds : negb (mem ds SUPPORTED_DATASETS) = false <-> In ds SUPPORTED_DATASETS.
Proof. rewrite negb_false_iff. apply mem_In. Qed.
Lemma shape_ok (n : net) pl ds arch pre o s : In ds SUPPORTED_DATASETS -> input_shape n pl arch ds pre (cad o) = Ok s -> has_shape ds arch o pre n pl s.
Proof.
  intros Hds H. unfold input_shape in H. set (has := match pl with Whole => None | _ => n_shape n end) in *.
  assert (D : match has with Some own => s = own | None => default_shape ds arch o pre n s end).
  { unfold default_shape. destruct (cad o && pre).
    - destruct (n_size n) as [l|]; [|discriminate]. destruct has as [own|]; [congruence|]. exists l. split; [reflexivity|]. cbn [validate ints is_tup] in H. destruct (val_recurse_spec (ints (1%Z :: l))) as (A & _). apply A in H. apply H.
    - destruct (String.eqb arch "inception_v3"); destruct has as [own|]; try congruence.
      + cbn in H. injection H as <-. reflexivity.
      + destruct Hds as [<-|[<-|[<-|[]]]]; exact H. }
  unfold has_shape, has in *. destruct pl; destruct (n_shape n); exact D.
Qed.

(** A created model: the network is a built-in one of that name for the data set, or the user's; it has the attributes asked for,
    is in DataParallel as described, and has its input shape. *)
Theorem C100_created : forall (P : packages) (E : extensions) cuda pre ds arch parallel ids (c : created),
  create_model P E cuda pre ds arch parallel ids = Ok c ->
  In (lower ds) ["imagenet"; "cifar10"; "mnist"] /\ c_arch c = arch /\ c_dataset c = lower ds /\
  (c_cuda c = true <-> on_gpu cuda ids) /\ (c_parallel c = true <-> on_gpu cuda ids /\ parallel = true) /\ placed cuda ids parallel arch (c_place c) /\
  (c_place c = Features -> n_features (c_net c) = true) /\
  exists o, (builtin P pre (lower ds) arch o (c_net c) \/ o = FromUser /\ extension E arch (lower ds) = Some (Ok (c_net c))) /\
    has_shape (lower ds) arch o pre (c_net c) (c_place c) (c_shape c).
Proof.
  intros P E cuda pre ds arch parallel ids c H. unfold create_model in H. destruct (negb (mem (lower ds) SUPPORTED_DATASETS)) eqn:Sd; [discriminate|]. apply supported in Sd.
  destruct (create_network P E pre (lower ds) arch) as [[n cd]|] eqn:N; [|discriminate]. cbn [bind] in H. destruct (network_inv P E pre (lower ds) arch n cd Sd N) as (o & -> & Src).
  set (gpu := cuda && _) in H. assert (G : gpu = true <-> on_gpu cuda ids) by apply gpu_spec. set (feat := startswith "alexnet" arch || startswith "vgg" arch) in H. assert (F : feat = true <-> split_features arch) by apply feat_spec.
  match type of H with bind ?b _ = _ => destruct b as [pl|] eqn:Pl; [|discriminate] end. cbn [bind] in H.
  destruct (input_shape n pl arch (lower ds) pre (cad o)) as [s|] eqn:Sh; [|discriminate]. cbn [bind] in H. injection H as <-. cbn [c_arch c_dataset c_cuda c_parallel c_place c_net c_shape].
  apply shape_ok in Sh; [|exact Sd]. split; [exact Sd|]. split; [reflexivity|]. split; [reflexivity|]. split; [exact G|]. split; [rewrite andb_true_iff, G; reflexivity|].
  destruct gpu, parallel; cbn [andb] in Pl; [destruct feat; [destruct (n_features n) eqn:Nf; [|discriminate]|]| | |]; injection Pl as <-; cbn [placed]; split; try (split; [congruence|exists o; auto]); try tauto; try (intuition congruence).
Qed.

(** Conversely the built-in model of that name is what one gets, whatever users registered ... *)
Definition fits (cuda : bool) (ids : option Z) (parallel : bool) (arch : string) (o : origin) (pre : bool) (n : net) : Prop :=
  (on_gpu cuda ids -> parallel = true -> split_features arch -> n_features n = true) /\
  (cad o && pre = true -> exists l, n_size n = Some l /\ Forall (fun z => (0 <= z)%Z) l).
Lemma finish (P : packages) (E : extensions) cuda pre ds arch parallel ids n o : In (lower ds) SUPPORTED_DATASETS -> fits cuda ids parallel arch o pre n ->
  create_network P E pre (lower ds) arch = Ok (n, cad o) -> exists c, create_model P E cuda pre ds arch parallel ids = Ok c /\ c_net c = n.
Proof.
  intros Sd [F1 F2] N. unfold create_model. apply supported in Sd. rewrite Sd. apply supported in Sd. rewrite N. cbn [bind]. set (gpu := cuda && _). assert (G : gpu = true <-> on_gpu cuda ids) by apply gpu_spec.
  set (feat := startswith "alexnet" arch || startswith "vgg" arch). assert (F : feat = true <-> split_features arch) by apply feat_spec.
  assert (Sh : forall pl, exists s, input_shape n pl arch (lower ds) pre (cad o) = Ok s).
  { intro pl. unfold input_shape. set (has := match pl with Whole => None | _ => n_shape n end). destruct (cad o && pre).
    - destruct (F2 eq_refl) as (l & Hl & Nn). rewrite Hl. destruct has; [eauto|]. cbn [validate ints is_tup]. destruct (val_recurse_spec (ints (1%Z :: l))) as (_ & B & _). exists (ints (1%Z :: l)). apply B. apply (vs_tensor (1%Z :: l)). constructor; [lia|exact Nn].
    - destruct (String.eqb arch "inception_v3"); destruct has; eauto; [eexists; reflexivity|]. destruct Sd as [<-|[<-|[<-|[]]]]; eexists; reflexivity. }
  destruct (gpu && parallel) eqn:GP.
  - apply andb_prop in GP. destruct GP as [GP1 ->]. destruct feat eqn:Ef.
    + rewrite F1; [|apply G; exact GP1|reflexivity|apply F; reflexivity]. cbn [bind]. destruct (Sh Features) as (s & ->). cbn [bind]. eexists. split; reflexivity.
    + cbn [bind]. destruct (Sh Whole) as (s & ->). cbn [bind]. eexists. split; reflexivity.
  - cbn [bind]. destruct (Sh Plain) as (s & ->). cbn [bind]. eexists. split; reflexivity.
Qed.
Theorem C100_builtin : forall (P : packages) (E : extensions) cuda pre ds arch parallel ids o (n : net),
  builtin P pre (lower ds) arch o n -> fits cuda ids parallel arch o pre n -> exists c, create_model P E cuda pre ds arch parallel ids = Ok c /\ c_net c = n.
Proof.
  intros P E cuda pre ds arch parallel ids o n B F. apply (finish P E cuda pre ds arch parallel ids n o); auto; [|apply network_builtin; exact B].
  inversion B; cbn; auto.
Qed.
(** ... and if there is none, the user's is; without one it is a ValueError. *)
Theorem C100_user : forall (P : packages) (E : extensions) cuda pre ds arch parallel ids, absent P pre (lower ds) arch ->
  (forall n, extension E arch (lower ds) = Some (Ok n) -> fits cuda ids parallel arch FromUser pre n -> exists c, create_model P E cuda pre ds arch parallel ids = Ok c /\ c_net c = n) /\
  (extension E arch (lower ds) = None -> create_model P E cuda pre ds arch parallel ids = Raise ValueError).
Proof.
  intros P E cuda pre ds arch parallel ids A. assert (Sd : In (lower ds) SUPPORTED_DATASETS) by (inversion A; cbn; auto). pose proof (network_absent P E pre _ _ A) as N. split.
  - intros n Ee F. apply (finish P E cuda pre ds arch parallel ids n FromUser); auto. rewrite N, Ee. reflexivity.
  - intro Ee. unfold create_model. apply supported in Sd. rewrite Sd, N, Ee. reflexivity.
Qed.
(** what is registered: the last registration for exactly this name and data set counts *)
Fixpoint last_registered (h : list (string * string * option (res net))) (arch ds : string) : option (res net) :=
  match h with
  | [] => None
  | (a, d, f) :: h => match last_registered h arch ds with
                      | Some g => Some g
                      | None => if String.eqb a arch && String.eqb d ds then f else None
                      end
  end.
Lemma extension_register (E : extensions) a d f arch ds : extension (register_user_model E a d f) arch ds = if String.eqb a arch && String.eqb d ds then f else extension E arch ds.
Proof.
  unfold extension, register_user_model. cbn [find]. unfold same_key at 1. cbn [fst snd]. destruct (String.eqb a arch && String.eqb d ds) eqn:M; [reflexivity|]. f_equal.
  assert (F : find (same_key arch ds) (filter (fun x => negb (same_key a d x)) E) = find (same_key arch ds) E); [|rewrite F; reflexivity].
  induction E as [|x E IH]; [reflexivity|]. cbn [filter find]. destruct (same_key a d x) eqn:Ka; cbn [negb]; [|cbn [find]; destruct (same_key arch ds x); auto].
  destruct (same_key arch ds x) eqn:Kb; [|exact IH]. exfalso. unfold same_key in *. apply andb_prop in Ka, Kb. destruct Ka as [A1 A2], Kb as [B1 B2]. apply String.eqb_eq in A1, A2, B1, B2. rewrite <- A1, <- A2, B1, B2, !String.eqb_refl in M. discriminate.
Qed.
Theorem C100_registered : forall (h : list (string * string * option (res net))) arch ds, (forall a d f, In (a, d, f) h -> f <> None) ->
  extension (fold_left (fun E x => register_user_model E (fst (fst x)) (snd (fst x)) (snd x)) h []) arch ds = last_registered h arch ds.
Proof.
  intros h arch ds N. assert (L : forall E, extension (fold_left (fun E x => register_user_model E (fst (fst x)) (snd (fst x)) (snd x)) h E) arch ds = match last_registered h arch ds with Some g => Some g | None => extension E arch ds end).
  { induction h as [|[[a d] f] h IH]; intro E; [reflexivity|]. cbn [fold_left fst snd last_registered]. rewrite IH by (intros; eapply N; right; eauto). destruct (last_registered h arch ds); [reflexivity|]. rewrite extension_register. destruct (String.eqb a arch && String.eqb d ds); [|reflexivity]. destruct f; [reflexivity|]. exfalso. apply (N a d None); [left; reflexivity|reflexivity]. }
  rewrite L. destruct (last_registered h arch ds); reflexivity.
Qed.
(** Only three data sets are known, in any case of letters; users cannot add one. *)
Theorem C100_datasets : forall (P : packages) (E : extensions) cuda pre ds arch parallel ids,
  (~ In (lower ds) ["imagenet"; "cifar10"; "mnist"] -> create_model P E cuda pre ds arch parallel ids = Raise ValueError) /\
  create_model P E cuda pre ds arch parallel ids = create_model P E cuda pre (lower ds) arch parallel ids.
Proof.
  intros. split.
  - intro N. unfold create_model. rewrite (proj2 (mem_not _ SUPPORTED_DATASETS) N). reflexivity.
  - assert (L : lower (lower ds) = lower ds). { induction ds as [|c ds IH]; [reflexivity|]. cbn [lower]. rewrite IH. f_equal. destruct c as [[] [] [] [] [] [] [] []]; reflexivity. }
    unfold create_model. rewrite L. reflexivity.
Qed.
(** A model asked for with trained weights is trained, or a user's. *)
Theorem C100_pretrained : forall (P : packages) (E : extensions) cuda ds arch parallel ids (c : created),
  create_model P E cuda true ds arch parallel ids = Ok c ->
  extension E arch (lower ds) = Some (Ok (c_net c)) \/
  lower ds = "imagenet" /\
  ((exists e, dget (p_extra P) arch = Some e /\ callp e true = Ok (c_net c)) \/
   (exists f n, dget (p_tv P) arch = Some f /\ f true (is_inception arch) = Ok n /\ c_net c = (if String.eqb arch "mobilenet_v2" then p_patch P n else n)) \/
   (exists f, dget (p_cadene P) arch = Some f /\ f true = Ok (c_net c))).
Proof.
  intros P E cuda ds arch parallel ids c H. apply C100_created in H. destruct H as (_ & _ & _ & _ & _ & _ & _ & o & [B|[_ U]] & _); [|left; exact U]. right.
  inversion B; subst; try discriminate; split; auto; eauto 10.
Qed.

(** ** Findings *)
(** A user's model is made although trained weights were asked for, and even in place of an untrained built-in model of that name. *)
Theorem C100_user_pretrained_refuted : forall (P : packages) (E : extensions) arch n cuda ids, extension E arch "cifar10" = Some (Ok n) ->
  exists c, create_model P E cuda true "cifar10" arch false ids = Ok c /\ c_net c = n.
Proof.
  intros P E arch n cuda ids Ee. destruct (C100_user P E cuda true "cifar10" arch false ids) as [U _]; [apply a_cifar; auto|]. apply U; [exact Ee|]. split; intros; discriminate.
Qed.
(** A model registered for a data set spelled with a capital is never found. *)
Theorem C100_capital_refuted : forall (P : packages) cuda pre arch parallel ids f, absent P pre "cifar10" arch ->
  create_model P (register_user_model [] arch "CIFAR10" f) cuda pre "CIFAR10" arch parallel ids = Raise ValueError.
Proof.
  intros P cuda pre arch parallel ids f A. apply C100_user; [exact A|]. change (lower "CIFAR10") with "cifar10". rewrite extension_register. change (String.eqb "CIFAR10" "cifar10") with false. rewrite andb_false_r. reflexivity.
Qed.
(** A name in a package that is no model (a submodule, say) is a TypeError, not the documented ValueError, also if a user registered a model of that name. *)
Theorem C100_not_a_model_refuted : forall (P : packages) (E : extensions) cuda arch parallel ids, dget (p_cifar P) arch = Some ENot ->
  create_model P E cuda false "cifar10" arch parallel ids = Raise TypeError.
Proof. intros P E cuda arch parallel ids H. unfold create_model, create_network. cbn [lower lower_char]. change (mem (lower "cifar10") SUPPORTED_DATASETS) with true. cbn [negb]. change (String.eqb (lower "cifar10") "imagenet") with false. change (String.eqb (lower "cifar10") "cifar10") with true. cbn iota. unfold create_small. rewrite H. reflexivity. Qed.
(** The ValueError of a model's own constructor is reported as an unknown model. *)
Theorem C100_masked_error_refuted : forall (P : packages) (E : extensions) cuda arch parallel ids f fp, dget (p_cifar P) arch = Some (ECall f fp) -> f = Raise ValueError \/ f = Raise KeyError -> extension E arch "cifar10" = None ->
  create_model P E cuda false "cifar10" arch parallel ids = Raise ValueError.
Proof. intros P E cuda arch parallel ids f fp H Hf Ee. unfold create_model, create_network. change (lower "cifar10") with "cifar10". change (mem "cifar10" SUPPORTED_DATASETS) with true. cbn [negb]. change (String.eqb "cifar10" "imagenet") with false. change (String.eqb "cifar10" "cifar10") with true. cbn iota. unfold create_small. rewrite H. cbn [call0]. destruct Hf as [-> | ->]; cbn [bind]; rewrite Ee; reflexivity. Qed.
(** A user's model with an input shape of its own keeps it on the CPU and loses it in DataParallel. *)
Theorem C100_own_shape_refuted : forall (P : packages) arch n s, absent P false "cifar10" arch -> ~ split_features arch -> arch <> "inception_v3" -> n_shape n = Some s ->
  (exists c, create_model P (register_user_model [] arch "cifar10" (Some (Ok n))) false false "cifar10" arch true None = Ok c /\ c_shape c = s) /\
  (exists c, create_model P (register_user_model [] arch "cifar10" (Some (Ok n))) true false "cifar10" arch true None = Ok c /\ c_shape c = ints [1; 3; 32; 32]%Z).
Proof.
  intros P arch n s A Nf Ni Hs. set (E := register_user_model [] arch "cifar10" (Some (Ok n))).
  assert (Ee : extension E arch "cifar10" = Some (Ok n)) by (unfold E; rewrite extension_register, !String.eqb_refl; reflexivity).
  assert (Go : forall cuda, exists c, create_model P E cuda false "cifar10" arch true None = Ok c /\ c_net c = n).
  { intro cuda. destruct (C100_user P E cuda false "cifar10" arch true None A) as [U _]. apply U; [exact Ee|]. split; [intros _ _ K0; contradiction|discriminate]. }
  split.
  - destruct (Go false) as (c & Hc & En). exists c. split; [exact Hc|]. apply C100_created in Hc. destruct Hc as (_ & _ & _ & _ & _ & Pl & _ & o & _ & Sh). rewrite En in Sh. unfold has_shape in Sh. rewrite Hs in Sh.
    destruct (c_place c); [exact Sh|exact Sh|]. exfalso. destruct Pl as [[Q1 _] _]. discriminate.
  - destruct (Go true) as (c & Hc & En). exists c. split; [exact Hc|]. apply C100_created in Hc. destruct Hc as (_ & _ & _ & _ & _ & Pl & _ & o & _ & Sh). rewrite En in Sh. unfold has_shape in Sh. rewrite Hs in Sh.
    assert (G : on_gpu true None) by (split; [reflexivity|discriminate]). destruct (c_place c); [exfalso; apply Pl; auto|exfalso; destruct Pl as (_ & _ & Sf); contradiction|]. unfold default_shape in Sh. rewrite andb_false_r in Sh. destruct (String.eqb_spec arch "inception_v3"); [contradiction|]. change (lower "cifar10") with "cifar10" in Sh. cbn in Sh. congruence.
Qed.
(** The shape recorded for an Inception network other than inception_v3 is not that of the images loaded for it (299: imagenet_get_datasets). *)
Definition crop (arch : string) : Z := if is_inception arch then 299 else 224.   (* apputils/data_loaders.py:174-177 *)
Theorem C100_inception_shape : forall (P : packages) (E : extensions) cuda ds arch parallel ids (c : created),
  create_model P E cuda false ds arch parallel ids = Ok c -> lower ds = "imagenet" -> n_shape (c_net c) = None ->
  ~ In arch ["googlenet"; "inceptionv3"; "inceptionv4"; "inceptionresnetv2"] -> c_shape c = ints [1; 3; crop arch; crop arch]%Z.
Proof.
  intros P E cuda ds arch parallel ids c H Hd Hn Na. apply C100_created in H. destruct H as (_ & _ & _ & _ & _ & _ & _ & o & _ & Sh). unfold has_shape in Sh. rewrite Hn in Sh.
  assert (D : default_shape (lower ds) arch o false (c_net c) (c_shape c)) by (destruct (c_place c); exact Sh). unfold default_shape in D. rewrite andb_false_r, Hd in D. unfold crop, is_inception.
  destruct (String.eqb_spec arch "inception_v3") as [->|Ne]; [exact D|]. assert (M : mem arch ["inception_v3"; "googlenet"; "inceptionv3"; "inceptionv4"; "inceptionresnetv2"] = false).
  { apply mem_not. intros [<-|I]; [congruence|contradiction]. }
  rewrite M. cbn in D. congruence.
Qed.
Theorem C100_inception_shape_refuted : forall (P : packages) (E : extensions) cuda ds arch parallel ids (c : created),
  create_model P E cuda false ds arch parallel ids = Ok c -> lower ds = "imagenet" -> n_shape (c_net c) = None ->
  In arch ["googlenet"; "inceptionv3"; "inceptionv4"; "inceptionresnetv2"] -> c_shape c = ints [1; 3; 224; 224]%Z /\ crop arch = 299%Z.
Proof.
  intros P E cuda ds arch parallel ids c H Hd Hn Na. apply C100_created in H. destruct H as (_ & _ & _ & _ & _ & _ & _ & o & _ & Sh). unfold has_shape in Sh. rewrite Hn in Sh.
  assert (D : default_shape (lower ds) arch o false (c_net c) (c_shape c)) by (destruct (c_place c); exact Sh). unfold default_shape in D. rewrite andb_false_r, Hd in D.
  destruct Na as [<-|[<-|[<-|[<-|[]]]]]; cbn in D; split; try reflexivity; congruence.
Qed.
End Create.

(** ** Example *)
Definition nt (k : nat) (f : bool) := mkNet k f None None.
Definition pk : packages nat := mkPkgs [("alexnet", fun (pre _ : bool) => Ok (nt (if pre then 11 else 10) true)); ("shufflenet", fun (pre _ : bool) => if pre then Raise NotImplementedError else Ok (nt 12 false)); ("mobilenet_v2", fun (_ _ : bool) => Ok (nt 13 true))]
  [("resnet50", ECall (Ok (nt 20 false)) (fun pre : bool => Ok (nt (if pre then 21 else 20) false))); ("mobilenet", ECall (Ok (nt 22 false)) (fun _ => Raise TypeError)); ("torch", ENot)]
  [("nasnet", fun pre : bool => Ok (mkNet (if pre then 31 else 30) false None (Some [3; 331; 331]%Z))); ("shufflenet", fun pre : bool => Ok (mkNet 32 false None (Some [3; 224; 224]%Z)))]
  [("simplenet_cifar", ECall (Ok (nt 40 false)) (fun _ => Raise TypeError)); ("plain_cifar", ENot)] [] (fun n => nt (n_content n + 100) (n_features n)).
Definition ext : extensions nat := register_user_model [] "mine" "cifar10" (Some (Ok (nt 99 false))).
Example C100_run :
  option_map (fun c => (n_content (c_net c), c_place c, c_shape c)) (match create_model pk ext true true "ImageNet" "alexnet" true None with Ok c => Some c | _ => None end) = Some (11, Features, ints [1; 3; 224; 224]%Z) /\
  option_map (fun c => (n_content (c_net c), c_place c, c_shape c)) (match create_model pk ext true true "imagenet" "nasnet" true None with Ok c => Some c | _ => None end) = Some (31, Whole, ints [1; 3; 331; 331]%Z) /\
  option_map (fun c => n_content (c_net c)) (match create_model pk ext true true "imagenet" "shufflenet" true None with Ok c => Some c | _ => None end) = Some 32 /\
  option_map (fun c => (n_content (c_net c), c_parallel c)) (match create_model pk ext true false "imagenet" "mobilenet_v2" true (Some (-1)%Z) with Ok c => Some c | _ => None end) = Some (113, false) /\
  option_map (fun c => n_content (c_net c)) (match create_model pk ext false false "cifar10" "mine" true None with Ok c => Some c | _ => None end) = Some 99 /\
  create_model pk ext false true "imagenet" "mobilenet" true None = Raise ValueError /\
  absent pk false "cifar10" "mine" /\ builtin pk true "imagenet" "shufflenet" FromCadene (mkNet 32 false None (Some [3; 224; 224]%Z)).
Proof.
  repeat split; try reflexivity; [apply a_cifar; auto|]. eapply b_cadene; [split; [cbn; intuition discriminate|]|left; reflexivity|reflexivity|reflexivity]. right. split; [reflexivity|]. eexists. split; reflexivity.
Qed.

Print Assumptions C101_dummy_input.
Print Assumptions C101_valid_has_input.
Print Assumptions C101_refused.
Print Assumptions C101_negative.
Print Assumptions C101_dataset.
Print Assumptions C100_created.
Print Assumptions C100_builtin.
Print Assumptions C100_user.
Print Assumptions C100_registered.
Print Assumptions C100_datasets.
Print Assumptions C100_pretrained.
Print Assumptions C100_user_pretrained_refuted.
Print Assumptions C100_capital_refuted.
Print Assumptions C100_not_a_model_refuted.
Print Assumptions C100_masked_error_refuted.
Print Assumptions C100_own_shape_refuted.
Print Assumptions C100_inception_shape.
Print Assumptions C100_inception_shape_refuted.
