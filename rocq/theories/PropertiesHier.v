(** C107: finding and replacing modules by name. *)
From Coq Require Import String Ascii List Arith Bool Lia.
From Verif Require Import Base Names HierModel HierSpec HierProofs.
Import ListNotations.
Local Open Scope string_scope.
Open Scope list_scope.
Open Scope nat_scope.

(** Names listed for a model are those by which its modules are reached, each module and each name once. *)
Theorem C107_names : forall t, proper t ->
  NoDup (map fst (named_modules t)) /\ NoDup (modules t) /\ In ("", ident_of t) (named_modules t) /\
  forall n i, In (n, i) (named_modules t) -> exists p s, n = dotted p /\ Forall plain p /\ reached t p = Some s /\ ident_of s = i.
Proof.
  intros t HP. destruct (listed t HP) as (l & E & H1 & H2 & H3 & H4 & H5 & _). split; [exact H3|]. split; [|split].
  - unfold modules. rewrite E. unfold out. rewrite map_map. exact H1.
  - rewrite E. destruct l as [|x l]; [discriminate H4|]. injection H4 as ->. now left.
  - intros n i HI. rewrite E in HI. apply in_map_iff in HI. destruct HI as ([q j] & Eq & HI). injection Eq as <- <-. destruct (H5 q j HI) as (Hq & s & Hs & Ei). now exists q, s.
Qed.

(** After the names of a model are assigned, exactly the listed names are found, each giving its module, whatever names
    there were before. *)
Theorem C107_find : forall t s, proper t -> forall n i, find_module_by_fq_name t (assign_layer_fq_names t s) n = Some i <-> In (n, i) (named_modules t).
Proof. exact find_iff. Qed.

(** so a module found is the one reached by that name, *)
Theorem C107_found : forall t s n i, proper t -> find_module_by_fq_name t (assign_layer_fq_names t s) n = Some i ->
  exists p u, n = dotted p /\ reached t p = Some u /\ ident_of u = i.
Proof. intros t s n i HP H. apply find_iff in H; [|exact HP]. destruct (C107_names t HP) as (_ & _ & _ & H4). destruct (H4 n i H) as (p & u & A & _ & B & C). now exists p, u. Qed.

(** Setting what a listed module is registered as: the module above it is written, under the last part of the name. *)
Theorem C107_replace : forall t n i, proper t -> In (n, i) (named_modules t) -> n <> "" ->
  exists p k u, n = dotted (p ++ [k]) /\ reached t p = Some u /\ model_setattr t n = Ok (ident_of u, k).
Proof.
  intros t n i HP HI Hn. destruct (listed t HP) as (l & E & _ & _ & _ & _ & H5 & H6).
  rewrite E in HI. apply in_map_iff in HI. destruct HI as ([q j] & Eq & HI). injection Eq as <- <-. cbn [fst] in *.
  destruct q as [|k q _] using rev_ind; [contradiction|]. destruct (H5 _ _ HI) as (Hq & _). apply Forall_app in Hq. destruct Hq as [Hq Hk].
  destruct (H6 q k j HI) as (i0 & H0). destruct (H5 q i0 H0) as (_ & u & Hu & Eu). exists q, k, u. split; [reflexivity|]. split; [exact Hu|].
  change (q ++ [k]) with (q ++ [] ++ [k]). apply (setattr_ok t q [] k HP); [now rewrite app_nil_r| | |].
  - apply plain_no_dot. now inversion Hk.
  - rewrite E. apply in_map_iff. exists (q, i0). split; [now rewrite Eu|exact H0].
  - intros q1 q2 E0 N. destruct q1; [contradiction|discriminate E0].
Qed.

(** The same for any other attribute of a listed module: parameters, buffers, new names. *)
Theorem C107_attribute : forall t p i a, proper t -> Forall plain p -> In (dotted p, i) (named_modules t) -> plain a ->
  model_setattr t (dotted (p ++ [a])) = Ok (i, a).
Proof.
  intros t p i a HP Hp HI Ha. change (p ++ [a]) with (p ++ [] ++ [a]). apply (setattr_ok t p [] a HP); [now rewrite app_nil_r|now apply plain_no_dot|exact HI|].
  intros q1 q2 E0 N. destruct q1; [contradiction|discriminate E0].
Qed.

(** It never fails: where the path does not exist, the deepest module that does gets an attribute whose name is the rest
    of the path without its dots. *)
Theorem C107_missing_refuted : forall t p q i a, proper t -> Forall plain (p ++ q) -> plain a -> In (dotted p, i) (named_modules t) ->
  (forall q1 q2, q = q1 ++ q2 -> q1 <> [] -> forall j, ~ In (dotted (p ++ q1), j) (named_modules t)) ->
  model_setattr t (dotted (p ++ q ++ [a])) = Ok (i, fold_right (fun k s => (k ++ s)%string) a q).
Proof. intros t p q i a HP HF Ha HI HQ. rewrite (setattr_ok t p q a HP HF (plain_no_dot a Ha) i HI HQ). f_equal. f_equal. clear. induction q; cbn; [reflexivity|now rewrite IHq]. Qed.

(* ------------------------------------------------------------------ cases: conv (1) used twice, in blocks *)
Definition net : mtree := Mod 0 [("b1", Mod 10 [("conv", Mod 1 []); ("bn", Mod 2 [])]); ("b2", Mod 11 [("conv", Mod 1 []); ("fc", Mod 3 [])])].
Lemma plain_dec : forall k, k <> "" -> no_dot k = true -> plain k.
Proof.
  intros k H1 H2. split; [exact H1|]. intros s1 s2 ->. clear H1. induction s1; cbn in H2; [discriminate H2|]. apply andb_prop in H2. destruct H2 as [_ H2]. now apply IHs1.
Qed.
Ltac kid := match goal with H : (_, _) = (_, _) |- _ => injection H as <- <-; split; [apply plain_dec; [discriminate|reflexivity]|] end.
Ltac prop := constructor; [repeat constructor; cbn; intuition discriminate|intros ? ? HI; cbn in HI; repeat (destruct HI as [HI|HI]; [kid|])]; try contradiction.
Example net_proper : proper net.
Proof. prop; prop; prop. Qed.
Example C107_net : named_modules net = [("", 0); ("b1", 10); ("b1.conv", 1); ("b1.bn", 2); ("b2", 11); ("b2.fc", 3)].
Proof. reflexivity. Qed.
Definition none : fq_names := fun _ => None.

(** A shared module is only found by its first name. *)
Theorem C107_shared_refuted : reached net ["b2"; "conv"] = Some (Mod 1 []) /\ find_module_by_fq_name net (assign_layer_fq_names net none) "b2.conv" = None
  /\ find_module_by_fq_name net (assign_layer_fq_names net none) "b1.conv" = Some 1.
Proof. repeat split. Qed.
(** Its own modules cannot be set through its other name: here the attribute "convsub" of b2 would be set. *)
Theorem C107_shared_set_refuted : model_setattr net "b2.conv.weight" = Ok (11, "convweight") /\ model_setattr net "b1.conv.weight" = Ok (1, "weight").
Proof. split; reflexivity. Qed.
(** Names are relative to the module they were last assigned for: naming a part makes its modules unfindable from the whole. *)
Definition block2 : mtree := Mod 11 [("conv", Mod 1 []); ("fc", Mod 3 [])].
Theorem C107_relative_refuted : let s := assign_layer_fq_names block2 (assign_layer_fq_names net none) in
  find_module_by_fq_name net s "b2.fc" = None /\ find_module_by_fq_name net s "fc" = Some 3 /\ find_module_by_fq_name net s "b1.conv" = None.
Proof. repeat split. Qed.
Example C107_sets : model_setattr net "b2.fc" = Ok (11, "fc") /\ model_setattr net "b1.x.y.z" = Ok (10, "xyz") /\ model_setattr net "q" = Ok (0, "q").
Proof. repeat split. Qed.

Print Assumptions C107_names.
Print Assumptions C107_find.
Print Assumptions C107_found.
Print Assumptions C107_replace.
Print Assumptions C107_attribute.
Print Assumptions C107_missing_refuted.
Print Assumptions C107_shared_refuted.
Print Assumptions C107_shared_set_refuted.
Print Assumptions C107_relative_refuted.
