(** Parameter / module names: str.split('.'), '.'.join and the name manipulations built
    on them. *)
From Coq Require Import String Ascii List Bool Arith Lia.
From Verif Require Import Base.
Import ListNotations.
Local Open Scope string_scope.

Definition dot : ascii := "."%char.

(** Python's [s.split('.')] (never returns the empty list). *)
Fixpoint split_dot (s : string) : list string :=
  match s with
  | EmptyString => [""]
  | String c s' =>
      if Ascii.eqb c dot then "" :: split_dot s'
      else match split_dot s' with
           | [] => [String c EmptyString]
           | p :: ps => String c p :: ps
           end
  end.

(** Python's ['.'.join(l)]. *)
Fixpoint join_dot (l : list string) : string :=
  match l with
  | [] => ""
  | [p] => p
  | p :: ps => p ++ "." ++ join_dot ps
  end.

(** [s.startswith(p)] *)
Definition startswith (p s : string) : bool := String.prefix p s.

(** Drops the first [n] characters; [s.replace(p, '', 1)] when [s] starts with [p]
    and [n = len(p)]. *)
Fixpoint sdrop (n : nat) (s : string) : string :=
  match n, s with
  | O, _ => s
  | S n', String _ s' => sdrop n' s'
  | S _, EmptyString => EmptyString
  end.

(** [del modules[modules.index(x)]]: removes the first occurrence; [None] models the
    ValueError of [index]. *)
Fixpoint del_first (x : string) (l : list string) : option (list string) :=
  match l with
  | [] => None
  | y :: l' => if String.eqb x y then Some l'
               else match del_first x l' with
                    | None => None
                    | Some r => Some (y :: r)
                    end
  end.

(** distiller/utils.py:126-142 [normalize_module_name] *)
Definition normalize_module_name (layer_name : string) : string :=
  match del_first "module" (split_dot layer_name) with
  | None => layer_name
  | Some modules => join_dot modules
  end.

(** distiller/utils.py:145-154 [denormalize_module_name]; the model is represented by the
    list of the names yielded by [parallel_model.named_modules()]. *)
Definition denormalize_module_name (module_names : list string) (normalized : string) : string :=
  let found := filter (fun n => String.eqb (normalize_module_name n) normalized) module_names in
  match rev found with
  | n :: _ => n           (* fully_qualified_name[-1] *)
  | [] => normalized
  end.

(** distiller/utils.py:789-790 [param_name_2_module_name]:
    ['.'.join(param_name.split('.')[:-1])] *)
Definition param_name_2_module_name (param_name : string) : string :=
  join_dot (removelast (split_dot param_name)).

(** * Lemmas *)
Lemma split_dot_nonempty s : split_dot s <> [].
Proof.
  induction s as [|c s IH]; simpl; [discriminate|].
  destruct (Ascii.eqb c dot); [discriminate|].
  destruct (split_dot s); discriminate.
Qed.

Lemma join_split s : join_dot (split_dot s) = s.
Proof.
  induction s as [|c s IH]; simpl; auto.
  destruct (Ascii.eqb_spec c dot).
  - subst. pose proof (split_dot_nonempty s) as Hn.
    destruct (split_dot s) as [|p ps]; [congruence|].
    cbn [join_dot] in *. destruct ps; simpl in *; rewrite IH; reflexivity.
  - pose proof (split_dot_nonempty s) as Hn.
    destruct (split_dot s) as [|p ps]; [congruence|].
    cbn [join_dot] in *. destruct ps; simpl in *; rewrite IH; reflexivity.
Qed.

(** A dotted component contains no dot. *)
Fixpoint no_dot (s : string) : bool :=
  match s with
  | EmptyString => true
  | String c s' => negb (Ascii.eqb c dot) && no_dot s'
  end.

Lemma split_dot_no_dot s : Forall (fun p => no_dot p = true) (split_dot s).
Proof.
  induction s as [|c s IH]; simpl; [repeat constructor|].
  destruct (Ascii.eqb c dot) eqn:E; [constructor; auto|].
  destruct (split_dot s); [constructor; auto; simpl; rewrite E; auto|].
  inversion IH; subst. constructor; auto. simpl. rewrite E; auto.
Qed.

Lemma split_dot_app_dot p s :
  no_dot p = true -> split_dot (p ++ "." ++ s) = p :: split_dot s.
Proof.
  induction p as [|c p IH]; intro H; [reflexivity|].
  cbn [no_dot] in H. apply andb_prop in H. destruct H as [H1 H2].
  apply negb_true_iff in H1.
  change ((String c p) ++ "." ++ s)%string with (String c (p ++ "." ++ s)%string).
  cbn [split_dot]. rewrite H1, (IH H2). reflexivity.
Qed.

Lemma split_dot_single p : no_dot p = true -> split_dot p = [p].
Proof.
  induction p as [|c p IH]; intro H; [reflexivity|].
  cbn [no_dot] in H. apply andb_prop in H. destruct H as [H1 H2].
  apply negb_true_iff in H1. cbn [split_dot]. rewrite H1, (IH H2). reflexivity.
Qed.

Lemma split_join l : l <> [] -> Forall (fun p => no_dot p = true) l ->
  split_dot (join_dot l) = l.
Proof.
  induction l as [|p ps IH]; intros Hn HF; [congruence|].
  inversion HF; subst. destruct ps as [|q qs].
  - cbn [join_dot]. apply split_dot_single; auto.
  - cbn [join_dot]. rewrite split_dot_app_dot; auto.
    f_equal. apply IH; auto. discriminate.
Qed.

Lemma del_first_None x l : del_first x l = None <-> ~ In x l.
Proof.
  induction l as [|y l IH]; simpl; [tauto|].
  destruct (String.eqb_spec x y).
  - subst; split; [discriminate|intro H; exfalso; apply H; auto].
  - destruct (del_first x l) eqn:E.
    + split; [discriminate|]. intro H. exfalso. apply H. right.
      destruct (in_dec string_dec x l); auto. apply IH in n0. discriminate.
    + split; auto. intros _ [H|H]; [congruence|]. apply IH in H; auto.
Qed.

Lemma del_first_Some x l r :
  del_first x l = Some r <-> exists a b, l = (a ++ x :: b)%list /\ ~ In x a /\ r = (a ++ b)%list.
Proof.
  revert r; induction l as [|y l IH]; intro r; simpl.
  - split; [discriminate|]. intros (a & b & H & _). destruct a; discriminate.
  - destruct (String.eqb_spec x y).
    + subst. split.
      * intro H; inversion H; subst. exists [], r. auto.
      * intros (a & b & H & Hn & Hr). destruct a as [|z a].
        -- simpl in *. inversion H; subst; auto.
        -- simpl in H. inversion H; subst. exfalso; apply Hn; simpl; auto.
    + destruct (del_first x l) eqn:E.
      * split.
        -- intro H; inversion H; subst. destruct (proj1 (IH l0) eq_refl) as (a & b & H1 & H2 & H3).
           exists (y :: a), b. subst. repeat split; auto. intros [Hy|Hy]; [congruence|auto].
        -- intros (a & b & H & Hn & Hr). destruct a as [|z a].
           ++ simpl in H. inversion H; congruence.
           ++ simpl in H. inversion H; subst.
              assert (Some l0 = Some (a ++ b)%list) as Hs.
              { apply IH. exists a, b. repeat split; auto. intro; apply Hn; simpl; auto. }
              inversion Hs; auto.
      * split; [discriminate|]. intros (a & b & H & Hn & Hr).
        exfalso. apply del_first_None in E. destruct a as [|z a]; simpl in H; inversion H; subst.
        -- congruence.
        -- apply E. apply in_or_app; simpl; auto.
Qed.
