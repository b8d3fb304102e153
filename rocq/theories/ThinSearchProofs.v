(** Correctness of the graph searches used for thinning. *)
From Coq Require Import String List ZArith QArith Bool Arith Lia Relations.
From Verif Require Import Base Lists StructModel ThinModel ThinSpec.
Import ListNotations.
Local Open Scope nat_scope.

Lemma memb_In n l : memb n l = true <-> In n l.
Proof.
  unfold memb. rewrite existsb_exists. split; [intros (x & I & E); apply String.eqb_eq in E; subst; auto|]. intro I. exists n. split; auto. apply String.eqb_refl.
Qed.
Lemma memb_false n l : memb n l = false <-> ~ In n l.
Proof. rewrite <- memb_In. destruct (memb n l); intuition congruence. Qed.

Section Search.
  Variable g : sgraph.
  Variable fwd : bool.
  Variable types : list string.
  Notation nx := (nexts g fwd).
  Definition target (n : string) : bool := match op_type g n with Some t => memb t types | None => false end.
  Notation node := (is_node g).
  Definition nodes : list string := map fst (g_ops g) ++ g_data g.

  Lemma node_In n : node n = true -> In n nodes.
  Proof.
    unfold is_node, nodes. rewrite orb_true_iff. intros [H|H]; apply in_or_app; [left|right].
    - unfold dmem in H. revert H. induction (g_ops g) as [|[k v] l IH]; simpl; [discriminate|]. destruct (String.eqb_spec n k); auto.
    - apply memb_In; auto.
  Qed.

  (** a step that the search follows *)
  Definition hop (a b : string) : Prop := target a = false /\ In b (nx a) /\ node b = true.
  Definition conn := clos_refl_trans string hop.
  (** nodes with one incoming edge (in the direction of the search) *)
  Definition single (x : string) (y : string) : Prop := (forall w, In x (nx w) -> w = y) /\ count_occ string_dec (nx y) x <= 1.

  (** what a visit adds to the log *)
  Record visit_spec (y : string) (done added r : list string) : Prop := {
    vs_node : forall z, In z added -> node z = true;
    vs_self : In y added;
    vs_fresh : forall z, In z added -> z = y \/ ~ In z done;
    vs_conn : forall z, In z added -> conn y z;
    vs_parent : forall z, In z added -> z = y \/ exists w, In w added /\ In z (nx w);
    vs_ret : r = filter target added;
    vs_closed : forall z x, In z added -> target z = false -> In x (nx z) -> node x = true -> In x (done ++ added);
    vs_once : forall x p, single x p -> ~ In x done -> count_occ string_dec added x <= 1
  }.
  Lemma vs_done y done added r x : visit_spec y done added r -> x <> y -> In x done -> count_occ string_dec added x = 0.
  Proof. intros V N I. apply count_occ_not_In. intro J. destruct (vs_fresh _ _ _ _ V x J); auto. Qed.

  (** the loop over the next nodes *)
  Definition loop fuel := fun (s : list string * list string) x => let r := search_f g fwd types fuel x (snd s) in (fst s ++ fst r, snd r).

  Record loop_spec (xs : list string) (done added r : list string) : Prop := {
    ls_node : forall z, In z added -> node z = true;
    ls_all : forall x, In x xs -> node x = true -> In x (done ++ added);
    ls_fresh : forall z, In z added -> In z xs \/ ~ In z done;
    ls_conn : forall z, In z added -> exists x, In x xs /\ node x = true /\ conn x z;
    ls_parent : forall z, In z added -> In z xs \/ exists w, In w added /\ In z (nx w);
    ls_ret : r = filter target added;
    ls_closed : forall z x, In z added -> target z = false -> In x (nx z) -> node x = true -> In x (done ++ added)
  }.

  Section Loop.
    Variable fuel : nat.
    Variable bound : list string -> string -> Prop. (* the visit's precondition *)
    Hypothesis visit : forall x done, done <> [] -> bound done x -> node x = true ->
      exists added, snd (search_f g fwd types fuel x done) = done ++ added /\ visit_spec x done added (fst (search_f g fwd types fuel x done)).
    Hypothesis skip : forall x done, node x = false -> search_f g fwd types fuel x done = ([], done).
    Hypothesis bound_mono : forall done more x, bound done x -> bound (done ++ more) x.

    Lemma loop_ok : forall xs r0 done, done <> [] -> (forall x, In x xs -> bound done x) ->
      exists added r, fold_left (loop fuel) xs (r0, done) = (r0 ++ r, done ++ added) /\ loop_spec xs done added r /\
      (forall x p, single x p -> ~ In x done -> count_occ string_dec xs x <= 1 -> (In x xs -> In p done /\ ~ In p xs) -> count_occ string_dec added x <= 1) /\
      (forall x, In x done -> ~ In x xs -> ~ In x added).
    Proof.
      induction xs as [|x xs IH]; intros r0 done ND B.
      - exists [], []. rewrite !app_nil_r. split; [reflexivity|]. split; [|split; [simpl; lia|auto]]. constructor; simpl; intros; try contradiction; auto.
      - cbn [fold_left]. unfold loop at 2. cbn [fst snd].
        destruct (node x) eqn:Nx.
        + destruct (visit x done ND) as (a1 & E1 & V1); auto; [apply B; left; auto|]. rewrite E1.
          set (r1 := fst (search_f g fwd types fuel x done)) in *.
          assert (ND1 : done ++ a1 <> []) by (destruct done; [congruence|discriminate]).
          destruct (IH (r0 ++ r1) (done ++ a1) ND1) as (a2 & r2 & E2 & L2 & O2 & D2); [intros z Hz; apply bound_mono, B; right; auto|].
          exists (a1 ++ a2), (r1 ++ r2). rewrite E2, <- !app_assoc. split; [reflexivity|]. split; [|split].
          * constructor.
            -- intros z I. apply in_app_or in I as [I|I]; [eapply vs_node; eauto|eapply ls_node; eauto].
            -- intros z [<-|I] Nz; [apply in_or_app; right; apply in_or_app; left; eapply vs_self; eauto|].
               pose proof (ls_all _ _ _ _ L2 z I Nz) as J. rewrite <- app_assoc in J. auto.
            -- intros z I. apply in_app_or in I as [I|I].
               ++ destruct (vs_fresh _ _ _ _ V1 z I) as [->|]; [left; left; auto|right; auto].
               ++ destruct (ls_fresh _ _ _ _ L2 z I) as [J|J]; [left; right; auto|right; intro K; apply J; apply in_or_app; auto].
            -- intros z I. apply in_app_or in I as [I|I].
               ++ exists x. split; [left; auto|]. split; auto. eapply vs_conn; eauto.
               ++ destruct (ls_conn _ _ _ _ L2 z I) as (x' & A & B' & C). exists x'. split; [right; auto|]. auto.
            -- intros z I. apply in_app_or in I as [I|I].
               ++ destruct (vs_parent _ _ _ _ V1 z I) as [->|(w & A & C)]; [left; left; auto|right; exists w; split; auto; apply in_or_app; auto].
               ++ destruct (ls_parent _ _ _ _ L2 z I) as [J|(w & A & C)]; [left; right; auto|right; exists w; split; auto; apply in_or_app; auto].
            -- rewrite filter_app, (vs_ret _ _ _ _ V1), (ls_ret _ _ _ _ L2). reflexivity.
            -- intros z y I Tz Iy Ny. apply in_app_or in I as [I|I].
               ++ pose proof (vs_closed _ _ _ _ V1 z y I Tz Iy Ny) as J. apply in_app_or in J as [J|J]; apply in_or_app; auto. right. apply in_or_app; auto.
               ++ pose proof (ls_closed _ _ _ _ L2 z y I Tz Iy Ny) as J. rewrite <- app_assoc in J. auto.
          * intros z p S N C P. rewrite count_occ_app. destruct (string_dec x z) as [<-|ne].
            -- (* z is the visited node *)
               assert (Hin : ~ In x xs). { intro K. apply (count_occ_In string_dec) in K. simpl in C. destruct (string_dec x x); [lia|congruence]. }
               assert (count_occ string_dec a2 x = 0); [|pose proof (vs_once _ _ _ _ V1 x p S N); lia].
               apply count_occ_not_In. apply D2; auto. apply in_or_app; right; eapply vs_self; eauto.
            -- simpl in C. destruct (string_dec x z); [congruence|].
               destruct (in_dec string_dec z a1) as [I1|I1].
               ++ (* reached through x: then it is not among the later ones *)
                  assert (Hz : ~ In z xs).
                  { intro K. destruct (vs_parent _ _ _ _ V1 z I1) as [|(w & A & C')]; [congruence|]. assert (w = p) by (apply S; auto). subst w.
                    destruct (P (or_intror K)) as [P1 P2]. destruct (vs_fresh _ _ _ _ V1 p A) as [->|]; [apply P2; left; auto|auto]. }
                  assert (count_occ string_dec a2 z = 0); [|pose proof (vs_once _ _ _ _ V1 z p S N); lia].
                  apply count_occ_not_In. apply D2; auto. apply in_or_app; auto.
               ++ assert (count_occ string_dec a1 z = 0) by (apply count_occ_not_In; auto).
                  assert (count_occ string_dec a2 z <= 1); [|lia]. apply (O2 z p); auto.
                  ** intro K. apply in_app_or in K as [K|K]; auto.
                  ** intro K. destruct (P (or_intror K)) as [P1 P2]. split; [apply in_or_app; auto|]. intro; apply P2; right; auto.
          * intros z Iz Nz J. apply in_app_or in J as [J|J].
            -- destruct (vs_fresh _ _ _ _ V1 z J) as [->|]; [apply Nz; left; auto|auto].
            -- revert J. apply D2; [apply in_or_app; auto|intro; apply Nz; right; auto].
        + rewrite skip by auto. cbn [fst snd]. rewrite app_nil_r. destruct (IH r0 done ND) as (a2 & r2 & E2 & L2 & O2 & D2); [intros; apply B; right; auto|].
          exists a2, r2. split; auto. split; [|split].
          * constructor; try (apply L2).
            -- intros z [<-|I] Nz; [congruence|]. eapply ls_all; eauto.
            -- intros z I. destruct (ls_fresh _ _ _ _ L2 z I); auto. left; right; auto.
            -- intros z I. destruct (ls_conn _ _ _ _ L2 z I) as (y & A & C). exists y. split; auto. right; auto.
            -- intros z I. destruct (ls_parent _ _ _ _ L2 z I); auto. left; right; auto.
          * intros z p S N C P. apply (O2 z p); auto.
            -- simpl in C. destruct (string_dec x z); lia.
            -- intro K. destruct (P (or_intror K)) as [P1 P2]. split; auto. intro; apply P2; right; auto.
          * intros z Iz Nz. apply D2; auto. intro; apply Nz; right; auto.
    Qed.
  End Loop.

  Lemma filter_count x done l : count_occ string_dec (filter (fun x => negb (memb x done)) l) x <= count_occ string_dec l x.
  Proof.
    induction l as [|a l IH]; simpl; auto. destruct (memb a done); simpl; destruct (string_dec a x); simpl; lia.
  Qed.

  Lemma visit_ok : forall fuel y done anc, done <> [] -> node y = true -> incl anc done -> ~ In y anc -> NoDup anc -> incl anc nodes ->
    length nodes < fuel + length anc ->
    exists added, snd (search_f g fwd types fuel y done) = done ++ added /\ visit_spec y done added (fst (search_f g fwd types fuel y done)).
  Proof.
    induction fuel as [|fuel IH]; intros y done anc ND Ny Ia Ya Na In_ L.
    - exfalso. assert (length (y :: anc) <= length nodes); [|simpl in *; lia].
      apply NoDup_incl_length; [constructor; auto|]. intros z [<-|I]; auto. apply node_In; auto.
    - cbn [search_f]. rewrite Ny.
      assert (Len : Nat.ltb 1 (length (done ++ [y])) = true) by (apply Nat.ltb_lt; rewrite app_length; destruct done; [congruence|simpl; lia]).
      rewrite Len. assert (T : match op_type g y with Some t => memb t types && true | None => false end = target y) by (unfold target; destruct (op_type g y); auto; apply andb_true_r).
      rewrite T. destruct (target y) eqn:Ty.
      + exists [y]. cbn [fst snd]. split; auto. constructor; simpl; intros; try (destruct H as [<-|[]]); auto.
        * apply rt_refl.
        * rewrite Ty. auto.
        * congruence.
        * destruct (string_dec y x); lia.
      + set (xs := filter (fun x => negb (memb x (done ++ [y]))) (nx y)).
        assert (Xs : forall x, In x xs <-> In x (nx y) /\ ~ In x (done ++ [y])).
        { intro x. unfold xs. rewrite filter_In. rewrite negb_true_iff, memb_false. tauto. }
        destruct (loop_ok fuel (fun d x => incl (y :: anc) d /\ ~ In x (y :: anc))) with (xs := xs) (r0 := @nil string) (done := done ++ [y]) as (added & r & E & LS & O & D).
        * intros x d Nd (Id & Xd) Nx. apply (IH x d (y :: anc)); auto.
          -- constructor; auto.
          -- intros z [<-|I]; auto. apply node_In; auto.
          -- simpl. lia.
        * intros x d Nx. destruct fuel as [|f]; [reflexivity|]. cbn [search_f]. rewrite Nx. reflexivity.
        * intros d more x (A & B). split; auto. intros z I. apply in_or_app. auto.
        * destruct done; discriminate.
        * intros x I. apply Xs in I as [_ I]. split.
          -- intros z [<-|J]; apply in_or_app; [right; left; auto|left; auto].
          -- intros [<-|J]; apply I, in_or_app; [right; left; auto|left; auto].
        * change (fold_left _ xs ([], done ++ [y])) with (fold_left (loop fuel) xs ([], done ++ [y])). rewrite E. cbn [fst snd]. rewrite <- app_assoc.
          exists (y :: added). split; [reflexivity|]. constructor.
          -- intros z [<-|I]; auto. eapply ls_node; eauto.
          -- left; auto.
          -- intros z [<-|I]; auto. right. destruct (ls_fresh _ _ _ _ LS z I) as [J|J]; [apply Xs in J as [_ J]|]; intro K; apply J, in_or_app; auto.
          -- intros z [<-|I]; [apply rt_refl|]. destruct (ls_conn _ _ _ _ LS z I) as (x & A & B & C). apply rt_trans with x; auto. apply rt_step. apply Xs in A as [A _]. split; auto.
          -- intros z [<-|I]; auto. right. destruct (ls_parent _ _ _ _ LS z I) as [J|(w & A & B)].
             ++ exists y. apply Xs in J as [J _]. split; auto. left; auto.
             ++ exists w. split; auto. right; auto.
          -- simpl. rewrite Ty. apply (ls_ret _ _ _ _ LS).
          -- intros z x [<-|I] Tz Ix Nx.
             ++ destruct (in_dec string_dec x (done ++ [y])) as [J|J].
                ** apply in_app_or in J as [J|[<-|[]]]; apply in_or_app; auto. right; left; auto.
                ** pose proof (ls_all _ _ _ _ LS x (proj2 (Xs x) (conj Ix J)) Nx) as K. rewrite <- app_assoc in K. auto.
             ++ pose proof (ls_closed _ _ _ _ LS z x I Tz Ix Nx) as K. rewrite <- app_assoc in K. auto.
          -- intros x p S N. simpl. destruct (string_dec y x) as [<-|ne].
             ++ assert (count_occ string_dec added y = 0); [|lia]. apply count_occ_not_In. apply D; [apply in_or_app; right; left; auto|].
                intro K. apply Xs in K as [_ K]. apply K, in_or_app; right; left; auto.
             ++ apply (O x p); auto.
                ** intro K. apply in_app_or in K as [K|[K|[]]]; auto.
                ** destruct (in_dec string_dec x xs) as [I|I]; [|apply (count_occ_not_In string_dec) in I; lia].
                   assert (y = p) by (apply S, Xs, I). subst p. etransitivity; [apply filter_count|]. apply S.
                ** intro K. assert (y = p) by (apply S, Xs, K). subst p. split; [apply in_or_app; right; left; auto|].
                   intro J. apply Xs in J as [_ J]. apply J, in_or_app; right; left; auto.
  Qed.

  (** * The search *)
  (** what can be reached from [n]: through nodes that are not of the searched types *)
  Definition reach (n x : string) : Prop := exists y, In y (nx n) /\ node y = true /\ conn y x.

  Lemma search_unfold n : node n = true ->
    search g fwd types n = fst (fold_left (loop (length nodes)) (filter (fun x => negb (memb x [n])) (nx n)) ([], [n])).
  Proof.
    intro N. unfold search. cbn [search_f]. rewrite N. cbn [app length]. change (Nat.ltb 1 1) with false.
    replace (match op_type g n with Some t => memb t types && false | None => false end) with false by (destruct (op_type g n); auto; rewrite andb_false_r; auto).
    unfold nodes. rewrite app_length, map_length. reflexivity.
  Qed.

  Lemma conn_avoid n y x : In y (nx n) -> node y = true -> conn y x -> x <> n ->
    exists z, In z (nx n) /\ z <> n /\ node z = true /\ clos_refl_trans string (fun a b => hop a b /\ b <> n) z x.
  Proof.
    intros Iy Ny C. apply clos_rt_rtn1 in C. induction C as [|a b H C IH]; intros Xn.
    - exists y. split; auto. split; auto. split; auto. apply rt_refl.
    - destruct (string_dec a n) as [->|ne].
      + exists b. split; [apply H|]. split; auto. split; [apply H|apply rt_refl].
      + destruct (IH ne) as (z & A & B & C' & D). exists z. split; auto. split; auto. split; auto. eapply rt_trans; eauto. apply rt_step. auto.
  Qed.

  Theorem search_correct n : node n = true ->
    (forall x, In x (search g fwd types n) <-> x <> n /\ target x = true /\ reach n x) /\
    (forall x p, single x p -> count_occ string_dec (search g fwd types n) x <= 1).
  Proof.
    intro N. rewrite search_unfold by auto.
    set (xs := filter (fun x => negb (memb x [n])) (nx n)).
    assert (Xs : forall x, In x xs <-> In x (nx n) /\ x <> n).
    { intro x. unfold xs. rewrite filter_In, negb_true_iff, memb_false. simpl. intuition. }
    destruct (loop_ok (length nodes) (fun d x => incl [n] d /\ ~ In x [n])) with (xs := xs) (r0 := @nil string) (done := [n]) as (added & r & E & LS & O & D).
    - intros x d Nd (Id & Xd) Nx. apply (visit_ok _ x d [n]); auto.
      + repeat constructor. intros [].
      + intros z [<-|[]]. apply node_In; auto.
      + simpl. lia.
    - intros x d Nx. destruct (length nodes) eqn:El; [|cbn [search_f]; rewrite Nx; reflexivity]. reflexivity.
    - intros d more x (A & B). split; auto. intros z I. apply in_or_app. auto.
    - discriminate.
    - intros x I. apply Xs in I as [_ I]. split; [apply incl_refl|]. intros [<-|[]]. auto.
    - rewrite E. cbn [fst app]. rewrite (ls_ret _ _ _ _ LS).
      assert (Nn : ~ In n added). { apply D; [left; auto|]. intro K. apply Xs in K as [_ K]. auto. }
      split.
      + intro x. rewrite filter_In. split.
        * intros [I T]. split; [intros ->; auto|]. split; auto. destruct (ls_conn _ _ _ _ LS x I) as (y & A & B & C). exists y. apply Xs in A as [A _]. auto.
        * intros (Xn & T & (y & A & B & C)). split; auto.
          assert (G : forall z, In z ([n] ++ added) -> z <> n -> forall x, clos_refl_trans string (fun a b => hop a b /\ b <> n) z x -> In x added).
          { intros z Iz Zn x' C'. apply clos_rt_rtn1 in C'. induction C' as [|a b ((Ta & Ib & Nb) & Bn) C' IH]; [destruct Iz as [<-|]; [congruence|auto]|].
            pose proof (ls_closed _ _ _ _ LS a b IH Ta Ib Nb) as K. destruct K as [K|K]; [congruence|auto]. }
          assert (St : forall z, In z (nx n) -> z <> n -> node z = true -> In z added).
          { intros z Iz Zn Nz. pose proof (ls_all _ _ _ _ LS z (proj2 (Xs z) (conj Iz Zn)) Nz) as K. destruct K as [K|K]; [congruence|auto]. }
          destruct (conn_avoid n y x A B C Xn) as (z & Z1 & Z2 & Z3 & Z4). apply (G z); auto. apply in_or_app; right; apply St; auto.
      + intros x p S. assert (F : count_occ string_dec (filter target added) x <= count_occ string_dec added x).
        { clear. induction added as [|a l IH]; simpl; auto. destruct (target a); simpl; destruct (string_dec a x); simpl; lia. }
        destruct (string_dec x n) as [->|ne]; [apply (count_occ_not_In string_dec) in Nn; lia|].
        etransitivity; [exact F|]. apply (O x p); auto.
        * intros [<-|[]]; auto.
        * destruct (in_dec string_dec x xs) as [I|I]; [|apply (count_occ_not_In string_dec) in I; lia].
          assert (n = p) by (apply S, Xs, I). subst p. etransitivity; [apply filter_count|]. apply S.
        * intro K. assert (n = p) by (apply S, Xs, K). subst p. split; [left; auto|]. intro J. apply Xs in J as [_ J]. auto.
  Qed.
End Search.
