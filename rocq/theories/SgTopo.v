(** Proofs about the topological order of the layers. *)
From Coq Require Import String List Bool Arith Lia Permutation Sorting.Sorted.
From Verif Require Import Base SgModel SgSpec SgProofs.
Import ListNotations.
Open Scope list_scope.

Section T.
  Variable g : sgraph.
  Hypothesis W : wf_graph g.
  Variable m : amap.
  Hypothesis A : is_adjacency g false m.

  Lemma shown_op n : shown g false n <-> is_op g n.
  Proof. unfold shown. split; [tauto|]. intro H. split; [auto|discriminate]. Qed.
  Lemma op_has_type n : is_op g n -> exists t, has_type g n t.
  Proof. intro H. destruct (op_dget g n H) as (o & E). exists (o_type o), (o_module o). destruct o. apply dget_In; auto. Qed.
  Lemma succ_names_spec n : is_op g n -> exists ss, succ_names m n = Ok ss /\ forall b, In b ss <-> feeds g n b.
  Proof.
    intro H. destruct A as (_ & K & _ & E). assert (Hn : In n (dkeys m)) by (apply K, shown_op; auto).
    unfold succ_names. destruct (dget m n) as [e|] eqn:D; [|apply dget_None_notin in D; contradiction]. destruct (E _ _ D) as (_ & Sc & _).
    eexists. split; [reflexivity|]. intro b. rewrite in_map_iff. split.
    - intros ((b', t) & <- & I). apply Sc in I. tauto.
    - intro F. assert (Ob := feeds_ops g W n b H F). destruct (op_has_type b Ob) as (t & T). exists (b, t). split; [reflexivity|]. apply Sc. rewrite shown_op. auto.
  Qed.
  Lemma upstream_r a b c : upstream g a b -> feeds g b c -> upstream g a c.
  Proof. induction 1; intro F; [eapply UpMore; [eassumption|apply UpOne; auto]|eapply UpMore; eauto]. Qed.
  Lemma upstream_trans a b c : upstream g a b -> upstream g b c -> upstream g a c.
  Proof. induction 1; intro F; eapply UpMore; eauto. Qed.
  Lemma upstream_op a b : is_op g a -> upstream g a b -> is_op g b.
  Proof. intros H U. induction U; [eapply feeds_ops; eauto|]. apply IHU. eapply feeds_ops; eauto. Qed.

  (** the roots, as the program computes them *)
  Definition roots_of : list string := map fst (filter (fun ne => match e_preds (snd ne) with [] => true | _ => false end) m).
  Lemma roots_spec n : In n roots_of <-> root g n.
  Proof.
    destruct A as (N & K & _ & E). unfold roots_of. rewrite in_map_iff. split.
    - intros ((n', e) & <- & H). apply filter_In in H. destruct H as (H & P). cbn in *. assert (Kn := in_map fst _ _ H). cbn in Kn. apply K, shown_op in Kn.
      split; auto. intros a F. apply (In_dget _ _ _ N) in H. destruct (E _ _ H) as (_ & _ & Pr). destruct (e_preds e) as [|x l] eqn:Ee; [|discriminate].
      assert (Oa := feeds_ops' g W a n' Kn F). destruct (op_has_type a Oa) as (t & T). apply (Pr a t). rewrite shown_op. auto.
    - intros (O & R). assert (Hn : In n (dkeys m)) by (apply K, shown_op; auto). destruct (dget m n) as [e|] eqn:D; [|apply dget_None_notin in D; contradiction].
      exists (n, e). split; [reflexivity|]. apply filter_In. split; [apply dget_In; auto|]. cbn. destruct (E _ _ D) as (_ & _ & Pr). destruct (e_preds e) as [|(x, t) l]; auto.
      destruct (Pr x t) as (P1 & _). exfalso. apply (R x). apply P1. left; auto.
  Qed.
  Lemma root_dec n : is_op g n -> root g n \/ exists a, feeds g a n.
  Proof.
    intro O. destruct (in_dec string_dec n roots_of) as [H|H]; [left; apply roots_spec; auto|]. right.
    destruct A as (N & K & _ & E). assert (Hn : In n (dkeys m)) by (apply K, shown_op; auto). destruct (dget m n) as [e|] eqn:D; [|apply dget_None_notin in D; contradiction].
    destruct (E _ _ D) as (_ & _ & Pr). destruct (e_preds e) as [|(x, t) l] eqn:Ee; [|exists x; apply (Pr x t); left; auto].
    exfalso. apply H. unfold roots_of. apply in_map_iff. exists (n, e). split; [reflexivity|]. apply filter_In. split; [apply dget_In; auto|]. cbn. rewrite Ee. auto.
  Qed.

  (** chains of operations of a given length *)
  Inductive chain : string -> nat -> Prop :=
  | ChNil n : chain n 0
  | ChCons a b k : feeds g a b -> chain b k -> chain a (S k).

  Lemma is_desc_chain fuel : forall p d, is_op g p -> is_descendant fuel m p d = Ok false -> forall k, chain p k -> k < fuel.
  Proof.
    induction fuel as [|fuel IH]; intros p d O H k C; [discriminate|]. cbn [is_descendant] in H. destruct (succ_names_spec p O) as (ss & E & S). rewrite E in H. cbn [bind] in H.
    destruct (smem d ss) eqn:Em; [discriminate|]. destruct C as [|a b k F C]; [lia|].
    assert (G : forall l, (forall x, In x l -> is_op g x) ->
       (fix go (l : list string) : res bool := match l with [] => Ok false | s :: l => do b <- is_descendant fuel m s d; if b then Ok true else go l end) l = Ok false -> In b l -> k < fuel).
    { induction l as [|x l IHl]; intros Hl G Hb; [destruct Hb|]. destruct (is_descendant fuel m x d) as [[|]|] eqn:Ex; cbn [bind] in G; try discriminate.
      destruct Hb as [<-|Hb]; [eapply IH; [|exact Ex|exact C]; apply Hl; left; auto|]. apply IHl; auto. intros; apply Hl; right; auto. }
    assert (k < fuel); [|lia]. apply (G ss); auto; [|apply S; auto]. intros x Hx. apply S in Hx. eapply feeds_ops; eauto.
  Qed.
  Lemma is_desc_sound fuel : forall p d, is_op g p -> is_descendant fuel m p d = Ok true -> upstream g p d.
  Proof.
    induction fuel as [|fuel IH]; intros p d O H; [discriminate|]. cbn [is_descendant] in H. destruct (succ_names_spec p O) as (ss & E & S). rewrite E in H. cbn [bind] in H.
    destruct (smem d ss) eqn:Em; [apply smem_In in Em; apply UpOne, S; auto|].
    assert (G : forall l, (forall x, In x l -> feeds g p x) ->
       (fix go (l : list string) : res bool := match l with [] => Ok false | s :: l => do b <- is_descendant fuel m s d; if b then Ok true else go l end) l = Ok true -> upstream g p d).
    { induction l as [|x l IHl]; intros Hl G; [discriminate|]. destruct (is_descendant fuel m x d) as [[|]|] eqn:Ex; cbn [bind] in G; try discriminate.
      - eapply UpMore; [apply Hl; left; auto|]. eapply IH; [|exact Ex]. eapply feeds_ops; eauto. apply Hl. left; auto.
      - apply IHl; auto. intros; apply Hl; right; auto. }
    apply (G ss); auto. intros x Hx. apply S; auto.
  Qed.
  Lemma is_desc_exn fuel : forall p d e, is_op g p -> is_descendant fuel m p d = Raise e -> e = RuntimeError.
  Proof.
    induction fuel as [|fuel IH]; intros p d e O H; [cbn in H; congruence|]. cbn [is_descendant] in H. destruct (succ_names_spec p O) as (ss & E & S). rewrite E in H. cbn [bind] in H.
    destruct (smem d ss) eqn:Em; [discriminate|].
    assert (G : forall l, (forall x, In x l -> feeds g p x) ->
       (fix go (l : list string) : res bool := match l with [] => Ok false | s :: l => do b <- is_descendant fuel m s d; if b then Ok true else go l end) l = Raise e -> e = RuntimeError).
    { induction l as [|x l IHl]; intros Hl G; [discriminate|]. destruct (is_descendant fuel m x d) as [[|]|] eqn:Ex; cbn [bind] in G; try discriminate.
      - apply IHl; auto. intros; apply Hl; right; auto.
      - injection G as <-. eapply IH; [|exact Ex]. eapply feeds_ops; eauto. apply Hl. left; auto. }
    apply (G ss); auto. intros x Hx. apply S; auto.
  Qed.

  (** an acyclic graph *)
  Section Acyclic.
    Variable f : string -> nat.
    Hypothesis F : forall a b, is_op g a -> feeds g a b -> f a < f b.
    Variable N : nat.
    Hypothesis B : forall n, is_op g n -> f n <= N.

    Lemma up_lt a b : is_op g a -> upstream g a b -> f a < f b.
    Proof. intros O U. induction U as [a b H|a b c H U IH]; [auto|]. assert (K := IH (feeds_ops g W a b O H)). apply F in H; auto. lia. Qed.
    Lemma is_desc_ok fuel : forall p d, is_op g p -> N - f p < fuel -> exists b, is_descendant fuel m p d = Ok b /\ (b = true -> upstream g p d).
    Proof.
      induction fuel as [|fuel IH]; intros p d O H; [lia|]. cbn [is_descendant]. destruct (succ_names_spec p O) as (ss & E & S). rewrite E. cbn [bind].
      destruct (smem d ss) eqn:Em; [exists true; split; auto; intros _; apply smem_In in Em; apply UpOne, S; auto|].
      assert (G : forall l, (forall x, In x l -> feeds g p x) -> exists b,
         (fix go (l : list string) : res bool := match l with [] => Ok false | s :: l => do b <- is_descendant fuel m s d; if b then Ok true else go l end) l = Ok b /\ (b = true -> upstream g p d)).
      { induction l as [|x l IHl]; intros Hl; [exists false; split; [auto|discriminate]|]. assert (Fx := Hl x (or_introl eq_refl)). assert (Ox := feeds_ops g W p x O Fx).
        destruct (IH x d Ox) as (b & Eb & Hb); [assert (K := F _ _ O Fx); specialize (B x Ox); lia|]. rewrite Eb. cbn [bind]. destruct b.
        - exists true. split; auto. intros _. eapply UpMore; eauto.
        - apply IHl. intros; apply Hl; right; auto. }
      apply (G ss). intros x Hx. apply S; auto.
    Qed.

    Definition below (n a : string) : Prop := a = n \/ upstream g n a.
    Definition sat (r : string -> nat) (a b : string) : Prop := r a + 1 <= r b.
    (** every rank is the length of a chain from a root, or has not been computed *)
    Definition real (r : string -> nat) : Prop := forall k, is_op g k -> r k = 0 \/ from_root g k (r k).

    Lemma rank_op_ok recurrent fuel : forall n r v, is_op g n -> N - f n < fuel ->
      exists r', rank_op fuel recurrent m r n v = Ok r' /\ (forall k, r k <= r' k) /\ (forall k, ~ below n k -> r' k = r k) /\ r' n = Nat.max v (r n) /\
        (forall a b, feeds g a b -> below n a \/ sat r a b -> sat r' a b) /\
        (real r -> from_root g n v -> real r').
    Proof.
      induction fuel as [|fuel IH]; intros n r v O H; [lia|]. cbn [rank_op]. destruct (succ_names_spec n O) as (ss & E & S). rewrite E. cbn [bind].
      set (r0 := raise_rank r n v).
      assert (R0n : r0 n = Nat.max v (r n)) by (unfold r0, raise_rank; rewrite String.eqb_refl; auto).
      assert (R0k : forall k, k <> n -> r0 k = r k) by (intros k Hk; unfold r0, raise_rank; apply String.eqb_neq in Hk; rewrite Hk; auto).
      assert (G : forall l r1, (forall x, In x l -> feeds g n x) -> exists r',
        foldM (fun r c => do skip <- (if recurrent then recurrent_ancestor (Datatypes.S fuel) m r c n else Ok false); if skip : bool then Ok r else rank_op fuel recurrent m r c (r n + 1)) l r1 = Ok r' /\
        (forall k, r1 k <= r' k) /\ (forall k, ~ upstream g n k -> r' k = r1 k) /\
        (forall a b, feeds g a b -> (exists c, In c l /\ below c a) \/ (sat r1 a b) -> sat r' a b) /\
        (forall c, In c l -> sat r' n c) /\
        (real r1 -> from_root g n (r1 n) -> real r')).
      { induction l as [|c l IHl]; intros r1 Hl.
        - exists r1. split; [reflexivity|]. split; [auto|]. split; [auto|]. split; [intros a b _ [(c & [] & _)|K]; auto|]. split; [intros c []|]. auto.
        - assert (Fc := Hl c (or_introl eq_refl)). assert (Oc := feeds_ops g W n c O Fc). assert (Lc := F _ _ O Fc). assert (Bc := B c Oc).
          assert (Sk : (if recurrent then recurrent_ancestor (Datatypes.S fuel) m r1 c n else Ok false) = Ok false).
          { destruct recurrent; auto. unfold recurrent_ancestor. destruct (is_desc_ok (Datatypes.S fuel) c n Oc) as (b & Eb & Hb); [lia|]. rewrite Eb. cbn [bind].
            destruct b; auto. specialize (Hb eq_refl). apply up_lt in Hb; auto. lia. }
          cbn [foldM]. rewrite Sk. cbn [bind].
          destruct (IH c r1 (r1 n + 1) Oc) as (r2 & E2 & M2 & U2 & V2 & S2 & P2); [lia|]. rewrite E2. cbn [bind].
          assert (Nn : ~ below c n) by (intros [<-|K]; [|apply up_lt in K; auto]; lia).
          assert (E2n := U2 n Nn).
          destruct (IHl r2) as (r3 & E3 & M3 & U3 & S3 & C3 & P3); [intros; apply Hl; right; auto|]. exists r3. split; [exact E3|]. split; [intro k; etransitivity; [apply M2|apply M3]|]. split; [|split; [|split]].
          + intros k Hk. rewrite U3 by auto. apply U2. intros [->|K]; apply Hk; [apply UpOne; auto|eapply UpMore; eauto].
          + intros a b Fab [(c' & [<-|I] & Bl)|K].
            * apply S3; auto.
            * apply S3; auto. left. exists c'. auto.
            * apply S3; auto.
          + intros c' [<-|I]; [|apply C3; auto]. unfold sat. rewrite (U3 n); [|intro K; apply up_lt in K; auto; lia]. specialize (M3 c). lia.
          + intros Re Fr. apply P3; [|rewrite E2n; auto]. apply P2; auto. replace (r1 n + 1) with (Datatypes.S (r1 n)) by lia. eapply FrStep; eauto. }
      destruct (G ss r0) as (r' & E' & M' & U' & S' & C' & P'); [intros x Hx; apply S; auto|]. exists r'. split; [exact E'|].
      assert (Nn : ~ upstream g n n) by (intro K; apply up_lt in K; auto; lia).
      split; [intro k; etransitivity; [|apply M']; destruct (string_dec k n) as [->|Hk]; [rewrite R0n; lia|rewrite R0k by auto; lia]|].
      split; [intros k Hk; rewrite U' by (intro; apply Hk; right; auto); apply R0k; intros ->; apply Hk; left; auto|].
      split; [rewrite U' by auto; auto|]. split.
      - intros a b Fab K. destruct (string_dec a n) as [->|Ha]; [apply C', S; auto|].
        destruct K as [[->|K]|K]; [contradiction| |].
        + apply S'; auto. left. inversion K; subst; [exists a; split; [apply S; auto|left; auto]|]. eexists; split; [apply S; eassumption|right; auto].
        + apply S'; auto. right. unfold sat in *. rewrite (R0k a) by auto. destruct (string_dec b n) as [->|Hb]; [rewrite R0n; lia|rewrite R0k by auto; lia].
      - intros Re Fr. assert (Fn : from_root g n (r0 n)).
        { rewrite R0n. destruct (Nat.max_spec v (r n)) as [(L & ->)|(L & ->)]; auto. destruct (Re n O) as [Z|Z]; auto; lia. }
        apply P'; [|auto]. intros k Ok0. destruct (string_dec k n) as [->|Hk]; [right; auto|]. rewrite R0k by auto. apply Re; auto.
    Qed.

    Lemma ranks_ok recurrent fuel : N < fuel -> exists r, foldM (fun r n => rank_op fuel recurrent m r n 0) roots_of (fun _ => 0) = Ok r /\ forall k, is_op g k -> rank_is g k (r k).
    Proof.
      intro Hf.
      assert (G : forall l r1, (forall x, In x l -> root g x) -> real r1 -> exists r',
        foldM (fun r n => rank_op fuel recurrent m r n 0) l r1 = Ok r' /\ real r' /\ (forall a b, feeds g a b -> (exists c, In c l /\ below c a) \/ sat r1 a b -> sat r' a b)).
      { induction l as [|n l IHl]; intros r1 Hl Re; [exists r1; split; [reflexivity|]; split; [auto|]; intros a b _ [(c & [] & _)|K]; auto|].
        assert (Rn := Hl n (or_introl eq_refl)). assert (O : is_op g n) by apply Rn. cbn [foldM].
        destruct (rank_op_ok recurrent fuel n r1 0 O) as (r2 & E2 & _ & _ & _ & S2 & P2); [lia|]. rewrite E2. cbn [bind].
        destruct (IHl r2) as (r3 & E3 & P3 & S3); [intros; apply Hl; right; auto|apply P2; [auto|apply FrRoot; auto]|]. exists r3. split; [exact E3|]. split; [auto|].
        intros a b Fab [(c & [<-|I] & Bl)|K]; apply S3; auto. left; eauto. }
      destruct (G roots_of (fun _ => 0)) as (r & E & Re & Sa); [intros x Hx; apply roots_spec; auto|intros k _; left; auto|]. exists r. split; [exact E|].
      assert (Rch : forall d n, f n <= d -> is_op g n -> exists c j, In c roots_of /\ below c n /\ from_root g n j).
      { induction d as [d IHd] using lt_wf_ind. intros n Hd O. destruct (root_dec n O) as [Rn|(a & Fa)].
        - exists n, 0. split; [apply roots_spec; auto|]. split; [left; auto|apply FrRoot; auto].
        - assert (Oa := feeds_ops' g W a n O Fa). assert (La := F _ _ Oa Fa). destruct (IHd (f a)) with (n := a) as (c & j & I & Bl & Fr); [lia|lia|auto|].
          exists c, (S j). split; [auto|]. split; [|eapply FrStep; eauto]. right. destruct Bl as [->|K]; [apply UpOne; auto|eapply upstream_r; eauto]. }
      assert (Sat : forall a b, is_op g a -> feeds g a b -> sat r a b).
      { intros a b O Fab. destruct (Rch (f a) a (le_n _) O) as (c & j & I & Bl & _). apply Sa; auto. left; eauto. }
      assert (Low : forall k j, from_root g k j -> j <= r k).
      { intros k j Fr. assert (K : is_op g k /\ j <= r k); [|apply K]. induction Fr as [n Rn|a b k Fr (O & IHf) Fab]; [split; [apply Rn|lia]|].
        split; [eapply feeds_ops; eauto|]. specialize (Sat a b O Fab). unfold sat in Sat. lia. }
      intros k O. split; [|apply Low]. destruct (Re k O) as [Z|Z]; auto. rewrite Z. destruct (Rch (f k) k (le_n _) O) as (c & j & _ & _ & Fr). assert (j <= r k) by (apply Low; auto).
      replace 0 with j by lia. auto.
    Qed.
  End Acyclic.

  (** the keys of the map are the operations in order *)
  Lemma keys_all : dkeys m = dkeys (s_ops g).
  Proof.
    destruct A as (_ & K & (keep & E) & _). rewrite E. assert (G : forall l, (forall n, In n l -> keep n = true) -> filter keep l = l).
    { induction l as [|x l IH]; intro Hl; auto. cbn. rewrite (Hl x) by (left; auto). f_equal. apply IH. intros; apply Hl; right; auto. }
    apply G. intros n Hn. assert (In n (dkeys m)) by (apply K, shown_op; exact Hn). rewrite E in H. apply filter_In in H. tauto.
  Qed.

  (** sorting *)
  Lemma ins_rank_perm r x l : Permutation (ins_rank r x l) (x :: l).
  Proof. induction l as [|y l IH]; cbn; auto. destruct (Nat.leb (r x) (r y)); auto. rewrite IH. apply perm_swap. Qed.
  Lemma sort_rank_perm r l : Permutation (sort_rank r l) l.
  Proof. induction l as [|x l IH]; cbn; auto. rewrite ins_rank_perm, IH. auto. Qed.
  Definition R (r : string -> nat) (l0 : list string) (a b : string) : Prop := r a < r b \/ (r a = r b /\ before l0 a b).
  Lemma before_cons x l a b : before l a b -> before (x :: l) a b.
  Proof. intros (l1 & l2 & l3 & ->). exists (x :: l1), l2, l3. reflexivity. Qed.
  Lemma before_head x l b : In b l -> before (x :: l) x b.
  Proof. intro H. apply in_split in H. destruct H as (l2 & l3 & ->). exists [], l2, l3. reflexivity. Qed.
  Lemma ins_rank_sorted r x l l0 : (forall y, In y l -> In y l0) -> StronglySorted (R r l0) l -> StronglySorted (R r (x :: l0)) (ins_rank r x l).
  Proof.
    intros Hl H. induction H as [|y l H IH Fa]; cbn [ins_rank]; [repeat constructor|].
    assert (Up : forall a b, R r l0 a b -> R r (x :: l0) a b) by (intros a b [K|(K & Bf)]; [left; auto|right; split; auto; apply before_cons; auto]).
    destruct (Nat.leb_spec (r x) (r y)) as [L|L].
    - constructor; [constructor; [|eapply Forall_impl; [|exact Fa]; auto]|].
      + clear - H Up. induction H as [|z l H IH Fa]; constructor; auto. eapply Forall_impl; [|exact Fa]. auto.
      + constructor.
        * destruct (Nat.eq_dec (r x) (r y)); [right; split; auto; apply before_head, Hl; left; auto|left; lia].
        * apply Forall_forall. intros z Hz. rewrite Forall_forall in Fa. assert (r y <= r z) by (destruct (Fa z Hz) as [K|(K & _)]; lia).
          destruct (Nat.eq_dec (r x) (r z)); [right; split; auto; apply before_head, Hl; right; auto|left; lia].
    - constructor; [apply IH; intros; apply Hl; right; auto|]. apply Forall_forall. intros z Hz. apply (Permutation_in z (ins_rank_perm r x l)) in Hz. destruct Hz as [<-|Hz]; [left; auto|].
      rewrite Forall_forall in Fa. apply Up, Fa; auto.
  Qed.
  Lemma sort_rank_sorted r l : StronglySorted (R r l) (sort_rank r l).
  Proof.
    induction l as [|x l IH]; cbn; [constructor|]. apply ins_rank_sorted; auto. intros y Hy. apply (Permutation_in y (sort_rank_perm r l)); auto.
  Qed.
  Lemma before_in l a b : before l a b -> In a l /\ In b l.
  Proof. intros (l1 & l2 & l3 & ->). split; rewrite in_app_iff; right; [left; auto|right; rewrite in_app_iff; right; left; auto]. Qed.
  Lemma before_filter p l a b : before (filter p l) a b -> before l a b.
  Proof.
    induction l as [|x l IH]; cbn; [intros (l1 & l2 & l3 & E); destruct l1; discriminate|]. destruct (p x); [|intro H; apply before_cons; auto].
    intros (l1 & l2 & l3 & E). destruct l1 as [|y l1]; cbn in E; injection E as -> E.
    - apply before_head. assert (H : In b (filter p l)) by (rewrite E; rewrite in_app_iff; cbn; auto). apply filter_In in H. tauto.
    - apply before_cons, IH. exists l1, l2, l3. auto.
  Qed.
  Lemma sorted_before (Q : string -> string -> Prop) l : StronglySorted Q l -> forall a b, before l a b -> Q a b.
  Proof.
    induction 1 as [|x l H IH Fa]; intros a b (l1 & l2 & l3 & E); [destruct l1; discriminate|].
    destruct l1 as [|y l1]; cbn in E; injection E as -> E.
    - rewrite Forall_forall in Fa. apply Fa. rewrite E, in_app_iff. cbn. auto.
    - apply IH. exists l1, l2, l3. auto.
  Qed.

  Lemma rank_fun n k k' : rank_is g n k -> rank_is g n k' -> k = k'.
  Proof. intros (A1 & A2) (B1 & B2). apply A2 in B1. apply B2 in A1. lia. Qed.

  Lemma topo_acyclic : acyclic g -> exists N l, is_topological g l /\ forall fuel recurrent, N < fuel -> topo_of fuel recurrent g m = Ok l.
  Proof.
    intros (f & F). set (N := list_max (map f (dkeys (s_ops g)))).
    assert (B : forall n, is_op g n -> f n <= N).
    { intros n H. assert (L := proj1 (list_max_le (map f (dkeys (s_ops g))) N) (le_n _)). rewrite Forall_forall in L. apply L, in_map; auto. }
    destruct (ranks_ok f F N B true (S N) (le_n _)) as (r0 & _ & R0).
    set (l := sort_rank r0 (filter (fun k => dmem (s_mods g) k) (dkeys m))).
    assert (Inl : forall n, In n l <-> is_op g n /\ In n (dkeys (s_mods g))).
    { intro n. assert (P := sort_rank_perm r0 (filter (fun k => dmem (s_mods g) k) (dkeys m))). split.
      - intro H. apply (Permutation_in n P) in H. apply filter_In in H. rewrite keys_all in H. destruct H as (H & D). split; auto. unfold dmem in D. destruct (dget (s_mods g) n) eqn:Ed; [|discriminate]. apply dget_In in Ed. apply (in_map fst) in Ed. auto.
      - intros (O & Md). apply (Permutation_in n (Permutation_sym P)). apply filter_In. rewrite keys_all. split; auto. unfold dmem. destruct (dget (s_mods g) n) eqn:Ed; auto. apply dget_None_notin in Ed. contradiction. }
    exists N, l. split.
    - split; [|split; [auto|]].
      + eapply Permutation_NoDup; [apply Permutation_sym, sort_rank_perm|]. apply NoDup_filter. rewrite keys_all. apply W.
      + intros a b ka kb Bf Ra Rb. destruct (before_in _ _ _ Bf) as (Ia & Ib). apply Inl in Ia, Ib.
        assert (Ea := rank_fun _ _ _ Ra (R0 a (proj1 Ia))). assert (Eb := rank_fun _ _ _ Rb (R0 b (proj1 Ib))). subst ka kb.
        assert (Q := sorted_before _ _ (sort_rank_sorted r0 _) a b Bf). destruct Q as [Q|(Q & Bf')]; [left; auto|right; split; auto].
        rewrite <- keys_all. eapply before_filter; eauto.
    - intros fuel recurrent Hf. destruct (ranks_ok f F N B recurrent fuel Hf) as (r & E & Rr). unfold topo_of. fold roots_of. rewrite E. cbn [bind].
      assert (El : sort_rank r (filter (fun k => dmem (s_mods g) k) (dkeys m)) = l).
      { unfold l. assert (Ek : forall k, In k (dkeys m) -> r k = r0 k) by (intros k Hk; rewrite keys_all in Hk; apply (rank_fun k); auto).
        assert (G : forall l1, (forall k, In k l1 -> r k = r0 k) -> sort_rank r l1 = sort_rank r0 l1).
        { assert (I : forall x l1, r x = r0 x -> (forall k, In k l1 -> r k = r0 k) -> ins_rank r x l1 = ins_rank r0 x l1).
          { intros x. induction l1 as [|y l1 IH]; intros Ex Hl; auto. cbn. rewrite Ex, (Hl y) by (left; auto). rewrite IH; auto. intros; apply Hl; right; auto. }
          induction l1 as [|x l1 IH]; intro Hl; auto. change (ins_rank r x (sort_rank r l1) = ins_rank r0 x (sort_rank r0 l1)). rewrite IH by (intros; apply Hl; right; auto). apply I; [apply Hl; left; auto|].
          intros k Hk. apply (Permutation_in k (sort_rank_perm r0 l1)) in Hk. apply Hl. right; auto. }
        apply G. intros k Hk. apply filter_In in Hk. apply Ek; tauto. }
      rewrite El. replace (forallb _ l) with true; auto. symmetry. apply forallb_forall. intros k Hk. apply Inl in Hk. destruct (Rr k (proj1 Hk)) as (Fr & _).
      apply orb_true_iff. destruct (r k) as [|j]; [right; apply smem_In, roots_spec; inversion Fr; subst; auto|left; auto].
  Qed.

  (** an order sorted by rank is a topological order of the dependencies *)
  Lemma topo_upstream l : acyclic g -> is_topological g l -> forall a b, upstream g a b -> In a l -> In b l -> before l a b.
  Proof.
    intros (f & F) (Nd & Inl & Ord) a b U Ia Ib.
    assert (B : forall n, is_op g n -> f n <= list_max (map f (dkeys (s_ops g)))).
    { intros n H. assert (L := proj1 (list_max_le (map f (dkeys (s_ops g))) _) (le_n _)). rewrite Forall_forall in L. apply L, in_map; auto. }
    destruct (ranks_ok f F _ B false _ (le_n _)) as (r & _ & Rr).
    assert (Oa : is_op g a) by (apply Inl in Ia; tauto). assert (Ob : is_op g b) by (apply Inl in Ib; tauto).
    assert (Lt : r a < r b).
    { clear Ia Ib Ob. induction U as [a b Fab|a b c Fab U IH].
      - assert (O := feeds_ops g W a b Oa Fab). destruct (Rr a Oa) as (Fr & _). destruct (Rr b O) as (_ & Mx). assert (S (r a) <= r b) by (apply Mx; eapply FrStep; eauto). lia.
      - assert (O := feeds_ops g W a b Oa Fab). destruct (Rr a Oa) as (Fr & _). destruct (Rr b O) as (_ & Mx). assert (S (r a) <= r b) by (apply Mx; eapply FrStep; eauto). specialize (IH O). lia. }
    apply in_split in Ia. destruct Ia as (l1 & l2 & ->). rewrite in_app_iff in Ib. destruct Ib as [Ib|[<-|Ib]]; [|lia|].
    - exfalso. apply in_split in Ib. destruct Ib as (l3 & l4 & ->). assert (Bf : before ((l3 ++ b :: l4) ++ a :: l2) b a) by (exists l3, l4, l2; rewrite <- app_assoc; reflexivity).
      destruct (Ord _ _ _ _ Bf (Rr b Ob) (Rr a Oa)) as [K|(K & _)]; lia.
    - apply in_split in Ib. destruct Ib as (l3 & l4 & ->). exists l1, l3, l4. reflexivity.
  Qed.

  (** a cycle that a root leads to: the recursion never ends *)
  Lemma chain_app n n' : upstream g n n' -> forall k, chain n' k -> exists j, k < j /\ chain n j.
  Proof.
    induction 1 as [a b Fab|a b c Fab U IH]; intros k C; [exists (S k); split; [lia|econstructor; eauto]|]. destruct (IH k C) as (j & L & C'). exists (S j). split; [lia|econstructor; eauto].
  Qed.
  Lemma chain_cut n k : chain n k -> forall j, j <= k -> chain n j.
  Proof. induction 1 as [n|a b k Fab C IH]; intros j L; [replace j with 0 by lia; constructor|]. destruct j; [constructor|]. econstructor; eauto. apply IH. lia. Qed.
  Lemma cycle_chain n : upstream g n n -> forall k, chain n k.
  Proof.
    intros U k. assert (G : forall k, exists j, k <= j /\ chain n j).
    { clear k. induction k as [|k (j & L & C)]; [exists 0; split; [lia|constructor]|]. destruct (chain_app n n U j C) as (j' & L' & C'). exists j'. split; [lia|auto]. }
    destruct (G k) as (j & L & C). eapply chain_cut; eauto.
  Qed.
  Lemma rank_op_chain fuel : forall n r v r', is_op g n -> rank_op fuel false m r n v = Ok r' -> forall k, chain n k -> k < fuel.
  Proof.
    induction fuel as [|fuel IH]; intros n r v r' O H k C; [discriminate|]. cbn [rank_op] in H. destruct (succ_names_spec n O) as (ss & E & S). rewrite E in H. cbn [bind] in H.
    destruct C as [|a b k Fab C]; [lia|]. assert (k < fuel); [|lia]. revert H. generalize (raise_rank r a v). assert (Hb : In b ss) by (apply S; auto).
    assert (Hs : forall x, In x ss -> is_op g x) by (intros x Hx; apply S in Hx; eapply feeds_ops; eauto). clear S E. induction ss as [|x ss IHs]; [destruct Hb|]. intros r1 H. cbn [foldM bind] in H.
    destruct (rank_op fuel false m r1 x (r1 a + 1)) as [r2|] eqn:E2; cbn [bind] in H; [|discriminate]. destruct Hb as [<-|Hb]; [eapply IH; [|exact E2|exact C]; apply Hs; left; auto|].
    eapply IHs; eauto. intros; apply Hs; right; auto.
  Qed.
  Lemma rank_op_chain_rec fuel : forall n r v r', root g n -> rank_op fuel true m r n v = Ok r' -> forall k, chain n k -> k <= fuel.
  Proof.
    destruct fuel as [|fuel]; intros n r v r' Rn H k C; [discriminate|]. assert (O : is_op g n) by apply Rn. cbn [rank_op] in H. destruct (succ_names_spec n O) as (ss & E & S). rewrite E in H. cbn [bind] in H.
    destruct C as [|a b k Fab C]; [lia|]. assert (k < Datatypes.S fuel); [|lia]. revert H. generalize (raise_rank r a v). assert (Hb : In b ss) by (apply S; auto).
    assert (Hs : forall x, In x ss -> is_op g x) by (intros x Hx; apply S in Hx; eapply feeds_ops; eauto). clear S E. induction ss as [|x ss IHs]; [destruct Hb|]. intros r1 H. cbn [foldM] in H.
    unfold recurrent_ancestor at 1 in H. assert (Ox := Hs x (or_introl eq_refl)).
    destruct (is_descendant (Datatypes.S fuel) m x a) as [bb|] eqn:Ed; cbn [bind] in H; [|discriminate].
    assert (bb = false) as ->.
    { destruct bb; auto. exfalso. assert (U := is_desc_sound _ _ _ Ox Ed). clear - U Rn. induction U; [apply Rn in H; auto|auto]. }
    cbn [andb] in H. destruct Hb as [<-|Hb]; [eapply is_desc_chain; eauto|].
    destruct (rank_op fuel true m r1 x (r1 a + 1)) as [r2|] eqn:E2; cbn [bind] in H; [|discriminate].
    eapply IHs; eauto. intros; apply Hs; right; auto.
  Qed.
  Lemma rank_op_exn recurrent fuel : forall n r v e, is_op g n -> rank_op fuel recurrent m r n v = Raise e -> e = RuntimeError.
  Proof.
    induction fuel as [|fuel IH]; intros n r v e O H; [cbn in H; congruence|]. cbn [rank_op] in H. destruct (succ_names_spec n O) as (ss & E & S). rewrite E in H. cbn [bind] in H.
    assert (Hs : forall x, In x ss -> is_op g x) by (intros x Hx; apply S in Hx; eapply feeds_ops; eauto). clear S E. revert H. generalize (raise_rank r n v). induction ss as [|x ss IHs]; [discriminate|].
    intros r1 H. cbn [foldM] in H. assert (Ox := Hs x (or_introl eq_refl)).
    destruct (if recurrent then recurrent_ancestor (Datatypes.S fuel) m r1 x n else Ok false) as [sk|e1] eqn:Es.
    - cbn [bind] in H. destruct sk; cbn [bind] in H; [eapply IHs; eauto; intros; apply Hs; right; auto|].
      destruct (rank_op fuel recurrent m r1 x (r1 n + 1)) as [r2|e2] eqn:E2; cbn [bind] in H; [eapply IHs; eauto; intros; apply Hs; right; auto|]. injection H as <-. eapply IH; eauto.
    - cbn [bind] in H. injection H as <-. destruct recurrent; [|discriminate]. unfold recurrent_ancestor in Es. destruct (is_descendant (Datatypes.S fuel) m x n) as [bb|e2] eqn:Ed; cbn [bind] in Es; [discriminate|].
      injection Es as <-. eapply is_desc_exn; eauto.
  Qed.
  Lemma topo_cycle n c : root g n -> upstream g n c -> upstream g c c -> forall fuel recurrent, topo_of fuel recurrent g m = Raise RuntimeError.
  Proof.
    intros Rn U Uc fuel recurrent.
    assert (Ch : forall k, chain n k) by (intro k; destruct (chain_app n c U k (cycle_chain c Uc k)) as (j & L & C); eapply chain_cut; [exact C|lia]).
    assert (Bad : forall r v r', rank_op fuel recurrent m r n v <> Ok r').
    { intros r v r' E. destruct recurrent; [assert (K := rank_op_chain_rec _ _ _ _ _ Rn E _ (Ch (S fuel))); lia|assert (K := rank_op_chain _ _ _ _ _ (proj1 Rn) E _ (Ch fuel)); lia]. }
    unfold topo_of. fold roots_of. assert (Hn : In n roots_of) by (apply roots_spec; auto).
    assert (Hr : forall x, In x roots_of -> is_op g x) by (intros x Hx; apply roots_spec in Hx; apply Hx).
    assert (G : foldM (fun r n => rank_op fuel recurrent m r n 0) roots_of (fun _ => 0) = Raise RuntimeError); [|rewrite G; reflexivity].
    generalize (fun _ : string => 0). induction roots_of as [|x l IH]; [destruct Hn|]. intro r1. cbn [foldM].
    destruct (rank_op fuel recurrent m r1 x 0) as [r2|e] eqn:E; cbn [bind]; [|f_equal; eapply rank_op_exn; [apply Hr; left; reflexivity|exact E]].
    destruct Hn as [->|Hn]; [apply Bad in E; destruct E|]. apply IH; auto. intros; apply Hr; right; auto.
  Qed.
End T.
