(** Proofs about the statistics collectors. *)
From Coq Require Import String List Reals Arith Bool Lia Lra Permutation.
From Verif Require Import Base CollModel CollSpec.
Import ListNotations.
Open Scope R_scope.

(* ------------------------------------------------------------------------- *)
Lemma Rabs_le_inv x y : Rabs x <= y -> - y <= x <= y.
Proof. intro H. pose proof (Rle_abs x). pose proof (Rle_abs (- x)). rewrite Rabs_Ropp in *. lra. Qed.
Lemma Rdiv_nonneg a b : 0 <= a -> 0 < b -> 0 <= a / b.
Proof. intros H1 H2. apply Rmult_le_pos; auto. left. apply Rinv_0_lt_compat; auto. Qed.
Lemma rsum_app a b : rsum (a ++ b) = rsum a + rsum b.
Proof. induction a; simpl; [|rewrite IHa]; lra. Qed.
Lemma rsum_perm a b : Permutation a b -> rsum a = rsum b.
Proof. induction 1; simpl; lra. Qed.
Lemma mean_perm a b : Permutation a b -> mean a = mean b.
Proof. intro H. unfold mean. rewrite (rsum_perm _ _ H), (Permutation_length H). reflexivity. Qed.

Lemma lmin_spec l : forall x, In (lmin x l) (x :: l) /\ forall y, In y (x :: l) -> lmin x l <= y.
Proof.
  induction l as [|a l IH]; intro x; cbn [lmin].
  - split; [left; auto|]. intros y [<-|[]]. lra.
  - destruct (IH a) as [H1 H2]. unfold Rmin. destruct (Rle_dec x (lmin a l)).
    + split; [left; auto|]. intros y [<-|Hy]; [lra|]. specialize (H2 y Hy). lra.
    + split; [right; auto|]. intros y [<-|Hy]; [lra|]. apply H2; auto.
Qed.
Lemma lmax_spec l : forall x, In (lmax x l) (x :: l) /\ forall y, In y (x :: l) -> y <= lmax x l.
Proof.
  induction l as [|a l IH]; intro x; cbn [lmax].
  - split; [left; auto|]. intros y [<-|[]]. lra.
  - destruct (IH a) as [H1 H2]. unfold Rmax. destruct (Rle_dec x (lmax a l)).
    + split; [right; auto|]. intros y [<-|Hy]; [lra|]. apply H2; auto.
    + split; [left; auto|]. intros y [<-|Hy]; [lra|]. specialize (H2 y Hy). lra.
Qed.
Lemma min_of_spec l : l <> [] -> is_min l (min_of l).
Proof. destruct l as [|x l]; [congruence|]. intros _. exact (lmin_spec l x). Qed.
Lemma max_of_spec l : l <> [] -> is_max l (max_of l).
Proof. destruct l as [|x l]; [congruence|]. intros _. exact (lmax_spec l x). Qed.

Lemma is_min_unique l a b : is_min l a -> is_min l b -> a = b.
Proof. intros [H1 H2] [H3 H4]. specialize (H2 _ H3). specialize (H4 _ H1). lra. Qed.
Lemma is_max_unique l a b : is_max l a -> is_max l b -> a = b.
Proof. intros [H1 H2] [H3 H4]. specialize (H2 _ H3). specialize (H4 _ H1). lra. Qed.

(** well-shaped batch: every sample has a value *)
Definition shaped (b : batch) : Prop := Forall (fun s => s <> []) b.

Lemma per_sample_min b : shaped b -> concat b <> [] -> is_min (concat b) (min_of (per_sample min_of b)).
Proof.
  intros Hs Hc. unfold per_sample. destruct (Nat.eqb _ _).
  - simpl. apply min_of_spec; auto.
  - assert (Hb : map min_of b <> []) by (destruct b; [simpl in Hc; congruence|discriminate]).
    destruct (min_of_spec _ Hb) as [H1 H2]. split.
    + apply in_map_iff in H1. destruct H1 as (s & <- & Hin). apply in_concat. exists s. split; auto.
      unfold shaped in Hs. rewrite Forall_forall in Hs. apply (min_of_spec s (Hs s Hin)).
    + intros x Hx. apply in_concat in Hx. destruct Hx as (s & Hin & Hx). unfold shaped in Hs. rewrite Forall_forall in Hs.
      apply (Rle_trans _ (min_of s)); [apply H2; apply in_map; auto|]. apply (min_of_spec s (Hs s Hin)); auto.
Qed.
Lemma per_sample_max b : shaped b -> concat b <> [] -> is_max (concat b) (max_of (per_sample max_of b)).
Proof.
  intros Hs Hc. unfold per_sample. destruct (Nat.eqb _ _).
  - simpl. apply max_of_spec; auto.
  - assert (Hb : map max_of b <> []) by (destruct b; [simpl in Hc; congruence|discriminate]).
    destruct (max_of_spec _ Hb) as [H1 H2]. split.
    + apply in_map_iff in H1. destruct H1 as (s & <- & Hin). apply in_concat. exists s. split; auto.
      unfold shaped in Hs. rewrite Forall_forall in Hs. apply (max_of_spec s (Hs s Hin)).
    + intros x Hx. apply in_concat in Hx. destruct Hx as (s & Hin & Hx). unfold shaped in Hs. rewrite Forall_forall in Hs.
      apply (Rle_trans _ (max_of s)); [|apply H2; apply in_map; auto]. apply (max_of_spec s (Hs s Hin)); auto.
Qed.

Lemma INR_pos n : (0 < n)%nat -> 0 < INR n.
Proof. intro H. apply lt_0_INR; auto. Qed.

(** the running mean: from [prev] the mean of [n] values to that of all *)
Lemma running_mean_step l v prev : prev = mean l \/ l = [] -> v <> [] ->
  running_mean v prev (length l) = mean (l ++ v).
Proof.
  intros H Hv. unfold running_mean, mean. rewrite rsum_app, app_length, plus_INR.
  assert (0 < INR (length v)) by (apply INR_pos; destruct v; [congruence|simpl; lia]).
  destruct H as [-> | ->].
  - destruct l as [|a l]; [simpl; field; lra|].
    assert (0 < INR (length (a :: l))) by (apply INR_pos; simpl; lia). unfold mean. field. lra.
  - simpl. field. lra.
Qed.

Lemma length0 {A} (l : list A) : Nat.eqb (length l) 0 = false -> l <> [].
Proof. destruct l; [discriminate|congruence]. Qed.

(** ** Pass 1 *)
Definition pass1_inv (big : R) (l : list R) (r : rec) : Prop :=
  r_numel r = length l /\ (l = [] -> r_min r = big /\ r_max r = - big) /\
  (l <> [] -> is_min l (r_min r) /\ is_max l (r_max r) /\ r_mean r = mean l).

Lemma pass1_step big l r b r' : Forall (fun x => Rabs x <= big) (concat b) -> shaped b ->
  pass1_inv big l r -> update_record false r b = Ok r' -> pass1_inv big (l ++ concat b) r' /\ r_std r' = r_std r /\ r_b r' = r_b r.
Proof.
  intros Hb Hs (I1 & I2 & I3) H. unfold update_record in H. destruct (Nat.eqb _ 0) eqn:E; [discriminate|]. apply length0 in E.
  injection H as <-. cbn [r_std r_b]. split; [|auto].
  destruct (per_sample_min b Hs E) as [A1 A2]. destruct (per_sample_max b Hs E) as [B1 B2].
  split; [cbn; rewrite app_length, I1; auto|]. split; [intro K; apply app_eq_nil in K; tauto|]. intros _.
  rewrite Forall_forall in Hb.
  cbn [r_min r_max r_mean]. rewrite I1. destruct l as [|a l].
  - destruct (I2 eq_refl) as [-> ->]. cbn [app].
    assert (M1 : min_of (per_sample min_of b) <= big). { specialize (Hb _ A1). apply Rabs_le_inv in Hb. lra. }
    assert (M2 : - big <= max_of (per_sample max_of b)). { specialize (Hb _ B1). apply Rabs_le_inv in Hb. lra. }
    rewrite Rmin_right, Rmax_right by lra. split; [split; auto|]. split; [split; auto|].
    apply (running_mean_step [] (concat b)); auto.
  - destruct I3 as ((C1 & C2) & (D1 & D2) & E3); [discriminate|]. split; [|split].
    + split.
      * unfold Rmin. destruct (Rle_dec _ _); apply in_or_app; auto.
      * intros x Hx. apply in_app_or in Hx. destruct Hx as [Hx|Hx].
        -- eapply Rle_trans; [apply Rmin_l|auto].
        -- eapply Rle_trans; [apply Rmin_r|auto].
    + split.
      * unfold Rmax. destruct (Rle_dec _ _); apply in_or_app; auto.
      * intros x Hx. apply in_app_or in Hx. destruct Hx as [Hx|Hx].
        -- eapply Rle_trans; [|apply Rmax_l]; auto.
        -- eapply Rle_trans; [|apply Rmax_r]; auto.
    + apply running_mean_step; auto.
Qed.

Lemma pass1_run big bs : forall l r r', Forall (fun x => Rabs x <= big) (values bs) -> Forall shaped bs ->
  pass1_inv big l r -> foldM (update_record false) bs r = Ok r' -> pass1_inv big (l ++ values bs) r' /\ r_std r' = r_std r /\ r_b r' = r_b r.
Proof.
  induction bs as [|b bs IH]; intros l r r' Hb Hs Hi H.
  - injection H as <-. unfold values. simpl. rewrite app_nil_r. auto.
  - cbn [foldM] in H. inv_bind H. unfold values in Hb. simpl in Hb. apply Forall_app in Hb. destruct Hb as [Hb1 Hb2]. inversion Hs; subst.
    destruct (pass1_step _ _ _ _ _ Hb1 H3 Hi H0) as (K1 & K2 & K3).
    destruct (IH _ _ _ Hb2 H4 K1 H) as (L1 & L2 & L3). unfold values. simpl. rewrite app_assoc. split; auto. split; congruence.
Qed.

(** ** Pass 2 *)
Definition pass2_inv (mu : R) (l : list R) (r : rec) : Prop :=
  r_numel r = length l /\ r_mean r = mu /\ (l <> [] -> r_std r = rms_from mu l /\ r_b r = mad_from mu l).

Lemma rsum_sq_nonneg mu l : 0 <= rsum (map (fun x => (x - mu) ^ 2) l).
Proof. induction l; cbn [map rsum fold_right]; [lra|]. fold (rsum (map (fun x => (x - mu) ^ 2) l)). pose proof (pow2_ge_0 (a - mu)). lra. Qed.
Lemma mean_sq_nonneg mu l : 0 <= mean (map (fun x => (x - mu) ^ 2) l).
Proof.
  unfold mean. pose proof (rsum_sq_nonneg mu l). destruct l as [|a l]; [simpl; unfold Rdiv; rewrite Rmult_0_l; lra|].
  apply Rdiv_nonneg; auto. apply INR_pos. simpl. lia.
Qed.

Lemma pass2_step mu l r b r' : pass2_inv mu l r -> update_record true r b = Ok r' ->
  pass2_inv mu (l ++ concat b) r' /\ r_min r' = r_min r /\ r_max r' = r_max r /\ r_avg_min r' = r_avg_min r /\ r_avg_max r' = r_avg_max r.
Proof.
  intros (I1 & I2 & I3) H. unfold update_record in H. destruct (Nat.eqb _ 0) eqn:E; [discriminate|]. apply length0 in E.
  injection H as <-. cbn [r_min r_max r_avg_min r_avg_max]. split; [|auto].
  split; [cbn; rewrite app_length, I1; auto|]. split; [exact I2|]. intros _. cbn [r_std r_b]. rewrite I1, I2.
  unfold update_std, update_b, rms_from, mad_from. rewrite !map_app.
  assert (N : forall f : R -> R, map f (concat b) <> []) by (intro f; destruct (concat b); [congruence|discriminate]).
  split.
  - f_equal. rewrite <- (map_length (fun x => (x - mu) ^ 2) l). apply running_mean_step; [|apply N].
    destruct l as [|a l]; [right; auto|left]. destruct I3 as [-> _]; [discriminate|].
    rewrite <- Rsqr_pow2. apply Rsqr_sqrt. apply mean_sq_nonneg.
  - rewrite <- (map_length (fun x => Rabs (x - mu)) l). apply running_mean_step; [|apply N].
    destruct l as [|a l]; [right; auto|left]. destruct I3 as [_ ->]; [discriminate|]. reflexivity.
Qed.
Lemma pass2_run mu bs : forall l r r', pass2_inv mu l r -> foldM (update_record true) bs r = Ok r' ->
  pass2_inv mu (l ++ values bs) r' /\ r_min r' = r_min r /\ r_max r' = r_max r /\ r_avg_min r' = r_avg_min r /\ r_avg_max r' = r_avg_max r.
Proof.
  induction bs as [|b bs IH]; intros l r r' Hi H.
  - injection H as <-. unfold values. simpl. rewrite app_nil_r. auto 6.
  - cbn [foldM] in H. inv_bind H. destruct (pass2_step _ _ _ _ _ Hi H0) as (K1 & K2 & K3 & K4 & K5).
    destruct (IH _ _ _ K1 H) as (L1 & L2 & L3 & L4 & L5). unfold values. simpl. rewrite app_assoc. split; auto.
    repeat split; congruence.
Qed.

(** both passes, each over at least one value *)
Lemma two_passes big bs1 bs2 r1 r2 :
  Forall (fun x => Rabs x <= big) (values bs1) -> Forall shaped bs1 -> values bs1 <> [] -> values bs2 <> [] ->
  foldM (update_record false) bs1 (rec0 big) = Ok r1 ->
  foldM (update_record true) bs2 (zero_numel r1) = Ok r2 ->
  is_min (values bs1) (r_min r2) /\ is_max (values bs1) (r_max r2) /\ r_mean r2 = mean (values bs1) /\
  r_std r2 = rms_from (mean (values bs1)) (values bs2) /\ r_b r2 = mad_from (mean (values bs1)) (values bs2) /\
  r_numel r2 = length (values bs2).
Proof.
  intros Hb Hs Hn1 Hn2 H1 H2.
  destruct (pass1_run big bs1 [] (rec0 big) r1 Hb Hs) as (P1 & _ & _); [|exact H1|].
  { split; [reflexivity|]. split; [auto|congruence]. }
  destruct P1 as (_ & _ & P1). destruct (P1 Hn1) as (A & B & C). cbn [app] in *.
  destruct (pass2_run (mean (values bs1)) bs2 [] (zero_numel r1) r2) as ((Q1 & Q2 & Q3) & K1 & K2 & _); [|exact H2|].
  { split; [reflexivity|]. split; [exact C|congruence]. }
  cbn [app] in *. destruct (Q3 Hn2) as [Q4 Q5]. cbn in K1, K2. rewrite K1, K2. repeat split; auto; apply A || apply B.
Qed.

(* ------------------------------------------------------------------------- *)
(** * Hooks *)
Section Collector.
  Context {Rc Call : Type}.
  Variables (init : Rc) (cb : bool -> Rc -> Call -> res Rc) (keeps : bool) (second : Rc -> Rc) (model : cmod).
  Notation st := (cstate Rc).
  Notation step := (@cstep Rc Call init cb keeps second model).
  Notation run := (@crun Rc Call init cb keeps second model).
  Notation dont := (dont model).

  Notation ids := (ids model).
  Notation regs := (regs model).

  Lemma set_rec_same (f : nat -> option Rc) i v : set_rec f i v i = v.
  Proof. unfold set_rec. rewrite Nat.eqb_refl. auto. Qed.
  Lemma set_rec_other (f : nat -> option Rc) i v j : i <> j -> set_rec f i v j = f j.
  Proof. intro H. unfold set_rec. destruct (Nat.eqb_spec i j); congruence. Qed.

  Lemma start_fold l : forall s : st,
    let s' := fold_left (start_module init keeps model) l s in
    k_hooks s' = (k_hooks s ++ map cm_id (filter (should_collect dont) l))%list /\ k_second s' = k_second s /\
    (forall i, ~ In i (map cm_id (filter (should_collect dont) l)) -> k_recs s' i = k_recs s i) /\
    (forall i, In i (map cm_id (filter (should_collect dont) l)) ->
       k_recs s' i = Some (match k_recs s i with Some r => if keeps then r else init | None => init end)).
  Proof.
    induction l as [|m l IH]; intro s.
    - cbn. rewrite app_nil_r. repeat split; auto. intros i [].
    - cbn [fold_left filter]. destruct (IH (start_module init keeps model s m)) as (H1 & H2 & H3 & H4).
      set (s' := fold_left _ _ _) in *. unfold start_module in H1, H2, H3, H4. destruct (should_collect dont m).
      + cbn [k_hooks k_recs k_second map] in *. rewrite H1, <- app_assoc.
        split; [reflexivity|]. split; auto.
        assert (Hs : forall i, i <> cm_id m ->
           match k_recs s (cm_id m) with Some _ => if keeps then k_recs s else set_rec (k_recs s) (cm_id m) (Some init)
                                    | None => set_rec (k_recs s) (cm_id m) (Some init) end i = k_recs s i).
        { intros i Hi. destruct (k_recs s (cm_id m)); [destruct keeps|]; auto using set_rec_other. }
        assert (Hm : match k_recs s (cm_id m) with Some _ => if keeps then k_recs s else set_rec (k_recs s) (cm_id m) (Some init)
                                    | None => set_rec (k_recs s) (cm_id m) (Some init) end (cm_id m)
                     = Some (match k_recs s (cm_id m) with Some r => if keeps then r else init | None => init end)).
        { destruct (k_recs s (cm_id m)) eqn:E; [destruct keeps|]; auto using set_rec_same. }
        split.
        * intros i Hi. rewrite H3, Hs; auto; intro; apply Hi; [left|right]; auto.
        * intros i Hi. destruct (Nat.eq_dec i (cm_id m)) as [->|Hne].
          -- destruct (in_dec Nat.eq_dec (cm_id m) (map cm_id (filter (should_collect dont) l))) as [Hin|Hin].
             ++ rewrite (H4 _ Hin), Hm. destruct (k_recs s (cm_id m)), keeps; auto.
             ++ rewrite (H3 _ Hin), Hm. auto.
          -- destruct Hi as [Hi|Hi]; [congruence|]. rewrite (H4 _ Hi), Hs by auto. auto.
      + repeat split; auto.
  Qed.

  Lemma reset_recs (s : st) : forall i,
    k_recs (reset init model s) i = match k_recs s i with
                                    | Some r => if in_dec Nat.eq_dec i (map cm_id (apply_order model)) then Some init else Some r
                                    | None => None end.
  Proof.
    intro i. unfold reset. cbn [k_recs]. generalize (apply_order model) as l. intro l. revert s.
    assert (G : forall l (f : nat -> option Rc),
      fold_left (fun f m => match f (cm_id m) with Some _ => set_rec f (cm_id m) (Some init) | None => f end) l f i =
      match f i with Some r => if in_dec Nat.eq_dec i (map cm_id l) then Some init else Some r | None => None end).
    { clear. induction l as [|m l IH]; intro f; simpl.
      - destruct (f i); auto.
      - rewrite IH. clear IH. destruct (Nat.eq_dec (cm_id m) i) as [E|E].
        + subst i. destruct (f (cm_id m)) eqn:Ef.
          * rewrite set_rec_same. destruct (in_dec _ _ _); auto.
          * rewrite Ef. auto.
        + replace (match f (cm_id m) with Some _ => set_rec f (cm_id m) (Some init) | None => f end i) with (f i).
          2:{ destruct (f (cm_id m)); auto. rewrite set_rec_other; auto. }
          destruct (f i); auto. destruct (in_dec _ _ _); auto. }
    intro s. apply G.
  Qed.

  Lemma run_hooks_spec n : forall i c (s s' : st), run_hooks cb n i c s = (s', None) ->
    k_hooks s' = k_hooks s /\ k_second s' = k_second s /\ (forall j, j <> i -> k_recs s' j = k_recs s j) /\
    (k_recs s i = None -> s' = s) /\
    (forall r, k_recs s i = Some r -> exists r', foldM (cb (k_second s)) (repeat c n) r = Ok r' /\ k_recs s' i = Some r').
  Proof.
    induction n as [|n IH]; intros i c s s' H; cbn [run_hooks] in H.
    - injection H as <-. repeat split; auto; try congruence. intros r Hr. exists r. auto.
    - destruct (k_recs s i) as [r|] eqn:Er; [|discriminate]. destruct (cb (k_second s) r c) as [r1|] eqn:Ec; [|discriminate].
      apply IH in H. cbn [k_hooks k_second k_recs] in H. destruct H as (H1 & H2 & H3 & _ & H5). repeat split; auto; try congruence.
      + intros j Hj. rewrite H3 by auto. apply set_rec_other. auto.
      + intros r0 Hr. injection Hr as <-. destruct (H5 r1 (set_rec_same _ _ _)) as (r' & K1 & K2). exists r'. split; auto.
        cbn [repeat foldM]. rewrite Ec. exact K1.
  Qed.

  Lemma run_fwds body : Forall is_fwd body -> forall (s s' : st), run body s = (s', None) ->
    k_hooks s' = k_hooks s /\ k_second s' = k_second s /\
    (forall i, k_recs s i = None -> k_recs s' i = None) /\
    (forall i r, k_recs s i = Some r ->
       exists r', foldM (cb (k_second s)) (seen (k_hooks s) i body) r = Ok r' /\ k_recs s' i = Some r').
  Proof.
    induction body as [|o body IH]; intros Hf s s' H.
    - injection H as <-. repeat split; auto. intros i r Hr. exists r. auto.
    - inversion Hf as [|? ? Ho Hb]; subst. destruct o; try destruct Ho. cbn [crun cstep] in H.
      destruct (run_hooks cb _ i c s) as (s1 & [e|]) eqn:E1; [discriminate|].
      apply run_hooks_spec in E1. destruct E1 as (A1 & A2 & A3 & A4 & A5).
      destruct (IH Hb _ _ H) as (B1 & B2 & B3 & B4). rewrite A1, A2 in *. repeat split; auto.
      + intros j Hj. apply B3. destruct (Nat.eq_dec j i) as [->|Hne]; [rewrite A4; auto|rewrite A3; auto].
      + intros j r Hr. unfold seen. cbn [calls]. destruct (Nat.eqb_spec j i) as [->|Hne].
        * destruct (A5 r Hr) as (r1 & K1 & K2). destruct (B4 i r1 K2) as (r' & L1 & L2). exists r'. split; auto.
          cbn [flat_map]. rewrite foldM_app, K1. exact L1.
        * apply B4. rewrite A3; auto.
  Qed.

  Lemma run_app a b (s : st) : run (a ++ b) s = match run a s with (s', None) => run b s' | (s', Some e) => (s', Some e) end.
  Proof.
    revert s. induction a as [|o a IH]; intro s; [reflexivity|]. cbn [app crun]. destruct (step s o) as (s' & [e|]); auto.
  Qed.

  Lemma start_names l : forall (s s' : st),
    fold_left (fun se n => match se with
       | (s, Some e) => (s, Some e)
       | (s, None) => match find_module model n with None => (s, Some KeyError) | Some m => (start_apply init keeps model m s, None) end end)
      l (s, None) = (s', None) ->
    let h := flat_map (fun n => match find_module model n with Some m => ids m | None => [] end) l in
    k_hooks s' = (k_hooks s ++ h)%list /\ k_second s' = k_second s /\
    (forall i, ~ In i h -> k_recs s' i = k_recs s i) /\
    (forall i, In i h -> k_recs s' i = Some (match k_recs s i with Some r => if keeps then r else init | None => init end)).
  Proof.
    assert (Herr : forall l (s : st) e, fold_left (fun se n => match se with
       | (s, Some e) => (s, Some e)
       | (s, None) => match find_module model n with None => (s, Some KeyError) | Some m => (start_apply init keeps model m s, None) end end)
      l (s, Some e) = (s, Some e)) by (clear; induction l; simpl; auto).
    induction l as [|n l IH]; intros s s' H.
    - injection H as <-. cbn. rewrite app_nil_r. repeat split; auto. intros i [].
    - cbn [fold_left flat_map] in *. destruct (find_module model n) as [m|] eqn:Em; [|rewrite Herr in H; discriminate].
      destruct (start_fold (apply_order m) s) as (A1 & A2 & A3 & A4). fold (start_apply init keeps model m s) in *.
      fold (ids m) in *. destruct (IH _ _ H) as (B1 & B2 & B3 & B4). cbv zeta in *. rewrite B1, A1, <- app_assoc.
      split; [reflexivity|]. split; [congruence|]. split.
      + intros i Hi. rewrite B3, A3; auto; intro; apply Hi; apply in_or_app; auto.
      + intros i Hi. apply in_app_or in Hi. destruct (in_dec Nat.eq_dec i (ids m)) as [D|D].
        * destruct (in_dec Nat.eq_dec i (flat_map (fun n => match find_module model n with Some m => ids m | None => [] end) l)) as [D2|D2].
          -- rewrite (B4 _ D2), (A4 _ D). destruct (k_recs s i), keeps; auto.
          -- rewrite (B3 _ D2), (A4 _ D). auto.
        * destruct Hi as [Hi|Hi]; [tauto|]. rewrite (B4 _ Hi), (A3 _ D). auto.
  Qed.

  Lemma start_spec names (s s' : st) : step s (Start names) = (s', None) ->
    k_hooks s = [] /\ k_hooks s' = regs names /\ k_second s' = k_second s /\
    (forall i, ~ In i (regs names) -> k_recs s' i = k_recs s i) /\
    (forall i, In i (regs names) -> k_recs s' i = Some (match k_recs s i with Some r => if keeps then r else init | None => init end)).
  Proof.
    intro H. unfold cstep in H. destruct names as [|n names].
    - destruct (k_hooks s) eqn:E; [|discriminate]. injection H as <-.
      destruct (start_fold (apply_order model) s) as (A1 & A2 & A3 & A4). rewrite E in A1. auto.
    - destruct (k_hooks s) eqn:E; [|discriminate]. apply start_names in H. cbv zeta in H. rewrite E in H. destruct H as (A1 & A2 & A3 & A4).
      repeat split; auto.
  Qed.

  Lemma apply_order_self m : In m (apply_order m).
  Proof. destruct m. cbn [apply_order]. apply in_or_app. right. left. auto. Qed.

  (** the beginning of a context: all the registered modules have a fresh record, whatever happened before *)
  Lemma context_begin names (s s' : st) :
    (forall i, In i (regs names) -> In i (map cm_id (apply_order model))) ->
    run [Reset; Start names] s = (s', None) ->
    k_hooks s = [] /\ k_hooks s' = regs names /\ k_second s' = k_second s /\
    (forall i, In i (regs names) -> k_recs s' i = Some init) /\
    (forall i, ~ In i (regs names) -> k_recs s i = None -> k_recs s' i = None) /\
    (forall i, ~ In i (regs names) -> In i (map cm_id (apply_order model)) -> k_recs s i <> None -> k_recs s' i = Some init).
  Proof.
    intros Hsub H. cbn [crun] in H. change (step s Reset) with (reset init model s, @None exn) in H. cbv iota in H.
    destruct (step (reset init model s) (Start names)) as (s2 & [e|]) eqn:E; [discriminate|]. injection H as <-.
    apply start_spec in E. destruct E as (A0 & A1 & A2 & A3 & A4). repeat split; auto.
    - intros i Hi. rewrite (A4 i Hi), reset_recs. destruct (k_recs s i); [|auto]. specialize (Hsub i Hi).
      destruct (in_dec _ _ _); [|tauto]. destruct keeps; auto.
    - intros i Hi Hn. rewrite (A3 i Hi), reset_recs, Hn. auto.
    - intros i Hi Hm Hn. rewrite (A3 i Hi), reset_recs. destruct (k_recs s i); [|congruence]. destruct (in_dec _ _ _); tauto.
  Qed.
End Collector.

Fixpoint kids_order (l : list (string * cmod)) (memo : list nat) : list cmod :=
  match l with
  | [] => []
  | (_, c) :: l => if mem (cm_id c) memo then kids_order l memo else (apply_order c ++ kids_order l (cm_id c :: memo))%list
  end.
Lemma apply_order_eq m : apply_order m = (kids_order (cm_kids m) [] ++ [m])%list.
Proof.
  destruct m. reflexivity.
Qed.
Lemma mem_In x l : mem x l = true <-> In x l.
Proof.
  unfold mem. rewrite existsb_exists. split.
  - intros (y & H1 & H2). apply Nat.eqb_eq in H2. subst. auto.
  - intro H. exists x. rewrite Nat.eqb_refl. auto.
Qed.
Lemma kids_order_incl l : forall memo n c, In (n, c) l ->
  In (cm_id c) memo \/ exists n' c', In (n', c') l /\ cm_id c' = cm_id c /\ incl (apply_order c') (kids_order l memo).
Proof.
  induction l as [|(n0, c0) l IH]; intros memo n c H; [destruct H|]. cbn [kids_order].
  destruct (mem (cm_id c0) memo) eqn:E.
  - destruct H as [H|H].
    + injection H as <- <-. left. apply mem_In; auto.
    + destruct (IH memo n c H) as [K|(n' & c' & K1 & K2 & K3)]; auto. right. exists n', c'. split; [right|]; auto.
  - destruct (Nat.eq_dec (cm_id c0) (cm_id c)) as [Eq|Ne].
    + right. exists n0, c0. split; [left; auto|]. split; auto. intros x Hx. apply in_or_app. auto.
    + destruct H as [H|H]; [injection H as <- <-; congruence|].
      destruct (IH (cm_id c0 :: memo) n c H) as [[K|K]|(n' & c' & K1 & K2 & K3)]; auto; [congruence|].
      right. exists n', c'. split; [right; auto|]. split; auto. intros x Hx. apply in_or_app. right. auto.
Qed.

Lemma find_kid m n path x : find_module m (n :: path) = Some x ->
  exists c, In (n, c) (cm_kids m) /\ find_module c path = Some x /\ forall p, find_module m (n :: p) = find_module c p.
Proof.
  destruct m as [i w e kids]. cbn [find_module cm_kids]. induction kids as [|(k, c) l IH]; intro H; cbn in H; [discriminate|].
  destruct (String.eqb_spec n k) as [->|Hne].
  - exists c. split; [left; auto|]. split; auto.
  - destruct (IH H) as (c0 & K1 & K2 & K3). exists c0. split; [right; auto|]. auto.
Qed.
Lemma coherent_kid m n c : coherent m -> (forall p, find_module m (n :: p) = find_module c p) -> coherent c.
Proof. intros H E path x Hx. apply (H (n :: path) x). rewrite E. auto. Qed.

Lemma find_module_incl path : forall model m, coherent model -> find_module model path = Some m ->
  incl (apply_order m) (apply_order model).
Proof.
  induction path as [|n path IH]; intros model m Hc H.
  - injection H as <-. apply incl_refl.
  - destruct (find_kid _ _ _ _ H) as (c & K1 & K2 & K3). eapply incl_tran; [apply (IH c m); auto; eapply coherent_kid; eauto|].
    rewrite (apply_order_eq model). destruct (kids_order_incl (cm_kids model) [] n c K1) as [[]|(n' & c' & L1 & L2 & L3)].
    rewrite (Hc [] model eq_refl _ _ _ _ L1 K1 L2) in L3. intros y Hy. apply in_or_app. auto.
Qed.
Lemma ids_incl model m : incl (apply_order m) (apply_order model) -> forall i, In i (ids model m) -> In i (ids model model).
Proof.
  intros H i Hi. unfold ids in *. apply in_map_iff in Hi. destruct Hi as (x & <- & Hx). apply filter_In in Hx. destruct Hx as [Hx Hy].
  apply in_map_iff. exists x. split; auto. apply filter_In. auto.
Qed.
Lemma regs_incl model names : coherent model -> forall i, In i (regs model names) -> In i (ids model model).
Proof.
  intros Hc i Hi. destruct names as [|n names]; [exact Hi|]. unfold regs in Hi. apply in_flat_map in Hi.
  destruct Hi as (p & _ & Hi). destruct (find_module model p) as [m|] eqn:E; [|destruct Hi].
  eapply ids_incl; [|exact Hi]. eapply find_module_incl; eauto.
Qed.
Lemma ids_order model i : In i (ids model model) -> In i (map cm_id (apply_order model)).
Proof.
  intro H. unfold ids in H. apply in_map_iff in H. destruct H as (x & <- & Hx). apply filter_In in Hx. apply in_map. tauto.
Qed.
