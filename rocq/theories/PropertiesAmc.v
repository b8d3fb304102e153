(** C94, C95, C96: AMC, the automatic search of pruning levels. *)
From Coq Require Import String Ascii List ZArith QArith Qround Qabs Bool Arith Sorted Lia Lqa Floats.SpecFloat.
From Verif Require Import Base Lists Names PrunerModel StructModel StructRankProofs QuantModel AmcModel AmcSpec AmcProofs.
Import ListNotations.
Local Open Scope string_scope.
Open Scope list_scope.

(** * C94 *)
(** Whatever the agent does, an episode of a network that is described soundly runs without an error up to its end, which comes
    after one action per layer to prune; at any time the costs of the layers are the original ones reduced by the fractions
    removed from the layers pruned so far, the totals are the sums, and the MACs removed are those missing. *)
Theorem C94_episode : forall cfg orig achieve m0 acts,
  (forall e f, 0 <= achieve e f < 1)%Q -> sound m0 -> (orig == m_macs m0)%Q -> (length acts <= length (m_pruned m0))%nat ->
  exists e, episode cfg orig achieve m0 acts = Ok e /\ accounted orig m0 acts e /\
    (episode_is_done e = true <-> length acts = length (m_pruned m0)) /\
    nth_error (m_pruned m0) (Nat.min (length acts) (length (m_pruned m0) - 1)%nat) = Some (e_layer e) /\
    (0 <= e_removed e < orig)%Q.
Proof.
  intros cfg orig achieve m0 acts Ha S0 Ho Hl. destruct (episode_acc cfg orig achieve Ha m0 S0 Ho acts Hl) as (e & E & G & A & L & _). exists e. split; [exact E|]. split; [exact A|].
  split; [|split; [exact L|split; [apply G|]]].
  - unfold episode_is_done. rewrite Nat.eqb_eq, (g_pruned _ _ _ G), (proj1 (ac_steps _ _ _ _ A)). reflexivity.
  - rewrite (g_removed _ _ _ G). assert (0 < m_macs (e_meta e))%Q; [|lra]. apply (orig_pos (m_macs (e_meta e)) (e_meta e) (g_sound _ _ _ G)). reflexivity.
Qed.

(** A step before the end: the agent gets, unless the episode ends with it, an observation of the next layer whose fields lie
    between 0 and 1; the fraction recorded is what the pruner achieved for the action asked, at most [ALMOST_ONE], or zero. *)
Theorem C94_step : forall cfg orig achieve m0 acts a e,
  (forall e f, 0 <= achieve e f < 1)%Q -> sound m0 -> (orig == m_macs m0)%Q -> (length acts < length (m_pruned m0))%nat ->
  episode cfg orig achieve m0 acts = Ok e ->
  exists e' o r, step cfg orig achieve e a = Ok (e', o) /\ episode cfg orig achieve m0 (acts ++ [a]) = Ok e' /\
    e_hist e' = e_hist e ++ [r] /\ (e_removed e' == e_removed e + r * reachable_macs e)%Q /\
    (forall f, (if c_constrained cfg then clamp_action cfg orig e (map_action cfg a) else Ok (map_action cfg a)) = Ok f ->
       (f <= 0 -> r == 0)%Q /\ (f == 1 -> r == achieve e (9999 # 10000))%Q /\ (0 < f -> ~ f == 1 -> r == achieve e f)%Q) /\
    (o = None <-> S (length acts) = length (m_pruned m0)) /\
    (forall rd rs pa, o = Some (rd, rs, pa) -> (rd == e_removed e' / orig)%Q /\ (0 <= rd < 1)%Q /\ (0 <= rs <= 1)%Q).
Proof.
  intros cfg orig achieve m0 acts a e Ha S0 Ho Hl E. destruct (episode_acc cfg orig achieve Ha m0 S0 Ho acts ltac:(lia)) as (e1 & E1 & G & A & L & _). assert (e1 = e) by congruence. subst e1.
  destruct (ac_steps _ _ _ _ A) as [St _].
  destruct (step_ok cfg orig achieve Ha (orig_pos orig m0 S0 Ho) m0 e a G ltac:(lia)) as (e' & o & r & Es & Hr & F & G' & T1 & T2 & T3 & T4 & HA & T5 & T6).
  exists e', o, r. split; [exact Es|]. split; [|split; [exact T2|split; [|split; [|split]]]].
  - unfold episode in *. destruct (reset m0) as [x|]; [|discriminate]. cbn [bind] in *. destruct (get_obs orig x); [|discriminate]. cbn [bind] in *. unfold run_steps in *. rewrite foldM_snoc, E. cbn [bind]. rewrite Es. reflexivity.
  - rewrite (g_removed _ _ _ G'), (g_removed _ _ _ G), (sd_macs _ (g_sound _ _ _ G')), (sd_macs _ (g_sound _ _ _ G)). unfold reachable_macs. revert F. generalize (m_layers (e_meta e)) (m_layers (e_meta e')). clear. intros l1 l2 F.
    induction F as [|x y l1 l2 (_ & _ & X & _) F IH]; [change (orig - 0 == orig - 0 + r * 0)%Q; ring|]. cbn [map]. rewrite !qsum_cons, X. destruct (existsb _ _); lra.
  - intros f Ef. unfold asked in HA. rewrite Ef in HA. destruct (Qltb 0 f) eqn:Ez.
    + apply Qltb_lt in Ez. split; [intro; lra|]. split.
      * intro K. apply Qeq_bool_iff in K. rewrite K in HA. exact HA.
      * intros _ K. destruct (Qeq_bool f 1) eqn:E2; [apply Qeq_bool_iff in E2; contradiction|exact HA].
    + apply Qltb_ge in Ez. split; [intro; exact HA|]. split; intro; lra.
  - split.
    + intro K. destruct (Nat.eq_dec (S (e_state e)) (length (m_pruned m0))); [lia|]. destruct (T6 ltac:(lia)) as (_ & ? & ? & Y & _). congruence.
    + intro K. apply T5. lia.
  - intros rd rs pa K. destruct (Nat.eq_dec (S (e_state e)) (length (m_pruned m0))) as [Q1|Q1]; [destruct (T5 Q1); congruence|].
    destruct (T6 ltac:(lia)) as (_ & rd' & rs' & Y & Y1 & Y2 & Y3). assert (rd' = rd /\ rs' = rs) as [-> ->] by (split; congruence). auto.
Qed.

(** The field prev_a of the observation is the fraction of the step before the last: the docstring's previous action is one
    step late. *)
Theorem C94_prev_action_late : forall cfg orig achieve m0 acts a e e' rd rs pa,
  (forall e f, 0 <= achieve e f < 1)%Q -> sound m0 -> (orig == m_macs m0)%Q -> (length acts < length (m_pruned m0))%nat ->
  episode cfg orig achieve m0 acts = Ok e -> step cfg orig achieve e a = Ok (e', Some (rd, rs, pa)) -> pa = last (e_hist e) 0%Q.
Proof.
  intros cfg orig achieve m0 acts a e e' rd rs pa Ha S0 Ho Hl E Es. destruct (episode_acc cfg orig achieve Ha m0 S0 Ho acts ltac:(lia)) as (e1 & E1 & G & A & L & Pv). assert (e1 = e) by congruence. subst e1.
  destruct (ac_steps _ _ _ _ A) as [St _].
  destruct (step_ok cfg orig achieve Ha (orig_pos orig m0 S0 Ho) m0 e a G ltac:(lia)) as (e2 & o & r & Es2 & _ & _ & _ & _ & _ & _ & _ & _ & T5 & T6).
  assert (o = Some (rd, rs, pa)) by congruence. subst o. destruct (Nat.eq_dec (S (e_state e)) (length (m_pruned m0))) as [K|K]; [destruct (T5 K); discriminate|].
  destruct (T6 ltac:(lia)) as (_ & ? & ? & Y & _). congruence.
Qed.

(** The costs are the real ones when the dependencies are complete: each layer to prune has, with itself, exactly the layers
    whose cost depends on the channels it removes. *)
Theorem C94_real_cost : forall cfg orig achieve m0 acts e coef groups size chan,
  (forall e f, 0 <= achieve e f < 1)%Q -> sound m0 -> (orig == m_macs m0)%Q -> (length acts <= length (m_pruned m0))%nat ->
  episode cfg orig achieve m0 acts = Ok e ->
  (forall n, NoDup (groups n)) ->
  (forall l, In l (m_layers m0) -> al_macs l == coef (al_name l) * prod (map size (groups (al_name l))))%Q ->
  (forall p l, In p (m_pruned m0) -> In l (m_layers m0) -> (In (al_name l) (touched m0 p) <-> In (chan p) (groups (al_name l)))) ->
  forall l, In l (m_layers (e_meta e)) -> (al_macs l == real_cost coef groups size chan (combine (m_pruned m0) (e_hist e)) (al_name l))%Q.
Proof.
  intros cfg orig achieve m0 acts e coef groups size chan Ha S0 Ho Hl E Ng Hm Ht l Hin.
  destruct (episode_acc cfg orig achieve Ha m0 S0 Ho acts Hl) as (e1 & E1 & G & A & _). assert (e1 = e) by congruence. subst e1.
  assert (X : exists l0, In l0 (m_layers m0) /\ al_name l = al_name l0 /\ (al_macs l == al_macs l0 * left_of (combine (map (touched m0) (m_pruned m0)) (e_hist e)) (al_name l0))%Q).
  { pose proof (ac_layers _ _ _ _ A) as F. revert Hin F. generalize (combine (map (touched m0) (m_pruned m0)) (e_hist e)) (m_layers m0) (m_layers (e_meta e)). clear. intros c l0 l1 Hin F.
    induction F as [|x y l0 l1 (X1 & X2 & X3 & X4) F IH]; [destruct Hin|]. destruct Hin as [->|Hin]; [exists x; split; [left; auto|]; auto|]. destruct (IH Hin) as (z & Hz & Y). exists z. split; [right; auto|auto]. }
  destruct X as (l0 & H0 & En & Em). rewrite Em, En, (Hm l0 H0). unfold real_cost. rewrite <- Qmult_assoc. apply Qmult_comp; [reflexivity|].
  assert (Ht' : forall p, In p (m_pruned m0) -> existsb (String.eqb (al_name l0)) (touched m0 p) = existsb (Nat.eqb (chan p)) (groups (al_name l0))).
  { intros p Hp. apply eq_true_iff_eq. rewrite existsb_name, (Ht p l0 Hp H0). rewrite existsb_exists. split; [intro K; exists (chan p); split; auto; apply Nat.eqb_refl|intros (y & Hy & Ey); apply Nat.eqb_eq in Ey; subst; auto]. }
  generalize (Ng (al_name l0)). revert Ht'. generalize (groups (al_name l0)) as gs. generalize (e_hist e) as h. generalize (m_pruned m0) as ps. clear. intros ps h gs Ht N.
  revert h. induction ps as [|p ps IH]; intros h; cbn [map combine].
  - cbn [left_of]. rewrite Qmult_1_r. apply Qeq_refl.
  - destruct h as [|a h]; cbn [combine left_of].
    + rewrite Qmult_1_r. apply Qeq_refl.
    + assert (St : (prod (map (group_size size chan ((p, a) :: combine ps h)) gs) == (if existsb (Nat.eqb (chan p)) gs then 1 - a else 1) * prod (map (group_size size chan (combine ps h)) gs))%Q).
      { clear - N. induction gs as [|g gs IH]; [cbn [map existsb prod fold_right]; ring|]. inversion N as [|? ? Ng N']; subst. specialize (IH N'). cbn [map existsb]. unfold prod in *. cbn [fold_right]. rewrite IH. cbn [group_size].
        destruct (Nat.eqb_spec (chan p) g) as [K|K]; cbn [orb]; [|ring]. subst g. replace (existsb (Nat.eqb (chan p)) gs) with false; [ring|]. symmetry. apply not_true_is_false. intro X. apply existsb_exists in X. destruct X as (y & Hy & Ey). apply Nat.eqb_eq in Ey. congruence. }
      rewrite St, <- (IH ltac:(intros; apply Ht; right; auto) h), (Ht p ltac:(left; auto)). ring.
Qed.

(** The dependencies found are exactly the neighbours and, through depthwise layers, theirs ([fuel]: any bound on the depth). *)
Theorem C94_dependencies : forall dt next kind fuel n l, find_dependencies dt next kind fuel n = Ok l ->
  (forall p, In p l <-> depends next kind n p) /\ (forall p, depends next kind n p -> kind p <> GOther).
Proof.
  intros dt next kind fuel. induction fuel as [|fuel IH]; intros n l H; [discriminate|]. cbn [find_dependencies] in H.
  set (F := fun acc p => _) in H.
  assert (G : forall ps acc l, foldM F ps acc = Ok l ->
     (forall p, In p l <-> In p acc \/ In p ps \/ exists q, In q ps /\ kind q = GDepthwise /\ depends next kind q p) /\
     (forall p, In p ps -> kind p <> GOther) /\ (forall q p, In q ps -> kind q = GDepthwise -> depends next kind q p -> kind p <> GOther)).
  { clear n l H. induction ps as [|p ps IHp]; intros acc l H; cbn [foldM] in H.
    - injection H as <-. split; [|split; intros; contradiction]. intro p. split; [auto|]. intros [K|[[]|(q & [] & _)]]; auto.
    - unfold F at 1 in H. destruct (kind p) eqn:Kp.
      + destruct (find_dependencies dt next kind fuel p) as [lp|] eqn:Ep; [|discriminate]. cbn [bind] in H. destruct (IH p lp Ep) as (I1 & I2). destruct (IHp _ _ H) as (J1 & J2 & J3). split; [|split].
        * intro x. rewrite J1, in_app_iff. cbn [In]. rewrite I1. split.
          -- intros [[K|[K|K]]|[K|(q & K1 & K2)]]; [auto|auto|right; right; exists p; auto|auto|right; right; exists q; tauto].
          -- intros [K|[[K|K]|(q & [<-|K1] & K2 & K3)]]; auto. right. right. exists q. auto.
        * intros x [<-|K]; [congruence|auto].
        * intros q x [<-|K]; [intros _ D; apply I2; auto|eauto].
      + cbn [bind] in H. destruct (IHp _ _ H) as (J1 & J2 & J3). split; [|split].
        * intro x. rewrite J1, in_app_iff. cbn [In]. split.
          -- intros [[K|[K|[]]]|[K|(q & K1 & K2)]]; auto. right; right. exists q. tauto.
          -- intros [K|[[K|K]|(q & [<-|K1] & K2 & K3)]]; auto; [congruence|]. right. right. exists q. auto.
        * intros x [<-|K]; [congruence|auto].
        * intros q x [<-|K]; [congruence|eauto].
      + discriminate. }
  destruct (G _ _ _ H) as (J1 & J2 & J3). split.
  - intro p. rewrite J1. split.
    + intros [[]|[K|(q & K1 & K2 & K3)]]; [apply dep_next; auto|eapply dep_through; eauto].
    + intro D. inversion D; subst; [auto|]. right. right. eauto.
  - intros p D. inversion D; subst; eauto.
Qed.
(** It ends: with layers numbered so that neighbours have smaller numbers, and no layer grouped otherwise. *)
Theorem C94_dependencies_found : forall dt next kind (rank : string -> nat) n,
  (forall a b, In b (next a) -> (rank b < rank a)%nat /\ kind b <> GOther) -> exists l, find_dependencies dt next kind (S (rank n)) n = Ok l.
Proof.
  intros dt next kind rank n H.
  assert (G : forall fuel n, (rank n < fuel)%nat -> exists l, find_dependencies dt next kind fuel n = Ok l).
  { induction fuel as [|fuel IH]; intros m Hm; [lia|]. cbn [find_dependencies].
    assert (X : forall ps acc, incl ps (next m) -> exists l, foldM (fun acc p => match kind p with GDepthwise => do l <- find_dependencies dt next kind fuel p; Ok (acc ++ p :: l) | GOne => Ok (acc ++ [p]) | GOther => Raise (grouping_error dt) end) ps acc = Ok l).
    { induction ps as [|p ps IHp]; intros acc I; [exists acc; reflexivity|]. cbn [foldM]. destruct (H m p (I p (or_introl eq_refl))) as [Hr Hk].
      assert (I' : incl ps (next m)) by (intros z Hz; apply I; right; auto).
      destruct (kind p); [destruct (IH p ltac:(lia)) as (lp & ->); cbn [bind]; apply IHp; auto|cbn [bind]; apply IHp; auto|congruence]. }
    apply X. intros z Hz; exact Hz. }
  apply G. lia.
Qed.

(** Building the description: sound, with the layers and totals of the network, when each layer to prune has dependencies,
    different layers of the network. *)
Definition in_net (ls : list (string * (Q * Q))) (n : string) : Prop := In n (map fst ls).
Lemma details_layers ls prune deps : (forall n, in_net ls n -> to_prune prune n = true -> exists ds, deps n = Ok ds) -> forall acc,
  foldM (fun acc e => if to_prune prune (fst e) then do d <- deps (fst e); Ok (acc ++ [mkAl (fst e) (fst (snd e)) (snd (snd e)) (Some d)])
      else Ok (acc ++ [mkAl (fst e) (fst (snd e)) (snd (snd e)) None])) ls acc =
  Ok (acc ++ map (fun e => mkAl (fst e) (fst (snd e)) (snd (snd e)) (if to_prune prune (fst e) then match deps (fst e) with Ok d => Some d | Raise _ => None end else None)) ls).
Proof.
  intro H. induction ls as [|x ls IH]; intro acc; cbn [foldM map]; [rewrite app_nil_r; reflexivity|].
  destruct (to_prune prune (fst x)) eqn:T.
  - destruct (H (fst x) ltac:(left; reflexivity) T) as (ds & ->). cbn [bind]. rewrite IH by (intros; apply H; auto; right; auto). rewrite <- app_assoc. reflexivity.
  - cbn [bind]. rewrite IH by (intros; apply H; auto; right; auto). rewrite <- app_assoc. reflexivity.
Qed.
Lemma ids_sorted {A} (f : A -> bool) l : forall i, StronglySorted lt (ids_from f l i) /\ forall j, In j (ids_from f l i) -> (i <= j)%nat.
Proof.
  induction l as [|x l IH]; intro i; cbn [ids_from]; [split; [constructor|intros ? []]|]. destruct (IH (S i)) as (S1 & S2). destruct (f x).
  - split; [constructor; auto; apply Forall_forall; intros j Hj; apply S2 in Hj; lia|]. intros j [<-|Hj]; [lia|apply S2 in Hj; lia].
  - split; auto. intros j Hj. apply S2 in Hj. lia.
Qed.
Lemma ids_in {A} (f : A -> bool) l : forall i, In i (ids_from f l 0) <-> exists x, nth_error l i = Some x /\ f x = true.
Proof.
  intro i. assert (G : forall k, In (k + i)%nat (ids_from f l k) <-> exists x, nth_error l i = Some x /\ f x = true).
  { revert i. induction l as [|y l IH]; intros i k; cbn [ids_from].
    - split; [intros []|intros (x & E & _); destruct i; discriminate].
    - destruct i as [|i]; cbn [nth_error].
      + rewrite Nat.add_0_r. destruct (f y) eqn:E; [split; [exists y; auto|left; auto]|]. split; [intro K; apply (proj2 (ids_sorted f l (S k))) in K; lia|intros (x & Ex & Fx); congruence].
      + rewrite <- (IH i (S k)). replace (k + S i)%nat with (S k + i)%nat by lia. destruct (f y); [|reflexivity]. split; [intros [K|K]; [lia|auto]|right; auto]. }
  apply (G 0%nat).
Qed.
Lemma network_details_raw : forall ls prune deps,
  NoDup (map fst ls) -> Forall (fun e => 0 < fst (snd e))%Q ls -> (exists n, in_net ls n /\ to_prune prune n = true) ->
  (forall n, in_net ls n -> to_prune prune n = true -> exists ds, deps n = Ok ds /\ ds <> [] /\ NoDup (n :: ds) /\ forall d, In d ds -> in_net ls d) ->
  exists m, get_network_details ls prune deps = Ok m /\ sound m /\
    map (fun l => (al_name l, (al_macs l, al_vol l))) (m_layers m) = ls /\
    (forall i, In i (m_pruned m) <-> exists l, nth_error (m_layers m) i = Some l /\ to_prune prune (al_name l) = true) /\
    (forall i, In i (m_dep m) <-> exists l n d ds, nth_error (m_layers m) i = Some l /\ in_net ls n /\ to_prune prune n = true /\ deps n = Ok (d :: ds) /\ al_name l = d).
Proof.
  intros ls prune deps N P (n0 & Hn0 & Tn0) H. unfold get_network_details.
  rewrite details_layers by (intros n Hn T; destruct (H n Hn T) as (ds & E & _); eauto). cbn [bind app].
  set (mk := fun e : string * (Q * Q) => mkAl (fst e) (fst (snd e)) (snd (snd e)) (if to_prune prune (fst e) then match deps (fst e) with Ok d => Some d | Raise _ => None end else None)).
  assert (Fs : forall L acc, incl L ls -> exists fs, foldM (fun acc l => do d <- first_dep l; Ok (acc ++ d)) (map mk L) acc = Ok (acc ++ fs) /\
     forall x, In x fs <-> exists n ds, In n (map fst L) /\ to_prune prune n = true /\ deps n = Ok (x :: ds)).
  { induction L as [|e L IH]; intros acc I; cbn [map foldM].
    - exists []. rewrite app_nil_r. split; [reflexivity|]. intro x. split; [intros []|intros (n & ds & [] & _)].
    - assert (I' : incl L ls) by (intros z Hz; apply I; right; auto). unfold first_dep at 1. cbn [mk al_deps].
      destruct (to_prune prune (fst e)) eqn:T.
      + destruct (H (fst e)) as (ds & Ed & Nd & _); [apply in_map; apply I; left; auto|exact T|]. rewrite Ed. destruct ds as [|d ds]; [congruence|]. cbn [bind].
        destruct (IH (acc ++ [d]) I') as (fs & Ef & Hf). rewrite Ef. exists (d :: fs). rewrite <- app_assoc. split; [reflexivity|]. intro x. cbn [In map]. rewrite Hf. split.
        * intros [<-|(n & ds' & Hn & X)]; [exists (fst e), ds; auto|exists n, ds'; auto].
        * intros (n & ds' & [<-|Hn] & T' & Ed'); [left; congruence|right; exists n, ds'; auto].
      + cbn [bind]. destruct (IH (acc ++ []) I') as (fs & Ef & Hf). rewrite Ef, app_nil_r. exists fs. split; [reflexivity|]. intro x. rewrite Hf. cbn [map In]. split.
        * intros (n & ds' & Hn & X). exists n, ds'; auto.
        * intros (n & ds' & [<-|Hn] & T' & Ed'); [congruence|exists n, ds'; auto]. }
  destruct (Fs ls [] ltac:(intros z Hz; exact Hz)) as (fs & Ef & Hf). rewrite Ef. cbn [bind app]. clear Fs Ef.
  assert (Nm : map al_name (map mk ls) = map fst ls) by (rewrite map_map; apply map_ext; reflexivity).
  eexists. split; [reflexivity|]. split; [|split; [|split]]; cbn [m_layers m_pruned m_dep].
  - constructor; cbn [m_layers m_pruned m_macs m_nnz]; try reflexivity.
    + rewrite Nm. exact N.
    + apply ids_sorted.
    + unfold in_net in Hn0. rewrite <- Nm in Hn0. apply in_map_iff in Hn0. destruct Hn0 as (l & En & Hl). apply In_nth_error in Hl. destruct Hl as (i & Hi).
      assert (K : In i (ids_from (fun l => to_prune prune (al_name l)) (map mk ls) 0)) by (apply ids_in; exists l; split; [auto|congruence]). intro X. rewrite X in K. destruct K.
    + intros i Hi. apply ids_in in Hi. destruct Hi as (l & Hi & T). assert (Hl : In l (map mk ls)) by (eapply nth_error_In; eauto). apply in_map_iff in Hl. destruct Hl as (e & <- & He). cbn [mk al_name] in T.
      destruct (H (fst e)) as (ds & Ed & Nd & ND & ID); [apply in_map; auto|exact T|]. exists (mk e), ds. rewrite Nm. cbn [mk al_name al_deps]. rewrite T, Ed. repeat split; auto.
    + apply Forall_map. cbn [mk al_macs]. exact P.
  - rewrite map_map. cbn [mk al_name al_macs al_vol]. rewrite <- (map_id ls) at 2. apply map_ext. intros (n & a & b). reflexivity.
  - intro i. apply ids_in.
  - intro i. rewrite in_flat_map. split.
    + intros (x & Hx & Hi). apply ids_in in Hi. destruct Hi as (l & Hi & El). apply String.eqb_eq in El. apply Hf in Hx. destruct Hx as (n & ds & Hn & T & Ed). exists l, n, x, ds. auto.
    + intros (l & n & d & ds & Hi & Hn & T & Ed & El). exists d. split; [apply Hf; exists n, ds; auto|]. apply ids_in. exists l. split; auto. apply String.eqb_eq. exact El.
Qed.
(** Specification: the layers the user asked to prune; without a list, all *)
Definition asked (prune : option (list string)) (n : string) : Prop := prune = None \/ exists l, prune = Some l /\ In n l.
Lemma to_prune_asked prune n : to_prune prune n = true <-> asked prune n.
Proof.
  unfold to_prune, asked. destruct prune as [l|]; [|tauto]. rewrite existsb_exists. split.
  - intros (x & Hx & E). apply String.eqb_eq in E. subst. eauto.
  - intros [K|(l' & K & Hn)]; [discriminate|]. injection K as <-. exists n. rewrite String.eqb_refl. auto.
Qed.
Theorem C94_network_details : forall ls prune deps,
  NoDup (map fst ls) -> Forall (fun e => 0 < fst (snd e))%Q ls -> (exists n, in_net ls n /\ asked prune n) ->
  (forall n, in_net ls n -> asked prune n -> exists ds, deps n = Ok ds /\ ds <> [] /\ NoDup (n :: ds) /\ forall d, In d ds -> in_net ls d) ->
  exists m, get_network_details ls prune deps = Ok m /\ sound m /\
    map (fun l => (al_name l, (al_macs l, al_vol l))) (m_layers m) = ls /\
    (forall i, In i (m_pruned m) <-> exists l, nth_error (m_layers m) i = Some l /\ asked prune (al_name l)) /\
    (forall i, In i (m_dep m) <-> exists l n d ds, nth_error (m_layers m) i = Some l /\ in_net ls n /\ asked prune n /\ deps n = Ok (d :: ds) /\ al_name l = d).
Proof.
  intros ls prune deps N P (n0 & Hn0 & Tn0) H.
  destruct (network_details_raw ls prune deps N P) as (m & E & Sd & L & Pr & Dp).
  - exists n0. rewrite to_prune_asked. auto.
  - intros n Hn T. rewrite to_prune_asked in T. auto.
  - exists m. split; [exact E|]. split; [exact Sd|]. split; [exact L|]. split; intro i; [rewrite Pr|rewrite Dp]; split.
    + intros (l & A & B). rewrite to_prune_asked in B. eauto.
    + intros (l & A & B). rewrite <- to_prune_asked in B. eauto.
    + intros (l & n & d & ds & A & B & C & D). rewrite to_prune_asked in C. exists l, n, d, ds. auto.
    + intros (l & n & d & ds & A & B & C & D). rewrite <- to_prune_asked in C. exists l, n, d, ds. auto.
Qed.
(** Asking for a negative fraction, or for a layer that is not to be pruned, is refused and nothing changes. *)
Theorem C94_refused : forall achieve e f, (f < 0)%Q \/ ~ In (e_layer e) (m_pruned (e_meta e)) -> remove_structures achieve e f = Raise ValueError.
Proof.
  intros achieve e f H. unfold remove_structures. destruct (negb (memn (e_layer e) (m_pruned (e_meta e)))) eqn:M; [reflexivity|].
  destruct H as [H|H]; [|exfalso; apply H; apply negb_false_iff in M; unfold memn in M; apply existsb_exists in M; destruct M as (x & M1 & M2); apply Nat.eqb_eq in M2; subst x; exact M1]. unfold Qltb. destruct (Qle_bool 0 f) eqn:K; [|reflexivity]. apply Qle_bool_iff in K. exfalso. revert H K. apply Qlt_not_le.
Qed.
(** ... but one layer to prune on which nothing depends (filters of a last layer, channels of a first one) makes the whole
    description fail: by default all layers are to be pruned. *)
Theorem C94_no_dependents_refuted : forall ls prune deps n,
  in_net ls n -> to_prune prune n = true -> deps n = Ok [] -> (forall n, in_net ls n -> to_prune prune n = true -> exists ds, deps n = Ok ds) ->
  get_network_details ls prune deps = Raise IndexError.
Proof.
  intros ls prune deps n Hn T En H. unfold get_network_details. rewrite details_layers by exact H. cbn [bind app].
  set (mk := fun e : string * (Q * Q) => _).
  assert (G : forall acc, foldM (fun acc l => do d <- first_dep l; Ok (acc ++ d)) (map mk ls) acc = Raise IndexError).
  { clear H. unfold in_net in Hn. induction ls as [|e L IH]; intro acc; [destruct Hn|]. cbn [map foldM]. destruct Hn as [K|K].
    - unfold first_dep at 1. cbn [mk al_deps]. rewrite K, T, En. reflexivity.
    - destruct (first_dep (mk e)) as [d|x] eqn:Ed; cbn [bind]; [apply IH; auto|]. unfold first_dep in Ed. destruct (al_deps (mk e)) as [[|? ?]|]; congruence. }
  rewrite G. reflexivity.
Qed.

(** A chain of three layers whose filters are pruned in the first two. *)
Definition chain3 : meta := mkMeta [mkAl "conv1" 100 10 (Some ["conv2"]); mkAl "conv2" 200 20 (Some ["fc"]); mkAl "fc" 50 50 None] [0; 1]%nat [1; 2]%nat 350 80.
Example C94_chain_details : get_network_details [("conv1", (100, 10)); ("conv2", (200, 20)); ("fc", (50, 50))]%Q (Some ["conv1"; "conv2"])
  (fun n => find_dependencies DFilters (fun n => if String.eqb n "conv1" then ["conv2"] else if String.eqb n "conv2" then ["fc"] else []) (fun _ => GOne) 3 n) = Ok chain3.
Proof. vm_compute. reflexivity. Qed.
Lemma chain3_sound : sound chain3.
Proof.
  constructor; cbn [chain3 m_layers m_pruned m_macs m_nnz map al_name].
  - repeat constructor; cbn; intuition discriminate.
  - repeat constructor.
  - discriminate.
  - intros i [<-|[<-|[]]]; cbn [nth_error]; eexists _, _; (split; [reflexivity|]; split; [reflexivity|]; cbn [al_name]; split; [repeat constructor; cbn; intuition discriminate|intros x [<-|[]]; cbn; tauto]).
  - repeat constructor.
  - reflexivity.
  - reflexivity.
Qed.
(** half of the first layer, a quarter of the second *)
Example C94_chain_episode : exists e, episode (mkAcfg AClip 0 (4 # 5) false (1 # 2)) 350 (fun _ f => f) chain3 [1 # 2; 1 # 4] = Ok e /\
  e_hist e = [1 # 2; 1 # 4] /\ Qeq_bool (m_macs (e_meta e)) (50 + 75 + (75 # 2)) = true /\ Qeq_bool (e_removed e) (350 - (50 + 75 + (75 # 2))) = true.
Proof. vm_compute. eexists. repeat split; reflexivity. Qed.
(** the hypotheses of the real cost *)
Example C94_chain_groups : let groups n := if String.eqb n "conv1" then [0]%nat else if String.eqb n "conv2" then [0; 1]%nat else [1]%nat in
  (forall p l, In p (m_pruned chain3) -> In l (m_layers chain3) -> (In (al_name l) (touched chain3 p) <-> In ((fun p => p) p) (groups (al_name l)))) /\
  (forall l, In l (m_layers chain3) -> al_macs l == (if String.eqb (al_name l) "conv1" then 10 else 5) * prod (map (fun g => match g with O => 10 | _ => if String.eqb (al_name l) "conv2" then 4 else 10 end) (groups (al_name l))))%Q.
Proof.
  split.
  - intros p l [<-|[<-|[]]] [<-|[<-|[<-|[]]]]; cbn; intuition congruence.
  - intros l [<-|[<-|[<-|[]]]]; reflexivity.
Qed.
(** A second consumer of the pruned filters that the dependencies leave out (a residual sum's other side): its cost is counted
    in full. *)
Theorem C94_shared_channels_refuted : exists m0 e, sound m0 /\ episode (mkAcfg AClip 0 1 false (1 # 2)) (m_macs m0) (fun _ f => f) m0 [1 # 2] = Ok e /\
  exists l coef, nth_error (m_layers (e_meta e)) 2 = Some l /\ (al_macs l == coef * 10)%Q /\
    ~ (al_macs l == real_cost (fun _ => coef) (fun _ => [0]%nat) (fun _ => 10) (fun p => p) (combine (m_pruned m0) (e_hist e)) (al_name l))%Q.
Proof.
  exists (mkMeta [mkAl "a" 100 1 (Some ["b"]); mkAl "b" 100 1 None; mkAl "c" 100 1 None] [0]%nat [1]%nat 300 3).
  eexists. split; [|split].
  - constructor; cbn [m_layers m_pruned m_macs m_nnz map al_name].
    + repeat constructor; cbn; intuition discriminate.
    + repeat constructor.
    + discriminate.
    + intros i [<-|[]]; cbn [nth_error]; eexists _, _; (split; [reflexivity|]; split; [reflexivity|]; cbn [al_name]; split; [repeat constructor; cbn; intuition discriminate|intros x [<-|[]]; cbn; tauto]).
    + repeat constructor.
    + reflexivity.
    + reflexivity.
  - vm_compute. reflexivity.
  - eexists _, 10%Q. split; [reflexivity|]. split; [reflexivity|]. cbv. discriminate.
Qed.
(** Two depthwise layers fed by the same layer and feeding the same one: it is listed twice, and the first step fails. *)
Theorem C94_duplicate_dependents_refuted : exists next kind m0 ds,
  find_dependencies DFilters next kind 3 "a" = Ok ds /\ ~ NoDup ds /\
  get_network_details [("a", (100, 1)); ("d1", (10, 1)); ("d2", (10, 1)); ("b", (100, 1))]%Q (Some ["a"]) (find_dependencies DFilters next kind 3) = Ok m0 /\
  episode (mkAcfg AClip 0 1 false (1 # 2)) (m_macs m0) (fun _ f => f) m0 [1 # 2] = Raise AssertionError.
Proof.
  exists (fun n => if String.eqb n "a" then ["d1"; "d2"] else if String.eqb n "b" then [] else ["b"]), (fun n => if String.eqb n "b" then GOne else GDepthwise).
  eexists _, _. split; [vm_compute; reflexivity|]. split; [|split; vm_compute; reflexivity].
  intro N. inversion N as [|? ? _ N1]; subst. inversion N1 as [|? ? K _]; subst. apply K. right. left. reflexivity.
Qed.
(** Only the first of the dependents of a layer counts as compressible. *)
Example C94_first_dependent_only : exists m0, get_network_details [("a", (100, 1)); ("d", (10, 1)); ("b", (100, 1))]%Q (Some ["a"])
    (find_dependencies DFilters (fun n => if String.eqb n "a" then ["d"] else if String.eqb n "d" then ["b"] else []) (fun n => if String.eqb n "d" then GDepthwise else GOne) 3) = Ok m0 /\
  touched m0 0 = ["a"; "d"; "b"] /\ is_compressible m0 1 = true /\ is_compressible m0 2 = false.
Proof. eexists. split; [vm_compute; reflexivity|]. repeat split. Qed.
(** an unsupported grouping; no bound met.  For channels the error is not the one meant. *)
Theorem C94_grouped : forall dt next kind fuel n p, In p (next n) -> kind p = GOther -> (forall q, In q (next n) -> kind q <> GDepthwise) ->
  find_dependencies dt next kind (S fuel) n = Raise (match dt with DChannels => KeyError | DFilters => ValueError end).
Proof.
  intros dt next kind fuel n p Hp Hk Hd. cbn [find_dependencies]. set (F := fun acc p => _). enough (G : forall ps acc, In p ps -> (forall q, In q ps -> kind q <> GDepthwise) -> foldM F ps acc = Raise (match dt with DChannels => KeyError | DFilters => ValueError end)) by (apply G; assumption).
  clear Hp Hd. intros ps. induction ps as [|q ps IH]; intros acc Hp Hd; [destruct Hp|].
  cbn [foldM]. unfold F at 1. destruct (kind q) eqn:E; [exfalso; apply (Hd q); [left; auto|exact E]| |reflexivity]. destruct Hp as [->|Hp]; [congruence|]. cbn [bind]. apply IH; auto. intros; apply Hd; right; auto.
Qed.
Example C94_grouped_case : find_dependencies DChannels (fun n => if String.eqb n "a" then ["b"] else []) (fun _ => gkind_of 2 4) 5 "a" = Raise KeyError.
Proof. reflexivity. Qed.
(** An ordinary convolution that reads a single channel is taken for a depthwise one: the layers after it are listed as
    dependent, although they do not change when its input does. *)
Theorem C94_single_channel_refuted : exists (next : string -> list string) kind l, kind "b" = gkind_of 1 1 /\ (forall n, n <> "b" -> kind n = gkind_of 1 8) /\ find_dependencies DFilters next kind 3 "a" = Ok l /\ In "c" l /\ ~ In "c" (next "a").
Proof.
  exists (fun n => if String.eqb n "a" then ["b"] else if String.eqb n "b" then ["c"] else []), (fun n => if String.eqb n "b" then gkind_of 1 1 else gkind_of 1 8), ["b"; "c"].
  split; [reflexivity|]. split; [intros n H; destruct (String.eqb_spec n "b"); [congruence|reflexivity]|]. split; [reflexivity|]. split; [right; left; reflexivity|]. cbn. intros [K|[]]. discriminate.
Qed.
(** In double precision the assertion at the end of remove_structures, an equality, fails on ordinary networks: three layers
    of 12 filters; 7 filters of the first one removed leave 34560.00000000001 MACs of the second one's 82944, and removing 11 of
    its filters leaves a share whose complement is not the fraction 1 - 1/12 computed from the mask.  (IEEE 754 binary64 as
    specified by Coq's SpecFloat; [macs_left]: the subtraction in reduce_layer_macs.) *)
Definition b64 (z : Z) : spec_float := binary_normalize 53 1024 z 0 false.
Definition sparsity64 (kept n : Z) : spec_float := SFsub 53 1024 (b64 1) (SFdiv 53 1024 (b64 kept) (b64 n)).
Definition macs_left (macs r : spec_float) : spec_float := SFsub 53 1024 macs (SFmul 53 1024 macs r).
Definition removal_passes (macs r : spec_float) : bool := SFeqb (SFsub 53 1024 (b64 1) (SFdiv 53 1024 (macs_left macs r) macs)) r.
Theorem C94_float_assertion_refuted : ~ (forall n k1 k2 hw, (0 < k1 < n)%Z -> (0 < k2 < n)%Z -> (0 < hw)%Z ->
  removal_passes (macs_left (b64 (n * n * 9 * hw)) (sparsity64 k1 n)) (sparsity64 k2 n) = true).
Proof. intro H. specialize (H 12 5 1 64 ltac:(lia) ltac:(lia) ltac:(lia))%Z. vm_compute in H. discriminate. Qed.
Example C94_float_passes : removal_passes (macs_left (b64 (16 * 16 * 9 * 64)) (sparsity64 5 16)) (sparsity64 1 16) = true.
Proof. vm_compute. reflexivity. Qed.

(** * C95 *)
(** The protocol "mac-constrained": if the layers can be covered, the target is within what every layer may lose, and the
    pruner loses to rounding at each layer no more than the margin at the next one, then whatever the agent does the network
    at the end of the episode has the target's cost, up to the rounding at the last layer. *)
Theorem C95_target : forall cfg orig achieve loss m0 acts,
  (forall e f, 0 <= achieve e f < 1)%Q -> sound m0 -> (orig == m_macs m0)%Q -> coverable m0 ->
  c_constrained cfg = true -> (0 <= c_high cfg)%Q -> (1 - c_density cfg <= qmin (9 # 10) (c_high cfg))%Q ->
  (forall e, 0 <= loss e)%Q -> (forall e f, 0 < f < 1 -> f - loss e <= achieve e f)%Q ->
  length acts = length (m_pruned m0) ->
  (forall pre a post e e', acts = pre ++ a :: post -> post <> [] -> episode cfg orig achieve m0 pre = Ok e -> episode cfg orig achieve m0 (pre ++ [a]) = Ok e' ->
     loss e * reachable_macs e <= ((9999 # 10000) - qmin (9 # 10) (c_high cfg)) * reachable_macs e')%Q ->
  exists pre a e e', acts = pre ++ [a] /\ episode cfg orig achieve m0 pre = Ok e /\ episode cfg orig achieve m0 acts = Ok e' /\
    (m_macs (e_meta e') <= c_density cfg * orig + loss e * reachable_macs e)%Q.
Proof.
  intros cfg orig achieve loss m0 acts Ha S0 Ho CV Hc Hh Hd Hl Hloss Hlen Hsm.
  exact (target_reached cfg orig achieve loss Ha m0 S0 Ho Hc Hh Hloss Hl CV Hd acts Hlen Hsm).
Qed.
(** Without rounding: the target. *)
Theorem C95_target_exact : forall cfg orig achieve m0 acts,
  (forall e f, 0 <= achieve e f < 1)%Q -> sound m0 -> (orig == m_macs m0)%Q -> coverable m0 ->
  c_constrained cfg = true -> (0 <= c_high cfg)%Q -> (1 - c_density cfg <= qmin (9 # 10) (c_high cfg))%Q ->
  (forall e f, 0 < f < 1 -> f <= achieve e f)%Q -> length acts = length (m_pruned m0) ->
  exists e, episode cfg orig achieve m0 acts = Ok e /\ (m_macs (e_meta e) <= c_density cfg * orig)%Q.
Proof.
  intros cfg orig achieve m0 acts Ha S0 Ho CV Hc Hh Hd Hx Hlen.
  destruct (C95_target cfg orig achieve (fun _ => 0%Q) m0 acts Ha S0 Ho CV Hc Hh Hd) as (pre & a & e & e' & _ & _ & E & H); auto.
  - intros; lra.
  - intros e f Hf. specialize (Hx e f Hf). lra.
  - intros pre a post e e' Ea _ E1 E2. rewrite Qmult_0_l. apply Qmult_le_0_compat.
    + unfold qmin. destruct (Qle_bool (9 # 10) (c_high cfg)) eqn:K; [discriminate|]. apply not_true_iff_false in K. rewrite Qle_bool_iff in K. lra.
    + assert (Hl : (length (pre ++ [a]) <= length (m_pruned m0))%nat) by (rewrite <- Hlen, Ea, !app_length; cbn [length]; lia).
      destruct (episode_acc cfg orig achieve Ha m0 S0 Ho _ Hl) as (e1 & E3 & G & _). assert (e1 = e') by congruence. subst e1. pose proof (sd_pos _ (g_sound _ _ _ G)) as P. unfold reachable_macs. clear - P.
      induction P as [|l ls Hl P IH]; [apply Qle_refl|]. cbn [map]. rewrite qsum_cons. destruct (existsb _ _); lra.
  - exists e'. split; [exact E|]. lra.
Qed.

(** The L1 pruner masks at least the fraction asked less one structure; exactly the floor when the magnitudes differ. *)
Lemma sum_keep thr mags : (qsum (keep_map thr mags) == Zq (Z.of_nat (length mags)) - Zq (Z.of_nat (countb (fun x => Qle_bool x thr) mags)))%Q.
Proof.
  induction mags as [|x mags IH]; [reflexivity|]. unfold keep_map, countb in *. cbn [map length filter]. rewrite qsum_cons, IH. rewrite Nat2Z.inj_succ, <- Z.add_1_l, Zq_plus. change (Zq 1) with 1%Q.
  unfold Qltb. destruct (Qle_bool x thr); cbn [negb b2q length]; [rewrite Nat2Z.inj_succ, <- Z.add_1_l, Zq_plus; change (Zq 1) with 1%Q|]; ring.
Qed.
Lemma count_distinct mags thr : ForallOrdPairs (fun a b => ~ a == b)%Q mags -> (countb (fun x => Qle_bool x thr) mags <= S (countb (fun x => Qltb x thr) mags))%nat.
Proof.
  unfold countb. induction 1 as [|x mags Hx D IH]; [cbn; lia|]. cbn [filter]. destruct (Qle_bool x thr) eqn:E1, (Qltb x thr) eqn:E2; cbn [length]; try lia.
  - apply Qle_bool_iff in E1. apply Qltb_ge in E2. assert (Ex : (x == thr)%Q) by lra.
    assert (K : filter (fun x => Qle_bool x thr) mags = filter (fun x => Qltb x thr) mags); [|rewrite K; lia]. apply filter_ext_in. intros y Hy. rewrite Forall_forall in Hx. specialize (Hx y Hy).
    apply eq_true_iff_eq. rewrite Qle_bool_iff, Qltb_lt. split; [|lra]. intro. destruct (Qlt_le_dec y thr); auto. exfalso. apply Hx. lra.
Qed.
Theorem C95_l1_pruner : forall mags f, mags <> [] -> (0 < f < 1)%Q -> exists q, l1_action mags 1 f = Ok q /\ (0 <= q <= 1)%Q /\
  (f - 1 / Zq (Z.of_nat (length mags)) < q)%Q /\
  (ForallOrdPairs (fun a b => ~ a == b)%Q mags -> q == Zq (Qfloor (f * Zq (Z.of_nat (length mags)))) / Zq (Z.of_nat (length mags)))%Q.
Proof.
  intros mags f Hn Hf. unfold l1_action. set (n := length mags). assert (N1 : (1 <= n)%nat) by (unfold n; destruct mags; [congruence|cbn; lia]).
  rewrite num_structs_one by (lra || lia). set (z := Qfloor (f * Zq (Z.of_nat n))).
  assert (Np : (0 < Zq (Z.of_nat n))%Q) by (apply Zq_pos; lia).
  assert (Z0 : (0 <= z)%Z). { unfold z. rewrite <- (Qfloor_Z 0). apply Qfloor_resp_le. apply Qmult_le_0_compat; [lra|]. change (inject_Z 0) with 0%Q. lra. }
  assert (Fl : (Zq z <= f * Zq (Z.of_nat n))%Q) by apply Qfloor_le.
  assert (Fu : (f * Zq (Z.of_nat n) < Zq z + 1)%Q). { pose proof (Qlt_floor (f * Zq (Z.of_nat n))) as K. fold z in K. change (inject_Z (z + 1)) with (Zq (z + 1)) in K. rewrite Zq_plus in K. change (Zq 1) with 1%Q in K. exact K. }
  assert (Zn : (z < Z.of_nat n)%Z). { apply Zq_lt. eapply Qle_lt_trans; [exact Fl|]. rewrite <- (Qmult_1_l (Zq (Z.of_nat n))) at 2. apply Qmult_lt_compat_r; lra. }
  destruct (Z.eqb_spec z 0) as [E|E].
  - exists 0%Q. split; [reflexivity|]. split; [lra|]. split.
    + rewrite E in Fu. change (Zq 0) with 0%Q in Fu. assert (f < 1 / Zq (Z.of_nat n))%Q by (apply Qlt_shift_div_l; lra). lra.
    + intros _. rewrite E. change (Zq 0) with 0%Q. field. lra.
  - pose proof (topk_ok mags (Z.to_nat z) ltac:(fold n; lia)) as TK. rewrite Z2Nat.id in TK by lia. destruct (topk_smallest mags z) as [b|]; [|discriminate]. cbn [bind] in TK |- *. rewrite TK. cbn [bind].
    set (thr := nth (Z.to_nat z - 1) (qsort mags) 0%Q). set (c := countb (fun x => Qle_bool x thr) mags).
    assert (C1 : (Z.to_nat z <= c)%nat) by (apply kth_count_ge; fold n; lia).
    assert (C2 : (c <= n)%nat) by apply countb_le.
    eexists. split; [reflexivity|]. fold thr.
    assert (Q : (1 - qsum (keep_map thr mags) / Zq (Z.of_nat n) == Zq (Z.of_nat c) / Zq (Z.of_nat n))%Q) by (rewrite sum_keep; fold n c; field; lra).
    assert (Cz : (Zq z <= Zq (Z.of_nat c))%Q) by (apply (proj1 (Zq_le _ _)); lia). assert (Cn : (Zq (Z.of_nat c) <= Zq (Z.of_nat n))%Q) by (apply (proj1 (Zq_le _ _)); lia). assert (C0 : (0 <= Zq (Z.of_nat c))%Q) by (apply Zq_nonneg; lia).
    split; [|split].
    + rewrite Q. split; [apply Qle_shift_div_l; lra|apply Qle_shift_div_r; lra].
    + rewrite Q. apply Qlt_shift_div_l; [exact Np|]. assert (K : ((f - 1 / Zq (Z.of_nat n)) * Zq (Z.of_nat n) == f * Zq (Z.of_nat n) - 1)%Q) by (field; lra). lra.
    + intro D. rewrite Q. pose proof (count_distinct mags thr D) as C3. fold c in C3. pose proof (kth_count_lt mags (Z.to_nat z) ltac:(fold n; lia)) as C4. fold thr in C4.
      replace (Z.of_nat c) with z by lia. reflexivity.
Qed.
(** With equal magnitudes it may mask the whole layer, whatever the fraction. *)
Theorem C95_ties_refuted : exists mags f, (0 < f < 1)%Q /\ exists q, l1_action mags 1 f = Ok q /\ (q == 1)%Q.
Proof. exists [3; 3; 3; 3]%Q, (1 # 2). split; [split; reflexivity|]. eexists. split; [vm_compute; reflexivity|reflexivity]. Qed.

(** what the L1 pruner achieves for the fractions it is given in an episode *)
Definition l1_achieve (mags : env -> list Q) (e : env) (f : Q) : Q :=
  if Qltb 0 f && Qltb f 1 then match l1_action (mags e) 1 f with Ok q => q | Raise _ => 0%Q end else 0%Q.
(** ... so with it the target is met up to one structure of the last layer. *)
Theorem C95_target_l1 : forall cfg orig mags m0 acts,
  (forall e, mags e <> [] /\ ForallOrdPairs (fun a b => ~ a == b)%Q (mags e)) -> sound m0 -> (orig == m_macs m0)%Q -> coverable m0 ->
  c_constrained cfg = true -> (0 <= c_high cfg)%Q -> (1 - c_density cfg <= qmin (9 # 10) (c_high cfg))%Q ->
  length acts = length (m_pruned m0) ->
  (forall pre a post e e', acts = pre ++ a :: post -> post <> [] -> episode cfg orig (l1_achieve mags) m0 pre = Ok e -> episode cfg orig (l1_achieve mags) m0 (pre ++ [a]) = Ok e' ->
     1 / Zq (Z.of_nat (length (mags e))) * reachable_macs e <= ((9999 # 10000) - qmin (9 # 10) (c_high cfg)) * reachable_macs e')%Q ->
  exists pre a e e', acts = pre ++ [a] /\ episode cfg orig (l1_achieve mags) m0 pre = Ok e /\ episode cfg orig (l1_achieve mags) m0 acts = Ok e' /\
    (m_macs (e_meta e') <= c_density cfg * orig + 1 / Zq (Z.of_nat (length (mags e))) * reachable_macs e)%Q.
Proof.
  intros cfg orig mags m0 acts Hm S0 Ho CV Hc Hh Hd Hlen Hsm.
  assert (Np : forall e, (0 < Zq (Z.of_nat (length (mags e))))%Q). { intro e. apply Zq_pos. destruct (Hm e) as [K _]. destruct (mags e); [congruence|cbn [length]; lia]. }
  apply (C95_target cfg orig (l1_achieve mags) (fun e => 1 / Zq (Z.of_nat (length (mags e))))%Q m0 acts); auto.
  - intros e f. unfold l1_achieve. destruct (Qltb 0 f && Qltb f 1) eqn:K; [|lra]. apply andb_prop in K. destruct K as [K1 K2]. apply Qltb_lt in K1. apply Qltb_lt in K2.
    destruct (C95_l1_pruner (mags e) f (proj1 (Hm e)) (conj K1 K2)) as (q & -> & R & _ & X). split; [apply R|]. rewrite (X (proj2 (Hm e))). specialize (Np e). apply Qlt_shift_div_r; [exact Np|]. rewrite Qmult_1_l.
    eapply Qle_lt_trans; [apply Qfloor_le|]. rewrite <- (Qmult_1_l (Zq (Z.of_nat (length (mags e))))) at 2. apply Qmult_lt_compat_r; lra.
  - intro e. specialize (Np e). apply Qle_shift_div_l; lra.
  - intros e f Hf. unfold l1_achieve. replace (Qltb 0 f && Qltb f 1) with true. 2:{ symmetry. apply andb_true_intro. split; apply Qltb_lt; lra. }
    destruct (C95_l1_pruner (mags e) f (proj1 (Hm e)) Hf) as (q & -> & _ & X & _). lra.
Qed.

Lemma chain3_coverable : coverable chain3.
Proof.
  constructor.
  - intros p j l E H. cbn in E. injection E as <-. destruct j as [|[|[|j]]]; cbn in H; try (injection H as <-); [left; cbn; tauto|left; cbn; tauto| |destruct j; discriminate].
    right. split; [lia|]. split; [right; cbn; tauto|]. eexists. split; [reflexivity|]. cbn. intuition discriminate.
  - intros k p q j l E1 E2 H A. destruct k as [|[|k]]; cbn in E1, E2; try discriminate; try (destruct k; discriminate). injection E1 as <-. injection E2 as <-.
    destruct j as [|[|[|j]]]; cbn in H; try (injection H as <-); [destruct A as (K & _); lia|left; cbn; tauto|left; cbn; tauto|destruct j; discriminate].
  - intros k p j Hk E A. cbn in Hk. injection Hk as ->. cbn in E. injection E as <-. destruct A as (K & _ & l & H & N). destruct j as [|[|[|j]]]; try lia; [|destruct j; discriminate]. cbn in H. injection H as <-. apply N. cbn. tauto.
Qed.
(** the agent asks for nothing, and the constraint is met all the same *)
Example C95_chain : exists e, episode (mkAcfg AClip 0 (9 # 10) true (1 # 2)) 350 (fun _ f => f) chain3 [0; 0]%Q = Ok e /\ Qeq_bool (m_macs (e_meta e)) 175 = true.
Proof. vm_compute. eexists. split; reflexivity. Qed.

(** The rounding of the pruner (its structures are rounded down) makes the target missed, even on this chain. *)
Theorem C95_rounding_refuted : exists e, episode (mkAcfg AClip 0 (9 # 10) true (1 # 3)) 350 (fun _ f => Zq (Qfloor (f * 4)) / 4)%Q chain3 [0; 0]%Q = Ok e /\
  ((1 # 3) * 350 < m_macs (e_meta e))%Q.
Proof. eexists. split; [vm_compute; reflexivity|vm_compute; reflexivity]. Qed.
(** A layer that depends on an earlier layer but comes after the last one pruned is counted on to lose what it no longer
    can: the target is missed without any rounding. *)
Theorem C95_uncovered_refuted : exists m0 e, sound m0 /\ (m_macs m0 == 400)%Q /\ episode (mkAcfg AClip 0 (9 # 10) true (1 # 2)) 400 (fun _ f => f) m0 [0; 0]%Q = Ok e /\
  ((1 # 2) * 400 < m_macs (e_meta e))%Q.
Proof.
  exists (mkMeta [mkAl "a" 100 1 (Some ["d"]); mkAl "b" 100 1 (Some ["c"]); mkAl "c" 100 1 None; mkAl "d" 100 1 None] [0; 1]%nat [3; 2]%nat 400 4).
  eexists. split; [|split; [reflexivity|split; vm_compute; reflexivity]].
  constructor; cbn [m_layers m_pruned m_macs m_nnz map al_name].
  - repeat constructor; cbn; intuition discriminate.
  - repeat constructor.
  - discriminate.
  - intros i [<-|[<-|[]]]; cbn [nth_error]; eexists _, _; (split; [reflexivity|]; split; [reflexivity|]; cbn [al_name]; split; [repeat constructor; cbn; intuition discriminate|intros x [<-|[]]; cbn; tauto]).
  - repeat constructor.
  - reflexivity.
  - reflexivity.
Qed.

(** * C96 *)
Lemma qmax_l a b : (a <= qmax a b)%Q /\ (b <= qmax a b)%Q /\ (qmax a b = a \/ qmax a b = b).
Proof. unfold qmax. destruct (Qle_bool a b) eqn:E; [apply Qle_bool_iff in E|apply not_true_iff_false in E; rewrite Qle_bool_iff in E]; repeat split; auto; lra. Qed.
Lemma qmin_l a b : (qmin a b <= a)%Q /\ (qmin a b <= b)%Q /\ (qmin a b = a \/ qmin a b = b).
Proof. unfold qmin. destruct (Qle_bool a b) eqn:E; [apply Qle_bool_iff in E|apply not_true_iff_false in E; rewrite Qle_bool_iff in E]; repeat split; auto; lra. Qed.
(** Actions: a clipping algorithm keeps an action within the range as it is, and moves another to the nearest end. *)
Theorem C96_clipped : forall c a, c_algo c = AClip -> (c_low c <= c_high c)%Q ->
  (c_low c <= map_action c a <= c_high c)%Q /\ ((c_low c <= a <= c_high c)%Q -> (map_action c a == a)%Q) /\
  ((a <= c_low c)%Q -> (map_action c a == c_low c)%Q) /\ ((c_high c <= a)%Q -> (map_action c a == c_high c)%Q).
Proof.
  intros c a E H. unfold map_action. rewrite E. destruct (qmax_l a (c_low c)) as (A1 & A2 & A3). destruct (qmin_l (qmax a (c_low c)) (c_high c)) as (B1 & B2 & B3).
  repeat split; try lra; intros; destruct A3 as [A3|A3], B3 as [B3|B3]; rewrite A3 in *; rewrite B3 in *; lra.
Qed.
(** The continuous PPO maps [-3, 3] onto the range, increasing, and anything else outside it. *)
Theorem C96_ppo : forall c a, c_algo c = APpo -> (c_low c < c_high c)%Q ->
  ((c_low c <= map_action c a <= c_high c)%Q <-> (-(3) <= a <= 3)%Q) /\ (a == -(3) -> map_action c a == c_low c)%Q /\ (a == 3 -> map_action c a == c_high c)%Q /\
  (forall b, a < b -> map_action c a < map_action c b)%Q.
Proof.
  intros c a E H. unfold map_action, adjust_ppo_output. rewrite E. set (w := (c_high c - c_low c)%Q).
  assert (K : forall a, (a * (w / (3 - -(3))) + (w / 2 + c_low c) == c_low c + (a + 3) * (w / 6))%Q) by (intro; field).
  assert (W : (0 < w / 6)%Q) by (unfold w; apply Qlt_shift_div_l; [reflexivity|lra]).
  assert (W6 : (c_high c == c_low c + 6 * (w / 6))%Q) by (unfold w; field).
  split; [|split; [|split]].
  - rewrite K, W6. split.
    + intros [A B]. split.
      * destruct (Qlt_le_dec a (-(3))) as [L|L]; auto. assert ((a + 3) * (w / 6) < 0 * (w / 6))%Q by (apply Qmult_lt_compat_r; lra). lra.
      * destruct (Qlt_le_dec 3 a) as [L|L]; auto. assert (6 * (w / 6) < (a + 3) * (w / 6))%Q by (apply Qmult_lt_compat_r; lra). lra.
    + intros [A B]. assert (0 * (w / 6) <= (a + 3) * (w / 6))%Q by (apply Qmult_le_compat_r; lra). assert ((a + 3) * (w / 6) <= 6 * (w / 6))%Q by (apply Qmult_le_compat_r; lra). lra.
  - intro Ea. rewrite K, Ea. ring.
  - intro Ea. rewrite K, Ea, W6. ring.
  - intros b Hb. rewrite !K. assert ((a + 3) * (w / 6) < (b + 3) * (w / 6))%Q by (apply Qmult_lt_compat_r; lra). lra.
Qed.
(** ... so an action outside [-3, 3] asks for more than the range, even for more than everything. *)
Theorem C96_ppo_out_of_range_refuted : exists c a, c_algo c = APpo /\ (0 <= c_low c < c_high c)%Q /\ (c_high c < 1)%Q /\ (1 < map_action c a)%Q.
Proof. exists (mkAcfg APpo 0 (8 # 10) false (1 # 2)), 5%Q. repeat split; try reflexivity; discriminate. Qed.
(** The discrete algorithm asks for the tenths, the range notwithstanding. *)
Theorem C96_discrete : forall c k, c_algo c = ADiscrete -> (0 <= k <= 9)%Z -> (map_action c (Zq k) == Zq k / 10)%Q /\ (0 <= map_action c (Zq k) <= 9 # 10)%Q.
Proof.
  intros c k E H. unfold map_action. rewrite E. split; [reflexivity|]. assert (0 <= Zq k)%Q by (apply Zq_nonneg; lia). assert (Zq k <= Zq 9)%Q by (apply (proj1 (Zq_le _ _)); lia). change (Zq 9) with 9%Q in *.
  split; [apply Qle_shift_div_l; [reflexivity|lra]|apply Qle_shift_div_r; [reflexivity|lra]].
Qed.
(** The constrained action: at least the agent's (up to one), at least the fraction the layer must lose for the rest to
    suffice, never more than one, and no more than needed for either. *)
Theorem C96_constrained : forall c orig e a b, clamp_action c orig e a = Ok b ->
  exists l lm rest other, get_pruned_layer (e_meta e) (e_layer e) = Ok l /\ layer_macs (e_meta e) l = Ok lm /\ (0 < lm)%Q /\ rest_macs_raw e = Ok (rest, other) /\
    let need := (((1 - c_density c) * orig - e_removed e - rest * qmin (9 # 10) (c_high c)) / lm)%Q in
    (b <= 1)%Q /\ ((b == 1)%Q \/ (a <= b)%Q /\ (need <= b)%Q) /\ ((b == 1)%Q \/ (b == a)%Q \/ (b == need)%Q).
Proof.
  intros c orig e a b H. unfold clamp_action in H. destruct (get_pruned_layer (e_meta e) (e_layer e)) as [l|] eqn:El; [|discriminate]. cbn [bind] in H.
  destruct (layer_macs (e_meta e) l) as [lm|] eqn:Em; [|discriminate]. cbn [bind] in H. destruct (Qltb 0 lm) eqn:Ep; cbn [negb] in H; [|discriminate]. apply Qltb_lt in Ep.
  destruct (rest_macs_raw e) as [(rest & other)|] eqn:Er; [|discriminate]. cbn [bind fst] in H. destruct (Qeq_bool _ _) in H; cbn [negb] in H; [|discriminate]. injection H as <-.
  exists l, lm, rest, other. repeat (split; [assumption || reflexivity|]). cbv zeta.
  set (n1 := (((1 - c_density c) * orig - (e_removed e + rest * qmin (9 # 10) (c_high c))) / lm)%Q). set (n2 := (((1 - c_density c) * orig - e_removed e - rest * qmin (9 # 10) (c_high c)) / lm)%Q).
  assert (K : (n1 == n2)%Q) by (unfold n1, n2; field; lra).
  destruct (qmax_l a n1) as (A1 & A2 & A3). destruct (qmin_l 1 (qmax a n1)) as (B1 & B2 & B3). split; [exact B1|].
  destruct B3 as [B3|B3]; rewrite B3 in *.
  - split; left; reflexivity.
  - split; [right; split; [exact A1|]; rewrite <- K; exact A2|]. right. destruct A3 as [A3|A3]; rewrite A3; [left; reflexivity|right; exact K].
Qed.

(** Rewards.  Every network within the budget is rewarded more than every one outside; within, the more accurate the more. *)
Theorem C96_experimental : forall orig density t1 t2 macs1 macs2, (0 < orig)%Q -> (0 <= t1)%Q -> (0 <= macs2)%Q ->
  (macs1 <= (density + (2 # 1000)) * orig)%Q -> ((density + (2 # 1000)) * orig < macs2)%Q ->
  (reward_experimental orig density t2 macs2 < -2 /\ 1 <= reward_experimental orig density t1 macs1)%Q /\
  ((t2 < t1)%Q -> (reward_experimental orig density t2 macs1 < reward_experimental orig density t1 macs1)%Q).
Proof.
  intros orig density t1 t2 macs1 macs2 Ho Ht Hm H1 H2. unfold reward_experimental.
  assert (A : Qltb (density + (2 # 1000)) (macs1 / orig) = false) by (apply Qltb_ge; apply Qle_shift_div_r; auto).
  assert (B : Qltb (density + (2 # 1000)) (macs2 / orig) = true) by (apply Qltb_lt; apply Qlt_shift_div_l; auto).
  rewrite A, B. assert (0 <= macs2 / orig)%Q by (apply Qle_shift_div_l; lra). assert (0 <= t1 / 100)%Q by (apply Qle_shift_div_l; [reflexivity|lra]).
  split; [split; lra|]. intro. assert (t2 / 100 < t1 / 100)%Q; [|lra]. apply Qmult_lt_compat_r; [reflexivity|auto].
Qed.
Theorem C96_punish : forall orig density top1 macs, (0 < orig)%Q -> (0 <= top1)%Q ->
  ((macs <= density * orig)%Q -> (reward_punish orig density top1 macs == top1 / 100)%Q /\ (0 <= reward_punish orig density top1 macs)%Q) /\
  ((density * orig < macs)%Q -> (reward_punish orig density top1 macs < 0)%Q /\ forall macs' top1', (macs < macs')%Q -> (reward_punish orig density top1' macs' < reward_punish orig density top1 macs)%Q).
Proof.
  intros orig density top1 macs Ho Ht. unfold reward_punish. assert (0 <= top1 / 100)%Q by (apply Qle_shift_div_l; [reflexivity|lra]). split; intro H0.
  - assert (E : Qle_bool (macs / orig) density = true) by (apply Qle_bool_iff; apply Qle_shift_div_r; auto). rewrite E. split; [reflexivity|auto].
  - assert (L : forall m, (macs <= m -> density < m / orig)%Q) by (intros; apply Qlt_shift_div_l; [auto|lra]).
    assert (E : forall m, (macs <= m)%Q -> Qle_bool (m / orig) density = false). { intros m Hm. apply not_true_is_false. rewrite Qle_bool_iff. specialize (L m Hm). lra. }
    rewrite (E macs) by lra. split; [specialize (L macs); lra|]. intros m' t' Hm. rewrite E by lra. assert (macs / orig < m' / orig)%Q; [|lra]. apply Qmult_lt_compat_r; [apply Qinv_lt_0_compat; auto|auto].
Qed.
(** The harmonic mean rewards cost: at the same accuracy the more expensive network gets more. *)
Theorem C96_harmonic : forall orig top1 m1 m2, (0 < orig)%Q -> (0 < top1)%Q -> (0 <= m1)%Q -> (m1 < m2)%Q ->
  exists r1 r2, reward_harmonic orig top1 m1 = Ok r1 /\ reward_harmonic orig top1 m2 = Ok r2 /\ (r1 < r2)%Q.
Proof.
  intros orig top1 m1 m2 Ho Ht H1 H2. unfold reward_harmonic.
  assert (N1 : (0 <= m1 / orig)%Q) by (apply Qle_shift_div_l; lra). assert (N2 : (m1 / orig < m2 / orig)%Q) by (apply Qmult_lt_compat_r; [apply Qinv_lt_0_compat; auto|auto]).
  assert (T : (0 < top1 / 100)%Q) by (apply Qlt_shift_div_l; [reflexivity|lra]).
  set (n1 := (m1 / orig)%Q) in *. set (n2 := (m2 / orig)%Q) in *. 
  destruct (Qeq_bool (1 * n1 + top1 / 100) 0) eqn:E1; [apply Qeq_bool_iff in E1; lra|]. destruct (Qeq_bool (1 * n2 + top1 / 100) 0) eqn:E2; [apply Qeq_bool_iff in E2; lra|].
  eexists _, _. split; [reflexivity|]. split; [reflexivity|].
  assert (E : forall n, (0 <= n -> (1 + 1) * top1 / 100 * n / (1 * n + top1 / 100) == 2 * (top1 / 100) - 2 * (top1 / 100) * (top1 / 100) / (n + top1 / 100))%Q) by (intros; field; lra).
  rewrite (E n1), (E n2) by lra. assert (K : (2 * (top1 / 100) * (top1 / 100) / (n2 + top1 / 100) < 2 * (top1 / 100) * (top1 / 100) / (n1 + top1 / 100))%Q); [|lra].
  apply Qlt_shift_div_r; [lra|]. set (t := (top1 / 100)%Q) in *. setoid_replace (2 * t * t / (n1 + t) * (n2 + t))%Q with (2 * t * t * ((n2 + t) / (n1 + t)))%Q by (field; lra).
  assert (G : (1 < (n2 + t) / (n1 + t))%Q) by (apply Qlt_shift_div_l; lra). assert (P : (0 < 2 * t * t)%Q). { assert (0 * t < 2 * t * t)%Q by (apply Qmult_lt_compat_r; lra). lra. }
  rewrite <- (Qmult_1_r (2 * t * t)) at 1. rewrite !(Qmult_comm (2 * t * t)). apply Qmult_lt_compat_r; auto.
Qed.

(** Ends of episodes: they are numbered in order; the best reward is the maximum; an episode is the best when its reward
    exceeds all before; it and, on request, all others get a checkpoint file. *)
Lemma session_snoc sa rs r : session sa (rs ++ [r]) = finalize sa (session sa rs) r.
Proof. unfold session. rewrite fold_left_app. reflexivity. Qed.
Theorem C96_session : forall save_all rs, let s := session save_all rs in
  s_episode s = length rs /\
  (match s_best s with None => rs = [] | Some b => In b rs /\ forall x, In x rs -> (x <= b)%Q end) /\
  map (fun r => fst (fst r)) (s_rows s) = seq 0 (length rs) /\ map (fun r => snd (fst r)) (s_rows s) = rs /\
  (forall i x b, In (i, x, b) (s_rows s) -> (b = true <-> new_best rs i)) /\
  s_files s = map (fun r => (fst (fst r), snd r)) (filter (fun r => snd r || save_all) (s_rows s)).
Proof.
  intros sa rs. cbv zeta. induction rs as [|r rs IH] using rev_ind.
  - cbn. repeat split; auto; intros; contradiction.
  - destruct IH as (I1 & I2 & I3 & I4 & I5 & I6). rewrite session_snoc. unfold finalize. cbn [s_best s_episode s_files s_rows]. set (s := session sa rs) in *.
    set (best := match s_best s with Some b => Qltb b r | None => true end).
    assert (HB : best = true <-> forall x, In x rs -> (x < r)%Q).
    { unfold best. destruct (s_best s) as [b|].
      - rewrite Qltb_lt. destruct I2 as [J1 J2]. split; [intros K x Hx; specialize (J2 x Hx); lra|intro K; apply K; auto].
      - subst rs. split; [intros _ x []|auto]. }
    rewrite app_length. cbn [length]. split; [lia|]. split; [|split; [|split; [|split]]].
    + destruct best eqn:Eb.
      * split; [apply in_or_app; right; left; auto|]. intros x Hx. apply in_app_or in Hx. destruct Hx as [Hx|[<-|[]]]; [|lra]. pose proof (proj1 HB eq_refl x Hx). lra.
      * unfold best in Eb. destruct (s_best s) as [b|] eqn:E; [|discriminate]. apply Qltb_ge in Eb. destruct I2 as [J1 J2]. split; [apply in_or_app; auto|]. intros x Hx. apply in_app_or in Hx. destruct Hx as [Hx|[<-|[]]]; [auto|exact Eb].
    + rewrite map_app, I3. cbn [map fst]. rewrite I1, seq_app. reflexivity.
    + rewrite map_app, I4. reflexivity.
    + intros i x b Hin. apply in_app_or in Hin. destruct Hin as [Hin|[Hin|[]]].
      * rewrite (I5 i x b Hin). assert (Hi : (i < length rs)%nat). { apply (in_map (fun r => fst (fst r))) in Hin. rewrite I3 in Hin. apply in_seq in Hin. cbn [fst] in Hin. lia. }
        unfold new_best. split; intros (y & Hy & K); exists y.
        -- split; [rewrite nth_error_app1; auto|]. intros j z Hj Hz. rewrite nth_error_app1 in Hz by lia. eauto.
        -- rewrite nth_error_app1 in Hy by auto. split; auto. intros j z Hj Hz. apply (K j z Hj). rewrite nth_error_app1; auto. lia.
      * injection Hin as <- <- <-. rewrite HB, I1. unfold new_best. split.
        -- intro K. exists r. split; [rewrite nth_error_app2, Nat.sub_diag by lia; reflexivity|]. intros j y Hj Hy. rewrite nth_error_app1 in Hy by auto. apply K. eapply nth_error_In; eauto.
        -- intros (y & Hy & K) x Hx. rewrite nth_error_app2, Nat.sub_diag in Hy by lia. injection Hy as <-. apply In_nth_error in Hx. destruct Hx as (j & Hj). apply (K j x); [apply nth_error_Some; congruence|]. rewrite nth_error_app1; auto. apply nth_error_Some. congruence.
    + rewrite filter_app, map_app, <- I6. cbn [filter map snd fst]. destruct (best || sa); [reflexivity|rewrite app_nil_r; reflexivity].
Qed.
Example C96_session_ex : s_files (session false [1; 3; 2; 3; 5]%Q) = [(0, true); (1, true); (4, true)]%nat /\ s_best (session false [1; 3; 2; 3; 5]%Q) = Some 5%Q.
Proof. split; reflexivity. Qed.

(** Features of the observations: a feature that varies over the layers is mapped onto [0, 1], in order, smallest to 0 and largest
    to 1; a constant one is passed on as it is, whatever its size. *)
Lemma fold_min_spec r : forall x, let m := fold_left (fun a b => if Qltb b a then b else a) r x in In m (x :: r) /\ forall y, In y (x :: r) -> (m <= y)%Q.
Proof.
  induction r as [|z r IH]; intro x; cbn [fold_left].
  - split; [left; auto|]. intros y [<-|[]]. lra.
  - destruct (IH (if Qltb z x then z else x)) as (A & B). cbv zeta in *. set (m := fold_left _ r _) in *. destruct (Qltb z x) eqn:E.
    + apply Qltb_lt in E. split; [destruct A as [<-|A]; [right; left; auto|right; right; auto]|]. intros y [<-|[<-|Hy]]; [|apply B; left; auto|apply B; right; auto]. specialize (B z (or_introl eq_refl)). lra.
    + apply Qltb_ge in E. split; [destruct A as [<-|A]; [left; auto|right; right; auto]|]. intros y [<-|[<-|Hy]]; [apply B; left; auto| |apply B; right; auto]. specialize (B x (or_introl eq_refl)). lra.
Qed.
Lemma fold_max_spec r : forall x, let m := fold_left (fun a b => if Qltb a b then b else a) r x in In m (x :: r) /\ forall y, In y (x :: r) -> (y <= m)%Q.
Proof.
  induction r as [|z r IH]; intro x; cbn [fold_left].
  - split; [left; auto|]. intros y [<-|[]]. lra.
  - destruct (IH (if Qltb x z then z else x)) as (A & B). cbv zeta in *. set (m := fold_left _ r _) in *. destruct (Qltb x z) eqn:E.
    + apply Qltb_lt in E. split; [destruct A as [<-|A]; [right; left; auto|right; right; auto]|]. intros y [<-|[<-|Hy]]; [|apply B; left; auto|apply B; right; auto]. specialize (B z (or_introl eq_refl)). lra.
    + apply Qltb_ge in E. split; [destruct A as [<-|A]; [left; auto|right; right; auto]|]. intros y [<-|[<-|Hy]]; [apply B; left; auto| |apply B; right; auto]. specialize (B x (or_introl eq_refl)). lra.
Qed.
Theorem C96_features : forall v, v <> [] -> exists lo hi, In lo v /\ In hi v /\ (forall x, In x v -> lo <= x <= hi)%Q /\
  ((lo == hi)%Q -> normalize_feature v = v) /\
  ((lo < hi)%Q -> normalize_feature v = map (fun x => (x - lo) / (hi - lo))%Q v /\ Forall (fun y => 0 <= y <= 1)%Q (normalize_feature v) /\
     ((lo - lo) / (hi - lo) == 0)%Q /\ ((hi - lo) / (hi - lo) == 1)%Q).
Proof.
  intros [|x r] H; [congruence|]. clear H. unfold normalize_feature. destruct (fold_min_spec r x) as (A1 & A2). destruct (fold_max_spec r x) as (B1 & B2). cbv zeta in *.
  set (lo := fold_left (fun a b => if Qltb b a then b else a) r x) in *. set (hi := fold_left (fun a b => if Qltb a b then b else a) r x) in *. exists lo, hi.
  split; [exact A1|]. split; [exact B1|]. split; [intros y Hy; split; auto|]. split.
  - intro E. replace (Qltb 0 (hi - lo)) with false; [reflexivity|]. symmetry. apply Qltb_ge. lra.
  - intro E. replace (Qltb 0 (hi - lo)) with true by (symmetry; apply Qltb_lt; lra). split; [reflexivity|]. split; [|split; field; lra]. apply Forall_map. apply Forall_forall. intros y Hy. specialize (A2 y Hy). specialize (B2 y Hy).
    split; [apply Qle_shift_div_l; lra|apply Qle_shift_div_r; lra].
Qed.
Example C96_features_ex : Forall2 Qeq (normalize_feature [10; 30; 20]%Q) [0; 1; 1 # 2]%Q /\ normalize_feature [1000000; 1000000]%Q = [1000000; 1000000]%Q.
Proof. split; [repeat constructor|reflexivity]. Qed.
(** The fields MACs and Weights of an observation hold each other's value. *)
Example C96_swapped_fields : forall i, nth i obs_fields "" = "MACs" -> nth i obs_values "" = "Weights".
Proof. intros i H. do 13 (destruct i as [|i]; [cbn in H |- *; congruence|]). destruct i; discriminate. Qed.

Print Assumptions C94_episode.
Print Assumptions C94_step.
Print Assumptions C94_prev_action_late.
Print Assumptions C94_real_cost.
Print Assumptions C94_dependencies.
Print Assumptions C94_dependencies_found.
Print Assumptions C94_network_details.
Print Assumptions C94_refused.
Print Assumptions C94_no_dependents_refuted.
Print Assumptions C94_shared_channels_refuted.
Print Assumptions C94_duplicate_dependents_refuted.
Print Assumptions C94_grouped.
Print Assumptions C94_single_channel_refuted.
Print Assumptions C94_float_assertion_refuted.
Print Assumptions C95_target.
Print Assumptions C95_target_exact.
Print Assumptions C95_l1_pruner.
Print Assumptions C95_ties_refuted.
Print Assumptions C95_target_l1.
Print Assumptions C95_rounding_refuted.
Print Assumptions C95_uncovered_refuted.
Print Assumptions C96_clipped.
Print Assumptions C96_ppo.
Print Assumptions C96_ppo_out_of_range_refuted.
Print Assumptions C96_discrete.
Print Assumptions C96_constrained.
Print Assumptions C96_experimental.
Print Assumptions C96_punish.
Print Assumptions C96_harmonic.
Print Assumptions C96_session.
Print Assumptions C96_features.
