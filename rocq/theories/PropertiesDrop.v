(** C74: convolutions that drop filters at random. *)
From Coq Require Import String List ZArith QArith Qabs Bool Arith Lia Lqa.
From Verif Require Import Base Lists SchedModel PrunerModel StructModel StructSpec StructProofs PropertiesStruct RegModel RegSpec.
Import ListNotations.
Open Scope list_scope.
Open Scope Q_scope.

Lemma qsum_tab_ext n f g : (forall i, (i < n)%nat -> f i == g i) -> qsum (tab n f) == qsum (tab n g).
Proof.
  intro H. unfold tab. assert (K : forall l, (forall i, In i l -> f i == g i) -> qsum (map f l) == qsum (map g l)).
  { induction l as [|a l IH]; intro E; simpl; [reflexivity|]. rewrite (E a (or_introl eq_refl)), IH by (intros; apply E; right; auto). reflexivity. }
  apply K. intros i I. apply in_seq in I. apply H. lia.
Qed.
Lemma qsum_tab_scale n f k : qsum (tab n (fun i => k * f i)) == k * qsum (tab n f).
Proof. unfold tab. induction (seq 0 n) as [|a l IH]; simpl; [ring|]. rewrite IH. ring. Qed.
Lemma l1_tab n f : l1_norm (tab n f) = qsum (tab n (fun i => Qabs (f i))).
Proof. unfold l1_norm, tab. rewrite map_map. reflexivity. Qed.
Lemma l1_scale n f g k : 0 <= k -> (forall i, (i < n)%nat -> f i == k * g i) -> l1_norm (tab n f) == k * l1_norm (tab n g).
Proof.
  intros Hk E. rewrite !l1_tab, <- qsum_tab_scale. apply qsum_tab_ext. intros i Hi. rewrite (Qabs_wd _ _ (E i Hi)), Qabs_Qmult, (Qabs_pos k) by auto. reflexivity.
Qed.
Lemma qsum_nonneg l : (forall x, In x l -> 0 <= x) -> 0 <= qsum l.
Proof. induction l as [|a l IH]; intro H; simpl; [lra|]. pose proof (H a (or_introl eq_refl)). assert (0 <= qsum l) by (apply IH; intros; apply H; right; auto). lra. Qed.
Lemma l1_nonneg l : 0 <= l1_norm l.
Proof. apply qsum_nonneg. intros x I. apply in_map_iff in I as (y & <- & _). apply Qabs_nonneg. Qed.

Lemma view_first_ok (d : list Q) n g : (0 < n)%nat -> length d = (n * g)%nat -> view_first n d = Ok (tab n (fun i => tab g (fun j => nth (i * g + j) d 0))).
Proof. intros Hn Hl. unfold view_first. destruct (Nat.eqb_spec n 0); [lia|]. rewrite Hl, Nat.mul_comm, Nat.mod_mul, Nat.div_mul by lia. reflexivity. Qed.
Lemma map_tab {A B} (g : A -> B) n f : map g (tab n f) = tab n (fun i => g (f i)).
Proof. unfold tab. rewrite map_map. reflexivity. Qed.
Lemma qmax_spec a b : a <= qmax a b /\ b <= qmax a b /\ (qmax a b = a \/ qmax a b = b).
Proof. unfold qmax. destruct (Qle_bool a b) eqn:E; [apply Qle_bool_iff in E; split; [auto|split; [lra|auto]]|]. assert (~ a <= b) by (intro L; apply Qle_bool_iff in L; congruence). split; [lra|]. split; [lra|auto]. Qed.
Lemma qmax_comp a b c : b == c -> qmax a b == qmax a c.
Proof.
  intro E. unfold qmax. assert (K : Qle_bool a b = Qle_bool a c).
  { destruct (Qle_bool a b) eqn:X; symmetry; [apply Qle_bool_iff in X; apply Qle_bool_iff; lra|]. destruct (Qle_bool a c) eqn:Y; auto. apply Qle_bool_iff in Y. assert (L : a <= b) by lra. apply Qle_bool_iff in L. congruence. }
  rewrite K. destruct (Qle_bool a c); auto. reflexivity.
Qed.

(** A forward pass that masks: filter f is multiplied by its draw and divided by the share of the absolute weights that is kept,
    at least 1/5; if the draw keeps at least that much, the sum of absolute values is that of all weights. *)
Theorem C74_masked_weights :
  forall t F C H W sample, conv_shape t F C H W -> length sample = F -> (forall x, In x sample -> x = 0 \/ x = 1) ->
  exists w factor, mask_forward (mkMc true 1 t) sample = Ok (mkMc true 16 t, w) /\ conv_shape w F C H W /\
    1 # 5 <= factor /\ (mass t F C H W == 0 -> factor == 1 # 5) /\
    (kept t F C H W sample / mass t F C H W <= 1 # 5 -> factor == 1 # 5) /\
    (1 # 5 <= kept t F C H W sample / mass t F C H W -> factor == kept t F C H W sample / mass t F C H W) /\
    (forall f c h x, (f < F)%nat -> (c < C)%nat -> (h < H)%nat -> (x < W)%nat -> at4 w C H W f c h x == nth f sample 0 * at4 t C H W f c h x / factor) /\
    (1 # 5 <= kept t F C H W sample / mass t F C H W -> mass w F C H W == mass t F C H W).
Proof.
  intros t F C H W sample Hc Hs H01. pose proof Hc as (Hsh & Hok & Hp). pose proof (data_len t F C H W Hsh Hok) as Hl. set (r := (C * (H * W))%nat) in *. assert (Hr : (0 < r)%nat) by (unfold r; nia).
  assert (Nu : numel (skipn 1 (nd_shape t)) = r) by (rewrite Hsh; simpl; unfold r; ring).
  unfold mask_forward. cbn [mc_training mc_freq mc_weight Z.sub Z.opp Z.add Z.pos_sub Z.eqb]. unfold size. rewrite Hsh. cbn [nth_error bind]. rewrite <- Hsh. rewrite (view_first_ok _ F r) by (auto; lia). cbn [bind]. rewrite Nu, expand2_ok by auto. cbn [bind].
  set (mask := transp r F (tab (r * F) (fun k => nth (k mod F) sample 0))).
  assert (Lm : length mask = (F * r)%nat) by apply transp_length.
  assert (Mn : forall f k, (f < F)%nat -> (k < r)%nat -> nth (f * r + k) mask 0 = nth f sample 0).
  { intros f k Hf Hk. unfold mask. rewrite transp_nth by auto. rewrite expand2_nth by auto. reflexivity. }
  set (masked := map2 Qmult (nd_data t) mask).
  assert (Ll : length masked = (F * r)%nat) by (unfold masked; rewrite map2_length, Hl, Lm; apply Nat.min_id).
  assert (An : forall f k, (f < F)%nat -> (k < r)%nat -> nth (f * r + k) masked 0 = nth (f * r + k) (nd_data t) 0 * nth f sample 0).
  { intros f k Hf Hk. unfold masked. rewrite (map2_nth _ _ _ _ 0 0 0) by (rewrite ?Hl, ?Lm; apply idx_lt; auto). rewrite Mn by auto. reflexivity. }
  rewrite (view_first_ok masked F r) by (auto; lia). cbn [bind].
  assert (Sn : forall f, 0 <= nth f sample 0).
  { intro f. destruct (Nat.lt_ge_cases f (length sample)) as [L|L]; [|rewrite nth_overflow by auto; lra]. destruct (H01 _ (nth_In sample 0 L)) as [E|E]; rewrite E; lra. }
  unfold filter_l1. rewrite !map_tab.
  assert (E1 : qsum (tab F (fun i => l1_norm (tab r (fun j => nth (i * r + j) (nd_data t) 0)))) == mass t F C H W).
  { unfold mass. change (fold_right Qplus 0) with qsum. apply qsum_tab_ext. intros f Hf. rewrite filter_tab. reflexivity. }
  assert (E2 : qsum (tab F (fun i => l1_norm (tab r (fun j => nth (i * r + j) masked 0)))) == kept t F C H W sample).
  { unfold kept. change (fold_right Qplus 0) with qsum. apply qsum_tab_ext. intros f Hf. rewrite filter_tab. fold r. rewrite (l1_scale r _ (fun j => nth (f * r + j) (nd_data t) 0) (nth f sample 0)); [reflexivity|apply Sn|]. intros k Hk. rewrite An by auto. ring. }
  set (l1 := qsum (tab F (fun i => l1_norm (tab r (fun j => nth (i * r + j) (nd_data t) 0))))) in *. set (lm := qsum (tab F (fun i => l1_norm (tab r (fun j => nth (i * r + j) masked 0))))) in *.
  set (factor := if Qeq_bool l1 0 then 1 # 5 else qmax (1 # 5) (lm / l1)).
  assert (Fm : factor == qmax (1 # 5) (kept t F C H W sample / mass t F C H W)).
  { unfold factor. destruct (Qeq_bool l1 0) eqn:Z.
    - apply Qeq_bool_iff in Z. transitivity (qmax (1 # 5) 0); [reflexivity|]. apply qmax_comp. rewrite <- E1, Z. unfold Qdiv. setoid_replace (/ 0) with 0 by reflexivity. ring.
    - apply qmax_comp. rewrite E1, E2. reflexivity. }
  destruct (qmax_spec (1 # 5) (kept t F C H W sample / mass t F C H W)) as (M1 & M2 & M3).
  assert (Fp : 1 # 5 <= factor) by (rewrite Fm; auto).
  assert (Cw : conv_shape (mkND (nd_shape t) (map (fun x => x / factor) masked)) F C H W).
  { split; [exact Hsh|]. split; auto. unfold nd_ok. cbn [nd_data nd_shape]. rewrite map_length, Ll, Hsh. simpl. unfold r. ring. }
  assert (Wn : forall f k, (f < F)%nat -> (k < r)%nat -> nth (f * r + k) (map (fun x => x / factor) masked) 0 == nth f sample 0 / factor * nth (f * r + k) (nd_data t) 0).
  { intros f k Hf Hk. rewrite nth_indep with (d' := 0 / factor) by (rewrite map_length, Ll; apply idx_lt; auto). rewrite (map_nth (fun x => x / factor)). rewrite An by auto. unfold Qdiv. ring. }
  exists (mkND (nd_shape t) (map (fun x => x / factor) masked)), factor. split; [reflexivity|]. split; auto. split; auto. split; [|split; [|split; [|split]]].
  - intro Z. rewrite Fm. transitivity (qmax (1 # 5) 0); [|reflexivity]. apply qmax_comp. rewrite Z. unfold Qdiv. setoid_replace (/ 0) with 0 by reflexivity. ring.
  - intro L. rewrite Fm. destruct M3 as [-> | E]; [reflexivity|]. rewrite E. rewrite E in M1. lra.
  - intro L. rewrite Fm. destruct M3 as [E | ->]; [|reflexivity]. rewrite E. rewrite E in M2. lra.
  - intros f c h x Hf Hcc Hh Hx. unfold at4. cbn [nd_data]. replace (((f * C + c) * H + h) * W + x)%nat with (f * r + (c * (H * W) + (h * W + x)))%nat by (unfold r; ring).
    assert (Hk : (c * (H * W) + (h * W + x) < r)%nat) by (unfold r; apply idx_lt; auto; apply idx_lt; auto). rewrite Wn by auto. unfold Qdiv. ring.
  - intro L. assert (K : factor == kept t F C H W sample / mass t F C H W) by (rewrite Fm; destruct M3 as [E | ->]; [rewrite E; rewrite E in M2; lra|reflexivity]).
    assert (Wm : mass (mkND (nd_shape t) (map (fun x => x / factor) masked)) F C H W == kept t F C H W sample / factor).
    { transitivity (/ factor * kept t F C H W sample); [|unfold Qdiv; ring]. unfold mass, kept. change (fold_right Qplus 0) with qsum. rewrite <- qsum_tab_scale. apply qsum_tab_ext. intros f Hf. rewrite !filter_tab. fold r. cbn [nd_data].
      rewrite (l1_scale r _ (fun j => nth (f * r + j) (nd_data t) 0) (nth f sample 0 / factor)); [unfold Qdiv; ring|apply Qle_shift_div_l; [lra|]; pose proof (Sn f); lra|]. intros k Hk. apply Wn; auto. }
    rewrite Wm, K. assert (Nm : ~ mass t F C H W == 0) by (intro Z; rewrite Z in L; unfold Qdiv in L; setoid_replace (/ 0) with 0 in L by reflexivity; lra).
    assert (Nk : ~ kept t F C H W sample == 0) by (intro Z; rewrite Z in L; unfold Qdiv in L; lra). field. auto.
Qed.

(** Of a convolution's training passes every 16th masks; the others, and those of evaluation, use the weights as they are. *)
Theorem C74_every_16th :
  forall t h ws, calls (mkMc true 16 t) h = Ok ws ->
  length ws = length h /\
  forall i, (i < length h)%nat ->
    let tr := fst (nth i h (false, [])) in
    (tr = false \/ (trained h (S i) mod 16 <> 0)%nat -> nth i ws (mkND [] []) = t) /\
    (tr = true -> (trained h (S i) mod 16 = 0)%nat -> exists m, mask_forward (mkMc true 1 t) (snd (nth i h (false, []))) = Ok (m, nth i ws (mkND [] []))).
Proof.
  intros t h ws Hr.
  assert (G : forall h n b ws, (n < 16)%nat -> calls (mkMc b (16 - Z.of_nat n) t) h = Ok ws ->
    length ws = length h /\ forall i, (i < length h)%nat ->
      let tr := fst (nth i h (false, [])) in
      (tr = false \/ ((n + trained h (S i)) mod 16 <> 0)%nat -> nth i ws (mkND [] []) = t) /\
      (tr = true -> ((n + trained h (S i)) mod 16 = 0)%nat -> exists m, mask_forward (mkMc true 1 t) (snd (nth i h (false, []))) = Ok (m, nth i ws (mkND [] [])))).
  { clear h ws Hr. induction h as [|[tr sample] h IH]; intros n b ws Hn Hr; cbn [calls] in Hr.
    - injection Hr as <-. split; auto. intros i Hi. simpl in Hi. lia.
    - cbn [mc_freq mc_weight] in Hr. destruct (mask_forward (mkMc tr (16 - Z.of_nat n) t) sample) as [[m w]|e] eqn:M; [|discriminate]. cbn [bind fst snd] in Hr.
      destruct (calls m h) as [l|] eqn:Cl; [|discriminate]. cbn [bind] in Hr. injection Hr as <-.
      assert (Tr : forall i, trained ((tr, sample) :: h) (S i) = ((if tr then 1 else 0) + trained h i)%nat) by (intro i; unfold trained; cbn [firstn filter fst]; destruct tr; reflexivity).
      assert (T0 : trained h 0 = 0%nat) by reflexivity.
      destruct tr.
      + unfold mask_forward in M. cbn [mc_training mc_freq mc_weight] in M. destruct (Z.eqb_spec (16 - Z.of_nat n - 1) 0) as [E|E].
        * assert (n = 15%nat) by lia. subst n.
          assert (Mm : m = mkMc true 16 t).
          { destruct (size t 0) as [n0|]; [|discriminate]. cbn [bind] in M. destruct (view_first n0 (nd_data t)); [|discriminate]. cbn [bind] in M. destruct (expand2 sample (numel (skipn 1 (nd_shape t))) n0); [|discriminate]. cbn [bind] in M.
            destruct (view_first n0 _); [|discriminate]. cbn [bind] in M. injection M as <- _. reflexivity. }
          subst m. destruct (IH 0%nat true l ltac:(lia) Cl) as [L A]. split; [simpl; auto|]. intros [|i] Hi; cbn [nth fst snd].
          -- rewrite Tr, T0. split; [intros [K|K]; [discriminate|exfalso; apply K; reflexivity]|]. intros _ _. exists (mkMc true 16 t). exact M.
          -- rewrite Tr. replace (15 + (1 + trained h (S i)))%nat with (0 + trained h (S i) + 1 * 16)%nat by lia. rewrite Nat.mod_add by lia. apply A. simpl in Hi. lia.
        * replace (16 - Z.of_nat n - 1)%Z with (16 - Z.of_nat (S n))%Z in M by lia. remember (16 - Z.of_nat (S n))%Z as z eqn:Ez. injection M as <- <-. subst z. destruct (IH (S n) true l ltac:(lia) Cl) as [L A]. split; [simpl; auto|]. intros [|i] Hi; cbn [nth fst snd].
          -- rewrite Tr, T0. split; [reflexivity|]. intros _ K. exfalso. rewrite Nat.mod_small in K by lia. lia.
          -- rewrite Tr. replace (n + (1 + trained h (S i)))%nat with (S n + trained h (S i))%nat by lia. apply A. simpl in Hi. lia.
      + unfold mask_forward in M. cbn [mc_training mc_weight] in M. remember (16 - Z.of_nat n)%Z as z eqn:Ez. injection M as <- <-. subst z. destruct (IH n false l Hn Cl) as [L A]. split; [simpl; auto|]. intros [|i] Hi; cbn [nth fst snd].
        -- split; [reflexivity|discriminate].
        -- rewrite Tr. apply A. simpl in Hi. lia. }
  destruct (G h 0%nat true ws ltac:(lia) Hr) as [L A]. split; auto.
Qed.

(** * Replacing the convolutions of a model *)
Section Rep.
Variable init : conv -> list Q * list Q.
Lemma new_conv_like c c' : new_conv init c = Ok c' -> like init c c'.
Proof. unfold new_conv. destruct (cv_bias c) as [[|x [|]]|]; cbn [bind]; try discriminate; intros [= <-]; repeat split. Qed.
Fixpoint mdepth (t : mtree) : nat := let 'Tree _ kids := t in S ((fix go l := match l with [] => 0%nat | (_, m) :: l => Nat.max (mdepth m) (go l) end) kids).
Definition go_ := (fix go (l : list (string * mtree)) : res (list (string * mtree)) := match l with
               | [] => Ok []
               | (n, m) :: l =>
                   do m' <- match m with
                            | Tree (Some c) _ => do c' <- new_conv init c; do _ <- replace_kids init m; Ok (Tree (Some c') [])
                            | Tree None _ => do k <- replace_kids init m; Ok (Tree None k)
                            end;
                   do l <- go l;
                   Ok ((n, m') :: l)
               end).
Lemma replace_kids_eq k kids : replace_kids init (Tree k kids) = go_ kids.
Proof. reflexivity. Qed.
Definition ldepth := (fix go (l : list (string * mtree)) := match l with [] => 0%nat | (_, m) :: l => Nat.max (mdepth m) (go l) end).

Lemma ldepth_cons n m l : ldepth ((n, m) :: l) = Nat.max (mdepth m) (ldepth l). Proof. reflexivity. Qed.
Lemma mdepth_eq k kids : mdepth (Tree k kids) = S (ldepth kids). Proof. reflexivity. Qed.

Lemma replaced_go : forall d l l', (ldepth l <= d)%nat -> go_ l = Ok l' -> replaced init l l'.
Proof.
  induction d as [|d IHd]; induction l as [|[n m] l IHl]; intros l' Hd H.
  - injection H as <-. constructor.
  - exfalso. rewrite ldepth_cons in Hd. destruct m. rewrite mdepth_eq in Hd. lia.
  - injection H as <-. constructor.
  - rewrite ldepth_cons in Hd. cbn [go_] in H. apply bind_ok in H as (m' & Hm & H). apply bind_ok in H as (l2 & Hl & H). injection H as <-.
    assert (Rl : replaced init l l2) by (apply IHl; auto; lia).
    destruct m as [[c|] kids].
    + apply bind_ok in Hm as (c' & Hc & Hm). apply bind_ok in Hm as (k & Hk & Hm). injection Hm as <-. constructor; auto. apply new_conv_like; auto.
    + apply bind_ok in Hm as (k & Hk & Hm). injection Hm as <-. constructor; auto. rewrite replace_kids_eq in Hk. apply IHd; auto. rewrite mdepth_eq in Hd. lia.
Qed.
Lemma go_bias : forall d l, (ldepth l <= d)%nat -> (forall c, below c l -> cv_bias c = None) -> exists l', go_ l = Ok l'.
Proof.
  induction d as [|d IHd]; induction l as [|[n m] l IHl]; intros Hd Hb.
  - exists []. reflexivity.
  - exfalso. rewrite ldepth_cons in Hd. destruct m. rewrite mdepth_eq in Hd. lia.
  - exists []. reflexivity.
  - rewrite ldepth_cons in Hd. destruct (IHl ltac:(lia) (fun c B => Hb c (b_next _ _ _ B))) as [l2 E2]. destruct m as [k kids].
    assert (Ek : exists k', replace_kids init (Tree k kids) = Ok k') by (rewrite replace_kids_eq; apply IHd; [rewrite mdepth_eq in Hd; lia|intros c B; apply Hb; constructor; auto]).
    destruct Ek as [k' Ek]. cbn [go_]. destruct k as [c|].
    + assert (Ec : exists c', new_conv init c = Ok c') by (unfold new_conv; rewrite (Hb c) by constructor; cbn [bind]; eauto). destruct Ec as [c' Ec]. rewrite Ec. cbn [bind]. rewrite Ek. cbn [bind]. fold go_. rewrite E2. cbn [bind]. eauto.
    + rewrite Ek. cbn [bind]. fold go_. rewrite E2. cbn [bind]. eauto.
Qed.
(** If no exception is raised, exactly the convolutions below the model have been replaced by new ones; none is raised when no
    convolution has a bias. *)
Theorem C74_replace :
  forall k kids, (forall t', replace_conv2d init (Tree k kids) = Ok t' -> exists kids', t' = Tree k kids' /\ replaced init kids kids') /\
  ((forall c, below c kids -> cv_bias c = None) -> exists t', replace_conv2d init (Tree k kids) = Ok t').
Proof.
  intros k kids. unfold replace_conv2d. rewrite replace_kids_eq. split.
  - intros t' H. apply bind_ok in H as (l & E & H). injection H as <-. exists l. split; auto. eapply replaced_go; eauto.
  - intro Hb. destruct (go_bias _ kids (le_n _) Hb) as [l E]. rewrite E. cbn [bind]. eauto.
Qed.
Lemma go_bad : forall d l c, (ldepth l <= d)%nat -> below c l -> (exists b, cv_bias c = Some b /\ (1 < length b)%nat) -> exists e, go_ l = Raise e.
Proof.
  induction d as [|d IHd]; induction l as [|[n m] l IHl]; intros c Hd B Hb; try (inversion B; fail).
  - exfalso. rewrite ldepth_cons in Hd. destruct m. rewrite mdepth_eq in Hd. lia.
  - rewrite ldepth_cons in Hd. cbn [go_]. fold go_.
    assert (D : (exists e, (match m with
                            | Tree (Some c) _ => do c' <- new_conv init c; do _ <- replace_kids init m; Ok (Tree (Some c') [])
                            | Tree None _ => do k <- replace_kids init m; Ok (Tree None k)
                            end) = Raise e) \/ below c l).
    { inversion B as [n0 c0 k0 l0|n0 k0 k1 c0 l0 B0|x c0 l0 B0]; subst; [left|left|right; auto].
      - destruct Hb as (b & Eb & Lb). exists RuntimeError. unfold new_conv. rewrite Eb. destruct b as [|x [|y b]]; simpl in Lb; try lia. reflexivity.
      - destruct (IHd k1 c ltac:(rewrite mdepth_eq in Hd; lia) B0 Hb) as [e E]. rewrite replace_kids_eq, E. destruct k0 as [c0|]; [|exists e; reflexivity]. destruct (new_conv init c0) as [c1|e1]; [exists e|exists e1]; reflexivity. }
    destruct D as [[e E]|B']; [rewrite E; cbn [bind]; eauto|]. destruct (IHl c ltac:(lia) B' Hb) as [e E]. destruct (match m with Tree (Some _) _ => _ | _ => _ end); cbn [bind]; [rewrite E|]; cbn [bind]; eauto.
Qed.
(** Finding: a convolution with a bias (of more than one output channel) makes the constructor fail. *)
Theorem C74_bias_refuted :
  forall k kids c b, below c kids -> cv_bias c = Some b -> (1 < length b)%nat -> exists e, replace_conv2d init (Tree k kids) = Raise e.
Proof.
  intros k kids c b B Hb Lb. unfold replace_conv2d. rewrite replace_kids_eq. destruct (go_bad _ kids c (le_n _) B (ex_intro _ b (conj Hb Lb))) as [e E]. rewrite E. cbn [bind]. eauto.
Qed.
End Rep.

(** Finding: groups and dilation are lost, and the weights with them. *)
Theorem C74_replacement_refuted :
  exists c c', new_conv (fun _ => ([9], [9])) c = Ok c' /\ cv_groups c = 2%nat /\ cv_groups c' = 1%nat /\ cv_dil c' <> cv_dil c /\ cv_weight c' <> cv_weight c.
Proof.
  exists (mkConv 2 2 (1, 1)%nat (1, 1)%nat (0, 0)%nat (2, 2)%nat 2 [3; 4] None). eexists. split; [reflexivity|]. cbn. repeat split; discriminate.
Qed.

(** Examples *)
Definition ex_w := mkND [2; 1; 1; 2]%nat [1; -2; 3; 4].
Example ex_shape : conv_shape ex_w 2 1 1 2. Proof. repeat split; lia. Qed.
(* keeping the second filter: divided by 7/10 *)
Example ex_masked : exists m, mask_forward (mkMc true 1 ex_w) [0; 1] = Ok (m, mkND [2; 1; 1; 2]%nat [0 # 7; 0 # 7; 30 # 7; 40 # 7]).
Proof. eexists. vm_compute. reflexivity. Qed.
(* 20 training passes: the 16th is masked *)
Example ex_calls : exists ws, calls (mkMc true 16 ex_w) ((false, [1; 1]) :: repeat (true, [0; 1]) 20) = Ok ws /\ nth 16 ws ex_w <> ex_w /\ nth 17 ws ex_w = ex_w.
Proof. eexists. split; [vm_compute; reflexivity|]. split; [discriminate|reflexivity]. Qed.
Example ex_replace : exists t', replace_conv2d (fun _ => ([9], [9])) (Tree None [("a"%string, Tree None [("c"%string, Tree (Some (mkConv 1 2 (1, 1)%nat (1, 1)%nat (0, 0)%nat (1, 1)%nat 1 [3; 4] None)) [])])]) = Ok t'.
Proof. eexists. reflexivity. Qed.

Print Assumptions C74_masked_weights.
Print Assumptions C74_every_16th.
Print Assumptions C74_replace.
Print Assumptions C74_bias_refuted.
Print Assumptions C74_replacement_refuted.
