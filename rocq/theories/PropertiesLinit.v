(** C93: the initialisation of the numerical search. *)
From Coq Require Import String Ascii List ZArith QArith Qabs Qpower Bool Arith Lia Lqa.
From Verif Require Import Base Lists Names StructModel QuantModel QuantProofs RangeModel QzrModel PrepModel EmbModel ReplModel LapqModel LapqSpec LapqProofs LinitModel LinitSpec.
Import ListNotations.
Local Open Scope string_scope.
Open Scope list_scope.

(** * Names of modes *)
Lemma up_spec a : a = up a \/ In (a, up a) letters.
Proof. destruct a as [[][][][][][][][]]; vm_compute; tauto. Qed.
Lemma up_letters a b : In (a, b) letters -> up a = b.
Proof. intro H. repeat (destruct H as [[= <- <-]|H]; [reflexivity|]). destruct H. Qed.
Lemma upper_same s : same_letters s (upper s).
Proof. induction s as [|a s IH]; cbn; auto. split; auto. apply up_spec. Qed.
Lemma same_upper s : forall k, upper k = k -> same_letters s k -> upper s = k.
Proof.
  induction s as [|a s IH]; intros [|b k] E H; cbn in *; try tauto. destruct H as [H1 H2]. injection E as E1 E2. rewrite (IH k E2 H2). f_equal.
  destruct H1 as [<-|H1]; auto using up_letters.
Qed.

(** C93: a mode is chosen by its name in any case of letters; any other name is refused. *)
Theorem C93_mode_names s :
  (forall k m, In (k, m) [("NONE", IClip CNone); ("AVG", IClip CAvg); ("LAPLACE", IClip CLaplace); ("GAUSS", IClip CGauss); ("L1", ILoss 1); ("L2", ILoss 2); ("L3", ILoss 3)] ->
     same_letters s k -> init_mode_from_str s = Ok m) /\
  ((forall k, In k ["NONE"; "AVG"; "LAPLACE"; "GAUSS"; "L1"; "L2"; "L3"] -> ~ same_letters s k) -> init_mode_from_str s = Raise ValueError).
Proof.
  split.
  - intros k m H S. unfold init_mode_from_str. rewrite (same_upper s k); auto.
    + repeat (destruct H as [[= <- <-]|H]; [reflexivity|]). destruct H.
    + repeat (destruct H as [[= <- <-]|H]; [reflexivity|]). destruct H.
  - intro H. unfold init_mode_from_str, init_modes. pose proof (upper_same s) as U.
    assert (N : forall k, In k ["NONE"; "AVG"; "LAPLACE"; "GAUSS"; "L1"; "L2"; "L3"] -> String.eqb (upper s) k = false).
    { intros k Hk. apply String.eqb_neq. intros <-. apply (H _ Hk U). }
    cbn [dget]. rewrite !N by (cbn; tauto). reflexivity.
Qed.

(** C93: the loss of two equally long outputs: never negative, and zero exactly for equal ones. *)
Lemma qsum_nonneg l : (forall x, In x l -> 0 <= x)%Q -> (0 <= qsum l)%Q /\ (qsum l == 0 -> forall x, In x l -> x == 0)%Q.
Proof.
  induction l as [|a l IH]; intro H; [split; [discriminate|intros _ x []]|].
  assert (Ha : (0 <= a)%Q) by (apply H; left; auto). destruct IH as [I1 I2]; [intros; apply H; right; auto|]. change (qsum (a :: l)) with (a + qsum l)%Q.
  split; [lra|]. intros E x [<-|Hx]; [lra|apply I2; auto; lra].
Qed.
Lemma qpow_pos a p : (0 <= a -> 0 <= a ^ Z.of_nat p)%Q. Proof. intro H. apply Qpower_pos. exact H. Qed.
Lemma qpow_0 a p : (1 <= p)%nat -> (a ^ Z.of_nat p == 0 <-> a == 0)%Q.
Proof.
  intro Hp. split.
  - intro H. destruct (Qeq_dec a 0) as [E|N]; auto. exfalso. revert H. apply Qpower_not_0. exact N.
  - intro E. rewrite E. apply Qpower_0. lia.
Qed.
Theorem C93_loss p x y : (1 <= p)%nat -> x <> [] -> length x = length y ->
  (0 <= lp_loss p x y)%Q /\ (lp_loss p x y == 0 <-> Forall2 Qeq x y)%Q.
Proof.
  intros Hp Hx Hl. unfold lp_loss. set (n := inject_Z (Z.of_nat (length x))).
  assert (Hn : (0 < n)%Q) by (apply (Zq_pos (Z.of_nat (length x))); destruct x; [congruence|cbn [length]; lia]).
  set (l := map2 _ x y).
  assert (P : forall v, In v l -> (0 <= v)%Q).
  { intros v Hv. unfold l in Hv. clear - Hv. revert y Hv. induction x as [|a x IH]; intros [|b y] Hv; cbn [map2 In] in Hv; try tauto. destruct Hv as [<-|Hv]; eauto. apply qpow_pos. apply Qabs_nonneg. }
  destruct (qsum_nonneg l P) as [A B]. split.
  - apply Qle_shift_div_l; [exact Hn|]. rewrite Qmult_0_l. exact A.
  - split.
    + intro E. assert (E' : (qsum l == 0)%Q). { rewrite <- (Qmult_0_l n), <- E. field. intro K. rewrite K in Hn. discriminate. }
      specialize (B E'). unfold l in B. clear - B Hl Hp. revert y Hl B. induction x as [|a x IH]; intros [|b y] Hl B; try discriminate; constructor.
      * assert (K : (Qabs (a - b) == 0)%Q) by (apply (qpow_0 _ p Hp); apply B; left; reflexivity).
        assert (a - b == 0)%Q by (pose proof (Qle_Qabs (a - b)); pose proof (Qle_Qabs (- (a - b))) as G; rewrite Qabs_opp in G; lra). lra.
      * apply IH; [injection Hl; auto|]. intros v Hv. apply B. right. exact Hv.
    + intro F. assert (E : (qsum l == 0)%Q).
      { unfold l. clear - F Hp. induction F as [|a b x y E F IH]; [reflexivity|]. cbn [map2]. match goal with |- (qsum (?v :: ?r) == 0)%Q => change (v + qsum r == 0)%Q end.
        rewrite IH. assert (K : (Qabs (a - b) == 0)%Q) by (rewrite E; setoid_replace (b - b)%Q with 0%Q by ring; reflexivity).
        apply (qpow_0 _ p Hp) in K. rewrite K. reflexivity. }
      rewrite E. unfold Qdiv. ring.
Qed.

(** C93: the layer is optimised on what it received in all its calls, in order - (finding:) of its first argument only. *)
Theorem C93_layer_input calls : calls <> [] -> Forall (fun args => args <> []) calls ->
  get_input_for_layer calls = Ok (flat_map (fun args => hd [] args) calls).
Proof.
  intros Hn H. unfold get_input_for_layer.
  assert (E : mapM first_input calls = Ok (map (hd []) calls)).
  { clear Hn. induction H as [|[|a args] calls Ha H IH]; cbn [mapM map]; auto; [congruence|]. cbn [first_input bind]. rewrite IH. reflexivity. }
  rewrite E. cbn [bind]. destruct calls; [congruence|]. cbn [map]. f_equal. rewrite flat_map_concat_map. reflexivity.
Qed.
Theorem C93_layer_input_refuted : exists calls x, get_input_for_layer calls = Ok x /\
  get_input_for_layer (map (fun args => [hd [] args]) calls) = Ok x /\ Exists (fun args => length args = 2%nat) calls.
Proof. exists [[[1%Q]; [2%Q]]], [1%Q]. split; [reflexivity|]. split; [reflexivity|]. repeat constructor. Qed.

(** * One layer *)
Definition set_ws (c : wcfg) (v : Q) (s : wst) : wst := mkWst (s_float s) (requantize c v (s_wzp s) (s_float s)) (s_shifted s) v (s_wzp s) (s_oscale s) (s_ozp s).
Definition set_wz (c : wcfg) (v : Q) (s : wst) : wst := mkWst (s_float s) (requantize c (s_wscale s) v (s_float s)) (s_shifted s) (s_wscale s) v (s_oscale s) (s_ozp s).
Definition set_wc (c : wcfg) (p : Q * Q) (s : wst) : wst := mkWst (s_float s) (requantize c (fst p) (snd p) (s_float s)) (s_shifted s) (fst p) (snd p) (s_oscale s) (s_ozp s).
Definition set_os (v : Q) (s : wst) : wst := mkWst (s_float s) (s_weight s) (s_shifted s) (s_wscale s) (s_wzp s) v (s_ozp s).
Definition set_oz (v : Q) (s : wst) : wst := mkWst (s_float s) (s_weight s) (s_shifted s) (s_wscale s) (s_wzp s) (s_oscale s) v.
Definition set_oc (p : Q * Q) (s : wst) : wst := mkWst (s_float s) (s_weight s) (s_shifted s) (s_wscale s) (s_wzp s) (fst p) (snd p).

(** an outcome that does not depend on the state *)
Definition uniform (c : wcfg) (kv : string * qpv) (f : wst -> wst) : Prop := (exists e, forall s, w_set c s kv = Raise e) \/ forall s, w_set c s kv = Ok (f s).
Ltac outc c b B := destruct (c_acts c) as [b|]; [destruct (Z.eqb b 0 || negb (c_preset c)) eqn:B|].
Ltac us := first [left; eexists; intro s; reflexivity | right; intro s; reflexivity].
Lemma ws_uniform c v : uniform c ("w_scale", QOne v) (set_ws c v).
Proof.
  unfold uniform, w_set, w_set_base, named_clipping, named_params, out_clipping, out_params, wts_params. destruct (c_kind c) eqn:K; cbn [fst snd is_wparam String.eqb].
  - destruct (c_save c); [|us]. right. intro s. outc c b B; reflexivity.
  - outc c b B; try us. apply orb_false_iff in B. destruct B as [_ B]. apply negb_false_iff in B. rewrite B. us.
  - destruct (c_save c); us.
Qed.
Lemma wz_uniform c v : uniform c ("w_zero_point", QOne v) (set_wz c v).
Proof.
  unfold uniform, w_set, w_set_base, named_clipping, named_params, out_clipping, out_params, wts_params. destruct (c_kind c) eqn:K; cbn [fst snd is_wparam String.eqb].
  - destruct (c_save c); [|us]. right. intro s. outc c b B; reflexivity.
  - outc c b B; try us. apply orb_false_iff in B. destruct B as [_ B]. apply negb_false_iff in B. rewrite B. us.
  - destruct (c_save c); us.
Qed.
Lemma os_uniform c v : uniform c ("output_scale", QOne v) (set_os v).
Proof.
  unfold uniform, w_set, w_set_base, named_clipping, named_params, out_clipping, out_params, wts_params. destruct (c_kind c) eqn:K; cbn [fst snd is_wparam String.eqb].
  - destruct (c_save c), (c_preset c), (c_acts c) as [b|]; cbn; try (destruct (Z.eqb b 0)); us.
  - destruct (c_preset c), (c_acts c) as [b|]; cbn; try (destruct (Z.eqb b 0)); us.
  - us.
Qed.
Lemma oz_uniform c v : uniform c ("output_zero_point", QOne v) (set_oz v).
Proof.
  unfold uniform, w_set, w_set_base, named_clipping, named_params, out_clipping, out_params, wts_params. destruct (c_kind c) eqn:K; cbn [fst snd is_wparam String.eqb].
  - destruct (c_save c), (c_preset c), (c_acts c) as [b|]; cbn; try (destruct (Z.eqb b 0)); us.
  - destruct (c_preset c), (c_acts c) as [b|]; cbn; try (destruct (Z.eqb b 0)); us.
  - us.
Qed.
Lemma oc_uniform c v : exists p, uniform c ("output_clipping", v) (set_oc p).
Proof.
  unfold uniform, w_set, w_set_base, named_clipping, named_params, out_clipping, out_params, wts_params, set_out_clip. cbn [fst snd].
  destruct (c_acts c) as [b|].
  - destruct (set_output_clipping b (PM (c_ma c)) (c_half c) (clipval_of v)) as [p|e]; cbn [bind].
    + exists p. destruct (c_kind c), (c_preset c), (c_save c), (Z.eqb b 0); cbn [is_wparam String.eqb fst snd orb negb]; us.
    + exists (0%Q, 0%Q). destruct (c_kind c), (c_preset c), (c_save c), (Z.eqb b 0); cbn [is_wparam String.eqb fst snd orb negb]; us.
  - exists (0%Q, 0%Q). destruct (c_kind c), (c_preset c), (c_save c); cbn [is_wparam String.eqb fst snd orb negb]; us.
Qed.
Lemma wc_uniform c v : exists p, uniform c ("weight_clipping", v) (set_wc c p).
Proof.
  unfold uniform, w_set, w_set_base, named_clipping, named_params, out_clipping, out_params, wts_params, set_wts_clip. cbn [fst snd].
  match goal with |- context [match c_kind c with KParam => set_weight_clipping ?x ?y ?z | KAct => ?b | KEmb => ?a end] => set (e := match c_kind c with KParam => set_weight_clipping x y z | KAct => b | KEmb => a end) end. clearbody e.
  destruct e as [p|e0]; [exists p|exists (0%Q, 0%Q)]; destruct (c_kind c), (c_save c); cbn [is_wparam String.eqb fst snd orb negb bind];
    destruct (c_acts c) as [b|]; try (destruct (Z.eqb b 0), (c_preset c)); us.
Qed.

(** the kinds of effects *)
Inductive effect (c : wcfg) : string -> (wst -> wst) -> Prop :=
| ef_ws v : effect c "w_scale" (set_ws c v)
| ef_wz v : effect c "w_zero_point" (set_wz c v)
| ef_os v : effect c "output_scale" (set_os v)
| ef_oz v : effect c "output_zero_point" (set_oz v)
| ef_oc p : effect c "output_clipping" (set_oc p)
| ef_wc p : effect c "weight_clipping" (set_wc c p).
Definition scalar_name (k : string) : Prop := In k ["w_scale"; "w_zero_point"; "output_scale"; "output_zero_point"].
Definition clip_name (k : string) : Prop := In k ["output_clipping"; "weight_clipping"].
Lemma has_effect c k v : (scalar_name k /\ exists x, v = QOne x) \/ clip_name k -> exists f, uniform c (k, v) f /\ effect c k f.
Proof.
  intros [[H [x ->]]|H].
  - repeat (destruct H as [<-|H]; [eexists; split; [first [apply ws_uniform|apply wz_uniform|apply os_uniform|apply oz_uniform]|constructor]|]). destruct H.
  - destruct H as [<-|[<-|[]]]; [destruct (oc_uniform c v) as [p U]|destruct (wc_uniform c v) as [p U]]; eexists; (split; [exact U|constructor]).
Qed.
Lemma update_uniform c d : Forall (fun kv : string * qpv => (scalar_name (fst kv) /\ exists x, snd kv = QOne x) \/ clip_name (fst kv)) d ->
  exists fs, Forall2 (effect c) (map fst d) fs /\
    ((forall s, exists e, w_update c d s = Raise e) \/ forall s, w_update c d s = Ok (fold_left (fun s f => f s) fs s)).
Proof.
  induction 1 as [|[k v] d H F IH]; [exists []; split; [constructor|right; reflexivity]|]. destruct IH as (fs & I1 & I2).
  destruct (has_effect c k v H) as (f & U & E). exists (f :: fs). split; [constructor; auto|]. unfold w_update. cbn [foldM fold_left].
  destruct U as [[e U]|U]; [left; intro s; exists e; rewrite U; reflexivity|].
  destruct I2 as [I2|I2]; [left; intro s; rewrite U; apply I2|right; intro s; rewrite U; apply I2].
Qed.
(** the lists of parameters that are searched *)
Definition searched (K : list string) : Prop :=
  (exists a b, In a [[]; ["w_scale"]; ["w_scale"; "w_zero_point"]] /\ In b [[]; ["output_scale"]; ["output_scale"; "output_zero_point"]] /\ K = a ++ b) \/
  In K [["output_clipping"]; ["weight_clipping"]; ["output_clipping"; "weight_clipping"]].
Ltac ins H := repeat match type of H with In _ (_ :: _) => destruct H as [<-|H] | In _ [] => destruct H end.
Ltac effs := repeat match goal with
  | H : Forall2 (effect _) [] _ |- _ => inversion H; clear H; subst
  | H : Forall2 (effect _) (_ :: _) _ |- _ => inversion H; clear H; subst
  | H : effect _ _ _ |- _ => inversion H; clear H; subst end.
Lemma absorb c K fs gs s : searched K -> Forall2 (effect c) K fs -> Forall2 (effect c) K gs ->
  fold_left (fun s f => f s) gs (fold_left (fun s f => f s) fs s) = fold_left (fun s f => f s) gs s.
Proof.
  intros [(a & b & Ha & Hb & ->)|H] F G.
  - ins Ha; ins Hb; cbn [app] in F, G; effs; reflexivity.
  - ins H; effs; reflexivity.
Qed.

(** keys of the vector and of the dictionary made from it *)
Lemma layer_keys sc c s d : layer_params sc c s = Ok d -> searched (map fst d) /\
  (sc = false -> Forall (fun kv : string * qpv => scalar_name (fst kv) /\ exists x, snd kv = QOne x) d) /\ (sc = true -> Forall (fun kv => clip_name (fst kv)) d).
Proof.
  unfold layer_params, named_params, named_clipping, out_params, wts_params, wts_clipping, out_clipping. destruct sc; intro H.
  - destruct (c_kind c), (c_acts c) as [b|]; try (destruct (Z.eqb b 0 || negb (c_preset c))); try discriminate; injection H as <-; cbn [app map fst];
      (split; [right; cbn; tauto|]); (split; [discriminate|]); intros _; repeat (apply Forall_cons; [cbn; tauto|]); apply Forall_nil.
  - injection H as <-. split.
    + left. destruct (c_kind c), (c_save c), (c_acts c) as [b|], (c_preset c), (asym (c_mw c)), (asym (c_ma c)), (c_half c); cbn;
        first [exists [], []; cbn; tauto | exists [], ["output_scale"]; cbn; tauto | exists [], ["output_scale"; "output_zero_point"]; cbn; tauto
              | exists ["w_scale"], []; cbn; tauto | exists ["w_scale"], ["output_scale"]; cbn; tauto | exists ["w_scale"], ["output_scale"; "output_zero_point"]; cbn; tauto
              | exists ["w_scale"; "w_zero_point"], []; cbn; tauto | exists ["w_scale"; "w_zero_point"], ["output_scale"]; cbn; tauto | exists ["w_scale"; "w_zero_point"], ["output_scale"; "output_zero_point"]; cbn; tauto].
    + split; [|discriminate]. intros _. destruct (c_kind c), (c_save c), (c_acts c) as [b|], (c_preset c), (asym (c_mw c)), (asym (c_ma c)), (c_half c); cbn [negb andb orb app map fst snd];
        repeat (apply Forall_cons; [split; [cbn; tauto|eexists; reflexivity]|]); apply Forall_nil.
Qed.


Lemma searched_nodup K : searched K -> NoDup K.
Proof.
  intros [(a & b & Ha & Hb & ->)|H].
  - ins Ha; ins Hb; cbn [app]; repeat (constructor; [cbn; intuition discriminate|]); constructor.
  - ins H; repeat (constructor; [cbn; intuition discriminate|]); constructor.
Qed.
(** what a vector of the right length denotes *)
Lemma vec_denotes sc c s d K v x : layer_params sc c s = Ok d -> dict2vec sc d = Ok (K, v) -> length x = length v ->
  exists dx, vec2dict sc K x = Ok dx /\ denotes d x dx /\
    Forall (fun kv : string * qpv => (scalar_name (fst kv) /\ exists y, snd kv = QOne y) \/ clip_name (fst kv)) dx.
Proof.
  intros L D E. destruct (layer_keys _ _ _ _ L) as (S & A & B).
  destruct (vec2dict_decode sc d K v x D E) as [P1 P2].
  - apply (searched_nodup _ S).
  - intros -> k w Hi. specialize (B eq_refl). rewrite Forall_forall in B. specialize (B _ Hi). cbn [fst] in B. destruct B as [<-|[<-|[]]]; split; reflexivity.
  - exists (decode d x). split; [exact P2|]. split; [exact P1|]. generalize (decode d x) P1. intros dx Hd.
    destruct sc.
    + specialize (B eq_refl). clear - B Hd. induction Hd; [constructor| |]; inversion B; subst; constructor; auto.
    + specialize (A eq_refl). clear - A Hd. induction Hd; [constructor| |]; inversion A as [|? ? A1 A2]; subst; cbn [fst snd] in A1; destruct A1 as [A1 [z A1']].
      * constructor; [left; split; [exact A1|eexists; reflexivity]|auto].
      * discriminate.
Qed.

Section L.
Variable q_layer : wcfg -> wst -> list Q.
Variable y : list Q.
Variable loss_fn : list Q -> list Q -> Q.
Definition unshifted (c : wcfg) : Prop := c_kind c = KParam -> c_acts c <> None -> asym (c_mw c) = false.
Lemma forward_same c s : unshifted c -> w_forward c s = s.
Proof. unfold unshifted, w_forward. intro H. destruct (c_kind c); auto. destruct (c_acts c); auto. rewrite H; auto; discriminate. Qed.

(** C93: whatever vectors the minimizer tries on a layer, the layer keeps the last one: not the best one, nor the minimizer's
    result. *)
Theorem C93_last_tried sc c s xs x d keys v s' :
  (c_kind c = KParam -> c_acts c <> None -> asym (c_mw c) = false) ->
  layer_params sc c s = Ok d -> dict2vec sc d = Ok (keys, v) -> Forall (fun x => length x = length v) (xs ++ [x]) ->
  optimize_for_layer q_layer y loss_fn sc c s (xs ++ [x]) = Ok s' ->
  exists dx, denotes d x dx /\ w_update c dx s = Ok s'.
Proof.
  intros U L D F H. unfold optimize_for_layer in H. rewrite L in H. cbn [bind] in H. rewrite D in H. cbn [bind fst] in H.
  apply Forall_app in F. destruct F as [F Fx]. inversion Fx as [|? ? Hx _]; subst. clear Fx.
  destruct (vec_denotes _ _ _ _ _ _ x L D Hx) as (dx & E & P & G). exists dx. split; [exact P|].
  destruct (layer_keys _ _ _ _ L) as (S & _ & _).
  destruct (update_uniform c dx G) as (gs & Eg & Ug).
  assert (Kx : map fst dx = map fst d) by apply (denotes_keys _ _ _ P). rewrite Kx in Eg.
  assert (step : forall t, (do r <- layer_eval q_layer y loss_fn sc c keys t x; Ok (fst r)) = w_update c dx t).
  { intro t. unfold layer_eval. rewrite E. cbn [bind]. destruct (w_update c dx t); cbn [bind fst]; [rewrite forward_same by exact U|]; reflexivity. }
  destruct Ug as [Ug|Ug].
  { exfalso. clear - H step Ug. revert s H. induction xs as [|x0 xs IH]; intros s H; cbn [app foldM] in H.
    - rewrite step in H. destruct (Ug s) as [e K]. rewrite K in H. discriminate.
    - match type of H with (do _ <- ?e; _) = _ => destruct e as [t|] end; [|discriminate]. cbn [bind] in H. eauto. }
  rewrite Ug.
  assert (I : forall xs t, Forall (fun x => length x = length v) xs ->
     foldM (fun s x => do r <- layer_eval q_layer y loss_fn sc c keys s x; Ok (fst r)) (xs ++ [x]) t = Ok s' -> s' = fold_left (fun s f => f s) gs t).
  { clear xs F H. induction xs as [|x0 xs IH]; intros t F H; cbn [app foldM] in H.
    - rewrite step, Ug in H. cbn [bind] in H. injection H as <-. reflexivity.
    - inversion F as [|? ? H0 F']; subst. destruct (vec_denotes _ _ _ _ _ _ x0 L D H0) as (d0 & E0 & P0 & G0).
      assert (step0 : (do r <- layer_eval q_layer y loss_fn sc c keys t x0; Ok (fst r)) = w_update c d0 t).
      { unfold layer_eval. rewrite E0. cbn [bind]. destruct (w_update c d0 t); cbn [bind fst]; [rewrite forward_same by exact U|]; reflexivity. }
      rewrite step0 in H. destruct (update_uniform c d0 G0) as (fs & Ef & Uf). destruct Uf as [Uf|Uf].
      { destruct (Uf t) as [e K]. rewrite K in H. discriminate. }
      rewrite Uf in H. cbn [bind] in H. apply IH in H; auto. rewrite H. apply (absorb c (map fst d)); auto.
      pose proof (denotes_keys _ _ _ P0) as K0. unfold dkeys in K0. rewrite K0 in Ef. exact Ef. }
  f_equal. symmetry. eauto.
Qed.

(** C93: ... its searched scales and zero points are then the magnitudes of the entries of that vector. *)
Theorem C93_values_kept c s xs x d keys v s' :
  (c_kind c = KParam -> c_acts c <> None -> asym (c_mw c) = false) ->
  layer_params false c s = Ok d -> dict2vec false d = Ok (keys, v) -> Forall (fun x => length x = length v) (xs ++ [x]) ->
  optimize_for_layer q_layer y loss_fn false c s (xs ++ [x]) = Ok s' ->
  map fst (named_params true c s') = map fst (named_params true c s) /\ map snd (named_params true c s') = map Qabs x.
Proof.
  intros U L D F H. destruct (C93_last_tried _ _ _ _ _ _ _ _ _ U L D F H) as (dx & P & E). clear - L P E. unfold layer_params in L. injection L as <-. revert P E.
  unfold named_params, out_params, wts_params, w_update.
  destruct (c_kind c) eqn:K, (c_save c) eqn:S, (c_acts c) as [b|] eqn:A, (c_preset c) eqn:P0, (asym (c_mw c)) eqn:M1, (asym (c_ma c)) eqn:M2, (c_half c) eqn:Hf; cbn [negb andb orb app map fst snd];
    intros P E; repeat (match goal with H : denotes _ _ _ |- _ => inversion H; clear H; subst end); cbn [foldM] in E;
    unfold w_set, w_set_base, named_clipping, named_params, out_clipping, out_params, wts_params in E; rewrite ?K, ?S, ?A, ?P0, ?M1, ?M2, ?Hf in E; cbn in E;
    try discriminate; try (destruct (Z.eqb b 0); cbn in E; try discriminate); injection E as <-; cbn; auto.
Qed.
End L.

(** an activation quantized to 8 bits symmetrically; the output of the layer is 1, 2, 3 *)
Definition ex_c : wcfg := mkWcfg KAct (Some 8%Z) 8 SYM SYM false true true.
Definition ex_s : wst := mkWst [] [] false 1 0 1 0.
Definition ex_layer (c : wcfg) (s : wst) : list Q := map (fun v => quantize_ste v (s_oscale s) (s_ozp s) true) [1%Q; 2%Q; 3%Q].
(** C93 (finding): the layer can be left with a greater loss than that of a vector tried before, and than that it started with. *)
Theorem C93_not_best_refuted : exists c s xs s' l0 l1 l2,
  layer_params false c s = Ok [("output_scale", QOne 1)] /\
  optimize_for_layer ex_layer [1%Q; 2%Q; 3%Q] (lp_loss 2) false c s xs = Ok s' /\
  l0 = lp_loss 2 [1%Q; 2%Q; 3%Q] (ex_layer c s) /\ l2 = lp_loss 2 [1%Q; 2%Q; 3%Q] (ex_layer c s') /\
  (exists x st, In x xs /\ layer_eval ex_layer [1%Q; 2%Q; 3%Q] (lp_loss 2) false c ["output_scale"] s x = Ok (st, l1)) /\
  (l0 < l2)%Q /\ (l1 < l2)%Q.
Proof.
  exists ex_c, ex_s, [[2%Q]; [1 # 10]]. do 4 eexists. split; [reflexivity|]. split; [vm_compute; reflexivity|]. split; [reflexivity|]. split; [reflexivity|].
  split. { exists [2%Q]. eexists. split; [left; reflexivity|]. vm_compute. reflexivity. } split; vm_compute; reflexivity.
Qed.
Example C93_ex_last : exists s', optimize_for_layer ex_layer [1%Q; 2%Q; 3%Q] (lp_loss 2) false ex_c ex_s ([[2%Q]; [7%Q]] ++ [[(-3)%Q]]) = Ok s' /\ s_oscale s' = 3%Q.
Proof. eexists. split; vm_compute; reflexivity. Qed.

Print Assumptions C93_mode_names.
Print Assumptions C93_loss.
Print Assumptions C93_layer_input.
Print Assumptions C93_layer_input_refuted.
Print Assumptions C93_last_tried.
Print Assumptions C93_values_kept.
Print Assumptions C93_not_best_refuted.
