(** C85 (the parameters searched), C86 (the numerical search of quantization parameters). *)
From Coq Require Import String Ascii List ZArith QArith Qabs Bool Arith Lia Lqa.
From Verif Require Import Base Lists Names StructModel QuantModel QuantSpec QuantProofs RangeModel LapqModel LapqSpec LapqProofs LapqProofs2 LapqProofs3 LapqProofs4.
Import ListNotations.
Local Open Scope string_scope.
Open Scope list_scope.

(** * C85 *)
(** C85: any vector of the right length is turned into an assignment of exactly the parameters the vector was made from, in
    their order: the magnitude for a single value, the ordered pair for a (min, max) range. *)
Theorem C85_vector :
  forall sc d keys vec x, dict2vec sc d = Ok (keys, vec) -> length x = length vec -> NoDup (dkeys d) ->
  (sc = true -> forall k v, In (k, QOne v) d -> ~ ends_with "_min" k /\ ~ ends_with "_max" k) ->
  exists d', vec2dict sc keys x = Ok d' /\ denotes d x d'.
Proof.
  intros sc d keys vec x H L N P. destruct (vec2dict_decode sc d keys vec x H L N) as [D E]; [|eauto].
  intros Hs k v Hi. destruct (P Hs k v Hi) as [A B]. rewrite <- endswith_iff in A, B. split; apply not_true_is_false; auto.
Qed.
(** C85: converting a dictionary of non-negative values and ordered ranges to a vector and back gives the same dictionary. *)
Theorem C85_roundtrip :
  forall sc d keys vec, dict2vec sc d = Ok (keys, vec) -> NoDup (dkeys d) ->
  (sc = true -> forall k v, In (k, QOne v) d -> ~ ends_with "_min" k /\ ~ ends_with "_max" k) ->
  (forall k v, In (k, QOne v) d -> 0 <= v) -> (forall k a b, In (k, QPair a b) d -> a <= b) ->
  vec2dict sc keys vec = Ok d.
Proof.
  intros sc d keys vec H N P Pos Ord. destruct (vec2dict_decode sc d keys vec vec H eq_refl N) as [D E].
  - intros Hs k v Hi. destruct (P Hs k v Hi) as [A B]. rewrite <- endswith_iff in A, B. split; apply not_true_is_false; auto.
  - rewrite E. f_equal. eapply decode_own; eauto.
Qed.
(** C85: a range can only be put in a vector in a search on clipping values. *)
Theorem C85_vector_exists :
  forall sc d, (exists kv, dict2vec sc d = Ok kv) <-> (sc = true \/ forall k a b, ~ In (k, QPair a b) d).
Proof. exact dict2vec_ok_iff. Qed.
(** Finding (C85): the suffixes that mark ranges are not escaped: a single value whose own name ends with '_max' is lost. *)
Theorem C85_suffix_refuted :
  ~ (forall d keys vec, dict2vec true d = Ok (keys, vec) -> NoDup (dkeys d) -> (forall k v, In (k, QOne v) d -> 0 <= v) ->
     vec2dict true keys vec = Ok d).
Proof.
  intro H. specialize (H [("clip_max", QOne 1)] ["clip_max"] [1] eq_refl). 
  assert (K : vec2dict true ["clip_max"] [1] = Ok [("clip_max", QOne 1)]).
  { apply H; [repeat constructor; intros []|]. intros k v [E|[]]. injection E as <- <-. discriminate. }
  vm_compute in K. discriminate.
Qed.
(** C85: in a model whose wrappers have distinct names, the parameters of a search have distinct names, and none ends with
    those suffixes; so C85_vector and C85_roundtrip apply to them. *)
Theorem C85_model_names :
  forall sc ms P, NoDup (map fst ms) -> search_params sc ms = Ok P ->
  NoDup (dkeys P) /\ forall k, In k (dkeys P) -> ~ ends_with "_min" k /\ ~ ends_with "_max" k.
Proof.
  intros sc ms P N H. destruct (search_params_names sc ms P N H) as [A B]. split; auto. intros k Hk. destruct (B k Hk) as (n & p & _ & Hp & ->).
  destruct (param_plain n p Hp) as [E1 E2]. rewrite <- !endswith_iff, E1, E2. split; discriminate.
Qed.
(** C85: a search on scales accepts exactly the models without an asymmetrically quantized output that is not known to be
    non-negative and without asymmetrically quantized weights; any other is refused with ValueError. *)
Theorem C85_validation :
  forall ms, wf_model ms -> (validate false ms = Ok tt <-> symmetric_model ms) /\ (~ symmetric_model ms -> validate false ms = Raise ValueError) /\
  validate true ms = Ok tt.
Proof. intros ms W. destruct (validate_spec ms W) as [A B]. split; [|split]; auto. intro H. apply B. intro E. apply H, A, E. Qed.
(** C85: and in an accepted model it searches exactly the scales: of the weights that can be quantized again, and of the
    outputs quantized with known statistics. *)
Theorem C85_scales_only :
  forall ms P, wf_model ms -> symmetric_model ms -> search_params false ms = Ok P ->
  forall k v, In (k, v) P <-> exists n c s, In (n, (c, s)) ms /\
    ((k = (n ++ ".w_scale")%string /\ v = QOne (s_wscale s) /\ (c_kind c = KEmb \/ (c_kind c = KParam /\ c_save c = true))) \/
     (k = (n ++ ".output_scale")%string /\ v = QOne (s_oscale s) /\ c_kind c <> KEmb /\ c_acts c <> None /\ c_preset c = true)).
Proof.
  intros ms P W S H k v. pose proof (oks_of false ms W S) as O. injection H as <-. rewrite in_map_iff. split.
  - intros ([k' x] & E & Hi). injection E as <- <-. unfold q_params in Hi. apply in_flat_map in Hi. destruct Hi as ([n [c s]] & Hm & Hi).
    apply in_map_iff in Hi. destruct Hi as ([p y] & E & Hi). injection E as <- <-. exists n, c, s. split; auto.
    unfold oks in O. rewrite Forall_forall in O. specialize (O _ Hm). cbn [fst snd] in O. rewrite named_params_true in Hi by auto.
    apply in_app_or in Hi. unfold has_ws, has_os in Hi. destruct Hi as [Hi|Hi].
    + left. destruct (c_kind c), (c_save c); simpl in Hi; try contradiction; destruct Hi as [Hi|[]]; injection Hi as <- <-; repeat split; auto.
    + right. destruct (c_kind c); [| |destruct Hi]; (destruct (c_acts c); [|destruct Hi]); destruct (c_preset c); simpl in Hi; try contradiction; destruct Hi as [Hi|[]]; injection Hi as <- <-; repeat split; auto; discriminate.
  - intros (n & c & s & Hm & D). unfold oks in O. rewrite Forall_forall in O. specialize (O _ Hm). cbn [fst snd] in O.
    destruct D as [(-> & -> & Hc)|(-> & -> & Hk & Ha & Hp)].
    + exists ((n ++ ".w_scale")%string, s_wscale s). split; auto. unfold q_params. apply in_flat_map. exists (n, (c, s)). split; auto. apply in_map_iff. exists ("w_scale", s_wscale s). split; auto.
      rewrite named_params_true by auto. apply in_or_app. left. unfold has_ws. destruct Hc as [->|[-> ->]]; simpl; auto.
    + exists ((n ++ ".output_scale")%string, s_oscale s). split; auto. unfold q_params. apply in_flat_map. exists (n, (c, s)). split; auto. apply in_map_iff. exists ("output_scale", s_oscale s). split; auto.
      rewrite named_params_true by auto. apply in_or_app. right. unfold has_os. destruct (c_kind c); try congruence; (destruct (c_acts c); [|congruence]); rewrite Hp; simpl; auto.
Qed.

(** setting the scales a wrapper has changes nothing *)
Lemma own_scales c s : cfg_ok false c -> foldM (w_set c) (map (fun p : string * Q => (fst p, QOne (snd p))) (named_params true c s)) s = Ok s.
Proof.
  intro H. rewrite named_params_true by auto. destruct (has_ws c) eqn:W, (has_os c) eqn:O; cbn [map app foldM fst snd].
  - rewrite set_wscale by auto. cbn [bind]. rewrite set_oscale by auto. destruct s; reflexivity.
  - rewrite set_wscale by auto. destruct s; reflexivity.
  - rewrite set_oscale by auto. destruct s; reflexivity.
  - reflexivity.
Qed.
Lemma own_model ms : oks false ms -> MU ms (map (fun e : string * (wcfg * wst) => map (fun p : string * Q => (fst p, QOne (snd p))) (named_params true (fst (snd e)) (snd (snd e)))) ms) = ms.
Proof.
  induction 1 as [|[n [c s]] ms H F IH]; [reflexivity|]. cbn [map MU map2 fst snd] in *. f_equal; auto. unfold U. rewrite own_scales by auto. reflexivity.
Qed.
Definition own_chunks (ms : model) : list (dict qpv) :=
  map (fun e : string * (wcfg * wst) => map (fun p : string * Q => (fst p, QOne (snd p))) (named_params true (fst (snd e)) (snd (snd e)))) ms.
Lemma chunks_false ms ps : chunks_of false ms ps -> ps = own_chunks ms.
Proof. induction 1 as [|e p ms ps H C IH]; [reflexivity|]. cbn. cbn [chunk] in H. injection H as <-. f_equal; auto. Qed.
Lemma own_settable ms ps : oks false ms -> chunks_of false ms ps -> Forall2 (fun (e : string * (wcfg * wst)) d => settable (fst (snd e)) d) ms ps.
Proof.
  intros O C. induction C as [|e p ms ps H C IH]; constructor; inversion O as [|? ? O1 O2]; subst; auto.
  split; [eapply chunk_no_dot; eauto|]. intro s. unfold U.
  destruct (scale_update (fst (snd e)) p p (snd (snd e)) O1 H eq_refl) as (ow & oo & _ & _ & K). rewrite K. reflexivity.
Qed.
(** C85: in a search on scales the initial vector is the initial model: evaluating it changes nothing. *)
Theorem C85_initial_point :
  forall eval ms P keys x0, wf_model ms -> symmetric_model ms -> positive_scales ms ->
  search_params false (m_forward ms) = Ok P -> dict2vec false P = Ok (keys, x0) ->
  feed_forward eval false keys x0 (m_forward ms) = Ok (m_forward ms, eval (m_forward ms)).
Proof.
  intros eval ms P keys x0 W S Pos HP Hk. set (M := m_forward ms) in *.
  assert (N : NoDup (map fst M)) by (unfold M; rewrite m_forward_names; apply W).
  assert (O : oks false M) by (apply (oks_cfgs false ms); [apply m_forward_cfgs|apply oks_of; auto]).
  assert (E : vec2dict false keys x0 = Ok P).
  { destruct (search_params_names false M P N HP) as [A _]. apply C85_roundtrip; auto; [discriminate| |].
    - intros k v Hi. injection HP as <-. apply in_map_iff in Hi. destruct Hi as ([k' x] & E & Hi). injection E as <- <-. unfold q_params in Hi.
      apply in_flat_map in Hi. destruct Hi as ([n [c s]] & Hm & Hi). apply in_map_iff in Hi. destruct Hi as ([p y] & E & Hi). injection E as <- <-.
      assert (Ps : 0 < s_wscale s /\ 0 < s_oscale s).
      { unfold M, m_forward in Hm. apply in_map_iff in Hm. destruct Hm as ([n' [c' s']] & E & Hm). cbn in E. injection E as <- <- <-. unfold positive_scales in Pos. rewrite Forall_forall in Pos.
        specialize (Pos _ Hm). cbn in Pos. unfold w_forward. destruct (c_kind c'), (c_acts c'); auto. destruct (asym (c_mw c') && negb (s_shifted s')); auto. }
      unfold oks in O. rewrite Forall_forall in O. specialize (O _ Hm). cbn [fst snd] in O. rewrite named_params_true in Hi by auto. apply in_app_or in Hi.
      destruct Hi as [Hi|Hi]; [destruct (has_ws c)|destruct (has_os c)]; try contradiction; destruct Hi as [Hi|[]]; injection Hi as <- <-; apply Qlt_le_weak; tauto.
    - intros k a b Hi. injection HP as <-. apply in_map_iff in Hi. destruct Hi as (? & E & _). discriminate. }
  unfold feed_forward. rewrite E. cbn [bind]. destruct (search_params_split false M P HP) as (ps & EP & C).
  pose proof (chunks_false _ _ C) as Eps. pose proof (own_settable _ _ O C) as St.
  rewrite EP, q_update_MU by auto. cbn [bind]. rewrite Eps. unfold own_chunks. rewrite own_model by auto. unfold M. rewrite m_forward_idem. reflexivity.
Qed.

(** * C86 *)
(** C86: the search always ends without an exception, whatever points the minimizer evaluates and reports; every score is
    that of the prepared model with the parameters of that point; the score returned is the least of the initial one and
    those reported, the parameters returned are those of the first point reported with it (the initial ones, weights and
    zero points included, if none is better), and the model is left with the parameters of the last evaluation. *)
Theorem C86_search :
  forall eval (sc : bool) ms P keys x0 calls, wf_model ms -> (if sc then clippable ms else symmetric_model ms) ->
  search_params sc (m_forward ms) = Ok P -> dict2vec sc P = Ok (keys, x0) ->
  Forall (fun c => length (match c with CEval x | CCallback x => x end) = length x0) calls ->
  exists conf st, search eval sc ms calls = Ok st /\
  (forall x, length x = length x0 -> exists d, denotes P x d /\ q_update d (m_forward ms) = Ok (conf x) /\ m_forward (conf x) = conf x) /\
  sr_model st = match rev calls with [] => m_forward ms | CEval x :: _ | CCallback x :: _ => conf x end /\
  ((sr_score st = eval (m_forward ms) /\ sr_best st = map (fun p => (fst p, QOne (snd p))) (q_params false (m_forward ms)) /\
    forall x, In (CCallback x) calls -> sr_score st <= eval (conf x)) \/
   exists l1 x l2, calls = l1 ++ CCallback x :: l2 /\ sr_score st = eval (conf x) /\ denotes P x (sr_best st) /\
    q_update (sr_best st) (m_forward ms) = Ok (conf x) /\ sr_score st < eval (m_forward ms) /\
    (forall y, In (CCallback y) l1 -> sr_score st < eval (conf y)) /\ (forall y, In (CCallback y) l2 -> sr_score st <= eval (conf y))).
Proof.
  intros eval sc ms P keys x0 calls W S HP Hk F. set (M := m_forward ms) in *.
  assert (N : NoDup (map fst M)) by (unfold M; rewrite m_forward_names; apply W).
  assert (O : oks sc M) by (apply (oks_cfgs sc ms); [apply m_forward_cfgs|apply oks_of; auto]).
  assert (St : m_forward M = M) by apply m_forward_idem.
  pose proof (dict2vec_length sc P keys x0 Hk) as Lk. rewrite <- Lk in *.
  assert (F' : Forall (fun c => length (call_vec c) = length keys) calls) by exact F.
  set (st0 := mkSst M (eval M) (map (fun p : string * Q => (fst p, QOne (snd p))) (q_params false M))).
  destruct (run_pure eval sc M P keys x0 N O St HP Hk calls st0 (or_introl eq_refl) F') as [R _].
  exists (conf M P), (fold_left (pure eval M P) calls st0). split; [|split; [|split]].
  - unfold search, search_start. rewrite (validate_ok sc ms W S). cbn [bind]. fold M. rewrite HP. cbn [bind]. rewrite Hk. cbn [bind fst snd]. exact R.
  - intros x L. exists (decode P x). destruct (decode_ok sc M P keys x0 N HP Hk x L) as [D _]. split; auto. split.
    + apply (conf_ok sc M P keys x0); auto.
    + apply (conf_settled sc M P keys x0); auto.
  - destruct calls as [|c calls] using rev_ind; [reflexivity|]. rewrite pure_model, rev_app_distr. destruct c; reflexivity.
  - destruct (pure_best eval M P calls st0) as [(A & B & C)|(l1 & x & l2 & A & B & C & D & E & G)]; [left; auto|]. right. exists l1, x, l2.
    assert (L : length x = length keys). { rewrite Forall_forall in F'. apply (F' (CCallback x)). rewrite A. apply in_or_app. right; left; auto. }
    rewrite C. destruct (decode_ok sc M P keys x0 N HP Hk x L) as [Dn _]. repeat split; auto. apply (conf_ok sc M P keys x0); auto.
Qed.
(** C86: such vectors always exist: an accepted model has parameters to search and a vector of them. *)
Theorem C86_start :
  forall (sc : bool) ms, wf_model ms -> (if sc then clippable ms else symmetric_model ms) ->
  exists P kv, search_params sc (m_forward ms) = Ok P /\ dict2vec sc P = Ok kv.
Proof.
  intros sc ms W S. assert (O : oks sc (m_forward ms)) by (apply (oks_cfgs sc ms); [apply m_forward_cfgs|apply oks_of; auto]).
  destruct (search_params_ok sc _ O) as [P HP]. exists P. assert (K : exists kv, dict2vec sc P = Ok kv).
  { apply dict2vec_ok_iff. destruct sc; auto. right. injection HP as <-. intros k a b Hi. apply in_map_iff in Hi. destruct Hi as (? & E & _). discriminate. }
  destruct K as [kv Hkv]. exists kv. auto.
Qed.

(** C86: in a search on scales, giving the returned parameters back to the quantizer reproduces the returned score, whatever
    was evaluated last. *)
Theorem C86_reapply_scales :
  forall eval ms P keys x0 calls st, wf_model ms -> symmetric_model ms ->
  search_params false (m_forward ms) = Ok P -> dict2vec false P = Ok (keys, x0) ->
  Forall (fun c => length (match c with CEval x | CCallback x => x end) = length x0) calls ->
  search eval false ms calls = Ok st ->
  exists ms', q_update (sr_best st) (sr_model st) = Ok ms' /\ m_forward ms' = ms' /\ eval ms' = sr_score st.
Proof.
  intros eval ms P keys x0 calls st W S HP Hk F H. set (M := m_forward ms) in *.
  assert (N : NoDup (map fst M)) by (unfold M; rewrite m_forward_names; apply W).
  assert (O : oks false M) by (apply (oks_cfgs false ms); [apply m_forward_cfgs|apply oks_of; auto]).
  assert (St : m_forward M = M) by apply m_forward_idem.
  pose proof (dict2vec_length false P keys x0 Hk) as Lk. rewrite <- Lk in *.
  assert (F' : Forall (fun c => length (call_vec c) = length keys) calls) by exact F.
  set (st0 := mkSst M (eval M) (map (fun p : string * Q => (fst p, QOne (snd p))) (q_params false M))).
  destruct (run_pure eval false M P keys x0 N O St HP Hk calls st0 (or_introl eq_refl) F') as [R Rc].
  unfold search, search_start in H. rewrite (validate_ok false ms W S) in H. cbn [bind] in H. fold M in H. rewrite HP in H. cbn [bind] in H. rewrite Hk in H. cbn [bind fst snd] in H.
  fold st0 in H. rewrite R in H. injection H as <-.
  destruct (pure_best eval M P calls st0) as [(A & B & _)|(l1 & x & l2 & A & B & C & _)].
  - rewrite A, B. cbn [st0 sr_best sr_score]. exists M. split; [|auto]. rewrite flat_all.
    destruct (search_params_split false M P HP) as (ps & _ & C).
    assert (Re : forall ds, Forall2 (fun d p => shapes d = shapes p) ds ps -> q_update (flat (map fst M) (map (fun e : string * (wcfg * wst) => all_params (fst (snd e)) (snd (snd e))) M)) (MU M ds) = Ok M).
    { intros ds Fs. destruct (MU_restore M ps ds O C Fs) as [St1 St2]. pose proof (F2_length _ _ _ Fs) as L1. pose proof (F2_length _ _ _ C) as L2.
      rewrite <- (MU_names M ds) by congruence. rewrite q_update_MU.
      - f_equal. exact St2.
      - rewrite MU_names by congruence. auto.
      - apply (settable_cfgs M); auto. apply MU_cfgs. congruence. }
    destruct Rc as [->|(x & L & ->)].
    + pose proof (chunks_false _ _ C) as Eps.
      rewrite <- (own_model M O) at 3. fold (own_chunks M). rewrite <- Eps. apply Re. clear. induction ps; constructor; auto.
    + destruct (split_ok false M P keys x0 N HP Hk x L) as (ps' & ds & C' & Fi & E). rewrite <- (chunks_unique _ _ _ _ C C') in *.
      rewrite (conf_MU false M P keys x0 N O HP Hk x ps ds) by auto. apply Re. clear - Fi. induction Fi as [|d p ds ps [H _] F IH]; constructor; auto.
  - assert (L : length x = length keys). { rewrite Forall_forall in F'. apply (F' (CCallback x)). rewrite A. apply in_or_app. right; left; auto. }
    exists (conf M P x). rewrite B, C. split; [apply (update_reach false M P keys x0); auto|]. split; auto. apply (conf_settled false M P keys x0); auto.
Qed.
(** C86: in a search on clipping values, giving back parameters that improved on the initial score reproduces that score. *)
Theorem C86_reapply_clipping :
  forall eval ms P keys x0 calls st, wf_model ms -> clippable ms ->
  search_params true (m_forward ms) = Ok P -> dict2vec true P = Ok (keys, x0) ->
  Forall (fun c => length (match c with CEval x | CCallback x => x end) = length x0) calls ->
  search eval true ms calls = Ok st -> sr_score st <> eval (m_forward ms) ->
  exists ms', q_update (sr_best st) (sr_model st) = Ok ms' /\ m_forward ms' = ms' /\ eval ms' = sr_score st.
Proof.
  intros eval ms P keys x0 calls st W S HP Hk F H Ne. set (M := m_forward ms) in *.
  assert (N : NoDup (map fst M)) by (unfold M; rewrite m_forward_names; apply W).
  assert (O : oks true M) by (apply (oks_cfgs true ms); [apply m_forward_cfgs|apply oks_of; auto]).
  assert (St : m_forward M = M) by apply m_forward_idem.
  pose proof (dict2vec_length true P keys x0 Hk) as Lk. rewrite <- Lk in *.
  assert (F' : Forall (fun c => length (call_vec c) = length keys) calls) by exact F.
  set (st0 := mkSst M (eval M) (map (fun p : string * Q => (fst p, QOne (snd p))) (q_params false M))).
  destruct (run_pure eval true M P keys x0 N O St HP Hk calls st0 (or_introl eq_refl) F') as [R Rc].
  unfold search, search_start in H. rewrite (validate_ok true ms W S) in H. cbn [bind] in H. fold M in H. rewrite HP in H. cbn [bind] in H. rewrite Hk in H. cbn [bind fst snd] in H.
  fold st0 in H. rewrite R in H. injection H as <-.
  destruct (pure_best eval M P calls st0) as [(A & B & _)|(l1 & x & l2 & A & B & C & _)]; [contradiction|].
  assert (L : length x = length keys). { rewrite Forall_forall in F'. apply (F' (CCallback x)). rewrite A. apply in_or_app. right; left; auto. }
  exists (conf M P x). rewrite B, C. split; [apply (update_reach true M P keys x0); auto|]. split; auto. apply (conf_settled true M P keys x0); auto.
Qed.

(** C86: a search on scales never touches the stored integer weights, the zero points or the saved float weights: a weight
    scale being searched only rescales the integers of the start. *)
Theorem C86_scales_keep_integers :
  forall eval ms P keys x0 calls st, wf_model ms -> symmetric_model ms ->
  search_params false (m_forward ms) = Ok P -> dict2vec false P = Ok (keys, x0) ->
  Forall (fun c => length (match c with CEval x | CCallback x => x end) = length x0) calls ->
  search eval false ms calls = Ok st ->
  Forall2 (fun e e' : string * (wcfg * wst) => fst e' = fst e /\ fst (snd e') = fst (snd e) /\ frozen (snd (snd e)) (snd (snd e'))) (m_forward ms) (sr_model st).
Proof.
  intros eval ms P keys x0 calls st W S HP Hk F H. set (M := m_forward ms) in *.
  assert (N : NoDup (map fst M)) by (unfold M; rewrite m_forward_names; apply W).
  assert (O : oks false M) by (apply (oks_cfgs false ms); [apply m_forward_cfgs|apply oks_of; auto]).
  assert (St : m_forward M = M) by apply m_forward_idem.
  pose proof (dict2vec_length false P keys x0 Hk) as Lk. rewrite <- Lk in *.
  assert (F' : Forall (fun c => length (call_vec c) = length keys) calls) by exact F.
  set (st0 := mkSst M (eval M) (map (fun p : string * Q => (fst p, QOne (snd p))) (q_params false M))).
  destruct (run_pure eval false M P keys x0 N O St HP Hk calls st0 (or_introl eq_refl) F') as [R Rc].
  unfold search, search_start in H. rewrite (validate_ok false ms W S) in H. cbn [bind] in H. fold M in H. rewrite HP in H. cbn [bind] in H. rewrite Hk in H. cbn [bind fst snd] in H.
  fold st0 in H. rewrite R in H. injection H as <-.
  destruct Rc as [->|(x & L & ->)].
  - clear. clearbody M. clear ms. induction M; constructor; auto. repeat split.
  - destruct (split_ok false M P keys x0 N HP Hk x L) as (ps & ds & C & Fi & E). rewrite (conf_MU false M P keys x0 N O HP Hk x ps ds) by auto. eapply MU_frozen; eauto.
Qed.

Lemma MU_requantized ms ps ds : oks true ms -> chunks_of true ms ps -> fits ds ps ->
  Forall2 (fun e e' : string * (wcfg * wst) => fst e' = fst e /\ fst (snd e') = fst (snd e) /\ s_float (snd (snd e')) = s_float (snd (snd e)) /\
    (c_kind (fst (snd e)) <> KAct -> s_weight (snd (snd e')) = requantize (fst (snd e)) (s_wscale (snd (snd e'))) (s_wzp (snd (snd e'))) (s_float (snd (snd e))))) ms (MU ms ds).
Proof.
  intros O C. revert ds O. induction C as [|[n [c s]] p ms ps H C IH]; intros ds O F; inversion F as [|d ? dr ? [Hd G] Fr]; subst; [constructor|].
  inversion O as [|? ? O1 O2]; subst. cbn [MU map2]. constructor; [|apply IH; auto]. cbn [fst snd] in *.
  destruct (clip_update c d p s O1 H Hd G) as (ow & oo & Wc & _ & K). unfold U. rewrite K. repeat split. intro Hk. unfold has_wc in Wc. destruct ow; [reflexivity|].
  cbn in Wc. destruct (c_kind c); try discriminate. congruence.
Qed.
Lemma clipping_requantizes :
  forall eval ms P keys x0 calls st, wf_model ms -> clippable ms ->
  search_params true (m_forward ms) = Ok P -> dict2vec true P = Ok (keys, x0) ->
  Forall (fun c => length (match c with CEval x | CCallback x => x end) = length x0) calls -> calls <> [] ->
  search eval true ms calls = Ok st ->
  Forall2 (fun e e' : string * (wcfg * wst) => fst e' = fst e /\ fst (snd e') = fst (snd e) /\ s_float (snd (snd e')) = s_float (snd (snd e)) /\
    (c_kind (fst (snd e)) <> KAct ->
     s_weight (snd (snd e')) = requantize (fst (snd e)) (s_wscale (snd (snd e'))) (s_wzp (snd (snd e'))) (s_float (snd (snd e))))) (m_forward ms) (sr_model st).
Proof.
  intros eval ms P keys x0 calls st W S HP Hk F Nc H. set (M := m_forward ms) in *.
  assert (N : NoDup (map fst M)) by (unfold M; rewrite m_forward_names; apply W).
  assert (O : oks true M) by (apply (oks_cfgs true ms); [apply m_forward_cfgs|apply oks_of; auto]).
  assert (St : m_forward M = M) by apply m_forward_idem.
  pose proof (dict2vec_length true P keys x0 Hk) as Lk. rewrite <- Lk in *.
  assert (F' : Forall (fun c => length (call_vec c) = length keys) calls) by exact F.
  set (st0 := mkSst M (eval M) (map (fun p : string * Q => (fst p, QOne (snd p))) (q_params false M))).
  destruct (run_pure eval true M P keys x0 N O St HP Hk calls st0 (or_introl eq_refl) F') as [R _].
  unfold search, search_start in H. rewrite (validate_ok true ms W S) in H. cbn [bind] in H. fold M in H. rewrite HP in H. cbn [bind] in H. rewrite Hk in H. cbn [bind fst snd] in H.
  fold st0 in H. rewrite R in H. injection H as <-.
  destruct (exists_last Nc) as (l & c & ->). rewrite pure_model. apply Forall_app in F'. destruct F' as [_ F']. inversion F' as [|? ? L _]; subst.
  destruct (split_ok true M P keys x0 N HP Hk (call_vec c) L) as (ps & ds & C & Fi & E). rewrite (conf_MU true M P keys x0 N O HP Hk _ ps ds) by auto. apply MU_requantized with (ps := ps); auto.
Qed.

Lemma mode_range_int b m : mode_range b (PM m) = int_range b m.
Proof. destruct m; unfold mode_range, get_quantized_range, int_range; cbn; f_equal; lia. Qed.
Lemma int_range_le b m : (1 <= b)%Z -> (fst (int_range b m) <= snd (int_range b m))%Z.
Proof. intro H. pose proof (Z.pow_pos_nonneg 2 (b - 1) eq_refl ltac:(lia)). pose proof (Z.pow_pos_nonneg 2 b eq_refl ltac:(lia)). destruct m; cbn; lia. Qed.
Lemma requantize_spec c s z w : (1 <= c_wts c)%Z -> Forall2 (quantized_weight c s z) w (requantize c s z w).
Proof.
  intro B. unfold requantize. rewrite mode_range_int. pose proof (int_range_le (c_wts c) (c_mw c) B) as L.
  assert (K : forall f, exists r q, is_round (s * f - z) r /\ q = Z.min (Z.max r (fst (int_range (c_wts c) (c_mw c)))) (snd (int_range (c_wts c) (c_mw c))) /\
    linear_quantize_clamp f s z (Zq (fst (int_range (c_wts c) (c_mw c)))) (Zq (snd (int_range (c_wts c) (c_mw c)))) = Zq q).
  { intro f. unfold linear_quantize_clamp, linear_quantize. destruct (clamp_Z (rhe (s * f - z)) _ _ L) as (q & E & _ & Eq). exists (rhe (s * f - z)), q. split; [apply rhe_is_round|]. auto. }
  destruct (c_kind c) eqn:Ck, (c_acts c) eqn:Ca; try rewrite map_map.
  all: induction w as [|f w IH]; constructor; auto; destruct (K f) as (r & q & A & B' & C); exists r, q; rewrite Ck, Ca; cbn [andb]; (split; [exact A|split; [exact B'|auto]]).
  unfold linear_dequantize. rewrite C. reflexivity.
Qed.
(** C86: in a search on clipping values every stored weight is, after every evaluation, the saved float weight quantized with
    the scale and zero point that the layer then has. *)
Theorem C86_clipping_requantizes :
  forall eval ms P keys x0 calls st, wf_model ms -> clippable ms -> Forall (fun e : string * (wcfg * wst) => (1 <= c_wts (fst (snd e)))%Z) ms ->
  search_params true (m_forward ms) = Ok P -> dict2vec true P = Ok (keys, x0) ->
  Forall (fun c => length (match c with CEval x | CCallback x => x end) = length x0) calls -> calls <> [] ->
  search eval true ms calls = Ok st ->
  Forall2 (fun e e' : string * (wcfg * wst) => fst e' = fst e /\ fst (snd e') = fst (snd e) /\ s_float (snd (snd e')) = s_float (snd (snd e)) /\
    (c_kind (fst (snd e)) <> KAct ->
     Forall2 (quantized_weight (fst (snd e)) (s_wscale (snd (snd e'))) (s_wzp (snd (snd e')))) (s_float (snd (snd e))) (s_weight (snd (snd e'))))) ms (sr_model st).
Proof.
  intros eval ms P keys x0 calls st W S B HP Hk F Nc H. pose proof (clipping_requantizes eval ms P keys x0 calls st W S HP Hk F Nc H) as R.
  remember (sr_model st) as M eqn:EM. clear - B R. unfold m_forward in R. revert M R. induction B as [|e ms H B IH]; intros M R; inversion R as [|? e' ? M' K R']; subst; constructor; auto.
  destruct K as (K1 & K2 & K3 & K4). cbn [fst snd] in *. assert (E : s_float (w_forward (fst (snd e)) (snd (snd e))) = s_float (snd (snd e))).
  { unfold w_forward. destruct (c_kind (fst (snd e))), (c_acts (fst (snd e))); auto. match goal with |- context [if ?b then _ else _] => destruct b end; reflexivity. }
  rewrite E in *. repeat split; auto. intro Hk. rewrite (K4 Hk). apply requantize_spec; auto.
Qed.
(** C86: before the search, each layer with quantized activations and asymmetric weights has had its zero point added to the
    integer weights by the first forward pass, exactly once; all other state is as prepared. *)
Theorem C86_first_forward :
  forall eval sc ms st, search eval sc ms [] = Ok st ->
  Forall2 (fun e e' : string * (wcfg * wst) => fst e' = fst e /\ fst (snd e') = fst (snd e) /\
    (let s := snd (snd e) in let s' := snd (snd e') in
     s_float s' = s_float s /\ s_wscale s' = s_wscale s /\ s_wzp s' = s_wzp s /\ s_oscale s' = s_oscale s /\ s_ozp s' = s_ozp s /\
     (c_kind (fst (snd e)) = KParam /\ c_acts (fst (snd e)) <> None /\ is_sym (PM (c_mw (fst (snd e)))) = false /\ s_shifted s = false ->
      s_shifted s' = true /\ s_weight s' = map (fun q => q + s_wzp s) (s_weight s)) /\
     (~ (c_kind (fst (snd e)) = KParam /\ c_acts (fst (snd e)) <> None /\ is_sym (PM (c_mw (fst (snd e)))) = false /\ s_shifted s = false) -> s' = s))) ms (sr_model st).
Proof.
  intros eval sc ms st H. unfold search, search_start in H. destruct (validate sc ms); [|discriminate]. cbn [bind] in H.
  destruct (search_params sc (m_forward ms)) as [d|]; [|discriminate]. cbn [bind] in H. destruct (dict2vec sc d) as [kv|]; [|discriminate]. cbn [bind foldM] in H. injection H as <-. cbn [sr_model].
  unfold m_forward. induction ms as [|[n [c s]] ms IH]; constructor; auto. cbn [fst snd]. repeat split; unfold w_forward, asym in *;
    destruct (c_kind c) eqn:Ck, (c_acts c) eqn:Ca; try reflexivity; try (match goal with |- context [if ?b then _ else _] => destruct b eqn:Eb end; try reflexivity).
  all: try (intros (? & ? & ? & ?); congruence).
  all: try (destruct H as (H1 & H2 & Hs & Hf); try discriminate; try congruence; rewrite Hs, Hf in Eb; discriminate).
  all: try (apply andb_prop in Eb; destruct Eb as [E1 E2]; apply negb_true_iff in E1, E2; intro Hn; exfalso; apply Hn; repeat split; congruence).
Qed.
(** C85: in a search on clipping values the initial value of each parameter is the clipping range that the scale and zero point
    of the tensor stand for: the upper end for symmetric tensors and half-range outputs, both ends otherwise (not for the asymmetric signed mode, whose
    clipping values are wrong: see the finding on get_clipping_values in PropertiesRange3). *)
Theorem C85_clipping_values :
  forall ms P n c s, search_params true ms = Ok P -> In (n, (c, s)) ms ->
  (forall b, c_kind c <> KEmb -> c_acts c = Some b -> b <> 0%Z -> c_preset c = true -> c_ma c <> ASS ->
     In ((n ++ ".output_clipping")%string, clip_entry (is_sym (PM (c_ma c)) || c_half c) (clip_range b (c_ma c) (s_oscale s) (s_ozp s))) P) /\
  (c_kind c <> KAct -> c_mw c <> ASS ->
     In ((n ++ ".weight_clipping")%string, clip_entry (is_sym (PM (c_mw c))) (clip_range (c_wts c) (c_mw c) (s_wscale s) (s_wzp s))) P).
Proof.
  intros ms P n c s H Hi. unfold search_params in H.
  assert (K : exists l, named_clipping true c s = Ok l /\ forall p v, In (p, v) l -> In (full_name n p, v) P).
  { revert P H. induction ms as [|[n' [c' s']] ms IH]; intros P H; [destruct Hi|]. cbn [q_clipping] in H.
    destruct (named_clipping true c' s') as [l|] eqn:E; [|discriminate]. cbn [bind] in H. destruct (q_clipping true ms) as [l'|]; [|discriminate]. cbn [bind] in H. injection H as <-.
    destruct Hi as [Hi|Hi].
    - injection Hi as -> -> ->. exists l. split; auto. intros p v Hp. apply in_or_app. left. apply in_map_iff. exists (p, v). auto.
    - destruct (IH Hi l' eq_refl) as (l0 & A & B). exists l0. split; auto. intros p v Hp. apply in_or_app. right. auto. }
  destruct K as (l & El & K). split.
  - intros b Hk Ha Hb Hp Hm. apply (K "output_clipping"). assert (Eo : out_clipping true c s = Ok [("output_clipping", clip_entry (is_sym (PM (c_ma c)) || c_half c) (clip_range b (c_ma c) (s_oscale s) (s_ozp s)))]).
    { unfold out_clipping. rewrite Ha, Hp. apply Z.eqb_neq in Hb. rewrite Hb. cbn [orb negb]. unfold clip_pair, clip_entry, get_clipping_values, clip_range, linear_dequantize. cbn [andb].
      destruct (c_ma c); try congruence; reflexivity. }
    unfold named_clipping in El. rewrite Eo in El. destruct (c_kind c); [| |congruence]; injection El as <-; left; reflexivity.
  - intros Hk Hm. apply (K "weight_clipping"). assert (Ew : wts_clipping true c s = [("weight_clipping", clip_entry (is_sym (PM (c_mw c))) (clip_range (c_wts c) (c_mw c) (s_wscale s) (s_wzp s)))]).
    { unfold wts_clipping. unfold clip_pair, clip_entry, get_clipping_values, clip_range, linear_dequantize. cbn [andb]. destruct (c_mw c); try congruence; reflexivity. }
    unfold named_clipping in El. destruct (c_kind c); [|congruence|]; injection El as <-; rewrite Ew; [apply in_or_app; right|]; left; reflexivity.
Qed.
Lemma named_clipping_raise f c s e : named_clipping f c s = Raise e -> e = UnsatisfiedRequirements.
Proof.
  unfold named_clipping, out_clipping. destruct (c_kind c); [discriminate| |]; destruct (c_acts c); intro H; try discriminate; try (injection H as <-; reflexivity).
  all: match type of H with (if ?b then _ else _) = _ => destruct b end; try discriminate; injection H as <-; reflexivity.
Qed.
(** C86: a search on clipping values fails at once if a wrapper without weights has an output that is not quantized or was
    prepared without statistics (weights-only quantization of a model with an activation layer). *)
Theorem C86_clipping_needs_outputs :
  forall eval ms calls, (exists n c s, In (n, (c, s)) ms /\ c_kind c = KAct /\ (c_acts c = None \/ c_acts c = Some 0%Z \/ c_preset c = false)) ->
  search eval true ms calls = Raise UnsatisfiedRequirements.
Proof.
  intros eval ms calls (n & c & s & Hi & Hk & Ha). unfold search, search_start. cbn [validate bind search_params].
  assert (K : q_clipping true (m_forward ms) = Raise UnsatisfiedRequirements).
  { assert (Hi' : In (n, (c, w_forward c s)) (m_forward ms)) by (unfold m_forward; apply in_map_iff; exists (n, (c, s)); split; auto).
    generalize dependent (m_forward ms). generalize (w_forward c s). clear - Hk Ha. intros s0 ms. induction ms as [|[n' [c' s']] ms IH]; [intros []|]; intros [H|H].
    - injection H as -> -> ->. cbn [q_clipping]. unfold named_clipping, out_clipping. rewrite Hk.
      destruct (c_acts c) as [b|]; [|reflexivity]. destruct Ha as [Ha|[Ha|Ha]]; [discriminate|injection Ha as ->; reflexivity|]. rewrite Ha, orb_true_r. reflexivity.
    - cbn [q_clipping]. rewrite (IH H). destruct (named_clipping true c' s') eqn:E; cbn [bind]; auto.
      rewrite (named_clipping_raise _ _ _ _ E). reflexivity. }
  rewrite K. reflexivity.
Qed.

(** C86: the command line options: exactly those with the prefix, without it, except the two that the sample application
    uses itself; an error if those two are missing. *)
Lemma drop_prefix k : startswith "lapq_" k = true <-> k = ("lapq_" ++ sdrop 5 k)%string.
Proof.
  unfold startswith. split.
  - intro H. do 5 (destruct k as [|? k]; [cbn in H; repeat match type of H with (if ?x then _ else _) = _ => destruct x end; discriminate H|]).
    cbn in H. repeat match type of H with (if ?x then _ else _) = _ => destruct x; [|discriminate H] end. subst. reflexivity.
  - intro H. rewrite H. generalize (sdrop 5 k). intro r. cbn. destruct r; reflexivity.
Qed.
Lemma cmdline_In {V} (args : dict V) k v :
  In (k, v) (map (fun p : string * V => (sdrop 5 (fst p), snd p)) (filter (fun p : string * V => startswith "lapq_" (fst p)) args)) <-> In (("lapq_" ++ k)%string, v) args.
Proof.
  rewrite in_map_iff. split.
  - intros ([k' v'] & E & H). cbn in E. injection E as <- <-. apply filter_In in H. destruct H as [H P]. apply drop_prefix in P. cbn [fst] in P. rewrite P in H. exact H.
  - intro H. exists (("lapq_" ++ k)%string, v). split; [reflexivity|]. apply filter_In. split; auto. apply drop_prefix. reflexivity.
Qed.
Theorem C86_cmdline :
  forall V (args : dict V),
  (forall d, cmdline_args_to_dict args = Ok d -> forall k v, In (k, v) d <-> In (("lapq_" ++ k)%string, v) args /\ k <> "eval_size" /\ k <> "eval_memoize_dataloader") /\
  ((exists d, cmdline_args_to_dict args = Ok d) <-> In "lapq_eval_size" (dkeys args) /\ In "lapq_eval_memoize_dataloader" (dkeys args)).
Proof.
  intros V args. unfold cmdline_args_to_dict. set (d0 := map _ (filter _ args)).
  assert (Hd0 : forall k v, In (k, v) d0 <-> In (("lapq_" ++ k)%string, v) args) by (intros; apply cmdline_In).
  assert (Hk : forall k, In k (dkeys d0) <-> In ("lapq_" ++ k)%string (dkeys args)).
  { intro k. unfold dkeys. rewrite !in_map_iff. split; intros ([k' v] & E & H); cbn in E; subst.
    - exists (("lapq_" ++ k)%string, v). split; auto. apply Hd0. auto.
    - exists (k, v). split; auto. apply Hd0; auto. }
  set (d1 := filter (fun p : string * V => negb (String.eqb (fst p) "eval_size")) d0).
  assert (Hk1 : In "eval_memoize_dataloader" (dkeys d1) <-> In "eval_memoize_dataloader" (dkeys d0)).
  { unfold d1, dkeys. rewrite !in_map_iff. split; intros ([k' v] & E & H); cbn in E; subst.
    - apply filter_In in H. eexists; split; [|apply H]. reflexivity.
    - eexists; split; [|apply filter_In; split; [exact H|]]; reflexivity. }
  pose proof (dmem_In d0 "eval_size") as M0. pose proof (dmem_In d1 "eval_memoize_dataloader") as M1.
  rewrite (Hk "eval_size") in M0. rewrite Hk1, (Hk "eval_memoize_dataloader") in M1. split.
  - intros d H. destruct (dmem d0 "eval_size"); [|discriminate]. destruct (dmem d1 "eval_memoize_dataloader"); [|discriminate]. injection H as <-.
    intros k v. unfold d1. rewrite !filter_In, Hd0, !negb_true_iff, !String.eqb_neq. cbn [fst]. tauto.
  - destruct (dmem d0 "eval_size") eqn:E0; [|split; [intros [? ?]; discriminate|intros [H _]; apply M0 in H; discriminate]].
    destruct (dmem d1 "eval_memoize_dataloader") eqn:E1; [|split; [intros [? ?]; discriminate|intros [_ H]; apply M1 in H; discriminate]].
    split; [|eexists; reflexivity]. intros _. split; [apply M0|apply M1]; auto.
Qed.

(** * A concrete model: a layer with two 4-bit weights, and a following ReLU *)
Definition ex_fc (m : lqmode) : wcfg := mkWcfg KParam (Some 8%Z) 4 SYM m false true true.
Definition ex_relu : wcfg := mkWcfg KAct (Some 8%Z) 8 ASU SYM true false true.
Definition ex_emb : wcfg := mkWcfg KEmb (Some 8%Z) 4 ASU SYM false true true.
Definition ex_fc_state (m : lqmode) (s z : Q) : wst := mkWst [1; 1 # 2] (requantize (ex_fc m) s z [1; 1 # 2]) false s z 10 0.
Definition ex_ms : model := [("fc", (ex_fc SYM, ex_fc_state SYM (15 # 2) 0)); ("relu", (ex_relu, mkWst [] [] false 1 0 20 0))].
Definition ex_asym : model := [("fc", (ex_fc ASS, ex_fc_state ASS 15 8))].
(** a score: the distance of the stored weights from those of the start *)
Definition ex_eval (ms : model) : Q := match ms with (_, (_, s)) :: _ => Qabs (nth 0 (s_weight s) 0 - 7) + Qabs (s_oscale s - 9) | [] => 0 end.

Lemma ex_wf : wf_model ex_ms /\ wf_model ex_asym.
Proof. split; (split; [cbn; repeat constructor; simpl; intuition discriminate|repeat constructor; discriminate]). Qed.
Lemma ex_symmetric : symmetric_model ex_ms.
Proof. unfold symmetric_model, ex_ms. repeat constructor; cbn; intros; auto; congruence. Qed.
Lemma ex_clippable : clippable ex_ms /\ clippable ex_asym.
Proof. split; unfold clippable; repeat constructor; cbn; repeat split; auto; discriminate. Qed.
Example C86_scales_example :
  search_params false (m_forward ex_ms) = Ok [("fc.w_scale", QOne (15 # 2)); ("fc.output_scale", QOne 10); ("relu.output_scale", QOne 20)] /\
  exists st, search ex_eval false ex_ms [CEval [3; 9; 20]; CCallback [4; -9; 20]; CEval [1; 1; 1]] = Ok st /\
  sr_best st = [("fc.w_scale", QOne 4); ("fc.output_scale", QOne 9); ("relu.output_scale", QOne 20)] /\ sr_score st == 0.
Proof. split; [reflexivity|]. eexists. split; [vm_compute; reflexivity|]. split; reflexivity. Qed.
Example C86_clipping_example :
  (exists P, search_params true (m_forward ex_ms) = Ok P /\ dkeys P = ["fc.output_clipping"; "fc.weight_clipping"; "relu.output_clipping"]) /\
  exists st, search ex_eval true ex_ms [CCallback [85 # 6; 1; 1]] = Ok st /\ sr_score st == 0.
Proof. split; [eexists; split; reflexivity|]. eexists. split; [vm_compute; reflexivity|]. reflexivity. Qed.
Example C85_vector_example : exists d, vec2dict true ["a_min"; "a_max"; "b"] [3; 2; -1] = Ok d /\ d = [("a", QPair 2 3); ("b", QOne 1)].
Proof. eexists. split; vm_compute; reflexivity. Qed.

(** Finding (C85): in a search on clipping values of a symmetric model, evaluating the initial vector already changes the
    quantization parameters, so the initial score is not that of the initial vector. *)
Theorem C85_initial_point_clipping_refuted :
  ~ (forall eval ms P keys x0, wf_model ms -> clippable ms -> symmetric_model ms -> positive_scales ms ->
     search_params true (m_forward ms) = Ok P -> dict2vec true P = Ok (keys, x0) ->
     exists M, feed_forward eval true keys x0 (m_forward ms) = Ok (M, eval M) /\
       Forall2 (fun e e' : string * (wcfg * wst) => s_wscale (snd (snd e')) == s_wscale (snd (snd e))) (m_forward ms) M).
Proof.
  intro H. specialize (H ex_eval ex_ms).
  destruct (search_params true (m_forward ex_ms)) as [P|] eqn:EP; [|vm_compute in EP; discriminate].
  destruct (dict2vec true P) as [[keys x0]|] eqn:Ek; [|vm_compute in EP; injection EP as <-; vm_compute in Ek; discriminate].
  specialize (H P keys x0 (proj1 ex_wf) (proj1 ex_clippable) ex_symmetric).
  destruct H as (M & E & F); auto; [repeat constructor|].
  vm_compute in EP. injection EP as <-. vm_compute in Ek. injection Ek as <- <-. vm_compute in E. injection E as <-. vm_compute in F.
  inversion F as [|? ? ? ? F1 _]; subst. vm_compute in F1. discriminate.
Qed.
(** Finding (C86): the model returned has the parameters evaluated last, not the best ones. *)
Theorem C86_returned_model_refuted :
  ~ (forall eval ms calls st, wf_model ms -> symmetric_model ms -> search eval false ms calls = Ok st -> eval (m_forward (sr_model st)) == sr_score st).
Proof.
  intro H. specialize (H ex_eval ex_ms [CCallback [15 # 2; 9; 20]; CEval [1; 1; 1]]).
  destruct (search ex_eval false ex_ms [CCallback [15 # 2; 9; 20]; CEval [1; 1; 1]]) as [st|] eqn:E; [|vm_compute in E; discriminate].
  specialize (H st (proj1 ex_wf) ex_symmetric eq_refl). vm_compute in E. injection E as <-. vm_compute in H. discriminate.
Qed.
(** Finding (C86): after a search on clipping values that improves nothing, giving the returned (initial) parameters back does
    not restore the initial score: they are scales, and setting a weight scale does not quantize the weights again. *)
Theorem C86_restore_clipping_refuted :
  ~ (forall eval ms calls st ms', wf_model ms -> clippable ms -> search eval true ms calls = Ok st ->
     q_update (sr_best st) (sr_model st) = Ok ms' -> eval (m_forward ms') == sr_score st).
Proof.
  intro H. specialize (H ex_eval ex_ms [CCallback [1; 100; 1]]).
  destruct (search ex_eval true ex_ms [CCallback [1; 100; 1]]) as [st|] eqn:E; [|vm_compute in E; discriminate].
  destruct (q_update (sr_best st) (sr_model st)) as [ms'|] eqn:E'.
  - specialize (H st ms' (proj1 ex_wf) (proj1 ex_clippable) eq_refl E'). vm_compute in E. injection E as <-. vm_compute in E'. injection E' as <-. vm_compute in H. discriminate.
  - vm_compute in E. injection E as <-. vm_compute in E'. discriminate.
Qed.
(** Finding (C86): after a search on scales the weights are not those quantized with the scale the model now has. *)
Definition weights_quantized (ms : model) : Prop :=
  Forall (fun e : string * (wcfg * wst) => c_kind (fst (snd e)) <> KAct ->
    s_weight (snd (snd e)) = requantize (fst (snd e)) (s_wscale (snd (snd e))) (s_wzp (snd (snd e))) (s_float (snd (snd e)))) ms.
Theorem C86_stale_weights_refuted :
  ~ (forall eval ms calls st, wf_model ms -> symmetric_model ms -> weights_quantized ms -> search eval false ms calls = Ok st -> weights_quantized (sr_model st)).
Proof.
  intro H. specialize (H ex_eval ex_ms [CCallback [1; 9; 20]]).
  destruct (search ex_eval false ex_ms [CCallback [1; 9; 20]]) as [st|] eqn:E; [|vm_compute in E; discriminate].
  specialize (H st (proj1 ex_wf) ex_symmetric). assert (K : weights_quantized ex_ms) by (unfold weights_quantized, ex_ms; repeat constructor; cbn; intros; congruence).
  specialize (H K eq_refl). vm_compute in E. injection E as <-. unfold weights_quantized in H. inversion H as [|? ? H1 _]; subst. specialize (H1 ltac:(discriminate)). vm_compute in H1. discriminate.
Qed.
(** Finding (C86): with asymmetric weights, every evaluation of a search on clipping values computes with weights that lack
    their zero point: the wrapper still believes they were shifted by the first forward. *)
Theorem C86_asymmetric_unshifted_refuted :
  ~ (forall eval ms calls st, wf_model ms -> clippable ms -> weights_quantized ms -> Forall (fun e : string * (wcfg * wst) => s_shifted (snd (snd e)) = false) ms -> calls <> [] ->
     search eval true ms calls = Ok st ->
     Forall (fun e : string * (wcfg * wst) => c_kind (fst (snd e)) = KParam -> c_acts (fst (snd e)) <> None -> asym (c_mw (fst (snd e))) = true ->
       s_weight (snd (snd e)) = map (fun q => q + s_wzp (snd (snd e))) (requantize (fst (snd e)) (s_wscale (snd (snd e))) (s_wzp (snd (snd e))) (s_float (snd (snd e))))) (sr_model st)).
Proof.
  intro H. specialize (H ex_eval ex_asym [CCallback [1; 0; 1]]).
  destruct (search ex_eval true ex_asym [CCallback [1; 0; 1]]) as [st|] eqn:E; [|vm_compute in E; discriminate].
  specialize (H st (proj2 ex_wf) (proj2 ex_clippable)). assert (K : weights_quantized ex_asym) by (unfold weights_quantized, ex_asym; repeat constructor; cbn; intros; congruence).
  specialize (H K ltac:(repeat constructor) ltac:(discriminate) eq_refl). vm_compute in E. injection E as <-. inversion H as [|? ? H1 _]; subst.
  specialize (H1 eq_refl ltac:(discriminate) eq_refl). vm_compute in H1. discriminate.
Qed.
Example C86_cmdline_example : cmdline_args_to_dict [("arch", 0%nat); ("lapq_maxiter", 5%nat); ("lapq_eval_size", 1%nat); ("lapq_eval_memoize_dataloader", 0%nat)] = Ok [("maxiter", 5%nat)].
Proof. reflexivity. Qed.

Print Assumptions C85_vector.
Print Assumptions C85_roundtrip.
Print Assumptions C85_vector_exists.
Print Assumptions C85_suffix_refuted.
Print Assumptions C85_model_names.
Print Assumptions C85_validation.
Print Assumptions C85_scales_only.
Print Assumptions C85_clipping_values.
Print Assumptions C85_initial_point.
Print Assumptions C85_initial_point_clipping_refuted.
Print Assumptions C86_search.
Print Assumptions C86_start.
Print Assumptions C86_reapply_scales.
Print Assumptions C86_reapply_clipping.
Print Assumptions C86_scales_keep_integers.
Print Assumptions C86_clipping_requantizes.
Print Assumptions C86_first_forward.
Print Assumptions C86_clipping_needs_outputs.
Print Assumptions C86_cmdline.
Print Assumptions C86_returned_model_refuted.
Print Assumptions C86_restore_clipping_refuted.
Print Assumptions C86_stale_weights_refuted.
Print Assumptions C86_asymmetric_unshifted_refuted.
