From Coq Require Import String Ascii List ZArith QArith Qabs Bool Arith Lia Lqa.
From Verif Require Import Base Lists Names StructModel QuantModel RangeModel LapqModel LapqSpec LapqProofs LapqProofs2 LapqProofs3.
Import ListNotations.
Local Open Scope string_scope.
Open Scope list_scope.

(** * The parameters of a search *)
Definition oks (sc : bool) (ms : model) : Prop := Forall (fun e : string * (wcfg * wst) => cfg_ok sc (fst (snd e))) ms.
Definition chunks_of (sc : bool) (ms : model) (ps : list (dict qpv)) : Prop := Forall2 (fun (e : string * (wcfg * wst)) p => chunk sc (fst (snd e)) (snd (snd e)) = Ok p) ms ps.

Lemma search_params_split sc ms P : search_params sc ms = Ok P -> exists ps, P = flat (map fst ms) ps /\ chunks_of sc ms ps.
Proof.
  revert P; induction ms as [|[n [c s]] ms IH]; intros P H.
  - exists []. split; [|constructor]. destruct sc; injection H as <-; reflexivity.
  - destruct sc; cbn [search_params] in *.
    + cbn [q_clipping] in H. destruct (named_clipping true c s) as [l|] eqn:E; [|discriminate]. cbn [bind] in H.
      destruct (q_clipping true ms) as [l'|] eqn:E'; [|discriminate]. cbn [bind] in H. injection H as <-.
      destruct (IH l' eq_refl) as (ps & -> & F). exists (l :: ps). split; [reflexivity|constructor; auto].
    + unfold q_params in H. cbn [flat_map] in H. injection H as <-. rewrite map_app. destruct (IH _ eq_refl) as (ps & EQ & F).
      exists (map (fun p : string * Q => (fst p, QOne (snd p))) (named_params true c s) :: ps). split; [|constructor; auto].
      unfold flat. cbn [map map2 concat fst]. fold (q_params true ms). fold (flat (map fst ms) ps). rewrite <- EQ. f_equal. unfold qualify. rewrite !map_map. reflexivity.
Qed.
Lemma search_params_ok sc ms : oks sc ms -> exists P, search_params sc ms = Ok P.
Proof.
  destruct sc; [|intros; eexists; reflexivity]. induction 1 as [|[n [c s]] ms H F [P IH]]; [eexists; reflexivity|]. cbn [search_params q_clipping] in *.
  destruct (chunk_true c s H) as (lo & lw & E & _). cbn [chunk] in E. rewrite E. cbn [bind]. rewrite IH. eexists; reflexivity.
Qed.

Definition param_names := ["w_scale"; "w_zero_point"; "output_scale"; "output_zero_point"; "output_clipping"; "weight_clipping"].
Lemma chunk_names sc c s p : chunk sc c s = Ok p -> NoDup (dkeys p) /\ (forall k, In k (dkeys p) -> In k param_names).
Proof.
  destruct sc; cbn [chunk]; intro H.
  - unfold named_clipping, out_clipping, wts_clipping in H.
    destruct (c_kind c), (c_acts c) as [b|]; try destruct (Z.eqb b 0 || negb (c_preset c)); try discriminate; injection H as <-; cbn;
      (split; [repeat constructor; simpl; intuition discriminate|]); intros k Hk; simpl in Hk; unfold param_names; simpl; intuition.
  - injection H as <-. unfold dkeys. rewrite map_map. cbn [fst]. unfold named_params, wts_params, out_params.
    destruct (c_kind c), (c_save c), (match c_acts c with Some _ => true | None => false end && c_preset c), (negb true || asym (c_mw c)), (negb true || asym (c_ma c) && negb (c_half c));
      cbn; (split; [repeat constructor; simpl; intuition discriminate|]); intros k Hk; simpl in Hk; unfold param_names; simpl; intuition.
Qed.
Lemma flat_key names ps k : In k (dkeys (flat names ps)) -> exists n p k', In n names /\ In p ps /\ In k' (dkeys p) /\ k = full_name n k'.
Proof.
  unfold flat, dkeys. revert ps; induction names as [|n names IH]; intros [|p ps] H; try destruct H. cbn [map2 concat] in H. rewrite map_app in H. apply in_app_or in H. destruct H as [H|H].
  - unfold qualify in H. rewrite map_map in H. apply in_map_iff in H. destruct H as (q & <- & Hq). exists n, p, (fst q). repeat split; simpl; auto. apply in_map; auto.
  - destruct (IH _ H) as (n' & p' & k' & A & B & C & D). exists n', p', k'. simpl; auto.
Qed.
Lemma no_dot_param k : In k param_names -> no_dot k = true.
Proof. intros [<-|[<-|[<-|[<-|[<-|[<-|[]]]]]]]; reflexivity. Qed.
Lemma flat_NoDup names ps : NoDup names -> length ps = length names -> Forall (fun p => NoDup (dkeys p) /\ forall k, In k (dkeys p) -> In k param_names) ps -> NoDup (dkeys (flat names ps)).
Proof.
  revert ps; induction names as [|n names IH]; intros [|p ps] N L F; try discriminate; [constructor|]. inversion N as [|? ? Nn N']; subst. inversion F as [|? ? [Np Pp] F']; subst.
  unfold flat. cbn [map2 concat]. unfold dkeys. rewrite map_app.
  assert (D : forall k, In k (map fst (qualify n p)) -> exists k', In k' (dkeys p) /\ k = full_name n k').
  { intros k Hk. unfold qualify in Hk. rewrite map_map in Hk. apply in_map_iff in Hk. destruct Hk as (q & <- & Hq). exists (fst q). split; auto. apply in_map; auto. }
  assert (N1 : NoDup (map fst (qualify n p))).
  { clear - Np Pp. induction p as [|[k v] p IHp]; [constructor|]. cbn in *. inversion Np as [|? ? Hk Np']; subst. constructor.
    - intro Hi. unfold qualify in Hi. rewrite map_map in Hi. apply in_map_iff in Hi. destruct Hi as (q & E & Hq). cbn in E.
      apply full_name_inj in E; [|apply no_dot_param, Pp; right; apply in_map; auto|apply no_dot_param, Pp; auto]. destruct E as [_ E]. apply Hk. rewrite <- E. apply in_map; auto.
    - apply IHp; auto. }
  assert (N2 : NoDup (map fst (flat names ps))) by (apply IH; auto).
  assert (Dis : forall k, In k (map fst (qualify n p)) -> ~ In k (map fst (flat names ps))).
  { intros k Hk Hf. destruct (D _ Hk) as (k' & Hk' & ->). apply flat_key in Hf. destruct Hf as (n' & p' & k'' & A & B & C & E).
    apply full_name_inj in E; [|apply no_dot_param, Pp; auto|rewrite Forall_forall in F'; apply no_dot_param, (proj2 (F' p' B)); auto]. destruct E as [-> _]. contradiction. }
  clear - N1 N2 Dis. fold (flat names ps). induction (map fst (qualify n p)) as [|k l IHl]; auto. inversion N1; subst. cbn. constructor.
  - intro Hi. apply in_app_or in Hi. destruct Hi as [Hi|Hi]; [contradiction|]. apply (Dis k); simpl; auto.
  - apply IHl; auto. intros k0 H0. apply Dis. simpl; auto.
Qed.
Lemma chunks_props sc ms ps : chunks_of sc ms ps -> length ps = length (map fst ms) /\
  Forall (fun p => NoDup (dkeys p) /\ forall k, In k (dkeys p) -> In k param_names) ps /\ Forall (Forall (fun q : string * qpv => no_dot (fst q) = true)) ps.
Proof.
  induction 1 as [|e p ms ps H F (L & A & B)]; [repeat constructor|]. cbn. rewrite L. repeat split; auto; constructor; auto.
  - eapply chunk_names; eauto.
  - eapply chunk_no_dot; eauto.
Qed.
Lemma search_params_names sc ms P : NoDup (map fst ms) -> search_params sc ms = Ok P ->
  NoDup (dkeys P) /\ (forall k, In k (dkeys P) -> exists n p, In n (map fst ms) /\ In p param_names /\ k = full_name n p).
Proof.
  intros N H. destruct (search_params_split _ _ _ H) as (ps & -> & F). destruct (chunks_props _ _ _ F) as (L & A & _). split.
  - apply flat_NoDup; auto.
  - intros k Hk. apply flat_key in Hk. destruct Hk as (n & p & k' & Hn & Hp & Hk' & ->). exists n, k'. repeat split; auto. rewrite Forall_forall in A. apply (proj2 (A p Hp)); auto.
Qed.
Lemma param_plain n p : In p param_names -> plain (full_name n p).
Proof.
  intro H. unfold plain, full_name. rewrite !endswith_app by (destruct H as [<-|[<-|[<-|[<-|[<-|[<-|[]]]]]]]; cbn; lia).
  destruct H as [<-|[<-|[<-|[<-|[<-|[<-|[]]]]]]]; split; reflexivity.
Qed.

(** * Forward passes *)
Lemma w_forward_idem c s : w_forward c (w_forward c s) = w_forward c s.
Proof. unfold w_forward. destruct (c_kind c), (c_acts c); auto. destruct (asym (c_mw c)); cbn [andb]; auto. destruct (negb (s_shifted s)) eqn:E; cbn; [|rewrite E]; reflexivity. Qed.
Lemma m_forward_idem ms : m_forward (m_forward ms) = m_forward ms.
Proof. unfold m_forward. rewrite map_map. apply map_ext. intros [n [c s]]. cbn. rewrite w_forward_idem. reflexivity. Qed.
Lemma m_forward_names ms : map fst (m_forward ms) = map fst ms.
Proof. unfold m_forward. rewrite map_map. reflexivity. Qed.
Lemma m_forward_cfgs ms : map (fun e : string * (wcfg * wst) => fst (snd e)) (m_forward ms) = map (fun e => fst (snd e)) ms.
Proof. unfold m_forward. rewrite map_map. reflexivity. Qed.
Lemma oks_cfgs sc ms ms' : map (fun e : string * (wcfg * wst) => fst (snd e)) ms' = map (fun e => fst (snd e)) ms -> oks sc ms -> oks sc ms'.
Proof.
  unfold oks. intros E H. apply Forall_forall. intros e He. assert (K : Forall (cfg_ok sc) (map (fun e : string * (wcfg * wst) => fst (snd e)) ms)).
  { apply Forall_map. exact H. } rewrite <- E in K. rewrite Forall_map, Forall_forall in K. auto.
Qed.
Lemma w_forward_fix c s s' : w_forward c s = s -> s_shifted s' = s_shifted s -> w_forward c s' = s'.
Proof.
  unfold w_forward. destruct (c_kind c), (c_acts c); auto. destruct (asym (c_mw c)); cbn [andb]; auto. intros H E. rewrite E.
  destruct (negb (s_shifted s)) eqn:F; auto. apply (f_equal s_shifted) in H. cbn in H. rewrite <- H in F. discriminate.
Qed.

(** * Reachable models *)
Definition fits (ds ps : list (dict qpv)) : Prop := Forall2 (fun d p => shapes d = shapes p /\ good d) ds ps.
Lemma MU_settled sc ms ps ds : oks sc ms -> chunks_of sc ms ps -> fits ds ps -> m_forward ms = ms -> m_forward (MU ms ds) = MU ms ds.
Proof.
  intros O C. revert ds O. induction C as [|[n [c s]] p ms ps H C IH]; intros ds O F S; inversion F as [|d ? ds' ? [Hd G] F']; subst; [reflexivity|].
  inversion O as [|? ? O1 O2]; subst. cbn in S. injection S as S1 S2. cbn [MU map2 m_forward map fst snd]. f_equal; [|apply IH; auto].
  cbn [fst snd] in *. do 2 f_equal. apply (w_forward_fix c s); auto. eapply chunk_shifted; eauto.
Qed.
Lemma MU_absorb sc ms ps ds ds' : oks sc ms -> chunks_of sc ms ps -> fits ds ps -> fits ds' ps -> MU (MU ms ds') ds = MU ms ds.
Proof.
  intros O C. revert ds ds' O. induction C as [|[n [c s]] p ms ps H C IH]; intros ds ds' O F F'; inversion F as [|d ? dr ? [Hd G] Fr]; inversion F' as [|d' ? dr' ? [Hd' G'] Fr']; subst; [reflexivity|].
  inversion O as [|? ? O1 O2]; subst. cbn [MU map2 fst snd] in *. f_equal; [|apply IH; auto]. do 2 f_equal. eapply chunk_absorb; eauto.
Qed.
Lemma MU_settable sc ms ps ds : oks sc ms -> chunks_of sc ms ps -> fits ds ps -> Forall2 (fun (e : string * (wcfg * wst)) d => settable (fst (snd e)) d) ms ds.
Proof.
  intros O C. revert ds O. induction C as [|[n [c s]] p ms ps H C IH]; intros ds O F; inversion F as [|d ? ds' ? [Hd G] F']; subst; [constructor|].
  inversion O as [|? ? O1 O2]; subst. constructor; auto. eapply chunk_update; eauto.
Qed.
Lemma settable_cfgs ms ms' (ds : list (dict qpv)) : map (fun e : string * (wcfg * wst) => fst (snd e)) ms' = map (fun e => fst (snd e)) ms ->
  Forall2 (fun (e : string * (wcfg * wst)) d => settable (fst (snd e)) d) ms ds -> Forall2 (fun (e : string * (wcfg * wst)) d => settable (fst (snd e)) d) ms' ds.
Proof.
  intros E F. revert ms' E. induction F as [|e d ms ds H F IH]; intros [|e' ms'] E; try discriminate; constructor; cbn in E; injection E as E1 E2; [rewrite E1; auto|auto].
Qed.
Lemma F2_length {A B} (R : A -> B -> Prop) a b : Forall2 R a b -> length a = length b.
Proof. induction 1; simpl; congruence. Qed.
Lemma fits_length sc ms ps ds : chunks_of sc ms ps -> fits ds ps -> length ds = length ms.
Proof. intros C F. apply F2_length in C. apply F2_length in F. congruence. Qed.

Lemma chunks_unique sc ms ps ps' : chunks_of sc ms ps -> chunks_of sc ms ps' -> ps = ps'.
Proof.
  intros C. revert ps'. induction C as [|e p ms ps H C IH]; intros ps' C'; inversion C' as [|? p' ? ps'' H' C'']; subst; auto.
  rewrite H in H'. injection H' as <-. f_equal. auto.
Qed.

Section Run.
Variables (eval : model -> Q) (sc : bool) (ms1 : model) (P : dict qpv) (keys : list string) (x0 : list Q).
Hypothesis Hnames : NoDup (map fst ms1).
Hypothesis Hoks : oks sc ms1.
Hypothesis Hset : m_forward ms1 = ms1.
Hypothesis HP : search_params sc ms1 = Ok P.
Hypothesis Hk : dict2vec sc P = Ok (keys, x0).

Definition conf (x : list Q) : model := match q_update (decode P x) ms1 with Ok m => m | Raise _ => ms1 end.
Definition reach (M : model) : Prop := M = ms1 \/ exists x, length x = length keys /\ M = conf x.

Lemma decode_ok x : length x = length keys -> denotes P x (decode P x) /\ vec2dict sc keys x = Ok (decode P x).
Proof.
  intro L. destruct (search_params_names sc ms1 P Hnames HP) as [N Pl]. eapply vec2dict_decode; eauto.
  - rewrite L. eapply dict2vec_length; eauto.
  - intros _ k v Hi. destruct (Pl k) as (n & p & _ & Hp & ->); [unfold dkeys; apply in_map_iff; eexists; split; [|exact Hi]; reflexivity|]. apply param_plain; auto.
Qed.
Lemma split_ok x : length x = length keys -> exists ps ds, chunks_of sc ms1 ps /\ fits ds ps /\ decode P x = flat (map fst ms1) ds.
Proof.
  intro L. destruct (decode_ok x L) as [D _]. destruct (search_params_split sc ms1 P HP) as (ps & E & C). destruct (chunks_props _ _ _ C) as (Ln & _ & ND).
  exists ps. destruct (flat_split (map fst ms1) ps (decode P x) Ln ND) as (ds & Ed & F).
  - rewrite (denotes_shapes _ _ _ D), E. reflexivity.
  - exists ds. repeat split; auto. pose proof (denotes_good _ _ _ D) as G. rewrite Ed in G. clear - F G Ln.
    revert G Ln. generalize (map fst ms1). induction F as [|d p ds ps H F IH]; intros [|n names] G Ln; try discriminate; constructor.
    + split; auto. unfold flat in G. cbn [map2 concat] in G. apply Forall_app in G. destruct G as [G _]. unfold qualify in G. rewrite Forall_map in G. exact G.
    + apply (IH names); [|cbn in Ln; congruence]. unfold flat in G. cbn [map2 concat] in G. apply Forall_app in G. tauto.
Qed.
Lemma conf_ok x : length x = length keys -> q_update (decode P x) ms1 = Ok (conf x).
Proof.
  intro L. destruct (split_ok x L) as (ps & ds & C & F & E). unfold conf. rewrite E, q_update_MU; auto. eapply MU_settable; eauto.
Qed.
Lemma conf_MU x ps ds : length x = length keys -> chunks_of sc ms1 ps -> fits ds ps -> decode P x = flat (map fst ms1) ds -> conf x = MU ms1 ds.
Proof. intros L C F E. pose proof (conf_ok x L) as H. rewrite E, q_update_MU in H; auto; [congruence|]. eapply MU_settable; eauto. Qed.
Lemma conf_settled x : length x = length keys -> m_forward (conf x) = conf x.
Proof. intro L. destruct (split_ok x L) as (ps & ds & C & F & E). rewrite (conf_MU x ps ds) by auto. eapply MU_settled; eauto. Qed.
Lemma update_reach M x : reach M -> length x = length keys -> q_update (decode P x) M = Ok (conf x).
Proof.
  intros [->|(y & Ly & ->)] L; [apply conf_ok; auto|].
  destruct (split_ok x L) as (ps & ds & C & F & E). destruct (split_ok y Ly) as (ps' & ds' & C' & F' & E'). rewrite <- (chunks_unique _ _ _ _ C C') in *. clear C'.
  rewrite (conf_MU y ps ds'), (conf_MU x ps ds), E by auto. pose proof (fits_length _ _ _ _ C F') as Lf.
  rewrite <- (MU_names ms1 ds' Lf). rewrite q_update_MU.
  - f_equal. eapply MU_absorb; eauto.
  - rewrite MU_names; auto.
  - apply (settable_cfgs ms1); [apply MU_cfgs; auto|]. eapply MU_settable; eauto.
Qed.
Lemma feed_ok M x : reach M -> length x = length keys -> feed_forward eval sc keys x M = Ok (conf x, eval (conf x)).
Proof.
  intros R L. unfold feed_forward. rewrite (proj2 (decode_ok x L)). cbn [bind]. rewrite (update_reach M x R L). cbn [bind]. rewrite conf_settled by auto. reflexivity.
Qed.

Definition call_vec (c : call) : list Q := match c with CEval x | CCallback x => x end.
Definition pure (st : sst) (c : call) : sst :=
  match c with
  | CEval x => mkSst (conf x) (sr_score st) (sr_best st)
  | CCallback x => if Qltb (eval (conf x)) (sr_score st) then mkSst (conf x) (eval (conf x)) (decode P x) else mkSst (conf x) (sr_score st) (sr_best st)
  end.
Lemma step_pure st c : reach (sr_model st) -> length (call_vec c) = length keys -> search_step eval sc keys st c = Ok (pure st c) /\ reach (sr_model (pure st c)).
Proof.
  intros R L. destruct c as [x|x]; cbn [call_vec] in L; cbn [search_step]; rewrite (feed_ok _ x R L); cbn [bind fst snd pure].
  - split; auto. right; eauto.
  - destruct (Qltb (eval (conf x)) (sr_score st)); [rewrite (proj2 (decode_ok x L)); cbn [bind]|]; (split; auto; right; eauto).
Qed.
Lemma run_pure calls : forall st, reach (sr_model st) -> Forall (fun c => length (call_vec c) = length keys) calls ->
  foldM (search_step eval sc keys) calls st = Ok (fold_left pure calls st) /\ reach (sr_model (fold_left pure calls st)).
Proof.
  induction calls as [|c calls IH]; intros st R F; [split; auto|]. inversion F; subst. cbn [foldM fold_left]. destruct (step_pure st c R H1) as [-> R']. cbn [bind]. apply IH; auto.
Qed.

Lemma pure_model calls c st : sr_model (fold_left pure (calls ++ [c]) st) = conf (call_vec c).
Proof. rewrite fold_left_app. cbn. destruct c; cbn; auto. destruct (Qltb _ _); auto. Qed.

Lemma pure_best calls st0 :
  let st := fold_left pure calls st0 in
  (sr_score st = sr_score st0 /\ sr_best st = sr_best st0 /\ forall x, In (CCallback x) calls -> sr_score st <= eval (conf x)) \/
  exists l1 x l2, calls = l1 ++ CCallback x :: l2 /\ sr_score st = eval (conf x) /\ sr_best st = decode P x /\
    sr_score st < sr_score st0 /\ (forall y, In (CCallback y) l1 -> sr_score st < eval (conf y)) /\ (forall y, In (CCallback y) l2 -> sr_score st <= eval (conf y)).
Proof.
  cbv zeta. induction calls as [|c calls IH] using rev_ind; [left; repeat split; intros ? []|].
  rewrite fold_left_app. cbn [fold_left]. set (st := fold_left pure calls st0) in *.
  assert (Keep : sr_score (pure st c) = sr_score st -> sr_best (pure st c) = sr_best st -> (forall x, c = CCallback x -> sr_score st <= eval (conf x)) ->
    (sr_score (pure st c) = sr_score st0 /\ sr_best (pure st c) = sr_best st0 /\ forall x, In (CCallback x) (calls ++ [c]) -> sr_score (pure st c) <= eval (conf x)) \/
  exists l1 x l2, calls ++ [c] = l1 ++ CCallback x :: l2 /\ sr_score (pure st c) = eval (conf x) /\ sr_best (pure st c) = decode P x /\
    sr_score (pure st c) < sr_score st0 /\ (forall y, In (CCallback y) l1 -> sr_score (pure st c) < eval (conf y)) /\ (forall y, In (CCallback y) l2 -> sr_score (pure st c) <= eval (conf y))).
  { intros -> -> Hc. destruct IH as [(A & B & C)|(l1 & x & l2 & A & B & C & D & E & F)].
    - left. repeat split; auto. intros x Hx. apply in_app_or in Hx. destruct Hx as [Hx|[Hx|[]]]; auto.
    - right. exists l1, x, (l2 ++ [c]). rewrite A, <- app_assoc. repeat split; auto. intros y Hy. apply in_app_or in Hy. destruct Hy as [Hy|[Hy|[]]]; auto. }
  destruct c as [x|x].
  - apply Keep; try reflexivity. intros y Hy. discriminate.
  - cbn [pure] in *. destruct (Qltb (eval (conf x)) (sr_score st)) eqn:Q.
    + clear Keep. apply Qltb_lt in Q. cbn [sr_score sr_best]. right. exists calls, x, []. repeat split; auto.
      * destruct IH as [(A & _ & _)|(l1 & z & l2 & _ & _ & _ & D & _ & _)]; [rewrite <- A; auto|]. eapply Qlt_trans; eauto.
      * intros y Hy. destruct IH as [(_ & _ & C)|(l1 & z & l2 & A & B & C & D & E & F)]; [eapply Qlt_le_trans; eauto|].
        rewrite A in Hy. apply in_app_or in Hy. destruct Hy as [Hy|[Hy|Hy]].
        -- eapply Qlt_trans; eauto.
        -- injection Hy as ->. rewrite <- B; auto.
        -- eapply Qlt_le_trans; eauto.
      * intros y [].
    + apply Qltb_ge in Q. cbn [sr_score sr_best]. apply Keep; auto. intros y Hy. injection Hy as <-. auto.
Qed.
End Run.

(** * Validation *)
Lemma validate_spec ms : wf_model ms -> (validate false ms = Ok tt <-> symmetric_model ms) /\ (validate false ms <> Ok tt -> validate false ms = Raise ValueError).
Proof.
  intros [_ W]. unfold validate, symmetric_model. induction W as [|[n [c s]] ms Hz W [IH1 IH2]]; cbn [foldM fst snd] in *.
  - split; [split; auto|congruence].
  - assert (V : (validate1 c = Ok tt <-> ((c_kind c <> KEmb -> c_acts c <> None -> asym (c_ma c) = true -> c_half c = true) /\ (c_kind c <> KAct -> asym (c_mw c) = false))) /\ (validate1 c = Ok tt \/ validate1 c = Raise ValueError)).
    { unfold validate1, acts_quantized. destruct (c_acts c) as [b|] eqn:A.
      - destruct (Z.eqb_spec b 0); [congruence|]. cbn [negb].
        destruct (c_kind c), (asym (c_ma c)), (c_half c), (asym (c_mw c)); cbn; (split; [|auto]); (split; [intro H; try discriminate; repeat split; congruence|intros [H1 H2]; try reflexivity; exfalso; first [(assert (E : false = true) by (apply H1; first [discriminate|reflexivity])); discriminate E|(assert (E : true = false) by (apply H2; discriminate)); discriminate E]]).
      - destruct (c_kind c), (asym (c_ma c)), (c_half c), (asym (c_mw c)); cbn; (split; [|auto]); (split; [intro H; try discriminate; repeat split; congruence|intros [H1 H2]; try reflexivity; exfalso; first [(assert (E : false = true) by (apply H1; first [discriminate|reflexivity])); discriminate E|(assert (E : true = false) by (apply H2; discriminate)); discriminate E]]). }
    destruct V as [V1 [V2|V2]]; rewrite V2; cbn [bind].
    + split; auto. rewrite Forall_cons_iff. cbn [fst snd]. rewrite <- V1, V2, IH1. tauto.
    + split; auto. rewrite Forall_cons_iff. cbn [fst snd]. rewrite <- V1, V2. split; [discriminate|tauto].
Qed.
Lemma oks_of (sc : bool) ms : wf_model ms -> (if sc then clippable ms else symmetric_model ms) -> oks sc ms.
Proof.
  intros [_ W] H. unfold oks. rewrite Forall_forall in *. intros e He. split; [apply W; auto|].
  destruct sc; [unfold clippable in H|unfold symmetric_model in H]; rewrite Forall_forall in H; apply (H e He).
Qed.
Lemma validate_ok (sc : bool) ms : wf_model ms -> (if sc then clippable ms else symmetric_model ms) -> validate sc ms = Ok tt.
Proof. intros W H. destruct sc; auto. apply validate_spec; auto. Qed.

(** * Putting the parameters of the start back after a search on scales *)
Lemma flat_all ms : map (fun p : string * Q => (fst p, QOne (snd p))) (q_params false ms) = flat (map fst ms) (map (fun e : string * (wcfg * wst) => all_params (fst (snd e)) (snd (snd e))) ms).
Proof.
  unfold flat, q_params. induction ms as [|[n [c s]] ms IH]; [reflexivity|]. cbn [flat_map map map2 concat fst snd]. rewrite map_app, IH. f_equal. unfold all_params, qualify. rewrite !map_map. reflexivity.
Qed.
Lemma MU_restore ms ps ds : oks false ms -> chunks_of false ms ps -> Forall2 (fun d p => shapes d = shapes p) ds ps ->
  Forall2 (fun (e : string * (wcfg * wst)) d => settable (fst (snd e)) d) ms (map (fun e : string * (wcfg * wst) => all_params (fst (snd e)) (snd (snd e))) ms) /\
  MU (MU ms ds) (map (fun e : string * (wcfg * wst) => all_params (fst (snd e)) (snd (snd e))) ms) = ms.
Proof.
  intros O C. revert ds O. induction C as [|[n [c s]] p ms ps H C IH]; intros ds O F; inversion F as [|d ? dr ? Hd Fr]; subst; [split; [constructor|reflexivity]|].
  inversion O as [|? ? O1 O2]; subst. cbn [fst snd] in *. destruct (IH dr O2 Fr) as [A B]. destruct (restore c d p s s O1 H Hd) as [R1 R2].
  split; [constructor; auto|]. cbn [MU map2 map fst snd]. f_equal; auto. rewrite R2. reflexivity.
Qed.
Lemma MU_frozen ms ps ds : oks false ms -> chunks_of false ms ps -> fits ds ps ->
  Forall2 (fun e e' : string * (wcfg * wst) => fst e' = fst e /\ fst (snd e') = fst (snd e) /\ frozen (snd (snd e)) (snd (snd e'))) ms (MU ms ds).
Proof.
  intros O C. revert ds O. induction C as [|[n [c s]] p ms ps H C IH]; intros ds O F; inversion F as [|d ? dr ? [Hd G] Fr]; subst; [constructor|].
  inversion O as [|? ? O1 O2]; subst. cbn [MU map2]. constructor; [|apply IH; auto]. cbn. repeat split; eapply scale_frozen; eauto.
Qed.
