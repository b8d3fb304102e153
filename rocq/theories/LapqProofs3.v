From Coq Require Import String Ascii List ZArith QArith Qabs Bool Arith Lia Lqa.
From Verif Require Import Base Lists Names StructModel QuantModel RangeModel LapqModel LapqSpec LapqProofs LapqProofs2.
Import ListNotations.
Local Open Scope string_scope.
Open Scope list_scope.

(** * Configurations for which a search works *)
Definition cfg_ok (sc : bool) (c : wcfg) : Prop :=
  c_acts c <> Some 0%Z /\
  if sc then match c_kind c with KAct => c_acts c <> None /\ c_preset c = true | _ => c_save c = true end
  else (c_kind c <> KEmb -> c_acts c <> None -> asym (c_ma c) = true -> c_half c = true) /\ (c_kind c <> KAct -> asym (c_mw c) = false).
Definition good_val (v : qpv) : Prop := match v with QOne x => 0 <= x | QPair a b => a <= b end.
Definition good (d : dict qpv) : Prop := Forall (fun p => good_val (snd p)) d.
Definition chunk (sc : bool) (c : wcfg) (s : wst) : res (dict qpv) :=
  if sc then named_clipping true c s else Ok (map (fun p : string * Q => (fst p, QOne (snd p))) (named_params true c s)).

Lemma denotes_good d x d' : denotes d x d' -> good d'.
Proof. induction 1; constructor; auto. simpl. apply Qabs_nonneg. Qed.

Ltac shape_inv H :=
  match type of H with
  | shapes ?d = shapes _ =>
    let k := fresh "k" in let v := fresh "v" in
    cbn in H; destruct d as [|[k [v|? v]] d]; cbn in H; try discriminate; repeat (injection H as -> H; try shape_inv H)
  end.

(** the wrapper with some scales replaced *)
Definition with_scales (ow oo : option Q) (s : wst) : wst :=
  mkWst (s_float s) (s_weight s) (s_shifted s) (match ow with Some x => x | None => s_wscale s end) (s_wzp s)
        (match oo with Some x => x | None => s_oscale s end) (s_ozp s).
Definition opt_same {A} (a b : option A) : Prop := match a, b with Some _, Some _ | None, None => True | _, _ => False end.
Lemma with_scales_absorb ow oo ow' oo' s : opt_same ow ow' -> opt_same oo oo' -> with_scales ow oo (with_scales ow' oo' s) = with_scales ow oo s.
Proof. destruct ow, ow', oo, oo'; simpl; tauto. Qed.

(** which scales a search on scales covers *)
Definition has_ws (c : wcfg) : bool := match c_kind c with KEmb => true | KParam => c_save c | KAct => false end.
Definition has_os (c : wcfg) : bool :=
  match c_kind c with KEmb => false | _ => (match c_acts c with Some _ => true | None => false end) && c_preset c end.
Definition opt_is {A} (b : bool) (o : option A) : Prop := match o with Some _ => b = true | None => b = false end.

Lemma named_params_true c s : cfg_ok false c ->
  named_params true c s = (if has_ws c then [("w_scale", s_wscale s)] else []) ++ (if has_os c then [("output_scale", s_oscale s)] else []).
Proof.
  intros [Hz [Ha Hw]]. unfold named_params, wts_params, out_params, has_ws, has_os. cbn [negb orb].
  destruct (c_kind c) eqn:K.
  - rewrite (Hw ltac:(discriminate)). destruct (c_save c), (c_acts c), (c_preset c); simpl; auto;
    (destruct (asym (c_ma c)) eqn:E; [rewrite (Ha ltac:(discriminate) ltac:(discriminate) eq_refl)|]; simpl; reflexivity).
  - destruct (c_acts c), (c_preset c); simpl; auto;
    (destruct (asym (c_ma c)) eqn:E; [rewrite (Ha ltac:(discriminate) ltac:(discriminate) eq_refl)|]; simpl; reflexivity).
  - rewrite (Hw ltac:(discriminate)). reflexivity.
Qed.

Lemma clip_keys c s : cfg_ok false c -> has_ws c = true \/ has_os c = true -> exists cl, named_clipping false c s = Ok cl /\
  dmem cl "w_scale" = false /\ dmem cl "output_scale" = false /\ dmem cl "w_zero_point" = false /\ dmem cl "output_zero_point" = false.
Proof.
  intros [Hz _] H. unfold named_clipping, out_clipping, wts_clipping, has_ws, has_os in *.
  destruct (c_kind c).
  - destruct (c_acts c) as [b|]; [destruct (Z.eqb_spec b 0); [congruence|]|]; destruct (c_preset c); simpl; eexists; (split; [reflexivity|]); repeat split; reflexivity.
  - destruct H as [H|H]; [discriminate|]. destruct (c_acts c) as [b|]; [|discriminate]. destruct (Z.eqb_spec b 0); [congruence|]. simpl in H. rewrite H. simpl. eexists; (split; [reflexivity|]); repeat split; reflexivity.
  - eexists; (split; [reflexivity|]); repeat split; reflexivity.
Qed.
Lemma set_wscale c s x : cfg_ok false c -> has_ws c = true -> w_set c s ("w_scale", QOne x) = Ok (with_scales (Some x) None s).
Proof.
  intros Hc H. destruct (clip_keys c s Hc (or_introl H)) as (cl & E & E1 & _). unfold w_set. cbn [fst snd]. rewrite E. cbn [bind]. rewrite E1.
  assert (E2 : dmem (named_params false c s) "w_scale" = true).
  { apply dmem_In. unfold named_params, has_ws in *. destruct (c_kind c); [rewrite H| discriminate|]; simpl; auto. }
  rewrite E2. reflexivity.
Qed.
Lemma set_oscale c s x : cfg_ok false c -> has_os c = true -> w_set c s ("output_scale", QOne x) = Ok (with_scales None (Some x) s).
Proof.
  intros Hc H. destruct (clip_keys c s Hc (or_intror H)) as (cl & E & _ & E1 & _). unfold w_set. cbn [fst snd]. rewrite E. cbn [bind]. rewrite E1.
  assert (E2 : dmem (named_params false c s) "output_scale" = true).
  { apply dmem_In. unfold named_params, has_os, out_params in *. destruct (c_kind c); [|rewrite H; simpl; auto|discriminate].
    rewrite H. unfold dkeys. rewrite map_app. apply in_or_app. right. simpl; auto. }
  rewrite E2. reflexivity.
Qed.

Lemma scale_update c d p s0 : cfg_ok false c -> chunk false c s0 = Ok p -> shapes d = shapes p ->
  exists ow oo, opt_is (has_ws c) ow /\ opt_is (has_os c) oo /\ (forall s, foldM (w_set c) d s = Ok (with_scales ow oo s)).
Proof.
  intros Hc Hp Hd. cbn [chunk] in Hp. rewrite named_params_true in Hp by auto. injection Hp as <-.
  destruct (has_ws c) eqn:W, (has_os c) eqn:O; cbn in Hd.
  - destruct d as [|[k [v|]] [|[k' [v'|]] [|? d]]]; try discriminate. cbn in Hd. injection Hd as -> ->. exists (Some v), (Some v').
    repeat split. intro s. cbn [foldM]. rewrite set_wscale by auto. cbn [bind]. rewrite set_oscale by auto. reflexivity.
  - destruct d as [|[k [v|]] [|? d]]; try discriminate. cbn in Hd. injection Hd as ->. exists (Some v), None.
    repeat split. intro s. cbn [foldM]. rewrite set_wscale by auto. reflexivity.
  - destruct d as [|[k [v|]] [|? d]]; try discriminate. cbn in Hd. injection Hd as ->. exists None, (Some v).
    repeat split. intro s. cbn [foldM]. rewrite set_oscale by auto. reflexivity.
  - destruct d; [|discriminate]. exists None, None. repeat split. intro s. cbn. destruct s; reflexivity.
Qed.

(** * Clipping values *)
Lemma sym1_params bits x r : 0 <= x -> sym_params bits [x] r = Ok [sym1 bits r x].
Proof. intro H. unfold sym_params. cbn [existsb]. apply Qltb_ge in H. rewrite H. reflexivity. Qed.
Lemma asym1_params bits a b i sg : a <= b -> asym_params bits [a] [b] i sg = Ok [asym1 bits i sg a b].
Proof. intro H. unfold asym_params. cbn [existsb combine fst snd]. apply Qltb_ge in H. rewrite H. reflexivity. Qed.
Lemma qmax_nonneg a b : 0 <= a -> 0 <= qmax a b.
Proof. intro H. unfold qmax. destruct (Qle_bool a b) eqn:E; auto. apply Qle_bool_iff in E. lra. Qed.

Lemma out_clip_ok c v b : c_acts c = Some b -> good_val v -> (is_sym (PM (c_ma c)) = false -> c_half c = false -> match v with QPair _ _ => True | _ => False end) ->
  exists p, set_output_clipping b (PM (c_ma c)) (c_half c) (clipval_of v) = Ok p.
Proof.
  intros Hb G Hs. unfold set_output_clipping, check_clipping_val, params_from_range.
  destruct (is_sym (PM (c_ma c))) eqn:S.
  - destruct v; cbn [clipval_of bind fst snd]; rewrite sym1_params by (apply qmax_nonneg, Qabs_nonneg); eexists; reflexivity.
  - destruct v as [x|x y]; cbn [clipval_of].
    + destruct (c_half c); [|destruct (Hs eq_refl eq_refl)]. cbn [bind fst snd]. rewrite asym1_params by exact G. eexists; reflexivity.
    + cbn [bind fst snd]. rewrite asym1_params by exact G. eexists; reflexivity.
Qed.
Definition wts_pair (c : wcfg) (v : qpv) : res (Q * Q) :=
  let m := PM (c_mw c) in
  match c_kind c with
  | KEmb => do r <- check_clipping_val (clipval_of v) m false;
            do p <- (if is_sym m then sym_params (c_wts c) [snd r] false
                     else asym_params (c_wts c) [fst r] [snd r] true (mode_is m ASS));
            first_param p
  | _ => set_weight_clipping (c_wts c) m (clipval_of v)
  end.
Lemma wts_clip_ok c v : good_val v -> (match v with QOne _ => is_sym (PM (c_mw c)) | QPair _ _ => negb (is_sym (PM (c_mw c))) end = true) -> exists p, wts_pair c v = Ok p.
Proof.
  intros G S. unfold wts_pair, set_weight_clipping, check_clipping_val.
  destruct v as [x|x y].
  - rewrite S. cbn [clipval_of]. destruct (c_kind c); cbn [bind fst snd]; rewrite sym1_params; try (eexists; reflexivity); auto; apply Qabs_nonneg.
  - apply negb_true_iff in S. rewrite S. destruct (c_kind c); cbn [clipval_of bind fst snd]; rewrite asym1_params by exact G; eexists; reflexivity.
Qed.

(** the wrapper with some clipping values set *)
Definition with_clips (c : wcfg) (ow oo : option (Q * Q)) (s : wst) : wst :=
  mkWst (s_float s) (match ow with Some p => requantize c (fst p) (snd p) (s_float s) | None => s_weight s end) (s_shifted s)
        (match ow with Some p => fst p | None => s_wscale s end) (match ow with Some p => snd p | None => s_wzp s end)
        (match oo with Some p => fst p | None => s_oscale s end) (match oo with Some p => snd p | None => s_ozp s end).
Lemma with_clips_absorb c ow oo ow' oo' s : opt_same ow ow' -> opt_same oo oo' -> with_clips c ow oo (with_clips c ow' oo' s) = with_clips c ow oo s.
Proof. destruct ow, ow', oo, oo'; simpl; tauto. Qed.
Definition has_wc (c : wcfg) : bool := match c_kind c with KAct => false | _ => true end.

Lemma clip_keys_true c : cfg_ok true c -> forall s, exists cl, named_clipping false c s = Ok cl /\
  dmem cl "weight_clipping" = has_wc c /\ dmem cl "output_clipping" = has_os c.
Proof.
  intros [Hz H] s. unfold named_clipping, out_clipping, wts_clipping, has_wc, has_os in *.
  destruct (c_kind c).
  - destruct (c_acts c) as [b|]; [destruct (Z.eqb_spec b 0); [congruence|]|]; destruct (c_preset c); simpl; eexists; (split; [reflexivity|]); repeat split; reflexivity.
  - destruct H as [H1 H2]. destruct (c_acts c) as [b|]; [|congruence]. destruct (Z.eqb_spec b 0); [congruence|]. rewrite H2. simpl. eexists; (split; [reflexivity|]); repeat split; reflexivity.
  - eexists; (split; [reflexivity|]); repeat split; reflexivity.
Qed.
Lemma set_wclip c s v p : cfg_ok true c -> has_wc c = true -> wts_pair c v = Ok p -> w_set c s ("weight_clipping", v) = Ok (with_clips c (Some p) None s).
Proof.
  intros Hc H Hp. destruct (clip_keys_true c Hc s) as (cl & E & E1 & _). unfold w_set. cbn [fst snd]. rewrite E. cbn [bind]. rewrite E1, H. cbn [String.eqb Ascii.eqb].
  change (String.eqb "weight_clipping" "output_clipping") with false. cbv iota. unfold set_wts_clip. fold (wts_pair c v). rewrite Hp. cbn [bind].
  assert (c_save c = true) as ->. { destruct Hc as [_ Hc]. unfold has_wc in H. destruct (c_kind c); auto. discriminate. }
  reflexivity.
Qed.
Lemma set_oclip c s v p b : cfg_ok true c -> has_os c = true -> c_acts c = Some b -> set_output_clipping b (PM (c_ma c)) (c_half c) (clipval_of v) = Ok p ->
  w_set c s ("output_clipping", v) = Ok (with_clips c None (Some p) s).
Proof.
  intros Hc H Hb Hp. destruct (clip_keys_true c Hc s) as (cl & E & _ & E1). unfold w_set. cbn [fst snd]. rewrite E. cbn [bind]. rewrite E1, H.
  change (String.eqb "output_clipping" "output_clipping") with true. cbv iota. unfold set_out_clip. rewrite Hb, Hp. reflexivity.
Qed.

Lemma chunk_true c s : cfg_ok true c ->
  exists lo lw, chunk true c s = Ok ((if has_os c then [("output_clipping", lo)] else []) ++ (if has_wc c then [("weight_clipping", lw)] else [])) /\
  match lo with QOne _ => is_sym (PM (c_ma c)) || c_half c | QPair _ _ => negb (is_sym (PM (c_ma c)) || c_half c) end = true /\
  match lw with QOne _ => is_sym (PM (c_mw c)) | QPair _ _ => negb (is_sym (PM (c_mw c))) end = true.
Proof.
  intros [Hz H].
  exists (clip_pair true (is_sym (PM (c_ma c)) || c_half c) (get_clipping_values (s_oscale s) (s_ozp s) (match c_acts c with Some b => b | None => 0%Z end) (PM (c_ma c)))),
         (clip_pair true (is_sym (PM (c_mw c))) (get_clipping_values (s_wscale s) (s_wzp s) (c_wts c) (PM (c_mw c)))).
  split; [|unfold clip_pair; destruct (is_sym (PM (c_ma c)) || c_half c), (is_sym (PM (c_mw c))); split; reflexivity].
  cbn [chunk]. unfold named_clipping, out_clipping, wts_clipping, has_wc, has_os.
  destruct (c_kind c).
  - destruct (c_acts c) as [b|]; [destruct (Z.eqb_spec b 0); [congruence|]|]; destruct (c_preset c); reflexivity.
  - destruct H as [H1 H2]. destruct (c_acts c) as [b|]; [|congruence]. destruct (Z.eqb_spec b 0); [congruence|]. rewrite H2. reflexivity.
  - reflexivity.
Qed.

Lemma clip_update c d p s0 : cfg_ok true c -> chunk true c s0 = Ok p -> shapes d = shapes p -> good d ->
  exists ow oo, opt_is (has_wc c) ow /\ opt_is (has_os c) oo /\ (forall s, foldM (w_set c) d s = Ok (with_clips c ow oo s)).
Proof.
  intros Hc Hp Hd G. destruct (chunk_true c s0 Hc) as (lo & lw & E & Slo & Slw). rewrite E in Hp. injection Hp as <-. clear E.
  assert (Acts : has_os c = true -> exists b, c_acts c = Some b).
  { unfold has_os. destruct (c_kind c), (c_acts c) as [b|]; try discriminate; eauto. }
  assert (OC : forall v b, c_acts c = Some b -> good_val v -> match v with QOne _ => true | QPair _ _ => false end = match lo with QOne _ => true | QPair _ _ => false end ->
     exists p, set_output_clipping b (PM (c_ma c)) (c_half c) (clipval_of v) = Ok p).
  { intros v b Hb Gv Sv. apply out_clip_ok; auto. intros Hs Hh. destruct v; auto. destruct lo; [|discriminate]. rewrite Hs, Hh in Slo. discriminate. }
  assert (WC : forall v, good_val v -> match v with QOne _ => true | QPair _ _ => false end = match lw with QOne _ => true | QPair _ _ => false end ->
     exists p, wts_pair c v = Ok p).
  { intros v Gv Sv. apply wts_clip_ok; auto. destruct v, lw; auto; discriminate. }
  destruct (has_os c) eqn:O, (has_wc c) eqn:W; cbn in Hd.
  - destruct d as [|[k v] [|[k' v'] [|? d]]]; try discriminate. cbn in Hd. injection Hd as -> S1 -> S2. inversion G as [|? ? G1 G']; subst. inversion G' as [|? ? G2 _]; subst.
    destruct (Acts eq_refl) as [b Hb]. destruct (OC v b Hb G1 S1) as [p1 P1]. destruct (WC v' G2 S2) as [p2 P2]. exists (Some p2), (Some p1).
    repeat split. intro s. cbn [foldM]. rewrite (set_oclip c s v p1 b) by auto. cbn [bind]. rewrite (set_wclip c _ v' p2) by auto. reflexivity.
  - destruct d as [|[k v] [|? d]]; try discriminate. cbn in Hd. injection Hd as -> S1. inversion G as [|? ? G1 G']; subst.
    destruct (Acts eq_refl) as [b Hb]. destruct (OC v b Hb G1 S1) as [p1 P1]. exists None, (Some p1).
    repeat split. intro s. cbn [foldM]. rewrite (set_oclip c s v p1 b) by auto. reflexivity.
  - destruct d as [|[k v] [|? d]]; try discriminate. cbn in Hd. injection Hd as -> S1. inversion G as [|? ? G1 G']; subst.
    destruct (WC v G1 S1) as [p2 P2]. exists (Some p2), None.
    repeat split. intro s. cbn [foldM]. rewrite (set_wclip c _ v p2) by auto. reflexivity.
  - destruct d; [|discriminate]. exists None, None. repeat split. intro s. cbn. destruct s; reflexivity.
Qed.

(** * Both kinds of search *)
Lemma chunk_no_dot sc c s p : chunk sc c s = Ok p -> Forall (fun q => no_dot (fst q) = true) p.
Proof.
  destruct sc; cbn [chunk]; intro H.
  - unfold named_clipping, out_clipping, wts_clipping in H.
    destruct (c_kind c), (c_acts c) as [b|]; try destruct (Z.eqb b 0 || negb (c_preset c)); try discriminate; injection H as <-; repeat constructor.
  - injection H as <-. apply Forall_forall. intros q Hq. apply in_map_iff in Hq. destruct Hq as ([k v] & <- & Hq). cbn.
    eapply named_params_no_dot. unfold dkeys. apply in_map_iff. eexists; split; [|exact Hq]. reflexivity.
Qed.
Lemma shapes_no_dot d p : shapes d = shapes p -> Forall (fun q : string * qpv => no_dot (fst q) = true) p -> Forall (fun q : string * qpv => no_dot (fst q) = true) d.
Proof.
  revert p; induction d as [|[k v] d IH]; intros [|[k' v'] p] H F; try discriminate; auto. cbn in H. injection H as -> _ H. inversion F; subst. constructor; auto. eapply IH; eauto.
Qed.

Lemma chunk_update sc c d p s0 : cfg_ok sc c -> chunk sc c s0 = Ok p -> shapes d = shapes p -> good d -> settable c d.
Proof.
  intros Hc Hp Hd G. split; [eapply shapes_no_dot; eauto; eapply chunk_no_dot; eauto|].
  destruct sc.
  - destruct (clip_update c d p s0 Hc Hp Hd G) as (ow & oo & _ & _ & K). intro s. unfold U. rewrite K. reflexivity.
  - destruct (scale_update c d p s0 Hc Hp Hd) as (ow & oo & _ & _ & K). intro s. unfold U. rewrite K. reflexivity.
Qed.
Lemma opt_is_same {A} b (o o' : option A) : opt_is b o -> opt_is b o' -> opt_same o o'.
Proof. destruct o, o'; simpl; intros; subst; auto; discriminate. Qed.
Lemma chunk_absorb sc c d d' p s0 s : cfg_ok sc c -> chunk sc c s0 = Ok p -> shapes d = shapes p -> good d -> shapes d' = shapes p -> good d' ->
  U c d (U c d' s) = U c d s.
Proof.
  intros Hc Hp Hd G Hd' G'. unfold U. destruct sc.
  - destruct (clip_update c d p s0 Hc Hp Hd G) as (ow & oo & W & O & K). destruct (clip_update c d' p s0 Hc Hp Hd' G') as (ow' & oo' & W' & O' & K').
    rewrite K', K, K. apply with_clips_absorb; eapply opt_is_same; eauto.
  - destruct (scale_update c d p s0 Hc Hp Hd) as (ow & oo & W & O & K). destruct (scale_update c d' p s0 Hc Hp Hd') as (ow' & oo' & W' & O' & K').
    rewrite K', K, K. apply with_scales_absorb; eapply opt_is_same; eauto.
Qed.
Lemma chunk_shifted sc c d p s0 s : cfg_ok sc c -> chunk sc c s0 = Ok p -> shapes d = shapes p -> good d -> s_shifted (U c d s) = s_shifted s.
Proof.
  intros Hc Hp Hd G. unfold U. destruct sc.
  - destruct (clip_update c d p s0 Hc Hp Hd G) as (ow & oo & W & O & K). rewrite K. reflexivity.
  - destruct (scale_update c d p s0 Hc Hp Hd) as (ow & oo & W & O & K). rewrite K. reflexivity.
Qed.

(** a search on scales leaves everything else, and the parameters of the start can be put back *)
Lemma scale_frozen c d p s0 s : cfg_ok false c -> chunk false c s0 = Ok p -> shapes d = shapes p -> frozen s (U c d s).
Proof.
  intros Hc Hp Hd. unfold U. destruct (scale_update c d p s0 Hc Hp Hd) as (ow & oo & W & O & K). rewrite K. repeat split.
Qed.
Lemma fill_param c s n v : cfg_ok false c -> has_ws c = true \/ has_os c = true -> In n (dkeys (named_params false c s)) -> In n ["w_scale"; "w_zero_point"; "output_scale"; "output_zero_point"] ->
  w_set c s (n, v) = fill n v s.
Proof.
  intros Hc H Hi Hn. destruct (clip_keys c s Hc H) as (cl & E & E1 & E2 & E3 & E4). unfold w_set. cbn [fst snd]. rewrite E. cbn [bind].
  assert (dmem cl n = false) as ->. { destruct Hn as [<-|[<-|[<-|[<-|[]]]]]; auto. }
  apply dmem_In in Hi. rewrite Hi. reflexivity.
Qed.
Definition all_params (c : wcfg) (s : wst) : dict qpv := map (fun p : string * Q => (fst p, QOne (snd p))) (named_params false c s).
Lemma restore c d p s0 s1 : cfg_ok false c -> chunk false c s0 = Ok p -> shapes d = shapes p ->
  settable c (all_params c s1) /\ U c (all_params c s1) (U c d s1) = s1.
Proof.
  intros Hc Hp Hd.
  assert (K : forall s, foldM (w_set c) (all_params c s1) s =
    Ok (mkWst (s_float s) (s_weight s) (s_shifted s) (if has_ws c then s_wscale s1 else s_wscale s) (if has_ws c then s_wzp s1 else s_wzp s)
              (if has_os c then s_oscale s1 else s_oscale s) (if has_os c then s_ozp s1 else s_ozp s))).
  { intro s. assert (E : named_params false c s1 = (if has_ws c then [("w_scale", s_wscale s1); ("w_zero_point", s_wzp s1)] else []) ++
        (if has_os c then [("output_scale", s_oscale s1); ("output_zero_point", s_ozp s1)] else [])).
    { unfold named_params, has_ws, has_os, wts_params, out_params. destruct (c_kind c), (c_save c), (c_acts c), (c_preset c); reflexivity. }
    assert (Ek : forall s', dkeys (named_params false c s') = dkeys (named_params false c s1)).
    { intro s'. unfold named_params, wts_params, out_params. destruct (c_kind c), (c_save c), (c_acts c), (c_preset c); reflexivity. }
    assert (FP : forall s' n v, has_ws c = true \/ has_os c = true -> In n (dkeys (named_params false c s1)) -> In n ["w_scale"; "w_zero_point"; "output_scale"; "output_zero_point"] -> w_set c s' (n, v) = fill n v s').
    { intros s' n v H1 H2 H3. apply fill_param; auto. rewrite Ek; auto. }
    unfold all_params. rewrite E in *. clear E Ek.
    destruct (has_ws c), (has_os c); cbn [map app fst snd foldM dkeys] in *;
      repeat (rewrite FP by (simpl; tauto); cbn [fill bind String.eqb Ascii.eqb Bool.eqb]; cbn); destruct s; reflexivity. }
  split.
  - split.
    + apply Forall_forall. intros q Hq. apply in_map_iff in Hq. destruct Hq as ([k v] & <- & Hq). cbn.
      eapply named_params_no_dot. unfold dkeys. apply in_map_iff. eexists; split; [|exact Hq]. reflexivity.
    + intro s. unfold U. rewrite K. reflexivity.
  - unfold U at 1. rewrite K. destruct (scale_update c d p s0 Hc Hp Hd) as (ow & oo & W & O & K'). unfold U. rewrite K'. destruct s1. cbn.
    destruct ow, oo; cbn in W, O; rewrite W, O; reflexivity.
Qed.
