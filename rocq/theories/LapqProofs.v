From Coq Require Import String Ascii List ZArith QArith Qabs Bool Arith Lia Lqa.
From Verif Require Import Base Lists Names StructModel QuantModel RangeModel LapqModel LapqSpec.
Import ListNotations.
Local Open Scope string_scope.
Open Scope list_scope.

(** * Strings *)
Lemma app_s_nil s : (s ++ "")%string = s. Proof. induction s; simpl; congruence. Qed.
Lemma app_s_assoc a b c : ((a ++ b) ++ c)%string = (a ++ (b ++ c))%string. Proof. induction a; simpl; congruence. Qed.
Lemma app_s_length a b : String.length (a ++ b) = (String.length a + String.length b)%nat. Proof. induction a; simpl; congruence. Qed.

Lemma endswith_iff suf s : endswith suf s = true <-> ends_with suf s.
Proof.
  split.
  - induction s as [|c s IH]; cbn [endswith]; intro H; apply orb_true_iff in H; destruct H as [H|H]; try discriminate.
    + apply String.eqb_eq in H. subst. exists ""; reflexivity.
    + apply String.eqb_eq in H. subst. exists ""; reflexivity.
    + destruct (IH H) as [p ->]. exists (String c p). reflexivity.
  - intros [p ->]. induction p as [|c p IH].
    + change ("" ++ suf)%string with suf. destruct suf; cbn [endswith]; rewrite String.eqb_refl; reflexivity.
    + change (String c p ++ suf)%string with (String c (p ++ suf)). cbn [endswith]. rewrite IH. apply orb_true_r.
Qed.

Lemma stake_app a b : stake (String.length a) (a ++ b) = a.
Proof. induction a as [|c a IH]; [destruct b; reflexivity|]. simpl. rewrite IH. reflexivity. Qed.
Lemma chop4_app k s : String.length s = 4%nat -> chop4 (k ++ s) = k.
Proof. intro H. unfold chop4. rewrite app_s_length, H, Nat.add_sub. apply stake_app. Qed.

Lemma suffix_same_length a b x y : (a ++ x)%string = (b ++ y)%string -> String.length x = String.length y -> x = y /\ a = b.
Proof.
  revert b; induction a as [|c a IH]; intros [|c' b] H E.
  - simpl in H. auto.
  - simpl in H. subst x. simpl in E. rewrite app_s_length in E. lia.
  - simpl in H. subst y. simpl in E. rewrite app_s_length in E. lia.
  - simpl in H. injection H as -> H. destruct (IH _ H E) as [-> ->]. auto.
Qed.
Lemma min_max_suffix k : endswith "_min" (k ++ "_max") = false.
Proof.
  destruct (endswith "_min" (k ++ "_max")) eqn:E; auto. apply endswith_iff in E. destruct E as [p H].
  apply suffix_same_length in H; [destruct H; discriminate|reflexivity].
Qed.
Lemma endswith_self k s : endswith s (k ++ s) = true. Proof. apply endswith_iff. exists k; auto. Qed.

(** the suffix test only looks at the end *)
Lemma endswith_app suf a b : (String.length suf <= String.length b)%nat -> endswith suf (a ++ b) = endswith suf b.
Proof.
  intro H. apply Bool.eq_iff_eq_true. rewrite !endswith_iff. split.
  - intros [p E]. revert p E. induction a as [|c a IH]; intros p E; [exists p; auto|]. destruct p as [|c' p].
    + change ("" ++ suf)%string with suf in E. subst suf. simpl in H. rewrite app_s_length in H. lia.
    + simpl in E. injection E as _ E. eapply IH; eauto.
  - intros [p ->]. exists (a ++ p)%string. symmetry. apply app_s_assoc.
Qed.

(** * Dictionaries *)
Lemma dset_new {A} (d : dict A) k v : ~ In k (dkeys d) -> dset d k v = d ++ [(k, v)].
Proof.
  induction d as [|[k' v'] d IH]; intro H; [reflexivity|]. cbn [dset]. destruct (String.eqb_spec k k').
  - subst. exfalso. apply H. simpl; auto.
  - rewrite IH; auto. intro; apply H; simpl; auto.
Qed.

(** * C85: vectors and dictionaries *)
Definition plain (k : string) : Prop := endswith "_min" k = false /\ endswith "_max" k = false.
Definition shapes (d : dict qpv) : list (string * bool) := map (fun p => (fst p, match snd p with QOne _ => true | _ => false end)) d.

Lemma at_index_mid pre x xs : at_index (pre ++ x :: xs) (length pre) = Ok x.
Proof. unfold at_index. rewrite nth_error_app2, Nat.sub_diag; auto. Qed.
Lemma at_index_mid1 pre x y xs : at_index (pre ++ x :: y :: xs) (length pre + 1) = Ok y.
Proof. unfold at_index. rewrite nth_error_app2 by lia. replace (length pre + 1 - length pre)%nat with 1%nat by lia. reflexivity. Qed.

Fixpoint decode (d : dict qpv) (x : list Q) : dict qpv :=
  match d, x with
  | (k, QOne _) :: r, x :: xs => (k, QOne (Qabs x)) :: decode r xs
  | (k, QPair _ _) :: r, x :: y :: xs => (k, sorted2 x y) :: decode r xs
  | _, _ => []
  end.
Lemma vec2dict_from_decode sc d : forall keys vec x pre out,
  dict2vec sc d = Ok (keys, vec) -> length x = length vec -> NoDup (dkeys out ++ dkeys d) ->
  (sc = true -> forall k v, In (k, QOne v) d -> plain k) ->
  denotes d x (decode d x) /\ vec2dict_from sc (pre ++ x) (length pre) keys out = Ok (out ++ decode d x).
Proof.
  induction d as [|[k v] d IH]; intros keys vec x pre out H L N P.
  - injection H as <- <-. destruct x; [|discriminate]. split; [constructor|]. cbn. rewrite app_nil_r. reflexivity.
  - assert (Nk : ~ In k (dkeys out)). { cbn in N. apply NoDup_remove_2 in N. intro; apply N, in_or_app; auto. }
    assert (N' : forall w, NoDup (dkeys (out ++ [(k, w)]) ++ dkeys d)).
    { intro w. unfold dkeys in *. rewrite map_app, <- app_assoc. exact N. }
    destruct v as [v|a b]; cbn [dict2vec] in H.
    + destruct (dict2vec sc d) as [[ks vs]|e] eqn:E; cbn [bind] in H; [|discriminate]. cbn [fst snd] in H. injection H as <- <-.
      destruct x as [|x xs]; [discriminate|]. cbn [length] in L. injection L as L.
      destruct (IH ks vs xs (pre ++ [x]) (out ++ [(k, QOne (Qabs x))]) eq_refl L (N' _)) as (D & R).
      { intros Hs k0 v0 Hi. apply (P Hs k0 v0). right; auto. }
      cbn [decode]. split; [constructor; auto|]. cbn [vec2dict_from].
      assert (S0 : sc && endswith "_min" k = false /\ sc && endswith "_max" k = false).
      { destruct sc; [|auto]. destruct (P eq_refl k v (or_introl eq_refl)); auto. }
      destruct S0 as [-> ->]. rewrite at_index_mid. cbn [bind]. rewrite dset_new by auto.
      replace (pre ++ x :: xs) with ((pre ++ [x]) ++ xs) by (rewrite <- app_assoc; reflexivity).
      replace (S (length pre)) with (length (pre ++ [x])) by (rewrite app_length; simpl; lia).
      rewrite R, <- app_assoc. reflexivity.
    + destruct sc; [|discriminate]. destruct (dict2vec true d) as [[ks vs]|e] eqn:E; cbn [bind] in H; [|discriminate]. cbn [fst snd] in H. injection H as <- <-.
      destruct x as [|x [|y xs]]; try discriminate. cbn [length] in L. injection L as L.
      destruct (IH ks vs xs (pre ++ [x; y]) (out ++ [(k, sorted2 x y)]) eq_refl L (N' _)) as (D & R).
      { intros Hs k0 v0 Hi. apply (P Hs k0 v0). right; auto. }
      cbn [decode]. split.
      * unfold sorted2. destruct (Qltb y x) eqn:Q.
        -- apply Qltb_lt in Q. constructor; auto. apply Qlt_le_weak; auto.
        -- apply Qltb_ge in Q. constructor; auto.
      * cbn [vec2dict_from]. rewrite (endswith_self k "_min"). cbn [andb]. rewrite at_index_mid. cbn [bind].
        rewrite at_index_mid1. cbn [bind]. rewrite min_max_suffix, (endswith_self k "_max"). cbn [andb].
        rewrite (chop4_app k "_min") by reflexivity. rewrite dset_new by auto.
        replace (pre ++ x :: y :: xs) with ((pre ++ [x; y]) ++ xs) by (rewrite <- app_assoc; reflexivity).
        replace (S (S (length pre))) with (length (pre ++ [x; y])) by (rewrite app_length; simpl; lia).
        rewrite R, <- app_assoc. reflexivity.
Qed.

Lemma vec2dict_decode sc d keys vec x :
  dict2vec sc d = Ok (keys, vec) -> length x = length vec -> NoDup (dkeys d) ->
  (sc = true -> forall k v, In (k, QOne v) d -> plain k) ->
  denotes d x (decode d x) /\ vec2dict sc keys x = Ok (decode d x).
Proof. intros H L N P. apply (vec2dict_from_decode sc d keys vec x [] []); auto. Qed.

Lemma denotes_keys d x d' : denotes d x d' -> dkeys d' = dkeys d.
Proof. induction 1; unfold dkeys in *; simpl; congruence. Qed.
Lemma denotes_shapes d x d' : denotes d x d' -> shapes d' = shapes d.
Proof. induction 1; unfold shapes in *; simpl; congruence. Qed.

Lemma dict2vec_length sc d keys vec : dict2vec sc d = Ok (keys, vec) -> length keys = length vec.
Proof.
  revert keys vec; induction d as [|[k [v|a b]] d IH]; intros keys vec H; cbn [dict2vec] in H.
  - injection H as <- <-; auto.
  - destruct (dict2vec sc d) as [[ks vs]|] eqn:E; [|discriminate]. cbn in H. injection H as <- <-. simpl. f_equal. apply IH; auto.
  - destruct sc; [|discriminate]. destruct (dict2vec true d) as [[ks vs]|] eqn:E; [|discriminate]. cbn in H. injection H as <- <-. simpl. do 2 f_equal. apply IH; auto.
Qed.
Lemma dict2vec_ok_iff sc d : (exists kv, dict2vec sc d = Ok kv) <-> (sc = true \/ forall k a b, ~ In (k, QPair a b) d).
Proof.
  induction d as [|[k [v|a b]] d IH]; cbn [dict2vec].
  - split; [intros; right; intros ? ? ? []|]. eexists; reflexivity.
  - destruct (dict2vec sc d) as [kv|e] eqn:E; cbn [bind].
    + split; [|eexists; reflexivity]. intros _. destruct (proj1 IH (ex_intro _ _ eq_refl)) as [H|H]; auto.
      right. intros k0 a0 b0 [H0|H0]; [discriminate|]. eapply H; eauto.
    + split; [intros [? ?]; discriminate|]. intros H. exfalso. destruct (proj2 IH) as [kv Hk]; [|discriminate].
      destruct H; auto. right. intros k0 a0 b0 Hi. apply (H k0 a0 b0). right; auto.
  - destruct sc.
    + split; auto. intros _. destruct (proj2 IH (or_introl eq_refl)) as [kv ->]. eexists; reflexivity.
    + split; [intros [? ?]; discriminate|]. intros [H|H]; [discriminate|]. exfalso. apply (H k a b). left; auto.
Qed.

(** the vector made from a dictionary is decoded to the dictionary *)
Lemma decode_own sc d keys vec : dict2vec sc d = Ok (keys, vec) ->
  (forall k v, In (k, QOne v) d -> 0 <= v) -> (forall k a b, In (k, QPair a b) d -> a <= b) -> decode d vec = d.
Proof.
  revert keys vec; induction d as [|[k [v|a b]] d IH]; intros keys vec H Pos Ord; cbn [dict2vec] in H.
  - injection H as <- <-. reflexivity.
  - destruct (dict2vec sc d) as [[ks vs]|] eqn:E; [|discriminate]. cbn in H. injection H as <- <-. cbn [decode].
    erewrite IH by (eauto; intros; first [eapply Pos|eapply Ord]; right; eauto). do 3 f_equal.
    specialize (Pos k v (or_introl eq_refl)). destruct v as [n q]. unfold Qle in Pos. simpl in *. rewrite Z.abs_eq; auto. lia.
  - destruct sc; [|discriminate]. destruct (dict2vec true d) as [[ks vs]|] eqn:E; [|discriminate]. cbn in H. injection H as <- <-. cbn [decode].
    erewrite IH by (eauto; intros; first [eapply Pos|eapply Ord]; right; eauto). do 2 f_equal.
    unfold sorted2. specialize (Ord k a b (or_introl eq_refl)). apply Qltb_ge in Ord. rewrite Ord. reflexivity.
Qed.
