(** C97: checkpoint files, also when the program crashes while it writes them. *)
From Coq Require Import String Ascii List ZArith QArith Bool Arith Lia.
From Verif Require Import Base Lists Names SchedModel CkptModel CkfModel.
Import ListNotations.
Local Open Scope string_scope.
Open Scope list_scope.

Lemma append_inj_tail (a b c : string) : (a ++ c = b ++ c -> a = b)%string.
Proof.
  assert (L : forall x y, String.length (x ++ y) = (String.length x + String.length y)%nat) by (induction x; intros; cbn; auto).
  revert b. induction a as [|x a IH]; intros [|y b] H; cbn in *; auto.
  - exfalso. apply (f_equal String.length) in H. cbn in H. rewrite L in H. lia.
  - exfalso. apply (f_equal String.length) in H. cbn in H. rewrite L in H. lia.
  - injection H as -> H. f_equal. auto.
Qed.
Lemma append_length a b : String.length (a ++ b) = (String.length a + String.length b)%nat.
Proof. induction a; cbn; auto. Qed.
Lemma string_app_assoc (a b c : string) : ((a ++ b) ++ c = a ++ b ++ c)%string.
Proof. induction a; cbn; congruence. Qed.
Lemma suffix_clash a b s t : String.length s = String.length t -> (a ++ s = b ++ t)%string -> s = t.
Proof.
  revert b. induction a as [|x a IH]; intros [|y b] L H; cbn in H; auto.
  - exfalso. apply (f_equal String.length) in H. cbn in H. rewrite append_length in H. lia.
  - exfalso. apply (f_equal String.length) in H. cbn in H. rewrite append_length in H. lia.
  - injection H as -> H. eauto.
Qed.
Lemma filename_inj n m : filename n = filename m -> n = m.
Proof.
  destruct n as [n|], m as [m|]; cbn [filename]; intro H; auto.
  - f_equal. apply append_inj_tail in H. exact H.
  - exfalso. apply (f_equal String.length) in H. rewrite append_length in H. cbn in H. lia.
  - exfalso. apply (f_equal String.length) in H. rewrite append_length in H. cbn in H. lia.
Qed.
Lemma filename_best_inj n m : filename_best n = filename_best m -> n = m.
Proof.
  destruct n as [n|], m as [m|]; cbn [filename_best]; intro H; auto.
  - f_equal. apply append_inj_tail in H. exact H.
  - exfalso. apply (f_equal String.length) in H. rewrite append_length in H. cbn in H. lia.
  - exfalso. apply (f_equal String.length) in H. rewrite append_length in H. cbn in H. lia.
Qed.
Lemma filename_ne n m : filename n <> filename_best m.
Proof.
  intro H. assert (K : exists a b, (a ++ "t.pth.tar" = b ++ "t.pth.tar")%string /\ (exists a', a = a' ++ "checkpoin")%string /\ (exists b', b = b' ++ "bes")%string).
  { destruct n as [n|], m as [m|]; cbn [filename filename_best] in H.
    - exists (n ++ "_checkpoin")%string, (m ++ "_bes")%string. split; [|split].
      + rewrite !string_app_assoc. exact H. + exists (n ++ "_")%string. rewrite string_app_assoc. reflexivity. + exists (m ++ "_")%string. rewrite string_app_assoc. reflexivity.
    - exists (n ++ "_checkpoin")%string, "bes". split; [|split].
      + rewrite !string_app_assoc. exact H. + exists (n ++ "_")%string. rewrite string_app_assoc. reflexivity. + exists "". reflexivity.
    - exists "checkpoin", (m ++ "_bes")%string. split; [|split].
      + rewrite !string_app_assoc. exact H. + exists "". reflexivity. + exists (m ++ "_")%string. rewrite string_app_assoc. reflexivity.
    - discriminate. }
  destruct K as (a & b & E & (a' & ->) & (b' & ->)). apply append_inj_tail in E.
  assert (X : (((a' ++ "checkpo") ++ "in") = (b' ++ "b") ++ "es")%string) by (rewrite !string_app_assoc; exact E).
  apply suffix_clash in X; [discriminate|reflexivity].
Qed.

Section Files.
Variables R Qm Oc Hy Os X : Type.
Variable no_extras : X.
Notation ckdata := (ckdata R Qm Oc Hy Os X).
Notation save_args := (save_args R Qm Oc Hy Os X).
Variable ser : ckdata -> list nat.
Notation save_data := (save_data no_extras).
Notation save_states := (save_states no_extras ser).
Notation save := (save no_extras ser).
Notation saves := (saves no_extras ser).

Lemma put_same d n b : put d n b n = Some b.
Proof. unfold put. rewrite String.eqb_refl. reflexivity. Qed.
Lemma put_other d n b m : m <> n -> put d n b m = d m.
Proof. intro H. unfold put. destruct (String.eqb_spec m n); congruence. Qed.
Lemma write_last d n bs dflt : last (write_states d n bs) dflt = put d n bs.
Proof.
  unfold write_states. rewrite seq_S, map_app. cbn [map]. rewrite last_last, Nat.add_0_l, firstn_all. reflexivity.
Qed.
Lemma write_states_nonempty d n bs : write_states d n bs <> [].
Proof. unfold write_states. cbn. discriminate. Qed.
Lemma last_app_ne {A} (l m : list A) d : m <> [] -> last (l ++ m) d = last m d.
Proof. intro H. induction l as [|x l IH]; auto. cbn [app]. rewrite <- IH. destruct (l ++ m) eqn:E; auto. apply app_eq_nil in E. destruct E; congruence. Qed.
Lemma last_cons_ne {A} (x : A) m d : m <> [] -> last (x :: m) d = last m d.
Proof. destruct m; [congruence|reflexivity]. Qed.

Lemma save_ok d a c : save_data a = Ok c ->
  save d a = Ok (let d1 := put d (filename (s_name a)) (ser c) in if s_best a then put d1 (filename_best (s_name a)) (ser c) else d1).
Proof.
  intro H. unfold CkfModel.save, CkfModel.save_states. rewrite H. cbn [bind]. f_equal. cbv zeta. destruct (s_best a).
  - rewrite last_cons_ne by (intro K; apply app_eq_nil in K; destruct K as [K _]; exact (write_states_nonempty _ _ _ K)).
    rewrite last_app_ne by apply write_states_nonempty. apply write_last.
  - rewrite app_nil_r, last_cons_ne by apply write_states_nonempty. apply write_last.
Qed.
Lemma save_inv d a d' : save d a = Ok d' -> exists c, save_data a = Ok c.
Proof. unfold CkfModel.save, CkfModel.save_states. destruct (save_data a) as [c|]; [eauto|discriminate]. Qed.
Lemma saves_app d l1 l2 d' : saves d (l1 ++ l2) = Ok d' -> exists d1, saves d l1 = Ok d1 /\ saves d1 l2 = Ok d'.
Proof.
  revert d. induction l1 as [|a l1 IH]; intros d H; cbn [app] in *; [exists d; auto|]. unfold CkfModel.saves in *. cbn [foldM] in *.
  destruct (save d a) as [d2|]; [|discriminate]. cbn [bind] in *. apply IH. exact H.
Qed.
Lemma saves_keep d l d' f : saves d l = Ok d' ->
  (forall a, In a l -> f <> filename (s_name a) /\ (s_best a = true -> f <> filename_best (s_name a))) -> d' f = d f.
Proof.
  revert d. induction l as [|a l IH]; intros d H N; cbn in H; [injection H as <-; reflexivity|]. destruct (save d a) as [d1|] eqn:E; [|discriminate]. cbn [bind] in H.
  rewrite (IH d1 H) by (intros; apply N; right; auto). destruct (save_inv _ _ _ E) as (c & Ec). rewrite (save_ok _ _ _ Ec) in E. injection E as <-. destruct (N a (or_introl eq_refl)) as [N1 N2].
  cbv zeta. destruct (s_best a); [rewrite put_other by auto|]; apply put_other; auto.
Qed.

(** After any number of saves the checkpoint file of each name holds the last one saved under the name, the best file the
    last one of these that was the best when saved; no other file was touched. *)
Theorem C97_files : forall d l d', saves d l = Ok d' ->
  (forall l1 a l2, l = l1 ++ a :: l2 -> exists c, save_data a = Ok c /\
     ((forall b, In b l2 -> s_name b <> s_name a) -> d' (filename (s_name a)) = Some (ser c)) /\
     (s_best a = true -> (forall b, In b l2 -> s_name b = s_name a -> s_best b = false) -> d' (filename_best (s_name a)) = Some (ser c))) /\
  (forall f, (forall a, In a l -> f <> filename (s_name a) /\ (s_best a = true -> f <> filename_best (s_name a))) -> d' f = d f).
Proof.
  intros d l d' H. split; [|intros f N; eapply saves_keep; eauto].
  intros l1 a l2 ->. apply saves_app in H. destruct H as (d1 & H1 & H2). cbn in H2. destruct (save d1 a) as [d2|] eqn:E; [|discriminate]. cbn [bind] in H2. fold (saves d2 l2) in H2.
  destruct (save_inv _ _ _ E) as (c & Ec). exists c. split; [exact Ec|]. rewrite (save_ok _ _ _ Ec) in E. injection E as <-. cbv zeta in H2. split.
  - intro N. rewrite (saves_keep _ _ _ _ H2).
    + destruct (s_best a); [rewrite put_other by apply filename_ne|]; apply put_same.
    + intros b Hb. split; [intro K; apply filename_inj in K; apply (N b Hb); auto|intros _; apply filename_ne].
  - intros B N. rewrite (saves_keep _ _ _ _ H2).
    + rewrite B. apply put_same.
    + intros b Hb. split; [intro K; apply (filename_ne (s_name b) (s_name a)); auto|]. intros Bb K. apply filename_best_inj in K. rewrite (N b Hb) in Bb by auto. discriminate.
Qed.

(** A save is refused, with nothing written, exactly if the directory does not exist or the extras are not a dictionary. *)
Theorem C97_refused : forall dir a, (exists e, save_states dir a = Raise e) <-> dir = None \/ s_extras a = XOther.
Proof.
  intros dir a. unfold CkfModel.save_states, CkfModel.save_data. destruct dir as [d|]; [|split; [auto|intros _; eauto]].
  destruct (s_extras a); cbn [bind]; (split; [intros (e & H)|intros [H|H]]); try discriminate; eauto.
Qed.

Lemma in_write d n bs d' : In d' (write_states d n bs) -> exists k, d' = put d n (firstn k bs).
Proof. unfold write_states. intro H. apply in_map_iff in H. destruct H as (k & <- & _). eauto. Qed.

(** A crash at any moment: other files are untouched; the checkpoint file is the previous one or the first part of the new
    one; the best file is untouched unless the checkpoint file is complete (and this one is the best). *)
Theorem C97_crash : forall d a states d' c, save_states (Some d) a = Ok states -> In d' states -> save_data a = Ok c ->
  (forall f, f <> filename (s_name a) -> f <> filename_best (s_name a) -> d' f = d f) /\
  (d' (filename (s_name a)) = d (filename (s_name a)) \/ exists k, d' (filename (s_name a)) = Some (firstn k (ser c))) /\
  (d' (filename_best (s_name a)) = d (filename_best (s_name a)) \/
   s_best a = true /\ d' (filename (s_name a)) = Some (ser c) /\ exists k, d' (filename_best (s_name a)) = Some (firstn k (ser c))).
Proof.
  intros d a states d' c H Hin Ec. unfold CkfModel.save_states in H. rewrite Ec in H. cbn [bind] in H. match type of H with Ok ?x = Ok _ => assert (E : states = x) by congruence end. clear H. subst states.
  assert (Ne : filename_best (s_name a) <> filename (s_name a)) by (intro K; apply (filename_ne (s_name a) (s_name a)); auto).
  destruct Hin as [<-|Hin]; [repeat split; auto|]. apply in_app_iff in Hin. destruct Hin as [Hin|Hin].
  - apply in_write in Hin. destruct Hin as (k & ->). split; [intros; apply put_other; auto|]. split; [right; exists k; apply put_same|left; apply put_other; auto].
  - destruct (s_best a) eqn:B; [|destruct Hin]. apply in_write in Hin. destruct Hin as (k & ->). split; [intros; rewrite !put_other; auto|]. split; [|right; split; [reflexivity|split]].
    + right. exists (length (ser c)). rewrite put_other by apply filename_ne. rewrite firstn_all. apply put_same.
    + rewrite put_other by apply filename_ne. apply put_same.
    + exists k. apply put_same.
Qed.

(** So once a best checkpoint has been saved, one crash, at any moment of any later save, leaves a complete one. *)
Theorem C97_survivor : forall d l d1 a states d',
  saves d l = Ok d1 -> save_states (Some d1) a = Ok states -> In d' states ->
  (exists b, In b l /\ s_name b = s_name a /\ s_best b = true) ->
  exists b c, In b (l ++ [a]) /\ save_data b = Ok c /\ (d' (filename (s_name a)) = Some (ser c) \/ d' (filename_best (s_name a)) = Some (ser c)).
Proof.
  intros d l d1 a states d' H Hs Hin (b & Hb & En & Bb).
  assert (Ec : exists c, save_data a = Ok c). { unfold CkfModel.save_states in Hs. destruct (save_data a); [eauto|discriminate]. } destruct Ec as (c & Ec).
  assert (Lb : exists l1 b0 l2, l = l1 ++ b0 :: l2 /\ s_name b0 = s_name a /\ s_best b0 = true /\ forall x, In x l2 -> s_name x = s_name a -> s_best x = false).
  { clear - Hb En Bb. induction l as [|x l IH] using rev_ind; [destruct Hb|]. destruct (s_best x) eqn:Bx.
    - assert (D : {s_name x = s_name a} + {s_name x <> s_name a}) by (decide equality; apply string_dec). destruct D as [E|E].
      + exists l, x, []. repeat split; auto. intros ? [].
      + apply in_app_iff in Hb. destruct Hb as [Hb|[->|[]]]; [|congruence]. destruct (IH Hb) as (l1 & b0 & l2 & -> & P1 & P2 & P3). exists l1, b0, (l2 ++ [x]). rewrite <- app_assoc. repeat split; auto.
        intros y Iy Ey. apply in_app_iff in Iy. destruct Iy as [Iy|[->|[]]]; [auto|congruence].
    - apply in_app_iff in Hb. destruct Hb as [Hb|[->|[]]]; [|congruence]. destruct (IH Hb) as (l1 & b0 & l2 & -> & P1 & P2 & P3). exists l1, b0, (l2 ++ [x]). rewrite <- app_assoc. repeat split; auto.
      intros y Iy Ey. apply in_app_iff in Iy. destruct Iy as [Iy|[->|[]]]; auto. }
  destruct Lb as (l1 & b0 & l2 & -> & P1 & P2 & P3). destruct (C97_files _ _ _ H) as [F _]. destruct (F l1 b0 l2 eq_refl) as (c0 & Ec0 & _ & G). rewrite P1 in G. specialize (G P2 P3).
  destruct (C97_crash _ _ _ _ _ Hs Hin Ec) as (_ & _ & [K|(_ & K & _)]).
  - exists b0, c0. split; [rewrite !in_app_iff; left; right; left; auto|]. split; [exact Ec0|]. right. congruence.
  - exists a, c. split; [rewrite !in_app_iff; right; left; auto|]. auto.
Qed.

(** Without a best checkpoint a crash can leave nothing: the only checkpoint is emptied before it is written again. *)
Theorem C97_crash_refuted : (forall c, ser c <> []) -> forall a b ca cb, save_data a = Ok ca -> save_data b = Ok cb -> s_best a = false -> s_name b = s_name a ->
  exists d1 states d', save (fun _ => None) a = Ok d1 /\ d1 (filename (s_name a)) = Some (ser ca) /\ save_states (Some d1) b = Ok states /\ In d' states /\ forall f c, d' f <> Some (ser c).
Proof.
  intros Hne a b ca cb Ea Eb Ba En. eexists _, _, (put (put (fun _ => None) (filename (s_name a)) (ser ca)) (filename (s_name b)) []). rewrite (save_ok _ _ _ Ea), Ba. split; [reflexivity|]. split; [apply put_same|].
  unfold CkfModel.save_states. rewrite Eb. cbn [bind]. split; [reflexivity|]. split.
  - right. apply in_app_iff. left. unfold write_states. cbn [seq map firstn]. left. reflexivity.
  - intros f c. unfold put. rewrite En. destruct (String.eqb f (filename (s_name a))); [|discriminate]. intro K. injection K as K. exact (Hne c (eq_sym K)).
Qed.
(** Two crashes, one while the best checkpoint is copied and one in the next save, can leave nothing even then. *)
Theorem C97_two_crashes_refuted : (forall c, ser c <> []) -> forall a b ca cb, save_data a = Ok ca -> save_data b = Ok cb -> s_best a = true -> s_best b = true -> s_name b = s_name a ->
  exists d1 st1 d2 st2 d3, save (fun _ => None) a = Ok d1 /\ d1 (filename_best (s_name a)) = Some (ser ca) /\
    save_states (Some d1) b = Ok st1 /\ In d2 st1 /\ save_states (Some d2) b = Ok st2 /\ In d3 st2 /\ forall f c, d3 f <> Some (ser c).
Proof.
  intros Hne a b ca cb Ea Eb Ba Bb En. set (d1 := put (put (fun _ => None) (filename (s_name a)) (ser ca)) (filename_best (s_name a)) (ser ca)).
  set (d2 := put (put d1 (filename (s_name b)) (ser cb)) (filename_best (s_name b)) []). set (d3 := put d2 (filename (s_name b)) []).
  exists d1. eexists. exists d2. eexists. exists d3. rewrite (save_ok _ _ _ Ea), Ba. split; [reflexivity|]. split; [apply put_same|].
  unfold CkfModel.save_states. rewrite Eb, Bb. cbn [bind]. split; [reflexivity|]. split; [|split; [reflexivity|split]].
  - right. apply in_app_iff. right. unfold write_states. cbn [seq map firstn]. left. reflexivity.
  - right. apply in_app_iff. left. unfold write_states. cbn [seq map firstn]. left. reflexivity.
  - intros f c. unfold d3, d2, d1, put. rewrite En. destruct (String.eqb f (filename (s_name a))); [intro K; injection K as K; exact (Hne c (eq_sym K))|].
    destruct (String.eqb f (filename_best (s_name a))); [intro K; injection K as K; exact (Hne c (eq_sym K))|discriminate].
Qed.
End Files.

(** a run: two epochs saved, the first one the best; then a crash in the copying of a third, better one *)
Definition ex_mdl (w : Q) : mdl unit unit := mkMdl [("fc.weight", ([1]%nat, [w]))] [] (Some "m") (Some "mnist") (Some false) None None.
Definition ex_save (e : Z) (w : Q) (best : bool) : save_args unit unit unit unit unit unit := mkSave (Some e) None (ex_mdl w) None None XNone best None.
Definition ex_ser (c : ckdata unit unit unit unit unit unit) : list nat := match c_epoch c with Some (Some e) => [7; Z.to_nat e; 9]%nat | _ => [7]%nat end.
Example C97_run : exists d1, saves tt ex_ser (fun _ => None) [ex_save 0 1 true; ex_save 1 2 false] = Ok d1 /\
  d1 "checkpoint.pth.tar" = Some [7; 1; 9]%nat /\ d1 "best.pth.tar" = Some [7; 0; 9]%nat /\
  exists st, save_states tt ex_ser (Some d1) (ex_save 2 3 true) = Ok st /\ length st = 9%nat /\
    map (fun d => (d "checkpoint.pth.tar", d "best.pth.tar")) st =
    map (fun p => (Some (fst p), Some (snd p))) [([7; 1; 9], [7; 0; 9]); ([], [7; 0; 9]); ([7], [7; 0; 9]); ([7; 2], [7; 0; 9]); ([7; 2; 9], [7; 0; 9]);
      ([7; 2; 9], []); ([7; 2; 9], [7]); ([7; 2; 9], [7; 2]); ([7; 2; 9], [7; 2; 9])]%nat.
Proof. eexists. split; [reflexivity|]. split; [reflexivity|]. split; [reflexivity|]. eexists. split; [reflexivity|]. split; reflexivity. Qed.

Print Assumptions C97_files.
Print Assumptions C97_refused.
Print Assumptions C97_crash.
Print Assumptions C97_survivor.
Print Assumptions C97_crash_refuted.
Print Assumptions C97_two_crashes_refuted.
