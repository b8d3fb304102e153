(** Proofs about the experiment environment. *)
From Coq Require Import String Ascii List Arith Bool Lia.
From Verif Require Import Base EnvModel EnvSpec.
Import ListNotations.
Open Scope list_scope.
Open Scope nat_scope.

(** ** texts *)
Lemma append_assoc a b c : ((a ++ b) ++ c = a ++ (b ++ c))%string.
Proof. induction a; simpl; congruence. Qed.
Lemma append_nil_r a : (a ++ "" = a)%string.
Proof. induction a; simpl; congruence. Qed.
Lemma length_app a b : String.length (a ++ b) = String.length a + String.length b.
Proof. induction a; simpl; auto. Qed.
Lemma app_inj_l a b c : (a ++ b = a ++ c)%string -> b = c.
Proof. induction a; simpl; intro H; auto. apply IHa. congruence. Qed.
Lemma app_inj_len a : forall b c d, String.length a = String.length c -> (a ++ b = c ++ d)%string -> a = c /\ b = d.
Proof.
  induction a as [|x a IH]; intros b [|y c] d Hl H; try discriminate; [split; auto|].
  simpl in Hl, H. destruct (IH b c d) as [-> ->]; try lia; [congruence|]. split; congruence.
Qed.
Lemma app_inj_r a b c : (a ++ c = b ++ c)%string -> a = b.
Proof.
  intro H. assert (L : String.length a = String.length b) by (apply (f_equal String.length) in H; rewrite !length_app in H; lia).
  apply (app_inj_len a c b c L H).
Qed.

Lemma has_slash_app a b : has_slash (a ++ b) = has_slash a || has_slash b.
Proof. induction a as [|c a IH]; [reflexivity|]. cbn [append has_slash]. rewrite IH. apply orb_assoc. Qed.
Lemma has_slash_iff s : has_slash s = true <-> exists a b, (s = a ++ "/" ++ b)%string.
Proof.
  split.
  - induction s as [|c s IH]; [discriminate|]. cbn [has_slash]. intro H. apply orb_true_iff in H. destruct H as [H|H].
    + apply Ascii.eqb_eq in H. subst. exists ""%string, s. reflexivity.
    + destruct (IH H) as (a & b & ->). exists (String c a), b. reflexivity.
  - intros (a & b & ->). rewrite has_slash_app. cbn [append has_slash]. rewrite Ascii.eqb_refl. apply orb_true_r.
Qed.
Lemma basename_flat s : has_slash s = false -> basename s = s.
Proof. destruct s as [|c s]; [reflexivity|]. cbn [has_slash basename]. intro H. apply orb_false_iff in H. destruct H as [-> ->]. reflexivity. Qed.
Lemma basename_dir d n : has_slash n = false -> basename (d ++ "/" ++ n) = n.
Proof.
  intro H. induction d as [|c d IH].
  - cbn [append basename]. rewrite H. rewrite Ascii.eqb_refl. reflexivity.
  - cbn [append basename]. assert (has_slash (d ++ String "/" n) = true) as -> by (apply has_slash_iff; exists d, n; reflexivity). exact IH.
Qed.
Lemma basename_spec path name : names_file path name <-> basename path = name.
Proof.
  split.
  - intros [H Hn]. assert (Hs : has_slash name = false).
    { destruct (has_slash name) eqn:E; auto. apply has_slash_iff in E. destruct E as (a & b & E). exfalso; eapply Hn; eauto. }
    destruct H as [->|(d & ->)]; [apply basename_flat|apply basename_dir]; auto.
  - intros <-. induction path as [|c p IH]; [split; [left; reflexivity|intros a b H; destruct a; discriminate]|].
    cbn [basename]. destruct (has_slash p) eqn:E.
    + destruct IH as [H Hn]. split; auto. right. destruct H as [H|(d & H)].
      * exfalso. apply has_slash_iff in E. destruct E as (a & b & E). rewrite H in E. eapply Hn; eauto.
      * exists (String c d). cbn [append]. f_equal. exact H.
    + assert (Np : forall a b, p <> (a ++ "/" ++ b)%string) by (intros a b H; assert (has_slash p = true) by (apply has_slash_iff; eauto); congruence).
      destruct (Ascii.eqb c "/") eqn:Ec.
      * apply Ascii.eqb_eq in Ec. subst. split; auto. right. exists ""%string. reflexivity.
      * split; [left; reflexivity|]. intros [|x a] b H; cbn [append] in H.
        { injection H as -> _. rewrite Ascii.eqb_refl in Ec. discriminate. }
        { injection H as _ H. eapply Np; exact H. }
Qed.

(** ** dictionaries *)
Lemma dget_dset_same {A} (d : dict A) k v : dget (dset d k v) k = Some v.
Proof. induction d as [|[k' v'] d IH]; cbn; [rewrite String.eqb_refl; auto|]. destruct (String.eqb k k') eqn:E; cbn; rewrite ?String.eqb_refl, ?E; auto. Qed.
Lemma dget_dset_other {A} (d : dict A) k k2 v : k <> k2 -> dget (dset d k v) k2 = dget d k2.
Proof.
  intro H. induction d as [|[k' v'] d IH]; cbn.
  - destruct (String.eqb_spec k2 k); [congruence|reflexivity].
  - destruct (String.eqb_spec k k') as [->|N]; cbn.
    + destruct (String.eqb_spec k2 k'); [congruence|reflexivity].
    + destruct (String.eqb k2 k'); auto.
Qed.

(** ** the links *)
Lemma set_pc_length l i v : length (set_pc l i v) = length l.
Proof. revert i; induction l as [|a l IH]; intros [|i]; simpl; auto. Qed.
Lemma set_pc_same l : forall i v, i < length l -> nth i (set_pc l i v) Done = v.
Proof. induction l as [|a l IH]; intros [|i] v H; simpl in *; try lia; auto. apply IH; lia. Qed.
Lemma set_pc_other l : forall i j v, i <> j -> nth j (set_pc l i v) Done = nth j l Done.
Proof. induction l as [|a l IH]; intros [|i] [|j] v H; simpl; auto; try lia. Qed.
Lemma not_done l i : nth i l Done <> Done -> i < length l.
Proof. intro H. destruct (lt_dec i (length l)); auto. exfalso; apply H. apply nth_overflow. lia. Qed.

(** a process that will still make the link to the directory, or the link is there *)
Definition inv_dir (s : lstate) : Prop :=
  l_dir s <> None \/ exists i, nth i (l_pcs s) Done = UnlinkFile \/ nth i (l_pcs s) Done = UnlinkDir \/ nth i (l_pcs s) Done = LinkDir.
Definition inv_file (s : lstate) : Prop :=
  l_file s <> None \/ (exists i, nth i (l_pcs s) Done = LinkFile) \/
  (l_dir s = None /\ exists i, nth i (l_pcs s) Done = LinkDir) \/
  (exists i, nth i (l_pcs s) Done = UnlinkFile \/ nth i (l_pcs s) Done = UnlinkDir).

Lemma step_inv_dir s i : inv_dir s -> inv_dir (lstep s i).
Proof.
  intro H. unfold lstep. destruct (nth i (l_pcs s) Done) eqn:E; auto.
  - right. exists i. cbn [l_pcs]. rewrite set_pc_same by (apply not_done; congruence). auto.
  - right. exists i. cbn [l_pcs]. rewrite set_pc_same by (apply not_done; congruence). auto.
  - destruct (l_dir s) eqn:D; left; cbn [l_dir]; congruence.
  - destruct H as [H|(j & H)].
    + left. destruct (l_file s); cbn [l_dir]; auto.
    + right. exists j. assert (i <> j) by (intros ->; rewrite E in H; intuition discriminate).
      destruct (l_file s); cbn [l_pcs]; rewrite set_pc_other by auto; auto.
Qed.
Lemma step_inv_file s i : inv_file s -> inv_file (lstep s i).
Proof.
  intro H. unfold lstep. destruct (nth i (l_pcs s) Done) eqn:E; auto.
  - right; right; right. exists i. cbn [l_pcs]. rewrite set_pc_same by (apply not_done; congruence). auto.
  - right; right; left. cbn [l_dir l_pcs]. split; auto. exists i. rewrite set_pc_same by (apply not_done; congruence). auto.
  - destruct (l_dir s) eqn:D.
    + destruct H as [H|[(j & H)|[(H & _)|(j & H)]]].
      * left. exact H.
      * right; left. exists j. cbn [l_pcs]. rewrite set_pc_other; auto. intros ->. congruence.
      * congruence.
      * right; right; right. exists j. cbn [l_pcs]. rewrite set_pc_other; auto. intros ->. rewrite E in H. intuition discriminate.
    + right; left. exists i. cbn [l_pcs]. rewrite set_pc_same by (apply not_done; congruence). auto.
  - left. destruct (l_file s) eqn:F; cbn [l_file]; congruence.
Qed.
Lemma run_app a b s : lrun (a ++ b) s = lrun b (lrun a s).
Proof. apply fold_left_app. Qed.
Lemma run_inv (P : lstate -> Prop) : (forall s i, P s -> P (lstep s i)) -> forall sched s, P s -> P (lrun sched s).
Proof. intros H sched. induction sched as [|i l IH]; intros s Hs; [auto|]. cbn. apply IH. apply H. auto. Qed.
