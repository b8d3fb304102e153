(** A least-squares solver in exact arithmetic, and its correctness: the solutions the theorems of
    PropertiesFm.v assume exist.  Not a model of code of /repo (sklearn's solver is not modelled). *)
From Coq Require Import List QArith Bool Arith Lia Lqa.
From Verif Require Import Base Lists StructModel FmModel FmSpec FmProofs.
Import ListNotations.
Open Scope list_scope.
Open Scope nat_scope.

Definition vec := nat -> Q.
Section Ls.
Variable R : nat.
Definition ip (u v : vec) : Q := qsum (tab R (fun r => u r * v r)%Q).
Definition comb (b : list Q) (cs : list vec) (r : nat) : Q := qsum (map2 (fun x (c : vec) => x * c r)%Q b cs).
Definition resid (y : vec) (b : list Q) (cs : list vec) : vec := fun r => (y r - comb b cs r)%Q.

(** project on the other columns first, then along what is left of the first one *)
Fixpoint proj (cs : list vec) (y : vec) : list Q :=
  match cs with
  | [] => []
  | x :: cs' =>
      let bx := proj cs' x in let rx := resid x bx cs' in
      let by_ := proj cs' y in let ry := resid y by_ cs' in
      let t := (ip ry rx / ip rx rx)%Q in
      t :: map2 (fun b a => b - t * a)%Q by_ bx
  end.

Lemma proj_length cs : forall y, length (proj cs y) = length cs.
Proof.
  induction cs; intros y; [reflexivity|]. cbn [proj length]. f_equal.
  assert (E : forall l l' : list Q, forall f : Q -> Q -> Q, length l = length l' -> length (map2 f l l') = length l).
  { induction l; intros l' f H; destruct l'; cbn in *; try lia. rewrite IHl; lia. }
  rewrite E by now rewrite !IHcs. apply IHcs.
Qed.

Lemma ip_ext u u' v v' : (forall r, r < R -> (u r == u' r)%Q) -> (forall r, r < R -> (v r == v' r)%Q) -> (ip u v == ip u' v')%Q.
Proof. intros H1 H2. apply qsum_tab_ext. intros r Hr. rewrite H1, H2 by auto. reflexivity. Qed.
Lemma qsum_tab_add n f g : (qsum (tab n (fun i => f i + g i)) == qsum (tab n f) + qsum (tab n g))%Q.
Proof. unfold tab, qsum. induction (seq 0 n); cbn [map fold_right]; [ring|]. rewrite IHl. ring. Qed.
Lemma qsum_tab_mul n k f : (qsum (tab n (fun i => k * f i)) == k * qsum (tab n f))%Q.
Proof. unfold tab, qsum. induction (seq 0 n); cbn [map fold_right]; [ring|]. rewrite IHl. ring. Qed.
Lemma ip_lin a b u v w : (ip (fun r => a * u r + b * v r) w == a * ip u w + b * ip v w)%Q.
Proof.
  unfold ip. rewrite <- !qsum_tab_mul, <- qsum_tab_add. apply qsum_tab_ext. intros r _. ring.
Qed.
Lemma ip_sym u v : (ip u v == ip v u)%Q.
Proof. apply qsum_tab_ext. intros r _. ring. Qed.
Lemma ip_self_nonneg u : (0 <= ip u u)%Q.
Proof. unfold ip, qsum, tab. induction (seq 0 R); cbn [map fold_right]; [lra|]. nra. Qed.
Lemma ip_self_zero u : (ip u u == 0)%Q -> forall r, r < R -> (u r == 0)%Q.
Proof.
  intros H r Hr. unfold ip, tab in H. assert (Hin : In r (seq 0 R)) by (apply in_seq; lia). clear Hr.
  assert (P : forall l, (0 <= qsum (map (fun r => u r * u r) l))%Q).
  { unfold qsum. induction l; cbn [map fold_right]; [lra|nra]. }
  induction (seq 0 R) as [|a l IH]; [destruct Hin|]. unfold qsum in H. cbn [map fold_right] in H.
  specialize (P l). unfold qsum in P. assert (Ha : (0 <= u a * u a)%Q) by nra.
  destruct Hin as [->|Hin].
  - assert ((u r * u r == 0)%Q) by lra. destruct (Qmult_integral _ _ H0); auto.
  - apply IH; auto. unfold qsum. lra.
Qed.

Lemma comb_sub (by_ bx : list Q) t cs r : length by_ = length cs -> length bx = length cs ->
  (comb (map2 (fun b a => b - t * a)%Q by_ bx) cs r == comb by_ cs r - t * comb bx cs r)%Q.
Proof.
  unfold comb, qsum. revert by_ bx. induction cs; intros by_ bx H1 H2.
  - destruct by_; destruct bx; cbn in *; try lia. ring.
  - destruct by_; destruct bx; cbn [length] in *; try lia. cbn [map2 fold_right]. rewrite IHcs by lia. ring.
Qed.

Lemma ip_comb w b cs : (forall c, In c cs -> (ip w c == 0)%Q) -> (ip w (fun r => comb b cs r) == 0)%Q.
Proof.
  revert b. induction cs; intros b H.
  - unfold ip, comb, tab, qsum. induction (seq 0 R); destruct b; cbn [map fold_right map2] in *; try reflexivity; rewrite IHl; ring.
  - destruct b as [|q b].
    + unfold ip, comb, tab, qsum. clear. induction (seq 0 R); cbn [map fold_right map2] in *; try reflexivity; rewrite IHl; ring.
    + rewrite ip_sym. transitivity (ip (fun r => q * a r + 1 * comb b cs r)%Q w).
      * apply ip_ext; intros r _; [|reflexivity]. unfold comb, qsum. cbn [map2 fold_right]. ring.
      * rewrite ip_lin, (ip_sym a w), (H a) by (now left). rewrite (ip_sym (fun r => comb b cs r) w), IHcs; [ring|]. intros; apply H; now right.
Qed.

(** the residual is orthogonal to every column *)
Lemma proj_normal cs : forall y c, In c cs -> (ip (resid y (proj cs y) cs) c == 0)%Q.
Proof.
  induction cs as [|x cs IH]; intros y c Hin; [destruct Hin|].
  set (bx := proj cs x). set (rx := resid x bx cs). set (by_ := proj cs y). set (ry := resid y by_ cs).
  set (t := (ip ry rx / ip rx rx)%Q).
  assert (ER : forall r, (resid y (proj (x :: cs) y) (x :: cs) r == 1 * ry r + (- t) * rx r)%Q).
  { intros r. unfold resid at 1. cbn [proj]. fold bx. fold rx. fold by_. fold ry. fold t.
    unfold comb at 1, qsum. cbn [map2 fold_right].
    change (fold_right Qplus 0%Q (map2 (fun (x0 : Q) (c0 : vec) => (x0 * c0 r)%Q) (map2 (fun b a : Q => (b - t * a)%Q) by_ bx) cs))
      with (comb (map2 (fun b a : Q => (b - t * a)%Q) by_ bx) cs r).
    rewrite comb_sub by apply proj_length. unfold ry, rx, resid. ring. }
  assert (Hrx : forall c, In c cs -> (ip rx c == 0)%Q) by (intros; apply IH; auto).
  assert (Hry : forall c, In c cs -> (ip ry c == 0)%Q) by (intros; apply IH; auto).
  rewrite (ip_ext _ _ c c (fun r _ => ER r) (fun r _ => Qeq_refl _)), ip_lin.
  destruct Hin as [<-|Hin].
  - assert (EX : forall w, (forall c, In c cs -> (ip w c == 0)%Q) -> (ip w x == ip w rx)%Q).
    { intros w Hw. rewrite ip_sym. transitivity (ip (fun r => 1 * rx r + 1 * comb bx cs r)%Q w).
      - apply ip_ext; intros r _; [|reflexivity]. unfold rx, resid. ring.
      - rewrite ip_lin, (ip_sym (fun r => comb bx cs r) w), (ip_comb w bx cs Hw), (ip_sym rx w). ring. }
    rewrite (EX ry Hry), (EX rx Hrx). unfold t.
    destruct (Qeq_dec (ip rx rx) 0) as [Ez|Ez].
    + assert (E0 : (ip ry rx == 0)%Q).
      { transitivity (ip ry (fun _ => 0%Q)); [apply ip_ext; [reflexivity|now apply ip_self_zero]|].
        unfold ip, tab, qsum. clear. induction (seq 0 R); cbn [map fold_right]; [reflexivity|rewrite IHl; ring]. }
      rewrite Ez, E0. ring.
    + field. exact Ez.
  - rewrite (Hrx c Hin), (Hry c Hin). ring.
Qed.

Lemma comb_diff b b' cs r : length b = length cs -> length b' = length cs ->
  (comb (map2 Qminus b b') cs r == comb b cs r - comb b' cs r)%Q.
Proof.
  unfold comb, qsum. revert b b'. induction cs; intros b b' H1 H2.
  - destruct b; destruct b'; cbn in *; try lia. ring.
  - destruct b; destruct b'; cbn [length] in *; try lia. cbn [map2 fold_right]. rewrite IHcs by lia. ring.
Qed.

Lemma proj_best cs y b' : length b' = length cs ->
  (ip (resid y (proj cs y) cs) (resid y (proj cs y) cs) <= ip (resid y b' cs) (resid y b' cs))%Q.
Proof.
  intros Hb. set (b := proj cs y). set (r0 := resid y b cs). set (d := fun r => comb (map2 Qminus b b') cs r).
  set (w := fun r => (1 * r0 r + 1 * d r)%Q).
  assert (E : forall r, r < R -> (resid y b' cs r == w r)%Q).
  { intros r _. unfold w, r0, d, resid. rewrite comb_diff by (auto; unfold b; apply proj_length). ring. }
  rewrite (ip_ext _ _ _ _ E E).
  assert (E1 : forall u, (ip w u == ip r0 u + ip d u)%Q) by (intros u; unfold w; rewrite ip_lin; ring).
  rewrite E1, (ip_sym r0 w), (ip_sym d w), !E1.
  assert (H0 : (ip r0 d == 0)%Q) by (apply ip_comb; intros c Hc; apply proj_normal; auto).
  rewrite (ip_sym d r0), H0. assert (H1 := ip_self_nonneg d). lra.
Qed.
End Ls.

(** the columns of a matrix given by its rows *)
Definition column (X : list (list Q)) (j : nat) : vec := fun r => nth j (nth r X []) 0%Q.
Definition ls_solver (X Y : list (list Q)) : list (list Q) :=
  let m := length (hd [] X) in
  tab (length (hd [] Y)) (fun f => proj (length X) (tab m (column X)) (column Y f)).

Lemma map2_qsum_tab (a b : list Q) n : length a = n -> length b = n ->
  (qsum (map2 Qmult a b) == qsum (tab n (fun j => nth j a 0 * nth j b 0)))%Q.
Proof. intros H1 H2. rewrite <- (tab_of_list 0%Q a) at 1. rewrite <- (tab_of_list 0%Q b) at 1. rewrite H1, H2, map2_tab. reflexivity. Qed.

Lemma comb_tab b m X r : length b = m -> (comb b (tab m (column X)) r == qsum (tab m (fun j => nth j b 0 * column X j r)))%Q.
Proof.
  intros H. unfold comb. rewrite <- (tab_of_list 0%Q b) at 1. rewrite H, map2_tab. reflexivity.
Qed.

Lemma qsum_swap n k (h : nat -> nat -> Q) :
  (qsum (tab n (fun r => qsum (tab k (fun f => h r f)))) == qsum (tab k (fun f => qsum (tab n (fun r => h r f)))))%Q.
Proof.
  induction n.
  - change (qsum (tab 0 (fun r => qsum (tab k (fun f => h r f))))) with 0%Q. transitivity (qsum (tab k (fun _ => 0%Q))); [|reflexivity].
    clear. unfold tab, qsum. induction (seq 0 k); cbn [map fold_right]; [reflexivity|]. rewrite Qplus_0_l. exact IHl.
  - rewrite tab_S, qsum_app, IHn. transitivity (qsum (tab k (fun f => qsum (tab n (fun r => h r f)) + h n f))%Q).
    + rewrite qsum_tab_add. apply Qplus_comp; [reflexivity|]. unfold qsum at 1. cbn [fold_right]. apply Qplus_0_r.
    + apply qsum_tab_ext. intros f _. rewrite tab_S, qsum_app. apply Qplus_comp; [reflexivity|]. unfold qsum. cbn [fold_right]. symmetry; apply Qplus_0_r.
Qed.

Lemma sse_by_filter X B Y F m : length X = length Y -> Forall (fun r => length r = m) X -> Forall (fun r => length r = F) Y -> matrix F m B ->
  (sse X B Y == qsum (tab F (fun f => ip (length X) (resid (column Y f) (nth f B []) (tab m (column X)))
                                              (resid (column Y f) (nth f B []) (tab m (column X))))))%Q.
Proof.
  intros HL HX HY [HB1 HB2]. rewrite Forall_forall in HX, HY, HB2. unfold sse, ip.
  rewrite <- qsum_swap. rewrite <- (tab_of_list [] X) at 1. rewrite <- (tab_of_list [] Y) at 1. rewrite <- HL, map2_tab.
  apply qsum_tab_ext. intros r Hr. assert (HXr : length (nth r X []) = m) by (apply HX, nth_In; auto).
  assert (HYr : length (nth r Y []) = F) by (apply HY, nth_In; lia).
  rewrite <- (tab_of_list [] B) at 1. rewrite HB1. rewrite <- (tab_of_list 0%Q (nth r Y [])) at 1. rewrite HYr, map2_tab.
  apply qsum_tab_ext. intros f Hf. assert (HBf : length (nth f B []) = m) by (apply HB2, nth_In; lia).
  unfold resid, sq, dot. rewrite (comb_tab (nth f B []) m X r HBf). rewrite (map2_qsum_tab _ _ m HXr HBf). unfold column.
  assert (E : (qsum (tab m (fun j => nth j (nth r X []) 0 * nth j (nth f B []) 0)) == qsum (tab m (fun j => nth j (nth f B []) 0 * nth j (nth r X []) 0)))%Q).
  { apply qsum_tab_ext. intros j _. ring. }
  rewrite E. ring.
Qed.

Lemma ls_solver_ok X Y F m : X <> [] -> length X = length Y -> Forall (fun r => length r = m) X -> Forall (fun r => length r = F) Y ->
  least_squares F m X Y (ls_solver X Y).
Proof.
  intros Hne HL HX HY.
  assert (Hm : length (hd [] X) = m) by (destruct X; [congruence|]; inversion HX; auto).
  assert (HF : length (hd [] Y) = F) by (destruct Y; [destruct X; [congruence|discriminate]|]; inversion HY; auto).
  assert (HM : matrix F m (ls_solver X Y)).
  { unfold ls_solver. rewrite Hm, HF. split; [apply tab_length|]. apply Forall_forall. intros r Hr.
    unfold tab at 1 in Hr. apply in_map_iff in Hr. destruct Hr as (f & <- & _). rewrite proj_length. apply tab_length. }
  split; auto. intros B' HB'. rewrite (sse_by_filter X _ Y F m), (sse_by_filter X B' Y F m) by auto.
  assert (HS : forall f, f < F -> nth f (ls_solver X Y) [] = proj (length X) (tab m (column X)) (column Y f)).
  { intros f Hf. unfold ls_solver. rewrite Hm, HF. now rewrite tab_nth. }
  assert (HL2 : forall n f g, (forall i, i < n -> (f i <= g i)%Q) -> (qsum (tab n f) <= qsum (tab n g))%Q).
  { induction n; intros f g H; [apply Qle_refl|]. rewrite !tab_S, !qsum_app. unfold qsum at 2 4. cbn [fold_right].
    assert (H1 := IHn f g (fun i Hi => H i (Nat.lt_lt_succ_r _ _ Hi))). assert (H2 := H n ltac:(lia)). lra. }
  apply HL2. intros f Hf. rewrite HS by auto. apply proj_best. rewrite tab_length.
  destruct HB' as [HB1 HB2]. rewrite Forall_forall in HB2. apply HB2. apply nth_In. lia.
Qed.
