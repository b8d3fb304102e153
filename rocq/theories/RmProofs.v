(** Proofs about the removal of layers (C109). *)
From Coq Require Import String Ascii List ZArith QArith Bool Arith Lia Lqa DecimalString DecimalNat Decimal.
From Verif Require Import Base RmModel RmSpec.
Import ListNotations.
Local Open Scope string_scope.
Open Scope list_scope.
Open Scope nat_scope.

Lemma to_uint_nonnil : forall n, Nat.to_uint n <> Nil.
Proof. intros n H. pose proof (Unsigned.to_of (Nat.to_uint n)) as E. rewrite Unsigned.of_to, H in E. discriminate E. Qed.
Lemma int_of_str : forall n, int_of (str n) = Ok (Z.of_nat n).
Proof. intro n. unfold int_of, str. rewrite NilZero.usu by apply to_uint_nonnil. now rewrite Unsigned.of_to. Qed.
Lemma str_inj : forall a b, str a = str b -> a = b.
Proof. intros a b H. pose proof (int_of_str a) as E. rewrite H, int_of_str in E. apply Nat2Z.inj. congruence. Qed.

Lemma put_len : forall A (l : list A) i x, length (put l i x) = length l.
Proof. induction l as [|y l IH]; intros [|i] x; cbn; auto. Qed.
Lemma put_nth : forall A (l : list A) i x j, i < length l -> nth_error (put l i x) j = if Nat.eqb i j then Some x else nth_error l j.
Proof.
  induction l as [|y l IH]; intros i x j H; [cbn in H; lia|]. destruct i as [|i], j as [|j]; cbn; try reflexivity. apply IH. cbn in H. lia.
Qed.
Lemma nth_err : forall A (l : list A) i x d, nth_error l i = Some x -> nth i l d = x.
Proof. intros A l i x d H. now apply nth_error_nth. Qed.

(** closing a gate that exists *)
Lemma pyidx_ok : forall n i, i < n -> pyidx n (Z.of_nat i) = Ok i.
Proof. intros n i H. unfold pyidx. replace ((0 <=? Z.of_nat i)%Z && (Z.of_nat i <? Z.of_nat n)%Z) with true; [now rewrite Nat2Z.id|]. symmetry. apply andb_true_intro. split; [apply Z.leb_le|apply Z.ltb_lt]; lia. Qed.

Lemma close_ok : forall (g : gates) l b c v, gate g l b c = Some v ->
  exists g', close_gate g (Z.of_nat l) (Z.of_nat b) (Some (Z.of_nat c)) = Ok g' /\
    forall l' b' c', gate g' l' b' c' = if Nat.eqb l l' && Nat.eqb b b' && Nat.eqb c c' then Some false else gate g l' b' c'.
Proof.
  intros g l b c v H. unfold gate in H. destruct (nth_error g l) as [x|] eqn:El; [|discriminate]. destruct (nth_error x b) as [y|] eqn:Eb; [|discriminate].
  assert (Hl : l < length g) by (apply nth_error_Some; congruence). assert (Hb : b < length x) by (apply nth_error_Some; congruence). assert (Hc : c < length y) by (apply nth_error_Some; congruence).
  unfold close_gate. rewrite pyidx_ok by exact Hl. cbn [bind]. rewrite (nth_err _ _ _ _ _ El), pyidx_ok by exact Hb. cbn [bind]. rewrite (nth_err _ _ _ _ _ Eb), pyidx_ok by exact Hc. cbn [bind].
  eexists. split; [reflexivity|]. intros l' b' c'. unfold gate. rewrite put_nth by exact Hl. destruct (Nat.eqb_spec l l') as [->|_]; [|reflexivity]. cbn [andb]. rewrite El.
  rewrite put_nth by exact Hb. destruct (Nat.eqb_spec b b') as [->|_]; [|reflexivity]. cbn [andb]. rewrite Eb, put_nth by exact Hc. reflexivity.
Qed.

(** a name of the shape of a layer in a block closes the gate of that number *)
Lemma one_ok : forall w g k l b c p3 rest, l < 3 -> p3 <> "downsample" -> last_char p3 = Ok (str (S c)) ->
  remove_one w (g, k) ("module" :: layer_name l :: str b :: p3 :: rest) =
  if w then do g' <- close_gate g (Z.of_nat l) (Z.of_nat b) (Some (Z.of_nat c)); Ok (g', Some (Z.of_nat c)) else Raise AttributeError.
Proof.
  intros w g k l b c p3 rest Hl H3 Hc. unfold remove_one, part. cbn [nth_error bind].
  assert (E1 : last_char (layer_name l) = Ok (str (S l))) by (destruct l as [|[|[|l]]]; [reflexivity|reflexivity|reflexivity|lia]).
  rewrite E1. cbn [bind]. rewrite int_of_str. cbn [bind]. rewrite int_of_str. cbn [bind]. apply String.eqb_neq in H3. rewrite H3, Hc. cbn [bind]. rewrite int_of_str. cbn [bind].
  replace (Z.of_nat (S l) - 1)%Z with (Z.of_nat l) by lia. replace (Z.of_nat (S c) - 1)%Z with (Z.of_nat c) by lia. reflexivity.
Qed.
Lemma one_down : forall g k l b d rest, l < 3 -> (d = "0" \/ d = "1") ->
  remove_one true (g, k) ("module" :: layer_name l :: str b :: "downsample" :: d :: rest) =
  do g' <- close_gate g (Z.of_nat l) (Z.of_nat b) k; Ok (g', k).
Proof.
  intros g k l b d rest Hl Hd. unfold remove_one, part. cbn [nth_error bind].
  assert (E1 : last_char (layer_name l) = Ok (str (S l))) by (destruct l as [|[|[|l]]]; [reflexivity|reflexivity|reflexivity|lia]).
  rewrite E1. cbn [bind]. rewrite int_of_str. cbn [bind]. rewrite int_of_str. cbn [bind].
  replace (Z.of_nat (S l) - 1)%Z with (Z.of_nat l) by lia. destruct Hd as [-> | ->]; reflexivity.
Qed.

Definition valid (l b c : nat) := l < 3 /\ c < 2.
Lemma conv_last : forall c, c < 2 -> conv_name c <> "downsample" /\ last_char (conv_name c) = Ok (str (S c)).
Proof. intros [|[|c]] H; [split; [discriminate|reflexivity]|split; [discriminate|reflexivity]|lia]. Qed.
Lemma weights_inj : forall l b c l' b' c', l < 3 -> c < 2 -> l' < 3 -> c' < 2 -> weights_of l b c = weights_of l' b' c' -> l = l' /\ b = b' /\ c = c'.
Proof.
  intros l b c l' b' c' H1 H2 H3 H4 E. unfold weights_of in E. assert (A : layer_name l = layer_name l') by congruence. assert (B : decimal b = decimal b') by congruence. assert (C : conv_name c = conv_name c') by congruence.
  split; [destruct l as [|[|[|l]]], l' as [|[|[|l']]]; try reflexivity; try discriminate A; lia|]. split; [now apply str_inj|].
  destruct c as [|[|c]], c' as [|[|c']]; try reflexivity; try discriminate C; lia.
Qed.

Definition name_dec := list_eq_dec string_dec.
Lemma loop_ok : forall L (g : gates) k,
  Forall (fun p => exists l b c, p = weights_of l b c /\ l < 3 /\ c < 2 /\ gate g l b c <> None) L ->
  exists st, foldM (remove_one true) L (g, k) = Ok st /\
    forall l b c, l < 3 -> c < 2 -> gate (fst st) l b c = if in_dec name_dec (weights_of l b c) L then (match gate g l b c with Some _ => Some false | None => None end) else gate g l b c.
Proof.
  induction L as [|p L IH]; intros g k H.
  - exists (g, k). split; [reflexivity|]. intros l b c _ _. destruct (in_dec name_dec _ []) as [[]|]. reflexivity.
  - inversion H as [|? ? (l & b & c & -> & Hl & Hc & Hg) HF]; subst. destruct (gate g l b c) as [v|] eqn:Ev; [|congruence].
    destruct (close_ok g l b c v Ev) as (g' & Ec & Eg'). destruct (conv_last c Hc) as [Hd Hla].
    pose proof (one_ok true g k l b c (conv_name c) ["weight"] Hl Hd Hla) as EO. change ("module" :: layer_name l :: str b :: conv_name c :: ["weight"]) with (weights_of l b c) in EO.
    assert (EF : foldM (remove_one true) (weights_of l b c :: L) (g, k) = foldM (remove_one true) L (g', Some (Z.of_nat c))).
    { transitivity (bind (remove_one true (g, k) (weights_of l b c)) (foldM (remove_one true) L)); [reflexivity|]. rewrite Ec in EO. exact (f_equal (fun r => bind r (foldM (remove_one true) L)) EO). }
    rewrite EF. clear EF.
    destruct (IH g' (Some (Z.of_nat c))) as (st & E & G).
    + eapply Forall_impl; [|exact HF]. intros p (l1 & b1 & c1 & -> & H1 & H2 & H3). exists l1, b1, c1. repeat split; auto. rewrite Eg'. destruct (Nat.eqb l l1 && Nat.eqb b b1 && Nat.eqb c c1); [discriminate|exact H3].
    + exists st. split; [exact E|]. intros l1 b1 c1 H1 H2. rewrite (G l1 b1 c1 H1 H2), Eg'.
      destruct (in_dec name_dec (weights_of l1 b1 c1) (weights_of l b c :: L)) as [I|I]; destruct (in_dec name_dec (weights_of l1 b1 c1) L) as [J|J].
      * destruct (Nat.eqb_spec l l1) as [<-|]; cbn [andb]; [|reflexivity]. destruct (Nat.eqb_spec b b1) as [<-|]; cbn [andb]; [|reflexivity]. destruct (Nat.eqb_spec c c1) as [<-|]; [|reflexivity]. rewrite Ev. reflexivity.
      * destruct I as [I|I]; [|contradiction]. apply weights_inj in I; [|assumption..]. destruct I as (<- & <- & <-). rewrite !Nat.eqb_refl. cbn [andb]. now rewrite Ev.
      * exfalso. apply I. now right.
      * destruct (Nat.eqb_spec l l1) as [<-|]; cbn [andb]; [|reflexivity]. destruct (Nat.eqb_spec b b1) as [<-|]; cbn [andb]; [|reflexivity]. destruct (Nat.eqb_spec c c1) as [<-|]; [|reflexivity]. exfalso. apply I. now left.
Qed.

Lemma names_in : forall n1 n2 n3 l b c, l < 3 -> b < blocks n1 n2 n3 l -> c < 2 -> In (weights_of l b c) (names n1 n2 n3).
Proof.
  intros n1 n2 n3 l b c Hl Hb Hc.
  assert (G : forall n d, b < n -> In (weights_of l b c) (layer_names (layer_name l) n d)).
  { intros n d H. unfold layer_names. apply in_flat_map. exists b. split; [apply in_seq; lia|]. unfold block_names. apply in_or_app. left. destruct c as [|[|c]]; [now left|do 3 right; now left|lia]. }
  unfold names. apply in_or_app. right. destruct l as [|[|[|l]]]; [| | |lia]; cbn in Hb.
  - apply in_or_app. left. now apply (G n1).
  - apply in_or_app. right. apply in_or_app. left. now apply (G n2).
  - apply in_or_app. right. apply in_or_app. right. apply in_or_app. left. now apply (G n3).
Qed.

Lemma init_gate : forall n1 n2 n3 l b c, l < 3 -> c < 2 -> gate (init_gates [n1; n2; n3]) l b c = if b <? blocks n1 n2 n3 l then Some true else None.
Proof.
  intros n1 n2 n3 l b c Hl Hc. assert (G : forall n, match nth_error (repeat [true; true] n) b with Some y => nth_error y c | None => None end = if b <? n then Some true else None).
  { intro n. destruct (Nat.ltb_spec b n) as [H|H]; [rewrite nth_error_repeat by exact H; destruct c as [|[|c]]; [reflexivity|reflexivity|lia]|].
    rewrite (proj2 (nth_error_None _ _)) by (rewrite repeat_length; exact H). reflexivity. }
  unfold gate, init_gates, blocks. destruct l as [|[|[|l]]]; [apply G|apply G|apply G|lia].
Qed.

(** a parameter for which the loop raises, wherever it stands *)
Lemma loop_raises : forall w L p st, In p L -> (forall s, exists e, remove_one w s p = Raise e) -> exists e, foldM (remove_one w) L st = Raise e.
Proof.
  intros w L p st Hin H. revert st. induction L as [|q L IH]; intro st; [destruct Hin|]. cbn [foldM]. destruct (remove_one w st q) as [st'|e] eqn:E; [|exists e; reflexivity].
  destruct Hin as [->|Hin]; [destruct (H st) as [e He]; congruence|]. now apply IH.
Qed.

Lemma in_names : forall n1 n2 n3 p, In p (names n1 n2 n3) ->
  In p [["module"; "conv1"; "weight"]; ["module"; "bn1"; "weight"]; ["module"; "bn1"; "bias"]; ["module"; "fc"; "weight"]; ["module"; "fc"; "bias"]] \/
  exists l b, l < 3 /\ b < blocks n1 n2 n3 l /\ In p (block_names (layer_name l) b true).
Proof.
  intros n1 n2 n3 p H. unfold names in H. apply in_app_or in H as [H|H]; [left; destruct H as [H|[H|[H|[]]]]; subst; cbn; auto 10|].
  assert (G : forall l n d, In p (layer_names (layer_name l) n d) -> exists b, b < n /\ In p (block_names (layer_name l) b true)).
  { intros l n d I. unfold layer_names in I. apply in_flat_map in I as (b & Ib & I). apply in_seq in Ib. exists b. split; [lia|]. unfold block_names in *. apply in_or_app. apply in_app_or in I as [I|I]; [now left|right]. destruct (d && (b =? 0)); [exact I|destruct I]. }
  apply in_app_or in H as [H|H]; [destruct (G 0 n1 false H) as (b & B & I); right; exists 0, b; repeat split; auto|].
  apply in_app_or in H as [H|H]; [destruct (G 1 n2 true H) as (b & B & I); right; exists 1, b; repeat split; auto|].
  apply in_app_or in H as [H|H]; [destruct (G 2 n3 true H) as (b & B & I); right; exists 2, b; repeat split; auto|].
  left. destruct H as [H|[H|[]]]; subst; cbn; auto 10.
Qed.

(* ------------------------------------------------------------------ what a block computes *)
Lemma relu_nonneg : forall x, nonneg (relu x).
Proof. intro x. apply Forall_forall. intros q H. apply in_map_iff in H as (p & <- & _). destruct (Qle_bool 0 p) eqn:E; [now apply Qle_bool_iff|apply Qle_refl]. Qed.
Lemma relu_add : forall x a, nonneg x -> nonneg a -> length a = length x -> relu (map2 Qplus x a) = map2 Qplus x a.
Proof.
  intros x a Hx. revert a. induction Hx as [|q x Hq Hx IH]; intros [|b a] Ha E; try discriminate E; [reflexivity|]. inversion Ha; subst. cbn [map2 relu map]. unfold relu in IH. rewrite IH; auto.
  destruct (Qle_bool 0 (q + b)) eqn:H; [reflexivity|]. exfalso. assert (~ (0 <= q + b)%Q) by (intro HH; apply Qle_bool_iff in HH; congruence). lra.
Qed.
Lemma add_zero : forall x a, length a = length x -> (same (map2 Qplus x a) x <-> Forall (fun q => q == 0)%Q a).
Proof.
  induction x as [|q x IH]; intros [|b a] E; try discriminate E; cbn [map2]; [split; constructor|]. injection E as E. specialize (IH a E). unfold same in *. split; intro H.
  - inversion H; subst. constructor; [lra|now apply IH].
  - inversion H; subst. constructor; [lra|now apply IH].
Qed.
