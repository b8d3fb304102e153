(** C109: removing layers of a CIFAR ResNet whose weights are all zero. *)
From Coq Require Import String Ascii List ZArith QArith Bool Arith Lia.
From Verif Require Import Base RmModel RmSpec RmProofs.
Import ListNotations.
Local Open Scope string_scope.
Open Scope list_scope.
Open Scope nat_scope.

(** For every ResNet in DataParallel and every set of parameters that are all zero: if these are weights of convolutions in
    the blocks, exactly their gates are closed. *)
Theorem C109_removes : forall n1 n2 n3 (zero : list string -> bool),
  (forall p, In p (names n1 n2 n3) -> zero p = true -> exists l b c, p = weights_of l b c /\ l < 3 /\ b < blocks n1 n2 n3 l /\ c < 2) ->
  exists g, remove_layers true (map (fun p => (p, zero p)) (names n1 n2 n3)) (init_gates [n1; n2; n3]) = Ok g /\
    forall l b c, l < 3 -> c < 2 ->
      gate g l b c = if b <? blocks n1 n2 n3 l then Some (negb (zero (weights_of l b c))) else None.
Proof.
  intros n1 n2 n3 zero H. unfold remove_layers.
  set (L := map fst (filter snd (map (fun p => (p, zero p)) (names n1 n2 n3)))).
  assert (HL : forall p, In p L <-> In p (names n1 n2 n3) /\ zero p = true).
  { intro p. unfold L. split.
    - intro I. apply in_map_iff in I as ([q v] & <- & I). apply filter_In in I as [I Z]. apply in_map_iff in I as (q' & E & I). injection E as -> <-. cbn in *. now split.
    - intros [I Z]. apply in_map_iff. exists (p, true). split; [reflexivity|]. apply filter_In. split; [|reflexivity]. apply in_map_iff. exists p. now rewrite Z. }
  destruct (loop_ok L (init_gates [n1; n2; n3]) None) as (st & E & G).
  - apply Forall_forall. intros p I. apply HL in I as [I Z]. destruct (H p I Z) as (l & b & c & -> & A & B & C). exists l, b, c. repeat split; auto.
    rewrite init_gate by assumption. apply Nat.ltb_lt in B. rewrite B. discriminate.
  - rewrite E. cbn [bind]. exists (fst st). split; [reflexivity|]. intros l b c Hl Hc. rewrite (G l b c Hl Hc), init_gate by assumption.
    destruct (Nat.ltb_spec b (blocks n1 n2 n3 l)) as [B|B]; [|destruct (in_dec _ _ _); reflexivity].
    destruct (in_dec name_dec (weights_of l b c) L) as [I|I].
    + apply HL in I as [_ Z]. now rewrite Z.
    + destruct (zero (weights_of l b c)) eqn:Z; [|reflexivity]. exfalso. apply I, HL. split; [now apply names_in|exact Z].
Qed.

(** Finding: a parameter of a batch normalization that is all zero (as all their biases are at first) closes the gate of the
    convolution with its number, whatever the weights of that convolution. *)
Theorem C109_batchnorm_refuted : forall l b c s (g : gates) k v, l < 3 -> c < 2 -> gate g l b c = Some v ->
  exists st, remove_one true (g, k) ["module"; layer_name l; decimal b; nth c ["bn1"; "bn2"] ""; s] = Ok st /\ gate (fst st) l b c = Some false.
Proof.
  intros l b c s g k v Hl Hc Hg. destruct (close_ok g l b c v Hg) as (g' & Ec & Eg).
  assert (HN : nth c ["bn1"; "bn2"] "" <> "downsample" /\ last_char (nth c ["bn1"; "bn2"] "") = Ok (str (S c))) by (destruct c as [|[|c]]; [split; [discriminate|reflexivity]|split; [discriminate|reflexivity]|lia]).
  destruct HN as [N1 N2]. change (decimal b) with (str b). rewrite (one_ok true g k l b c _ [s] Hl N1 N2), Ec. cbn [bind]. eexists. split; [reflexivity|]. cbn [fst]. rewrite Eg, !Nat.eqb_refl. reflexivity.
Qed.

(** Finding: a downsample whose weights are zero closes the gate, in its block, of the convolution with the number found for
    the parameter before it (whatever the weights of that convolution); if it is the first one, NameError. *)
Theorem C109_downsample_refuted : forall l b d s (g : gates), l < 3 -> d = "0" \/ d = "1" ->
  (forall c v, gate g l b c = Some v ->
     exists st, remove_one true (g, Some (Z.of_nat c)) ["module"; layer_name l; decimal b; "downsample"; d; s] = Ok st /\ gate (fst st) l b c = Some false) /\
  (gate g l b 0 <> None -> remove_one true (g, None) ["module"; layer_name l; decimal b; "downsample"; d; s] = Raise NameError).
Proof.
  intros l b d s g Hl Hd. split.
  - intros c v Hg. destruct (close_ok g l b c v Hg) as (g' & Ec & Eg). change (decimal b) with (str b). rewrite (one_down g _ l b d [s] Hl Hd), Ec. cbn [bind]. eexists. split; [reflexivity|]. cbn [fst]. rewrite Eg, !Nat.eqb_refl. reflexivity.
  - intro Hg. change (decimal b) with (str b). rewrite (one_down g None l b d [s] Hl Hd). unfold close_gate, gate in *.
    destruct (nth_error g l) as [x|] eqn:El; [|congruence]. assert (L : l < length g) by (apply nth_error_Some; congruence). rewrite pyidx_ok by exact L. cbn [bind]. rewrite (nth_err _ _ _ _ _ El).
    destruct (nth_error x b) as [y|] eqn:Eb; [|congruence]. assert (B : b < length x) by (apply nth_error_Some; congruence). rewrite pyidx_ok by exact B. reflexivity.
Qed.
(** e.g. zero weights of layer1.0.conv2 and of layer2.0.downsample.0: layer2.0.conv2 is removed too *)
Example C109_downsample_ex :
  let zero := fun p => if name_dec p (weights_of 0 0 1) then true else if name_dec p ["module"; "layer2"; "0"; "downsample"; "0"; "weight"] then true else false in
  exists g, remove_layers true (map (fun p => (p, zero p)) (names 3 3 3)) (init_gates [3; 3; 3]) = Ok g /\ gate g 1 0 1 = Some false /\ zero (weights_of 1 0 1) = false.
Proof. eexists. split; [vm_compute; reflexivity|]. split; reflexivity. Qed.

(** Finding: a parameter outside the blocks that is all zero, or any at all in a model that is not in DataParallel, makes the
    function fail; so does a new model, since the biases of its batch normalizations are zero. *)
Theorem C109_fails_refuted : forall n1 n2 n3 (zero : list string -> bool) g,
  (forall p, In p [["module"; "conv1"; "weight"]; ["module"; "bn1"; "weight"]; ["module"; "bn1"; "bias"]; ["module"; "fc"; "weight"]; ["module"; "fc"; "bias"]] ->
     zero p = true -> exists e, remove_layers true (map (fun p => (p, zero p)) (names n1 n2 n3)) g = Raise e) /\
  (forall p, In p (names n1 n2 n3) -> zero p = true -> exists e, remove_layers false (map (fun p => (tl p, zero p)) (names n1 n2 n3)) g = Raise e).
Proof.
  assert (K : forall w P g, (exists e, foldM (remove_one w) (map fst (filter snd P)) (g, None) = Raise e) -> exists e, remove_layers w P g = Raise e).
  { intros w P g [e E]. exists e. unfold remove_layers. now rewrite E. }
  intros n1 n2 n3 zero g. split.
  - intros p Hp Hz. apply K. apply loop_raises with p.
    + apply in_map_iff. exists (p, true). split; [reflexivity|]. apply filter_In. split; [|reflexivity]. apply in_map_iff. exists p. rewrite Hz. split; [reflexivity|].
      unfold names. destruct Hp as [<-|[<-|[<-|[<-|[<-|[]]]]]]; [apply in_or_app; left; cbn; auto..| |]; apply in_or_app; right; apply in_or_app; right; apply in_or_app; right; apply in_or_app; right; cbn; auto.
    + intros [g' k]. destruct Hp as [<-|[<-|[<-|[<-|[<-|[]]]]]]; eexists; reflexivity.
  - intros p Hp Hz. apply K. apply loop_raises with (tl p).
    + apply in_map_iff. exists (tl p, true). split; [reflexivity|]. apply filter_In. split; [|reflexivity]. apply in_map_iff. exists p. rewrite Hz. split; [reflexivity|exact Hp].
    + intros [g' k]. apply in_names in Hp as [Hp|(l & b & Hl & _ & Hp)].
      * destruct Hp as [<-|[<-|[<-|[<-|[<-|[]]]]]]; eexists; reflexivity.
      * assert (Ht : exists r, tl p = layer_name l :: str b :: r /\ (match r with [] => False | q :: _ => int_of q = Raise ValueError end)).
        { unfold block_names in Hp. cbn [app In] in Hp. repeat (destruct Hp as [<-|Hp]; [eexists; split; reflexivity|]). destruct Hp. }
        destruct Ht as (r & -> & Hr). unfold remove_one, part. cbn [nth_error bind]. destruct (last_char (str b)) as [ch|e]; [|exists e; reflexivity]. cbn [bind]. destruct (int_of ch) as [z|e]; [|exists e; reflexivity]. cbn [bind].
        destruct r as [|q r]; [destruct Hr|]. cbn [nth_error bind]. rewrite Hr. eexists. reflexivity.
Qed.

(** What removing a convolution of zeros does to its block (identity shortcut, inputs that are outputs of a ReLU, as everywhere
    but in the first block of a layer; the second convolution and its normalization give zeros): before, the block passes its
    input on unchanged.  After, it still does exactly if the branch that is now added - the first half of the block, or the
    input itself if the first convolution is removed too - is all zero. *)
Theorem C109_block : forall conv1 bn1 conv2 bn2 x g1, nonneg x ->
  (forall y, length (bn1 (conv1 y)) = length y) -> (forall y, length (bn2 (conv2 y)) = length y /\ Forall (fun q => q == 0)%Q (bn2 (conv2 y))) ->
  same (block_forward [g1; true] conv1 bn1 conv2 bn2 None x) x /\
  let branch := if g1 then relu (bn1 (conv1 x)) else x in
  same (block_forward [g1; false] conv1 bn1 conv2 bn2 None x) (map2 Qplus x branch) /\
  (same (block_forward [g1; false] conv1 bn1 conv2 bn2 None x) x <-> Forall (fun q => q == 0)%Q branch).
Proof.
  intros conv1 bn1 conv2 bn2 x g1 Hx L1 L2. unfold block_forward. cbn [nth]. cbv zeta. set (branch := if g1 then relu (bn1 (conv1 x)) else x).
  assert (Hb : nonneg branch) by (unfold branch; destruct g1; [apply relu_nonneg|exact Hx]). assert (Lb : length branch = length x) by (unfold branch; destruct g1; [unfold relu; rewrite map_length; apply L1|reflexivity]).
  destruct (L2 branch) as [L3 Z3]. split; [|rewrite (relu_add x branch Hx Hb Lb); split; [|now apply add_zero]].
  - rewrite relu_add; [|exact Hx| |lia].
    + apply add_zero; [lia|exact Z3].
    + eapply Forall_impl; [|exact Z3]. cbv beta. intros q E. rewrite E. apply Qle_refl.
  - unfold same. induction (map2 Qplus x branch); constructor; [reflexivity|assumption].
Qed.
(** Finding: so the network computes something else: a block without its two convolutions doubles its input. *)
Theorem C109_same_function_refuted : exists x y : list Q, nonneg x /\
  let zero := fun v : list Q => map (fun _ => 0%Q) v in
  same (block_forward [true; true] zero (fun v => v) zero (fun v => v) None x) x /\
  same (block_forward [false; false] zero (fun v => v) zero (fun v => v) None x) y /\ ~ same x y.
Proof.
  exists [1; 3]%Q, [2; 6]%Q. split; [repeat constructor; discriminate|]. cbv zeta. split; [|split].
  - vm_compute. repeat constructor.
  - vm_compute. repeat constructor.
  - intro H. inversion H; subst. discriminate.
Qed.

Example C109_ex : let zero := fun p => if name_dec p (weights_of 2 11 0) then true else false in
  (forall p, In p (names 2 3 12) -> zero p = true -> exists l b c, p = weights_of l b c /\ l < 3 /\ b < blocks 2 3 12 l /\ c < 2) /\
  exists g, remove_layers true (map (fun p => (p, zero p)) (names 2 3 12)) (init_gates [2; 3; 12]) = Ok g /\ gate g 2 11 0 = Some false /\ gate g 2 11 1 = Some true.
Proof.
  split.
  - intros p _ H. destruct (name_dec p (weights_of 2 11 0)) as [->|]; [|discriminate]. exists 2, 11, 0. repeat split; cbn; lia.
  - eexists. split; [vm_compute; reflexivity|]. split; reflexivity.
Qed.

Print Assumptions C109_removes.
Print Assumptions C109_batchnorm_refuted.
Print Assumptions C109_downsample_refuted.
Print Assumptions C109_fails_refuted.
Print Assumptions C109_block.
Print Assumptions C109_same_function_refuted.
