(** C24: what the hypotheses of the theorems exclude. In each of these networks removing all-zero filters (or all-zero
    channels) changes what the network computes, breaks the network, or raises. *)
From Coq Require Import String List ZArith QArith Bool Arith Lia.
From Verif Require Import Base Lists StructModel ThinModel ThinSpec ThinNetSpec ThinGraphProofs PropertiesThinNet.
Import ListNotations.
Local Open Scope nat_scope.
Local Open Scope string_scope.

Definition conv_m (i o : nat) : module := mkModule KConv [("in_channels", AInt i); ("out_channels", AInt o); ("groups", AInt 1)].
Definition dw_m (i o : nat) : module := mkModule KConv [("in_channels", AInt i); ("out_channels", AInt o); ("groups", AInt i)].
Definition lin_m (i o : nat) : module := mkModule KLinear [("in_features", AInt i); ("out_features", AInt o)].
Definition bn_m (n : nat) (mean var : list Q) : module := mkModule KBn [("num_features", AInt n); ("running_mean", ATen (mkND [n] mean)); ("running_var", ATen (mkND [n] var))].
Definition W (n : string) (sh : list nat) (d : list Q) : pname * param := ((n, "weight"), P sh d).
Definition B (n : string) (d : list Q) : pname * param := ((n, "bias"), P [length d] d).
Definition pt (k : nat) : geom := mkGeom k (fun s _ => Some s).
Definition C (n i : string) : node := mkNode n (OConv (pt 1)) [i].
Definition N (n i : string) : node := mkNode n OBn [i].
Definition L (n i : string) : node := mkNode n OLinear [i].
Definition A (n i j : string) : node := mkNode n OAdd [i; j].
Definition cat (xs : list fmap) : res fmap := Ok (concat xs).
Definition Cat (n i j : string) : node := mkNode n (OOther cat) [i; j].
(** the network before, and what happens after: the model when thinning returns, then the outputs *)
Definition before (m : mstate) (net : list node) (x : fmap) (n : string) : res (option fmap) :=
  do e <- forward (fun v => v) m net x; Ok (option_map (map (map Qred)) (dget e n)).
Definition after (remove : list node -> mstate -> res (mstate * pdict (option nd) * list recipe)) (m : mstate) (net : list node) (x : fmap) (n : string) : res (res (option fmap)) :=
  do s <- remove net m; Ok (before (fst (fst s)) net x n).

(** a filter whose weights are zero but whose bias is not *)
Definition bias_m := mkMs [("c1", conv_m 1 2); ("c2", conv_m 2 1)] [W "c1" [2; 1; 1; 1] [1; 0]%Q; B "c1" [0; 5]%Q; W "c2" [1; 2; 1; 1] [1; 1]%Q].
Definition bias_net := [C "c1" ""; C "c2" "c1"].
Theorem C24_filter_bias_refuted :
  before bias_m bias_net [[3]%Q] "c2" = Ok (Some [[8]%Q]) /\ after filters_of_net bias_m bias_net [[3]%Q] "c2" = Ok (Ok (Some [[3]%Q])).
Proof. split; vm_compute; reflexivity. Qed.
Print Assumptions C24_filter_bias_refuted.

(** the batch norm after a zero filter shifts it *)
Definition shift_m := mkMs [("c1", conv_m 1 2); ("b", bn_m 2 [0; 0]%Q [1; 1]%Q); ("c2", conv_m 2 1)]
  [W "c1" [2; 1; 1; 1] [1; 0]%Q; W "b" [2] [1; 1]%Q; B "b" [0; 5]%Q; W "c2" [1; 2; 1; 1] [1; 1]%Q].
Definition shift_net := [C "c1" ""; N "b" "c1"; C "c2" "b"].
Theorem C24_filter_bn_shift_refuted :
  before shift_m shift_net [[3]%Q] "c2" = Ok (Some [[8]%Q]) /\ after filters_of_net shift_m shift_net [[3]%Q] "c2" = Ok (Ok (Some [[3]%Q])).
Proof. split; vm_compute; reflexivity. Qed.
Print Assumptions C24_filter_bn_shift_refuted.

(** two batch norms follow one convolution (a residual block with pre-activation): AssertionError *)
Definition twobn_m := mkMs [("c1", conv_m 1 2); ("b1", bn_m 2 [0; 0]%Q [1; 1]%Q); ("b2", bn_m 2 [0; 0]%Q [1; 1]%Q); ("c2", conv_m 2 1)]
  [W "c1" [2; 1; 1; 1] [1; 0]%Q; W "b1" [2] [1; 1]%Q; B "b1" [0; 0]%Q; W "b2" [2] [1; 1]%Q; B "b2" [0; 0]%Q; W "c2" [1; 2; 1; 1] [1; 1]%Q].
Definition twobn_net := [C "c1" ""; N "b1" "c1"; N "b2" "c1"; A "a" "b1" "b2"; C "c2" "a"].
Theorem C24_filter_two_bn_refuted :
  before twobn_m twobn_net [[3]%Q] "c2" = Ok (Some [[6]%Q]) /\ after filters_of_net twobn_m twobn_net [[3]%Q] "c2" = Raise AssertionError.
Proof. split; vm_compute; reflexivity. Qed.
Print Assumptions C24_filter_two_bn_refuted.

(** two batch norms in a row: only the first one is thinned, and the thinned network does not run *)
Definition rowbn_net := [C "c1" ""; N "b1" "c1"; N "b2" "b1"; C "c2" "b2"].
Theorem C24_filter_bn_row_refuted :
  before twobn_m rowbn_net [[3]%Q] "c2" = Ok (Some [[3]%Q]) /\ after filters_of_net twobn_m rowbn_net [[3]%Q] "c2" = Ok (Raise RuntimeError).
Proof. split; vm_compute; reflexivity. Qed.
Print Assumptions C24_filter_bn_row_refuted.

(** concatenated channels: the channels of the second convolution are counted from zero *)
Definition cat_m := mkMs [("c1", conv_m 1 2); ("c2", conv_m 1 2); ("c3", conv_m 4 1)]
  [W "c1" [2; 1; 1; 1] [1; 2]%Q; W "c2" [2; 1; 1; 1] [0; 3]%Q; W "c3" [1; 4; 1; 1] [1; 10; 100; 1000]%Q].
Definition cat_net := [C "c1" ""; C "c2" ""; Cat "k" "c1" "c2"; C "c3" "k"].
Theorem C24_filter_concat_refuted :
  before cat_m cat_net [[1]%Q] "c3" = Ok (Some [[3021]%Q]) /\ after filters_of_net cat_m cat_net [[1]%Q] "c3" = Ok (Raise RuntimeError).
Proof. split; vm_compute; reflexivity. Qed.
Print Assumptions C24_filter_concat_refuted.

(** two convolutions with different zero filters are added *)
Definition add_m := mkMs [("c1", conv_m 1 2); ("c2", conv_m 1 2); ("c3", conv_m 2 1)]
  [W "c1" [2; 1; 1; 1] [1; 0]%Q; W "c2" [2; 1; 1; 1] [0; 3]%Q; W "c3" [1; 2; 1; 1] [1; 10]%Q].
Definition add_net := [C "c1" ""; C "c2" ""; A "a" "c1" "c2"; C "c3" "a"].
Theorem C24_filter_add_refuted :
  before add_m add_net [[1]%Q] "c3" = Ok (Some [[31]%Q]) /\ after filters_of_net add_m add_net [[1]%Q] "c3" = Ok (Ok (Some [[4]%Q])).
Proof. split; vm_compute; reflexivity. Qed.
Print Assumptions C24_filter_add_refuted.

(** a zero filter of the last convolution: the network has fewer outputs *)
Definition last_m := mkMs [("c1", conv_m 1 2)] [W "c1" [2; 1; 1; 1] [0; 3]%Q].
Theorem C24_filter_output_refuted :
  before last_m [C "c1" ""] [[1]%Q] "c1" = Ok (Some [[0]%Q; [3]%Q]) /\ after filters_of_net last_m [C "c1" ""] [[1]%Q] "c1" = Ok (Ok (Some [[3]%Q])).
Proof. split; vm_compute; reflexivity. Qed.
Print Assumptions C24_filter_output_refuted.

(** a linear layer that sees feature maps of 2 x 3 positions: RuntimeError *)
Definition rect_m := mkMs [("c1", conv_m 1 2); ("f", lin_m 12 1)] [W "c1" [2; 1; 1; 1] [1; 0]%Q; W "f" [1; 12] (repeat 1%Q 12)].
Definition rect_net := [mkNode "c1" (OConv (pt 6)) [""]; L "f" "c1"].
Theorem C24_filter_rectangle_refuted :
  before rect_m rect_net [[1; 2; 3; 4; 5; 6]%Q] "f" = Ok (Some [[21]%Q]) /\ after filters_of_net rect_m rect_net [[1; 2; 3; 4; 5; 6]%Q] "f" = Raise RuntimeError.
Proof. split; vm_compute; reflexivity. Qed.
Print Assumptions C24_filter_rectangle_refuted.

(** a depth-wise convolution with its own zero filter: its consumer loses the channel, its producer does not *)
Definition dwz_m := mkMs [("c1", conv_m 1 2); ("d", dw_m 2 2); ("c2", conv_m 2 1)] [W "c1" [2; 1; 1; 1] [1; 2]%Q; W "d" [2; 1; 1; 1] [1; 0]%Q; W "c2" [1; 2; 1; 1] [1; 1]%Q].
Definition dwz_net := [C "c1" ""; C "d" "c1"; C "c2" "d"].
Theorem C24_filter_depthwise_refuted :
  before dwz_m dwz_net [[1]%Q] "c2" = Ok (Some [[1]%Q]) /\ after filters_of_net dwz_m dwz_net [[1]%Q] "c2" = Ok (Raise RuntimeError).
Proof. split; vm_compute; reflexivity. Qed.
Print Assumptions C24_filter_depthwise_refuted.

(** removing channels: another convolution uses the removed channel *)
Definition fan_m := mkMs [("c1", conv_m 1 2); ("c2", conv_m 2 1); ("c3", conv_m 2 1)]
  [W "c1" [2; 1; 1; 1] [1; 2]%Q; W "c2" [1; 2; 1; 1] [1; 0]%Q; W "c3" [1; 2; 1; 1] [1; 1]%Q].
Definition fan_net := [C "c1" ""; C "c2" "c1"; C "c3" "c1"; A "a" "c2" "c3"].
Theorem C24_channel_shared_refuted :
  before fan_m fan_net [[1]%Q] "a" = Ok (Some [[4]%Q]) /\ after channels_of_net fan_m fan_net [[1]%Q] "a" = Ok (Raise RuntimeError).
Proof. split; vm_compute; reflexivity. Qed.
Print Assumptions C24_channel_shared_refuted.

(** removing channels: the search for batch norms passes through convolutions, and thins the wrong batch norm *)
Definition far_m := mkMs [("c1", conv_m 1 2); ("b", bn_m 2 [0; 0]%Q [1; 1]%Q); ("c2", conv_m 2 2); ("c3", conv_m 2 1)]
  [W "c1" [2; 1; 1; 1] [1; 2]%Q; W "b" [2] [1; 1]%Q; B "b" [0; 0]%Q; W "c2" [2; 2; 1; 1] [1; 2; 3; 4]%Q; W "c3" [1; 2; 1; 1] [1; 0]%Q].
Definition far_net := [C "c1" ""; N "b" "c1"; C "c2" "b"; C "c3" "c2"].
Theorem C24_channel_bn_search_refuted :
  before far_m far_net [[1]%Q] "c3" = Ok (Some [[5]%Q]) /\ after channels_of_net far_m far_net [[1]%Q] "c3" = Ok (Raise RuntimeError).
Proof. split; vm_compute; reflexivity. Qed.
Print Assumptions C24_channel_bn_search_refuted.

(** removing channels: a zero column of the second linear layer thins the convolution before the first one *)
Definition lin2_m := mkMs [("c1", conv_m 1 3); ("f1", lin_m 3 3); ("f2", lin_m 3 1)]
  [W "c1" [3; 1; 1; 1] [1; 2; 3]%Q; W "f1" [3; 3] [1; 2; 3; 4; 5; 6; 7; 8; 9]%Q; W "f2" [1; 3] [1; 0; 1]%Q].
Definition lin2_net := [C "c1" ""; L "f1" "c1"; L "f2" "f1"].
Theorem C24_channel_linear_refuted :
  before lin2_m lin2_net [[1]%Q] "f2" = Ok (Some [[64]%Q]) /\ after channels_of_net lin2_m lin2_net [[1]%Q] "f2" = Ok (Raise RuntimeError).
Proof. split; vm_compute; reflexivity. Qed.
Print Assumptions C24_channel_linear_refuted.

(** removing channels: the first convolution ignores an input channel; the thinned network rejects the inputs *)
Definition first_m := mkMs [("c1", conv_m 2 1)] [W "c1" [1; 2; 1; 1] [1; 0]%Q].
Theorem C24_channel_input_refuted :
  before first_m [C "c1" ""] [[1]%Q; [2]%Q] "c1" = Ok (Some [[1]%Q]) /\ after channels_of_net first_m [C "c1" ""] [[1]%Q; [2]%Q] "c1" = Ok (Raise RuntimeError).
Proof. split; vm_compute; reflexivity. Qed.
Print Assumptions C24_channel_input_refuted.

(** removing channels: a linear layer's [in_features] is not updated *)
Theorem C24_channel_in_features_refuted : exists m' ms s,
  channels_of_net [C "c1" ""; L "f1" "c1"] (mkMs [("c1", conv_m 1 3); ("f1", lin_m 3 1)] [W "c1" [3; 1; 1; 1] [1; 2; 3]%Q; W "f1" [1; 3] [1; 0; 3]%Q]) = Ok (m', ms, s) /\
  option_map (fun p => nd_shape (p_data p)) (pget (ms_params m') ("f1", "weight")) = Some [1; 2] /\ int_attr m' "f1" "in_features" = Ok 3.
Proof. eexists _, _, _. split; [vm_compute; reflexivity|]. split; reflexivity. Qed.
Print Assumptions C24_channel_in_features_refuted.
