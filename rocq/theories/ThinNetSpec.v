(** Vocabulary for C24: which channels of which values of a network are removed, and when removing them is consistent.
    Nothing here refers to the searches, the recipes or their execution. *)
From Coq Require Import String List ZArith QArith Bool Arith.
From Verif Require Import Base Lists StructModel ThinModel ThinSpec.
Import ListNotations.
Local Open Scope nat_scope.

(** equal values of the network *)
Definition veq : fmap -> fmap -> Prop := Forall2 (Forall2 Qeq).
(** some channels of a value *)
Definition select (idx : list nat) (x : fmap) : fmap := map (fun c => nth c x []) idx.
Definition all_zero (l : list Q) : Prop := forall v, In v l -> (v == 0)%Q.

(** for every value of the network: its number of channels and the channels that are kept *)
Record plan := mkPlan { chans : string -> nat; keep : string -> list nat }.
Definition all_kept (pl : plan) (n : string) : Prop := keep pl n = seq 0 (chans pl n).
Definition removed (pl : plan) (n : string) (c : nat) : Prop := c < chans pl n /\ ~ In c (keep pl n).
Definition same_channels (pl : plan) (a b : string) : Prop := chans pl a = chans pl b /\ keep pl a = keep pl b.

(** the weights of output filter [o], and those of filter [o] for input channel [c] *)
Definition filter_of (w : nd) (o : nat) : list Q := slice (numel (tl (nd_shape w))) o (nd_data w).
Definition kernel_of (w : nd) (o c : nat) : list Q := slice (numel (tl (tl (nd_shape w)))) c (filter_of w o).
Definition nonzero_filter (w : nd) (o : nat) : Prop := ~ all_zero (filter_of w o).

(** what a channel operation such as ReLU or pooling computes depends on the values only *)
Definition respects (f : list Q -> list Q) : Prop := forall a b, Forall2 Qeq a b -> Forall2 Qeq (f a) (f b).
Definition keeps_zero (f : list Q -> list Q) : Prop := forall a, all_zero a -> all_zero (f a).
Definition uniform (f : list Q -> list Q) : Prop := forall a b, length a = length b -> length (f a) = length (f b).
Definition respects_values (f : list fmap -> res fmap) : Prop :=
  forall a b y, Forall2 veq a b -> f a = Ok y -> exists y', f b = Ok y' /\ veq y y'.

Definition is_kind (m : mstate) (n : string) (k : mkind) : Prop := exists x, dget (ms_mods m) n = Some x /\ m_kind x = k.
Definition has_int (m : mstate) (n a : string) (v : nat) : Prop := exists x, dget (ms_mods m) n = Some x /\ dget (m_attrs x) a = Some (AInt v).
Definition has_tensor (m : mstate) (n a : string) (sh : list nat) (t : nd) : Prop :=
  (exists x, dget (ms_mods m) n = Some x /\ dget (m_attrs x) a = Some (ATen t)) /\ of_shape sh t.
Definition has_weight (m : mstate) (n : string) (sh : list nat) (w : nd) : Prop :=
  (exists p, pget (ms_params m) (n, "weight"%string) = Some p /\ p_data p = w) /\ of_shape sh w.
Definition bias_of (m : mstate) (n : string) (b : nd) : Prop := exists p, pget (ms_params m) (n, "bias"%string) = Some p /\ p_data p = b.

(** when the plan removes all-zero filters: the values of the removed channels are zero everywhere *)
Definition filters_ok (rs : Q -> Q) (m : mstate) (pl : plan) (nd : node) : Prop :=
  let n := n_name nd in
  match n_op nd, n_in nd with
  | OConv _, [i] =>
    exists w gr C kh kw, has_weight m n [chans pl n; C; kh; kw] w /\ is_kind m n KConv /\
    has_int m n "in_channels" (chans pl i) /\ has_int m n "out_channels" (chans pl n) /\ has_int m n "groups" gr /\
    C * gr = chans pl i /\
    (forall b, bias_of m n b -> of_shape [chans pl n] b /\ forall c, removed pl n c -> (nth c (nd_data b) 0 == 0)%Q) /\
    ((* an ordinary convolution: exactly the all-zero filters are removed *)
     (gr = 1 /\ forall o, o < chans pl n -> (In o (keep pl n) <-> nonzero_filter w o)) \/
     (* a depth-wise convolution follows its input *)
     (gr <> 1 /\ C = 1 /\ same_channels pl n i /\
        ((forall o, o < chans pl n -> nonzero_filter w o) \/ (forall o, o < chans pl n -> (In o (keep pl n) <-> nonzero_filter w o)))) \/
     (* other grouped convolutions are not affected *)
     (gr <> 1 /\ all_kept pl n /\ all_kept pl i /\ forall o, o < chans pl n -> nonzero_filter w o))
  | OLinear, [i] =>
    exists w F, has_weight m n [chans pl n; F] w /\ is_kind m n KLinear /\
    has_int m n "in_features" F /\ has_int m n "out_features" (chans pl n) /\
    (forall b, bias_of m n b -> of_shape [chans pl n] b) /\
    all_kept pl n /\ (all_kept pl i \/ exists h, 0 < h /\ F = chans pl i * (h * h))
  | OBn, [i] =>
    exists w b mean var, has_weight m n [chans pl n] w /\ bias_of m n b /\ of_shape [chans pl n] b /\ is_kind m n KBn /\
    has_tensor m n "running_mean" [chans pl n] mean /\ has_tensor m n "running_var" [chans pl n] var /\
    same_channels pl n i /\
    forall c, removed pl n c -> ((0 - nth c (nd_data mean) 0) * rs (nth c (nd_data var) 0) * nth c (nd_data w) 0 + nth c (nd_data b) 0 == 0)%Q
  | OChan f, [i] => same_channels pl n i /\ respects f /\ (all_kept pl n \/ keeps_zero f /\ uniform f)
  | OAdd, [i; j] => same_channels pl n i /\ same_channels pl n j
  | OOther f, l => all_kept pl n /\ (forall i, In i l -> all_kept pl i) /\ respects_values f /\
    forall xs y, f xs = Ok y -> Forall2 (fun i (x : fmap) => length x = chans pl i) l xs -> length y = chans pl n
  | _, _ => False
  end.

(** the value of [b] is computed from the value of [a], passing through operations outside [stop] only *)
Inductive flows (net : list node) (stop : nop -> Prop) (a : string) : string -> Prop :=
| flows_in nd : In nd net -> In a (n_in nd) -> flows net stop a (n_name nd)
| flows_through nd' nd : flows net stop a (n_name nd') -> In nd' net -> ~ stop (n_op nd') -> In nd net -> In (n_name nd') (n_in nd) -> flows net stop a (n_name nd).
Definition is_bn (op : nop) : Prop := match op with OBn => True | _ => False end.
Definition is_conv (op : nop) : Prop := match op with OConv _ => True | _ => False end.

(** nodes in execution order with distinct names (which are not names of data nodes of the graph) *)
Fixpoint ordered (before : list string) (net : list node) : Prop :=
  match net with
  | [] => True
  | nd :: r => ~ In (n_name nd) before /\ incl (n_in nd) before /\ ordered (n_name nd :: before) r
  end.
Definition net_ok (net : list node) : Prop :=
  ordered [net_input] net /\ forall a b, In a net -> In b net -> n_name a <> data_of (n_name b) /\ n_name a <> data_of net_input.

Record filters_plan_ok (rs : Q -> Q) (m : mstate) (net : list node) (pl : plan) : Prop := {
  fp_net : net_ok net;
  fp_params : NoDup (map fst (ms_params m));
  fp_4d : forall k p, pget (ms_params m) k = Some p -> length (nd_shape (p_data p)) = 4 ->
          exists nd, In nd net /\ is_conv (n_op nd) /\ k = (n_name nd, "weight"%string);
  fp_keep : forall n, index_set (chans pl n) (keep pl n) /\ keep pl n <> [];
  fp_input : all_kept pl net_input;
  fp_nodes : forall nd, In nd net -> filters_ok rs m pl nd;
  (* the batch-norm layers that follow a thinned convolution have its channels ... *)
  fp_bn : forall a b, In a net -> In b net -> is_conv (n_op a) -> is_bn (n_op b) -> ~ all_kept pl (n_name a) ->
          flows net is_bn (n_name a) (n_name b) -> same_channels pl (n_name b) (n_name a);
  (* ... and every other batch-norm layer keeps all its channels *)
  fp_bn_all : forall b, In b net -> is_bn (n_op b) -> all_kept pl (n_name b) \/
          exists a, In a net /\ is_conv (n_op a) /\ ~ all_kept pl (n_name a) /\ flows net is_bn (n_name a) (n_name b)
}.

(** every thinned convolution leads to at most one batch-norm layer *)
Definition one_bn (m : mstate) (net : list node) (pl : plan) : Prop :=
  forall a b b', In a net -> In b net -> In b' net -> is_conv (n_op a) -> ~ all_kept pl (n_name a) -> is_bn (n_op b) -> is_bn (n_op b') ->
  flows net is_bn (n_name a) (n_name b) -> flows net is_bn (n_name a) (n_name b') -> b = b'.
(** gradients and momentum buffers have the shape of their parameter; gradients come with an SGD or without an optimizer *)
Definition tensors_fit (opt : optimizer) (m : mstate) : Prop :=
  forall k p, pget (ms_params m) k = Some p ->
  (forall t, p_grad p = Some t -> of_shape (nd_shape (p_data p)) t /\ opt <> Some false) /\
  (forall t, p_mom p = Some t -> of_shape (nd_shape (p_data p)) t).

(** * Removing channels *)
(** the weights for input channel [c] (for a linear layer: input feature [c]) are not all zero *)
Definition nonzero_input (w : nd) (c : nat) : Prop := exists o, o < nth 0 (nd_shape w) 0 /\ ~ all_zero (kernel_of w o c).
(** when the plan removes input channels with all-zero weights: what those channels hold does not matter *)
Definition channels_ok (m : mstate) (pl : plan) (nd : node) : Prop :=
  let n := n_name nd in
  match n_op nd, n_in nd with
  | OConv _, [i] =>
    exists w gr C kh kw, has_weight m n [chans pl n; C; kh; kw] w /\ is_kind m n KConv /\
    has_int m n "in_channels" (chans pl i) /\ has_int m n "groups" gr /\ C * gr = chans pl i /\
    (forall b, bias_of m n b -> of_shape [chans pl n] b) /\
    ((* an ordinary convolution: exactly the input channels with all-zero weights are removed *)
     (gr = 1 /\ forall c, c < C -> (In c (keep pl i) <-> nonzero_input w c)) \/
     (* a depth-wise convolution that is not zero follows its input *)
     (gr <> 1 /\ C = 1 /\ same_channels pl n i /\ nonzero_input w 0) \/
     (* other grouped convolutions are not affected *)
     (gr <> 1 /\ all_kept pl n /\ all_kept pl i /\ forall c, c < C -> nonzero_input w c))
  | OLinear, [i] =>
    exists w F, has_weight m n [chans pl n; F] w /\ is_kind m n KLinear /\ all_kept pl n /\ 0 < F /\
    ((all_kept pl i /\ forall c, c < F -> nonzero_input w c) \/
     (* one feature per channel *)
     (F = chans pl i /\ forall c, c < F -> (In c (keep pl i) <-> nonzero_input w c)))
  | OBn, [i] =>
    exists w b mean var, has_weight m n [chans pl n] w /\ bias_of m n b /\ of_shape [chans pl n] b /\ is_kind m n KBn /\
    has_tensor m n "running_mean" [chans pl n] mean /\ has_tensor m n "running_var" [chans pl n] var /\
    same_channels pl n i
  | OChan f, [i] => same_channels pl n i /\ respects f /\ (all_kept pl n \/ uniform f)
  | OAdd, [i; j] => same_channels pl n i /\ same_channels pl n j
  | OOther f, l => all_kept pl n /\ (forall i, In i l -> all_kept pl i) /\ respects_values f /\
    forall xs y, f xs = Ok y -> Forall2 (fun i (x : fmap) => length x = chans pl i) l xs -> length y = chans pl n
  | _, _ => False
  end.
Definition is_layer (op : nop) : Prop := match op with OConv _ | OLinear => True | _ => False end.
(** [s] is a convolution or a linear layer whose input [i] loses channels *)
Definition thinned_input (net : list node) (pl : plan) (s : node) (i : string) : Prop :=
  In s net /\ is_layer (n_op s) /\ n_in s = [i] /\ ~ all_kept pl i.

Record channels_plan_ok (m : mstate) (net : list node) (pl : plan) : Prop := {
  cp_net : net_ok net;
  cp_params : NoDup (map fst (ms_params m));
  cp_2d4d : forall k p, pget (ms_params m) k = Some p -> length (nd_shape (p_data p)) = 2 \/ length (nd_shape (p_data p)) = 4 ->
            exists nd, In nd net /\ is_layer (n_op nd) /\ k = (n_name nd, "weight"%string);
  cp_keep : forall n, index_set (chans pl n) (keep pl n) /\ keep pl n <> [];
  cp_input : all_kept pl net_input;
  cp_nodes : forall nd, In nd net -> channels_ok m pl nd;
  (* values that lose channels are used *)
  cp_used : forall nd, In nd net -> ~ all_kept pl (n_name nd) -> exists s, In s net /\ In (n_name nd) (n_in s);
  (* the batch-norm layers before a thinned layer have the channels of its input ... *)
  cp_bn : forall s i b, thinned_input net pl s i -> In b net -> is_bn (n_op b) -> flows net is_bn (n_name b) (n_name s) -> same_channels pl (n_name b) i;
  (* ... and every other batch-norm layer keeps all its channels *)
  cp_bn_all : forall b, In b net -> is_bn (n_op b) -> all_kept pl (n_name b) \/
            exists s i, thinned_input net pl s i /\ flows net is_bn (n_name b) (n_name s)
}.
