(** /repo/src/node.rs and the split descriptions of /repo/src/splitter.rs:14-40. *)
From Coq Require Import List Arith Bool.
From Verif Require Import Prelude Float Data Utils Histogram.
Import ListNotations.

Section Node.
Context {FS : Floats}.

(** splitter.rs:25-32 *)
Record NodeInfo := mkNodeInfo {
  ni_grad : F32; ni_gain : F32; ni_cover : F32; ni_weight : F32; ni_bounds : F32 * F32 }.

(** splitter.rs:34-40 *)
Inductive MissingInfo := MLeft | MRight | MLeaf (i : NodeInfo) | MBranch (i : NodeInfo).

(** splitter.rs:14-23 *)
Record SplitInfo := mkSplitInfo {
  si_gain : F32; si_feature : nat; si_value : F64; si_bin : nat;
  si_left : NodeInfo; si_right : NodeInfo; si_missing : MissingInfo }.

(** node.rs:9-30 *)
Record SplittableNode := mkSNode {
  sn_num : nat; sn_hist : HistogramMatrix; sn_weight : F32; sn_gain : F32;
  sn_grad : F32; sn_hess : F32; sn_depth : nat;
  sn_split_value : F64; sn_split_feature : nat; sn_split_gain : F32;
  sn_missing_node : nat; sn_left_child : nat; sn_right_child : nat;
  sn_start : nat; sn_stop : nat; sn_lower : F32; sn_upper : F32;
  sn_is_leaf : bool; sn_is_missing_leaf : bool }.

(** node.rs:32-45 *)
Record Node := mkNode {
  n_num : nat; n_weight : F32; n_hess : F32; n_depth : nat;
  n_split_value : F64; n_split_feature : nat; n_split_gain : F32;
  n_missing : nat; n_left : nat; n_right : nat; n_is_leaf : bool }.

(** node.rs:70-78 *)
Definition make_parent_node (n : Node) (s : SplittableNode) : Node :=
  mkNode (n_num n) (n_weight n) (n_hess n) (n_depth n)
    (sn_split_value s) (sn_split_feature s) (sn_split_gain s)
    (sn_missing_node s) (sn_left_child s) (sn_right_child s) false.

(** node.rs:80-88 *)
Definition get_child_idx (n : Node) (v missing : F64) : option nat :=
  let* m := is_missing v missing in
  Some (if m then n_missing n
        else if (v <? n_split_value n)%f64 then n_left n
        else n_right n).

(** node.rs:90-92 *)
Definition has_missing_branch (n : Node) : bool :=
  negb (n_missing n =? n_right n) && negb (n_missing n =? n_left n).

(** node.rs:96-125 *)
Definition from_node_info (num : nat) (h : HistogramMatrix) (depth start stop : nat)
    (i : NodeInfo) : SplittableNode :=
  mkSNode num h (ni_weight i) (ni_gain i) (ni_grad i) (ni_cover i) depth
    (fzero f64) 0 (fzero f32) 0 0 0 start stop (fst (ni_bounds i)) (snd (ni_bounds i)) true false.

(** node.rs:130-164 *)
Definition snode_new (num : nat) (h : HistogramMatrix) (w g gs hs : F32) (depth start stop : nat)
    (lo up : F32) : SplittableNode :=
  mkSNode num h w g gs hs depth (fzero f64) 0 (fzero f32) 0 0 0 start stop lo up true false.

(** node.rs:187-199 *)
Definition get_split_gain (s : SplittableNode) (l r : NodeInfo) (m : MissingInfo) (gamma : F32) : F32 :=
  let missing_split_gain := match m with MBranch i | MLeaf i => ni_gain i | _ => fzero f32 end in
  (ni_gain l + ni_gain r + missing_split_gain - sn_gain s - gamma)%f32.

(** node.rs:166-185 *)
Definition update_children (s : SplittableNode) (missing left right : nat) (i : SplitInfo) : SplittableNode :=
  mkSNode (sn_num s) (sn_hist s) (sn_weight s) (sn_gain s) (sn_grad s) (sn_hess s) (sn_depth s)
    (si_value i) (si_feature i)
    (get_split_gain s (si_left i) (si_right i) (si_missing i) (fzero f32))
    missing left right (sn_start s) (sn_stop s) (sn_lower s) (sn_upper s) false (sn_is_missing_leaf s).

(** node.rs:201-215 *)
Definition as_node (s : SplittableNode) (learning_rate : F32) : Node :=
  mkNode (sn_num s) (sn_weight s * learning_rate)%f32 (sn_hess s) (sn_depth s)
    (sn_split_value s) (sn_split_feature s) (sn_split_gain s)
    (sn_missing_node s) (sn_left_child s) (sn_right_child s) (sn_is_leaf s).

(** splitter.rs:696 sets the flag on the missing child *)
Definition set_missing_leaf (s : SplittableNode) (b : bool) : SplittableNode :=
  mkSNode (sn_num s) (sn_hist s) (sn_weight s) (sn_gain s) (sn_grad s) (sn_hess s) (sn_depth s)
    (sn_split_value s) (sn_split_feature s) (sn_split_gain s)
    (sn_missing_node s) (sn_left_child s) (sn_right_child s)
    (sn_start s) (sn_stop s) (sn_lower s) (sn_upper s) (sn_is_leaf s) b.

(** assignments to weight_value, e.g. splitter.rs:302-311 *)
Definition set_weight (n : Node) (w : F32) : Node :=
  mkNode (n_num n) w (n_hess n) (n_depth n) (n_split_value n) (n_split_feature n)
    (n_split_gain n) (n_missing n) (n_left n) (n_right n) (n_is_leaf n).
End Node.
