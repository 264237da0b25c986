(** /repo/src/tree.rs: growing a tree and walking it; /repo/src/grower.rs. *)
From Coq Require Import List Arith NArith Bool.
From Verif Require Import Prelude Float Data Utils Histogram Node Splitter.
Import ListNotations.

(** gradientbooster.rs:30-34 (enum GrowPolicy), sampler.rs:5-10 (enum SampleMethod) *)
Inductive GrowPolicy := DepthWise | LossGuide.
Inductive SampleMethod := SNone | SRandom | SGoss.

Section Tree.
Context {FS : Floats}.

(** grower.rs: [add_node] / [get_next_node].  DepthWise is a VecDeque used as a FIFO queue
    (grower.rs:25-36).  LossGuide is a BinaryHeap ordered by gain_value (node.rs:47-51); which
    of the pending nodes it pops is left to [pick] (step number, pending nodes), so the
    theorems cover any heap and any tie breaking. *)
Definition pick_fn := nat -> list (@SplittableNode FS) -> nat.

Definition pop_node (policy : GrowPolicy) (pick : pick_fn) (step : nat) (l : list SplittableNode)
  : option (SplittableNode * list SplittableNode) :=
  match l with
  | [] => None
  | first :: rest =>
      match policy with
      | DepthWise => Some (first, rest)
      | LossGuide =>
          let i := pick step l mod length l in
          let* n := nth_error l i in
          Some (n, firstn i l ++ skipn (S i) l)
      end
  end.

(** What the loop of Tree::fit mutates: tree.rs:33-155. *)
Record Grow := mkGrow {
  g_nodes : list Node; g_pending : list SplittableNode; g_index : list nat;
  g_n_nodes : nat; g_n_leaves : nat }.

(** tree.rs:144-150: push the new nodes, and queue those that may be split *)
Definition push_children (lr : F32) (st : Grow) (new : list SplittableNode) : Grow :=
  mkGrow (g_nodes st ++ map (fun n => as_node n lr) new)
         (g_pending st ++ filter (fun n => negb (sn_is_missing_leaf n)) new)
         (g_index st) (g_n_nodes st) (g_n_leaves st).

(** tree.rs:104-152: one turn of the loop body, after the max_leaves test and the pop *)
Definition grow_node (s : Splitter) (t : Train) (max_depth : nat)
    (node : SplittableNode) (st : Grow) : option Grow :=
  if max_depth <? sn_depth node + 1 then Some st
  else
    let n_leaves := g_n_leaves st - 1 in
    let* (new, node', index) := split_node s t (g_n_nodes st) node (g_index st) in
    match new with
    | [] => Some (mkGrow (g_nodes st) (g_pending st) index (g_n_nodes st) (n_leaves + 1))
    | _ =>
        let* old := nth_error (g_nodes st) (sn_num node) in
        let* nodes := update (g_nodes st) (sn_num node) (make_parent_node old node') in
        Some (push_children (sp_learning_rate (params s))
                (mkGrow nodes (g_pending st) index (g_n_nodes st + length new)
                        (n_leaves + length new)) new)
    end.

(** tree.rs:104-152: the loop.  Fuel: see [grow_fuel]; [None] from exhausted fuel is excluded by
    a theorem. *)
Fixpoint grow_loop (fuel : nat) (policy : GrowPolicy) (pick : pick_fn) (s : Splitter) (t : Train)
    (max_leaves max_depth : nat) (st : Grow) : option Grow :=
  match g_pending st with
  | [] => Some st
  | _ =>
      if max_leaves <? g_n_leaves st + new_leaves_added s then Some st
      else
        match fuel with
        | 0 => None
        | S f =>
            let* (node, rest) := pop_node policy pick fuel (g_pending st) in
            let* st' := grow_node s t max_depth node
                          (mkGrow (g_nodes st) rest (g_index st) (g_n_nodes st) (g_n_leaves st)) in
            grow_loop f policy pick s t max_leaves max_depth st'
        end
  end.

(** Enough turns for any tree of this depth: a split replaces a pending node of depth d by at
    most three of depth d+1. *)
Definition grow_fuel (max_depth : nat) : nat := 4 ^ max_depth.

(** tree.rs:51-66: the totals of the root, and whether the gradients need reordering *)
Definition root_sums (grad hess : list F32) (index : list nat) (sm : SampleMethod)
  : option (F32 * F32 * bool) :=
  match sm with
  | SNone => Some (fast_f64_sum grad, fast_f64_sum hess, false)
  | _ =>
      let* g := mapM (nth_error grad) index in
      let* h := mapM (nth_error hess) index in
      Some (to32 (fsum f64 (map to64 g)), to32 (fsum f64 (map to64 h)), true)
  end.

(** tree.rs:68-103: the root node *)
Definition root_node (s : Splitter) (t : Train) (index : list nat) (sm : SampleMethod)
  : option SplittableNode :=
  let p := params s in
  let* (gs, hs, sort) := root_sums (tr_grad t) (tr_hess t) index sm in
  let rg := gain (sp_l2 p) gs hs in
  let rw := weight (sp_l1 p) (sp_l2 p) (sp_max_delta_step p) gs hs in
  let* h := hist_new_serial (tr_data t) (tr_cuts t) (tr_grad t) (tr_hess t) index (tr_cols t) sort in
  Some (snode_new 0 h rw rg gs hs 0 0 (length index) (fninf f32) (finf f32)).

(** tree.rs:94-103 *)
Definition grow_init (s : Splitter) (root : SplittableNode) (index : list nat) : Grow :=
  mkGrow [as_node root (sp_learning_rate (params s))] [root] index 1 1.

(** tree.rs:33-155 Tree::fit on a new (empty) tree, which is how it is always called.  Returns
    the nodes and the final row order (the latter is dropped by the code). *)
Definition tree_fit (policy : GrowPolicy) (pick : pick_fn) (s : Splitter) (t : Train)
    (index : list nat) (max_leaves max_depth : nat) (sm : SampleMethod)
  : option (list Node * Grow) :=
  let* root := root_node s t index sm in
  let* st := grow_loop (grow_fuel max_depth) policy pick s t max_leaves max_depth
               (grow_init s root index) in
  let* nodes := clean_up_splits s (g_nodes st) in
  Some (nodes, st).

(** tree.rs:396-406, 408-418: follow the splits from node [i].  [row f] is the value of feature
    f (panics when out of bounds).  The code loops until a leaf; fuel as above. *)
Fixpoint walk (fuel : nat) (nodes : list Node) (row : nat -> option F64) (missing : F64) (i : nat)
  : option Node :=
  match fuel with
  | 0 => None
  | S f =>
      let* n := nth_error nodes i in
      if n_is_leaf n then Some n
      else
        let* v := row (n_split_feature n) in
        let* c := get_child_idx n v missing in
        walk f nodes row missing c
  end.

(** tree.rs:396-406 predict_leaf *)
Definition predict_leaf (nodes : list Node) (data : Matrix F64) (row : nat) (missing : F64)
  : option Node :=
  walk (length nodes) nodes (fun f => m_get data row f) missing 0.

(** tree.rs:408-418 predict_row_from_row_slice *)
Definition predict_row_from_row_slice (nodes : list Node) (row : list F64) (missing : F64)
  : option F64 :=
  let* n := walk (length nodes) nodes (fun f => nth_error row f) missing 0 in
  Some (to64 (n_weight n)).

(** tree.rs:420-440 predict: serial, or under any parallel schedule *)
Definition tree_predict (nodes : list Node) (data : Matrix F64) (missing : F64) : option (list F64) :=
  mapM (fun i => let* n := predict_leaf nodes data i missing in Some (to64 (n_weight n))) (m_index data).
Definition tree_predict_parallel (sh : SplitShape) (nodes : list Node) (data : Matrix F64) (missing : F64)
  : option (list F64) :=
  par_map sh (fun i => let* n := predict_leaf nodes data i missing in Some (to64 (n_weight n))) (m_index data).

(** tree.rs:442-447 *)
Definition tree_predict_leaf_indices (sh : SplitShape) (nodes : list Node) (data : Matrix F64) (missing : F64)
  : option (list nat) :=
  par_map sh (fun i => let* n := predict_leaf nodes data i missing in Some (n_num n)) (m_index data).
End Tree.
