(** /repo/src/splitter.rs. *)
From Coq Require Import List Arith NArith Bool.
From Verif Require Import Prelude Float Data Utils Histogram Node.
Import ListNotations.

(** gradientbooster.rs:69-83 (enum MissingNodeTreatment) *)
Inductive MissingNodeTreatment := TNone | AssignToParent | AverageLeafWeight | AverageNodeWeight.

Section Splitter.
Context {FS : Floats}.

(** The fields the two splitter structs share: splitter.rs:248-260, 721-730. *)
Record SplitParams := mkSP {
  sp_l1 : F32; sp_l2 : F32; sp_max_delta_step : F32; sp_gamma : F32; sp_min_leaf_weight : F32;
  sp_learning_rate : F32; sp_allow_missing_splits : bool; sp_constraints : ConstraintMap }.

(** splitter.rs:248-260 MissingBranchSplitter, 721-730 MissingImputerSplitter; the HashSet of
    terminate_missing_features is a list used for membership only. *)
Inductive Splitter :=
| Imputer (p : SplitParams)
| Branch (p : SplitParams) (terminate_missing_features : list nat)
         (missing_node_treatment : MissingNodeTreatment) (force_children_to_bound_parent : bool).

Definition params (s : Splitter) : SplitParams :=
  match s with Imputer p => p | Branch p _ _ _ => p end.

(** splitter.rs:47-49: the trait default.  MissingBranchSplitter has an inherent method of the
    same name returning 2 (263-265), but Tree::fit is generic over the trait and calls this one. *)
Definition new_leaves_added (s : Splitter) : nat := 1.

(** splitter.rs:324-326, 759-761 *)
Definition get_constraint (s : Splitter) (feature : nat) : option Constraint :=
  assoc feature (sp_constraints (params s)).

Definition cweight (p : SplitParams) (g h lo up : F32) (c : option Constraint) : F32 :=
  constrained_weight (sp_l1 p) (sp_l2 p) (sp_max_delta_step p) g h lo up c.

Notation "x !=? y" := (negb (feq f32 x y)) (at level 70).

Definition EvalResult : Type := NodeInfo * NodeInfo * MissingInfo.

(** splitter.rs:410-446: weight of the missing node *)
Definition missing_weight_of (p : SplitParams) (t : MissingNodeTreatment)
    (lg lh rg rh mg mh lw rw lo up pw : F32) (c : option Constraint) : F32 :=
  match t with
  | AssignToParent => cweight p (mg + lg + rg)%f32 (mh + lh + rh)%f32 lo up c
  | AverageLeafWeight | AverageNodeWeight => ((rw * rh + lw * lh) / (rh + lh))%f32
  | TNone => if ((mh =? fzero f32)%f32 || (mg =? fzero f32)%f32)%bool then pw
             else cweight p mg mh lo up c
  end.

(** splitter.rs:347-495 MissingBranchSplitter::evaluate_split.  Outer None = a failed assert!,
    inner None = "no split here".  The min_leaf_weight test is repeated in the code (474-477);
    the second copy is unreachable and kept once. *)
Definition evaluate_split_branch (p : SplitParams) (t : MissingNodeTreatment) (force : bool)
    (lg lh rg rh mg mh lo up pw : F32) (c : option Constraint) : option (option EvalResult) :=
  if (((lg =? fzero f32)%f32 && (lh =? fzero f32)%f32) || ((rg =? fzero f32)%f32 && (rh =? fzero f32)%f32))%bool
  then Some None
  else
    let lw := cweight p lg lh lo up c in
    let rw := cweight p rg rh lo up c in
    let* (lw, rw) :=
      (if force then
         let (lw, rw) := bound_to_parent pw lw rw in
         if between lo up lw && between lo up rw then Some (lw, rw) else None
       else Some (lw, rw)) in
    let lgain := gain_given_weight (sp_l2 p) lg lh lw in
    let rgain := gain_given_weight (sp_l2 p) rg rh rw in
    if ((rh <? sp_min_leaf_weight p)%f32 || (lh <? sp_min_leaf_weight p)%f32)%bool then Some None
    else
      let mw := missing_weight_of p t lg lh rg rh mg mh lw rw lo up pw c in
      let mgain := gain_given_weight (sp_l2 p) mg mh mw in
      let info := mkNodeInfo mg mgain mh mw (lo, up) in
      let mi := if ((mg !=? fzero f32) || (mh !=? fzero f32)) && sp_allow_missing_splits p
                then MBranch info else MLeaf info in
      Some (Some (mkNodeInfo lg lgain lh lw (fninf f32, finf f32),
                  mkNodeInfo rg rgain rh rw (fninf f32, finf f32), mi)).

(** splitter.rs:783-946 MissingImputerSplitter::evaluate_split *)
Definition evaluate_split_imputer (p : SplitParams)
    (lg lh rg rh mg mh lo up : F32) (c : option Constraint) : option EvalResult :=
  if ((((lg =? fzero f32)%f32 && (lh =? fzero f32)%f32) || ((rg =? fzero f32)%f32 && (rh =? fzero f32)%f32))
      && negb (sp_allow_missing_splits p))%bool
  then None
  else
    let lw := cweight p lg lh lo up c in
    let rw := cweight p rg rh lo up c in
    let lgain := gain_given_weight (sp_l2 p) lg lh lw in
    let rgain := gain_given_weight (sp_l2 p) rg rh rw in
    if (negb (sp_allow_missing_splits p)
        && ((rh <? sp_min_leaf_weight p)%f32 || (lh <? sp_min_leaf_weight p)%f32))%bool
    then None
    else
      let '(lg, lh, lgain, lw, rg, rh, rgain, rw, mi) :=
        (if (mg !=? fzero f32) || (mh !=? fzero f32) then
           let mlw := cweight p (lg + mg)%f32 (lh + mh)%f32 lo up c in
           let mlg := cull_gain (gain_given_weight (sp_l2 p) (lg + mg)%f32 (lh + mh)%f32 mlw) mlw rw c in
           let mrw := cweight p (rg + mg)%f32 (rh + mh)%f32 lo up c in
           let mrg := cull_gain (gain_given_weight (sp_l2 p) (rg + mg)%f32 (rh + mh)%f32 mrw) lw mrw c in
           if ((mrg - rgain) <? (mlg - lgain))%f32
           then ((lg + mg)%f32, (lh + mh)%f32, mlg, mlw, rg, rh, rgain, rw, MLeft)
           else (lg, lh, lgain, lw, (rg + mg)%f32, (rh + mh)%f32, mrg, mrw, MRight)
         else (lg, lh, lgain, lw, rg, rh, rgain, rw, MRight)) in
      if ((rh <? sp_min_leaf_weight p)%f32 || (lh <? sp_min_leaf_weight p)%f32)%bool then None
      else Some (mkNodeInfo lg lgain lh lw (fninf f32, finf f32),
                 mkNodeInfo rg rgain rh rw (fninf f32, finf f32), mi).

Definition evaluate_split (s : Splitter) (lg lh rg rh mg mh lo up pw : F32) (c : option Constraint)
  : option (option EvalResult) :=
  match s with
  | Imputer p => Some (evaluate_split_imputer p lg lh rg rh mg mh lo up c)
  | Branch p _ t force => evaluate_split_branch p t force lg lh rg rh mg mh lo up pw c
  end.

(** `(i + 1) as u16` (splitter.rs:191): truncating cast *)
Definition as_u16 (n : nat) : nat := if fits_u16 n then n else N.to_nat (N.of_nat n mod 65536).

(** splitter.rs:170-180: bounds of the two children *)
Definition child_bounds (lo up lw rw : F32) (c : option Constraint) : (F32 * F32) * (F32 * F32) :=
  let mid := ((lw + rw) / lit f32 2)%f32 in
  match c with
  | None | Some Unconstrained => ((lo, up), (lo, up))
  | Some Negative => ((mid, up), (lo, mid))
  | Some Positive => ((lo, mid), (mid, up))
  end.

Definition with_bounds (i : NodeInfo) (b : F32 * F32) : NodeInfo :=
  mkNodeInfo (ni_grad i) (ni_gain i) (ni_cover i) (ni_weight i) b.

(** splitter.rs:126-185: one candidate, before it is compared with the best so far.
    [cg], [ch] are the cumulative sums of the bins left of the candidate. *)
Definition candidate (s : Splitter) (node : SplittableNode) (feature : nat) (missing bin : Bin F32)
    (i : nat) (cg ch : F32) : option (option SplitInfo) :=
  let c := get_constraint s feature in
  let rg := (sn_grad node - cg - gradient_sum missing)%f32 in
  let rh := (sn_hess node - ch - hessian_sum missing)%f32 in
  let* ev := evaluate_split s cg ch rg rh (gradient_sum missing) (hessian_sum missing)
               (sn_lower node) (sn_upper node) (sn_weight node) c in
  match ev with
  | None => Some None
  | Some (l, r, m) =>
      let sg := get_split_gain node l r m (sp_gamma (params s)) in
      let sg := cull_gain sg (ni_weight l) (ni_weight r) c in
      if (sg <=? fzero f32)%f32 then Some None
      else
        let '(lb, rb) := child_bounds (sn_lower node) (sn_upper node) (ni_weight l) (ni_weight r) c in
        let sg := if fisnan f32 sg then fzero f32 else sg in
        Some (Some (mkSplitInfo sg feature (cut_value bin) (as_u16 (i + 1))
                      (with_bounds l lb) (with_bounds r rb) m))
  end.

(** splitter.rs:110-111, 185: [max_gain] is always the gain of [split_info], so one option holds both *)
Definition better (best : option SplitInfo) (x : SplitInfo) : option SplitInfo :=
  match best with
  | None => Some x
  | Some b => if (si_gain b <? si_gain x)%f32 then Some x else best
  end.

(** splitter.rs:125-197: the loop over the bins *)
Fixpoint feature_loop (s : Splitter) (node : SplittableNode) (feature : nat) (missing : Bin F32)
    (bins : list (Bin F32)) (i : nat) (cg ch : F32) (best : option SplitInfo)
  : option (option SplitInfo) :=
  match bins with
  | [] => Some best
  | bin :: rest =>
      let* c := candidate s node feature missing bin i cg ch in
      feature_loop s node feature missing rest (i + 1)
        (cg + gradient_sum bin)%f32 (ch + hessian_sum bin)%f32
        (match c with None => best | Some x => better best x end)
  end.

(** splitter.rs:104-199 *)
Definition best_feature_split (s : Splitter) (node : SplittableNode) (feature idx : nat)
  : option (option SplitInfo) :=
  let* histogram := j_get_col (sn_hist node) idx in
  match histogram with
  | [] => None
  | missing :: bins => feature_loop s node feature missing bins 0 (fzero f32) (fzero f32) None
  end.

(** splitter.rs:70-82: the loop over the sampled columns *)
Fixpoint best_split_loop (s : Splitter) (node : SplittableNode) (cols : list nat) (idx : nat)
    (best_gain : F32) (best : option SplitInfo) : option (option SplitInfo) :=
  match cols with
  | [] => Some best
  | feature :: rest =>
      let* si := best_feature_split s node feature idx in
      match si with
      | Some info =>
          if (best_gain <? si_gain info)%f32
          then best_split_loop s node rest (idx + 1) (si_gain info) (Some info)
          else best_split_loop s node rest (idx + 1) best_gain best
      | None => best_split_loop s node rest (idx + 1) best_gain best
      end
  end.

(** splitter.rs:67-83 *)
Definition best_split (s : Splitter) (node : SplittableNode) (col_index : list nat)
  : option (option SplitInfo) :=
  best_split_loop s node col_index 0 (fzero f32) None.

(** The inputs of Tree::fit that stay fixed while a tree grows.  Histograms are computed serially
    here; any parallel schedule gives the same result (HistogramProofs). *)
Record Train := mkTrain {
  tr_data : Matrix nat; tr_cuts : Jagged F64; tr_grad : list F32; tr_hess : list F32;
  tr_cols : list nat }.

Definition hist_of (t : Train) (index : list nat) : option HistogramMatrix :=
  hist_new_serial (tr_data t) (tr_cuts t) (tr_grad t) (tr_hess t) index (tr_cols t) true.

(** splitter.rs:550-560: position of the last maximum of the three counts *)
Definition argmax3 (n_missing n_left n_right : nat) : nat :=
  let (i, m) := if n_missing <=? n_left then (1, n_left) else (0, n_missing) in
  if m <=? n_right then 2 else i.

(** splitter.rs:497-714 MissingBranchSplitter::handle_split_info.
    None = panic: empty slice, unreachable!, slice out of range or usize underflow (the latter
    wraps in release builds and then fails the slicing). *)
Definition handle_branch (p : SplitParams) (terminate : list nat) (treatment : MissingNodeTreatment)
    (t : Train) (si : SplitInfo) (n_nodes : nat) (node : SplittableNode) (index : list nat)
  : option (list SplittableNode * SplittableNode * list nat) :=
  let missing_child := n_nodes in
  let left_child := missing_child + 1 in
  let right_child := missing_child + 2 in
  let node := update_children node missing_child left_child right_child si in
  let* (missing_is_leaf, info) :=
    (match si_missing si with
     | MBranch i => Some (existsb (Nat.eqb (si_feature si)) terminate, i)
     | MLeaf i => Some (true, i)
     | _ => None
     end) in
  let info := match treatment with
              | AssignToParent => mkNodeInfo (ni_grad info) (ni_gain info) (ni_cover info)
                                    (sn_weight node) (ni_bounds info)
              | _ => info
              end in
  let* sub := slice index (sn_start node) (sn_stop node) in
  let* f := m_get_col (tr_data t) (si_feature si) in
  let* (sub, (ms, sp)) := pivot_on_split_exclude_missing sub f (si_bin si) in
  let index := splice index (sn_start node) sub in
  let total := sn_stop node - sn_start node in
  assert* sp <=? total in
  let n_right := total - sp in
  assert* n_right + ms <=? total in
  let n_left := total - n_right - ms in
  let n_missing := total - (n_right + n_left) in
  let max_ := argmax3 n_missing n_left n_right in
  let sp := sp + sn_start node in
  let ms := ms + sn_start node in
  let hist i j := let* sub := slice index i j in hist_of t sub in
  let* (missing_is_leaf, mh, lh, rh) :=
    (if n_missing =? 0 then
       if max_ =? 1 then
         let* r := hist sp (sn_stop node) in
         Some (true, hist_empty, hist_from_parent_child (sn_hist node) r, r)
       else
         let* l := hist ms sp in
         Some (true, hist_empty, l, hist_from_parent_child (sn_hist node) l)
     else if max_ =? 0 then
       let* l := hist ms sp in
       let* r := hist sp (sn_stop node) in
       Some (missing_is_leaf, hist_from_parent_two_children (sn_hist node) l r, l, r)
     else if max_ =? 1 then
       let* m := hist (sn_start node) ms in
       let* r := hist sp (sn_stop node) in
       Some (missing_is_leaf, m, hist_from_parent_two_children (sn_hist node) m r, r)
     else
       let* m := hist (sn_start node) ms in
       let* l := hist ms sp in
       Some (missing_is_leaf, m, l, hist_from_parent_two_children (sn_hist node) m l)) in
  let mn := set_missing_leaf
              (from_node_info missing_child mh (sn_depth node + 1) (sn_start node) ms info)
              missing_is_leaf in
  let ln := from_node_info left_child lh (sn_depth node + 1) ms sp (si_left si) in
  let rn := from_node_info right_child rh (sn_depth node + 1) sp (sn_stop node) (si_right si) in
  Some ([mn; ln; rn], node, index).

(** splitter.rs:948-1046 MissingImputerSplitter::handle_split_info *)
Definition handle_imputer (t : Train) (si : SplitInfo) (n_nodes : nat) (node : SplittableNode)
    (index : list nat) : option (list SplittableNode * SplittableNode * list nat) :=
  let left_child := n_nodes in
  let right_child := left_child + 1 in
  let* missing_right :=
    (match si_missing si with MLeft => Some false | MRight => Some true | _ => None end) in
  let* sub := slice index (sn_start node) (sn_stop node) in
  let* f := m_get_col (tr_data t) (si_feature si) in
  let* (sub, sp) := pivot_on_split sub f (si_bin si) missing_right in
  let index := splice index (sn_start node) sub in
  let total := sn_stop node - sn_start node in
  assert* sp <=? total in
  let n_right := total - sp in
  let n_left := total - n_right in
  let sp := sp + sn_start node in
  let hist i j := let* sub := slice index i j in hist_of t sub in
  let* (lh, rh) :=
    (if n_left <? n_right then
       let* l := hist (sn_start node) sp in
       Some (l, hist_from_parent_child (sn_hist node) l)
     else
       let* r := hist sp (sn_stop node) in
       Some (hist_from_parent_child (sn_hist node) r, r)) in
  let missing_child := if missing_right then right_child else left_child in
  let node := update_children node missing_child left_child right_child si in
  let ln := from_node_info left_child lh (sn_depth node + 1) (sn_start node) sp (si_left si) in
  let rn := from_node_info right_child rh (sn_depth node + 1) sp (sn_stop node) (si_right si) in
  Some ([ln; rn], node, index).

(** dispatch of the trait method *)
Definition handle_split_info (s : Splitter) (t : Train) (si : SplitInfo) (n_nodes : nat)
    (node : SplittableNode) (index : list nat) :=
  match s with
  | Imputer _ => handle_imputer t si n_nodes node index
  | Branch p term tr _ => handle_branch p term tr t si n_nodes node index
  end.

(** splitter.rs:222-240 *)
Definition split_node (s : Splitter) (t : Train) (n_nodes : nat) (node : SplittableNode)
    (index : list nat) : option (list SplittableNode * SplittableNode * list nat) :=
  let* b := best_split s node (tr_cols t) in
  match b with
  | Some si => handle_split_info s t si n_nodes node index
  | None => Some ([], node, index)
  end.

(** splitter.rs:266-314 update_average_missing_nodes.  Recursion depth bounded by fuel; a
    well-formed tree never runs out (children have larger numbers than their parent). *)
Fixpoint update_average_missing_nodes (fuel : nat) (nodes : list Node) (node_idx : nat)
  : option (F64 * list Node) :=
  match fuel with
  | 0 => None
  | S fu =>
      let* node := nth_error nodes node_idx in
      if n_is_leaf node then Some (to64 (n_weight node), nodes)
      else
        let right := n_right node in
        let left := n_left node in
        let current := n_num node in
        let missing := n_missing node in
        let* rn := nth_error nodes right in
        let right_hessian := to64 (n_hess rn) in
        let* (right_avg, nodes) := update_average_missing_nodes fu nodes right in
        let* ln := nth_error nodes left in
        let left_hessian := to64 (n_hess ln) in
        let* (left_avg, nodes) := update_average_missing_nodes fu nodes left in
        let* mn := nth_error nodes missing in
        let* (missing_hessian, missing_avg, missing_leaf, nodes) :=
          (if n_is_leaf mn then Some (fzero f64, fzero f64, true, nodes)
           else let* (a, nodes) := update_average_missing_nodes fu nodes missing in
                Some (to64 (n_hess mn), a, false, nodes)) in
        let upd := ((right_avg * right_hessian + left_avg * left_hessian
                     + missing_avg * missing_hessian)
                    / (left_hessian + right_hessian + missing_hessian))%f64 in
        let set i nodes := match nth_error nodes i with
                           | Some n => match update nodes i (set_weight n (to32 upd)) with
                                       | Some l => l | None => nodes end
                           | None => nodes
                           end in
        let nodes := set current nodes in
        let nodes := if missing_leaf : bool then set missing nodes else nodes in
        Some (upd, nodes)
  end.

(** splitter.rs:62, 318-322 clean_up_splits *)
Definition clean_up_splits (s : Splitter) (nodes : list Node) : option (list Node) :=
  match s with
  | Branch _ _ AverageLeafWeight _ =>
      let* (_, nodes) := update_average_missing_nodes (length nodes) nodes 0 in Some nodes
  | _ => Some nodes
  end.
End Splitter.
