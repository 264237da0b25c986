(** /repo/src/tree.rs: contributions, averages, importances and the text dump;
    /repo/src/shapley.rs; /repo/src/partial_dependence.rs. *)
From Coq Require Import List Arith Bool.
From Verif Require Import Prelude Float Data Utils Histogram Node Splitter Tree.
Import ListNotations.

Section Contrib.
Context {FS : Floats}.

(** `contribs[i] += v` *)
Definition add_at (c : list F64) (i : nat) (v : F64) : option (list F64) :=
  let* x := nth_error c i in update c i (x + v)%f64.

(** `contribs[contribs.len() - 1] += v` *)
Definition add_bias (c : list F64) (v : F64) : option (list F64) :=
  match length c with 0 => None | S k => add_at c k v end.

(** The loop all row-wise contribution methods share: from node [i] to a leaf, adding
    [delta node child_idx] to the feature of each split passed ([None] inside = leave it).  Fuel as
    in [walk]. *)
Fixpoint contrib_walk (fuel : nat) (nodes : list Node) (row : list F64) (missing : F64)
    (delta : nat -> Node -> nat -> option (option F64)) (i : nat) (c : list F64) : option (Node * list F64) :=
  match fuel with
  | 0 => None
  | S f =>
      let* n := nth_error nodes i in
      if n_is_leaf n then Some (n, c)
      else
        let* v := nth_error row (n_split_feature n) in
        let* ch := get_child_idx n v missing in
        let* d := delta i n ch in
        let* c := (match d with Some d => add_at c (n_split_feature n) d | None => Some c end) in
        contrib_walk f nodes row missing delta ch c
  end.

(** tree.rs:157-183 *)
Definition contrib_probability_change (nodes : list Node) (row : list F64) (missing logodds : F64) (c : list F64)
  : option (F64 * list F64) :=
  let* root := nth_error nodes 0 in
  let* c := add_bias c (odds (logodds + to64 (n_weight root)) - odds logodds)%f64 in
  let* (leaf, c) := contrib_walk (length nodes) nodes row missing
     (fun _ n ch => let* m := nth_error nodes ch in
        Some (Some (odds (to64 (n_weight m) + logodds) - odds (to64 (n_weight n) + logodds))%f64)) 0 c in
  Some ((logodds + to64 (n_weight leaf))%f64, c).

(** tree.rs:206-215, 249-258: the other one of left and right *)
Definition other_child (n : Node) (ch : nat) : nat := if ch =? n_left n then n_right n else n_left n.

(** tree.rs:186-228 *)
Definition contrib_midpoint_difference (nodes : list Node) (row : list F64) (missing : F64) (c : list F64)
  : option (list F64) :=
  let* (_, c) := contrib_walk (length nodes) nodes row missing
     (fun _ n ch =>
        let* m := nth_error nodes ch in
        if has_missing_branch n && (ch =? n_missing n) then Some None
        else
          let* o := nth_error nodes (other_child n ch) in
          let mid := ((n_weight m * n_hess m + n_weight o * n_hess o) / (n_hess m + n_hess o))%f32 in
          Some (Some (to64 (n_weight m - mid)%f32))) 0 c in
  Some c.

(** tree.rs:231-269 *)
Definition contrib_branch_difference (nodes : list Node) (row : list F64) (missing : F64) (c : list F64)
  : option (list F64) :=
  let* (_, c) := contrib_walk (length nodes) nodes row missing
     (fun _ n ch =>
        if has_missing_branch n && (ch =? n_missing n) then Some None
        else
          let* o := nth_error nodes (other_child n ch) in
          let* m := nth_error nodes ch in
          Some (Some (to64 (n_weight m - n_weight o)%f32))) 0 c in
  Some c.

(** tree.rs:273-308 *)
Definition contrib_mode_difference (nodes : list Node) (row : list F64) (missing : F64) (c : list F64)
  : option (list F64) :=
  let* (_, c) := contrib_walk (length nodes) nodes row missing
     (fun _ n ch =>
        if has_missing_branch n && (ch =? n_missing n) then Some None
        else
          let* l := nth_error nodes (n_left n) in
          let* r := nth_error nodes (n_right n) in
          let* m := nth_error nodes ch in
          Some (Some (to64
            (if (n_hess l =? n_hess r)%f32 then fzero f32
             else if (n_hess r <? n_hess l)%f32 then (n_weight m - n_weight l)%f32
             else (n_weight m - n_weight r)%f32)))) 0 c in
  Some c.

(** tree.rs:310-332 *)
Definition contrib_weight (nodes : list Node) (row : list F64) (missing : F64) (c : list F64) : option (list F64) :=
  let* root := nth_error nodes 0 in
  let* c := add_bias c (to64 (n_weight root)) in
  let* (_, c) := contrib_walk (length nodes) nodes row missing
     (fun _ n ch => let* m := nth_error nodes ch in
        Some (Some (to64 (n_weight m) - to64 (n_weight n))%f64)) 0 c in
  Some c.

(** tree.rs:350-373 *)
Definition contrib_average (nodes : list Node) (row : list F64) (weights : list F64) (missing : F64) (c : list F64)
  : option (list F64) :=
  let* w0 := nth_error weights 0 in
  let* c := add_bias c w0 in
  let* (_, c) := contrib_walk (length nodes) nodes row missing
     (fun i _ ch =>
        let* wi := nth_error weights i in
        let* wc := nth_error weights ch in
        Some (Some (wc - wi)%f64)) 0 c in
  Some c.

(** tree.rs:452-472 distribute_node_leaf_weights; fuel bounds the depth *)
Fixpoint distribute (fuel : nat) (nodes : list Node) (i : nat) (weights : list F64) : option (F64 * list F64) :=
  match fuel with
  | 0 => None
  | S f =>
      let* n := nth_error nodes i in
      if n_is_leaf n then
        let w := to64 (n_weight n) in
        let* weights := update weights i w in Some (w, weights)
      else
        let* l := nth_error nodes (n_left n) in
        let* r := nth_error nodes (n_right n) in
        let* (wl, weights) := distribute f nodes (n_left n) weights in
        let* (wr, weights) := distribute f nodes (n_right n) weights in
        let w := (to64 (n_hess l) * wl + to64 (n_hess r) * wr)%f64 in
        let* (w, weights) :=
          (if has_missing_branch n then
             let* m := nth_error nodes (n_missing n) in
             let* (wm, weights) := distribute f nodes (n_missing n) weights in
             Some ((w + to64 (n_hess m) * wm)%f64, weights)
           else Some (w, weights)) in
        let w := (w / to64 (n_hess n))%f64 in
        let* weights := update weights i w in Some (w, weights)
  end.

(** tree.rs:473-477 distribute_leaf_weights *)
Definition distribute_leaf_weights (nodes : list Node) : option (list F64) :=
  let* (_, w) := distribute (length nodes) nodes 0 (repeat (fzero f64) (length nodes)) in Some w.

(** tree.rs:479-498 get_average_leaf_weights *)
Fixpoint average_leaf_weights (fuel : nat) (nodes : list Node) (i : nat) : option F64 :=
  match fuel with
  | 0 => None
  | S f =>
      let* n := nth_error nodes i in
      if n_is_leaf n then Some (to64 (n_weight n))
      else
        let* l := nth_error nodes (n_left n) in
        let* r := nth_error nodes (n_right n) in
        let* wl := average_leaf_weights f nodes (n_left n) in
        let* wr := average_leaf_weights f nodes (n_right n) in
        let w := (to64 (n_hess l) * wl + to64 (n_hess r) * wr)%f64 in
        let* w :=
          (if has_missing_branch n then
             let* m := nth_error nodes (n_missing n) in
             let* wm := average_leaf_weights f nodes (n_missing n) in
             Some (w + to64 (n_hess m) * wm)%f64
           else Some w) in
        Some (w / to64 (n_hess n))%f64
  end.

(** *** shapley.rs *)

(** shapley.rs:5-21 *)
Record PathElement := mkPE { pe_feature : nat; pe_zero : F32; pe_one : F32; pe_weight : F32 }.
Definition pe_default : PathElement := mkPE 0 (fzero f32) (fzero f32) (fzero f32).

(** shapley.rs:28-45: reading or writing one past the end appends a default element first. *)
Definition path_grow (p : list PathElement) (i : nat) : list PathElement :=
  if i =? length p then p ++ [pe_default] else p.
Definition path_get (p : list PathElement) (i : nat) : option PathElement := nth_error (path_grow p i) i.
Definition path_set (p : list PathElement) (i : nat) (e : PathElement) : option (list PathElement) :=
  update (path_grow p i) i e.
Definition set_pweight (e : PathElement) (w : F32) : PathElement := mkPE (pe_feature e) (pe_zero e) (pe_one e) w.

(** shapley.rs:70-77: the loop; processes the indices given (unique_depth - 1 down to 0) *)
Fixpoint extend_loop (is : list nat) (d : nat) (zero one : F32) (p : list PathElement) : option (list PathElement) :=
  match is with
  | [] => Some p
  | i :: rest =>
      let* e := path_get p i in
      let* e1 := path_get p (i + 1) in
      let* p := path_set p (i + 1)
        (set_pweight e1 (pe_weight e1 + (one * pe_weight e * fofnat f32 (i + 1)) / fofnat f32 (d + 1))%f32) in
      let* p := path_set p i
        (set_pweight e ((zero * pe_weight e * fofnat f32 (d - i)) / fofnat f32 (d + 1))%f32) in
      extend_loop rest d zero one p
  end.

(** shapley.rs:59-78 *)
Definition extend_path (p : list PathElement) (d : nat) (zero one : F32) (feature : nat) : option (list PathElement) :=
  let* p := path_set p d (mkPE feature zero one (if d =? 0 then fone f32 else fzero f32)) in
  extend_loop (rev (seq 0 d)) d zero one p.

(** shapley.rs:84-97 *)
Fixpoint unwind_loop (is : list nat) (d : nat) (zero one next : F32) (p : list PathElement) : option (list PathElement) :=
  match is with
  | [] => Some p
  | i :: rest =>
      let* e := path_get p i in
      if negb (one =? fzero f32)%f32 then
        let w := ((next * fofnat f32 (d + 1)) / (fofnat f32 (i + 1) * one))%f32 in
        let* p := path_set p i (set_pweight e w) in
        unwind_loop rest d zero one (pe_weight e - (w * zero * fofnat f32 (d - i)) / fofnat f32 (d + 1))%f32 p
      else
        let* p := path_set p i
          (set_pweight e ((pe_weight e * fofnat f32 (d + 1)) / (zero * fofnat f32 (d - i)))%f32) in
        unwind_loop rest d zero one next p
  end.

(** shapley.rs:98-102: shift the features and fractions left, the weights stay *)
Fixpoint shift_loop (is : list nat) (p : list PathElement) : option (list PathElement) :=
  match is with
  | [] => Some p
  | i :: rest =>
      let* e := path_get p i in
      let* e1 := path_get p (i + 1) in
      let* p := path_set p i (mkPE (pe_feature e1) (pe_zero e1) (pe_one e1) (pe_weight e)) in
      shift_loop rest p
  end.

(** shapley.rs:80-103 *)
Definition unwind_path (p : list PathElement) (d k : nat) : option (list PathElement) :=
  let* e := path_get p k in
  let* ed := path_get p d in
  let* p := unwind_loop (rev (seq 0 d)) d (pe_zero e) (pe_one e) (pe_weight ed) p in
  shift_loop (seq k (d - k)) p.

(** shapley.rs:110-123 *)
Fixpoint unwound_loop (is : list nat) (d : nat) (zero one next total : F32) (p : list PathElement) : option F32 :=
  match is with
  | [] => Some total
  | i :: rest =>
      let* e := path_get p i in
      if negb (one =? fzero f32)%f32 then
        let tmp := ((next * fofnat f32 (d + 1)) / (fofnat f32 (i + 1) * one))%f32 in
        unwound_loop rest d zero one
          (pe_weight e - tmp * zero * (fofnat f32 (d - i) / fofnat f32 (d + 1)))%f32 (total + tmp)%f32 p
      else if negb (zero =? fzero f32)%f32 then
        unwound_loop rest d zero one next
          (total + (pe_weight e / zero) / (fofnat f32 (d - i) / fofnat f32 (d + 1)))%f32 p
      else if negb (pe_weight e =? fzero f32)%f32 then None
      else unwound_loop rest d zero one next total p
  end.

(** shapley.rs:105-125 *)
Definition unwound_path_sum (p : list PathElement) (d k : nat) : option F32 :=
  let* e := path_get p k in
  let* ed := path_get p d in
  unwound_loop (rev (seq 0 d)) d (pe_zero e) (pe_one e) (pe_weight ed) (fzero f32) p.

(** shapley.rs:127-142 *)
Definition get_hot_cold_children (next : nat) (n : Node) : list nat :=
  if has_missing_branch n then
    if next =? n_right n then [n_right n; n_left n; n_missing n]
    else if next =? n_left n then [n_left n; n_right n; n_missing n]
    else [n_missing n; n_left n; n_right n]
  else if next =? n_right n then [n_right n; n_left n]
  else [n_left n; n_right n].

(** shapley.rs:166-172: contributions of a leaf *)
Fixpoint leaf_contribs (is : list nat) (d : nat) (w : F32) (p : list PathElement) (c : list F64) : option (list F64) :=
  match is with
  | [] => Some c
  | i :: rest =>
      let* s := unwound_path_sum p d i in
      let* e := path_get p i in
      let* c := add_at c (pe_feature e) (to64 (s * (pe_one e - pe_zero e) * w)%f32) in
      leaf_contribs rest d w p c
  end.

(** shapley.rs:180-186: first position up to [d] that holds the feature, else d + 1 *)
Fixpoint find_feature (fuel : nat) (p : list PathElement) (d feature k : nat) : option nat :=
  match fuel with
  | 0 => Some k
  | S f =>
      if k <=? d then
        let* e := path_get p k in
        if pe_feature e =? feature then Some k else find_feature f p d feature (k + 1)
      else Some k
  end.

(** shapley.rs:145-211.  Fuel bounds the depth of the recursion. *)
Fixpoint tree_shap (fuel : nat) (nodes : list Node) (row : list F64) (missing : F64) (i d : nat) (p : list PathElement)
    (zero one : F32) (feature : nat) (c : list F64) : option (list F64) :=
  match fuel with
  | 0 => None
  | S f =>
      let* n := nth_error nodes i in
      let* p := extend_path p d zero one feature in
      if n_is_leaf n then leaf_contribs (seq 1 d) d (n_weight n) p c
      else
        let* v := nth_error row (n_split_feature n) in
        let* next := get_child_idx n v missing in
        let children := get_hot_cold_children next n in
        let* k := find_feature (d + 1) p d (n_split_feature n) 0 in
        let* (iz, io, p, d) :=
          (if negb (k =? d + 1) then
             let* e := path_get p k in
             let* p := unwind_path p d k in
             assert* 1 <=? d in
             Some (pe_zero e, pe_one e, p, d - 1)
           else Some (fone f32, fone f32, p, d)) in
        foldM (fun c '(j, ci) =>
            let* m := nth_error nodes ci in
            let z := ((n_hess m / n_hess n) * iz)%f32 in
            let o := if j =? 0 then io else fzero f32 in
            tree_shap f nodes row missing ci (d + 1) p z o (n_split_feature n) c)
          (combine (seq 0 (length children)) children) c
  end.

(** shapley.rs:213-232 *)
Definition contrib_shapley (nodes : list Node) (row : list F64) (missing : F64) (c : list F64) : option (list F64) :=
  let* a := average_leaf_weights (length nodes) nodes 0 in
  let* c := add_bias c a in
  tree_shap (length nodes) nodes row missing 0 0 [] (fone f32) (fone f32) (length row + 100) c.

(** *** partial_dependence.rs:15-72 *)
Fixpoint partial_dependence (fuel : nat) (nodes : list Node) (i feature : nat) (value : F64) (proportion : F32)
    (missing : F64) : option F64 :=
  match fuel with
  | 0 => None
  | S f =>
      let* n := nth_error nodes i in
      if n_is_leaf n then Some (to64 (proportion * n_weight n)%f32)
      else if n_split_feature n =? feature then
        let* ch := get_child_idx n value missing in
        partial_dependence f nodes ch feature value proportion missing
      else
        let* l := nth_error nodes (n_left n) in
        let* r := nth_error nodes (n_right n) in
        let* mc := (if has_missing_branch n then let* m := nth_error nodes (n_missing n) in Some (n_hess m)
                    else Some (fzero f32)) in
        let total := (n_hess l + n_hess r + mc)%f32 in
        let* mp := (if has_missing_branch n
                    then partial_dependence f nodes (n_missing n) feature value (proportion * (mc / total))%f32 missing
                    else Some (fzero f64)) in
        let* lp := partial_dependence f nodes (n_left n) feature value (proportion * (n_hess l / total))%f32 missing in
        let* rp := partial_dependence f nodes (n_right n) feature value (proportion * (n_hess r / total))%f32 missing in
        Some (lp + rp + mp)%f64
  end.

(** tree.rs:449-451 *)
Definition tree_value_partial_dependence (nodes : list Node) (feature : nat) (value missing : F64) : option F64 :=
  partial_dependence (length nodes) nodes 0 feature value (fone f32) missing.

(** *** Importances: tree.rs:500-542.  The HashMap is an association list without duplicate keys. *)
Definition Stats := list (nat * (F32 * nat)).
Fixpoint stats_add (k : nat) (v : F32) (s : Stats) : Stats :=
  match s with
  | [] => [(k, (v, 1))]
  | (k', (x, c)) :: r => if k =? k' then (k', ((x + v)%f32, c + 1)) :: r else (k', (x, c)) :: stats_add k v r
  end.

Fixpoint node_stats (fuel : nat) (stat : Node -> F32) (nodes : list Node) (i : nat) (s : Stats) : option Stats :=
  match fuel with
  | 0 => None
  | S f =>
      let* n := nth_error nodes i in
      if n_is_leaf n then Some s
      else
        let s := stats_add (n_split_feature n) (stat n) s in
        let* s := node_stats f stat nodes (n_left n) s in
        let* s := node_stats f stat nodes (n_right n) s in
        if has_missing_branch n then node_stats f stat nodes (n_missing n) s else Some s
  end.

(** *** Text dump: tree.rs:545-565.  A line is the node it prints; the indentation is its depth.
    [stack] is print_buffer with its top first. *)
Fixpoint dump_loop (fuel : nat) (nodes : list Node) (stack : list nat) (out : list Node) : option (list Node) :=
  match stack with
  | [] => Some out
  | i :: rest =>
      match fuel with
      | 0 => None
      | S f =>
          let* n := nth_error nodes i in
          if n_is_leaf n then dump_loop f nodes rest (out ++ [n])
          else
            let rest := n_left n :: n_right n :: rest in
            let rest := if has_missing_branch n then n_missing n :: rest else rest in
            dump_loop f nodes rest (out ++ [n])
      end
  end.
Definition tree_dump (nodes : list Node) : option (list Node) := dump_loop (length nodes) nodes [0] [].
End Contrib.
