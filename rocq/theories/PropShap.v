(** Properties C35 and C36: Shapley contributions.  [tree_shape t x]: x is the tree the node list t
    represents.  [model_value base row missing xs U] is the expected output of the model when the features
    in U follow the row and all others average over the children by cover; [shapley N v f] sums
    |S|! (n - |S| - 1)! / n! (v (f + S) - v S) over the subsets S of N without f. *)
From Coq Require Import ZArith List Arith Lia Bool Reals Lra Permutation.
From Verif Require Import Prelude Float FloatX Data DataProofs Utils UtilsX Binning Histogram Node Splitter Tree TreeWf PathProofs
  Objective Metric Sampler Contrib Booster PredictProofs ContribProofs ContribX ImportProofs DependX WfCheck PropContrib Shapley ShapX ShapTree.
Import ListNotations.
Local Open Scope R_scope.

Section Shap.
Variables (b : @Booster XF) (data : Matrix (fcar (@f64 XF))) (ts : list (list (@Node XF))) (base : R).
Hypotheses (HI : m_index data = seq 0 (m_rows data)) (LD : List.length (m_data data) = (m_rows data * m_cols data)%nat)
  (HT : prediction_trees b = Some ts) (HB : gb_base_score b = Fin base)
  (HO : forall t, In t ts -> well_formed t /\ finite_weights t /\ finite_covers t /\ forall f, tree_features t f -> (f < m_cols data)%nat)
  (HV : forall v, In v (m_data data) -> @valid_cell XF (p_missing (gb_params b)) v).

Theorem C35_shapley_sums : forall shs sh par par' preds r, @predict XF shs b data par = Some preds ->
  @predict_contributions XF sh b data CShapley par' = Some r -> forall i, (i < m_rows data)%nat ->
  exists cs, List.length cs = (m_cols data + 1)%nat /\
    slice r (i * (m_cols data + 1)) (i * (m_cols data + 1) + (m_cols data + 1)) = Some (map Fin cs) /\
    nth_error preds i = Some (Fin (sumR cs)).
Proof. exact (shapley_sums b data ts base HI LD HT HB HO HV). Qed.

Theorem C36_shapley_values : forall sh par, (exists xs, Forall2 tree_shape ts xs) /\
  exists r, @predict_contributions XF sh b data CShapley par = Some r /\
  forall xs, Forall2 tree_shape ts xs -> forall i row, (i < m_rows data)%nat -> m_get_row data i = Some row ->
    (forall f, (f < m_cols data)%nat -> nth_error r (i * (m_cols data + 1) + f) =
       Some (Fin (shapley (seq 0 (m_cols data)) (model_value base row (p_missing (gb_params b)) xs) f))) /\
    nth_error r (i * (m_cols data + 1) + m_cols data) = Some (Fin (model_value base row (p_missing (gb_params b)) xs [])).
Proof. exact (shapley_contributions_X b data ts base HI LD HT HB HO HV). Qed.
End Shap.

(** The definitions used above, spelled out. *)
Theorem C36_shapley_spelled : forall N v f, shapley N v f =
  sumR (map (fun U => INR (fact (List.length U)) * INR (fact (List.length N - List.length U - 1)) / INR (fact (List.length N)) * (v (f :: U) - v U))
            (subsets (remove Nat.eq_dec f N))).
Proof. reflexivity. Qed.
Theorem C36_subsets : forall N U, NoDup N -> In U (subsets N) -> NoDup U /\ incl U N.
Proof. exact subsets_sound. Qed.
Theorem C36_all_subsets : forall N U, NoDup N -> NoDup U -> incl U N -> exists U', In U' (subsets N) /\ Permutation U U'.
Proof. exact subsets_complete. Qed.
Theorem C36_subsets_once : forall N, List.length (subsets N) = (2 ^ List.length N)%nat.
Proof. exact subsets_length. Qed.

(** The value of a coalition: at a split on one of its features the row decides, elsewhere the children
    are averaged by cover. *)
Theorem C36_coalition : forall row missing U,
  (forall n, coalition_value row missing U (IL n) = val (n_weight n)) /\
  (forall t n mr l r, reps t (IB2 n mr l r) -> coalition_value row missing U (IB2 n mr l r) =
     if existsb (Nat.eqb (n_split_feature n)) U
     then coalition_value row missing U (if (chosen missing (nth (n_split_feature n) row XNaN) n =? n_left n)%nat then l else r)
     else (hs (iroot l) * coalition_value row missing U l + hs (iroot r) * coalition_value row missing U r) / hs n) /\
  (forall t n m l r, reps t (IB3 n m l r) -> coalition_value row missing U (IB3 n m l r) =
     if existsb (Nat.eqb (n_split_feature n)) U
     then coalition_value row missing U (if (chosen missing (nth (n_split_feature n) row XNaN) n =? n_left n)%nat then l
            else if (chosen missing (nth (n_split_feature n) row XNaN) n =? n_right n)%nat then r else m)
     else (hs (iroot l) * coalition_value row missing U l + hs (iroot r) * coalition_value row missing U r
           + hs (iroot m) * coalition_value row missing U m) / hs n).
Proof. exact coalition_spec. Qed.

(** *** Example: three trees, the third splitting twice on the same feature; row (3, 9). *)
Definition xt3 : list (@Node XF) :=
  [xsplit 0 1 4 0 2 0 10 2 1 2; xleaf 1 1 1 1; xsplit 2 2 3 1 5 0 4 4 3 4; xleaf 3 2 2 2; xleaf 4 6 1 2].
Definition xsb : @Booster XF := @mkBooster XF (xp LogLoss) (Fin (1/2)) None None None [xt1; xt2; xt3] [].
Definition xsdata : Matrix (fcar (@f64 XF)) := matrix_new [Fin 3; Fin 9] 1 2.

Lemma xs_ok : forall t, In t [xt1; xt2; xt3] -> well_formed t /\ finite_weights t /\ finite_covers t /\ forall f, tree_features t f -> (f < m_cols xsdata)%nat.
Proof.
  intros t [<-|[<-|[<-|[]]]].
  - split; [apply xt_wf; simpl; auto|split; [apply xt_weights; simpl; auto|split; [apply xt_covers; simpl; auto|apply xt_features; simpl; auto]]].
  - split; [apply xt_wf; simpl; auto|split; [apply xt_weights; simpl; auto|split; [apply xt_covers; simpl; auto|apply xt_features; simpl; auto]]].
  - split; [apply wfb_sound; vm_compute; reflexivity|]. split; [|split].
    + intros n HIn; simpl in HIn; repeat (destruct HIn as [<-|HIn]; [eexists; reflexivity|]); destruct HIn.
    + intros n HIn; simpl in HIn; repeat (destruct HIn as [<-|HIn]; [split; [eexists; reflexivity|simpl; intros; try discriminate; lra]|]); destruct HIn.
    + intros f (n & HIn & Hn & Hf). simpl in HIn; repeat (destruct HIn as [<-|HIn]; [simpl in Hn, Hf; subst; try discriminate; simpl; lia|]); destruct HIn.
Qed.
Definition xshapes : list (@itree XF) :=
  [IB3 (xsplit 0 1 6 0 2 0 10 1 2 3) (IL (xleaf 1 5 1 1)) (IL (xleaf 2 (-1) 2 1))
     (IB2 (xsplit 3 2 3 1 7 1 4 5 4 5) true (IL (xleaf 4 1 2 2)) (IL (xleaf 5 4 1 2)));
   IB2 (xsplit 0 0 6 0 3 1 8 1 1 2) false (IL (xleaf 1 (-2) 4 1)) (IL (xleaf 2 3 2 1));
   IB2 (xsplit 0 1 4 0 2 0 10 2 1 2) true (IL (xleaf 1 1 1 1)) (IB2 (xsplit 2 2 3 1 5 0 4 4 3 4) true (IL (xleaf 3 2 2 2)) (IL (xleaf 4 6 1 2)))].
Example xs_shapes : Forall2 tree_shape [xt1; xt2; xt3] xshapes.
Proof. repeat constructor; simpl; auto; try discriminate. Qed.
Example xs_shapley : exists r, @predict_contributions XF Seq xsb xsdata CShapley false = Some r /\
  nth_error r 0 = Some (Fin (1/4)) /\ nth_error r 1 = Some (Fin (29/6)) /\ nth_error r 2 = Some (Fin (53/12)) /\
  (1/4 + 29/6 + 53/12 = 1/2 + 4 + 3 + 2).
Proof.
  destruct (C36_shapley_values xsb xsdata [xt1; xt2; xt3] (1/2) eq_refl eq_refl eq_refl eq_refl xs_ok (fun v _ => or_introl eq_refl) Seq false) as [_ (r & Hr & H)].
  exists r. split; [exact Hr|]. destruct (H xshapes xs_shapes 0%nat [Fin 3; Fin 9]) as [HF HB]; [simpl; lia|reflexivity|].
  assert (C : forall U, model_value (1/2) [Fin 3; Fin 9] XNaN xshapes U =
    1/2 + ((if present U 0 then (if present U 1 then 4 else 2) else (if present U 1 then 5/2 else 3/2)) +
           ((if present U 1 then 3 else -1/3) + (if present U 0 then 2 else 11/4)))).
  { intros U. unfold model_value, xshapes. cbn [map coalition_value]. rewrite !sumR_cons. unfold sumR at 1. cbn [fold_right].
    unfold chosen, hs. cbn -[present].
    repeat (rdec; cbn -[present]); destruct (present U 0), (present U 1); lra. }
  pose proof (HF 0%nat ltac:(simpl; lia)) as H0. pose proof (HF 1%nat ltac:(simpl; lia)) as H1. simpl Nat.add in H0, H1, HB.
  change (p_missing (gb_params xsb)) with XNaN in *. change (m_cols xsdata) with 2%nat in *.
  rewrite H0, H1, HB. unfold shapley. cbn [seq remove Nat.eq_dec subsets map app]. 
  split; [|split; [|split; [|lra]]]; do 2 f_equal.
  - cbn. unfold sumR. cbn [fold_right]. rewrite !C. unfold shapley_weight. cbn. field.
  - cbn. unfold sumR. cbn [fold_right]. rewrite !C. unfold shapley_weight. cbn. field.
  - rewrite C. cbn. lra.
Qed.

Print Assumptions C35_shapley_sums.
Print Assumptions C36_shapley_values.
Print Assumptions C36_shapley_spelled.
Print Assumptions C36_subsets.
Print Assumptions C36_all_subsets.
Print Assumptions C36_subsets_once.
Print Assumptions C36_coalition.
