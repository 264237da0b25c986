(** Property C104: appending a column with a single known value does not change the trained model. *)
From Coq Require Import ZArith List Arith Lia Bool Sorting.
From Flocq Require Import IEEE754.BinarySingleNaN.
From Verif Require Import Prelude Float FloatX FloatI FloatLaws Data DataProofs OrdProofs Utils Binning BinningProofs BinningX PropBinning Histogram Node Splitter
  Tree TreeWf PathProofs PropTree Objective Metric Sampler Contrib Booster PredictProofs BoostProofs FitModel PropPredict
  Recode Rescale RescaleFit PropTrain Twin PropUnused PropTwin WidenFit Constant PropCopy.
Import ListNotations.

Section IEEE.
Variables (iexp iln iln1p : b64 -> b64).
Notation FI := (IF iexp iln iln1p).

(** The new column of [data'] holds one number, possibly with missing cells.  Either missing values have
    their own branch, or splits on missingness are not allowed, or the column is missing everywhere, or
    nowhere (and leaves need some weight). *)
Theorem C104_constant_changes_nothing : forall (E : @Env FI) (b b' : @Booster FI) (data data' : Matrix b64) (y w : list b64)
    (es es' : option (list (@EvalData FI))),
  let p := gb_params b in
  length (m_data data) = m_rows data * m_cols data -> m_index data = seq 0 (m_rows data) ->
  length y = m_rows data -> length w = m_rows data -> @SortSpec FI (e_sorts E) ->
  (forall k, @gain_based FI (e_pick E k)) -> feq IOps64 (p_colsample_bytree p) (fone IOps64) = true ->
  m_rows data' = m_rows data -> m_cols data' = S (m_cols data) -> m_index data' = m_index data ->
  length (m_data data') = m_rows data' * m_cols data' ->
  (forall i j, i < m_rows data -> j < m_cols data -> m_get data' i j = m_get data i j) ->
  (forall i v, i < m_rows data -> m_get data' i (m_cols data) = Some v -> exists m, @is_missing FI v (p_missing p) = Some m) ->
  (forall i i' v v', i < m_rows data -> i' < m_rows data ->
     m_get data' i (m_cols data) = Some v -> m_get data' i' (m_cols data) = Some v' ->
     @is_missing FI v (p_missing p) = Some false -> @is_missing FI v' (p_missing p) = Some false -> feq IOps64 v v' = true) ->
  (p_create_missing_branch p = true \/ p_allow_missing_splits p = false \/
   (forall i v, i < m_rows data -> m_get data' i (m_cols data) = Some v -> @is_missing FI v (p_missing p) = Some true) \/
   ((forall i v, i < m_rows data -> m_get data' i (m_cols data) = Some v -> @is_missing FI v (p_missing p) = Some false) /\
    flt IOps32 (fzero IOps32) (p_min_leaf_weight p) = true)) ->
  match es, es' with
  | None, None => True
  | Some l, Some l' => Forall2 (fun x x' : @EvalData FI => snd (fst x') = snd (fst x) /\ snd x' = snd x /\
      m_rows (fst (fst x')) = m_rows (fst (fst x)) /\ m_index (fst (fst x')) = m_index (fst (fst x)) /\
      forall i f, In i (m_index (fst (fst x))) -> f < m_cols data -> m_get (fst (fst x')) i f = m_get (fst (fst x)) i f) l l'
  | _, _ => False
  end ->
  @fit FI E b data y w es = Some (b', None) -> @fit FI E b data' y w es' = Some (b', None).
Proof.
  intros E b b' data data' y w es es' p LD HX LY LW SS GB CS R C X LD' HG HM HV HN HE H.
  destruct (get_col_spec data' LD' (m_cols data)) as (col & EC & LC & V); [lia|]. rewrite R in LC, V.
  assert (ED : data' = append_col data col) by (apply append_is; auto; intros i Hi; rewrite V by auto; reflexivity).
  assert (IC : forall v, In v col -> exists i, i < m_rows data /\ m_get data' i (m_cols data) = Some v).
  { intros v Hv. apply In_nth_error in Hv. destruct Hv as [i Hi].
    assert (i < m_rows data) by (rewrite <- LC; eapply nth_error_Some_lt; eauto). exists i. split; auto. rewrite <- V; auto. }
  assert (OV : @one_value FI (p_missing p) col).
  { split.
    - intros v Hv. destruct (IC v Hv) as (i & Hi & Gi). eauto.
    - intros v v' Hv Hv' M M'. destruct (IC v Hv) as (i & Hi & Gi). destruct (IC v' Hv') as (i' & Hi' & Gi'). exact (HV i i' v v' Hi Hi' Gi Gi' M M'). }
  assert (NU : @no_use FI p col).
  { destruct HN as [HN|[HN|[HN|[HN HW]]]]; [left; auto|right; left; auto|right; right; left|right; right; right; split; auto];
      intros v Hv; destruct (IC v Hv) as (i & Hi & Gi); eauto. }
  subst data'.
  refine (@fit_constant FI i64_ord_laws _ _ _ _ E b data y w es es' b' col LD HX LY LW GB CS SS LC OV NU _ H); try (vm_compute; reflexivity).
  destruct es as [l|], es' as [l'|]; try contradiction; auto. simpl.
  clear H. induction HE as [|[[d yy] ww] [[d' yy'] ww'] l l' (A1 & A2 & A3 & A4 & A5) F IH]; constructor; auto. repeat split; auto.
Qed.
End IEEE.

(** *** Cases *)
(** A column that is 7 or missing, with a branch for missing values. *)
Definition exk_wide : Matrix b64 := matrix_new (map z64 [1; 2; 3; 4; 5; 7; 7]%Z ++ [fnan IOps64; z64 7; fnan IOps64]) 5 2.
Example exk_constant : exc_fit exk_wide (exc_sets exc_rows) = Some (exc_out, None).
Proof.
  refine (C104_constant_changes_nothing idf idf idf exb_env (exb_new None true) exc_out exc_one exk_wide exb_y ex_sw (exc_sets exc_one) (exc_sets exc_rows)
    eq_refl eq_refl eq_refl eq_refl _ _ _ eq_refl eq_refl eq_refl eq_refl _ _ _ _ _ exc_fitted).
  - apply isorts_spec. apply i64_ord_laws.
  - intros k step l l' _. reflexivity.
  - vm_compute. reflexivity.
  - intros i j Hi Hj. change (i < 5) in Hi. change (j < 1) in Hj. assert (j = 0) by lia. subst j.
    do 5 (destruct i as [|i]; [reflexivity|]). lia.
  - intros i v Hi. change (i < 5) in Hi. do 5 (destruct i as [|i]; [intros Hv; injection Hv as <-; eexists; vm_compute; reflexivity|]). lia.
  - intros i i' v v' Hi Hi'. change (i < 5) in Hi. change (i' < 5) in Hi'.
    do 5 (destruct i as [|i]; [do 5 (destruct i' as [|i'];
      [intros Hv Hv'; injection Hv as <-; injection Hv' as <-; vm_compute; intros; (reflexivity || discriminate)|]); lia|]). lia.
  - left. reflexivity.
  - constructor; [|constructor]. split; [reflexivity|]. split; [reflexivity|]. split; [reflexivity|]. split; [reflexivity|].
    intros i f Hi Hf. change (In i (seq 0 5)) in Hi. apply in_seq in Hi. change (f < 1) in Hf. assert (f = 0) by lia. subst f.
    destruct Hi as [_ Hi]. simpl in Hi. do 5 (destruct i as [|i]; [reflexivity|]). lia.
Qed.

(** Without a branch for missing values, and with splits on missingness allowed, a column that is 7 or
    missing is used: it separates the rows where it is missing. *)
Definition exk_imputer (allow : bool) : @Booster IE := @mkBooster IE
  (@mkParams IE SquaredLoss 1 (q32 1 2) 5 10 (z32 0) (z32 1) (z32 0) (z32 0) (z32 1) 2
    true allow None (z32 1) (z64 1) (z64 1) (z64 1) 7%N (fnan IOps64) false SNone DepthWise None None true [] TNone 0 false)
  (z64 0) None None None [] [].
Definition exk_miss : Matrix b64 := matrix_new (map z64 [1; 1; 1; 1; 1; 7; 7]%Z ++ [z64 7; fnan IOps64; fnan IOps64]) 5 2.
Definition exk_flat : Matrix b64 := matrix_new (map z64 [1; 1; 1; 1; 1]%Z) 5 1.
Definition exk_y : list b64 := map z64 [-3; -2; -1; 4; 2]%Z.
Theorem C104_missing_used_refuted : exists (E : @Env IE) (b b' : @Booster IE) (data data' : Matrix b64) (y w : list b64),
  @fit IE E b data y w None = Some (b', None) /\
  m_cols data = 1 /\ m_cols data' = 2 /\ m_rows data' = m_rows data /\
  (forall i, i < m_rows data -> m_get data' i 0 = m_get data i 0 /\ (m_get data' i 1 = Some (z64 7) \/ m_get data' i 1 = Some (fnan IOps64))) /\
  (forall k, @gain_based IE (e_pick E k)) /\
  @fit IE E b data' y w None <> Some (b', None).
Proof.
  assert (G : forall o : option (@Booster IE * option ForustError), is_some o = true -> snd (get (exb_new None true, None) o) = None ->
    o = Some (fst (get (exb_new None true, None) o), None)).
  { intros [[b e]|] H1 H2; [|discriminate]. cbn [get fst snd] in *. rewrite H2. reflexivity. }
  exists exb_env, (exk_imputer true), (fst (get (exb_new None true, None) (@fit IE exb_env (exk_imputer true) exk_flat exk_y ex_sw None))), exk_flat, exk_miss, exk_y, ex_sw.
  split; [refine (G _ _ _); vm_compute; reflexivity|].
  split; [reflexivity|]. split; [reflexivity|]. split; [reflexivity|].
  split. { intros i Hi. change (i < 5) in Hi. do 5 (destruct i as [|i]; [split; [reflexivity|(left; reflexivity) || (right; reflexivity)]|]). lia. }
  split; [intros k step l l' _; reflexivity|].
  intros H.
  assert (L : forall o o' : option (@Booster IE * option ForustError), o = Some (fst (get (exb_new None true, None) o'), None) ->
    map (@length (@Node IE)) (gb_trees (fst (get (exb_new None true, None) o))) = map (@length (@Node IE)) (gb_trees (fst (get (exb_new None true, None) o')))).
  { intros o o' ->. reflexivity. }
  apply L in H. revert H.
  assert (X : map (@length (@Node IE)) (gb_trees (fst (get (exb_new None true, None) (@fit IE exb_env (exk_imputer true) exk_miss exk_y ex_sw None)))) = [3]) by (vm_compute; reflexivity).
  assert (Y : map (@length (@Node IE)) (gb_trees (fst (get (exb_new None true, None) (@fit IE exb_env (exk_imputer true) exk_flat exk_y ex_sw None)))) = [1]) by (vm_compute; reflexivity).
  rewrite X, Y. discriminate.
Qed.

Print Assumptions C104_constant_changes_nothing.
Print Assumptions C104_missing_used_refuted.
