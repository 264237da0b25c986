(** Property C103: appending a copy of a column does not change the trained model. *)
From Coq Require Import ZArith List Arith Lia Bool Sorting.
From Flocq Require Import IEEE754.BinarySingleNaN.
From Verif Require Import Prelude Float FloatX FloatI FloatLaws Data DataProofs OrdProofs Utils Binning BinningX PropBinning Histogram Node Splitter
  Tree TreeWf PathProofs PropTree Objective Metric Sampler Contrib Booster PredictProofs BoostProofs FitModel PropPredict
  Recode Rescale RescaleFit PropTrain Twin PropUnused PropTwin WidenFit.
Import ListNotations.

Section IEEE.
Variables (iexp iln iln1p : b64 -> b64).
Notation FI := (IF iexp iln iln1p).

(** The matrix [data'] has the columns of [data] followed by a copy of its column [a].  The evaluation
    sets of the second training agree with those of the first on the columns of [data]; whatever they
    hold in the new column, the outcome is the same model, field by field. *)
Theorem C103_copy_changes_nothing : forall (E : @Env FI) (b b' : @Booster FI) (data data' : Matrix b64) (y w : list b64)
    (es es' : option (list (@EvalData FI))) (a : nat),
  length (m_data data) = m_rows data * m_cols data -> m_index data = seq 0 (m_rows data) ->
  length y = m_rows data -> length w = m_rows data ->
  (forall k, @gain_based FI (e_pick E k)) -> feq IOps64 (p_colsample_bytree (gb_params b)) (fone IOps64) = true ->
  a < m_cols data -> constraint_of (gb_params b) a = constraint_of (gb_params b) (m_cols data) ->
  m_rows data' = m_rows data -> m_cols data' = S (m_cols data) -> m_index data' = m_index data ->
  length (m_data data') = m_rows data' * m_cols data' ->
  (forall i j, i < m_rows data -> j < m_cols data -> m_get data' i j = m_get data i j) ->
  (forall i, i < m_rows data -> m_get data' i (m_cols data) = m_get data i a) ->
  match es, es' with
  | None, None => True
  | Some l, Some l' => Forall2 (fun x x' : @EvalData FI => snd (fst x') = snd (fst x) /\ snd x' = snd x /\
      m_rows (fst (fst x')) = m_rows (fst (fst x)) /\ m_index (fst (fst x')) = m_index (fst (fst x)) /\
      forall i f, In i (m_index (fst (fst x))) -> f < m_cols data -> m_get (fst (fst x')) i f = m_get (fst (fst x)) i f) l l'
  | _, _ => False
  end ->
  @fit FI E b data y w es = Some (b', None) -> @fit FI E b data' y w es' = Some (b', None).
Proof.
  intros E b b' data data' y w es es' a LD HX LY LW GB CS Ha HM R C X LD' HG HL HE H.
  destruct (get_col_spec data LD a Ha) as (col & EC & LC & V).
  assert (ED : data' = append_col data col).
  { apply append_is; auto. intros i Hi. rewrite HL, V by auto. reflexivity. }
  subst data'.
  apply (@fit_copy FI i32_ord_laws eq_refl E b data y w es es' b' a col LD HX LY LW GB CS Ha EC); auto.
  - apply (@constraints_eq iexp iln iln1p b a (m_cols data)). exact HM.
  - destruct es as [l|], es' as [l'|]; try contradiction; auto. simpl.
    clear H. induction HE as [|[[d yy] ww] [[d' yy'] ww'] l l' (A1 & A2 & A3 & A4 & A5) F IH]; constructor; auto. repeat split; auto.
Qed.
End IEEE.

(** *** Cases *)
Definition exc_one : Matrix b64 := matrix_new (map z64 [1; 2; 3; 4; 5]%Z) 5 1.
Definition exc_sets (d : Matrix b64) : option (list (@EvalData IE)) := Some [((d, exb_y), ex_sw)].
Notation exc_fit d es := (@fit IE exb_env (exb_new None true) d exb_y ex_sw es).
Definition exc_out : @Booster IE := fst (get (exb_new None true, None) (exc_fit exc_one (exc_sets exc_one))).
Lemma exc_fitted : exc_fit exc_one (exc_sets exc_one) = Some (exc_out, None).
Proof.
  assert (G : forall o : option (@Booster IE * option ForustError), is_some o = true -> snd (get (exb_new None true, None) o) = None ->
    o = Some (fst (get (exb_new None true, None) o), None)).
  { intros [[b e]|] H1 H2; [|discriminate]. cbn [get fst snd] in *. rewrite H2. reflexivity. }
  unfold exc_out. refine (G _ _ _); vm_compute; reflexivity.
Qed.

(** One column; the same column twice, with other values in the second column of the evaluation set. *)
Definition exc_rows : Matrix b64 := matrix_new (map z64 [1; 2; 3; 4; 5; 0; 9; -3; 8; 1]%Z) 5 2.
Example exc_copy :
  exc_fit ext_same (exc_sets exc_rows) = Some (exc_out, None) /\
  map (map (fun n => (n_is_leaf n, n_split_feature n))) (gb_trees exc_out) = repeat [(false, 0); (true, 0); (true, 0); (true, 0)] 4 /\
  is_some (gb_history exc_out) = true.
Proof.
  split; [|split; vm_compute; reflexivity].
  refine (C103_copy_changes_nothing idf idf idf exb_env (exb_new None true) exc_out exc_one ext_same exb_y ex_sw (exc_sets exc_one) (exc_sets exc_rows) 0
    eq_refl eq_refl eq_refl eq_refl _ _ _ eq_refl eq_refl eq_refl eq_refl eq_refl _ _ _ exc_fitted).
  - intros k step l l' _. reflexivity.
  - vm_compute. reflexivity.
  - change (0 < 1). lia.
  - intros i j Hi Hj. change (i < 5) in Hi. change (j < 1) in Hj. assert (j = 0) by lia. subst j.
    do 5 (destruct i as [|i]; [reflexivity|]). lia.
  - intros i Hi. change (i < 5) in Hi. do 5 (destruct i as [|i]; [reflexivity|]). lia.
  - constructor; [|constructor]. split; [reflexivity|]. split; [reflexivity|]. split; [reflexivity|]. split; [reflexivity|].
    intros i f Hi Hf. change (In i (seq 0 5)) in Hi. apply in_seq in Hi. change (f < 1) in Hf. assert (f = 0) by lia. subst f.
    destruct Hi as [_ Hi]. simpl in Hi. do 5 (destruct i as [|i]; [reflexivity|]). lia.
Qed.

(** With column sampling the number of columns matters: half of one column is none, half of two is one. *)
Definition exc_half : @Booster IE := @mkBooster IE
  (@mkParams IE SquaredLoss 4 (q32 1 2) 5 10 (z32 0) (z32 1) (z32 0) (z32 0) (z32 1) 2
    true false None (z32 1) (z64 1) (z64 1) (q64 1 2) 7%N (fnan IOps64) true SNone DepthWise None None true [] TNone 0 false)
  (z64 0) None None None [] [].
Theorem C103_colsample_refuted : exists (E : @Env IE) (b b' : @Booster IE) (data data' : Matrix b64) (y w : list b64),
  @fit IE E b data y w None = Some (b', None) /\
  (forall i, i < m_rows data -> m_get data' i 0 = m_get data i 0 /\ m_get data' i 1 = m_get data i 0) /\
  m_cols data = 1 /\ m_cols data' = 2 /\ m_rows data' = m_rows data /\
  (forall k, @gain_based IE (e_pick E k)) /\
  @fit IE E b data' y w None <> Some (b', None).
Proof.
  assert (G : forall o : option (@Booster IE * option ForustError), is_some o = true -> snd (get (exb_new None true, None) o) = None ->
    o = Some (fst (get (exb_new None true, None) o), None)).
  { intros [[b e]|] H1 H2; [|discriminate]. cbn [get fst snd] in *. rewrite H2. reflexivity. }
  exists exb_env, exc_half, (fst (get (exb_new None true, None) (@fit IE exb_env exc_half exc_one exb_y ex_sw None))), exc_one, ext_same, exb_y, ex_sw.
  split; [refine (G _ _ _); vm_compute; reflexivity|].
  split. { intros i Hi. change (i < 5) in Hi. do 5 (destruct i as [|i]; [split; reflexivity|]). lia. }
  split; [reflexivity|]. split; [reflexivity|]. split; [reflexivity|].
  split; [intros k step l l' _; reflexivity|].
  intros H.
  assert (L : forall o o' : option (@Booster IE * option ForustError), o = Some (fst (get (exb_new None true, None) o'), None) ->
    map (@length (@Node IE)) (gb_trees (fst (get (exb_new None true, None) o))) = map (@length (@Node IE)) (gb_trees (fst (get (exb_new None true, None) o')))).
  { intros o o' ->. reflexivity. }
  apply L in H. revert H.
  assert (X : map (@length (@Node IE)) (gb_trees (fst (get (exb_new None true, None) (@fit IE exb_env exc_half ext_same exb_y ex_sw None)))) = [4; 4; 4; 4]) by (vm_compute; reflexivity).
  assert (Y : map (@length (@Node IE)) (gb_trees (fst (get (exb_new None true, None) (@fit IE exb_env exc_half exc_one exb_y ex_sw None)))) = [1; 1; 1; 1]) by (vm_compute; reflexivity).
  rewrite X, Y. discriminate.
Qed.

Print Assumptions C103_copy_changes_nothing.
Print Assumptions C103_colsample_refuted.
