(** Property C98: training longer extends the model. *)
From Coq Require Import ZArith List Arith Lia Bool.
From Verif Require Import Prelude Float FloatX FloatI FloatLaws Data DataProofs Utils Binning BinningX PropBinning Histogram Node Splitter
  Tree TreeWf PathProofs PropTree Objective Metric Sampler Contrib Booster PredictProofs BoostProofs FitModel PropPredict Extend.
Import ListNotations.

Section Any.
Context {FS : Floats}.

(** [b_iters n b] is the booster b with the option iterations set to n.  If training for n iterations
    succeeds then so does training for k <= n; base score, trees and recorded metrics are the beginning
    of those of the longer training; and if that stopped early, before k trees, the models are the same. *)
Theorem C98_longer_training : forall E b data y w es n k bn, k <= n ->
  fit E (b_iters n b) data y w es = Some (bn, None) ->
  exists bk, fit E (b_iters k b) data y w es = Some (bk, None) /\
    gb_base_score bk = gb_base_score bn /\
    gb_trees bk = firstn k (gb_trees bn) /\
    match gb_history bk with
    | None => True
    | Some h => exists h' more, gb_history bn = Some h' /\ r_data h' = r_data h ++ more /\ r_cols h' = r_cols h /\ r_rows h <= r_rows h'
    end /\
    (length (gb_trees bn) < k -> bk = b_iters k bn).
Proof.
  intros E b data y w es n k bn Hk H. destruct (fit_prefix E b data y w es n k bn Hk H) as (bk & F & (X1 & X2 & X3 & X4 & X5) & T & S1).
  exists bk. split; [exact F|]. split; [symmetry; exact X2|]. split; [exact T|]. split; [exact X5|].
  intros L. destruct (S1 (Nat.lt_le_incl _ _ L)) as [Q|Q]; [exact Q|lia].
Qed.

(** The answers of the shorter training are those of the longer one limited to as many trees (the setter
    takes the number of the last iteration, counted from 0). *)
Theorem C98_predictions : forall E b data y w es n k bn bk, k <= n ->
  fit E (b_iters n b) data y w es = Some (bn, None) ->
  fit E (b_iters k b) data y w es = Some (bk, None) -> gb_pred bk = None -> gb_trees bk <> [] ->
  let short := set_prediction_iteration bn (Some (length (gb_trees bk) - 1)) in
  (forall shs d par, predict shs bk d par = predict shs short d par) /\
  (forall shs d, predict_leaf_indices shs bk d = predict_leaf_indices shs short d) /\
  (forall sh d m par, predict_contributions sh bk d m par = predict_contributions sh short d m par).
Proof.
  intros E b data y w es n k bn bk Hk H Hbk HP NE short.
  destruct (fit_prefix E b data y w es n k bn Hk H) as (bk' & F & (X1 & X2 & X3 & X4 & X5) & T & _).
  assert (bk' = bk) by congruence. subst bk'. clear F X3 X4 X5.
  assert (PT : prediction_trees bk = prediction_trees short).
  { assert (S1 : option_map S (Some (length (gb_trees bk) - 1)) = Some (length (gb_trees bk)))
      by (destruct (gb_trees bk); [congruence|]; cbn [length option_map]; rewrite Nat.sub_succ, Nat.sub_0_r; reflexivity).
    unfold prediction_trees, short. cbn [set_prediction_iteration gb_pred gb_trees]. rewrite S1, HP. unfold slice. rewrite T. cbn [Nat.leb andb].
    rewrite firstn_length. rewrite !(proj2 (Nat.leb_le _ _)) by lia. rewrite !Nat.sub_0_r. cbn [skipn]. f_equal.
    rewrite firstn_all2 by (rewrite firstn_length; lia).
    destruct (Nat.le_ge_cases k (length (gb_trees bn))) as [L|L]; [rewrite Nat.min_l by auto; reflexivity|].
    rewrite Nat.min_r by auto. rewrite firstn_all. apply firstn_all2. auto. }
  assert (EM : p_missing (gb_params short) = p_missing (gb_params bk)).
  { unfold short. cbn [set_prediction_iteration gb_params]. rewrite <- X1. reflexivity. }
  assert (EB : gb_base_score short = gb_base_score bk) by exact X2.
  split; [|split].
  - intros shs d par. unfold predict. rewrite PT, EM, EB. reflexivity.
  - intros shs d. unfold predict_leaf_indices. rewrite PT, EM. reflexivity.
  - intros sh d m par.
    assert (R1 : forall cols f row, contrib_row_alone bk cols f row = contrib_row_alone short cols f row)
      by (intros; unfold contrib_row_alone; rewrite PT, EM, EB; reflexivity).
    assert (R2 : forall cols w0 row, contrib_row_average bk cols w0 row = contrib_row_average short cols w0 row)
      by (intros; unfold contrib_row_average; rewrite PT, EM, EB; reflexivity).
    assert (R3 : forall cols row, contrib_row_probability bk cols row = contrib_row_probability short cols row)
      by (intros; unfold contrib_row_probability; rewrite PT, EM, EB; reflexivity).
    assert (FR : forall (f g : list F64 -> option (list F64)), (forall r, f r = g r) -> for_rows par sh d f = for_rows par sh d g).
    { intros f g Q. unfold for_rows. 
      assert (Q2 : forall i, (let* r := m_get_row d i in f r) = (let* r := m_get_row d i in g r)) by (intros i; destruct (m_get_row d i); simpl; auto).
      assert (QM : forall l, mapM (fun i => let* r := m_get_row d i in f r) l = mapM (fun i => let* r := m_get_row d i in g r) l)
        by (induction l as [|i l IH]; [reflexivity|]; cbn [mapM]; rewrite Q2, IH; reflexivity).
      assert (QP : forall s l, par_map s (fun i => let* r := m_get_row d i in f r) l = par_map s (fun i => let* r := m_get_row d i in g r) l)
        by (induction s as [|q s1 IH1 s2 IH2]; intros l; cbn [par_map]; [apply QM|rewrite IH1, IH2; reflexivity]).
      destruct par; [rewrite QP|rewrite QM]; reflexivity. }
    unfold predict_contributions, predict_contributions_tree_alone, predict_contributions_average, predict_contributions_probability.
    destruct m; cbn [row_method bind]; try (apply FR; intros r; auto; fail).
    + rewrite PT. destruct (prediction_trees short); [cbn [bind]|reflexivity]. destruct (if par then _ else _); [cbn [bind]|reflexivity]. apply FR. auto.
    + try (unfold predict_contributions_probability); destruct (p_objective (gb_params bk)) eqn:EO; 
      replace (p_objective (gb_params short)) with (p_objective (gb_params bk)) by (unfold short; cbn [set_prediction_iteration gb_params]; rewrite <- X1; reflexivity);
      rewrite ?EO; auto; try (apply FR; auto).
Qed.
End Any.

(** *** A case in IEEE arithmetic: four and two iterations. *)
Notation exe_b n := (b_iters n (exb_new None true)).
Notation exe_fit n := (@fit IE exb_env (exe_b n) ex_data exb_y ex_sw (Some exb_sets)).
Definition exe_out (n : nat) : @Booster IE := fst (get (exb_new None true, None) (exe_fit n)).
Lemma exe_is : forall n b, exe_fit n = Some (b, None) -> exe_out n = b.
Proof. intros n b H. unfold exe_out. rewrite H. reflexivity. Qed.
Lemma exe_fitted : forall n, is_some (exe_fit n) = true -> snd (get (exb_new None true, None) (exe_fit n)) = None -> exe_fit n = Some (exe_out n, None).
Proof.
  intros n H1 H2. unfold exe_out. destruct (exe_fit n) as [[b e]|]; [|discriminate]. cbn [get fst snd] in *. rewrite H2. reflexivity.
Qed.
Lemma exe_trees : forall k n, k <= n -> exe_fit n = Some (exe_out n, None) -> gb_trees (exe_out k) = firstn k (gb_trees (exe_out n)).
Proof.
  intros k n L F. destruct (@C98_longer_training IE exb_env (exb_new None true) ex_data exb_y ex_sw (Some exb_sets) n k (exe_out n) L F) as (bk & G & _ & T & _).
  rewrite (exe_is _ _ G). exact T.
Qed.
Example exe_prefix :
  length (gb_trees (exe_out 4)) = 4 /\ length (gb_trees (exe_out 2)) = 2 /\
  option_map (fun h => (r_rows h, r_cols h)) (gb_history (exe_out 2)) = Some (2, 2) /\
  gb_trees (exe_out 2) = firstn 2 (gb_trees (exe_out 4)).
Proof.
  split; [vm_compute; reflexivity|]. split; [vm_compute; reflexivity|]. split; [vm_compute; reflexivity|].
  apply exe_trees; [lia|]. apply exe_fitted; [vm_compute; reflexivity|]. vm_compute. reflexivity.
Qed.

Print Assumptions C98_longer_training.
Print Assumptions C98_predictions.
