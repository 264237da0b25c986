(** Proofs about the Python package: frames and shapes, column names, predictions row by row. *)
From Coq Require Import List Arith NArith ZArith Bool String Lia.
From Verif Require Import Prelude Float Data DataProofs Utils Binning Histogram Node Splitter Tree Objective Metric Sampler Contrib Booster
  PredictProofs ContribProofs Serde PyWrap.
Import ListNotations.

Lemma key_eqb_eq : forall a b, key_eqb a b = true <-> a = b.
Proof.
  intros [i|s] [j|t]; simpl; try (split; [discriminate|congruence]).
  - rewrite Z.eqb_eq. split; congruence.
  - rewrite String.eqb_eq. split; congruence.
Qed.
Lemma key_eqb_refl : forall a, key_eqb a a = true. Proof. intros a. now apply key_eqb_eq. Qed.
Lemma key_eqb_neq : forall a b, a <> b -> key_eqb a b = false.
Proof. intros a b H. destruct (key_eqb a b) eqn:E; auto. apply key_eqb_eq in E. tauto. Qed.
Lemma keys_eqb_eq : forall a b, keys_eqb a b = true <-> a = b.
Proof.
  induction a as [|x a IH]; intros [|y b]; simpl; try (split; [discriminate|congruence]); [tauto|].
  rewrite andb_true_iff, key_eqb_eq, IH. split; [intros [-> ->]; auto|intros [= -> ->]; auto].
Qed.
Lemma KNat_inj : forall a b, KNat a = KNat b -> a = b.
Proof. intros a b [= H]. lia. Qed.

Section Frames.
Context {FS : Floats}.

(** *** What the model sees of a frame *)
Lemma ravel_length : forall X : Frame, List.length (ravel X) = List.length (x_rows X) * x_cols X.
Proof.
  intros X. unfold ravel. generalize 0 at 1 as k. generalize (x_cols X) as n. induction n as [|n IH]; intros k; simpl; [lia|].
  rewrite app_length, map_length, IH. lia.
Qed.
Lemma ravel_nth_aux : forall (rows : list (list F64)) n k j i row, j < n -> nth_error rows i = Some row ->
  nth_error (flat_map (fun j => map (fun r => nth j r (fnan f64)) rows) (seq k n)) (i + j * List.length rows)
  = Some (nth (k + j) row (fnan f64)).
Proof.
  intros rows. induction n as [|n IH]; intros k j i row Hj Hi; [lia|]. simpl.
  assert (L : i < List.length rows) by (eapply nth_error_Some_lt; eauto).
  destruct j as [|j].
  - rewrite nth_error_app1 by (rewrite map_length; lia). rewrite nth_error_map, Nat.add_0_r.
    replace (i + 0 * List.length rows) with i by lia. rewrite Hi. simpl. now rewrite Nat.add_0_r.
  - rewrite nth_error_app2 by (rewrite map_length; lia). rewrite map_length.
    replace (i + S j * List.length rows - List.length rows) with (i + j * List.length rows) by lia.
    erewrite IH by (eauto; lia). do 2 f_equal. lia.
Qed.
Lemma frame_get : forall X i row f, frame_ok X -> nth_error (x_rows X) i = Some row ->
  m_get (frame_matrix X) i f = nth_error row f.
Proof.
  intros X i row f [H _] Hi. unfold m_get, frame_matrix, m_item_index. cbn [matrix_new m_data m_rows].
  assert (L : List.length row = x_cols X) by (apply H; eapply nth_error_In; eauto).
  assert (Li : i < List.length (x_rows X)) by (eapply nth_error_Some_lt; eauto).
  replace (1 * i + f * List.length (x_rows X)) with (i + f * List.length (x_rows X)) by lia.
  destruct (Nat.lt_ge_cases f (x_cols X)) as [Hf|Hf].
  - unfold ravel. erewrite ravel_nth_aux by eauto. simpl. symmetry. apply nth_error_nth'. lia.
  - rewrite (proj2 (nth_error_None _ _)) by (rewrite ravel_length; nia). symmetry. apply nth_error_None. lia.
Qed.
Lemma frame_row : forall X i row, frame_ok X -> nth_error (x_rows X) i = Some row -> m_get_row (frame_matrix X) i = Some row.
Proof.
  intros X i row HX Hi. destruct HX as [HL HN].
  assert (Li : i < List.length (x_rows X)) by (eapply nth_error_Some_lt; eauto).
  destruct (get_row_spec (frame_matrix X)) with (i := i) as (r & E & L & G); [apply ravel_length|exact Li|].
  rewrite E. f_equal. apply list_ext_nth. intros j.
  assert (LR : List.length row = x_cols X) by (apply HL; eapply nth_error_In; eauto). simpl in L.
  destruct (Nat.lt_ge_cases j (x_cols X)) as [Hj|Hj].
  - rewrite G by exact Hj. apply frame_get; auto. split; auto.
  - rewrite (proj2 (nth_error_None _ _)), (proj2 (nth_error_None _ _)); auto; lia.
Qed.

Lemma mapM_index : forall A B (f : nat -> option B) (g : A -> option B) (l : list A) k,
  (forall i x, nth_error l i = Some x -> f (k + i) = g x) -> mapM f (seq k (List.length l)) = mapM g l.
Proof.
  induction l as [|x l IH]; intros k H; simpl; auto.
  rewrite <- (H 0 x) by reflexivity. rewrite Nat.add_0_r. destruct (f k); simpl; auto.
  rewrite IH; auto. intros i y Hi. rewrite <- (H (S i) y) by auto. f_equal. lia.
Qed.
(** *** Predictions, row by row *)
Lemma predict_frame : forall shs b X par, frame_ok X ->
  predict shs b (frame_matrix X) par =
  (let* ts := prediction_trees b in
   mapM (fun row => score (p_missing (gb_params b)) ts (nth_error row) (gb_base_score b)) (x_rows X)).
Proof.
  intros shs b X par HX. rewrite predict_rows by (simpl; apply seq_length).
  destruct (prediction_trees b) as [ts|]; simpl; auto.
  apply mapM_index. intros i x Hi. apply score_ext. intros f. simpl. now apply frame_get.
Qed.

Definition leaf_row (missing : F64) (ts : list (list Node)) (row : list F64) : option (list nat) :=
  mapM (fun t => let* n := walk (List.length t) t (nth_error row) missing 0 in Some (n_num n)) ts.

(** flat lists of fixed-length blocks *)
Lemma cut_app : forall A n k (a : list A) m (b : list A), List.length a = n * k -> List.length b = m * k ->
  cut (n + m) k (a ++ b) = cut n k a ++ cut m k b.
Proof.
  intros A n k a m b La Lb. unfold cut. rewrite seq_app, map_app. f_equal.
  - apply map_ext_in. intros i Hi. apply in_seq in Hi. rewrite skipn_app, firstn_app.
    rewrite skipn_length, La. replace (k - (n * k - i * k)) with 0 by nia. rewrite firstn_O, app_nil_r. reflexivity.
  - simpl. replace (seq n m) with (map (fun i => n + i) (seq 0 m)).
    2:{ clear. revert n. induction m as [|m IH]; intros n; simpl; auto. rewrite Nat.add_0_r. f_equal.
        rewrite <- seq_shift, map_map. rewrite <- (IH (S n)). apply map_ext. intros; lia. }
    rewrite map_map. apply map_ext_in. intros i Hi. rewrite skipn_app, La.
    replace ((n + i) * k - n * k) with (i * k) by nia. rewrite skipn_all2 by (rewrite La; nia). reflexivity.
Qed.
Lemma cut_concat : forall A k (ls : list (list A)), (forall l, In l ls -> List.length l = k) -> cut (List.length ls) k (List.concat ls) = ls.
Proof.
  induction ls as [|l ls IH]; intros H; simpl; auto.
  assert (Ll : List.length l = k) by (apply H; left; auto).
  assert (LC : List.length (List.concat ls) = List.length ls * k).
  { clear IH Ll. assert (H' : forall x, In x ls -> List.length x = k) by (intros; apply H; right; auto). clear H.
    induction ls as [|a ls IH]; simpl; auto. rewrite app_length, IH by (intros; apply H'; right; auto).
    rewrite (H' a) by (left; auto). reflexivity. }
  change (S (List.length ls)) with (1 + List.length ls). rewrite cut_app by (simpl; lia).
  rewrite IH by (intros; apply H; right; auto). unfold cut. simpl. rewrite firstn_all2 by lia. reflexivity.
Qed.
Lemma concat_len : forall A k (ls : list (list A)), (forall l, In l ls -> List.length l = k) -> List.length (List.concat ls) = List.length ls * k.
Proof.
  induction ls as [|a ls IH]; intros H; simpl; auto. rewrite app_length, IH by (intros; apply H; right; auto).
  rewrite (H a) by (left; auto). reflexivity.
Qed.
Lemma reshape_concat : forall A n k (ls : list (list A)), List.length ls = n -> (forall l, In l ls -> List.length l = k) ->
  reshape n k (List.concat ls) = inl ls.
Proof.
  intros A n k ls <- H. unfold reshape. rewrite (concat_len _ k) by auto. rewrite Nat.eqb_refl. now rewrite cut_concat.
Qed.

(** contributions *)
Lemma for_rows_frame : forall A par sh X (f : list F64 -> option (list A)), frame_ok X ->
  for_rows par sh (frame_matrix X) f = (let* rows := mapM f (x_rows X) in Some (List.concat rows)).
Proof.
  intros A par sh X f HX. rewrite for_rows_serial. unfold for_rows. cbn [m_index frame_matrix matrix_new].
  f_equal. apply mapM_index. intros i x Hi. change (0 + i) with i. rewrite (frame_row X i x HX Hi). reflexivity.
Qed.
(** what must not panic before any row is looked at *)
Definition ready (b : Booster) (me : ContributionsMethod) : option unit :=
  match me with
  | CAverage => let* ts := prediction_trees b in let* _ := mapM distribute_leaf_weights ts in Some tt
  | CProbabilityChange => match p_objective (gb_params b) with LogLoss => Some tt | _ => None end
  | _ => Some tt
  end.
Lemma contributions_frame : forall sh b X me par, frame_ok X ->
  predict_contributions sh b (frame_matrix X) me par =
  (let* _ := ready b me in let* rows := mapM (contrib_row b me (x_cols X)) (x_rows X) in Some (List.concat rows)).
Proof.
  intros sh b X me par HX. rewrite predict_contributions_serial.
  destruct me; simpl; unfold predict_contributions_tree_alone; simpl; try (now rewrite for_rows_frame).
  - unfold predict_contributions_average. destruct (prediction_trees b) as [ts|] eqn:E; simpl; auto.
    destruct (mapM distribute_leaf_weights ts) as [ws|] eqn:E2; simpl; auto. rewrite for_rows_frame by auto.
    f_equal. apply mapM_ext. intros row _. simpl. rewrite E. simpl. rewrite E2. reflexivity.
  - destruct (p_objective (gb_params b)) eqn:E; simpl; auto.
    unfold predict_contributions_probability. rewrite for_rows_frame by auto. f_equal.
    apply mapM_ext. intros row _. simpl. rewrite E. reflexivity.
Qed.

Lemma py_contributions_rows : forall sh m X method par, frame_ok X ->
  py_predict_contributions sh m X method par =
  if_valid m X
    (match plain de_contributions (contribution_name method) with
     | inr e => Some (inr e)
     | inl me => let* _ := ready (py_booster m) me in
                 let* rows := mapM (contrib_row (py_booster m) me (x_cols X)) (x_rows X) in Some (inl rows)
     end).
Proof.
  intros sh m X method par HX. unfold py_predict_contributions. f_equal.
  destruct (plain _ _) as [me|e]; auto. rewrite contributions_frame by auto.
  destruct (ready (py_booster m) me); simpl; auto.
  destruct (mapM _ (x_rows X)) as [rows|] eqn:E; simpl; auto. f_equal. apply reshape_concat.
  - apply mapM_length in E. auto.
  - intros l Hl. apply In_nth_error in Hl. destruct Hl as [i Hi]. apply mapM_Forall2 in E.
    destruct (Forall2_nth_r E i Hi) as (row & _ & Hr). eapply contrib_row_length; eauto.
Qed.

(** leaf indices *)
Lemma prediction_trees_length : forall b ts, prediction_trees b = Some ts ->
  List.length ts = match gb_pred b with Some n => n | None => List.length (gb_trees b) end.
Proof.
  intros b ts H. unfold prediction_trees in H. destruct (slice_Some _ _ _ H) as (_ & _ & L & _). lia.
Qed.
Lemma flat_map_const : forall A B (f : A -> list B) (l : list A) n, (forall x, In x l -> List.length (f x) = n) ->
  List.length (flat_map f l) = List.length l * n.
Proof.
  induction l as [|a l IH]; intros n H; simpl; auto. rewrite app_length, (IH n), (H a); auto. left; auto. intros; apply H; right; auto.
Qed.

(** swapping the two loops *)
Lemma leaves_swap : forall (missing : F64) (ts : list (list Node)) (rows : list (list F64)),
  (let* ls := mapM (fun t => mapM (fun row => let* n := walk (List.length t) t (nth_error row) missing 0 in Some (n_num n)) rows) ts in Some ls)
  = None <-> ts <> [] /\ mapM (leaf_row missing ts) rows = None.
Proof.
  intros missing ts rows. set (f := fun (t : list Node) (row : list F64) => let* n := walk (List.length t) t (nth_error row) missing 0 in Some (n_num n)).
  assert (N : forall A B (g : A -> option B) l, mapM g l = None <-> exists x, In x l /\ g x = None).
  { intros A B g. induction l as [|a l IH]; simpl.
    - split; [discriminate|intros (x & [] & _)].
    - destruct (g a) eqn:E; simpl.
      + destruct (mapM g l) eqn:E2; simpl.
        * split; [discriminate|]. intros (x & [<-|Hx] & Hg); [congruence|]. assert (X : Some l0 = None) by (apply IH; eauto). discriminate.
        * split; auto. intros _. destruct (proj1 IH eq_refl) as (x & Hx & Hg). eauto.
      + split; eauto. }
  assert (B : forall A (x : option A), (let* v := x in Some v) = None <-> x = None) by (intros A [a|]; simpl; split; congruence).
  rewrite B, N. split.
  - intros (t & Ht & E). apply N in E. destruct E as (row & Hr & E). split; [intros ->; destruct Ht|].
    apply N. exists row. split; auto. unfold leaf_row. apply N. eauto.
  - intros [_ E]. apply N in E. destruct E as (row & Hr & E). unfold leaf_row in E. apply N in E. destruct E as (t & Ht & E).
    exists t. split; auto. apply N. eauto.
Qed.

Lemma list_eq_nth : forall A (l l' : list A), List.length l = List.length l' -> (forall i, i < List.length l -> nth_error l i = nth_error l' i) -> l = l'.
Proof.
  intros A l l' L H. apply list_ext_nth. intros i. destruct (Nat.lt_ge_cases i (List.length l)); auto.
  rewrite (proj2 (nth_error_None _ _)), (proj2 (nth_error_None _ _)); auto; lia.
Qed.
Lemma flat_opt_nth : forall A (g : nat -> option A) (row : list A) k, (forall j x, nth_error row j = Some x -> g (k + j) = Some x) ->
  flat_map (fun j => match g j with Some x => [x] | None => [] end) (seq k (List.length row)) = row.
Proof.
  induction row as [|x row IH]; intros k H; simpl; auto.
  rewrite <- (Nat.add_0_r k) at 1. rewrite (H 0 x eq_refl). simpl. f_equal. apply IH. intros j y Hj. rewrite <- (H (S j) y Hj). f_equal. lia.
Qed.

Lemma py_leaves_rows : forall shs m X, frame_ok X ->
  py_predict_leaf_indices shs m X =
  if_valid m X
    (let* ts := prediction_trees (py_booster m) in
     let* rows := mapM (leaf_row (p_missing (gb_params (py_booster m))) ts) (x_rows X) in Some (inl rows)).
Proof.
  intros shs m X HX. unfold py_predict_leaf_indices. f_equal. rewrite predict_leaf_indices_serial.
  set (b := py_booster m). set (miss := p_missing (gb_params b)).
  destruct (prediction_trees b) as [ts|] eqn:ET; simpl; auto.
  pose proof (prediction_trees_length _ _ ET) as LT. rewrite <- LT.
  assert (EQ : forall t, leaf_nums miss (frame_matrix X) t =
    mapM (fun row => let* n := walk (List.length t) t (nth_error row) miss 0 in Some (n_num n)) (x_rows X)).
  { intros t. unfold leaf_nums. cbn [m_index frame_matrix matrix_new]. apply mapM_index. intros i x Hi. change (0 + i) with i.
    unfold predict_leaf. rewrite (walk_ext t _ (nth_error x)); auto. intros f. apply frame_get; auto. }
  rewrite (mapM_ext _ (fun t => mapM (fun row => let* n := walk (List.length t) t (nth_error row) miss 0 in Some (n_num n)) (x_rows X))) by (intros; apply EQ).
  pose proof (leaves_swap miss ts (x_rows X)) as SW.
  destruct (mapM (fun t => mapM _ (x_rows X)) ts) as [ls|] eqn:EL; simpl in *.
  - destruct (mapM (leaf_row miss ts) (x_rows X)) as [rows|] eqn:ER; simpl.
    2:{ destruct ts as [|t ts]; [|assert (Z : Some ls = None) by (apply SW; split; [discriminate|auto]); discriminate].
        exfalso. clear - ER. induction (x_rows X) as [|r rs IH]; simpl in *; [discriminate|]. destruct (mapM _ rs); simpl in *; [discriminate|auto]. }
    f_equal. pose proof (mapM_length _ _ ER) as LR. pose proof (mapM_length _ _ EL) as LL.
    assert (L1 : forall l, In l ls -> List.length l = List.length (x_rows X)).
    { intros l Hl. apply In_nth_error in Hl. destruct Hl as [k Hk]. apply mapM_Forall2 in EL.
      destruct (Forall2_nth_r EL k Hk) as (t & _ & Ht). apply mapM_length in Ht. auto. }
    assert (L2 : forall r, In r rows -> List.length r = List.length ts).
    { intros l Hl. apply In_nth_error in Hl. destruct Hl as [k Hk]. apply mapM_Forall2 in ER.
      destruct (Forall2_nth_r ER k Hk) as (t & _ & Ht). unfold leaf_row in Ht. apply mapM_length in Ht. auto. }
    unfold reshape_F. rewrite (concat_len _ _ _ L1), LL. rewrite Nat.mul_comm, Nat.eqb_refl. f_equal.
    apply list_eq_nth; [rewrite map_length, seq_length; auto|]. intros i Hi. rewrite map_length, seq_length in Hi.
    rewrite nth_error_map, nth_error_seq by auto. simpl.
    destruct (nth_error_lt rows) with (i := i) as [r Hr]; [lia|]. rewrite Hr. f_equal.
    assert (Lr : List.length r = List.length ts) by (apply L2; eapply nth_error_In; eauto). rewrite <- Lr.
    apply flat_opt_nth. intros j x Hj. change (0 + j) with j.
    destruct (nth_error_lt ts) with (i := j) as [t Ht]; [rewrite <- Lr; eapply nth_error_Some_lt; eauto|].
    destruct (mapMn _ _ EL j t Ht) as (l & Hl & HL).
    destruct (nth_error_lt (x_rows X)) with (i := i) as [row Hrow]; [auto|].
    destruct (mapMn _ _ ER i row Hrow) as (r' & Hr' & HR). assert (r' = r) by congruence. subst r'.
    unfold leaf_row in HR. destruct (mapMn _ _ HR j t Ht) as (x' & Hx' & HX'). assert (x' = x) by congruence. subst x'.
    destruct (mapMn _ _ HL i row Hrow) as (x'' & Hx'' & HX''). rewrite (concat_nth_len _ _ _ _ _ l L1 Hl) by auto. rewrite Hx''. congruence.
  - assert (Z : mapM (leaf_row miss ts) (x_rows X) = None) by (apply SW; auto). rewrite Z. reflexivity.
Qed.
End Frames.
