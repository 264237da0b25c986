(** Histogram subtraction in exact arithmetic. *)
From Coq Require Import List Arith Lia Bool Permutation Reals Lra.
From Verif Require Import Prelude Float FloatX Data DataProofs Utils Histogram HistogramProofs.
Import ListNotations.
Local Open Scope R_scope.

Lemma sum64_fin : forall (g : nat -> xr) l, (forall i, In i l -> xfin (g i)) ->
  @sum64 XF (map g l) = Fin (sumR (map (fun i => val (g i)) l)).
Proof.
  intros g l H. unfold sum64. simpl.
  assert (E : forall a, fold_left (fun a0 g0 : xr => xadd a0 g0) (map g l) (Fin a) = Fin (a + sumR (map (fun i => val (g i)) l))).
  { revert H. induction l as [|x l IH]; intros H a; simpl.
    - f_equal; lra.
    - rewrite (xfin_val (g x)) by (apply H; simpl; auto). simpl.
      rewrite IH by (intros; apply H; simpl; auto). f_equal; lra. }
  rewrite E. f_equal; lra.
Qed.

Lemma combine_concat : forall A B (F : nat -> list A) (G : nat -> list B) cols,
  (forall j, In j cols -> length (F j) = length (G j)) ->
  combine (concat (map F cols)) (concat (map G cols)) = concat (map (fun j => combine (F j) (G j)) cols).
Proof.
  induction cols as [|j cols IH]; simpl; intros H; auto.
  rewrite <- IH by auto. clear IH. assert (L : length (F j) = length (G j)) by auto.
  revert L. generalize (G j). induction (F j) as [|x l IHl]; intros [|y l'] L; simpl in *; try discriminate; auto.
  f_equal. apply IHl. lia.
Qed.

Lemma combine_map_same : forall A B C (f : A -> B) (g : A -> C) l, combine (map f l) (map g l) = map (fun x => (f x, g x)) l.
Proof. induction l; simpl; congruence. Qed.

Lemma Permutation_filter : forall A (f : A -> bool) a b, Permutation a b -> Permutation (filter f a) (filter f b).
Proof.
  intros A f a b P. induction P; simpl; auto.
  - destruct (f x); auto.
  - destruct (f x), (f y); auto. constructor.
  - etransitivity; eauto.
Qed.

Section Sub.
Variables (data : Matrix nat) (cuts : Jagged xr) (grad hess : list xr) (cols : list nat).
Variables (fcols : list (list nat)) (ccols : list (list xr)).
Hypothesis Hg : forall x, In x grad -> xfin x.
Hypothesis Hh : forall x, In x hess -> xfin x.
Notation spec := (@hist_spec XF data cuts grad hess cols fcols ccols).

Lemma nth_fin : forall (l : list xr), (forall x, In x l -> xfin x) -> forall i, xfin (nth i l (Fin 0)).
Proof.
  intros l H i. destruct (nth_in_or_default i l (Fin 0)) as [Hin|E]; [auto|]. rewrite E. exists 0. auto.
Qed.

Definition gR (i : nat) : R := val (@gof XF grad i).
Definition hR (i : nat) : R := val (@hof XF hess i).

(** The bins of feature [j] for the rows [index]. *)
Lemma feature_bins_X : forall j index,
  @feature_bins XF (fcol fcols j) (@ccol XF ccols j) index (@gof XF grad) (@hof XF hess) =
  map (fun b => @mkBin XF xr (Fin (sumR (map gR (filter (in_bin (fcol fcols j) b) index))))
                         (Fin (sumR (map hR (filter (in_bin (fcol fcols j) b) index))))
                         (nth b (XNaN :: removelast (@ccol XF ccols j)) XNaN))
      (seq 0 (length (@ccol XF ccols j))).
Proof.
  intros j index. unfold feature_bins. apply map_ext. intros b.
  rewrite (sum64_fin (@gof XF grad)) by (intros; apply nth_fin; auto).
  rewrite (sum64_fin (@hof XF hess)) by (intros; apply nth_fin; auto). reflexivity.
Qed.

Lemma bin_sum_perm : forall (w : nat -> R) f b P A B, Permutation P (A ++ B) ->
  sumR (map w (filter (in_bin f b) P)) =
  sumR (map w (filter (in_bin f b) A)) + sumR (map w (filter (in_bin f b) B)).
Proof.
  intros w f b P A B H. rewrite <- sumR_app, <- map_app, <- filter_app.
  apply sumR_perm. apply Permutation_map. apply Permutation_filter. auto.
Qed.

Theorem hist_spec_perm : forall P Q, Permutation P Q -> spec P = spec Q.
Proof.
  intros P Q H. unfold hist_spec, hist_cols. f_equal. f_equal. apply map_ext. intros j.
  rewrite !feature_bins_X. apply map_ext. intros b.
  assert (E := Permutation_filter _ (in_bin (fcol fcols j) b) _ _ H).
  f_equal; f_equal; apply sumR_perm; apply Permutation_map; auto.
Qed.

Theorem hist_subtract : forall P A B, Permutation P (A ++ B) ->
  hist_from_parent_child (spec P) (spec A) = spec B.
Proof.
  intros P A B H. unfold hist_from_parent_child, hist_spec; simpl. f_equal.
  unfold hist_cols. rewrite combine_concat.
  2:{ intros. rewrite !feature_bins_length. auto. }
  rewrite concat_map, map_map. f_equal. apply map_ext. intros j.
  rewrite !feature_bins_X. rewrite combine_map_same, map_map. apply map_ext. intros b.
  unfold bin_from_parent_child; simpl. rewrite !(bin_sum_perm _ _ _ P A B H). f_equal; f_equal; ring.
Qed.

Theorem hist_subtract_two : forall P A B C, Permutation P (A ++ B ++ C) ->
  hist_from_parent_two_children (spec P) (spec A) (spec B) = spec C.
Proof.
  intros P A B C H. unfold hist_from_parent_two_children, hist_spec; simpl. f_equal.
  unfold hist_cols. rewrite combine_concat.
  2:{ intros. rewrite !feature_bins_length. auto. }
  rewrite combine_concat.
  2:{ intros. rewrite combine_length, !feature_bins_length. lia. }
  rewrite concat_map, map_map. f_equal. apply map_ext. intros j.
  rewrite !feature_bins_X. rewrite combine_map_same, combine_map_same, map_map. apply map_ext. intros b.
  unfold bin_from_parent_two_children; simpl.
  rewrite !(bin_sum_perm _ _ _ P A (B ++ C) H). rewrite !(bin_sum_perm _ _ _ (B ++ C) B C (Permutation_refl _)).
  f_equal; f_equal; ring.
Qed.
End Sub.
