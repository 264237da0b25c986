(** Comparison of metric values; fuel-free facts about sampling that need only an ordering. *)
From Coq Require Import List Arith Bool Lia Permutation Sorting.
From Verif Require Import Prelude Float OrdProofs Utils Objective Metric Sampler SamplerProofs.
Import ListNotations.

Section Better.
Context {FS : Floats}.
Hypothesis OL : OrdLaws f64.
Notation better m a b := (is_comparison_better b a m = true).

Lemma better_irrefl : forall m a, ~ better m a a.
Proof.
  intros m a H. unfold is_comparison_better in H. destruct (fisnan f64 a); [discriminate|].
  destruct m; rewrite (o_lt_irrefl _ OL) in H; discriminate.
Qed.

Lemma better_trans : forall m a b c, better m a b -> better m b c -> better m a c.
Proof.
  intros m a b c. unfold is_comparison_better.
  destruct (fisnan f64 a) eqn:Na, (fisnan f64 b) eqn:Nb, (fisnan f64 c) eqn:Nc; try discriminate; auto.
  destruct m; intros H1 H2; eapply (o_lt_trans _ OL); eauto.
Qed.

Lemma better_asym : forall m a b, better m a b -> ~ better m b a.
Proof. intros m a b H1 H2. exact (better_irrefl m a (better_trans m a b a H1 H2)). Qed.

Lemma better_nan : forall m a b, fisnan f64 a = true -> ~ better m a b.
Proof. intros m a b N. unfold is_comparison_better. rewrite N. destruct (fisnan f64 b); discriminate. Qed.
Lemma better_than_nan : forall m a b, fisnan f64 a = false -> fisnan f64 b = true -> better m a b.
Proof. intros m a b N1 N2. unfold is_comparison_better. rewrite N1, N2. reflexivity. Qed.

Lemma better_num : forall m a b, fisnan f64 a = false -> fisnan f64 b = false ->
  (better m a b <-> if m then flt f64 b a = true else flt f64 a b = true).
Proof. intros m a b N1 N2. unfold is_comparison_better. rewrite N1, N2. destruct m; tauto. Qed.

(** incomparability is transitive: a strict weak order *)
Lemma better_weak : forall m a b c, better m a c -> better m a b \/ better m b c.
Proof.
  intros m a b c. unfold is_comparison_better.
  destruct (fisnan f64 a) eqn:Na, (fisnan f64 b) eqn:Nb, (fisnan f64 c) eqn:Nc; try discriminate; auto.
  destruct m; intros H.
  - destruct (b <? a)%f64 eqn:E; auto. right.
    apply (o_nlt _ OL) in E; auto. eapply (o_lt_le_trans _ OL); eauto.
  - destruct (a <? b)%f64 eqn:E; auto. right.
    apply (o_nlt _ OL) in E; auto. eapply (o_le_lt_trans _ OL); eauto.
Qed.
End Better.

Section Sampling.
Context {FS : Floats}.
Hypothesis OL : OrdLaws f32.

Inductive sublist {A} : list A -> list A -> Prop :=
| sub_nil : sublist [] []
| sub_take : forall x a l, sublist a l -> sublist (x :: a) (x :: l)
| sub_skip : forall x a l, sublist a l -> sublist a (x :: l).

Lemma flagged_sublist : forall A b (l : list A) flags, length flags = length l -> sublist (flagged b l flags) l.
Proof.
  unfold flagged. induction l as [|x l IH]; intros [|c flags] H; simpl in *; try discriminate; [constructor|].
  destruct (Bool.eqb c b); simpl; constructor; apply IH; lia.
Qed.

Theorem random_split : forall r sub n index chosen excluded n',
  random_sample r sub n index = (chosen, excluded, n') ->
  Permutation (chosen ++ excluded) index /\ sublist chosen index /\ sublist excluded index /\ n' = n + length index.
Proof.
  intros r sub n index chosen excluded n' H. rewrite random_sample_flags in H. injection H as <- <- <-.
  assert (L : length (map (fun k => (draw32 r k <? sub)%f32) (seq n (length index))) = length index)
    by (rewrite map_length; apply seq_length).
  split; [apply flagged_perm; auto|]. split; [apply flagged_sublist; auto|]. split; [apply flagged_sublist; auto|]. auto.
Qed.

Theorem random_none : forall r sub n index, RngSpec r -> fle f32 sub (fzero f32) = true ->
  random_sample r sub n index = ([], index, n + length index).
Proof.
  intros r sub n index RS H. rewrite random_sample_flags.
  destruct (flagged_all _ index (map (fun k => (draw32 r k <? sub)%f32) (seq n (length index))) false) as [A B].
  - rewrite map_length. apply seq_length.
  - intros x Hx. apply in_map_iff in Hx. destruct Hx as (k & <- & _).
    destruct (rs_draw32 _ RS k) as [D _].
    apply (o_le_nlt _ OL). eapply (ol_le_trans _ OL); eauto.
  - simpl in B. rewrite A, B. reflexivity.
Qed.

Theorem random_all : forall r sub n index, RngSpec r -> fle f32 (fone f32) sub = true ->
  random_sample r sub n index = (index, [], n + length index).
Proof.
  intros r sub n index RS H. rewrite random_sample_flags.
  destruct (flagged_all _ index (map (fun k => (draw32 r k <? sub)%f32) (seq n (length index))) true) as [A B].
  - rewrite map_length. apply seq_length.
  - intros x Hx. apply in_map_iff in Hx. destruct Hx as (k & <- & _).
    destruct (rs_draw32 _ RS k) as [_ D]. eapply (o_lt_le_trans _ OL); eauto.
  - simpl in B. rewrite A, B. reflexivity.
Qed.

(** a top rate that asks for more rows than there are panics *)
Theorem goss_top_panics : forall S r a b k index grad hess, @SortAbsSpec FS S -> length index <= length grad ->
  length index < ftonat f64 (a * fofnat f64 (length index))%f64 ->
  goss_sample S r a b k index grad hess = None.
Proof.
  intros S r a b k index grad hess SS L H. unfold goss_sample.
  replace (length index <=? length grad) with true by (symmetry; apply Nat.leb_le; auto).
  destruct (SS (firstn (length index) grad)) as [P _]. apply Permutation_length in P.
  rewrite seq_length, firstn_length in P.
  match goal with |- context [?x <=? length ?y] => replace (x <=? length y) with false; [reflexivity|] end.
  symmetry. apply Nat.leb_gt. lia.
Qed.

Theorem goss_excluded_empty : forall S r a b k index grad hess used excluded grad' hess' k',
  goss_sample S r a b k index grad hess = Some (used, excluded, grad', hess', k') -> excluded = [].
Proof.
  intros S r a b k index grad hess used excluded grad' hess' k' H. unfold goss_sample in H.
  destruct (_ <=? _); [|discriminate]. destruct (_ <=? _); [|discriminate]. inv_bind H.
  destruct v as [[[? ?] ?] ?]. injection H as <- <- <- <- <-. reflexivity.
Qed.
End Sampling.
