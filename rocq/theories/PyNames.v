(** The names of the options: what is read back is what was written. *)
From Coq Require Import List String.
From Verif Require Import Prelude Float Utils Node Splitter Tree Objective Metric Sampler Contrib Booster Serde PyWrap.
Import ListNotations.

(** *** Names are read back as they were written *)
Ltac string_cases H :=
  repeat match type of H with
  | context [match ?x with _ => _ end] => is_var x; destruct x; try discriminate H
  end.
Lemma objective_name : forall s o, de_objective (JStr s) = Some o -> s = plain_name (ser_objective o).
Proof. intros s o H. unfold de_objective in H. string_cases H; injection H as <-; reflexivity. Qed.
Lemma method_name : forall s o, de_method (JStr s) = Some o -> s = plain_name (ser_method o).
Proof. intros s o H. unfold de_method in H. string_cases H; injection H as <-; reflexivity. Qed.
Lemma policy_name : forall s o, de_policy (JStr s) = Some o -> s = plain_name (ser_policy o).
Proof. intros s o H. unfold de_policy in H. string_cases H; injection H as <-; reflexivity. Qed.
Lemma metric_name : forall s o, de_metric (JStr s) = Some o -> s = plain_name (ser_metric o).
Proof. intros s o H. unfold de_metric in H. string_cases H; injection H as <-; reflexivity. Qed.
Lemma treatment_name : forall s o, de_treatment (JStr s) = Some o -> s = plain_name (ser_treatment o).
Proof. intros s o H. unfold de_treatment in H. string_cases H; injection H as <-; reflexivity. Qed.
Lemma contributions_name : forall s o, de_contributions (JStr s) = Some o ->
  s = match o with CWeight => "Weight" | CAverage => "Average" | CBranchDifference => "BranchDifference"
      | CMidpointDifference => "MidpointDifference" | CModeDifference => "ModeDifference"
      | CProbabilityChange => "ProbabilityChange" | CShapley => "Shapley" end%string.
Proof. intros s o H. unfold de_contributions in H. string_cases H; injection H as <-; reflexivity. Qed.
Lemma importance_name : forall s o, de_importance (JStr s) = Some o ->
  s = match o with IWeight => "Weight" | IGain => "Gain" | ICover => "Cover" | ITotalGain => "TotalGain" | ITotalCover => "TotalCover" end%string.
Proof. intros s o H. unfold de_importance in H. string_cases H; injection H as <-; reflexivity. Qed.
