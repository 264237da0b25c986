(** Property C102: options that forbid splitting. *)
From Coq Require Import ZArith NArith List Arith Lia Bool.
From Verif Require Import Prelude Float FloatX FloatI FloatLaws OrdProofs Data DataProofs Utils Binning BinningX PropBinning Histogram Node Splitter SplitProofs
  Tree TreeWf FitProofs FitSplits PathProofs PropTree MissWeights Objective Metric Sampler Contrib Booster PredictProofs BoostProofs FitModel PropPredict NoSplit.
Import ListNotations.

(** [one_node b]: every tree of b is a single leaf. *)
Theorem C102_max_depth_zero : forall {FS : Floats} E b data y w es b', clean b -> fit E b data y w es = Some (b', None) ->
  p_max_depth (gb_params b) = 0 -> forall t, In t (gb_trees b') -> exists n, t = [n] /\ n_is_leaf n = true.
Proof. exact @fit_depth0. Qed.

Theorem C102_one_leaf : forall {FS : Floats} E b data y w es b', clean b -> fit E b data y w es = Some (b', None) ->
  p_create_missing_branch (gb_params b) = false -> p_max_leaves (gb_params b) <= 1 ->
  forall t, In t (gb_trees b') -> exists n, t = [n] /\ n_is_leaf n = true.
Proof. exact @fit_one_leaf. Qed.

(** gamma infinite (or NaN, which is below nothing) *)
Theorem C102_gamma_infinite : forall iexp iln iln1p (E : @Env (IF iexp iln iln1p)) b data y w es b', clean b -> @fit (IF iexp iln iln1p) E b data y w es = Some (b', None) ->
  p_gamma (gb_params b) = finf IOps32 \/ p_gamma (gb_params b) = fnan IOps32 ->
  forall t, In t (gb_trees b') -> exists n, t = [n] /\ n_is_leaf n = true.
Proof.
  intros iexp iln iln1p E b data y w es b' C H G t Ht. destruct (@fit_tree_is (IF iexp iln iln1p) E b data y w es b' C H t Ht) as (pick & tr & index & st & HF).
  pose proof (@fit_well_formed (IF iexp iln iln1p) _ _ _ _ _ _ _ _ _ _ HF) as W. apply (@wf_single (IF iexp iln iln1p)); [exact W|].
  intros n Hn. destruct (n_is_leaf n) eqn:L; [reflexivity|exfalso].
  pose proof (@fit_gamma (IF iexp iln iln1p) _ _ _ _ _ _ _ _ i32_ord_laws (i_sub_laws 24 128 eq_refl eq_refl) _ _ HF n Hn L) as Q.
  assert (EG : sp_gamma (params (splitter_of (gb_params b))) = p_gamma (gb_params b)) by (unfold splitter_of; destruct (p_create_missing_branch (gb_params b)); reflexivity).
  rewrite EG in Q. destruct G as [G|G]; rewrite G in Q; destruct (n_split_gain n) as [s|[|]| |s m e B]; discriminate Q.
Qed.

(** Models of single leaves predict the same for every row: the base score plus the values of the leaves. *)
Theorem C102_constant : forall {FS : Floats} shs b (d : Matrix F64) par preds,
  (forall t, In t (gb_trees b) -> exists n, t = [n] /\ n_is_leaf n = true) -> m_index d = seq 0 (m_rows d) ->
  predict shs b d par = Some preds ->
  exists ws, preds = repeat (fold_left (fun a x => (a + x)%f64) ws (gb_base_score b)) (m_rows d) /\
    forall x, In x ws -> exists n, In [n] (gb_trees b) /\ x = to64 (n_weight n).
Proof. exact @one_node_constant. Qed.

(** *** Three fits on the data of PropTree.v, and one with the limits lifted *)
Definition exo_new (depth leaves : nat) (gamma : b32) : @Booster IE := @mkBooster IE
  (@mkParams IE SquaredLoss 3 (q32 1 2) depth leaves (z32 0) (z32 1) gamma (z32 0) (z32 1) 2
    true false None (z32 1) (z64 1) (z64 1) (z64 1) 7%N (fnan IOps64) false SNone DepthWise None None true [] TNone 0 false) (z64 0) None None None [] [].
Lemma exo_some : forall d l g, match exb_fit (exo_new d l g) None with Some (_, None) => true | _ => false end = true ->
  exb_fit (exo_new d l g) None = Some (exb_out (exo_new d l g) None, None).
Proof. intros. apply exb_some. exact H. Qed.
Example exo_runs :
  exb_fit (exo_new 0 10 (z32 0)) None = Some (exb_out (exo_new 0 10 (z32 0)) None, None) /\
  exb_fit (exo_new 5 1 (z32 0)) None = Some (exb_out (exo_new 5 1 (z32 0)) None, None) /\
  exb_fit (exo_new 5 10 (finf IOps32)) None = Some (exb_out (exo_new 5 10 (finf IOps32)) None, None) /\
  map (@length _) (gb_trees (exb_out (exo_new 0 10 (z32 0)) None)) = [1; 1; 1] /\
  map (@length _) (gb_trees (exb_out (exo_new 5 1 (z32 0)) None)) = [1; 1; 1] /\
  map (@length _) (gb_trees (exb_out (exo_new 5 10 (finf IOps32)) None)) = [1; 1; 1] /\
  map (fun t => 1 <? length t) (gb_trees (exb_out (exo_new 5 10 (z32 0)) None)) = [true; true; true] /\
  (forall d l g, clean (exo_new d l g)).
Proof.
  split; [apply exo_some; vm_compute; reflexivity|]. split; [apply exo_some; vm_compute; reflexivity|]. split; [apply exo_some; vm_compute; reflexivity|].
  split; [vm_compute; reflexivity|]. split; [vm_compute; reflexivity|]. split; [vm_compute; reflexivity|]. split; [vm_compute; reflexivity|].
  intros d l g _. auto.
Qed.

Print Assumptions C102_max_depth_zero.
Print Assumptions C102_one_leaf.
Print Assumptions C102_gamma_infinite.
Print Assumptions C102_constant.
