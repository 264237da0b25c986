(** Property C105: a fit in floating point never panics, whatever rounds, overflows or is NaN; and what
    rounding can do to C94. *)
From Coq Require Import ZArith NArith List Arith Lia Bool String Permutation Sorting.
From Flocq Require Import IEEE754.BinarySingleNaN.
From Verif Require Import Prelude Float FloatX FloatI FloatLaws OrdProofs Data DataProofs Utils Binning BinningProofs BinMatrix BinningX PropBinning Histogram
  HistogramProofs Node Splitter SplitProofs Tree TreeWf PathProofs NoPanic NoPanicAny PropTree Objective Metric Sampler SamplerProofs Booster BoostProofs
  PredictProofs FitModel FitAny GossI PropPredict.
Import ListNotations.
Local Notation length := List.length.
Local Open Scope nat_scope.

Section IEEE.
Variables (iexp iln iln1p : b64 -> b64).
Notation FI := (IF iexp iln iln1p).

Lemma ieee_zero_laws : ZeroLaws FI.
Proof. constructor; vm_compute; reflexivity. Qed.

(** *** C105.  The labels and weights are arbitrary as long as the input checks of fit() accept them: the
    gradients, the sums over rows and the leaf weights may be infinite or NaN.  What fit() returns is an
    error exactly when those checks reject. *)
Theorem C105_fit_never_panics : forall (E : @Env FI) (b : @Booster FI) (data : Matrix b64) (y w : list b64) (es : option (list (@EvalData FI))),
  let p := gb_params b in
  @able_params FI p (m_rows data) -> @able_data FI p data y w -> @able_env FI E p -> @able_evals FI p (m_cols data) es -> @clean FI b ->
  exists b' e, @fit FI E b data y w es = Some (b', e) /\ (e = None <-> ~ @bad_inputs FI y w es).
Proof. exact (@FitAny.fit_never_panics_any FI ieee_zero_laws i64_ord_laws eq_refl). Qed.

(** One tree, on any gradients and hessians. *)
Theorem C105_tree_never_panics : forall (s : @Splitter FI) (t : @Train FI) max_leaves max_depth index sm fcols ccols,
  @hist_inputs FI (tr_data t) (tr_cuts t) (tr_grad t) (tr_hess t) (tr_cols t) fcols ccols ->
  (forall c, In c ccols -> (N.of_nat (length c) <= 65536)%N) ->
  (forall i, In i index -> i < m_rows (tr_data t)) ->
  (sm = SNone -> index = seq 0 (m_rows (tr_data t))) ->
  rejects_empty s -> forall policy pick, never_forces s ->
  exists nodes st, @tree_fit FI policy pick s t index max_leaves max_depth sm = Some (nodes, st).
Proof. exact (@NoPanicAny.fit_never_panics_any FI ieee_zero_laws). Qed.

(** With a top_rate between 0 and 1, GOSS never asks for more rows than there are: the product with the
    number of rows may be rounded up, but not above it.  (Above 1 it does, and panics: C52_top_rate_panics.) *)
Theorem C105_top_rate : forall (a : b64) rows,
  fle (@f64 FI) (fzero (@f64 FI)) a = true -> fle (@f64 FI) a (fone (@f64 FI)) = true -> (N.of_nat rows <= 2 ^ 53)%N ->
  ftonat (@f64 FI) (fmul (@f64 FI) a (fofnat (@f64 FI) rows)) <= rows.
Proof. exact share_rows. Qed.
Theorem C105_goss_params : forall (p : @Params FI) rows,
  p_nbins p <> 0 -> (N.of_nat (p_nbins p) <= 65534)%N ->
  (p_create_missing_branch p = true -> p_force_children_to_bound_parent p = false) ->
  flt (@f32 FI) (fzero (@f32 FI)) (p_min_leaf_weight p) = true ->
  fle (@f64 FI) (fzero (@f64 FI)) (p_top_rate p) = true -> fle (@f64 FI) (p_top_rate p) (fone (@f64 FI)) = true -> (N.of_nat rows <= 2 ^ 53)%N ->
  @able_params FI p rows.
Proof.
  intros p rows H1 H2 H3 H4 H5 H6 H7. constructor.
  - exact (conj H1 H2).
  - exact H3.
  - intros _ _. exact H4.
  - intros _. exact (share_rows (p_top_rate p) rows H5 H6 H7).
Qed.
End IEEE.

(** *** Cases *)
(** A large weight in the first row absorbs the weights of four rows when histograms are accumulated in
    one order, not in the other. *)
Definition exy_data : Matrix b64 := matrix_new
  (map z64 [0; 0; 0; 0; 0; 0; 1; 1]%Z ++ map z64 [1; 2; 3; 4; 5; 6; 7; 1]%Z) 8 2.
Definition exy_y : list b64 := q64 (-(2^20 + 1)) (2^18) :: map z64 [4; 4; 4; 4; -16; 1000; 1000]%Z.
Definition exy_w : list b64 := z64 (2^24) :: map z64 [1; 1; 1; 1; 1; 2^20; 2^20]%Z.
Definition exy_params : @Params IE := @mkParams IE SquaredLoss 1 (q32 1 2) 2 10 (z32 0) (z32 1) (z32 0) (z32 0) (z32 1) 64
  true false None (z32 1) (z64 1) (z64 1) (z64 1) 7%N (fnan IOps64) false SNone DepthWise None None false [] TNone 0 false.
Definition exy_new : @Booster IE := @mkBooster IE exy_params (z64 0) None None None [] [].
Definition exy_out : @Booster IE := fst (get (exy_new, None) (@fit IE exb_env exy_new exy_data exy_y exy_w None)).

Lemma exy_fitted : @fit IE exb_env exy_new exy_data exy_y exy_w None = Some (exy_out, None).
Proof.
  assert (G : forall o : option (@Booster IE * option ForustError), is_some o = true -> snd (get (exy_new, None) o) = None ->
    o = Some (fst (get (exy_new, None) o), None)).
  { intros [[b e]|] H1 H2; [|discriminate]. cbn [get fst snd] in *. rewrite H2. reflexivity. }
  unfold exy_out. refine (G _ _ _); vm_compute; reflexivity.
Qed.

(** C94 in floating point: a leaf whose recorded hessian is at least min_leaf_weight, and that no training
    row reaches. *)
Theorem C94_rounding_refuted : exists (E : @Env IE) (b b' : @Booster IE) (data : Matrix b64) (y w : list b64) t n,
  @fit IE E b data y w None = Some (b', None) /\ In t (gb_trees b') /\ In n t /\ n_is_leaf n = true /\
  (p_min_leaf_weight (gb_params b) <=? n_hess n)%f32 = true /\ (fzero (@f32 IE) <? p_min_leaf_weight (gb_params b))%f32 = true /\
  (forall v, In v w -> (fzero (@f64 IE) <? v)%f64 = true) /\
  forall i, i < m_rows data -> exists m, @predict_leaf IE t data i (p_missing (gb_params b)) = Some m /\ n_num m <> n_num n.
Proof.
  exists exb_env, exy_new, exy_out, exy_data, exy_y, exy_w.
  assert (L : forall (b : @Booster IE) d, map (fun t => nth 4 t d) (firstn 1 (gb_trees b)) <> [] -> (forall t, In t (firstn 1 (gb_trees b)) -> 4 < length t) ->
    let t := nth 0 (gb_trees b) [] in In t (gb_trees b) /\ In (nth 4 t d) t).
  { intros b d H1 H2. destruct (gb_trees b) as [|t ts]; [contradiction|]. simpl. split; auto. apply nth_In. apply H2. left; auto. }
  set (d := @mkNode IE 0 (z32 0) (z32 0) 0 (z64 0) 0 (z32 0) 0 0 0 true).
  exists (nth 0 (gb_trees exy_out) []), (nth 4 (nth 0 (gb_trees exy_out) []) d).
  split; [exact exy_fitted|].
  assert (LT : map (@length (@Node IE)) (gb_trees exy_out) = [5]) by (vm_compute; reflexivity).
  destruct (L exy_out d) as [I1 I2].
  { intros Q. apply (f_equal (@length _)) in Q. rewrite map_length in Q. destruct (gb_trees exy_out); discriminate. }
  { intros t Ht. destruct (gb_trees exy_out) as [|t0 ts]; [discriminate|]. destruct Ht as [<-|[]]. injection LT as LT _. lia. }
  split; [exact I1|]. split; [exact I2|]. clear I1 I2 L LT.
  split; [vm_compute; reflexivity|]. split; [vm_compute; reflexivity|]. split; [vm_compute; reflexivity|].
  split. { intros v [<-|[<-|[<-|[<-|[<-|[<-|[<-|[<-|[]]]]]]]]]; vm_compute; reflexivity. }
  intros i Hi. change (i < 8) in Hi.
  assert (G : forall (o : option (@Node IE)) k, is_some o = true -> n_num (get d o) <> k -> exists m, o = Some m /\ n_num m <> k).
  { intros [m|] k H1 H2; [|discriminate]. eauto. }
  refine (G _ _ _ _).
  - do 8 (destruct i as [|i]; [vm_compute; reflexivity|]). lia.
  - do 8 (destruct i as [|i]; [vm_compute; discriminate|]). lia.
Qed.

(** C105 covers that run, and one on infinite labels, where a leaf weight is NaN. *)
Definition exy_wild : list b64 := map z64 [1; 2; 3; 4; 5; 6]%Z ++ [fneg IOps64 (finf IOps64); finf IOps64].
Lemma exy_able : forall y : list b64, length y = 8 ->
  @able_params IE exy_params 8 /\ @able_data IE exy_params exy_data y exy_w /\ @able_env IE exb_env exy_params /\ @able_evals IE exy_params 2 None /\ @clean IE exy_new.
Proof.
  intros y LY. split; [|split; [|split; [|split]]].
  - constructor; simpl; try discriminate. split; [lia|]. vm_compute. discriminate.
  - assert (V : forallb (fun v : b64 => negb (fisnan IOps64 v) && flt IOps64 v (fmax IOps64))%bool (m_data exy_data) = true) by (vm_compute; reflexivity).
    rewrite forallb_forall in V. constructor; auto.
    + split; [reflexivity|]. split; [reflexivity|]. intros v Hv. specialize (V v Hv). apply andb_true_iff in V. destruct V as [V1 V2].
      left. reflexivity.
    + intros v Hv _. specialize (V v Hv). apply andb_true_iff in V. apply V.
  - constructor; simpl; try discriminate.
    + apply isorts_spec. apply i64_ord_laws.
    + left. vm_compute. reflexivity.
  - exact I.
  - intros _. split; reflexivity.
Qed.
Example exy_wild_completes : exists b', @fit IE exb_env exy_new exy_data exy_wild exy_w None = Some (b', None).
Proof.
  destruct (exy_able exy_wild eq_refl) as (A1 & A2 & A3 & A4 & A5).
  destruct (C105_fit_never_panics idf idf idf exb_env exy_new exy_data exy_wild exy_w None A1 A2 A3 A4 A5) as (b' & e & H & HE).
  exists b'. assert (e = None) as <-; auto. apply HE. intros B.
  assert (V : @validate_inputs IE exy_wild exy_w None = None) by (vm_compute; reflexivity).
  apply (@validate_inputs_iff IE) in B. destruct B as [e' B]. pose proof (eq_trans (eq_sym V) B) as Q. discriminate Q.
Qed.
Example exy_wild_nan : match @fit IE exb_env exy_new exy_data exy_wild exy_w None with
  | Some (b', None) => existsb (fun t => existsb (fun n => fisnan (@f32 IE) (@n_weight IE n)) t) (gb_trees b')
  | _ => false end = true.
Proof. vm_compute. reflexivity. Qed.

(** A fit with GOSS that keeps the top third of the eight rows and an expected third of the others. *)
Definition exy_goss : @Booster IE := @mkBooster IE (@mkParams IE SquaredLoss 2 (q32 1 2) 2 10 (z32 0) (z32 1) (z32 0) (z32 0) (z32 1) 64
  true false None (z32 1) (fdiv IOps64 (z64 1) (z64 3)) (fdiv IOps64 (z64 1) (z64 3)) (z64 1) 7%N (fnan IOps64) false SGoss DepthWise None None false [] TNone 0 false)
  (z64 0) None None None [] [].
Example exy_goss_able : @able_params IE (gb_params exy_goss) 8.
Proof.
  apply C105_goss_params; [discriminate| |discriminate| | | |]; vm_compute; try reflexivity; discriminate.
Qed.
Example exy_third : map (fun n => ftonat IOps64 (fmul IOps64 (fdiv IOps64 (z64 1) (z64 3)) (fofnat IOps64 n))) [2; 3; 6; 9] = [0; 1; 2; 3].
Proof. vm_compute. reflexivity. Qed.

Print Assumptions C105_top_rate.
Print Assumptions C105_goss_params.
Print Assumptions C105_fit_never_panics.
Print Assumptions C105_tree_never_panics.
Print Assumptions C94_rounding_refuted.
