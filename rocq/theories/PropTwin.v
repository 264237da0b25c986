(** Property C97: a copy of an earlier column is never split on. *)
From Coq Require Import ZArith List Arith Lia Bool Sorting.
From Flocq Require Import IEEE754.BinarySingleNaN.
From Verif Require Import Prelude Float FloatX FloatI FloatLaws Data DataProofs OrdProofs Utils Binning BinningX PropBinning Histogram Node Splitter
  Tree TreeWf PathProofs PropTree Objective Metric Sampler Contrib Booster PredictProofs BoostProofs FitModel PropPredict
  Rescale RescaleFit PropTrain Twin PropUnused.
Import ListNotations.

(** the constraint of a column, none when the option is unset or does not list it *)
Definition constraint_of {FS : Floats} (p : Params) (f : nat) : option Constraint :=
  match p_monotone_constraints p with Some m => assoc f m | None => None end.

Section IEEE.
Variables (iexp iln iln1p : b64 -> b64).
Notation FI := (IF iexp iln iln1p).

Section Fit.
Variables (E : @Env FI) (bo bo' : @Booster FI) (data : Matrix b64) (y w : list b64) (es : option (list (@EvalData FI))).
Notation p := (gb_params bo).
Hypotheses (CL : @clean FI bo) (RO : @rng_ok FI E p).
Hypotheses (LD : length (m_data data) = m_rows data * m_cols data) (HX : m_index data = seq 0 (m_rows data))
  (LY : length y = m_rows data) (LW : length w = m_rows data).
Hypothesis HFIT : @fit FI E bo data y w es = Some (bo', None).
Variables (a b : nat).
Hypotheses (Hab : a < b) (HB : b < m_cols data).
Hypothesis HM : constraint_of p a = constraint_of p b.

Lemma constraints_eq : get_constraint (@splitter_of FI p) a = get_constraint (@splitter_of FI p) b.
Proof.
  unfold constraint_of in HM. unfold get_constraint, splitter_of. destruct (p_create_missing_branch p); cbn [params sp_constraints];
    destruct (p_monotone_constraints p); exact HM || reflexivity.
Qed.

(** Column b has the values of column a.  Each tree is offered a list of columns; if column a is among
    them no split is on column b. *)
Theorem C97_duplicate_column : (forall i, i < m_rows data -> m_get data i a = m_get data i b) ->
  forall t, In t (gb_trees bo') -> exists n cols n',
    @column_sample FI E p n (m_cols data) = (cols, n') /\
    (forall m, In m t -> n_is_leaf m = false -> In (n_split_feature m) cols) /\
    (In a cols -> forall m, In m t -> n_is_leaf m = false -> n_split_feature m <> b).
Proof.
  intros HE t Ht. apply In_nth_error in Ht. destruct Ht as [k Hk].
  apply (@fit_alike FI E bo bo' data y w es i32_ord_laws i32_sub_laws CL RO LD HX LY LW HFIT a b Hab HB constraints_eq) with (k := k); auto.
  intros bd HBM. exact (@equal_alike FI (e_sorts E) data w (p_nbins p) (p_missing p) bd a b LD (Nat.lt_trans _ _ _ Hab HB) HB HE HBM).
Qed.

(** Column b is an order preserving function of column a, missing where it is missing. *)
Theorem C97_increasing_copy : forall psi : b64 -> b64, @compares FI (e_sorts E) ->
  (forall i, i < m_rows data -> m_get data i b = option_map psi (m_get data i a)) ->
  (forall i u, i < m_rows data -> m_get data i a = Some u -> @is_missing FI (psi u) (p_missing p) = @is_missing FI u (p_missing p)) ->
  (forall i j u v, i < m_rows data -> j < m_rows data -> m_get data i a = Some u -> m_get data j a = Some v ->
     @is_missing FI u (p_missing p) = Some false -> @is_missing FI v (p_missing p) = Some false ->
     fle IOps64 (psi u) (psi v) = fle IOps64 u v) ->
  (forall i u, i < m_rows data -> m_get data i a = Some u -> @is_missing FI u (p_missing p) = Some false ->
     flt IOps64 u (fmax IOps64) = true /\ flt IOps64 (psi u) (fmax IOps64) = true) ->
  forall t, In t (gb_trees bo') -> exists n cols n',
    @column_sample FI E p n (m_cols data) = (cols, n') /\
    (forall m, In m t -> n_is_leaf m = false -> In (n_split_feature m) cols) /\
    (In a cols -> forall m, In m t -> n_is_leaf m = false -> n_split_feature m <> b).
Proof.
  intros psi CS HE R1 R2 R3 t Ht. apply In_nth_error in Ht. destruct Ht as [k Hk].
  apply (@fit_alike FI E bo bo' data y w es i32_ord_laws i32_sub_laws CL RO LD HX LY LW HFIT a b Hab HB constraints_eq) with (k := k); auto.
  intros bd HBM. apply (@increasing_alike FI i64_ord_laws (e_sorts E) data w (p_nbins p) (p_missing p) bd a b psi CS LD (Nat.lt_trans _ _ _ Hab HB) HB); auto.
  constructor.
  - intros _ v (i & Hi & Hv). exact (R1 i v Hi Hv).
  - intros _ u v (i & Hi & Hu) (j & Hj & Hv). exact (R2 i j u v Hi Hj Hu Hv).
  - intros _ v (i & Hi & Hv). exact (R3 i v Hi Hv).
Qed.

(** Without column sampling column b is not used at all, so that (C96) it does not influence predictions
    and has no importance. *)
Theorem C97_copy_is_ignored : feq IOps64 (p_colsample_bytree p) (fone IOps64) = true ->
  (forall i, i < m_rows data -> m_get data i a = m_get data i b) ->
  (forall t m, In t (gb_trees bo') -> In m t -> n_is_leaf m = false -> n_split_feature m <> b) /\
  (forall m norm imp, @calculate_feature_importance FI bo' m norm = Some imp -> ~ In b (map fst imp)) /\
  forall d d' : Matrix b64, m_rows d' = m_rows d -> m_index d = seq 0 (m_rows d) -> m_index d' = seq 0 (m_rows d') ->
    (forall i f, i < m_rows d -> f <> b -> m_get d i f = m_get d' i f) ->
    forall shs shs' par par', @predict FI shs bo' d par = @predict FI shs' bo' d' par'.
Proof.
  intros CS HE.
  assert (N : forall t m, In t (gb_trees bo') -> In m t -> n_is_leaf m = false -> n_split_feature m <> b).
  { intros t m Ht. destruct (C97_duplicate_column HE t Ht) as (n & cols & n' & SC & _ & K). apply K.
    unfold column_sample in SC. change (p_colsample_bytree p =? fone f64)%f64 with (feq IOps64 (p_colsample_bytree p) (fone IOps64)) in SC.
    rewrite CS in SC. injection SC as <- _. apply in_seq. lia. }
  split; [exact N|]. split; [intros m norm imp H; exact (@C96_importance FI bo' m norm imp b H N)|].
  intros d d' HR HI HI' HA. apply (@C96_predict FI bo' d d' HR HI HI'). intros i f Hi (ts & t & n & T & It & In' & L & F).
  apply HA; auto. intros ->. revert F. apply (N t n); auto.
  unfold prediction_trees, slice in T. destruct (_ && _)%bool; [|discriminate]. injection T as <-. rewrite Nat.sub_0_r in It. cbn [skipn] in It.
  rewrite <- (firstn_skipn (match gb_pred bo' with Some n => n | None => length (gb_trees bo') end) (gb_trees bo')). apply in_app_iff. auto.
Qed.
End Fit.
End IEEE.

(** *** Cases: the second column repeats the first; the second column is its double. *)
Definition ext_same : Matrix b64 := matrix_new (map z64 [1; 2; 3; 4; 5; 1; 2; 3; 4; 5]%Z) 5 2.
Definition ext_double : Matrix b64 := matrix_new (map z64 [1; 2; 3; 4; 5; 2; 4; 6; 8; 10]%Z) 5 2.
Notation ext_fit d := (@fit IE exb_env (exb_new None true) d exb_y ex_sw None).
Definition ext_out (d : Matrix b64) : @Booster IE := fst (get (exb_new None true, None) (ext_fit d)).
Lemma ext_fitted : forall d, is_some (ext_fit d) = true -> snd (get (exb_new None true, None) (ext_fit d)) = None -> ext_fit d = Some (ext_out d, None).
Proof.
  intros d H1 H2. unfold ext_out. destruct (ext_fit d) as [[b e]|]; [|discriminate]. cbn [get fst snd] in *. rewrite H2. reflexivity.
Qed.
Lemma ext_clean : @clean IE (exb_new None true). Proof. split; reflexivity. Qed.
Lemma ext_rng : @rng_ok IE exb_env (gb_params (exb_new None true)). Proof. left. vm_compute. reflexivity. Qed.

Example ext_duplicate :
  map (map (fun n => (n_is_leaf n, n_split_feature n))) (gb_trees (ext_out ext_same)) = repeat [(false, 0); (true, 0); (true, 0); (true, 0)] 4 /\
  forall t m, In t (gb_trees (ext_out ext_same)) -> In m t -> n_is_leaf m = false -> n_split_feature m <> 1.
Proof.
  split; [vm_compute; reflexivity|].
  refine (proj1 (C97_copy_is_ignored idf idf idf exb_env (exb_new None true) (ext_out ext_same) ext_same exb_y ex_sw None
    ext_clean ext_rng eq_refl eq_refl eq_refl eq_refl _ 0 1 _ _ eq_refl _ _)).
  - apply ext_fitted; [vm_compute; reflexivity|]. vm_compute. reflexivity.
  - lia.
  - change (1 < 2). lia.
  - vm_compute. reflexivity.
  - intros i Hi. change (m_rows ext_same) with 5 in Hi. do 5 (destruct i as [|i]; [reflexivity|]). lia.
Qed.

Example ext_increasing :
  map (map (fun n => (n_is_leaf n, n_split_feature n))) (gb_trees (ext_out ext_double)) = repeat [(false, 0); (true, 0); (true, 0); (true, 0)] 4 /\
  forall t, In t (gb_trees (ext_out ext_double)) -> exists n cols n',
    @column_sample IE exb_env (gb_params (exb_new None true)) n 2 = (cols, n') /\
    (forall m, In m t -> n_is_leaf m = false -> In (n_split_feature m) cols) /\
    (In 0 cols -> forall m, In m t -> n_is_leaf m = false -> n_split_feature m <> 1).
Proof.
  split; [vm_compute; reflexivity|].
  refine (C97_increasing_copy idf idf idf exb_env (exb_new None true) (ext_out ext_double) ext_double exb_y ex_sw None
    ext_clean ext_rng eq_refl eq_refl eq_refl eq_refl _ 0 1 _ _ eq_refl (fun v => fadd IOps64 v v) isorts_compare _ _ _ _).
  - apply ext_fitted; [vm_compute; reflexivity|]. vm_compute. reflexivity.
  - lia.
  - change (1 < 2). lia.
  - intros i Hi. change (m_rows ext_double) with 5 in Hi.
    assert (X : forall x y : b64, B2SF x = B2SF y -> Some x = Some y).
    { intros x y0 H1. f_equal. apply B2SF_inj. exact H1. }
    do 5 (destruct i as [|i]; [apply X; vm_compute; reflexivity|]). lia.
  - intros i u Hi Hu. change (m_rows ext_double) with 5 in Hi.
    do 5 (destruct i as [|i]; [injection Hu as <-; vm_compute; reflexivity|]). lia.
  - intros i j u v Hi Hj Hu Hv _ _. change (m_rows ext_double) with 5 in Hi, Hj.
    do 5 (destruct i as [|i]; [injection Hu as <-; do 5 (destruct j as [|j]; [injection Hv as <-; vm_compute; reflexivity|]); lia|]). lia.
  - intros i u Hi Hu _. change (m_rows ext_double) with 5 in Hi.
    do 5 (destruct i as [|i]; [injection Hu as <-; split; vm_compute; reflexivity|]). lia.
Qed.

Print Assumptions C97_duplicate_column.
Print Assumptions C97_increasing_copy.
Print Assumptions C97_copy_is_ignored.
