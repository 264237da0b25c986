(** The metrics in exact arithmetic. *)
From Coq Require Import Reals Lra Lia ZArith List Bool Arith Permutation Sorting Rtrigo_def Rpower.
From Flocq Require Import Core.Raux.
From Verif Require Import Prelude Float FloatX OrdProofs Utils Objective Metric.
Import ListNotations.
Local Open Scope R_scope.

(** *** Weighted means *)
Definition wmean (f : R * R * R -> R) (rows : list (R * R * R)) : R :=
  sumR (map (fun r => snd r * f r) rows) / sumR (map snd rows).

Definition ys (rows : list (R * R * R)) : list xr := map (fun r => Fin (fst (fst r))) rows.
Definition yhats (rows : list (R * R * R)) : list xr := map (fun r => Fin (snd (fst r))) rows.
Definition ws (rows : list (R * R * R)) : list xr := map (fun r => Fin (snd r)) rows.

Lemma zip3_rows : forall rows, zip3 (ys rows) (yhats rows) (ws rows) = map (fun r => (Fin (fst (fst r)), Fin (snd (fst r)), Fin (snd r))) rows.
Proof. unfold zip3, ys, yhats, ws. induction rows as [|r rows IH]; simpl; auto. f_equal. exact IH. Qed.

Lemma fsum_fin : forall A (f : A -> R) l, fsum XOps (map (fun x => Fin (f x)) l) = Fin (sumR (map f l)).
Proof.
  intros A f l. unfold fsum. simpl. rewrite <- (map_map f Fin). rewrite fold_xadd_fin. f_equal. unfold sumR. lra.
Qed.

Lemma fsum_ext : forall A (f g : A -> xr) l, (forall x, In x l -> f x = g x) -> fsum XOps (map f l) = fsum XOps (map g l).
Proof. intros A f g l H. f_equal. apply map_ext_in. auto. Qed.

Lemma weighted_mean_X : forall (row : xr -> xr -> xr -> xr) (f : R * R * R -> R) rows,
  (forall r, In r rows -> row (Fin (fst (fst r))) (Fin (snd (fst r))) (Fin (snd r)) = Fin (snd r * f r)) ->
  sumR (map snd rows) <> 0 ->
  @weighted_mean XF row (ys rows) (yhats rows) (ws rows) = Fin (wmean f rows).
Proof.
  intros row f rows H NZ. unfold weighted_mean.
  pose proof (zip3_rows rows) as Z. unfold zip3 in *. simpl in *. rewrite Z. rewrite !map_map. simpl.
  rewrite (fsum_ext _ _ (fun r => Fin (snd r * f r)) rows) by (intros; apply H; auto).
  rewrite !fsum_fin. apply xdiv_fin. auto.
Qed.

Lemma sum_weights_pos : forall rows, (forall r, In r rows -> 0 <= snd r) -> (exists r, In r rows /\ 0 < snd r) ->
  0 < sumR (map (snd : R * R * R -> R) rows).
Proof.
  induction rows as [|x rows IH]; intros H (r & HI & HP); simpl in *; [tauto|].
  assert (0 <= snd x) by auto.
  assert (0 <= sumR (map (snd : R * R * R -> R) rows)).
  { apply sumR_nonneg. intros y Hy. apply in_map_iff in Hy. destruct Hy as (z & <- & Hz). auto. }
  destruct HI as [->|HI]; [lra|].
  assert (0 < sumR (map (snd : R * R * R -> R) rows)) by (apply IH; eauto). lra.
Qed.

Section Mean.
Variable f : R * R * R -> R.
Variable rows : list (R * R * R).
Hypothesis W : forall r, In r rows -> 0 <= snd r.
Hypothesis Hf : forall r, In r rows -> 0 <= f r.
Hypothesis POS : 0 < sumR (map snd rows).

Lemma wmean_nonneg : 0 <= wmean f rows.
Proof.
  unfold wmean. apply Rmult_le_pos.
  - apply sumR_nonneg. intros x Hx. apply in_map_iff in Hx. destruct Hx as (r & <- & Hr). apply Rmult_le_pos; auto.
  - left. apply Rinv_0_lt_compat. auto.
Qed.

Lemma sum_zero_all : forall (l : list R), (forall x, In x l -> 0 <= x) -> sumR l = 0 -> forall x, In x l -> x = 0.
Proof.
  induction l as [|a l IH]; simpl; intros H E x HI; [tauto|].
  assert (0 <= a) by auto. assert (0 <= sumR l) by (apply sumR_nonneg; auto).
  destruct HI as [->|HI]; [lra|]. apply IH; auto. lra.
Qed.

Lemma wmean_zero : wmean f rows = 0 <-> forall r, In r rows -> 0 < snd r -> f r = 0.
Proof.
  split.
  - intros E r HI HP. unfold wmean in E.
    assert (S0 : sumR (map (fun r => snd r * f r) rows) = 0).
    { apply Rmult_eq_reg_r with (/ sumR (map snd rows)).
      - unfold Rdiv in E. rewrite E. ring.
      - apply Rinv_neq_0_compat. lra. }
    assert (X : snd r * f r = 0).
    { eapply sum_zero_all; [|exact S0|].
      - intros x Hx. apply in_map_iff in Hx. destruct Hx as (z & <- & Hz). apply Rmult_le_pos; auto.
      - apply in_map_iff. eauto. }
    apply Rmult_integral in X. destruct X; lra.
  - intros H. unfold wmean.
    rewrite (sumR_map_ext _ _ (fun _ => 0)).
    + rewrite sumR_zero. unfold Rdiv. ring.
    + intros r HI. destruct (Req_dec (snd r) 0) as [->|]; [ring|].
      rewrite H; auto; [ring|]. specialize (W r HI). lra.
Qed.
End Mean.

Lemma wmean_perm : forall f r1 r2, Permutation r1 r2 -> wmean f r1 = wmean f r2.
Proof.
  intros f r1 r2 P. unfold wmean.
  rewrite (sumR_perm (map (fun r => snd r * f r) r1) (map (fun r => snd r * f r) r2)) by (apply Permutation_map; auto).
  rewrite (sumR_perm (map snd r1) (map snd r2)) by (apply Permutation_map; auto). reflexivity.
Qed.

(** rescale all weights *)
Definition scale (c : R) (rows : list (R * R * R)) := map (fun r => (fst r, c * snd r)) rows.
Lemma wmean_scale : forall f c rows, c <> 0 -> (forall y yh w, f (y, yh, c * w) = f (y, yh, w)) ->
  sumR (map snd rows) <> 0 -> wmean f (scale c rows) = wmean f rows.
Proof.
  intros f c rows C I NZ. unfold wmean, scale. rewrite !map_map. simpl.
  rewrite (sumR_map_ext _ _ (fun r => c * (snd r * f r))) by (intros [[y yh] w] _; simpl; rewrite I; ring).
  rewrite !sumR_map_scal. field. auto.
Qed.

(** the logistic function *)
Definition sig (x : R) : R := / (1 + exp (- x)).
Lemma sig_den : forall x, 0 < 1 + exp (- x).
Proof. intros x. pose proof (exp_pos (- x)). lra. Qed.
Lemma sig_range : forall x, 0 < sig x < 1.
Proof.
  intros x. unfold sig. pose proof (exp_pos (- x)). split.
  - apply Rinv_0_lt_compat. lra.
  - rewrite <- Rinv_1. apply Rinv_lt_contravar; lra.
Qed.
Lemma sigmoid_X : forall x, @sigmoid XF (Fin x) = Fin (sig x).
Proof.
  intros x. unfold sigmoid. simpl. pose proof (sig_den x). rcase; [lra|]. unfold sig. f_equal. unfold Rdiv. ring.
Qed.
Lemma odds_X : forall x, @odds XF (Fin x) = Fin (sig x).
Proof. exact sigmoid_X. Qed.

Lemma xln_pos : forall a, 0 < a -> xln (Fin a) = Fin (ln a).
Proof. intros a H. simpl. rcase; auto; lra. Qed.

(** row losses *)
Definition ll (r : R * R * R) : R := let '(y, x, _) := r in - (y * ln (sig x) + (1 - y) * ln (1 - sig x)).
Lemma logloss_row_X : forall y x w, @logloss_row XF (Fin y) (Fin x) (Fin w) = Fin (w * ll (y, x, w)).
Proof.
  intros y x w. unfold logloss_row.
  rewrite sigmoid_X. cbn [f64 fln fone XF XOps fsub]. change (xsub (Fin 1) (Fin (sig x))) with (Fin (1 - sig x)).
  pose proof (sig_range x). rewrite !xln_pos by lra. simpl. f_equal. ring.
Qed.
Lemma ln_nonpos : forall a, 0 < a <= 1 -> ln a <= 0.
Proof. intros a [H [H1| ->]]; [left; rewrite <- ln_1; apply ln_increasing; auto|rewrite ln_1; lra]. Qed.
Lemma ll_nonneg : forall y x w, 0 <= y <= 1 -> 0 <= ll (y, x, w).
Proof.
  intros y x w Hy. unfold ll. pose proof (sig_range x).
  assert (ln (sig x) <= 0) by (apply ln_nonpos; lra). assert (ln (1 - sig x) <= 0) by (apply ln_nonpos; lra).
  assert (y * ln (sig x) <= 0) by nra. assert ((1 - y) * ln (1 - sig x) <= 0) by nra. lra.
Qed.

Definition se (r : R * R * R) : R := let '(y, x, _) := r in (y - x) * (y - x).
Lemma rmse_row_X : forall y x w, @rmse_row XF (Fin y) (Fin x) (Fin w) = Fin (w * se (y, x, w)).
Proof. intros. unfold rmse_row, square. simpl. f_equal. ring. Qed.

Definition sle (r : R * R * R) : R := let '(y, x, _) := r in (ln (1 + y) - ln (1 + x)) * (ln (1 + y) - ln (1 + x)).
Lemma rmsle_row_X : forall y x w, -1 < y -> -1 < x -> @rmsle_row XF (Fin y) (Fin x) (Fin w) = Fin (w * sle (y, x, w)).
Proof.
  intros y x w Hy Hx. unfold rmsle_row, square. cbn [f64 fln1p XF XOps fsub fmul]. unfold xln1p. simpl xadd.
  rewrite !xln_pos by lra. simpl. f_equal. ring.
Qed.

Lemma xsqrt_fin : forall a, 0 <= a -> xsqrt (Fin a) = Fin (sqrt a).
Proof. intros a H. simpl. rcase; auto; lra. Qed.

(** *** The three metrics in closed form *)
Section Metrics.
Variable rows : list (R * R * R).
Hypothesis W : forall r, In r rows -> 0 <= snd r.
Hypothesis POS : exists r, In r rows /\ 0 < snd r.
Lemma total_pos : 0 < sumR (map (snd : R * R * R -> R) rows).
Proof. apply sum_weights_pos; auto. Qed.

Theorem log_loss_X : @log_loss XF (ys rows) (yhats rows) (ws rows) = Fin (wmean ll rows).
Proof. unfold log_loss. pose proof total_pos. apply weighted_mean_X; [|lra]. intros [[y x] w] _. apply logloss_row_X. Qed.

Theorem rmse_X : @root_mean_squared_error XF (ys rows) (yhats rows) (ws rows) = Fin (sqrt (wmean se rows)).
Proof.
  unfold root_mean_squared_error. pose proof total_pos.
  rewrite (weighted_mean_X _ se); [|intros [[y x] w] _; apply rmse_row_X|lra].
  apply xsqrt_fin. apply wmean_nonneg; auto. intros [[y x] w] _. unfold se. apply Rle_0_sqr.
Qed.

Theorem rmsle_X : (forall r, In r rows -> -1 < fst (fst r) /\ -1 < snd (fst r)) ->
  @root_mean_squared_log_error XF (ys rows) (yhats rows) (ws rows) = Fin (sqrt (wmean sle rows)).
Proof.
  intros D. unfold root_mean_squared_log_error. pose proof total_pos.
  rewrite (weighted_mean_X _ sle); [|intros [[y x] w] HI; destruct (D _ HI); apply rmsle_row_X; auto|lra].
  apply xsqrt_fin. apply wmean_nonneg; auto. intros [[y x] w] _. unfold sle. apply Rle_0_sqr.
Qed.
End Metrics.

(** *** AUC *)

(** Pairs are counted with the weights [p i] (positive part) and [q j] (negative part): one when i
    scores higher, one half on ties. *)
Definition kern (si sj : xr) : R := if xlt sj si then 1 else if xeq si sj then 1 / 2 else 0.

Section AUC.
Variables (p q : nat -> R) (s : nat -> xr).
Definition cross (A B : list nat) : R := sumR (map (fun i => sumR (map (fun j => p i * q j * kern (s i) (s j)) B)) A).
Definition tot (f : nat -> R) (A : list nat) : R := sumR (map f A).

Lemma cross_app_r : forall A B C, cross A (B ++ C) = cross A B + cross A C.
Proof.
  intros A B C. unfold cross. rewrite <- sumR_map_plus. apply sumR_map_ext. intros i _.
  rewrite map_app, sumR_app. reflexivity.
Qed.
Lemma cross_app_l : forall A B C, cross (A ++ B) C = cross A C + cross B C.
Proof. intros A B C. unfold cross. rewrite map_app, sumR_app. reflexivity. Qed.
Lemma cross_self_app : forall A B, cross (A ++ B) (A ++ B) = cross A A + cross B B + cross A B + cross B A.
Proof. intros. rewrite cross_app_l, !cross_app_r. lra. Qed.

Lemma cross_const : forall c A B, (forall i j, In i A -> In j B -> kern (s i) (s j) = c) ->
  cross A B = c * tot p A * tot q B.
Proof.
  intros c A B H. unfold cross, tot.
  rewrite (sumR_map_ext _ _ (fun i => (c * sumR (map q B)) * p i)).
  - rewrite sumR_map_scal. ring.
  - intros i Hi. rewrite (sumR_map_ext _ _ (fun j => (c * p i) * q j)).
    + rewrite sumR_map_scal. ring.
    + intros j Hj. rewrite H by auto. ring.
Qed.

Lemma tot_app : forall f A B, tot f (A ++ B) = tot f A + tot f B.
Proof. intros. unfold tot. rewrite map_app, sumR_app. reflexivity. Qed.
Lemma tot_perm : forall f A B, Permutation A B -> tot f A = tot f B.
Proof. intros. unfold tot. apply sumR_perm. apply Permutation_map. auto. Qed.

Lemma cross_perm : forall A B A' B', Permutation A A' -> Permutation B B' -> cross A B = cross A' B'.
Proof.
  intros A B A' B' PA PB. unfold cross.
  transitivity (sumR (map (fun i => sumR (map (fun j => p i * q j * kern (s i) (s j)) B)) A')).
  - apply sumR_perm. apply Permutation_map. auto.
  - apply sumR_map_ext. intros i _. apply sumR_perm. apply Permutation_map. auto.
Qed.

Lemma kern_le : forall a b, 0 <= kern a b <= 1.
Proof. intros. unfold kern. destruct (xlt b a); [lra|]. destruct (xeq a b); lra. Qed.

Lemma sumR_le : forall A (f g : A -> R) l, (forall x, In x l -> f x <= g x) -> sumR (map f l) <= sumR (map g l).
Proof. induction l as [|a l IH]; simpl; intros H; [lra|]. assert (f a <= g a) by auto. assert (sumR (map f l) <= sumR (map g l)) by auto. lra. Qed.

Lemma cross_bounds : forall A B, (forall i, In i A -> 0 <= p i) -> (forall j, In j B -> 0 <= q j) ->
  0 <= cross A B <= tot p A * tot q B.
Proof.
  intros A B HA HB. split.
  - apply sumR_nonneg. intros x Hx. apply in_map_iff in Hx. destruct Hx as (i & <- & Hi).
    apply sumR_nonneg. intros x Hx. apply in_map_iff in Hx. destruct Hx as (j & <- & Hj).
    pose proof (kern_le (s i) (s j)). specialize (HA i Hi). specialize (HB j Hj).
    assert (0 <= p i * q j) by (apply Rmult_le_pos; auto). nra.
  - replace (tot p A * tot q B) with (sumR (map (fun i => sumR (map (fun j => p i * q j) B)) A)).
    + apply sumR_le. intros i Hi. apply sumR_le. intros j Hj.
      pose proof (kern_le (s i) (s j)). specialize (HA i Hi). specialize (HB j Hj).
      assert (0 <= p i * q j) by (apply Rmult_le_pos; auto). nra.
    + rewrite (sumR_map_ext _ _ (fun i => sumR (map q B) * p i)).
      * rewrite sumR_map_scal. unfold tot. ring.
      * intros i _. rewrite sumR_map_scal. ring.
Qed.
End AUC.

Section Roc.
(** labels, scores and weights of the rows *)
Variables (rows : list (R * xr * R)).
Definition lab (r : R * xr * R) := fst (fst r).
Definition sc (r : R * xr * R) := snd (fst r).
Definition d0 : R * xr * R := (0, Fin 0, 0).
Definition at_row (i : nat) := nth i rows d0.
Definition pw (i : nat) : R := lab (at_row i) * snd (at_row i).
Definition qw (i : nat) : R := (1 - lab (at_row i)) * snd (at_row i).
Definition sw (i : nat) : xr := sc (at_row i).
Hypothesis NN : forall r, In r rows -> 0 <= lab r <= 1 /\ 0 <= snd r /\ xisnan (sc r) = false.

Definition ylist := map (fun r => Fin (lab r)) rows.
Definition slist := map sc rows.
Definition wlist := map (fun r => Fin (snd r)) rows.

Lemma nth_row : forall B (f : R * xr * R -> B) i, (i < length rows)%nat -> nth_error (map f rows) i = Some (f (at_row i)).
Proof. intros B f i H. rewrite nth_error_map. unfold at_row. rewrite (nth_error_nth' rows d0) by auto. reflexivity. Qed.

Lemma at_in : forall i, (i < length rows)%nat -> In (at_row i) rows.
Proof. intros. apply nth_In. auto. Qed.
Lemma pw_nonneg : forall i, (i < length rows)%nat -> 0 <= pw i.
Proof. intros i H. destruct (NN _ (at_in i H)) as (A & B & _). unfold pw. apply Rmult_le_pos; lra. Qed.
Lemma qw_nonneg : forall i, (i < length rows)%nat -> 0 <= qw i.
Proof. intros i H. destruct (NN _ (at_in i H)) as (A & B & _). unfold qw. apply Rmult_le_pos; lra. Qed.

Lemma trapezoid_X : forall a b c d, a <= b -> @trapezoid_area XF (Fin a) (Fin b) (Fin c) (Fin d) = Fin ((b - a) * (c + d) / 2).
Proof.
  intros a b c d H. unfold trapezoid_area, lit_ratio. simpl. rcase; [lra|]. simpl. f_equal.
  replace (a + - b) with (- (b - a)) by ring. rewrite Rabs_Ropp, Rabs_pos_eq by lra. field.
Qed.

Lemma xtotal_not_gt : forall a b, xisnan a = false -> xisnan b = false -> xtotal b a <> Gt -> xeq b a = false -> xlt b a = true.
Proof.
  intros [] []; simpl; intros H1 H2 H3 H4; try discriminate; auto; try congruence.
  repeat rcase; auto; try discriminate; try congruence; try lra.
Qed.
Lemma xeq_sym : forall a b, xeq a b = xeq b a.
Proof. intros [] []; simpl; auto. repeat rcase; auto; lra. Qed.
Lemma xeq_eq : forall a b, xeq a b = true -> a = b.
Proof. intros [] []; simpl; intros H; try discriminate; auto. rcase; [subst; auto|discriminate]. Qed.
Lemma xlt_asym : forall a b, xlt a b = true -> xlt b a = false.
Proof. intros [] []; simpl; intros H; try discriminate; auto. repeat rcase; auto; try discriminate; lra. Qed.
Lemma xlt_irrefl : forall a, xlt a a = false.
Proof. intros []; simpl; auto. rcase; auto; lra. Qed.
Lemma xlt_neq : forall a b, xlt a b = true -> xeq b a = false.
Proof. intros [] []; simpl; intros H; try discriminate; auto. repeat rcase; auto; try discriminate; lra. Qed.
Lemma xeq_refl : forall a, xisnan a = false -> xeq a a = true.
Proof. intros []; simpl; intros; try discriminate; auto. rcase; auto. Qed.
Lemma xlt_trans : forall a b c, xlt a b = true -> xlt b c = true -> xlt a c = true.
Proof. intros [] [] []; simpl; intros H1 H2; try discriminate; auto. repeat rcase; auto; try discriminate; lra. Qed.

Definition U (A : list nat) := cross pw qw sw A A.

Lemma U_group : forall O G g, (forall i, In i O -> xlt g (sw i) = true) -> (forall i, In i G -> sw i = g) -> xisnan g = false ->
  U (O ++ G) = U O + tot qw G * (tot pw O + tot pw O + tot pw G) / 2.
Proof.
  intros O G g HO HG HN. unfold U. rewrite cross_self_app.
  rewrite (cross_const _ _ _ (1 / 2) G G).
  - rewrite (cross_const _ _ _ 1 O G).
    + rewrite (cross_const _ _ _ 0 G O).
      * lra.
      * intros i j Hi Hj. unfold kern. rewrite (HG i Hi). rewrite (xlt_asym _ _ (HO j Hj)).
        rewrite xeq_sym. rewrite (xlt_neq g (sw j)); auto.
    + intros i j Hi Hj. unfold kern. rewrite (HG j Hj), (HO i Hi). reflexivity.
  - intros i j Hi Hj. unfold kern. rewrite (HG i Hi), (HG j Hj), xlt_irrefl, xeq_refl; auto.
Qed.

(** The loop, after the strictly better scores [O] and the tied rows [G] of score [g]. *)
Lemma auc_loop_X : forall idx O G g,
  xisnan g = false ->
  (forall i, In i idx -> (i < length rows)%nat) -> (forall i, In i (O ++ G) -> (i < length rows)%nat) ->
  (forall i, In i O -> xlt g (sw i) = true) -> (forall i, In i G -> sw i = g) ->
  (forall i, In i idx -> xeq (sw i) g = true \/ xlt (sw i) g = true) ->
  StronglySorted (fun a b => xtotal (sw b) (sw a) <> Gt) idx ->
  exists O' G' g', Permutation (O' ++ G') (O ++ G ++ idx) /\
    (forall i, In i O' -> xlt g' (sw i) = true) /\ (forall i, In i G' -> sw i = g') /\ xisnan g' = false /\
    @auc_loop XF ylist slist wlist idx g (Fin (U O)) (Fin (tot qw (O ++ G))) (Fin (tot pw (O ++ G)))
      (Fin (tot qw O)) (Fin (tot pw O))
    = Some (Fin (U O'), Fin (tot qw (O' ++ G')), Fin (tot pw (O' ++ G')), Fin (tot qw O'), Fin (tot pw O')).
Proof.
  induction idx as [|i idx IH]; intros O G g NG HB HB' HO HG HS SS.
  - exists O, G, g. rewrite app_nil_r. repeat split; auto.
  - cbn [auc_loop].
    assert (Bi : (i < length rows)%nat) by (apply HB; left; auto).
    assert (Ni : xisnan (sw i) = false) by (destruct (NN _ (at_in i Bi)) as (_ & _ & X); exact X).
    inversion SS as [|? ? SS' SF]; subst. rewrite Forall_forall in SF.
    assert (E1 : nth_error slist i = Some (sw i)) by (unfold slist; rewrite nth_row by auto; reflexivity).
    assert (E2 : nth_error ylist i = Some (Fin (lab (at_row i)))) by (unfold ylist; rewrite nth_row by auto; reflexivity).
    assert (E3 : nth_error wlist i = Some (Fin (snd (at_row i)))) by (unfold wlist; rewrite nth_row by auto; reflexivity).
    cbn [f64 XF fcar XOps] in *. rewrite E1. cbn [bind]. rewrite E2. cbn [bind]. rewrite E3. cbn [bind].
    assert (NIDX : forall j, In j idx -> xisnan (sw j) = false).
    { intros j Hj. assert (Bj : (j < length rows)%nat) by (apply HB; right; auto).
      destruct (NN _ (at_in j Bj)) as (_ & _ & X). exact X. }
    destruct (xeq (sw i) g) eqn:EQ; simpl feq; rewrite EQ; simpl negb; cbv iota beta.
    + (* same score: the group grows *)
      destruct (IH O (G ++ [i]) g) as (O' & G' & g' & PP & A & B & C & D); auto.
      * intros j Hj. apply HB. right; auto.
      * intros j Hj. rewrite app_assoc in Hj. apply in_app_iff in Hj. destruct Hj as [Hj|[<-|[]]]; auto.
      * intros j Hj. apply in_app_iff in Hj. destruct Hj as [Hj|[<-|[]]]; auto. apply xeq_eq; auto.
      * intros j Hj. apply HS. right; auto.
      * exists O', G', g'. split; [|split; [|split; [|split]]]; auto.
        -- rewrite PP. rewrite <- app_assoc. reflexivity.
        -- rewrite <- D. rewrite (xeq_eq _ _ EQ).
           f_equal; simpl; f_equal; rewrite app_assoc, (tot_app _ (O ++ G)); unfold tot; simpl; unfold qw, pw; lra.
    + (* a lower score: close the group *)
      destruct (HS i (or_introl eq_refl)) as [X|LT]; [congruence|].
      assert (QG : 0 <= tot qw G).
      { apply sumR_nonneg. intros x Hx. apply in_map_iff in Hx. destruct Hx as (j & <- & Hj).
        apply qw_nonneg. apply HB'. apply in_app_iff; auto. }
      destruct (IH (O ++ G) [i] (sw i)) as (O' & G' & g' & PP & A & B & C & D); auto.
      * intros j Hj. apply HB. right; auto.
      * intros j Hj. apply in_app_iff in Hj. destruct Hj as [Hj|[<-|[]]]; auto.
      * intros j Hj. apply in_app_iff in Hj. destruct Hj as [Hj|Hj].
        -- eapply xlt_trans; eauto.
        -- rewrite (HG j Hj). auto.
      * intros j [<-|[]]; auto.
      * intros j Hj. destruct (xeq (sw j) (sw i)) eqn:EQ'; auto. right.
        apply xtotal_not_gt; auto.
      * exists O', G', g'. split; [|split; [|split; [|split]]]; auto.
        -- rewrite PP. rewrite <- app_assoc. reflexivity.
        -- rewrite <- D. clear D IH.
           assert (TR : @trapezoid_area XF (Fin (tot qw O)) (Fin (tot qw (O ++ G))) (Fin (tot pw O)) (Fin (tot pw (O ++ G)))
                        = Fin (tot qw G * (tot pw O + tot pw O + tot pw G) / 2)).
           { rewrite trapezoid_X; [|rewrite tot_app; lra]. f_equal. rewrite !tot_app. lra. }
           cbn [f64 XF fcar XOps] in TR. rewrite TR.
           rewrite (U_group O G g HO HG NG).
           f_equal; simpl; f_equal; rewrite (tot_app _ (O ++ G)); unfold tot; simpl; unfold qw, pw; lra.
Qed.

(** total positive and negative weight, and the pair count, over the rows *)
Definition PP := sumR (map (fun r => lab r * snd r) rows).
Definition QQ := sumR (map (fun r => (1 - lab r) * snd r) rows).
Definition UU := sumR (map (fun r => sumR (map (fun r' => (lab r * snd r) * ((1 - lab r') * snd r') * kern (sc r) (sc r')) rows)) rows).

Lemma map_nth_seq : forall (l : list (R * xr * R)), map (fun i => nth i l d0) (seq 0 (length l)) = l.
Proof.
  induction l as [|a l IH]; auto. simpl. f_equal. rewrite <- seq_shift, map_map. exact IH.
Qed.
Lemma map_at : forall B (f : R * xr * R -> B), map (fun i => f (at_row i)) (seq 0 (length rows)) = map f rows.
Proof. intros. rewrite <- (map_map at_row f). unfold at_row. rewrite map_nth_seq. reflexivity. Qed.

Lemma tot_pw : tot pw (seq 0 (length rows)) = PP.
Proof. unfold tot, PP, pw. rewrite (map_at _ (fun r => lab r * snd r)). reflexivity. Qed.
Lemma tot_qw : tot qw (seq 0 (length rows)) = QQ.
Proof. unfold tot, QQ, qw. rewrite (map_at _ (fun r => (1 - lab r) * snd r)). reflexivity. Qed.
Lemma U_all : U (seq 0 (length rows)) = UU.
Proof.
  unfold U, cross, UU. rewrite <- (map_at _ (fun r => sumR (map (fun r' => lab r * snd r * ((1 - lab r') * snd r') * kern (sc r) (sc r')) rows))).
  apply sumR_map_ext. intros i _.
  rewrite <- (map_at _ (fun r' => lab (at_row i) * snd (at_row i) * ((1 - lab r') * snd r') * kern (sc (at_row i)) (sc r'))).
  reflexivity.
Qed.

Theorem roc_auc_X : forall S, @SortDescSpec XF S -> rows <> [] ->
  @roc_auc_score XF S ylist slist wlist
  = Some (if Rlt_bool 0 PP && Rlt_bool 0 QQ then Fin (UU / (PP * QQ)) else XNaN).
Proof.
  intros S SS NE. unfold roc_auc_score.
  assert (L1 : length ylist = length rows) by apply map_length.
  assert (L2 : length slist = length rows) by apply map_length.
  cbn [f64 XF fcar XOps] in *.
  rewrite L1, L2, Nat.leb_refl. rewrite <- L2, firstn_all.
  destruct (SS slist) as [SP ST]. cbn [f64 XF fcar XOps] in SP, ST. rewrite L2 in SP.
  destruct (S slist) as [|i0 rest] eqn:ES.
  { apply Permutation_length in SP. rewrite seq_length in SP. destruct rows; [congruence|discriminate]. }
  assert (HB : forall i, In i (i0 :: rest) -> (i < length rows)%nat).
  { intros i Hi. eapply Permutation_in in Hi; [|exact SP]. apply in_seq in Hi. lia. }
  assert (B0 : (i0 < length rows)%nat) by (apply HB; left; auto).
  assert (ST' : StronglySorted (fun a b => xtotal (sw b) (sw a) <> Gt) (i0 :: rest)).
  { clear - ST HB. revert HB. induction ST as [|a l ST IH F]; intros HB; constructor.
    - apply IH. intros i Hi. apply HB. right; auto.
    - rewrite Forall_forall in *. intros b Hb. apply (F b Hb).
      + unfold slist. rewrite nth_row; [reflexivity|apply HB; left; auto].
      + unfold slist. rewrite nth_row; [reflexivity|apply HB; right; auto]. }
  assert (E1 : nth_error slist i0 = Some (sw i0)) by (unfold slist; rewrite nth_row by auto; reflexivity).
  assert (E2 : nth_error ylist i0 = Some (Fin (lab (at_row i0)))) by (unfold ylist; rewrite nth_row by auto; reflexivity).
  assert (E3 : nth_error wlist i0 = Some (Fin (snd (at_row i0)))) by (unfold wlist; rewrite nth_row by auto; reflexivity).
  cbn [f64 XF fcar XOps] in *. rewrite E1, E2, E3. cbn [bind].
  assert (NAN : forall i, In i (i0 :: rest) -> xisnan (sw i) = false).
  { intros i Hi. destruct (NN _ (at_in i (HB i Hi))) as (_ & _ & X). exact X. }
  inversion ST' as [|? ? ST2 SF]; subst. rewrite Forall_forall in SF.
  destruct (auc_loop_X rest [] [i0] (sw i0)) as (O & G & g & PERM & HO & HG & NG & EL).
  - apply NAN; left; auto.
  - intros i Hi. apply HB. right; auto.
  - intros i [<-|[]]; auto.
  - intros i [].
  - intros i [<-|[]]; auto.
  - intros i Hi. destruct (xeq (sw i) (sw i0)) eqn:EQ; auto. right.
    apply xtotal_not_gt; auto; apply NAN; [left|right]; auto.
  - auto.
  - match goal with |- context [@auc_loop XF ylist slist wlist rest (sw i0) ?au ?fp ?tp ?f0 ?t0] =>
      replace (@auc_loop XF ylist slist wlist rest (sw i0) au fp tp f0 t0) with
        (Some (Fin (U O), Fin (tot qw (O ++ G)), Fin (tot pw (O ++ G)), Fin (tot qw O), Fin (tot pw O)))
    end; [|symmetry; refine (eq_trans _ EL); f_equal; simpl; f_equal; unfold tot, qw, pw; simpl; lra].
    cbn [bind].
    assert (QG : 0 <= tot qw G).
    { apply sumR_nonneg. intros x Hx. apply in_map_iff in Hx. destruct Hx as (j & <- & Hj).
      apply qw_nonneg. apply HB. eapply Permutation_in; [|apply in_app_iff; right; exact Hj]. exact PERM. }
    assert (TR : @trapezoid_area XF (Fin (tot qw O)) (Fin (tot qw (O ++ G))) (Fin (tot pw O)) (Fin (tot pw (O ++ G)))
                 = Fin (tot qw G * (tot pw O + tot pw O + tot pw G) / 2)).
    { rewrite trapezoid_X; [|rewrite tot_app; lra]. f_equal. rewrite !tot_app. lra. }
    cbn [f64 XF fcar XOps] in TR. rewrite TR. simpl fadd.
    rewrite <- (U_group O G g HO HG NG).
    assert (PA : Permutation (O ++ G) (seq 0 (length rows))).
    { rewrite PERM. simpl. exact SP. }
    replace (U (O ++ G)) with UU by (rewrite <- U_all; unfold U; apply cross_perm; symmetry; auto).
    rewrite (tot_perm pw _ _ PA), (tot_perm qw _ _ PA), tot_pw, tot_qw.
    simpl. repeat rcase; simpl; try lra; repeat rcase; try lra; try reflexivity.
    + exfalso. assert (0 < PP * QQ) by (apply Rmult_lt_0_compat; auto). lra.
    + unfold xsgn. repeat rcase; auto; lra.
    + unfold xsgn. repeat rcase; auto; lra.
    + unfold xsgn. repeat rcase; auto; lra.
Qed.

Theorem auc_range : 0 < PP -> 0 < QQ -> 0 <= UU / (PP * QQ) <= 1.
Proof.
  intros HP HQ. assert (0 < PP * QQ) by (apply Rmult_lt_0_compat; auto).
  assert (B : 0 <= UU <= PP * QQ).
  { rewrite <- U_all, <- tot_pw, <- tot_qw. apply cross_bounds.
    - intros i Hi. apply in_seq in Hi. apply pw_nonneg. lia.
    - intros i Hi. apply in_seq in Hi. apply qw_nonneg. lia. }
  split.
  - apply Rmult_le_pos; [lra|]. left. apply Rinv_0_lt_compat. auto.
  - apply Rmult_le_reg_r with (PP * QQ); auto. unfold Rdiv. rewrite Rmult_assoc, Rinv_l by lra. lra.
Qed.
End Roc.

Lemma UU_perm : forall r1 r2, Permutation r1 r2 -> UU r1 = UU r2.
Proof.
  intros r1 r2 P. unfold UU.
  transitivity (sumR (map (fun r => sumR (map (fun r' => lab r * snd r * ((1 - lab r') * snd r') * kern (sc r) (sc r')) r1)) r2)).
  - apply sumR_perm. apply Permutation_map. auto.
  - apply sumR_map_ext. intros i _. apply sumR_perm. apply Permutation_map. auto.
Qed.
Lemma PP_perm : forall r1 r2, Permutation r1 r2 -> PP r1 = PP r2.
Proof. intros r1 r2 P. unfold PP. apply sumR_perm, Permutation_map. auto. Qed.
Lemma QQ_perm : forall r1 r2, Permutation r1 r2 -> QQ r1 = QQ r2.
Proof. intros r1 r2 P. unfold QQ. apply sumR_perm, Permutation_map. auto. Qed.
