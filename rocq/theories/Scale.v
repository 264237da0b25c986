(** Two runs whose gradients are related by a change of unit or of sign grow related trees.  [G] relates
    gradients, weights and bounds, [Q] relates gains, hessians are equal; [neg] says that [G] reverses the order. *)
From Coq Require Import List Arith Lia Bool.
From Verif Require Import Prelude Float Data DataProofs Utils Histogram Node Splitter Tree.
Import ListNotations.

(** *** Optional results: both runs panic or both return related values. *)
Definition orel {A B} (R : A -> B -> Prop) (o : option A) (o' : option B) : Prop :=
  match o, o' with Some a, Some b => R a b | None, None => True | _, _ => False end.
Lemma orel_bind : forall A B C D (R : A -> B -> Prop) (S : C -> D -> Prop) o o' k k',
  orel R o o' -> (forall a b, R a b -> orel S (k a) (k' b)) -> orel S (bind o k) (bind o' k').
Proof. intros A B C D R S [a|] [b|] k k' H K; simpl in *; auto; tauto. Qed.
Lemma orel_eq : forall A (o o' : option A), o' = o -> orel eq o o'.
Proof. intros A [a|] o' ->; simpl; auto. Qed.
Lemma orel_impl : forall A B (R S : A -> B -> Prop) o o', orel R o o' -> (forall a b, R a b -> S a b) -> orel S o o'.
Proof. intros A B R S [a|] [b|] H K; simpl in *; auto. Qed.
Lemma orel_mapM : forall A B C D (R : A -> B -> Prop) (S : C -> D -> Prop) f g l l',
  Forall2 R l l' -> (forall a b, R a b -> orel S (f a) (g b)) -> orel (Forall2 S) (mapM f l) (mapM g l').
Proof.
  intros A B C D R S f g l l' F K. induction F as [|a b l l' H F IH]; simpl; auto.
  eapply orel_bind; [apply K; auto|]. intros c d CD. eapply orel_bind; [exact IH|]. intros cs ds E. simpl. auto.
Qed.
Lemma orel_mapM_same : forall A C D (S : C -> D -> Prop) f g (l : list A),
  (forall a, orel S (f a) (g a)) -> orel (Forall2 S) (mapM f l) (mapM g l).
Proof. intros A C D S f g l K. apply (orel_mapM _ _ _ _ eq); [induction l; auto|]. intros a b ->. auto. Qed.
Lemma orel_foldM : forall A B S T (R : A -> B -> Prop) (Q : S -> T -> Prop) f g l l',
  Forall2 R l l' -> (forall s t a b, Q s t -> R a b -> orel Q (f s a) (g t b)) ->
  forall s t, Q s t -> orel Q (foldM f l s) (foldM g l' t).
Proof.
  intros A B S T R Q f g l l' F K. induction F as [|a b l l' H F IH]; simpl; auto.
  intros s t ST. eapply orel_bind; [apply K; eauto|]. auto.
Qed.
Lemma orel_nth : forall A B (R : A -> B -> Prop) l l' i, Forall2 R l l' -> orel R (nth_error l i) (nth_error l' i).
Proof. intros A B R l l' i F. revert i. induction F; intros [|i]; simpl; auto. Qed.
Lemma orel_update : forall A B (R : A -> B -> Prop) l l' i x y, Forall2 R l l' -> R x y ->
  orel (Forall2 R) (update l i x) (update l' i y).
Proof.
  intros A B R l l' i x y F H. revert i. induction F as [|a b l l' H0 F IH]; intros [|i]; simpl; auto.
  eapply orel_bind; [apply IH|]. simpl. auto.
Qed.
Lemma F2_firstn : forall A B (R : A -> B -> Prop) n l l', Forall2 R l l' -> Forall2 R (firstn n l) (firstn n l').
Proof. intros A B R n l l' F. revert n. induction F; intros [|n]; simpl; auto. Qed.
Lemma F2_skipn : forall A B (R : A -> B -> Prop) n l l', Forall2 R l l' -> Forall2 R (skipn n l) (skipn n l').
Proof. intros A B R n l l' F. revert n. induction F; intros [|n]; simpl; auto. Qed.
Lemma F2_len : forall A B (R : A -> B -> Prop) l l', Forall2 R l l' -> length l' = length l.
Proof. induction 1; simpl; auto. Qed.
Lemma F2_repeat : forall A B (R : A -> B -> Prop) n x y, R x y -> Forall2 R (repeat x n) (repeat y n).
Proof. induction n; simpl; auto. Qed.
Lemma F2_map : forall A B C D (R : A -> B -> Prop) (S : C -> D -> Prop) f g l l', Forall2 R l l' ->
  (forall a b, R a b -> S (f a) (g b)) -> Forall2 S (map f l) (map g l').
Proof. induction 1; simpl; auto. Qed.
Lemma F2_combine : forall A B C D (R : A -> B -> Prop) (S : C -> D -> Prop) l l' m m', Forall2 R l l' -> Forall2 S m m' ->
  Forall2 (fun p q => R (fst p) (fst q) /\ S (snd p) (snd q)) (combine l m) (combine l' m').
Proof.
  intros A B C D R S l l' m m' F. revert m m'. induction F; intros m m' F'; simpl; auto.
  inversion F'; subst; auto.
Qed.
Lemma F2_refl : forall A (l : list A), Forall2 eq l l.
Proof. induction l; auto. Qed.
Lemma F2_concat : forall A B (R : A -> B -> Prop) l l', Forall2 (Forall2 R) l l' -> Forall2 R (concat l) (concat l').
Proof. induction 1; simpl; auto. apply Forall2_app; auto. Qed.
Lemma F2_filter : forall A B (R : A -> B -> Prop) f g l l', Forall2 R l l' -> (forall a b, R a b -> g b = f a) ->
  Forall2 R (filter f l) (filter g l').
Proof. induction 1; simpl; auto. intros K. rewrite (K _ _ H). destruct (f x); auto. Qed.
Lemma orel_slice : forall A B (R : A -> B -> Prop) l l' i j, Forall2 R l l' -> orel (Forall2 R) (slice l i j) (slice l' i j).
Proof.
  intros A B R l l' i j F. unfold slice. rewrite (F2_len _ _ _ _ _ F). destruct ((i <=? j) && (j <=? length l)); simpl; auto.
  apply F2_firstn, F2_skipn; auto.
Qed.

Section Scale.
Context {FS : Floats}.
Variables (neg : bool) (G Q : F32 -> F32 -> Prop) (G64 : F64 -> F64 -> Prop).

Record ScaleLaws : Prop := mkScale {
  sl_zero : G (fzero f32) (fzero f32);
  sl_add : forall x x' y y', G x x' -> G y y' -> G (x + y)%f32 (x' + y')%f32;
  sl_sub : forall x x' y y', G x x' -> G y y' -> G (x - y)%f32 (x' - y')%f32;
  sl_mulh : forall x x' h, G x x' -> G (x * h)%f32 (x' * h)%f32;
  sl_two : forall x x', G x x' -> G (lit f32 2 * x)%f32 (lit f32 2 * x')%f32;
  sl_div : forall x x' h, G x x' -> G (x / h)%f32 (x' / h)%f32;
  sl_lt : forall x x' y y', G x x' -> G y y' -> (x' <? y')%f32 = if neg then (y <? x)%f32 else (x <? y)%f32;
  sl_le : forall x x' y y', G x x' -> G y y' -> (x' <=? y')%f32 = if neg then (y <=? x)%f32 else (x <=? y)%f32;
  sl_eq0 : forall x x', G x x' -> (x' =? fzero f32)%f32 = (x =? fzero f32)%f32;
  sl_inf : if neg then G (finf f32) (fninf f32) /\ G (fninf f32) (finf f32)
           else G (finf f32) (finf f32) /\ G (fninf f32) (fninf f32);
  sl_inf_lt : (finf f32 <? fninf f32)%f32 = false;
  sl_abs : forall x x' y y', G x x' -> G y y' ->
    ftotal f32 (fabs f32 x') (fabs f32 y') = ftotal f32 (fabs f32 x) (fabs f32 y);
  sl_sq : forall x x' y y', G x x' -> G y y' -> Q (x * y)%f32 (x' * y')%f32;
  sq_zero : Q (fzero f32) (fzero f32);
  sq_ninf : Q (fninf f32) (fninf f32);
  sq_add : forall x x' y y', Q x x' -> Q y y' -> Q (x + y)%f32 (x' + y')%f32;
  sq_sub : forall x x' y y', Q x x' -> Q y y' -> Q (x - y)%f32 (x' - y')%f32;
  sq_neg : forall x x', Q x x' -> Q (- x)%f32 (- x')%f32;
  sq_hmul : forall x x' h, Q x x' -> Q (h * x)%f32 (h * x')%f32;
  sq_div : forall x x' h, Q x x' -> Q (x / h)%f32 (x' / h)%f32;
  sq_lt : forall x x' y y', Q x x' -> Q y y' -> (x' <? y')%f32 = (x <? y)%f32;
  sq_le : forall x x' y y', Q x x' -> Q y y' -> (x' <=? y')%f32 = (x <=? y)%f32;
  sq_nan : forall x x', Q x x' -> fisnan f32 x' = fisnan f32 x;
  s64_zero : G64 (fzero f64) (fzero f64);
  s64_add : forall x x' y y', G64 x x' -> G64 y y' -> G64 (x + y)%f64 (x' + y')%f64;
  s64_mulh : forall x x' h, G64 x x' -> G64 (x * h)%f64 (x' * h)%f64;
  s64_div : forall x x' h, G64 x x' -> G64 (x / h)%f64 (x' / h)%f64;
  s_to64 : forall x x', G x x' -> G64 (to64 x) (to64 x');
  s_to32 : forall x x', G64 x x' -> G (to32 x) (to32 x') }.

(** the direction of a constraint is reversed together with the order *)
Definition flip (c : Constraint) : Constraint :=
  match c with Positive => Negative | Negative => Positive | Unconstrained => Unconstrained end.
Definition turn (c : Constraint) : Constraint := if neg then flip c else c.
Definition oturn (c : option Constraint) : option Constraint := option_map turn c.

Record params_rel (p p' : SplitParams) : Prop := mkPR {
  pr_weight : forall g g' h, G g g' -> G (weight (sp_l1 p) (sp_l2 p) (sp_max_delta_step p) g h)
                                          (weight (sp_l1 p') (sp_l2 p) (sp_max_delta_step p') g' h);
  pr_l2 : sp_l2 p' = sp_l2 p;
  pr_gamma : Q (sp_gamma p) (sp_gamma p');
  pr_mlw : sp_min_leaf_weight p' = sp_min_leaf_weight p;
  pr_lr : sp_learning_rate p' = sp_learning_rate p;
  pr_allow : sp_allow_missing_splits p' = sp_allow_missing_splits p;
  pr_con : forall f, assoc f (sp_constraints p') = oturn (assoc f (sp_constraints p)) }.

Inductive splitter_rel : Splitter -> Splitter -> Prop :=
| sr_imp : forall p p', params_rel p p' -> splitter_rel (Imputer p) (Imputer p')
| sr_br : forall p p' term t force, params_rel p p' -> splitter_rel (Branch p term t force) (Branch p' term t force).
Lemma splitter_params : forall s s', splitter_rel s s' -> params_rel (params s) (params s').
Proof. intros s s' []; auto. Qed.

(** lower and upper bounds trade places *)
Definition brel (b b' : F32 * F32) : Prop :=
  if neg then G (fst b) (snd b') /\ G (snd b) (fst b') else G (fst b) (fst b') /\ G (snd b) (snd b').

Record info_rel (i i' : NodeInfo) : Prop := mkIR {
  ir_grad : G (ni_grad i) (ni_grad i'); ir_gain : Q (ni_gain i) (ni_gain i');
  ir_cover : ni_cover i' = ni_cover i; ir_weight : G (ni_weight i) (ni_weight i') }.
Record info_rel_b (i i' : NodeInfo) : Prop := mkIRB { ib_info : info_rel i i'; ib_bounds : brel (ni_bounds i) (ni_bounds i') }.

Inductive minfo_rel : MissingInfo -> MissingInfo -> Prop :=
| mr_l : minfo_rel MLeft MLeft | mr_r : minfo_rel MRight MRight
| mr_f : forall i i', info_rel_b i i' -> minfo_rel (MLeaf i) (MLeaf i')
| mr_b : forall i i', info_rel_b i i' -> minfo_rel (MBranch i) (MBranch i').

Record split_rel (s s' : SplitInfo) : Prop := mkSR {
  sr_gain : Q (si_gain s) (si_gain s'); sr_feature : si_feature s' = si_feature s; sr_value : si_value s' = si_value s;
  sr_bin : si_bin s' = si_bin s; sr_left : info_rel_b (si_left s) (si_left s'); sr_right : info_rel_b (si_right s) (si_right s');
  sr_missing : minfo_rel (si_missing s) (si_missing s') }.

Definition bin_rel (b b' : Bin F32) : Prop :=
  G (gradient_sum b) (gradient_sum b') /\ hessian_sum b' = hessian_sum b /\ cut_value b' = cut_value b.
Definition bin64_rel (b b' : Bin F64) : Prop :=
  G64 (gradient_sum b) (gradient_sum b') /\ hessian_sum b' = hessian_sum b /\ cut_value b' = cut_value b.
Record hist_rel (h h' : HistogramMatrix) : Prop := mkHR {
  hr_data : Forall2 bin_rel (j_data h) (j_data h'); hr_ends : j_ends h' = j_ends h;
  hr_cols : j_cols h' = j_cols h; hr_n : j_nrecords h' = j_nrecords h }.

Record snode_rel (n n' : SplittableNode) : Prop := mkSNR {
  nr_num : sn_num n' = sn_num n; nr_hist : hist_rel (sn_hist n) (sn_hist n');
  nr_weight : G (sn_weight n) (sn_weight n'); nr_gain : Q (sn_gain n) (sn_gain n');
  nr_grad : G (sn_grad n) (sn_grad n'); nr_hess : sn_hess n' = sn_hess n; nr_depth : sn_depth n' = sn_depth n;
  nr_value : sn_split_value n' = sn_split_value n; nr_feature : sn_split_feature n' = sn_split_feature n;
  nr_sgain : Q (sn_split_gain n) (sn_split_gain n'); nr_missing : sn_missing_node n' = sn_missing_node n;
  nr_left : sn_left_child n' = sn_left_child n; nr_right : sn_right_child n' = sn_right_child n;
  nr_start : sn_start n' = sn_start n; nr_stop : sn_stop n' = sn_stop n;
  nr_bounds : brel (sn_lower n, sn_upper n) (sn_lower n', sn_upper n');
  nr_leaf : sn_is_leaf n' = sn_is_leaf n; nr_ml : sn_is_missing_leaf n' = sn_is_missing_leaf n }.

(** finished nodes: the same splits, weights and gains in the other unit *)
Record node_rel (n n' : Node) : Prop := mkNR {
  o_num : n_num n' = n_num n; o_weight : G (n_weight n) (n_weight n'); o_hess : n_hess n' = n_hess n;
  o_depth : n_depth n' = n_depth n; o_value : n_split_value n' = n_split_value n;
  o_feature : n_split_feature n' = n_split_feature n; o_gain : Q (n_split_gain n) (n_split_gain n');
  o_missing : n_missing n' = n_missing n; o_left : n_left n' = n_left n; o_right : n_right n' = n_right n;
  o_leaf : n_is_leaf n' = n_is_leaf n }.

Hypothesis L : ScaleLaws.
Hypothesis O : OrdLaws f32.

(** Bounds that are read never cross.  With rounding this needs that no constraint is in force, since the
    midpoint of two weights may overflow. *)
Definition free (c : option Constraint) : Prop := c = None \/ c = Some Unconstrained.
Definition mid_laws : Prop := forall u a b,
  ((u <? a)%f32 = false -> (u <? b)%f32 = false -> (u <? (a + b) / lit f32 2)%f32 = false) /\
  ((a <? u)%f32 = false -> (b <? u)%f32 = false -> ((a + b) / lit f32 2 <? u)%f32 = false).
Definition ordered (b : F32 * F32) : Prop := (snd b <? fst b)%f32 = false.
Definition inside (b : F32 * F32) (w : F32) : Prop := (snd b <? w)%f32 = false /\ (w <? fst b)%f32 = false.

Lemma lt_trans : forall x y z, (x <? y)%f32 = true -> (y <? z)%f32 = true -> (x <? z)%f32 = true.
Proof.
  intros x y z A B. destruct (ol_lt_nan _ O _ _ A) as [X Y]. destruct (ol_lt_nan _ O _ _ B) as [_ Z].
  rewrite (ol_lt_le _ O) in * by auto. apply negb_true_iff in A, B. apply negb_true_iff.
  destruct (fle f32 z x) eqn:E; auto. destruct (ol_le_total _ O y z Y Z) as [C|C]; [|congruence].
  rewrite (ol_le_trans _ O _ _ _ C E) in A. discriminate.
Qed.
Lemma lt_irrefl : forall x, (x <? x)%f32 = false.
Proof.
  intros x. destruct (flt f32 x x) eqn:E; auto. destruct (ol_lt_nan _ O _ _ E) as [X _].
  rewrite (ol_lt_le _ O) in E by auto. rewrite (ol_le_refl _ O) in E by auto. discriminate.
Qed.
Lemma le_not_lt : forall x y, (x <=? y)%f32 = true -> (y <? x)%f32 = false.
Proof. intros x y A. destruct (ol_le_nan _ O _ _ A) as [X Y]. rewrite (ol_lt_le _ O) by auto. rewrite A. reflexivity. Qed.

Lemma cweight_inside : forall p g h b c, free c \/ inside b (cweight p g h (fst b) (snd b) c) \/ ~ ordered b.
Proof.
  intros p g h b [[]|]; unfold free, inside, ordered, cweight, constrained_weight; auto;
    (destruct (snd b <? fst b)%f32 eqn:C; [right; right; discriminate|right; left]);
    (destruct (snd b <? weight _ _ _ g h)%f32 eqn:A; [split; [apply lt_irrefl|exact C]|]);
    (destruct (weight _ _ _ g h <? fst b)%f32 eqn:B; [split; [exact C|apply lt_irrefl]|split; auto]).
Qed.
Lemma free_turn : forall c, free c -> free (oturn c).
Proof. intros c [-> | ->]; unfold oturn, turn, free; simpl; auto. destruct neg; auto. Qed.

Section Search.
Variables p p' : SplitParams.
Hypothesis P : params_rel p p'.

Lemma cweight_rel : forall g g' h b b' c, G g g' -> brel b b' -> free c \/ ordered b ->
  G (cweight p g h (fst b) (snd b) c) (cweight p' g' h (fst b') (snd b') (oturn c)).
Proof.
  intros g g' h b b' c Hg B OB. unfold cweight, constrained_weight. rewrite (pr_l2 _ _ P).
  pose proof (pr_weight _ _ P g g' h Hg) as W.
  set (w := weight _ _ _ g h) in *. set (w' := weight _ _ _ g' h) in *.
  destruct c as [c|]; simpl; auto.
  assert (FR : c = Unconstrained -> turn c = Unconstrained) by (intros ->; unfold turn; destruct neg; auto).
  destruct OB as [[OB|OB]|OB]; [discriminate|injection OB as OB; subst c; rewrite FR; auto|].
  assert (K : G (if (snd b <? w)%f32 then snd b else if (w <? fst b)%f32 then fst b else w)
                (if (snd b' <? w')%f32 then snd b' else if (w' <? fst b')%f32 then fst b' else w')).
  { unfold brel, ordered in *. destruct neg eqn:N; destruct B as [B1 B2].
    - rewrite (sl_lt L _ _ _ _ B1 W), (sl_lt L _ _ _ _ W B2), N.
      destruct (w <? fst b)%f32 eqn:C1; destruct (snd b <? w)%f32 eqn:C2; auto.
      rewrite (lt_trans _ _ _ C2 C1) in OB. discriminate.
    - rewrite (sl_lt L _ _ _ _ B2 W), (sl_lt L _ _ _ _ W B1), N.
      destruct (snd b <? w)%f32; auto. destruct (w <? fst b)%f32; auto. }
  destruct c; [| |rewrite FR by auto; exact W]; unfold turn; destruct neg; exact K.
Qed.

Lemma gain_rel : forall g g' h, G g g' -> Q (gain (sp_l2 p) g h) (gain (sp_l2 p') g' h).
Proof. intros. unfold gain. rewrite (pr_l2 _ _ P). apply (sq_div L), (sl_sq L); auto. Qed.
Lemma ggw_rel : forall g g' h w w', G g g' -> G w w' -> Q (gain_given_weight (sp_l2 p) g h w) (gain_given_weight (sp_l2 p') g' h w').
Proof.
  intros. unfold gain_given_weight. rewrite (pr_l2 _ _ P).
  apply (sq_neg L), (sq_add L); [apply (sl_sq L); auto; apply (sl_two L); auto|]. apply (sq_hmul L), (sl_sq L); auto.
Qed.
Lemma cull_rel : forall q q' l l' r r' c, Q q q' -> G l l' -> G r r' -> Q (cull_gain q l r c) (cull_gain q' l' r' (oturn c)).
Proof.
  intros q q' l l' r r' c Hq Hl Hr. unfold cull_gain, oturn, turn. destruct c as [[]|]; simpl; auto; destruct neg eqn:N; simpl; auto;
    rewrite ?(sl_le L _ _ _ _ Hl Hr), ?(sl_le L _ _ _ _ Hr Hl), N;
    match goal with |- context [if ?b then _ else _] => destruct b; auto using sq_ninf end; apply (sq_ninf L).
Qed.

Lemma between_rel : forall b b' v v', brel b b' -> G v v' -> between (fst b') (snd b') v' = between (fst b) (snd b) v.
Proof.
  intros b b' v v' B V. unfold between, brel in *. destruct neg eqn:N; destruct B as [B1 B2].
  - rewrite (sl_lt L _ _ _ _ B1 B2), (sl_le L _ _ _ _ V B2), (sl_le L _ _ _ _ B1 V), (sl_le L _ _ _ _ B2 V), (sl_le L _ _ _ _ V B1), N.
    destruct (snd b <? fst b)%f32; apply andb_comm.
  - rewrite (sl_lt L _ _ _ _ B2 B1), (sl_le L _ _ _ _ V B1), (sl_le L _ _ _ _ B2 V), (sl_le L _ _ _ _ B1 V), (sl_le L _ _ _ _ V B2), N.
    reflexivity.
Qed.
Lemma bound_rel : forall w w' l l' r r', neg = false -> G w w' -> G l l' -> G r r' ->
  G (fst (bound_to_parent w l r)) (fst (bound_to_parent w' l' r')) /\ G (snd (bound_to_parent w l r)) (snd (bound_to_parent w' l' r')).
Proof.
  intros w w' l l' r r' N W Hl Hr. unfold bound_to_parent, between.
  rewrite !(sl_lt L _ _ _ _ Hr Hl), !(sl_lt L _ _ _ _ Hl W), !(sl_lt L _ _ _ _ Hr W), (sl_le L _ _ _ _ W Hl), (sl_le L _ _ _ _ Hr W),
    (sl_le L _ _ _ _ Hl W), (sl_le L _ _ _ _ W Hr), N.
  repeat match goal with |- context [if ?b then _ else _] => destruct b; simpl; auto end.
Qed.

(** *** One candidate *)
Definition eval_rel (b : F32 * F32) (c : option Constraint) (e e' : EvalResult) : Prop :=
  let '(l, r, m) := e in let '(l', r', m') := e' in
  info_rel l l' /\ info_rel r r' /\ minfo_rel m m' /\ (free c \/ (inside b (ni_weight l) /\ inside b (ni_weight r))).

Lemma cw_inside : forall g h b c, free c \/ ordered b -> free c \/ inside b (cweight p g h (fst b) (snd b) c).
Proof.
  intros g h b c [F|OB]; auto. destruct (cweight_inside p g h b c) as [F|[I|N]]; auto. contradiction.
Qed.
Lemma between_inside : forall b v, ordered b -> between (fst b) (snd b) v = true -> inside b v.
Proof.
  intros b v OB H. unfold between in H. unfold ordered in OB. rewrite OB in H. apply andb_true_iff in H. destruct H as [A B].
  split; apply le_not_lt; auto.
Qed.

Lemma eval_imputer_rel : forall lg lg' lh rg rg' rh mg mg' mh b b' c, G lg lg' -> G rg rg' -> G mg mg' -> brel b b' -> free c \/ ordered b ->
  orel (eval_rel b c) (evaluate_split_imputer p lg lh rg rh mg mh (fst b) (snd b) c)
                      (evaluate_split_imputer p' lg' lh rg' rh mg' mh (fst b') (snd b') (oturn c)).
Proof.
  intros lg lg' lh rg rg' rh mg mg' mh b b' c Hl Hr Hm B OB. unfold evaluate_split_imputer.
  rewrite (sl_eq0 L _ _ Hl), (sl_eq0 L _ _ Hr), (sl_eq0 L _ _ Hm), (pr_allow _ _ P), (pr_mlw _ _ P).
  destruct (_ && negb (sp_allow_missing_splits p)); [exact I|].
  pose proof (cweight_rel _ _ lh _ _ c Hl B OB) as Wl. pose proof (cweight_rel _ _ rh _ _ c Hr B OB) as Wr.
  pose proof (cw_inside lg lh b c OB) as Il. pose proof (cw_inside rg rh b c OB) as Ir.
  set (lw := cweight p lg lh _ _ c) in *. set (rw := cweight p rg rh _ _ c) in *.
  set (lw' := cweight p' lg' lh _ _ _) in *. set (rw' := cweight p' rg' rh _ _ _) in *.
  pose proof (ggw_rel lg lg' lh lw lw' Hl Wl) as Ql. pose proof (ggw_rel rg rg' rh rw rw' Hr Wr) as Qr.
  destruct (negb _ && _); [exact I|].
  destruct (negb (mg =? fzero f32)%f32 || negb (mh =? fzero f32)%f32).
  - pose proof (sl_add L _ _ _ _ Hl Hm) as Hlm. pose proof (sl_add L _ _ _ _ Hr Hm) as Hrm.
    pose proof (cweight_rel _ _ (lh + mh)%f32 _ _ c Hlm B OB) as Wlm. pose proof (cweight_rel _ _ (rh + mh)%f32 _ _ c Hrm B OB) as Wrm.
    pose proof (cw_inside (lg + mg)%f32 (lh + mh)%f32 b c OB) as Ilm. pose proof (cw_inside (rg + mg)%f32 (rh + mh)%f32 b c OB) as Irm.
    set (mlw := cweight p (lg + mg)%f32 _ _ _ _) in *. set (mrw := cweight p (rg + mg)%f32 _ _ _ _) in *.
    set (mlw' := cweight p' (lg' + mg')%f32 _ _ _ _) in *. set (mrw' := cweight p' (rg' + mg')%f32 _ _ _ _) in *.
    pose proof (cull_rel _ _ _ _ _ _ c (ggw_rel _ _ (lh + mh)%f32 mlw mlw' Hlm Wlm) Wlm Wr) as Qlm.
    pose proof (cull_rel _ _ _ _ _ _ c (ggw_rel _ _ (rh + mh)%f32 mrw mrw' Hrm Wrm) Wl Wrm) as Qrm.
    rewrite (sq_lt L _ _ _ _ (sq_sub L _ _ _ _ Qrm Qr) (sq_sub L _ _ _ _ Qlm Ql)).
    destruct (_ <? _)%f32; simpl; (destruct (_ || _)%bool; [exact I|]); simpl.
    + split; [constructor; simpl; auto|]. split; [constructor; simpl; auto|]. split; [constructor|].
      destruct Ilm, Ir; auto.
    + split; [constructor; simpl; auto|]. split; [constructor; simpl; auto|]. split; [constructor|].
      destruct Il, Irm; auto.
  - simpl. destruct (_ || _)%bool; [exact I|]. simpl.
    split; [constructor; simpl; auto|]. split; [constructor; simpl; auto|]. split; [constructor|]. destruct Il, Ir; auto.
Qed.

Lemma eval_branch_rel : forall t force lg lg' lh rg rg' rh mg mg' mh b b' w w' c, (neg = true -> force = false) ->
  G lg lg' -> G rg rg' -> G mg mg' -> G w w' -> brel b b' -> free c \/ ordered b ->
  orel (orel (eval_rel b c)) (evaluate_split_branch p t force lg lh rg rh mg mh (fst b) (snd b) w c)
                      (evaluate_split_branch p' t force lg' lh rg' rh mg' mh (fst b') (snd b') w' (oturn c)).
Proof.
  intros t force lg lg' lh rg rg' rh mg mg' mh b b' w w' c NF Hl Hr Hm Hw B OB. unfold evaluate_split_branch.
  rewrite (sl_eq0 L _ _ Hl), (sl_eq0 L _ _ Hr), (sl_eq0 L _ _ Hm), (pr_allow _ _ P), (pr_mlw _ _ P).
  destruct (_ || _)%bool; [exact I|].
  pose proof (cweight_rel _ _ lh _ _ c Hl B OB) as Wl. pose proof (cweight_rel _ _ rh _ _ c Hr B OB) as Wr.
  pose proof (cw_inside lg lh b c OB) as Il. pose proof (cw_inside rg rh b c OB) as Ir.
  set (lw := cweight p lg lh _ _ c) in *. set (rw := cweight p rg rh _ _ c) in *.
  set (lw' := cweight p' lg' lh _ _ _) in *. set (rw' := cweight p' rg' rh _ _ _) in *.
  eapply (orel_bind _ _ _ _ (fun a a' => G (fst a) (fst a') /\ G (snd a) (snd a') /\
     (free c \/ inside b (fst a)) /\ (free c \/ inside b (snd a)))).
  - destruct force; [|simpl; auto].
    destruct neg eqn:N; [discriminate (NF eq_refl)|]. destruct (bound_rel w w' lw lw' rw rw' N Hw Wl Wr) as [B1 B2].
    destruct (bound_to_parent w lw rw) as [a1 a2]. destruct (bound_to_parent w' lw' rw') as [a1' a2']. simpl in B1, B2.
    rewrite (between_rel b b' _ _ B B1), (between_rel b b' _ _ B B2).
    destruct (between (fst b) (snd b) a1) eqn:T1; [|exact I]. destruct (between (fst b) (snd b) a2) eqn:T2; [|exact I].
    simpl. split; auto. split; auto. destruct OB as [F|OB]; auto using between_inside.
  - clear Il Ir Wl Wr. intros [lw1 rw1] [lw1' rw1'] (Wl & Wr & Il & Ir). simpl in Wl, Wr, Il, Ir.
    destruct (_ || _)%bool; [exact I|].
    assert (WM : G (missing_weight_of p t lg lh rg rh mg mh lw1 rw1 (fst b) (snd b) w c)
                   (missing_weight_of p' t lg' lh rg' rh mg' mh lw1' rw1' (fst b') (snd b') w' (oturn c))).
    { unfold missing_weight_of. rewrite (sl_eq0 L _ _ Hm). destruct t.
      - destruct (_ || _)%bool; auto. apply cweight_rel; auto.
      - apply cweight_rel; auto. apply (sl_add L); auto. apply (sl_add L); auto.
      - apply (sl_div L), (sl_add L); apply (sl_mulh L); auto.
      - apply (sl_div L), (sl_add L); apply (sl_mulh L); auto. }
    set (mw := missing_weight_of p t _ _ _ _ _ _ _ _ _ _ _ _) in *. set (mw' := missing_weight_of p' t _ _ _ _ _ _ _ _ _ _ _ _) in *.
    assert (IM : info_rel_b (mkNodeInfo mg (gain_given_weight (sp_l2 p) mg mh mw) mh mw (fst b, snd b))
                            (mkNodeInfo mg' (gain_given_weight (sp_l2 p') mg' mh mw') mh mw' (fst b', snd b'))).
    { constructor; [constructor; simpl; auto; apply ggw_rel; auto|]. destruct b, b'; exact B. }
    simpl. split; [constructor; simpl; auto; apply ggw_rel; auto|]. split; [constructor; simpl; auto; apply ggw_rel; auto|].
    split; [destruct (_ && sp_allow_missing_splits p); constructor; auto|]. destruct Il, Ir; auto.
Qed.
End Search.

Variables s s' : Splitter.
Hypothesis S : splitter_rel s s'.
Hypothesis NF : neg = true -> match s with Branch _ _ _ true => False | _ => True end.
Hypothesis CM : (forall f, free (get_constraint s f)) \/ mid_laws.

Lemma con_rel : forall f, get_constraint s' f = oturn (get_constraint s f).
Proof. intros f. apply (pr_con _ _ (splitter_params _ _ S)). Qed.

Definition obounds (b : F32 * F32) : Prop := (forall f, free (get_constraint s f)) \/ ordered b.

Lemma eval_rel_any : forall lg lg' lh rg rg' rh mg mg' mh b b' w w' f,
  G lg lg' -> G rg rg' -> G mg mg' -> G w w' -> brel b b' -> obounds b ->
  orel (orel (eval_rel b (get_constraint s f))) (evaluate_split s lg lh rg rh mg mh (fst b) (snd b) w (get_constraint s f))
                      (evaluate_split s' lg' lh rg' rh mg' mh (fst b') (snd b') w' (get_constraint s' f)).
Proof.
  intros lg lg' lh rg rg' rh mg mg' mh b b' w w' f Hl Hr Hm Hw B OB. rewrite con_rel.
  assert (OB' : free (get_constraint s f) \/ ordered b) by (destruct OB; auto).
  set (c := get_constraint s f) in *. clearbody c. clear CM OB. destruct S as [p p' P|p p' term t force P]; simpl.
  - apply eval_imputer_rel; auto.
  - apply eval_branch_rel; auto. intros N. specialize (NF N). destruct force; tauto.
Qed.

Lemma split_gain_rel : forall n n' l l' r r' m m' g g', Q (sn_gain n) (sn_gain n') -> info_rel l l' -> info_rel r r' -> minfo_rel m m' ->
  Q g g' -> Q (get_split_gain n l r m g) (get_split_gain n' l' r' m' g').
Proof.
  intros n n' l l' r r' m m' g g' Hn Hl Hr Hm Hg. unfold get_split_gain.
  apply (sq_sub L); auto. apply (sq_sub L); auto. apply (sq_add L); [apply (sq_add L); [apply Hl|apply Hr]|].
  destruct Hm as [| |i i' [H _]|i i' [H _]]; try apply (sq_zero L); apply H.
Qed.

Lemma child_bounds_rel : forall b b' lw lw' rw rw' c, brel b b' -> G lw lw' -> G rw rw' ->
  let '(lb, rb) := child_bounds (fst b) (snd b) lw rw c in
  let '(lb', rb') := child_bounds (fst b') (snd b') lw' rw' (oturn c) in brel lb lb' /\ brel rb rb'.
Proof.
  intros [lo up] [lo' up'] lw lw' rw rw' c B Hl Hr. unfold child_bounds.
  assert (M : G ((lw + rw) / lit f32 2)%f32 ((lw' + rw') / lit f32 2)%f32) by (apply (sl_div L), (sl_add L); auto).
  unfold brel, oturn, turn in *. simpl in *. destruct c as [[]|]; destruct neg; simpl; tauto.
Qed.
Lemma child_bounds_ok : forall b lw rw f, obounds b ->
  (free (get_constraint s f) \/ (inside b lw /\ inside b rw)) ->
  let '(lb, rb) := child_bounds (fst b) (snd b) lw rw (get_constraint s f) in obounds lb /\ obounds rb.
Proof.
  intros [lo up] lw rw f OB H. unfold child_bounds, obounds in *. simpl.
  destruct CM as [F|M]; [destruct (get_constraint s f) as [[]|]; auto|].
  destruct OB as [F|OB]; [destruct (get_constraint s f) as [[]|]; auto|].
  unfold ordered, inside, free in *. simpl in *. destruct (M up lw rw) as [M1 _]. destruct (M lo lw rw) as [_ M2].
  destruct (get_constraint s f) as [[]|]; simpl; auto; destruct H as [[?|?]|[[A1 A2] [B1 B2]]]; try discriminate; auto.
Qed.

Definition split_ok (si : SplitInfo) : Prop := obounds (ni_bounds (si_left si)) /\ obounds (ni_bounds (si_right si)) /\
  match si_missing si with MLeaf i | MBranch i => obounds (ni_bounds i) | _ => True end.
Definition srel (x x' : SplitInfo) : Prop := split_rel x x' /\ split_ok x.

Section Candidate.
Variables n n' : SplittableNode.
Hypothesis N : snode_rel n n'.
Hypothesis OB : obounds (sn_lower n, sn_upper n).

Lemma eval_missing_bounds : forall lg lh rg rh mg mh b w c l r m, evaluate_split s lg lh rg rh mg mh (fst b) (snd b) w c = Some (Some (l, r, m)) ->
  match m with MLeaf i | MBranch i => ni_bounds i = b | _ => True end.
Proof.
  intros lg lh rg rh mg mh [lo up] w c l r m H. destruct s as [p|p term t force]; simpl in H.
  - injection H as H. unfold evaluate_split_imputer in H. destruct (_ && _); [discriminate|]. destruct (negb _ && _); [discriminate|].
    revert H. match goal with |- (let '(_, _) := (if ?b then _ else _) in _) = _ -> _ => destruct b end;
      [match goal with |- (let '(_, _) := (if ?b then _ else _) in _) = _ -> _ => destruct b end|];
      (match goal with |- (if ?b then _ else _) = _ -> _ => destruct b end); intros H; try discriminate; injection H as _ _ <-; exact I.
  - unfold evaluate_split_branch in H. destruct (_ || _)%bool; [discriminate|]. inv_bind H. destruct v as [a1 a2].
    destruct (_ || _)%bool; [discriminate|]. injection H as _ _ <-. destruct (_ && _); reflexivity.
Qed.

Lemma candidate_rel : forall f m m' b b' i cg cg' ch, bin_rel m m' -> bin_rel b b' -> G cg cg' ->
  orel (orel srel) (candidate s n f m b i cg ch) (candidate s' n' f m' b' i cg' ch).
Proof.
  intros f m m' b b' i cg cg' ch (M1 & M2 & M3) (B1 & B2 & B3) Hc. unfold candidate.
  rewrite M2, (nr_hess _ _ N).
  assert (Hr : G (sn_grad n - cg - gradient_sum m)%f32 (sn_grad n' - cg' - gradient_sum m')%f32)
    by (apply (sl_sub L); auto; apply (sl_sub L); auto; apply (nr_grad _ _ N)).
  pose proof (eval_rel_any cg cg' ch _ _ (sn_hess n - ch - hessian_sum m)%f32 _ _ (hessian_sum m) _ _ _ _ f Hc Hr M1 (nr_weight _ _ N) (nr_bounds _ _ N) OB) as E.
  pose proof (eval_missing_bounds cg ch (sn_grad n - cg - gradient_sum m)%f32 (sn_hess n - ch - hessian_sum m)%f32 (gradient_sum m) (hessian_sum m)
    (sn_lower n, sn_upper n) (sn_weight n) (get_constraint s f)) as EB.
  cbn [fst snd] in E, EB.
  destruct (evaluate_split s _ _ _ _ _ _ _ _ _ _) as [[[[l r] mi]|]|]; destruct (evaluate_split s' _ _ _ _ _ _ _ _ _ _) as [[[[l' r'] mi']|]|];
    simpl in E; try tauto; simpl; auto.
  destruct E as (El & Er & Em & Ei). specialize (EB _ _ _ eq_refl). rewrite con_rel.
  pose proof (cull_rel _ _ _ _ _ _ (get_constraint s f) (split_gain_rel n n' l l' r r' mi mi' _ _ (nr_gain _ _ N) El Er Em
    (pr_gamma _ _ (splitter_params _ _ S))) (ir_weight _ _ El) (ir_weight _ _ Er)) as SG.
  set (sg := cull_gain _ (ni_weight l) _ _) in *. set (sg' := cull_gain _ (ni_weight l') _ _) in *.
  rewrite (sq_le L _ _ _ _ SG (sq_zero L)). destruct (sg <=? fzero f32)%f32; [exact I|].
  pose proof (child_bounds_rel _ _ _ _ _ _ (get_constraint s f) (nr_bounds _ _ N) (ir_weight _ _ El) (ir_weight _ _ Er)) as CR.
  pose proof (child_bounds_ok (sn_lower n, sn_upper n) (ni_weight l) (ni_weight r) f OB Ei) as CO.
  cbn [fst snd] in CR, CO.
  destruct (child_bounds (sn_lower n) _ _ _ _) as [lb rb]. destruct (child_bounds (sn_lower n') _ _ _ _) as [lb' rb'].
  destruct CR as [C1 C2]. destruct CO as [O1 O2]. simpl. split.
  - constructor; simpl; auto.
    + rewrite (sq_nan L _ _ SG). destruct (fisnan f32 sg); [apply (sq_zero L)|exact SG].
    + constructor; [destruct El; constructor; auto|exact C1].
    + constructor; [destruct Er; constructor; auto|exact C2].
  - split; [exact O1|]. split; [exact O2|]. simpl. destruct mi; auto; rewrite EB; exact OB.
Qed.

Lemma better_rel : forall b b' x x', orel srel b b' -> srel x x' -> orel srel (better b x) (better b' x').
Proof.
  intros [b|] [b'|] x x' B X; simpl in *; try tauto. destruct B as [B1 B2]. destruct X as [X1 X2].
  rewrite (sq_lt L _ _ _ _ (sr_gain _ _ B1) (sr_gain _ _ X1)). destruct (_ <? _)%f32; simpl; split; auto.
Qed.
Lemma feature_loop_rel : forall f m m' bins bins', bin_rel m m' -> Forall2 bin_rel bins bins' -> forall i cg cg' ch best best',
  G cg cg' -> orel srel best best' ->
  orel (orel srel) (feature_loop s n f m bins i cg ch best) (feature_loop s' n' f m' bins' i cg' ch best').
Proof.
  intros f m m' bins bins' M F. induction F as [|b b' bins bins' B F IH]; intros i cg cg' ch best best' Hc Hb; simpl; auto.
  eapply orel_bind; [apply candidate_rel; eauto|]. intros c c' C. destruct B as (B1 & B2 & B3). rewrite B2.
  apply IH; [apply (sl_add L); auto|]. destruct c as [x|], c' as [x'|]; simpl in C; try tauto; auto. apply better_rel; auto.
Qed.
Lemma best_feature_rel : forall f idx, orel (orel srel) (best_feature_split s n f idx) (best_feature_split s' n' f idx).
Proof.
  intros f idx. unfold best_feature_split. destruct (nr_hist _ _ N) as [H1 H2 H3 H4].
  eapply (orel_bind _ _ _ _ (Forall2 bin_rel)).
  - unfold j_get_col. rewrite H2. destruct (idx <? length (j_ends (sn_hist n))); simpl; auto.
    destruct (nth_error (j_ends (sn_hist n)) idx); simpl; auto. destruct (match idx with 0 => _ | _ => _ end); simpl; auto. apply orel_slice; auto.
  - intros c c' F. destruct F as [|m m' bins bins' M F]; simpl; auto. apply feature_loop_rel; auto; [apply (sl_zero L)|exact I].
Qed.
Lemma best_loop_rel : forall cols idx g g' best best', Q g g' -> orel srel best best' ->
  orel (orel srel) (best_split_loop s n cols idx g best) (best_split_loop s' n' cols idx g' best').
Proof.
  induction cols as [|f cols IH]; intros idx g g' best best' Hg Hb; simpl; auto.
  eapply orel_bind; [apply best_feature_rel|]. intros [x|] [x'|] C; simpl in C; try tauto; auto.
  pose proof C as [C1 C2]. rewrite (sq_lt L _ _ _ _ Hg (sr_gain _ _ C1)). destruct (_ <? _)%f32; apply IH; auto. apply C1.
Qed.
Lemma best_split_rel : forall cols, orel (orel srel) (best_split s n cols) (best_split s' n' cols).
Proof. intros cols. apply best_loop_rel; [apply (sq_zero L)|exact I]. Qed.
End Candidate.

(** *** Histograms *)
Definition gh_rel (a a' : nat * F32 * F32) : Prop := fst (fst a') = fst (fst a) /\ G (snd (fst a)) (snd (fst a')) /\ snd a' = snd a.

Lemma add_row_rel : forall h h' b g g' k, Forall2 bin64_rel h h' -> G g g' -> Forall2 bin64_rel (add_row h b g k) (add_row h' b g' k).
Proof.
  intros h h' b g g' k F Hg. unfold add_row. pose proof (orel_nth _ _ _ _ _ b F) as E.
  destruct (nth_error h b) as [v|]; destruct (nth_error h' b) as [v'|]; simpl in E; try tauto; auto.
  destruct E as (E1 & E2 & E3). rewrite E2, E3.
  match goal with |- Forall2 _ (match update h b ?x with _ => _ end) (match update h' b ?y with _ => _ end) =>
    pose proof (orel_update _ _ bin64_rel h h' b x y F) as U end.
  match type of U with ?A -> _ => assert A as HA end.
  { split; [apply (s64_add L); auto; apply (s_to64 L); auto|auto]. }
  specialize (U HA). destruct (update h b _); destruct (update h' b _); simpl in U; tauto.
Qed.

Lemma create_hist_rel : forall f cuts sg sg' sh index, Forall2 G sg sg' ->
  orel (Forall2 bin_rel) (create_feature_histogram f cuts sg sh index) (create_feature_histogram f cuts sg' sh index).
Proof.
  intros f cuts sg sg' sh index F. unfold create_feature_histogram. destruct cuts as [|c0 cuts]; [exact I|].
  set (h0 := new_f64 (fnan f64) :: _).
  eapply (orel_bind _ _ _ _ (Forall2 bin64_rel)).
  - apply (orel_foldM _ _ _ _ gh_rel).
    + pose proof (F2_combine _ _ _ _ _ _ _ _ _ _ (F2_combine _ _ _ _ _ _ _ _ _ _ (F2_refl _ index) F) (F2_refl _ sh)) as H.
      clearbody h0. revert H. generalize (combine (combine index sg) sh) (combine (combine index sg') sh). intros l l' H.
      induction H as [|[[a b] c] [[a' b'] c'] l l' [[H1 H2] H3] F' IH]; constructor; auto.
      simpl in *. repeat split; simpl; auto.
    + intros h h' [[i g] k] [[i' g'] k'] HH (E1 & E2 & E3). simpl in *. subst i' k'.
      destruct (nth_error f i); simpl; auto. apply add_row_rel; auto.
    + subst h0.
      assert (Z : forall v, bin64_rel (new_f64 v) (new_f64 v)) by (intros v; split; simpl; auto; apply (s64_zero L)).
      constructor; [apply Z|]. induction (firstn _ _); simpl; auto.
  - intros h h' F'. simpl. eapply F2_map; [exact F'|]. intros b b' (B1 & B2 & B3). unfold bin_rel, as_f32_bin. simpl.
    rewrite B2. split; auto. apply (s_to32 L); auto.
Qed.

Lemma sort_gh_rel : forall g g' h index b, Forall2 G g g' ->
  orel (fun a a' => Forall2 G (fst a) (fst a') /\ snd a' = snd a) (sort_gh g h index b) (sort_gh g' h index b).
Proof.
  intros g g' h index b F. unfold sort_gh. destruct b; [|simpl; auto].
  eapply orel_bind; [apply orel_mapM_same; intros i; apply orel_nth; exact F|]. intros a a' A.
  destruct (mapM (nth_error h) index); simpl; auto.
Qed.

Lemma hist_new_rel : forall data cuts g g' h index cols b, Forall2 G g g' ->
  orel hist_rel (hist_new_serial data cuts g h index cols b) (hist_new_serial data cuts g' h index cols b).
Proof.
  intros data cuts g g' h index cols b F. unfold hist_new_serial.
  eapply orel_bind; [apply sort_gh_rel; exact F|]. intros [sg sh] [sg' sh'] [F1 F2]. simpl in F1, F2. subst sh'.
  eapply (orel_bind _ _ _ _ (Forall2 (Forall2 bin_rel))).
  - apply orel_mapM_same. intros c. unfold col_histogram. destruct (m_get_col data c) as [fc|]; simpl; auto.
    destruct (j_get_col cuts c) as [cc|]; simpl; auto. apply create_hist_rel; auto.
  - intros hs hs' F'. unfold hist_assemble. destruct (if _ =? _ then _ else _) as [ends|]; simpl; auto.
    constructor; simpl; auto. apply F2_concat; auto.
Qed.

Lemma hist_sub_rel : forall h h' c c', hist_rel h h' -> hist_rel c c' -> hist_rel (hist_from_parent_child h c) (hist_from_parent_child h' c').
Proof.
  intros h h' c c' [H1 H2 H3 H4] [C1 C2 C3 C4]. constructor; simpl; auto.
  eapply F2_map; [apply F2_combine; [exact H1|exact C1]|]. intros [a b] [a' b'] [(A1 & A2 & A3) (B1 & B2 & B3)]. simpl in *.
  unfold bin_rel, bin_from_parent_child. simpl. rewrite A2, B2. split; auto. apply (sl_sub L); auto.
Qed.
Lemma hist_sub2_rel : forall h h' c c' d d', hist_rel h h' -> hist_rel c c' -> hist_rel d d' ->
  hist_rel (hist_from_parent_two_children h c d) (hist_from_parent_two_children h' c' d').
Proof.
  intros h h' c c' d d' [H1 H2 H3 H4] [C1 C2 C3 C4] [D1 D2 D3 D4]. constructor; simpl; auto.
  eapply F2_map; [apply F2_combine; [apply F2_combine; [exact H1|exact C1]|exact D1]|].
  intros [[a b] e] [[a' b'] e'] [[(A1 & A2 & A3) (B1 & B2 & B3)] (E1 & E2 & E3)]. simpl in *.
  unfold bin_rel, bin_from_parent_two_children. simpl. rewrite A2, B2, E2. split; auto. apply (sl_sub L); auto. apply (sl_add L); auto.
Qed.
Lemma hist_empty_rel : hist_rel hist_empty hist_empty.
Proof. constructor; simpl; auto. Qed.

(** *** Growing *)
Record train_rel (t t' : Train) : Prop := mkTR {
  tr_r_data : tr_data t' = tr_data t; tr_r_cuts : tr_cuts t' = tr_cuts t; tr_r_grad : Forall2 G (tr_grad t) (tr_grad t');
  tr_r_hess : tr_hess t' = tr_hess t; tr_r_cols : tr_cols t' = tr_cols t }.
Variables t t' : Train.
Hypothesis T : train_rel t t'.

(** a node of the growing tree, with the bounds it will search under in order *)
Definition gnrel (n n' : SplittableNode) : Prop := snode_rel n n' /\ obounds (sn_lower n, sn_upper n).

Lemma hist_of_rel : forall sub, orel hist_rel (hist_of t sub) (hist_of t' sub).
Proof.
  intros sub. unfold hist_of. destruct T as [T1 T2 T3 T4 T5]. rewrite T1, T2, T4, T5. apply hist_new_rel; auto.
Qed.

Lemma info_node_rel : forall num h h' d a b i i', hist_rel h h' -> info_rel_b i i' -> obounds (ni_bounds i) ->
  gnrel (from_node_info num h d a b i) (from_node_info num h' d a b i').
Proof.
  intros num h h' d a b i i' H [[I1 I2 I3 I4] IB] OB. split.
  - constructor; simpl; auto; apply (sq_zero L).
  - simpl. destruct (ni_bounds i); exact OB.
Qed.
Lemma missing_leaf_rel : forall n n' b, gnrel n n' -> gnrel (set_missing_leaf n b) (set_missing_leaf n' b).
Proof. intros n n' b [[] OB]. split; [constructor; simpl; auto|exact OB]. Qed.
Lemma update_children_rel : forall n n' m l r si si', snode_rel n n' -> split_rel si si' ->
  snode_rel (update_children n m l r si) (update_children n' m l r si').
Proof.
  intros n n' m l r si si' N SI. pose proof N as []. pose proof SI as []. constructor; simpl; auto.
  apply split_gain_rel; auto using ib_info; apply (sq_zero L).
Qed.

Definition out_rel (o o' : list SplittableNode * SplittableNode * list nat) : Prop :=
  Forall2 gnrel (fst (fst o)) (fst (fst o')) /\ snode_rel (snd (fst o)) (snd (fst o')) /\ snd o' = snd o.

Lemma handle_imputer_rel : forall si si' nn n n' index, srel si si' -> snode_rel n n' ->
  orel out_rel (handle_imputer t si nn n index) (handle_imputer t' si' nn n' index).
Proof.
  intros si si' nn n n' index [SI SO] N. unfold handle_imputer.
  destruct SI as [S1 S2 S3 S4 S5 S6 S7]. destruct SO as (O1 & O2 & _).
  eapply (orel_bind _ _ _ _ eq); [destruct S7; simpl; auto|]. intros mr ? ->.
  rewrite (nr_start _ _ N), (nr_stop _ _ N). destruct (slice index (sn_start n) (sn_stop n)) as [sub|]; simpl; auto.
  rewrite (tr_r_data _ _ T), S2, S4. destruct (m_get_col (tr_data t) (si_feature si)) as [fc|]; simpl; auto.
  destruct (pivot_on_split sub fc (si_bin si) b) as [[sub1 sp]|]; simpl; auto.
  destruct (sp <=? sn_stop n - sn_start n); simpl; auto. set (ix := splice index _ _).
  eapply (orel_bind _ _ _ _ (fun a a' => hist_rel (fst a) (fst a') /\ hist_rel (snd a) (snd a'))).
  - destruct (_ <? _).
    + eapply orel_bind; [destruct (slice ix (sn_start n) _); simpl; [apply hist_of_rel|exact I]|]. intros h h' H. simpl.
      split; auto. apply hist_sub_rel; auto. apply N.
    + eapply orel_bind; [destruct (slice ix _ (sn_stop n)); simpl; [apply hist_of_rel|exact I]|]. intros h h' H. simpl.
      split; auto. apply hist_sub_rel; auto. apply N.
  - intros [lh rh] [lh' rh'] [H1 H2]. simpl in H1, H2. simpl. rewrite (nr_depth _ _ N), ?(nr_start _ _ N), ?(nr_stop _ _ N). split; [|split; [|reflexivity]].
    + constructor; [apply info_node_rel; auto|]. constructor; [apply info_node_rel; auto|]. constructor.
    + apply update_children_rel; auto. constructor; auto.
Qed.

Lemma handle_branch_rel : forall p term treat si si' nn n n' index p', srel si si' -> snode_rel n n' ->
  orel out_rel (handle_branch p term treat t si nn n index) (handle_branch p' term treat t' si' nn n' index).
Proof.
  intros p term treat si si' nn n n' index p' [SI SO] N. unfold handle_branch.
  pose proof SI as [S1 S2 S3 S4 S5 S6 S7]. destruct SO as (O1 & O2 & O3).
  eapply (orel_bind _ _ _ _ (fun a a' => fst a' = fst a /\ info_rel_b (snd a) (snd a') /\ obounds (ni_bounds (snd a)))).
  { rewrite S2. destruct S7; simpl in *; auto. }
  intros [ml i] [ml' i'] (E1 & E2 & E3). simpl in E1, E2, E3. subst ml'.
  assert (IM : let f t n i := match t with AssignToParent => mkNodeInfo (ni_grad i) (ni_gain i) (ni_cover i) (sn_weight n) (ni_bounds i) | _ => i end in
     info_rel_b (f treat n i) (f treat n' i') /\ obounds (ni_bounds (f treat n i))).
  { destruct treat; simpl; auto. split; auto. destruct E2 as [[I1 I2 I3 I4] IB]. constructor; auto. constructor; simpl; auto. apply N. }
  cbv zeta beta in IM. cbn [sn_weight update_children].
  set (inf := match treat with AssignToParent => _ | _ => i end) in *.
  set (inf' := match treat with AssignToParent => _ | _ => i' end) in *. destruct IM as [IM IO].
  cbn [sn_start sn_stop sn_hist sn_depth update_children].
  rewrite (nr_start _ _ N), (nr_stop _ _ N). destruct (slice index (sn_start n) (sn_stop n)) as [sub|]; simpl; auto.
  rewrite (tr_r_data _ _ T), S2, S4. destruct (m_get_col (tr_data t) (si_feature si)) as [fc|]; simpl; auto.
  destruct (pivot_on_split_exclude_missing sub fc (si_bin si)) as [[sub1 [ms sp]]|]; simpl; auto.
  destruct (sp <=? sn_stop n - sn_start n); simpl; auto. set (ix := splice index _ _).
  match goal with |- orel _ (if ?b then _ else _) _ => destruct b; [|exact I] end.
  assert (HH : forall a b, orel hist_rel (let* sub := slice ix a b in hist_of t sub) (let* sub := slice ix a b in hist_of t' sub)).
  { intros a b. destruct (slice ix a b); simpl; [apply hist_of_rel|exact I]. }
  pose proof (nr_hist _ _ N) as HN.
  eapply (orel_bind _ _ _ _ (fun a a' => let '(m, x, y, z) := a in let '(m', x', y', z') := a' in m' = m /\ hist_rel x x' /\ hist_rel y y' /\ hist_rel z z')).
  - repeat match goal with |- orel _ (if ?b then _ else _) _ => destruct b end;
      (eapply orel_bind; [apply HH|]; intros h h' H; try (eapply orel_bind; [apply HH|]; intros k k' K)); simpl;
      (split; [reflexivity|split; [|split]]); auto using hist_empty_rel, hist_sub_rel, hist_sub2_rel.
  - intros [[[m x] y] z] [[[m' x'] y'] z'] (-> & X & Y & Z). simpl. rewrite (nr_depth _ _ N), ?(nr_start _ _ N), ?(nr_stop _ _ N). split; [|split; [|reflexivity]].
    + constructor; [apply missing_leaf_rel, info_node_rel; auto|]. constructor; [apply info_node_rel; auto|].
      constructor; [apply info_node_rel; auto|]. constructor.
    + apply update_children_rel; auto.
Qed.

Lemma handle_which : (handle_split_info s = handle_imputer /\ handle_split_info s' = handle_imputer) \/
  exists p p' term treat, handle_split_info s = handle_branch p term treat /\ handle_split_info s' = handle_branch p' term treat.
Proof. destruct S as [p p' P|p p' term tt force P]; [left; auto|right]. exists p, p', term, tt. auto. Qed.

Lemma split_node_rel : forall nn n n' index, gnrel n n' -> orel out_rel (split_node s t nn n index) (split_node s' t' nn n' index).
Proof.
  intros nn n n' index [N OB]. unfold split_node. rewrite (tr_r_cols _ _ T).
  eapply orel_bind; [apply best_split_rel; auto|]. intros [si|] [si'|] H; simpl in H; try tauto.
  - destruct handle_which as [[-> ->]|(p & p' & term & treat & -> & ->)]; [apply handle_imputer_rel|apply handle_branch_rel]; auto.
  - split; [constructor|]. split; auto.
Qed.

Lemma as_node_rel : forall n n' lr, snode_rel n n' -> node_rel (as_node n lr) (as_node n' lr).
Proof. intros n n' lr []. constructor; simpl; auto. apply (sl_mulh L); auto. Qed.
Lemma make_parent_rel : forall o o' n n', node_rel o o' -> snode_rel n n' -> node_rel (make_parent_node o n) (make_parent_node o' n').
Proof. intros o o' n n' [] []. constructor; simpl; auto. Qed.

Record grow_rel (g g' : Grow) : Prop := mkGR {
  gl_nodes : Forall2 node_rel (g_nodes g) (g_nodes g'); gl_pending : Forall2 gnrel (g_pending g) (g_pending g');
  gl_index : g_index g' = g_index g; gl_n : g_n_nodes g' = g_n_nodes g; gl_leaves : g_n_leaves g' = g_n_leaves g }.

Lemma grow_node_rel : forall md n n' st st', gnrel n n' -> grow_rel st st' ->
  orel grow_rel (grow_node s t md n st) (grow_node s' t' md n' st').
Proof.
  intros md n n' st st' N GR. pose proof N as [N1 _]. pose proof GR as [G1 G2 G3 G4 G5]. unfold grow_node.
  rewrite (nr_depth _ _ N1), G3, G4, G5. destruct (md <? sn_depth n + 1); [exact GR|].
  eapply orel_bind; [apply split_node_rel; auto|]. intros [[new m] ix] [[new' m'] ix'] (O1 & O2 & O3). simpl in O1, O2, O3. subst ix'.
  destruct O1 as [|c c' cs cs' C CS]; [simpl; constructor; auto|].
  eapply (orel_bind _ _ _ _ node_rel); [rewrite (nr_num _ _ N1); apply orel_nth; auto|]. intros o o' OO.
  eapply orel_bind; [rewrite (nr_num _ _ N1); apply orel_update; [exact G1|apply make_parent_rel; eauto]|].
  intros nodes nodes' NN. simpl. rewrite (F2_len _ _ _ _ _ CS), (pr_lr _ _ (splitter_params _ _ S)).
  assert (CC : Forall2 gnrel (c :: cs) (c' :: cs')) by (constructor; auto).
  unfold push_children. simpl. constructor; simpl; auto.
  - apply Forall2_app; auto. apply (F2_map _ _ _ _ _ _ (fun n => as_node n _) (fun n => as_node n _) _ _ CC). intros a b [A _]. apply as_node_rel; auto.
  - apply Forall2_app; auto. apply (F2_filter _ _ _ (fun n => negb (sn_is_missing_leaf n)) (fun n => negb (sn_is_missing_leaf n)) _ _ CC).
    intros a b [A _]. rewrite (nr_ml _ _ A). reflexivity.
Qed.

(** The heap compares gains with total_cmp (node.rs:47-51): a queue whose choice depends on the outcomes of these
    comparisons only. *)
Definition order_based (pick : pick_fn) : Prop := forall step l l', length l' = length l ->
  (forall i j a b a' b', nth_error l i = Some a -> nth_error l j = Some b -> nth_error l' i = Some a' -> nth_error l' j = Some b' ->
     ftotal f32 (sn_gain a') (sn_gain b') = ftotal f32 (sn_gain a) (sn_gain b)) -> pick step l' = pick step l.
Definition total_law : Prop := forall x x' y y', Q x x' -> Q y y' -> ftotal f32 x' y' = ftotal f32 x y.

Lemma pop_rel : forall policy pick step l l', (policy = LossGuide -> order_based pick /\ total_law) -> Forall2 gnrel l l' ->
  orel (fun a a' => gnrel (fst a) (fst a') /\ Forall2 gnrel (snd a) (snd a')) (pop_node policy pick step l) (pop_node policy pick step l').
Proof.
  intros policy pick step l l' OB F. unfold pop_node.
  assert (E : policy = LossGuide -> pick step l' = pick step l).
  { intros PL. destruct (OB PL) as [OP TL]. apply OP; [apply (F2_len _ _ _ _ _ F)|].
    intros i j a b a' b' A B A' B'. pose proof (orel_nth _ _ _ _ _ i F) as Fi. pose proof (orel_nth _ _ _ _ _ j F) as Fj.
    rewrite A, A' in Fi. rewrite B, B' in Fj. simpl in Fi, Fj. apply TL; [apply Fi|apply Fj]. }
  pose proof F as F'. destruct F' as [|a a' r r' A R]; [exact I|]. destruct policy; [simpl; auto|].
  rewrite (E eq_refl), (F2_len _ _ _ _ _ F).
  eapply orel_bind; [apply orel_nth; exact F|]. intros n n' N. split; auto. apply Forall2_app; [apply F2_firstn|apply F2_skipn]; auto.
Qed.

Lemma grow_loop_rel : forall policy pick ml md fuel st st', (policy = LossGuide -> order_based pick /\ total_law) -> grow_rel st st' ->
  orel grow_rel (grow_loop fuel policy pick s t ml md st) (grow_loop fuel policy pick s' t' ml md st').
Proof.
  intros policy pick ml md fuel. induction fuel as [|fu IH]; intros st st' OB GR; pose proof GR as [G1 G2 G3 G4 G5]; cbn [grow_loop]; rewrite G5.
  - pose proof (F2_len _ _ _ _ _ G2) as LE. destruct (g_pending st), (g_pending st'); try discriminate; [exact GR|].
    unfold new_leaves_added. destruct (ml <? _); [exact GR|exact I].
  - pose proof (pop_rel policy pick (Datatypes.S fu) _ _ OB G2) as PR. pose proof (F2_len _ _ _ _ _ G2) as LE.
    destruct (g_pending st), (g_pending st'); try discriminate; [exact GR|].
    unfold new_leaves_added. destruct (ml <? _); [exact GR|].
    eapply orel_bind; [exact PR|]. intros [n rest] [n' rest'] [N R]. simpl in N, R.
    eapply orel_bind; [apply grow_node_rel; [exact N|]|]; [|intros u u' U; apply IH; auto].
    rewrite G3, G4. constructor; auto.
Qed.

(** *** The averaging pass *)
Lemma set_weight_rel : forall n n' w w', node_rel n n' -> G w w' -> node_rel (set_weight n w) (set_weight n' w').
Proof. intros n n' w w' [] W. constructor; simpl; auto. Qed.

Lemma average_rel : forall fuel nodes nodes' i, Forall2 node_rel nodes nodes' ->
  orel (fun a a' => G64 (fst a) (fst a') /\ Forall2 node_rel (snd a) (snd a'))
    (update_average_missing_nodes fuel nodes i) (update_average_missing_nodes fuel nodes' i).
Proof.
  induction fuel as [|fu IH]; intros nodes nodes' i F; simpl; auto.
  eapply orel_bind; [apply orel_nth; exact F|]. intros n n' N. rewrite (o_leaf _ _ N).
  destruct (n_is_leaf n); [simpl; split; auto; apply (s_to64 L), N|]. rewrite (o_right _ _ N), (o_left _ _ N), (o_missing _ _ N), (o_num _ _ N).
  eapply orel_bind; [apply orel_nth; exact F|]. intros rn rn' RN. rewrite (o_hess _ _ RN).
  eapply orel_bind; [apply IH; exact F|]. intros [ra l1] [ra' l1'] [R1 F1]. simpl in R1, F1.
  eapply orel_bind; [apply orel_nth; exact F1|]. intros ln ln' LN. rewrite (o_hess _ _ LN).
  eapply orel_bind; [apply IH; exact F1|]. intros [la l2] [la' l2'] [R2 F2]. simpl in R2, F2.
  eapply orel_bind; [apply orel_nth; exact F2|]. intros mn mn' MN. rewrite (o_leaf _ _ MN), (o_hess _ _ MN).
  eapply (orel_bind _ _ _ _ (fun a a' => let '(h, av, b, l) := a in let '(h', av', b', l') := a' in h' = h /\ G64 av av' /\ b' = b /\ Forall2 node_rel l l')).
  - destruct (n_is_leaf mn); [simpl; repeat split; auto; apply (s64_zero L)|].
    eapply orel_bind; [apply IH; exact F2|]. intros [ma l3] [ma' l3'] [R3 F3]. simpl. auto.
  - intros [[[h a] b] l3] [[[h' a'] b'] l3'] (-> & A & -> & F3).
    match goal with |- orel _ (Some (?u, _)) (Some (?u', _)) => assert (U : G64 u u') by
      (apply (s64_div L), (s64_add L); [apply (s64_add L)|]; apply (s64_mulh L); auto) end.
    assert (SET : forall k l l' w w', Forall2 node_rel l l' -> G w w' -> Forall2 node_rel
      (match nth_error l k with Some n => match update l k (set_weight n w) with Some l => l | None => l end | None => l end)
      (match nth_error l' k with Some n => match update l' k (set_weight n w') with Some l => l | None => l' end | None => l' end)).
    { intros k l l' w w' FL W. pose proof (orel_nth _ _ _ _ _ k FL) as E. destruct (nth_error l k) as [x|]; destruct (nth_error l' k) as [x'|]; simpl in E; try tauto; auto.
      pose proof (orel_update _ _ _ _ _ k _ _ FL (set_weight_rel _ _ _ _ E W)) as UU.
      destruct (update l k _), (update l' k _); simpl in UU; tauto. }
    split; [exact U|]. cbn [snd]. destruct b; [apply SET|]; try (apply SET; auto); auto using (s_to32 L).
Qed.

Lemma clean_up_rel : forall nodes nodes', Forall2 node_rel nodes nodes' ->
  orel (Forall2 node_rel) (clean_up_splits s nodes) (clean_up_splits s' nodes').
Proof.
  intros nodes nodes' F. pose proof (fun f => average_rel f nodes nodes' 0 F) as AV.
  destruct S as [p p' P|p p' term tt force P]; simpl; auto. destruct tt; simpl; auto.
  rewrite (F2_len _ _ _ _ _ F). eapply orel_bind; [apply AV|]. intros [a l] [a' l'] [_ H]. exact H.
Qed.

(** *** Sums and the root *)
Lemma fold_add_rel : forall l l' a a', Forall2 G64 l l' -> G64 a a' -> G64 (fold_left (fadd f64) l a) (fold_left (fadd f64) l' a').
Proof. intros l l' a a' F. revert a a'. induction F; simpl; auto. intros a a' A. apply IHF, (s64_add L); auto. Qed.
Lemma lanes_rel : forall acc acc' c c', Forall2 G64 acc acc' -> Forall2 G64 c c' -> Forall2 G64 (add_lanes f64 acc c) (add_lanes f64 acc' c').
Proof.
  intros acc acc' c c' F. revert c c'. induction F; intros c c' FC; simpl; auto. destruct FC; auto. constructor; auto. apply (s64_add L); auto.
Qed.
Lemma chunks_rel : forall k l l' acc acc', Forall2 G64 l l' -> Forall2 G64 acc acc' ->
  Forall2 G64 (fst (fold_chunks f64 k l acc)) (fst (fold_chunks f64 k l' acc')) /\
  Forall2 G64 (snd (fold_chunks f64 k l acc)) (snd (fold_chunks f64 k l' acc')).
Proof.
  induction k as [|k IH]; intros l l' acc acc' F A; [simpl; auto|]. cbn [fold_chunks].
  apply IH; [apply F2_skipn; auto|]. apply lanes_rel; auto. apply F2_firstn; auto.
Qed.
Lemma fast_sum_rel : forall l l', Forall2 G64 l l' -> G64 (fast_sum f64 l) (fast_sum f64 l').
Proof.
  intros l l' F. unfold fast_sum. rewrite (F2_len _ _ _ _ _ F).
  destruct (chunks_rel (length l / LANES) l l' (repeat (fzero f64) LANES) (repeat (fzero f64) LANES) F (F2_repeat _ _ _ _ _ _ (s64_zero L))) as [A B].
  destruct (fold_chunks f64 _ l _) as [s1 r1]. destruct (fold_chunks f64 _ l' _) as [s1' r1']. simpl in A, B.
  apply (s64_add L); apply fold_add_rel; auto; apply (s64_zero L).
Qed.
Lemma to64_F2 : forall l l', Forall2 G l l' -> Forall2 G64 (map to64 l) (map to64 l').
Proof. intros l l' F. eapply F2_map; [exact F|]. apply (s_to64 L). Qed.

Lemma root_rel : forall index sm, orel gnrel (root_node s t index sm) (root_node s' t' index sm).
Proof.
  intros index sm. pose proof T as [T1 T2 T3 T4 T5]. pose proof (splitter_params _ _ S) as P. unfold root_node.
  rewrite T1, T2, T4, T5.
  eapply (orel_bind _ _ _ _ (fun a a' => let '(g, h, b) := a in let '(g', h', b') := a' in G g g' /\ h' = h /\ b' = b)).
  - unfold root_sums. destruct sm.
    + simpl. split; auto. unfold fast_f64_sum. apply (s_to32 L), fast_sum_rel, to64_F2; auto.
    + eapply orel_bind; [apply orel_mapM_same; intros i; apply orel_nth; exact T3|]. intros g g' F.
      destruct (mapM (nth_error (tr_hess t)) index); simpl; auto. split; auto. apply (s_to32 L), fold_add_rel; [apply to64_F2; auto|apply (s64_zero L)].
    + eapply orel_bind; [apply orel_mapM_same; intros i; apply orel_nth; exact T3|]. intros g g' F.
      destruct (mapM (nth_error (tr_hess t)) index); simpl; auto. split; auto. apply (s_to32 L), fold_add_rel; [apply to64_F2; auto|apply (s64_zero L)].
  - intros [[g h] b] [[g' h'] b'] (Hg & -> & ->). eapply orel_bind; [apply hist_new_rel; exact T3|]. intros k k' K. simpl. split.
    + constructor; simpl; auto; try apply (sq_zero L).
      * rewrite (pr_l2 _ _ P). apply (pr_weight _ _ P); auto.
      * apply (gain_rel _ _ P); auto.
      * unfold brel. simpl. pose proof (sl_inf L) as SI. destruct neg; tauto.
    + right. apply (sl_inf_lt L).
Qed.

Theorem tree_rel : forall policy pick index ml md sm, (policy = LossGuide -> order_based pick /\ total_law) ->
  orel (fun a a' => Forall2 node_rel (fst a) (fst a')) (tree_fit policy pick s t index ml md sm) (tree_fit policy pick s' t' index ml md sm).
Proof.
  intros policy pick index ml md sm OB. unfold tree_fit. eapply orel_bind; [apply root_rel|]. intros r r' R.
  eapply orel_bind; [apply grow_loop_rel; auto|].
  - unfold grow_init. rewrite (pr_lr _ _ (splitter_params _ _ S)). constructor; simpl; auto. constructor; auto. apply as_node_rel, R.
  - intros g g' GR. eapply orel_bind; [apply clean_up_rel, GR|]. intros n n' N. exact N.
Qed.
End Scale.
