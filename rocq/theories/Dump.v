(** The text of a model: node.rs:218-242 (Display for Node), tree.rs:545-565 (Display for Tree) and
    py-forust/src/lib.rs:304-310 (text_dump).  The text of a floating point number is an oracle. *)
From Coq Require Import List Arith Lia Bool Permutation String Ascii Decimal DecimalString.
From Verif Require Import Prelude Float Data Utils Node Splitter Tree TreeWf Objective Metric Sampler Contrib ImportProofs Booster PredictProofs Serde SerdeProofs.
Import ListNotations.
Local Open Scope string_scope.

Section Text.
Context {FS : Floats}.
Variables (show32 : F32 -> string) (show64 : F64 -> string).

(** node.rs:220-241 *)
Definition node_text (n : Node) : string :=
  if n_is_leaf n then nat_text (n_num n) ++ ":leaf=" ++ show32 (n_weight n) ++ ",cover=" ++ show32 (n_hess n)
  else nat_text (n_num n) ++ ":[" ++ nat_text (n_split_feature n) ++ " < " ++ show64 (n_split_value n) ++ "] yes=" ++ nat_text (n_left n)
    ++ ",no=" ++ nat_text (n_right n) ++ ",missing=" ++ nat_text (n_missing n) ++ ",gain=" ++ show32 (n_split_gain n) ++ ",cover=" ++ show32 (n_hess n).

(** str::repeat *)
Fixpoint repeat_text (s : string) (k : nat) : string := match k with 0 => "" | S k => s ++ repeat_text s k end.
Definition newline : ascii := ascii_of_nat 10.
(** tree.rs:553, 555 *)
Definition line (n : Node) : string := repeat_text "      " (n_depth n) ++ node_text n ++ String newline "".
Definition lines (out : list Node) : string := fold_right (fun n r => line n ++ r) "" out.
(** tree.rs:547-564; [tree_dump] is the order in which the loop meets the nodes *)
Definition tree_text (nodes : list Node) : option string := let* out := tree_dump nodes in Some (lines out).
(** lib.rs:304-310 *)
Definition text_dump (b : Booster) : option (list string) := mapM tree_text (gb_trees b).
End Text.

(** What is assumed of the text of numbers: different numbers have different texts, which do not
    contain a comma, a closing bracket or a line end. *)
Fixpoint has (c : ascii) (s : string) : bool := match s with "" => false | String d r => Ascii.eqb d c || has c r end.
Record number_text {A} (show : A -> string) : Prop := mkNT {
  nt_inj : forall x y, show x = show y -> x = y;
  nt_comma : forall x, has "," (show x) = false;
  nt_bracket : forall x, has "]" (show x) = false;
  nt_newline : forall x, has newline (show x) = false }.

(** *** Strings *)
Lemma sapp_assoc : forall a b c : string, (a ++ b) ++ c = a ++ b ++ c.
Proof. induction a as [|x a IH]; intros; [reflexivity|]. change (String x ((a ++ b) ++ c) = String x (a ++ b ++ c)). rewrite IH. reflexivity. Qed.
Lemma has_app : forall c a b, has c (a ++ b) = has c a || has c b.
Proof. induction a as [|x a IH]; intros; [reflexivity|]. cbn. rewrite IH. apply orb_assoc. Qed.

Lemma cut : forall c a b x y, has c a = false -> has c b = false -> a ++ String c x = b ++ String c y -> a = b /\ x = y.
Proof.
  intros c. induction a as [|u a IH]; intros [|v b] x y HA HB E; cbn in *.
  - injection E as ->. auto.
  - injection E as -> _. rewrite Ascii.eqb_refl in HB. discriminate.
  - injection E as <- _. rewrite Ascii.eqb_refl in HA. discriminate.
  - apply orb_false_iff in HA, HB. injection E as <- E. destruct (IH b x y (proj2 HA) (proj2 HB) E) as [-> ->]. auto.
Qed.

Definition digit (c : ascii) : bool := ((48 <=? nat_of_ascii c) && (nat_of_ascii c <=? 57))%nat.
Fixpoint digits (s : string) : bool := match s with "" => true | String c r => digit c && digits r end.
Lemma digits_uint : forall u, digits (NilEmpty.string_of_uint u) = true.
Proof. induction u; cbn [NilEmpty.string_of_uint digits]; auto. Qed.
Lemma digits_nat : forall n, digits (nat_text n) = true.
Proof. intros n. unfold nat_text, NilZero.string_of_uint. destruct (Nat.to_uint n) eqn:E; try reflexivity; rewrite <- E; apply digits_uint. Qed.
Lemma digits_has : forall c s, digits s = true -> digit c = false -> has c s = false.
Proof.
  intros c. induction s as [|d s IH]; intros H D; [reflexivity|]. cbn in *. apply andb_true_iff in H. destruct H as [H1 H2].
  rewrite IH by auto. destruct (Ascii.eqb_spec d c); [congruence|reflexivity].
Qed.
Lemma nat_text_has : forall c n, digit c = false -> has c (nat_text n) = false.
Proof. intros. apply digits_has; auto. apply digits_nat. Qed.

Lemma spaces_cut : forall d e a b, has " " a = false -> has " " b = false ->
  repeat_text "      " d ++ a = repeat_text "      " e ++ b -> d = e /\ a = b.
Proof.
  assert (Z : forall e a b, has " " a = false -> a = repeat_text "      " (S e) ++ b -> False).
  { intros e a b HA E. rewrite E in HA. cbn in HA. discriminate. }
  induction d as [|d IH]; intros [|e] a b HA HB E.
  - split; [reflexivity|exact E].
  - exfalso. exact (Z e a b HA E).
  - exfalso. exact (Z d b a HB (eq_sym E)).
  - cbn in E. injection E as E. destruct (IH e a b HA HB E). auto.
Qed.

(** *** What a line shows *)
Section Shown.
Context {FS : Floats}.
Variables (show32 : F32 -> string) (show64 : F64 -> string).
Hypotheses (N32 : number_text show32) (N64 : number_text show64).

Definition shown (n m : Node) : Prop :=
  n_num n = n_num m /\ n_depth n = n_depth m /\ n_is_leaf n = n_is_leaf m /\ n_hess n = n_hess m /\
  (n_is_leaf n = true -> n_weight n = n_weight m) /\
  (n_is_leaf n = false -> n_split_feature n = n_split_feature m /\ n_split_value n = n_split_value m /\ n_split_gain n = n_split_gain m /\
     n_left n = n_left m /\ n_right n = n_right m /\ n_missing n = n_missing m).

Lemma line_shown : forall n m r s, line show32 show64 n ++ r = line show32 show64 m ++ s -> shown n m /\ r = s.
Proof.
  intros n m r s E.
  assert (NL : forall x, has newline (show32 x) = false) by apply (nt_newline _ N32).
  assert (L : forall k, line show32 show64 k = (repeat_text "      " (n_depth k) ++ nat_text (n_num k)) ++
     String ":" (if n_is_leaf k then "leaf=" ++ show32 (n_weight k) ++ String "," ("cover=" ++ show32 (n_hess k) ++ String newline "")
       else "[" ++ nat_text (n_split_feature k) ++ String " " ("< " ++ show64 (n_split_value k) ++ String "]" (" yes=" ++ nat_text (n_left k)
         ++ String "," ("no=" ++ nat_text (n_right k) ++ String "," ("missing=" ++ nat_text (n_missing k) ++ String "," ("gain=" ++ show32 (n_split_gain k)
         ++ String "," ("cover=" ++ show32 (n_hess k) ++ String newline ""))))))) ).
  { intros k. unfold line, node_text. destruct (n_is_leaf k); rewrite !sapp_assoc; reflexivity. }
  rewrite !L in E. clear L. rewrite !sapp_assoc in E. rewrite <- !(sapp_assoc (repeat_text _ _)) in E.
  cbn [append] in E.
  assert (HD : forall k, has ":" (repeat_text "      " (n_depth k) ++ nat_text (n_num k)) = false).
  { intros k. rewrite has_app, nat_text_has by reflexivity. rewrite orb_false_r. generalize (n_depth k). induction n0; [reflexivity|]. cbn. auto. }
  apply cut in E; auto. destruct E as [E1 E]. apply spaces_cut in E1; try (apply nat_text_has; reflexivity). destruct E1 as [ED EN]. apply nat_text_inj in EN.
  assert (HC : forall x, has "," (show32 x) = false) by apply (nt_comma _ N32).
  assert (HB : forall x, has "]" (show64 x) = false) by apply (nt_bracket _ N64).
  unfold shown. destruct (n_is_leaf n), (n_is_leaf m); cbn [append] in E; try discriminate E.
  - injection E as E. rewrite !sapp_assoc in E. cbn [append] in E. apply cut in E; auto. destruct E as [EW E].
    cbn [append] in E. injection E as E. rewrite !sapp_assoc in E. cbn [append] in E. apply cut in E; auto. destruct E as [EH E].
    apply (nt_inj _ N32) in EW, EH. repeat split; auto; try discriminate.
  - injection E as E. rewrite !sapp_assoc in E. cbn [append] in E. apply cut in E; try (apply nat_text_has; reflexivity). destruct E as [EF E].
    cbn [append] in E. injection E as E. rewrite !sapp_assoc in E. cbn [append] in E. apply cut in E; auto. destruct E as [EV E].
    cbn [append] in E. injection E as E. rewrite !sapp_assoc in E. cbn [append] in E. apply cut in E; try (apply nat_text_has; reflexivity). destruct E as [EL E].
    cbn [append] in E. injection E as E. rewrite !sapp_assoc in E. cbn [append] in E. apply cut in E; try (apply nat_text_has; reflexivity). destruct E as [ER E].
    cbn [append] in E. injection E as E. rewrite !sapp_assoc in E. cbn [append] in E. apply cut in E; try (apply nat_text_has; reflexivity). destruct E as [EM E].
    cbn [append] in E. injection E as E. rewrite !sapp_assoc in E. cbn [append] in E. apply cut in E; auto. destruct E as [EG E].
    cbn [append] in E. injection E as E. rewrite !sapp_assoc in E. cbn [append] in E. apply cut in E; auto. destruct E as [EH E].
    apply (nt_inj _ N32) in EG, EH. apply (nt_inj _ N64) in EV. apply nat_text_inj in EF, EL, ER, EM. repeat split; auto; try discriminate.
Qed.

Lemma lines_shown : forall a b, lines show32 show64 a = lines show32 show64 b -> Forall2 shown a b.
Proof.
  assert (NE : forall n r, line show32 show64 n ++ r = "" -> False).
  { intros n r H. unfold line in H. destruct (repeat_text "      " (n_depth n)); [|discriminate]. unfold node_text in H.
    assert (HC : has ":" ("" : string) = true); [|discriminate]. rewrite <- H.
    destruct (n_is_leaf n); rewrite !has_app; cbn [has append]; rewrite !orb_true_r; reflexivity. }
  induction a as [|n a IH]; intros [|m b] H; cbn in H.
  - constructor.
  - exfalso. symmetry in H. eapply NE; eauto.
  - exfalso. eapply NE; eauto.
  - apply line_shown in H. destruct H as [H1 H2]. constructor; auto.
Qed.

(** *** Whole trees *)
Lemma forall2_nth : forall A B (P : A -> B -> Prop) l l', List.length l = List.length l' ->
  (forall k x y, nth_error l k = Some x -> nth_error l' k = Some y -> P x y) -> Forall2 P l l'.
Proof.
  induction l as [|x l IH]; intros [|y l'] L H; try discriminate L; constructor; [exact (H 0 x y eq_refl eq_refl)|].
  apply IH; [injection L; auto|]. intros k. exact (H (S k)).
Qed.
Lemma Forall2_length : forall A B (P : A -> B -> Prop) l l', Forall2 P l l' -> List.length l = List.length l'.
Proof. intros A B P l l' H. induction H; simpl; congruence. Qed.
Lemma nth_forall2 : forall A B (P : A -> B -> Prop) l l' k, Forall2 P l l' ->
  match nth_error l k, nth_error l' k with Some x, Some y => P x y | None, None => True | _, _ => False end.
Proof. intros A B P l l' k H. revert k. induction H; intros [|k]; simpl; auto. apply IHForall2. Qed.

Lemma tree_shown : forall t u s, well_formed t -> well_formed u -> tree_text show32 show64 t = Some s -> tree_text show32 show64 u = Some s -> Forall2 shown t u.
Proof.
  intros t u s WT WU ET EU. unfold tree_text in *.
  destruct (dump_lines t WT) as (a & Ea & Pa & _). destruct (dump_lines u WU) as (b & Eb & Pb & _).
  rewrite Ea in ET. rewrite Eb in EU. cbn [bind] in *. injection ET as ET. injection EU as EU. rewrite <- EU in ET. apply lines_shown in ET. clear EU s.
  assert (LE : List.length t = List.length u).
  { rewrite <- (Permutation_length Pa), <- (Permutation_length Pb). exact (Forall2_length _ _ _ _ _ ET). }
  apply forall2_nth; auto. intros k n m Hn Hm.
  assert (IA : In n a) by (apply (Permutation_in _ (Permutation_sym Pa)); eapply nth_error_In; eauto).
  apply In_nth_error in IA. destruct IA as [i Hi].
  destruct (nth_error b i) as [m'|] eqn:Hm'.
  - assert (SH : shown n m') by (clear - ET Hi Hm'; revert i Hi Hm'; induction ET as [|? ? ? ? H ? IH]; intros [|i] Hi Hm'; simpl in *; try discriminate; [congruence|eauto]).
    assert (IB : In m' u) by (apply (Permutation_in _ Pb); eapply nth_error_In; eauto). apply In_nth_error in IB. destruct IB as [j Hj].
    pose proof (wf_num _ WT _ _ Hn) as N1. pose proof (wf_num _ WU _ _ Hj) as N2. pose proof (proj1 SH) as N3. assert (j = k) by congruence. subst j.
    congruence.
  - apply nth_error_None in Hm'. rewrite <- (Forall2_length _ _ _ _ _ ET) in Hm'. apply nth_error_None in Hm'. congruence.
Qed.

(** *** What the text determines *)
Lemma shown_missing : forall n m, shown n m -> n_is_leaf n = false -> has_missing_branch n = has_missing_branch m.
Proof. intros n m S HL. destruct S as (_ & _ & _ & _ & _ & S). destruct (S HL) as (_ & _ & _ & E1 & E2 & E3). unfold has_missing_branch. rewrite E1, E2, E3. reflexivity. Qed.

Definition same_leaf (x y : option Node) : Prop :=
  match x, y with Some n, Some m => n_num n = n_num m /\ n_weight n = n_weight m | None, None => True | _, _ => False end.
Lemma walk_shown : forall t u row missing fuel i, Forall2 shown t u -> same_leaf (walk fuel t row missing i) (walk fuel u row missing i).
Proof.
  intros t u row missing. induction fuel as [|f IH]; intros i H; [exact I|]. cbn [walk]. pose proof (nth_forall2 _ _ _ _ _ i H) as Q.
  destruct (nth_error t i) as [n|], (nth_error u i) as [m|]; try contradiction; [|exact I]. cbn [bind].
  destruct Q as (E1 & _ & E2 & _ & E3 & E4). rewrite <- E2. destruct (n_is_leaf n); [split; auto|].
  destruct (E4 eq_refl) as (A1 & A2 & _ & A3 & A4 & A5). rewrite <- A1. destruct (row (n_split_feature n)) as [v|]; [cbn [bind]|exact I].
  unfold get_child_idx. destruct (is_missing v missing) as [b|]; [cbn [bind]|exact I]. rewrite <- A2, <- A3, <- A4, <- A5. apply IH. exact H.
Qed.

Lemma tree_predict_shown : forall t u data missing, Forall2 shown t u -> tree_predict t data missing = tree_predict u data missing.
Proof.
  intros t u data missing H. unfold tree_predict. apply mapM_ext. intros i _. unfold predict_leaf. rewrite (Forall2_length _ _ _ _ _ H).
  pose proof (walk_shown t u (fun f => m_get data i f) missing (List.length u) 0 H) as Q.
  destruct (walk _ t _ _ _) as [n|], (walk _ u _ _ _) as [m|]; try contradiction; [|reflexivity]. cbn [bind]. rewrite (proj2 Q). reflexivity.
Qed.

Lemma pd_shown : forall t u feature value missing, Forall2 shown t u -> forall fuel i q,
  partial_dependence fuel t i feature value q missing = partial_dependence fuel u i feature value q missing.
Proof.
  intros t u feature value missing H. induction fuel as [|f IH]; intros i q; [reflexivity|]. cbn [partial_dependence]. pose proof (nth_forall2 _ _ _ _ _ i H) as Q.
  destruct (nth_error t i) as [n|], (nth_error u i) as [m|]; try contradiction; [|reflexivity]. cbn [bind].
  pose proof (shown_missing n m Q) as SM.
  destruct Q as (E1 & _ & E2 & E5 & E3 & E4). rewrite <- E2. destruct (n_is_leaf n); [rewrite (E3 eq_refl); reflexivity|].
  destruct (E4 eq_refl) as (A1 & A2 & _ & A3 & A4 & A5). rewrite <- A1. unfold get_child_idx. rewrite <- A2, <- A3, <- A4, <- A5, <- (SM eq_refl).
  destruct (n_split_feature n =? feature)%nat.
  { destruct (is_missing value missing); [cbn [bind]; apply IH|reflexivity]. }
  assert (NH : forall c, (let* x := nth_error t c in Some (n_hess x)) = (let* x := nth_error u c in Some (n_hess x))).
  { intros c. pose proof (nth_forall2 _ _ _ _ _ c H) as Q. destruct (nth_error t c), (nth_error u c); try contradiction; [|reflexivity]. cbn [bind].
    destruct Q as (_ & _ & _ & Q & _). rewrite Q. reflexivity. }
  rewrite <- (NH (n_missing n)).
  pose proof (NH (n_left n)) as HL. pose proof (NH (n_right n)) as HR.
  destruct (nth_error t (n_left n)) as [l|], (nth_error u (n_left n)) as [l'|]; cbn [bind] in HL |- *; try discriminate HL; [|reflexivity].
  destruct (nth_error t (n_right n)) as [r|], (nth_error u (n_right n)) as [r'|]; cbn [bind] in HR |- *; try discriminate HR; [|reflexivity].
  injection HL as HL. injection HR as HR. rewrite HL, HR.
  destruct (if has_missing_branch n then _ else _) as [mc|]; [cbn [bind]|reflexivity]. rewrite !IH. reflexivity.
Qed.

Lemma stats_shown : forall t u stat, Forall2 shown t u -> (forall n m, shown n m -> n_is_leaf n = false -> stat n = stat m) -> forall fuel i s,
  node_stats fuel stat t i s = node_stats fuel stat u i s.
Proof.
  intros t u stat H ST. induction fuel as [|f IH]; intros i s; [reflexivity|]. cbn [node_stats]. pose proof (nth_forall2 _ _ _ _ _ i H) as Q.
  destruct (nth_error t i) as [n|], (nth_error u i) as [m|]; try contradiction; [|reflexivity]. cbn [bind].
  pose proof (shown_missing n m Q) as SM. pose proof (ST n m Q) as SS.
  destruct Q as (E1 & _ & E2 & E5 & E3 & E4). rewrite <- E2. destruct (n_is_leaf n); [reflexivity|].
  destruct (E4 eq_refl) as (A1 & A2 & _ & A3 & A4 & A5). rewrite <- A1, <- A3, <- A4, <- A5, <- (SM eq_refl), <- (SS eq_refl).
  rewrite IH. destruct (node_stats f stat u (n_left n) _) as [s1|]; [cbn [bind]|reflexivity].
  rewrite IH. destruct (node_stats f stat u (n_right n) _) as [s2|]; [cbn [bind]|reflexivity]. rewrite IH. reflexivity.
Qed.

(** *** Models *)
Lemma text_dump_shown : forall b b' s, Forall well_formed (gb_trees b) -> Forall well_formed (gb_trees b') ->
  text_dump show32 show64 b = Some s -> text_dump show32 show64 b' = Some s -> Forall2 (Forall2 shown) (gb_trees b) (gb_trees b').
Proof.
  intros b b' s. unfold text_dump. generalize (gb_trees b) (gb_trees b'). clear b b'. intros l l' W W'. revert l' W' s.
  induction W as [|t l WT W IH]; intros l' W' s E E'.
  - cbn in E. injection E as <-. destruct W' as [|u l']; [constructor|]. cbn [mapM] in E'. destruct (tree_text _ _ u); [cbn [bind] in E'|discriminate].
    destruct (mapM _ l'); discriminate.
  - cbn [mapM] in E. destruct (tree_text show32 show64 t) as [a|] eqn:Ea; [cbn [bind] in E|discriminate].
    destruct (mapM (tree_text show32 show64) l) as [r|] eqn:Er; [cbn [bind] in E|discriminate]. injection E as <-.
    destruct W' as [|u l' WU W']; [discriminate E'|]. cbn [mapM] in E'. destruct (tree_text show32 show64 u) as [a'|] eqn:Ea'; [cbn [bind] in E'|discriminate].
    destruct (mapM (tree_text show32 show64) l') as [r'|] eqn:Er'; [cbn [bind] in E'|discriminate]. injection E' as -> ->.
    constructor; [eapply tree_shown; eauto|]. eapply IH; eauto.
Qed.

Lemma text_dump_total : forall b, Forall well_formed (gb_trees b) -> exists s, text_dump show32 show64 b = Some s.
Proof.
  intros b. unfold text_dump. generalize (gb_trees b). intros l W. induction W as [|t l WT W [r IH]]; [exists []; reflexivity|].
  cbn [mapM]. unfold tree_text at 1. destruct (dump_lines t WT) as (a & -> & _). cbn [bind]. rewrite IH. cbn [bind]. eauto.
Qed.

Lemma foldM_rel : forall A S (R : A -> A -> Prop) (f : S -> A -> option S), (forall s x y, R x y -> f s x = f s y) ->
  forall l l', Forall2 R l l' -> forall s, foldM f l s = foldM f l' s.
Proof. intros A S R f H l l' F. induction F as [|x y l l' HR F IH]; intros s; [reflexivity|]. cbn [foldM]. rewrite (H s x y HR). destruct (f s y); [cbn [bind]; apply IH|reflexivity]. Qed.
Lemma mapM_rel : forall A B (R : A -> A -> Prop) (f : A -> option B), (forall x y, R x y -> f x = f y) ->
  forall l l', Forall2 R l l' -> mapM f l = mapM f l'.
Proof. intros A B R f H l l' F. induction F as [|x y l l' HR F IH]; [reflexivity|]. cbn [mapM]. rewrite (H x y HR), IH. reflexivity. Qed.

Lemma slice_rel : forall A (R : A -> A -> Prop) l l' n, Forall2 R l l' ->
  match slice l 0 n, slice l' 0 n with Some a, Some b => Forall2 R a b | None, None => True | _, _ => False end.
Proof.
  intros A R l l' n F. unfold slice. rewrite (Forall2_length _ _ _ _ _ F). destruct ((0 <=? n) && (n <=? List.length l'))%nat; [|exact I].
  cbn [skipn]. clear - F. generalize (n - 0). intros k. revert k. induction F; intros [|k]; simpl; constructor; auto.
Qed.

Section Models.
Variables (b b' : Booster) (s : list string).
Hypotheses (WB : Forall well_formed (gb_trees b)) (WB' : Forall well_formed (gb_trees b')).
Hypotheses (TB : text_dump show32 show64 b = Some s) (TB' : text_dump show32 show64 b' = Some s).
Hypotheses (EP : gb_pred b = gb_pred b') (EB : gb_base_score b = gb_base_score b') (EM : p_missing (gb_params b) = p_missing (gb_params b')).
Let SH := text_dump_shown b b' s WB WB' TB TB'.

Lemma trees_rel : match prediction_trees b, prediction_trees b' with Some x, Some y => Forall2 (Forall2 shown) x y | None, None => True | _, _ => False end.
Proof. unfold prediction_trees. rewrite <- EP, (Forall2_length _ _ _ _ _ SH). apply slice_rel. exact SH. Qed.

Theorem text_predict : forall shs par data, predict shs b data par = predict shs b' data par.
Proof.
  intros. rewrite !predict_serial. pose proof trees_rel as Q. destruct (prediction_trees b) as [x|], (prediction_trees b') as [y|]; try contradiction; [|reflexivity].
  cbn [bind]. rewrite EM, EB. unfold preds_after. eapply foldM_rel; [|exact Q]. intros acc t u H. cbv beta. rewrite (tree_predict_shown t u _ _ H). reflexivity.
Qed.
Theorem text_pd : forall sh feature value, p_parallel (gb_params b) = p_parallel (gb_params b') ->
  value_partial_dependence sh b feature value = value_partial_dependence sh b' feature value.
Proof.
  intros sh feature value PP. unfold value_partial_dependence. pose proof trees_rel as Q.
  destruct (prediction_trees b) as [x|], (prediction_trees b') as [y|]; try contradiction; [|reflexivity].
  cbn [bind]. rewrite EM, EB, PP. erewrite mapM_rel; [reflexivity| |exact Q]. intros t u H. unfold tree_value_partial_dependence. rewrite (Forall2_length _ _ _ _ _ H). apply pd_shown. exact H.
Qed.
Theorem text_importance : forall m normalize, calculate_feature_importance b m normalize = calculate_feature_importance b' m normalize.
Proof.
  intros m normalize. unfold calculate_feature_importance. destruct (importance_stat m) as [av stat] eqn:ES.
  replace (all_stats stat (gb_trees b')) with (all_stats stat (gb_trees b)); [reflexivity|]. unfold all_stats.
  eapply foldM_rel; [|exact SH]. intros acc t u H. rewrite (Forall2_length _ _ _ _ _ H). apply stats_shown; [exact H|].
  intros n k Q HL. destruct Q as (_ & _ & _ & E1 & _ & E2). destruct (E2 HL) as (_ & _ & E3 & _).
  destruct m; cbn in ES; injection ES as _ <-; auto.
Qed.
End Models.
End Shown.
