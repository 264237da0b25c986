(** TreeSHAP over whole trees and models, exact arithmetic: the Shapley values of the coalition game. *)
From Coq Require Import List Arith Lia Bool Reals Lra Permutation.
From Verif Require Import Prelude Float FloatX FloatLaws Data DataProofs Utils UtilsX Binning Histogram Node Splitter Tree TreeWf PathProofs
  Objective Metric Sampler Contrib Booster PredictProofs ContribProofs ContribX ImportProofs DependX Shapley ShapX.
Import ListNotations.
Local Open Scope R_scope.

Definition cells (n : nat) (phi : nat -> R) : list xr := map (fun f => Fin (phi f)) (seq 0 n).
Lemma cells_ext : forall n phi psi, (forall f, (f < n)%nat -> phi f = psi f) -> cells n phi = cells n psi.
Proof. intros n phi psi H. unfold cells. apply map_ext_in. intros f Hf. apply in_seq in Hf. rewrite H; auto. lia. Qed.
Lemma cells_nth : forall n phi f, (f < n)%nat -> nth_error (cells n phi) f = Some (Fin (phi f)).
Proof. intros n phi f H. unfold cells. apply (map_nth_error (fun f => Fin (phi f))). apply nth_error_seq. auto. Qed.
Lemma cells_length : forall n phi, length (cells n phi) = n.
Proof. intros. unfold cells. rewrite map_length. apply seq_length. Qed.
Lemma list_ext : forall A (l l' : list A), (forall i, nth_error l i = nth_error l' i) -> l = l'.
Proof.
  induction l as [|a l IH]; intros [|b l'] H; auto; try (specialize (H 0%nat); discriminate).
  pose proof (H 0%nat) as H0. injection H0 as ->. f_equal. apply IH. intros i. exact (H (S i)).
Qed.
Lemma add_at_cells : forall n phi f x, (f < n)%nat ->
  @add_at XF (cells n phi) f (Fin x) = Some (cells n (fun g => phi g + if (g =? f)%nat then x else 0)).
Proof.
  intros n phi f x H. unfold add_at. change (fcar (@f64 XF)) with xr. rewrite (cells_nth n phi f H). cbn [bind].
  change (@fadd (@f64 XF) (Fin (phi f)) (Fin x)) with (Fin (phi f + x)).
  destruct (update_total (cells n phi) (i := f) (Fin (phi f + x))) as [c Hc]; [rewrite cells_length; auto|].
  refine (eq_trans Hc _). f_equal. apply list_ext. intros i. rewrite (update_nth _ _ _ Hc). destruct (Nat.lt_ge_cases i n) as [Hi|Hi].
  - rewrite !cells_nth by auto. destruct (Nat.eqb_spec i f) as [->|]; auto. do 2 f_equal. lra.
  - destruct (Nat.eqb_spec i f); [lia|]. rewrite !(proj2 (nth_error_None _ i)) by (rewrite cells_length; auto). reflexivity.
Qed.
Lemma add_bias_cells : forall n phi x, @add_bias XF (cells (S n) phi) (Fin x) = Some (cells (S n) (fun g => phi g + if (g =? n)%nat then x else 0)).
Proof. intros n phi x. unfold add_bias. change (fcar (@f64 XF)) with xr. rewrite cells_length. apply add_at_cells. lia. Qed.
Lemma row_start_cells : forall n x, @row_start XF n (Fin x) = cells (S n) (fun g => if (g =? n)%nat then x else 0).
Proof.
  intros n x. apply list_ext. intros i. rewrite (@nth_start XF). change (fcar (@f64 XF)) with xr. destruct (Nat.ltb_spec i n).
  - rewrite cells_nth by lia. destruct (Nat.eqb_spec i n); [lia|reflexivity].
  - destruct (Nat.eqb_spec i n) as [->|].
    + rewrite cells_nth by lia. rewrite Nat.eqb_refl. change (@fadd (@f64 XF) (fzero f64) (Fin x)) with (Fin (0 + x)). rewrite Rplus_0_l. reflexivity.
    + symmetry. apply nth_error_None. rewrite cells_length. lia.
Qed.

(** *** Leaves *)
Lemma find_mid : forall A e B, NoDup (map fst (A ++ e :: B)) -> find_elem (fst e) (A ++ e :: B) = Some e.
Proof.
  induction A as [|a A IH]; intros e B ND; simpl in *.
  - unfold find_elem. simpl. rewrite Nat.eqb_refl. reflexivity.
  - inversion ND; subst. unfold find_elem. simpl. destruct (Nat.eqb_spec (fst a) (fst e)) as [E|]; [|apply IH; auto].
    exfalso. apply H1. rewrite E, map_app. apply in_app_iff. right; left; auto.
Qed.
Lemma product_value_mid : forall A e B, NoDup (map fst (A ++ e :: B)) -> product_value (A ++ e :: B) (fst e) =
  (snd (snd e) - fst (snd e)) * psum (fun i => wt (length (A ++ B)) i * cf (A ++ B) i) (S (length (A ++ B))).
Proof.
  intros A e B ND. unfold product_value. rewrite (find_mid A e B ND). f_equal.
  destruct (without_split (fst e) (A ++ e :: B) e (find_mid A e B ND) ND) as [_ P].
  assert (P' : Permutation (A ++ B) (without (fst e) (A ++ e :: B))).
  { apply Permutation_cons_inv with (a := e). rewrite <- P. apply Permutation_middle. }
  assert (LE : length (A ++ e :: B) = S (length (A ++ B))) by (rewrite !app_length; simpl; lia). rewrite LE.
  replace (S (length (A ++ B)) - 1)%nat with (length (A ++ B)) by lia. apply psum_ext. intros i _. rewrite (cf_perm _ _ P'). reflexivity.
Qed.
Lemma present_none : forall (B : list Elem) g, ~ In g (map fst B) -> present (map fst B) g = false.
Proof. intros B g H. destruct (present (map fst B) g) eqn:E; auto. apply present_in in E. contradiction. Qed.
Lemma leaf_X : forall n w D B A p phi, prep p (D :: A ++ B) (pw (A ++ B)) -> NoDup (map fst (A ++ B)) ->
  (forall f, In f (map fst (A ++ B)) -> (f < n)%nat) ->
  @leaf_contribs XF (seq (S (length A)) (length B)) (length (A ++ B)) (Fin w) p (cells n phi) =
    Some (cells n (fun g => phi g + if present (map fst B) g then product_value (A ++ B) g * w else 0)).
Proof.
  intros n w D. induction B as [|e B IH]; intros A p phi P ND HF.
  - cbn [length seq leaf_contribs]. f_equal. apply cells_ext. intros f _. simpl. lra.
  - cbn [length seq leaf_contribs]. destruct (unwound_sum_X p D A e B P) as (r & -> & Hr). cbn [bind].
    rewrite (path_get_prep _ _ _ (S (length A)) e P) by (simpl; rewrite nth_error_app2, Nat.sub_diag by lia; reflexivity). cbn [bind].
    assert (Fe : (fst e < n)%nat) by (apply HF; rewrite map_app; apply in_app_iff; right; left; auto).
    change (@to64 XF _) with (xmul (xmul (Fin r) (xsub (Fin (snd (snd e))) (Fin (fst (snd e))))) (Fin w)). rewrite xsub_fin, !xmul_fin, Hr.
    rewrite <- (product_value_mid A e B ND). change (@pe_feature XF (pel e _)) with (fst e).
    rewrite (add_at_cells n phi (fst e) _ Fe). cbn [bind].
    assert (EA : A ++ e :: B = (A ++ [e]) ++ B) by (rewrite <- app_assoc; reflexivity). rewrite EA in *.
    specialize (IH (A ++ [e]) p (fun g => phi g + (if (g =? fst e)%nat then product_value ((A ++ [e]) ++ B) (fst e) * w else 0)) P ND HF).
    rewrite (app_length A [e]) in IH. cbn [length] in IH. rewrite Nat.add_1_r in IH. rewrite IH. f_equal. apply cells_ext. intros g _.
    cbn [map]. unfold present at 2. cbn [existsb]. fold (present (map fst B) g).
    destruct (Nat.eqb_spec g (fst e)) as [->|NE]; cbn [orb]; [|lra].
    rewrite present_none; [lra|]. rewrite <- EA, map_app in ND. apply NoDup_remove_2 in ND. intros Q. apply ND. apply in_app_iff. auto.
Qed.
Lemma leaf_all_X : forall n w D L p phi, prep p (D :: L) (pw L) -> NoDup (map fst L) -> (forall f, In f (map fst L) -> (f < n)%nat) ->
  @leaf_contribs XF (seq 1 (length L)) (length L) (Fin w) p (cells n phi) = Some (cells n (fun g => phi g + product_value L g * w)).
Proof.
  intros n w D L p phi P ND HF. refine (eq_trans (leaf_X n w D L [] p phi P ND HF) _). f_equal. apply cells_ext. intros g _. simpl app.
  destruct (present (map fst L) g) eqn:E; [reflexivity|]. unfold product_value. destruct (find_elem g L) as [e|] eqn:EF; [|lra].
  destruct (without_split g L e EF ND) as [Ee PE]. exfalso.
  assert (Q : In g (map fst L)). { apply (Permutation_in _ (Permutation_map fst (Permutation_sym PE))). left. auto. }
  apply present_in in Q. congruence.
Qed.

(** *** The place of a feature on the path *)
Lemma find_feature_X : forall p L w d f, prep p L w -> length L = S d -> forall fuel k, (k + fuel = S d)%nat ->
  (exists j e, @find_feature XF fuel p d f k = Some j /\ (k <= j <= d)%nat /\ nth_error L j = Some e /\ fst e = f) \/
  (@find_feature XF fuel p d f k = Some (S d) /\ forall j e, (k <= j)%nat -> nth_error L j = Some e -> fst e <> f).
Proof.
  intros p L w d f P LL. induction fuel as [|fuel IH]; intros k Hk; cbn [find_feature].
  - right. split; [f_equal; lia|]. intros j e Hj He. apply nth_error_Some_lt in He. lia.
  - destruct (Nat.leb_spec k d) as [LK|]; [|lia]. destruct (nth_lt L k) as [e He]; [lia|]. rewrite (path_get_prep _ _ _ _ _ P He). cbn [bind].
    change (@pe_feature XF (pel e (w k))) with (fst e). destruct (Nat.eqb_spec (fst e) f) as [E|NE].
    + left. exists k, e. repeat split; auto.
    + destruct (IH (k + 1)%nat) as [(j & e' & H1 & H2 & H3)|[H1 H2]]; [lia| |].
      * left. exists j, e'. split; auto. split; [lia|auto].
      * right. split; auto. intros j e' Hj He'. destruct (Nat.eq_dec j k) as [->|]; [congruence|]. apply (H2 j); auto. lia.
Qed.

(** *** The coalition game *)
(** Expected output of a tree when the features in U follow the row and the others average over the
    children in proportion to the covers. *)
Fixpoint coalition_value (row : list xr) (missing : xr) (U : list nat) (x : xtree) : R :=
  match x with
  | IL n => val (n_weight n)
  | IB2 n _ l r =>
      if present U (n_split_feature n) then
        if (chosen missing (nth (n_split_feature n) row XNaN) n =? inum l)%nat then coalition_value row missing U l
        else coalition_value row missing U r
      else hs (iroot l) / hs n * coalition_value row missing U l + hs (iroot r) / hs n * coalition_value row missing U r
  | IB3 n m l r =>
      if present U (n_split_feature n) then
        if (chosen missing (nth (n_split_feature n) row XNaN) n =? inum l)%nat then coalition_value row missing U l
        else if (chosen missing (nth (n_split_feature n) row XNaN) n =? inum r)%nat then coalition_value row missing U r
        else coalition_value row missing U m
      else hs (iroot l) / hs n * coalition_value row missing U l + hs (iroot r) / hs n * coalition_value row missing U r
           + hs (iroot m) / hs n * coalition_value row missing U m
  end.

Lemma coalition_spec : forall row missing U,
  (forall n, coalition_value row missing U (IL n) = val (n_weight n)) /\
  (forall t n mr l r, reps t (IB2 n mr l r) -> coalition_value row missing U (IB2 n mr l r) =
     if existsb (Nat.eqb (n_split_feature n)) U
     then coalition_value row missing U (if (chosen missing (nth (n_split_feature n) row XNaN) n =? n_left n)%nat then l else r)
     else (hs (iroot l) * coalition_value row missing U l + hs (iroot r) * coalition_value row missing U r) / hs n) /\
  (forall t n m l r, reps t (IB3 n m l r) -> coalition_value row missing U (IB3 n m l r) =
     if existsb (Nat.eqb (n_split_feature n)) U
     then coalition_value row missing U (if (chosen missing (nth (n_split_feature n) row XNaN) n =? n_left n)%nat then l
            else if (chosen missing (nth (n_split_feature n) row XNaN) n =? n_right n)%nat then r else m)
     else (hs (iroot l) * coalition_value row missing U l + hs (iroot r) * coalition_value row missing U r
           + hs (iroot m) * coalition_value row missing U m) / hs n).
Proof.
  intros row missing U. split; [reflexivity|]. split.
  - intros t n mr l r R. simpl in R. destruct R as (_ & _ & H3 & H4 & _). cbn [coalition_value]. rewrite H3. unfold present.
    destruct (existsb _ U); [destruct (_ =? _)%nat; reflexivity|]. unfold Rdiv. lra.
  - intros t n m l r R. simpl in R. destruct R as (_ & _ & H3 & H4 & _). cbn [coalition_value]. rewrite H3, H4. unfold present.
    destruct (existsb _ U); [destruct (_ =? _)%nat; [|destruct (_ =? _)%nat]; reflexivity|]. unfold Rdiv. lra.
Qed.

Section Tree.
Variables (t : list XNode) (row : list xr) (missing : xr) (cols : nat).
Hypotheses (W : well_formed t) (FW : finite_weights t) (FC : finite_covers t)
  (FT : forall f, tree_features t f -> (f < cols)%nat)
  (VR : forall f, tree_features t f -> exists v, nth_error row f = Some v /\ @valid_cell XF missing v).
Notation game := (coalition_value row missing).

Definition share_of (L : list Elem) (x : xtree) (g : nat) : R :=
  if (g <? cols)%nat then shapley (seq 0 cols) (fun U => product L U * game U x) g else 0.

Lemma hess_X : forall k n, nth_error t k = Some n -> n_hess n = Fin (hs n).
Proof. intros k n H. apply xfin_val. apply (FC n). eapply nth_error_In; eauto. Qed.
Lemma hess_nz : forall k n, nth_error t k = Some n -> n_is_leaf n = false -> hs n <> 0.
Proof. intros k n H. apply (FC n). eapply nth_error_In; eauto. Qed.

(** taking the split feature off the path *)
Lemma prepare_X : forall p D L f, prep p (D :: L) (pw L) -> NoDup (map fst L) -> (fst D <> f) ->
  (forall e, In e L -> fst (snd e) <> 0) ->
  exists iz io p' L',
    (let* k := @find_feature XF (length L + 1) p (length L) f 0 in
     (if negb (k =? length L + 1)%nat then
        let* e := @path_get XF p k in
        let* q := @unwind_path XF p (length L) k in
        assert* (1 <=? length L)%nat in
        Some (@pe_zero XF e, @pe_one XF e, q, (length L - 1)%nat)
      else Some (fone f32, fone f32, p, length L))) = Some (Fin iz, Fin io, p', length L') /\
    prep p' (D :: L') (pw L') /\ NoDup (map fst L') /\ ~ In f (map fst L') /\ incl L' L /\ iz <> 0 /\
    forall U, product L U = product L' U * (if present U f then io else iz).
Proof.
  intros p D L f P ND Df HZ.
  destruct (find_feature_X p (D :: L) (pw L) (length L) f P eq_refl (length L + 1) 0) as [(j & e & -> & Hj & He & Ef)|[-> H]]; [lia| |]; cbn [bind].
  - destruct j as [|j]; [injection He as <-; contradiction|]. simpl in He.
    destruct (nth_error_split L j He) as (A & B & -> & <-).
    destruct (Nat.eqb_spec (S (length A)) (length (A ++ e :: B) + 1)) as [Q|_]; [rewrite app_length in Q; simpl in Q; lia|]. cbn [negb].
    rewrite (path_get_prep _ _ _ (S (length A)) e P) by (simpl; rewrite nth_error_app2, Nat.sub_diag by lia; reflexivity). cbn [bind].
    assert (Ze : fst (snd e) <> 0) by (apply HZ; apply in_app_iff; right; left; auto).
    destruct (unwind_path_X p D A e B P (fun _ => Ze)) as (p' & -> & P'). cbn [bind].
    assert (LE : length (A ++ e :: B) = S (length (A ++ B))) by (rewrite !app_length; simpl; lia). rewrite LE. cbn [Nat.leb].
    exists (fst (snd e)), (snd (snd e)), p', (A ++ B). replace (S (length (A ++ B)) - 1)%nat with (length (A ++ B)) by lia. split; [reflexivity|].
    split; auto. pose proof ND as ND'. rewrite map_app in ND'. cbn [map] in ND'. split; [rewrite map_app; eapply NoDup_remove_1; eauto|].
    split; [rewrite map_app, <- Ef; eapply NoDup_remove_2; eauto|]. split; [intros y Hy; apply in_app_iff in Hy; apply in_app_iff; simpl; tauto|].
    split; auto. intros U. rewrite !product_app. cbn [product]. unfold factor. rewrite Ef. lra.
  - rewrite Nat.add_1_r, Nat.eqb_refl. cbn [negb]. exists 1, 1, p, L. split; [reflexivity|]. split; auto. split; auto.
    split; [|split; [apply incl_refl|split; [lra|intros U; destruct (present U f); lra]]].
    intros Q. apply in_map_iff in Q. destruct Q as (e & Ee & He). apply In_nth_error in He. destruct He as [j Hj]. apply (H (S j) e); auto; lia.
Qed.

Lemma share_sum2 : forall L L1 L2 x l r g, (forall U, product L1 U * game U l + product L2 U * game U r = product L U * game U x) ->
  share_of L1 l g + share_of L2 r g = share_of L x g.
Proof.
  intros L L1 L2 x l r g H. unfold share_of. destruct (g <? cols)%nat; [|lra]. rewrite <- shapley_add. apply shapley_ext. exact H.
Qed.
Lemma share_sum3 : forall L L1 L2 L3 x l r m g, (forall U, product L1 U * game U l + product L2 U * game U r + product L3 U * game U m = product L U * game U x) ->
  share_of L1 l g + share_of L2 r g + share_of L3 m g = share_of L x g.
Proof.
  intros L L1 L2 L3 x l r m g H. unfold share_of. destruct (g <? cols)%nat; [|lra].
  rewrite <- shapley_add, <- (shapley_add (seq 0 cols) (fun U => product L1 U * game U l + product L2 U * game U r)). apply shapley_ext. exact H.
Qed.

Lemma tree_shap_X : forall x, reps t x -> forall fuel, (iheight x < fuel)%nat ->
  forall L D p0 z o feature p phi, @extend_path XF p0 (length L) (Fin z) (Fin o) feature = Some p -> prep p (D :: L) (pw L) ->
  NoDup (map fst L) -> (forall f, In f (map fst L) -> (f < cols)%nat) -> (cols <= fst D)%nat ->
  (n_is_leaf (iroot x) = false -> forall e, In e L -> fst (snd e) <> 0) ->
  @tree_shap XF fuel t row missing (inum x) (length L) p0 (Fin z) (Fin o) feature (cells (S cols) phi) =
    Some (cells (S cols) (fun g => phi g + share_of L x g)).
Proof.
  induction x as [n|n mr l IHl r IHr|n m IHm l IHl r IHr]; intros R fuel Hf L D p0 z o feature p phi HE P ND HF HD HZ;
    (destruct fuel as [|fuel]; [lia|]); cbn [tree_shap]; rewrite (reps_root _ _ R); cbn [bind iroot]; rewrite HE; cbn [bind]; simpl in Hf.
  - simpl in R. destruct R as [R ->]. 
    rewrite (xfin_val (n_weight n)) by (apply (FW n); eapply nth_error_In; eauto).
    rewrite (leaf_all_X (S cols) _ D L p phi P ND) by (intros f Hq; specialize (HF f Hq); lia). f_equal. apply cells_ext. intros g Hg. f_equal.
    unfold share_of. destruct (Nat.ltb_spec g cols) as [Lg|Lg].
    + rewrite (shapley_ext _ _ (fun U => val (n_weight n) * product L U)) by (intros U; simpl; lra).
      rewrite shapley_scal, shapley_product; auto; [lra|apply seq_NoDup| |apply in_seq; lia].
      intros y Hy. apply in_seq. specialize (HF y Hy). lia.
    + unfold product_value. destruct (find_elem g L) as [e|] eqn:EF; [|lra]. destruct (without_split g L e EF ND) as [Ee PE].
      assert (Q : In g (map fst L)) by (apply (Permutation_in _ (Permutation_map fst (Permutation_sym PE))); left; auto). specialize (HF g Q). lia.
  - pose proof R as R'. simpl in R. destruct R as (H1 & H2 & H3 & H4 & H5 & H6 & H7). rewrite H2.
    assert (TF : tree_features t (n_split_feature n)) by (exists n; split; [eapply nth_error_In; eauto|auto]).
    destruct (VR _ TF) as (v & Hv & V). change (fcar (@f64 XF)) with xr. rewrite Hv. cbn [bind]. rewrite (chosen_spec missing v n V). cbn [bind].
    assert (NV : nth (n_split_feature n) row XNaN = v) by (apply nth_error_nth with (d := XNaN) in Hv; exact Hv).
    pose proof (FT _ TF) as LF.
    destruct (prepare_X p D L (n_split_feature n) P ND ltac:(lia) (HZ H2)) as (iz & io & p' & L' & EP & P' & ND' & NF & INC & NZ & PR).
    assert (HF' : forall f, In f (map fst L') -> (f < cols)%nat).
    { intros f Hq. apply HF. apply in_map_iff in Hq. destruct Hq as (e & <- & He). apply in_map. auto. }
    match type of EP with (bind ?a ?b) = _ => match goal with |- context [bind a ?k] => 
      replace (bind a k) with (bind (bind a b) (fun '(iz0, io0, p0, d0) => foldM (fun c0 '(j, ci) => 
         let* m0 := nth_error t ci in
         @tree_shap XF fuel t row missing ci (d0 + 1) p0 (@fmul (@f32 XF) (@fdiv (@f32 XF) (n_hess m0) (n_hess n)) iz0) (if (j =? 0)%nat then io0 else fzero f32) (n_split_feature n) c0)
         (combine (seq 0 (length (@get_hot_cold_children XF (chosen missing v n) n))) (@get_hot_cold_children XF (chosen missing v n) n)) (cells (S cols) phi)))
      end end; [|destruct (@find_feature XF _ _ _ _ _); reflexivity].
    rewrite EP. cbn [bind].
    assert (CH : chosen missing v n = inum l \/ chosen missing v n = inum r).
    { unfold chosen. rewrite H3, H4, H5. destruct (@cell_missing XF missing v); [destruct mr; auto|]. destruct (xlt v _); auto. }
    assert (LR : inum l <> inum r) by (rewrite <- H3, <- H4; apply (wf_sides _ W _ _ H1 H2)).
    assert (STEP : forall c, (c = l \/ c = r) -> forall o0 psi,
      @tree_shap XF fuel t row missing (inum c) (length L' + 1) p' (@fmul (@f32 XF) (@fdiv (@f32 XF) (n_hess (iroot c)) (n_hess n)) (Fin iz)) (Fin o0) (n_split_feature n) (cells (S cols) psi) =
      Some (cells (S cols) (fun g => psi g + share_of (L' ++ [(n_split_feature n, (hs (iroot c) / hs n * iz, o0))]) c g))).
    { intros c Hc o0 psi. assert (Rc : reps t c) by (destruct Hc; subst; auto).
      change (@fmul (@f32 XF)) with xmul. change (@fdiv (@f32 XF)) with xdiv. rewrite (hess_X _ _ (reps_root _ _ Rc)), (hess_X _ _ H1).
      pose proof (hess_nz _ _ H1 H2) as HN. rewrite xdiv_fin, xmul_fin by auto.
      destruct (extend_next p' D L' (hs (iroot c) / hs n * iz) o0 (n_split_feature n) P') as (q & EQ & PQ).
      set (L1 := L' ++ [(n_split_feature n, (hs (iroot c) / hs n * iz, o0))]) in *.
      assert (LL : length L1 = S (length L')) by (unfold L1; rewrite app_length; simpl; lia). rewrite Nat.add_1_r, <- LL in *.
      assert (GO : forall IHc : (reps t c -> forall fuel, (iheight c < fuel)%nat -> forall L D p0 z o feature p phi, @extend_path XF p0 (length L) (Fin z) (Fin o) feature = Some p -> prep p (D :: L) (pw L) ->
        NoDup (map fst L) -> (forall f, In f (map fst L) -> (f < cols)%nat) -> (cols <= fst D)%nat -> (n_is_leaf (iroot c) = false -> forall e, In e L -> fst (snd e) <> 0) ->
        @tree_shap XF fuel t row missing (inum c) (length L) p0 (Fin z) (Fin o) feature (cells (S cols) phi) = Some (cells (S cols) (fun g => phi g + share_of L c g))), 
        (iheight c < fuel)%nat -> @tree_shap XF fuel t row missing (inum c) (length L1) p' (Fin (hs (iroot c) / hs n * iz)) (Fin o0) (n_split_feature n) (cells (S cols) psi) =
          Some (cells (S cols) (fun g => psi g + share_of L1 c g))).
      { intros IHc Hh. apply (IHc Rc fuel Hh L1 D p' _ _ _ q psi EQ PQ); auto.
        - unfold L1. rewrite map_app. apply (Permutation_NoDup (l := n_split_feature n :: map fst L')); [apply Permutation_cons_append|constructor; auto].
        - intros f Hq. unfold L1 in Hq. rewrite map_app in Hq. apply in_app_iff in Hq. destruct Hq as [Hq|[<-|[]]]; auto.
        - intros HL e He. unfold L1 in He. apply in_app_iff in He. destruct He as [He|[<-|[]]].
          + apply (HZ H2). auto.
          + cbn [fst snd]. pose proof (hess_nz _ _ (reps_root _ _ Rc) HL) as HC. apply Rmult_integral_contrapositive_currified; auto.
            unfold Rdiv. apply Rmult_integral_contrapositive_currified; auto. apply Rinv_neq_0_compat; auto. }
      destruct Hc; subst c; apply GO; auto; lia. }
    unfold get_hot_cold_children. rewrite (has_missing_IB2 n mr l r H3 H4 H5), H3, H4.
    pose proof (STEP l (or_introl eq_refl)) as SL. pose proof (STEP r (or_intror eq_refl)) as SR. clear STEP.
    destruct CH as [C|C]; rewrite C.
    + destruct (Nat.eqb_spec (inum l) (inum r)) as [|_]; [tauto|]. cbn [length seq combine foldM]. rewrite (reps_root _ _ H6), (reps_root _ _ H7). cbn [bind Nat.eqb].
      change (@fzero (@f32 XF)) with (Fin 0). rewrite SL. cbn [bind]. rewrite SR. cbn [bind]. f_equal. apply cells_ext. intros g _. rewrite Rplus_assoc. f_equal.
      apply share_sum2. intros U. rewrite !product_app, PR. cbn [product]. unfold factor. cbn [fst snd coalition_value]. rewrite NV, C, Nat.eqb_refl.
      destruct (present U (n_split_feature n)); lra.
    + rewrite Nat.eqb_refl. cbn [length seq combine foldM]. rewrite (reps_root _ _ H6), (reps_root _ _ H7). cbn [bind Nat.eqb].
      change (@fzero (@f32 XF)) with (Fin 0). rewrite SR. cbn [bind]. rewrite SL. cbn [bind]. f_equal. apply cells_ext. intros g _. rewrite Rplus_assoc. f_equal.
      apply share_sum2. intros U. rewrite !product_app, PR. cbn [product]. unfold factor. cbn [fst snd coalition_value]. rewrite NV, C.
      destruct (Nat.eqb_spec (inum r) (inum l)); [congruence|]. destruct (present U (n_split_feature n)); lra.
  - pose proof R as R'. simpl in R. destruct R as (H1 & H2 & H3 & H4 & H5 & H6 & H7 & H8 & H9 & H10). rewrite H2.
    assert (TF : tree_features t (n_split_feature n)) by (exists n; split; [eapply nth_error_In; eauto|auto]).
    destruct (VR _ TF) as (v & Hv & V). change (fcar (@f64 XF)) with xr. rewrite Hv. cbn [bind]. rewrite (chosen_spec missing v n V). cbn [bind].
    assert (NV : nth (n_split_feature n) row XNaN = v) by (apply nth_error_nth with (d := XNaN) in Hv; exact Hv).
    pose proof (FT _ TF) as LF.
    destruct (prepare_X p D L (n_split_feature n) P ND ltac:(lia) (HZ H2)) as (iz & io & p' & L' & EP & P' & ND' & NF & INC & NZ & PR).
    assert (HF' : forall f, In f (map fst L') -> (f < cols)%nat).
    { intros f Hq. apply HF. apply in_map_iff in Hq. destruct Hq as (e & <- & He). apply in_map. auto. }
    match type of EP with (bind ?a ?b) = _ => match goal with |- context [bind a ?k] => 
      replace (bind a k) with (bind (bind a b) (fun '(iz0, io0, p0, d0) => foldM (fun c0 '(j, ci) => 
         let* m0 := nth_error t ci in
         @tree_shap XF fuel t row missing ci (d0 + 1) p0 (@fmul (@f32 XF) (@fdiv (@f32 XF) (n_hess m0) (n_hess n)) iz0) (if (j =? 0)%nat then io0 else fzero f32) (n_split_feature n) c0)
         (combine (seq 0 (length (@get_hot_cold_children XF (chosen missing v n) n))) (@get_hot_cold_children XF (chosen missing v n) n)) (cells (S cols) phi)))
      end end; [|destruct (@find_feature XF _ _ _ _ _); reflexivity].
    rewrite EP. cbn [bind].
    assert (CH : chosen missing v n = inum l \/ chosen missing v n = inum r \/ chosen missing v n = inum m).
    { unfold chosen. rewrite H3, H4, H5. destruct (@cell_missing XF missing v); auto. destruct (xlt v _); auto. }
    assert (LR : inum l <> inum r) by (rewrite <- H3, <- H4; apply (wf_sides _ W _ _ H1 H2)).
    pose proof H6 as ML. pose proof H7 as MR. rewrite H5, H3 in ML. rewrite H5, H4 in MR.
    assert (STEP : forall c, (c = m \/ c = l \/ c = r) -> forall o0 psi,
      @tree_shap XF fuel t row missing (inum c) (length L' + 1) p' (@fmul (@f32 XF) (@fdiv (@f32 XF) (n_hess (iroot c)) (n_hess n)) (Fin iz)) (Fin o0) (n_split_feature n) (cells (S cols) psi) =
      Some (cells (S cols) (fun g => psi g + share_of (L' ++ [(n_split_feature n, (hs (iroot c) / hs n * iz, o0))]) c g))).
    { intros c Hc o0 psi. assert (Rc : reps t c) by (destruct Hc as [|[|]]; subst; auto).
      change (@fmul (@f32 XF)) with xmul. change (@fdiv (@f32 XF)) with xdiv. rewrite (hess_X _ _ (reps_root _ _ Rc)), (hess_X _ _ H1).
      pose proof (hess_nz _ _ H1 H2) as HN. rewrite xdiv_fin, xmul_fin by auto.
      destruct (extend_next p' D L' (hs (iroot c) / hs n * iz) o0 (n_split_feature n) P') as (q & EQ & PQ).
      set (L1 := L' ++ [(n_split_feature n, (hs (iroot c) / hs n * iz, o0))]) in *.
      assert (LL : length L1 = S (length L')) by (unfold L1; rewrite app_length; simpl; lia). rewrite Nat.add_1_r, <- LL in *.
      assert (GO : forall IHc : (reps t c -> forall fuel, (iheight c < fuel)%nat -> forall L D p0 z o feature p phi, @extend_path XF p0 (length L) (Fin z) (Fin o) feature = Some p -> prep p (D :: L) (pw L) ->
        NoDup (map fst L) -> (forall f, In f (map fst L) -> (f < cols)%nat) -> (cols <= fst D)%nat -> (n_is_leaf (iroot c) = false -> forall e, In e L -> fst (snd e) <> 0) ->
        @tree_shap XF fuel t row missing (inum c) (length L) p0 (Fin z) (Fin o) feature (cells (S cols) phi) = Some (cells (S cols) (fun g => phi g + share_of L c g))), 
        (iheight c < fuel)%nat -> @tree_shap XF fuel t row missing (inum c) (length L1) p' (Fin (hs (iroot c) / hs n * iz)) (Fin o0) (n_split_feature n) (cells (S cols) psi) =
          Some (cells (S cols) (fun g => psi g + share_of L1 c g))).
      { intros IHc Hh. apply (IHc Rc fuel Hh L1 D p' _ _ _ q psi EQ PQ); auto.
        - unfold L1. rewrite map_app. apply (Permutation_NoDup (l := n_split_feature n :: map fst L')); [apply Permutation_cons_append|constructor; auto].
        - intros f Hq. unfold L1 in Hq. rewrite map_app in Hq. apply in_app_iff in Hq. destruct Hq as [Hq|[<-|[]]]; auto.
        - intros HL e He. unfold L1 in He. apply in_app_iff in He. destruct He as [He|[<-|[]]].
          + apply (HZ H2). auto.
          + cbn [fst snd]. pose proof (hess_nz _ _ (reps_root _ _ Rc) HL) as HC. apply Rmult_integral_contrapositive_currified; auto.
            unfold Rdiv. apply Rmult_integral_contrapositive_currified; auto. apply Rinv_neq_0_compat; auto. }
      destruct Hc as [|[|]]; subst c; apply GO; auto; lia. }
    unfold get_hot_cold_children. rewrite (has_missing_IB3 n H6 H7), H3, H4, H5.
    pose proof (STEP m (or_introl eq_refl)) as SM. pose proof (STEP l (or_intror (or_introl eq_refl))) as SL. pose proof (STEP r (or_intror (or_intror eq_refl))) as SR. clear STEP.
    destruct CH as [C|[C|C]]; rewrite C.
    + destruct (Nat.eqb_spec (inum l) (inum r)) as [|_]; [tauto|]. rewrite Nat.eqb_refl. cbn [length seq combine foldM]. rewrite (reps_root _ _ H8), (reps_root _ _ H9), (reps_root _ _ H10). cbn [bind Nat.eqb].
      change (@fzero (@f32 XF)) with (Fin 0). rewrite SL. cbn [bind]. rewrite SR. cbn [bind]. rewrite SM. cbn [bind]. f_equal. apply cells_ext. intros g _. rewrite !Rplus_assoc. f_equal. rewrite <- Rplus_assoc.
      apply share_sum3. intros U. rewrite !product_app, PR. cbn [product]. unfold factor. cbn [fst snd coalition_value]. rewrite NV, C, Nat.eqb_refl.
      destruct (present U (n_split_feature n)); lra.
    + rewrite Nat.eqb_refl. cbn [length seq combine foldM]. rewrite (reps_root _ _ H8), (reps_root _ _ H9), (reps_root _ _ H10). cbn [bind Nat.eqb].
      change (@fzero (@f32 XF)) with (Fin 0). rewrite SR. cbn [bind]. rewrite SL. cbn [bind]. rewrite SM. cbn [bind]. f_equal. apply cells_ext. intros g _. rewrite !Rplus_assoc. f_equal. rewrite <- Rplus_assoc.
      apply share_sum3. intros U. rewrite !product_app, PR. cbn [product]. unfold factor. cbn [fst snd coalition_value]. rewrite NV, C, Nat.eqb_refl.
      destruct (Nat.eqb_spec (inum r) (inum l)); [congruence|]. destruct (present U (n_split_feature n)); lra.
    + destruct (Nat.eqb_spec (inum m) (inum r)) as [|_]; [tauto|]. destruct (Nat.eqb_spec (inum m) (inum l)) as [|_]; [tauto|].
      cbn [length seq combine foldM]. rewrite (reps_root _ _ H8), (reps_root _ _ H9), (reps_root _ _ H10). cbn [bind Nat.eqb].
      change (@fzero (@f32 XF)) with (Fin 0). rewrite SM. cbn [bind]. rewrite SL. cbn [bind]. rewrite SR. cbn [bind]. f_equal. apply cells_ext. intros g _. rewrite !Rplus_assoc. f_equal. rewrite <- Rplus_assoc.
      apply share_sum3. intros U. rewrite !product_app, PR. cbn [product]. unfold factor. cbn [fst snd coalition_value]. rewrite NV, C.
      destruct (Nat.eqb_spec (inum m) (inum l)); [tauto|]. destruct (Nat.eqb_spec (inum m) (inum r)); [tauto|]. destruct (present U (n_split_feature n)); lra.
Qed.
End Tree.

(** *** The grand coalition follows the row, the empty one averages *)
Section Game.
Variables (row : list xr) (missing : xr).

Lemma coalition_ext : forall U U', (forall f, In f U <-> In f U') -> forall x, coalition_value row missing U x = coalition_value row missing U' x.
Proof.
  intros U U' H. induction x as [n|n mr l IHl r IHr|n m IHm l IHl r IHr]; cbn [coalition_value]; auto;
    rewrite (present_ext U U') by auto; rewrite ?IHl, ?IHr, ?IHm; reflexivity.
Qed.
Lemma coalition_invariant : forall x, invariant (fun U => coalition_value row missing U x).
Proof. intros x U U' P. apply coalition_ext. intros f. split; apply Permutation_in; [|symmetry]; auto. Qed.

Lemma coalition_empty : forall t x, reps t x -> finite_weights t -> finite_covers t -> @iavg XF x = Fin (coalition_value row missing [] x).
Proof.
  intros t x R FW FC. induction x as [n|n mr l IHl r IHr|n m IHm l IHl r IHr]; simpl in R; cbn [iavg coalition_value present existsb].
  - apply xfin_val. apply FW. destruct R as [R _]. eapply nth_error_In; eauto.
  - destruct R as (H1 & H2 & H3 & H4 & H5 & H6 & H7). rewrite (IHl H6), (IHr H7). change (@to64 XF) with (fun x : xr => x). cbv beta.
    rewrite (hess_X t FC _ _ (reps_root _ _ H6)), (hess_X t FC _ _ (reps_root _ _ H7)), (hess_X t FC _ _ H1).
    change (@fmul (@f64 XF)) with xmul. change (@fdiv (@f64 XF)) with xdiv. rewrite !xmul_fin. change (@fadd (@f64 XF) (Fin ?a) (Fin ?b)) with (Fin (a + b)).
    pose proof (hess_nz t FC _ _ H1 H2). rewrite xdiv_fin by auto. f_equal. field. auto.
  - destruct R as (H1 & H2 & H3 & H4 & H5 & H6 & H7 & H8 & H9 & H10). rewrite (IHl H9), (IHr H10), (IHm H8). change (@to64 XF) with (fun x : xr => x). cbv beta.
    rewrite (hess_X t FC _ _ (reps_root _ _ H8)), (hess_X t FC _ _ (reps_root _ _ H9)), (hess_X t FC _ _ (reps_root _ _ H10)), (hess_X t FC _ _ H1).
    change (@fmul (@f64 XF)) with xmul. change (@fdiv (@f64 XF)) with xdiv. rewrite !xmul_fin. change (@fadd (@f64 XF) (Fin ?a) (Fin ?b)) with (Fin (a + b)).
    change (@fadd (@f64 XF) (Fin ?a) (Fin ?b)) with (Fin (a + b)).
    pose proof (hess_nz t FC _ _ H1 H2). rewrite xdiv_fin by auto. f_equal. field. auto.
Qed.

Lemma coalition_full : forall t U, (forall f, tree_features t f -> In f U) ->
  (forall f, tree_features t f -> exists v, nth_error row f = Some v /\ @valid_cell XF missing v) ->
  well_formed t -> forall x, reps t x -> forall fuel, (iheight x < fuel)%nat ->
  exists n, @walk XF fuel t (nth_error row) missing (inum x) = Some n /\ val (n_weight n) = coalition_value row missing U x.
Proof.
  intros t U HU VR W. induction x as [n|n mr l IHl r IHr|n m IHm l IHl r IHr]; intros R fuel Hf;
    (destruct fuel as [|fuel]; [lia|]); cbn [walk]; rewrite (reps_root _ _ R); cbn [bind iroot]; simpl in Hf, R.
  - destruct R as [R ->]. exists n. split; reflexivity.
  - destruct R as (H1 & H2 & H3 & H4 & H5 & H6 & H7). rewrite H2.
    assert (TF : tree_features t (n_split_feature n)) by (exists n; split; [eapply nth_error_In; eauto|auto]).
    destruct (VR _ TF) as (v & Hv & V). change (fcar (@f64 XF)) with xr. rewrite Hv. cbn [bind]. rewrite (chosen_spec missing v n V). cbn [bind].
    cbn [coalition_value]. rewrite (proj2 (present_in U (n_split_feature n)) (HU _ TF)).
    assert (NV : nth (n_split_feature n) row XNaN = v) by (apply nth_error_nth with (d := XNaN) in Hv; exact Hv). rewrite NV.
    assert (CH : chosen missing v n = inum l \/ chosen missing v n = inum r).
    { unfold chosen. rewrite H3, H4, H5. destruct (@cell_missing XF missing v); [destruct mr; auto|]. destruct (xlt v _); auto. }
    assert (LR : inum l <> inum r) by (rewrite <- H3, <- H4; apply (wf_sides _ W _ _ H1 H2)).
    destruct CH as [-> | ->]; rewrite ?Nat.eqb_refl.
    + apply IHl; auto; lia.
    + destruct (Nat.eqb_spec (inum r) (inum l)); [congruence|]. apply IHr; auto; lia.
  - destruct R as (H1 & H2 & H3 & H4 & H5 & H6 & H7 & H8 & H9 & H10). rewrite H2.
    assert (TF : tree_features t (n_split_feature n)) by (exists n; split; [eapply nth_error_In; eauto|auto]).
    destruct (VR _ TF) as (v & Hv & V). change (fcar (@f64 XF)) with xr. rewrite Hv. cbn [bind]. rewrite (chosen_spec missing v n V). cbn [bind].
    cbn [coalition_value]. rewrite (proj2 (present_in U (n_split_feature n)) (HU _ TF)).
    assert (NV : nth (n_split_feature n) row XNaN = v) by (apply nth_error_nth with (d := XNaN) in Hv; exact Hv). rewrite NV.
    assert (CH : chosen missing v n = inum l \/ chosen missing v n = inum r \/ chosen missing v n = inum m).
    { unfold chosen. rewrite H3, H4, H5. destruct (@cell_missing XF missing v); auto. destruct (xlt v _); auto. }
    assert (LR : inum l <> inum r) by (rewrite <- H3, <- H4; apply (wf_sides _ W _ _ H1 H2)).
    rewrite H5, H3 in H6. rewrite H5, H4 in H7.
    destruct CH as [-> |[-> | ->]]; rewrite ?Nat.eqb_refl.
    + apply IHl; auto; lia.
    + destruct (Nat.eqb_spec (inum r) (inum l)); [congruence|]. apply IHr; auto; lia.
    + destruct (Nat.eqb_spec (inum m) (inum l)); [tauto|]. destruct (Nat.eqb_spec (inum m) (inum r)); [tauto|]. apply IHm; auto; lia.
Qed.
End Game.

(** *** One tree *)
Lemma contrib_shapley_X : forall t x row missing cols phi, well_formed t -> tree_shape t x -> finite_weights t -> finite_covers t ->
  (forall f, tree_features t f -> (f < cols)%nat) -> length row = cols ->
  (forall f, tree_features t f -> exists v, nth_error row f = Some v /\ @valid_cell XF missing v) ->
  @contrib_shapley XF t row missing (cells (S cols) phi) =
    Some (cells (S cols) (fun g => phi g + if (g =? cols)%nat then coalition_value row missing [] x else shapley (seq 0 cols) (fun U => coalition_value row missing U x) g)).
Proof.
  intros t x row missing cols phi W [R R0] FW FC FT LR VR. unfold contrib_shapley.
  assert (HH : (iheight x < length t)%nat) by (rewrite <- (reps_size _ W _ R R0); apply iheight_size).
  rewrite <- R0 at 1. rewrite (@average_reps XF t x R (length t) HH), (coalition_empty row missing t x R FW FC). cbn [bind].
  rewrite add_bias_cells. cbn [bind]. change (length (A := fcar (@f64 XF)) row) with (length row). 
  destruct (extend_first (length row + 100)) as (p & EP & PP).
  rewrite <- R0 at 1. change (@fone (@f32 XF)) with (Fin 1).
  refine (eq_trans (tree_shap_X t row missing cols W FW FC FT VR x R (length t) HH [] _ [] 1 1 (length row + 100) p _ EP PP _ _ _ _) _).
  - constructor.
  - intros f [].
  - cbn [fst]. lia.
  - intros _ e [].
  - f_equal. apply cells_ext. intros g Hg. unfold share_of. destruct (Nat.eqb_spec g cols) as [->|NE].
    + rewrite Nat.ltb_irrefl. lra.
    + destruct (Nat.ltb_spec g cols); [|lia]. rewrite (shapley_ext _ (fun U => product [] U * coalition_value row missing U x) (fun U => coalition_value row missing U x)); [lra|].
      intros U. simpl. lra.
Qed.

(** *** The model *)
Definition model_value (base : R) (row : list xr) (missing : xr) (xs : list xtree) (U : list nat) : R :=
  base + sumR (map (coalition_value row missing U) xs).

Lemma model_shapley : forall base row missing N xs f, shapley N (model_value base row missing xs) f =
  sumR (map (fun x => shapley N (fun U => coalition_value row missing U x) f) xs).
Proof.
  intros base row missing N xs f. unfold model_value. rewrite (shapley_add N (fun _ => base) (fun U => sumR (map (coalition_value row missing U) xs))), shapley_const, Rplus_0_l.
  induction xs as [|x xs IH].
  - exact (shapley_const N 0 f).
  - cbn [map]. rewrite sumR_cons, <- IH. rewrite <- shapley_add. apply shapley_ext. intros U. rewrite sumR_cons. reflexivity.
Qed.
Lemma model_invariant : forall base row missing xs, invariant (model_value base row missing xs).
Proof.
  intros base row missing xs U U' P. unfold model_value. do 2 f_equal. apply map_ext. intros x. apply (coalition_invariant row missing x _ _ P).
Qed.

Lemma fold_shapley_X : forall row missing cols ts xs, length row = cols -> Forall2 tree_shape ts xs ->
  (forall t, In t ts -> well_formed t /\ finite_weights t /\ finite_covers t /\ (forall f, tree_features t f -> (f < cols)%nat) /\
     forall f, tree_features t f -> exists v, nth_error row f = Some v /\ @valid_cell XF missing v) ->
  forall phi, foldM (fun c t => @contrib_shapley XF t row missing c) ts (cells (S cols) phi) =
    Some (cells (S cols) (fun g => phi g + if (g =? cols)%nat then sumR (map (coalition_value row missing []) xs)
                                           else sumR (map (fun x => shapley (seq 0 cols) (fun U => coalition_value row missing U x) g) xs))).
Proof.
  intros row missing cols ts xs LR HF. induction HF as [|t x ts xs Htx HF IH]; intros H phi.
  - cbn [foldM]. f_equal. apply cells_ext. intros g _. unfold sumR. simpl. destruct (_ =? _)%nat; lra.
  - cbn [foldM]. destruct (H t (or_introl eq_refl)) as (W & FW & FC & FT & VR).
    rewrite (contrib_shapley_X t x row missing cols phi W Htx FW FC FT LR VR). cbn [bind]. rewrite IH by (intros; apply H; right; auto).
    f_equal. apply cells_ext. intros g _. cbn [map]. rewrite !sumR_cons. destruct (_ =? _)%nat; lra.
Qed.

Section Model.
Variables (b : @Booster XF) (data : Matrix (fcar (@f64 XF))) (ts : list (list XNode)) (base : R).
Hypotheses (HI : m_index data = seq 0 (m_rows data)) (LD : length (m_data data) = (m_rows data * m_cols data)%nat)
  (HT : prediction_trees b = Some ts) (HB : gb_base_score b = Fin base)
  (HO : forall t, In t ts -> well_formed t /\ finite_weights t /\ finite_covers t /\ forall f, tree_features t f -> (f < m_cols data)%nat)
  (HV : forall v, In v (m_data data) -> @valid_cell XF (p_missing (gb_params b)) v).

Lemma shapes_exist : exists xs, Forall2 tree_shape ts xs.
Proof.
  clear HT. induction ts as [|t us IH]; [exists []; constructor|]. destruct IH as [xs Hxs]; [intros; apply HO; right; auto|].
  destruct (HO t (or_introl eq_refl)) as [W _]. destruct (reps_exists t W) as (x & R & R0). exists (x :: xs). constructor; auto. split; auto.
Qed.

Lemma row_ok : forall i row, (i < m_rows data)%nat -> m_get_row data i = Some row -> length row = m_cols data /\
  forall t, In t ts -> well_formed t /\ finite_weights t /\ finite_covers t /\ (forall f, tree_features t f -> (f < m_cols data)%nat) /\
     forall f, tree_features t f -> exists v, nth_error row f = Some v /\ @valid_cell XF (p_missing (gb_params b)) v.
Proof.
  intros i row Hi HR. destruct (get_row_spec data LD i Hi) as (row' & HR' & L & V). assert (row' = row) by congruence. subst row'.
  split; auto. intros t Ht. destruct (HO t Ht) as (W & FW & FC & FT). repeat (split; auto). intros f Hf. specialize (FT f Hf).
  destruct (nth_error row f) as [v|] eqn:E; [|apply nth_error_None in E; lia]. exists v. split; auto.
  apply HV. rewrite V in E by auto. unfold m_get in E. eapply nth_error_In; eauto.
Qed.

Lemma contrib_row_X : forall i row xs, (i < m_rows data)%nat -> m_get_row data i = Some row -> Forall2 tree_shape ts xs ->
  @contrib_row XF b CShapley (m_cols data) row =
    Some (cells (S (m_cols data)) (fun g => if (g =? m_cols data)%nat then model_value base row (p_missing (gb_params b)) xs []
       else shapley (seq 0 (m_cols data)) (model_value base row (p_missing (gb_params b)) xs) g)).
Proof.
  intros i row xs Hi HR HF. destruct (row_ok i row Hi HR) as [L OK].
  unfold contrib_row. cbn [row_method bind]. unfold contrib_row_alone. rewrite HT, HB. cbn [bind]. rewrite row_start_cells.
  rewrite (fold_shapley_X row (p_missing (gb_params b)) (m_cols data) ts xs L HF OK). f_equal. apply cells_ext. intros g _.
  rewrite model_shapley. unfold model_value. destruct (_ =? _)%nat; lra.
Qed.

Theorem shapley_contributions_X : forall sh par, (exists xs, Forall2 tree_shape ts xs) /\
  exists r, @predict_contributions XF sh b data CShapley par = Some r /\
  forall xs, Forall2 tree_shape ts xs -> forall i row, (i < m_rows data)%nat -> m_get_row data i = Some row ->
    (forall f, (f < m_cols data)%nat -> nth_error r (i * (m_cols data + 1) + f) =
       Some (Fin (shapley (seq 0 (m_cols data)) (model_value base row (p_missing (gb_params b)) xs) f))) /\
    nth_error r (i * (m_cols data + 1) + m_cols data) = Some (Fin (model_value base row (p_missing (gb_params b)) xs [])).
Proof.
  intros sh par. destruct shapes_exist as [xs0 HF0]. split; [eauto|].
  assert (EX : exists r, @predict_contributions XF sh b data CShapley par = Some r).
  { rewrite predict_contributions_serial. simpl. unfold predict_contributions_tree_alone. cbn [row_method bind]. unfold for_rows.
    destruct (mapM_total (fun i => let* r := m_get_row data i in @contrib_row_alone XF b (m_cols data) contrib_shapley r) (m_index data)) as [rs Hrs].
    { intros i Hi. rewrite HI in Hi. apply in_seq in Hi. destruct (get_row_spec data LD i) as (row & HR & _); [lia|]. rewrite HR. cbn [bind].
      pose proof (contrib_row_X i row xs0 ltac:(lia) HR HF0) as E. unfold contrib_row in E. cbn [row_method bind] in E. eauto. }
    simpl in Hrs |- *. rewrite Hrs. simpl. eauto. }
  destruct EX as [r Hr]. exists r. split; auto. intros xs HF i row Hi HR.
  destruct (contributions_rows _ _ _ _ _ _ HI Hr i row Hi HR) as (c & Hc & Hs). rewrite (contrib_row_X i row xs Hi HR HF) in Hc. injection Hc as <-.
  split; [intros f Hf|]; rewrite <- (slice_nth _ _ _ Hs) by lia; rewrite cells_nth by (apply Nat.lt_succ_r; first [apply Nat.lt_le_incl; exact Hf|apply Nat.le_refl]).
  - match goal with |- context [Nat.eqb f ?c] => replace (Nat.eqb f c) with false by (symmetry; apply Nat.eqb_neq; intros Q; change c with (m_cols data) in Q; lia) end. reflexivity.
  - rewrite Nat.eqb_refl. reflexivity.
Qed.

Theorem shapley_sums : forall shs sh par par' preds r, @predict XF shs b data par = Some preds ->
  @predict_contributions XF sh b data CShapley par' = Some r -> forall i, (i < m_rows data)%nat ->
  exists cs, length cs = (m_cols data + 1)%nat /\
    slice r (i * (m_cols data + 1)) (i * (m_cols data + 1) + (m_cols data + 1)) = Some (map Fin cs) /\
    nth_error preds i = Some (Fin (sumR cs)).
Proof.
  intros shs sh par par' preds r HP HC i Hi. destruct shapes_exist as [xs HF]. destruct (get_row_spec data LD i Hi) as (row & HR & _).
  destruct (contributions_rows _ _ _ _ _ _ HI HC i row Hi HR) as (c & Hc & Hs). rewrite (contrib_row_X i row xs Hi HR HF) in Hc. injection Hc as <-.
  set (V := model_value base row (p_missing (gb_params b)) xs) in *.
  exists (map (fun g => if (g =? m_cols data)%nat then V [] else shapley (seq 0 (m_cols data)) V g) (seq 0 (S (m_cols data)))).
  split; [rewrite map_length, seq_length; lia|]. split; [rewrite map_map; exact Hs|].
  destruct (row_ok i row Hi HR) as [L OK].
  assert (LV : exists leaves, Forall2 (fun t n => walk (length t) t (nth_error row) (p_missing (gb_params b)) 0 = Some n) ts leaves /\
    map (fun n => val (n_weight n)) leaves = map (coalition_value row (p_missing (gb_params b)) (seq 0 (m_cols data))) xs).
  { clear -HF OK. induction HF as [|t x us xs Htx HF IH]; [exists []; split; [constructor|reflexivity]|].
    destruct IH as (leaves & HL & EL); [intros; apply OK; right; auto|]. destruct (OK t (or_introl eq_refl)) as (W & FW & FC & FT & VR). destruct Htx as [R R0].
    destruct (coalition_full row (p_missing (gb_params b)) t (seq 0 (m_cols data))) with (x := x) (fuel := length t) as (n & Hn & En); auto.
    { intros f Hf. apply in_seq. specialize (FT f Hf). lia. }
    { rewrite <- (reps_size _ W _ R R0). apply iheight_size. }
    rewrite R0 in Hn. exists (n :: leaves). split; [constructor; auto|]. cbn [map]. rewrite En, EL. reflexivity. }
  destruct LV as (leaves & HL & EL).
  rewrite (predict_X b data ts base HI LD HT HB (fun t Ht => proj1 (proj2 (HO t Ht))) shs par preds i row leaves Hi HR HP HL), EL. do 2 f_equal.
  rewrite seq_S, map_app, sumR_app. cbn [map plus]. rewrite Nat.eqb_refl.
  rewrite (map_ext_in _ (shapley (seq 0 (m_cols data)) V)).
  - rewrite (shapley_efficient (seq 0 (m_cols data)) V (seq_NoDup _ _) (model_invariant _ _ _ _)). replace (sumR [V []]) with (V []) by (unfold sumR; simpl; lra). unfold V, model_value. lra.
  - intros g Hg. apply in_seq in Hg. destruct (Nat.eqb_spec g (m_cols data)); [lia|reflexivity].
Qed.
End Model.
