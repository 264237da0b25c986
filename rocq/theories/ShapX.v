(** The path algorithm of shapley.rs under exact arithmetic computes Shapley values. *)
From Coq Require Import List Arith Lia Bool Reals Lra Permutation.
From Verif Require Import Prelude Float FloatX FloatLaws Data DataProofs Utils UtilsX Binning Histogram Node Splitter Tree TreeWf PathProofs
  Objective Metric Sampler Contrib Booster PredictProofs ContribProofs ContribX ImportProofs DependX Shapley.
Import ListNotations.
Local Open Scope R_scope.

Notation PE := (@PathElement XF).

(** *** Paths as lists of elements with weights *)
Definition pel (e : Elem) (w : R) : PE := @mkPE XF (fst e) (Fin (fst (snd e))) (Fin (snd (snd e))) (Fin w).
Definition prep (p : list PE) (L : list Elem) (w : nat -> R) : Prop :=
  forall i e, nth_error L i = Some e -> nth_error p i = Some (pel e (w i)).
Definition upd (w : nat -> R) (i : nat) (x : R) : nat -> R := fun j => if (j =? i)%nat then x else w j.

Lemma prep_len : forall p L w, prep p L w -> (length L <= length p)%nat.
Proof.
  intros p L w H. destruct (length L) as [|n] eqn:E; [lia|]. destruct (nth_error L n) as [e|] eqn:En.
  - apply H in En. apply nth_error_Some_lt in En. lia.
  - apply nth_error_None in En. lia.
Qed.
Lemma prep_ext : forall p L w w', prep p L w -> (forall i, (i < length L)%nat -> w i = w' i) -> prep p L w'.
Proof. intros p L w w' H E i e He. rewrite <- E; auto. apply nth_error_Some_lt in He. auto. Qed.
Lemma grow_in : forall (p : list PE) i, (i < length p)%nat -> @path_grow XF p i = p.
Proof. intros p i H. unfold path_grow. destruct (Nat.eqb_spec i (length p)); [lia|reflexivity]. Qed.
Lemma prep_lt : forall p L w i e, prep p L w -> nth_error L i = Some e -> (i < length p)%nat.
Proof. intros p L w i e H He. apply prep_len in H. apply nth_error_Some_lt in He. lia. Qed.
Lemma path_get_prep : forall p L w i e, prep p L w -> nth_error L i = Some e -> @path_get XF p i = Some (pel e (w i)).
Proof. intros p L w i e H He. unfold path_get. rewrite grow_in by (eapply prep_lt; eauto). apply H. auto. Qed.
Lemma path_set_prep : forall p L w i e x, prep p L w -> nth_error L i = Some e ->
  exists p', @path_set XF p i (pel e x) = Some p' /\ prep p' L (upd w i x).
Proof.
  intros p L w i e x H He. unfold path_set. rewrite grow_in by (eapply prep_lt; eauto).
  destruct (update_total p (i := i) (pel e x)) as [p' Hp]; [eapply prep_lt; eauto|]. exists p'. split; auto.
  intros j e' Hj. rewrite (update_nth _ _ _ Hp). unfold upd. destruct (Nat.eqb_spec j i) as [->|]; [congruence|auto].
Qed.
Lemma path_set_elem : forall p A e B w e', prep p (A ++ e :: B) w ->
  exists p', @path_set XF p (length A) (pel e' (w (length A))) = Some p' /\ prep p' (A ++ e' :: B) w.
Proof.
  intros p A e B w e' H. assert (L : (length A < length p)%nat) by (apply prep_len in H; rewrite app_length in H; simpl in H; lia).
  unfold path_set. rewrite grow_in by auto. destruct (update_total p (i := length A) (pel e' (w (length A)))) as [p' Hp]; auto. exists p'. split; auto.
  intros j x Hj. rewrite (update_nth _ _ _ Hp). destruct (Nat.eqb_spec j (length A)) as [->|NE].
  - rewrite nth_error_app2, Nat.sub_diag in Hj by lia. simpl in Hj. congruence.
  - apply H. destruct (Nat.lt_ge_cases j (length A)).
    + rewrite nth_error_app1 in * by auto. auto.
    + rewrite nth_error_app2 in * by auto. destruct (j - length A)%nat eqn:E; [lia|]. auto.
Qed.
Lemma path_set_new : forall p L w e x, prep p L w ->
  exists p', @path_set XF p (length L) (pel e x) = Some p' /\ prep p' (L ++ [e]) (upd w (length L) x).
Proof.
  intros p L w e x H. pose proof (prep_len _ _ _ H) as LE. unfold path_set.
  assert (LG : (length L < length (@path_grow XF p (length L)))%nat).
  { unfold path_grow. destruct (Nat.eqb_spec (length L) (length p)); [rewrite app_length; simpl; lia|lia]. }
  destruct (update_total (@path_grow XF p (length L)) (i := length L) (pel e x)) as [p' Hp]; auto. exists p'. split; auto.
  intros j y Hj. rewrite (update_nth _ _ _ Hp). unfold upd. destruct (Nat.eqb_spec j (length L)) as [->|NE].
  - rewrite nth_error_app2, Nat.sub_diag in Hj by lia. simpl in Hj. congruence.
  - pose proof (nth_error_Some_lt _ _ Hj) as Lj. rewrite app_length in Lj. simpl in Lj. rewrite nth_error_app1 in Hj by lia.
    unfold path_grow. destruct (Nat.eqb_spec (length L) (length p)); [rewrite nth_error_app1 by lia|]; apply H; auto.
Qed.

Lemma rev_seq_S : forall m, rev (seq 0 (S m)) = m :: rev (seq 0 m).
Proof. intros m. rewrite seq_S, rev_app_distr. reflexivity. Qed.
Lemma nth_lt : forall (L : list Elem) i, (i < length L)%nat -> exists e, nth_error L i = Some e.
Proof. intros L i H. destruct (nth_error L i) eqn:E; eauto. apply nth_error_None in E. lia. Qed.

Definition prev (c : nat -> R) (i : nat) : R := match i with 0%nat => 0 | S k => c k end.

(** *** Arithmetic of the orderings *)
Lemma INR_nz : forall n, INR (S n) <> 0.
Proof. intros. apply not_0_INR. lia. Qed.
Lemma wt_up : forall d i, (i <= d)%nat -> wt (S d) (S i) * (INR (S d + 1) / INR (i + 1)) = wt d i.
Proof.
  intros d i H. unfold wt. replace (S d - S i)%nat with (d - i)%nat by lia. rewrite (fact_step (S d)), (fact_step i).
  replace (S d + 1)%nat with (S (S d)) by lia. replace (i + 1)%nat with (S i) by lia.
  pose proof (fact_nz (S d)). pose proof (INR_nz (S d)). pose proof (INR_nz i). field. auto.
Qed.
Lemma wt_keep : forall d i, (i <= d)%nat -> wt d i * (INR (S d - i) / INR (S d + 1)) = wt (S d) i.
Proof.
  intros d i H. unfold wt. replace (S d - i)%nat with (S (d - i)) by lia. rewrite (fact_step (S d)), (fact_step (d - i)).
  replace (S d + 1)%nat with (S (S d)) by lia. pose proof (fact_nz (S d)). pose proof (INR_nz (S d)). field. auto.
Qed.
Lemma wt_down : forall d i, (i <= d)%nat -> wt d i * (INR (i + 1) / INR (S d + 1)) = wt (S d) (S i).
Proof.
  intros d i H. unfold wt. replace (S d - S i)%nat with (d - i)%nat by lia. rewrite (fact_step (S d)), (fact_step i).
  replace (S d + 1)%nat with (S (S d)) by lia. replace (i + 1)%nat with (S i) by lia.
  pose proof (fact_nz (S d)). pose proof (INR_nz (S d)). field. auto.
Qed.
Lemma wt_nz : forall d i, wt d i <> 0.
Proof.
  intros d i. unfold wt. unfold Rdiv. apply Rmult_integral_contrapositive_currified.
  - apply Rmult_integral_contrapositive_currified; apply fact_nz.
  - apply Rinv_neq_0_compat, fact_nz.
Qed.

Lemma fofnat_X : forall n, @fofnat (@f32 XF) n = Fin (INR n).
Proof. reflexivity. Qed.

Lemma xeq_fin : forall a b, xeq (Fin a) (Fin b) = if Req_EM_T a b then true else false.
Proof. intros a b. cbn [xeq]. destruct (Req_EM_T a b); [apply Raux.Req_bool_true|apply Raux.Req_bool_false]; auto. Qed.

(** *** Extending *)
Lemma extend_loop_X : forall z o d L m p w, length L = S d -> (m <= d)%nat -> prep p L w ->
  exists p', @extend_loop XF (rev (seq 0 m)) d (Fin z) (Fin o) p = Some p' /\
    prep p' L (fun i => if (i <? m)%nat then z * w i * INR (d - i) / INR (d + 1) + prev (fun j => o * w j * INR (j + 1) / INR (d + 1)) i
                        else if (i =? m)%nat then w i + prev (fun j => o * w j * INR (j + 1) / INR (d + 1)) i else w i).
Proof.
  intros z o d L m. induction m as [|m IH]; intros p w LL Lm P.
  - exists p. split; [reflexivity|]. eapply prep_ext; [exact P|]. intros i _. simpl. destruct (Nat.eqb_spec i 0) as [->|]; simpl; lra.
  - rewrite rev_seq_S. cbn [extend_loop].
    destruct (nth_lt L m) as [e He]; [lia|]. destruct (nth_lt L (m + 1)) as [e1 He1]; [lia|].
    rewrite (path_get_prep _ _ _ _ _ P He), (path_get_prep _ _ _ _ _ P He1). cbn [bind].
    assert (NZ : INR (d + 1) <> 0) by (rewrite Nat.add_1_r; apply INR_nz).
    change (@set_pweight XF (pel e1 (w (m + 1)%nat)) _) with
      (@set_pweight XF (pel e1 (w (m + 1)%nat)) (xadd (Fin (w (m + 1)%nat)) (xdiv (xmul (xmul (Fin o) (Fin (w m))) (Fin (INR (m + 1)))) (Fin (INR (d + 1)))))).
    rewrite !xmul_fin, xdiv_fin by auto.
    change (@set_pweight XF (pel e1 (w (m + 1)%nat)) _) with (pel e1 (w (m + 1)%nat + o * w m * INR (m + 1) / INR (d + 1))).
    destruct (path_set_prep p L w (m + 1) e1 (w (m + 1)%nat + o * w m * INR (m + 1) / INR (d + 1)) P He1) as (p1 & -> & P1). cbn [bind].
    change (@set_pweight XF (pel e (w m)) _) with
      (@set_pweight XF (pel e (w m)) (xdiv (xmul (xmul (Fin z) (Fin (w m))) (Fin (INR (d - m)))) (Fin (INR (d + 1))))).
    rewrite !xmul_fin, xdiv_fin by auto.
    change (@set_pweight XF (pel e (w m)) _) with (pel e (z * w m * INR (d - m) / INR (d + 1))).
    destruct (path_set_prep p1 L _ m e (z * w m * INR (d - m) / INR (d + 1)) P1 He) as (p2 & -> & P2). cbn [bind].
    destruct (IH p2 _ LL ltac:(lia) P2) as (p3 & -> & P3). exists p3. split; auto. eapply prep_ext; [exact P3|].
    intros i Hi. cbv beta. unfold upd.
    destruct (Nat.ltb_spec i m) as [H1|H1].
    + destruct (Nat.ltb_spec i (S m)); [|lia]. destruct (Nat.eqb_spec i m); [lia|]. destruct (Nat.eqb_spec i (m + 1)); [lia|].
      destruct i as [|i]; cbn [prev]; auto. destruct (Nat.eqb_spec i m); [lia|]. destruct (Nat.eqb_spec i (m + 1)); [lia|]. reflexivity.
    + destruct (Nat.eqb_spec i m) as [->|N1].
      * destruct (Nat.ltb_spec m (S m)); [|lia]. f_equal. destruct m as [|k]; cbn [prev]; auto.
        destruct (Nat.eqb_spec k (S k)); [lia|]. destruct (Nat.eqb_spec k (S k + 1)); [lia|]. reflexivity.
      * destruct (Nat.ltb_spec i (S m)); [lia|]. destruct (Nat.eqb_spec i (S m)) as [->|N2].
        -- destruct (Nat.eqb_spec (S m) (m + 1)); [|lia]. cbn [prev]. replace (m + 1)%nat with (S m) by lia. reflexivity.
        -- destruct (Nat.eqb_spec i (m + 1)); [lia|reflexivity].
Qed.

(** The weights of a path after a dummy element and the elements L. *)
Definition pw (L : list Elem) (i : nat) : R := wt (length L) i * cf L i.

Lemma cf_snoc : forall L e i, cf (L ++ [e]) i = fst (snd e) * cf L i + prev (fun k => snd (snd e) * cf L k) i.
Proof. intros L e i. rewrite (cf_perm (L ++ [e]) (e :: L)) by (symmetry; apply Permutation_cons_append). simpl. destruct i; reflexivity. Qed.

Lemma extend_first : forall f, exists p, @extend_path XF [] 0 (Fin 1) (Fin 1) f = Some p /\ prep p [(f, (1, 1))] (pw []).
Proof.
  intros f. eexists. split; [reflexivity|]. intros [|i] e He; [|destruct i; discriminate]. injection He as <-. simpl. unfold pel, pw, wt. simpl.
  do 3 f_equal. unfold Rdiv. rewrite !Rinv_1. lra.
Qed.
Lemma extend_next : forall p D L z o f, prep p (D :: L) (pw L) ->
  exists p', @extend_path XF p (S (length L)) (Fin z) (Fin o) f = Some p' /\ prep p' (D :: L ++ [(f, (z, o))]) (pw (L ++ [(f, (z, o))])).
Proof.
  intros p D L z o f P. unfold extend_path. cbn [Nat.eqb].
  destruct (path_set_new p (D :: L) (pw L) (f, (z, o)) 0 P) as (p1 & E1 & P1). cbn [length] in E1.
  change (@mkPE XF f (Fin z) (Fin o) (fzero f32)) with (pel (f, (z, o)) 0). rewrite E1. cbn [bind].
  destruct (extend_loop_X z o (S (length L)) ((D :: L) ++ [(f, (z, o))]) (S (length L)) p1 (upd (pw L) (length (D :: L)) 0)) as (p2 & E2 & P2); [rewrite app_length; simpl; lia|lia|exact P1|].
  exists p2. split; auto. eapply prep_ext; [exact P2|]. intros i Hi. simpl app in Hi. cbn [length] in Hi. rewrite app_length in Hi. cbn [length] in Hi. cbv beta. unfold upd. cbn [length].
  set (d := length L) in *. unfold pw. rewrite app_length, cf_snoc. cbn [length fst snd]. fold d. replace (d + 1)%nat with (S d) by lia.
  assert (NZ : INR (S d + 1) <> 0) by (rewrite Nat.add_1_r; apply INR_nz).
  assert (PREV : (i <= S d)%nat -> prev (fun j => o * (if (j =? S d)%nat then 0 else wt d j * cf L j) * INR (j + 1) / INR (S d + 1)) i =
                 wt (S d) i * prev (fun k => o * cf L k) i).
  { intros Li. destruct i as [|i]; cbn [prev]; [lra|]. destruct (Nat.eqb_spec i (S d)); [lia|]. rewrite <- (wt_down d i) by lia. field. auto. }
  destruct (Nat.ltb_spec i (S d)) as [H1|H1].
  - rewrite PREV by lia. destruct (Nat.eqb_spec i (S d)); [lia|]. rewrite <- (wt_keep d i) by lia. field. auto.
  - destruct (Nat.eqb_spec i (S d)); [|lia]. rewrite PREV by lia. rewrite (cf_above L i) by (fold d; lia). lra.
Qed.

(** *** Unwinding *)
Lemma unwind_loop_X : forall z o d L c, length L = S (S d) -> (o = 0 -> z <> 0) -> forall m p w, (m <= S d)%nat -> prep p L w ->
  (forall i, (i < m)%nat -> w i = wt (S d) i * (z * c i + prev (fun k => o * c k) i)) ->
  forall next, (o <> 0 -> next = wt (S d) m * prev (fun k => o * c k) m) ->
  exists p', @unwind_loop XF (rev (seq 0 m)) (S d) (Fin z) (Fin o) (Fin next) p = Some p' /\
    prep p' L (fun i => if (i <? m)%nat then wt d i * c i else w i).
Proof.
  intros z o d L c LL OZ. induction m as [|m IH]; intros p w Lm P HW next HN.
  - exists p. split; [reflexivity|]. eapply prep_ext; [exact P|]. reflexivity.
  - rewrite rev_seq_S. cbn [unwind_loop]. destruct (nth_lt L m) as [e He]; [lia|].
    rewrite (path_get_prep _ _ _ _ _ P He). cbn [bind].
    assert (NZ : INR (S d + 1) <> 0) by (rewrite Nat.add_1_r; apply INR_nz).
    assert (NM : INR (m + 1) <> 0) by (rewrite Nat.add_1_r; apply INR_nz).
    assert (ND : INR (S d - m) <> 0) by (replace (S d - m)%nat with (S (d - m)) by lia; apply INR_nz).
    change (@feq (@f32 XF) (Fin o) (fzero f32)) with (xeq (Fin o) (Fin 0)). rewrite xeq_fin.
    destruct (Req_EM_T o 0) as [EO|NO]; cbn [negb].
    + subst o. specialize (OZ eq_refl). 
      change (@set_pweight XF (pel e (w m)) _) with
        (@set_pweight XF (pel e (w m)) (xdiv (xmul (Fin (w m)) (Fin (INR (S d + 1)))) (xmul (Fin z) (Fin (INR (S d - m)))))).
      rewrite !xmul_fin, xdiv_fin by (apply Rmult_integral_contrapositive_currified; auto).
      change (@set_pweight XF (pel e (w m)) _) with (pel e (w m * INR (S d + 1) / (z * INR (S d - m)))).
      destruct (path_set_prep p L w m e (w m * INR (S d + 1) / (z * INR (S d - m))) P He) as (p1 & -> & P1). cbn [bind].
      destruct (IH p1 _ ltac:(lia) P1) with (next := next) as (p2 & -> & P2).
      { intros i Hi. unfold upd. destruct (Nat.eqb_spec i m); [lia|]. apply HW. lia. }
      { tauto. }
      exists p2. split; auto. eapply prep_ext; [exact P2|]. intros i Hi. cbv beta. unfold upd.
      destruct (Nat.ltb_spec i m); destruct (Nat.ltb_spec i (S m)); try lia; auto; destruct (Nat.eqb_spec i m) as [->|]; try lia; auto.
      rewrite HW by lia. rewrite <- (wt_keep d m) by lia.
      replace (prev (fun k => 0 * c k) m) with 0 by (destruct m; simpl; lra). field. auto.
    + assert (EN : next = wt (S d) (S m) * (o * c m)) by (apply (HN NO)).
      assert (NN : INR (m + 1) * o <> 0) by (apply Rmult_integral_contrapositive_currified; auto).
      assert (EW : next * INR (S d + 1) / (INR (m + 1) * o) = wt d m * c m).
      { rewrite EN, <- (wt_up d m) by lia. field. auto. }
      change (@fdiv (@f32 XF) (@fmul (@f32 XF) (Fin next) (@fofnat (@f32 XF) (S d + 1))) (@fmul (@f32 XF) (@fofnat (@f32 XF) (m + 1)) (Fin o))) with
        (xdiv (xmul (Fin next) (Fin (INR (S d + 1)))) (xmul (Fin (INR (m + 1))) (Fin o))).
      rewrite !xmul_fin, xdiv_fin, EW by auto.
      change (@set_pweight XF (pel e (w m)) _) with (pel e (wt d m * c m)).
      destruct (path_set_prep p L w m e (wt d m * c m) P He) as (p1 & -> & P1). cbn [bind].
      change (@fsub (@f32 XF) (@pe_weight XF (pel e (w m))) _) with
        (xsub (Fin (w m)) (xdiv (xmul (xmul (Fin (wt d m * c m)) (Fin z)) (Fin (INR (S d - m)))) (Fin (INR (S d + 1))))).
      rewrite !xmul_fin, xdiv_fin, xsub_fin by auto.
      destruct (IH p1 _ ltac:(lia) P1) with (next := w m - wt d m * c m * z * INR (S d - m) / INR (S d + 1)) as (p2 & -> & P2).
      { intros i Hi. unfold upd. destruct (Nat.eqb_spec i m); [lia|]. apply HW. lia. }
      { intros _. rewrite HW by lia. rewrite <- (wt_keep d m) by lia. field. auto. }
      exists p2. split; auto. eapply prep_ext; [exact P2|]. intros i Hi. cbv beta. unfold upd.
      destruct (Nat.ltb_spec i m); destruct (Nat.ltb_spec i (S m)); try lia; auto; destruct (Nat.eqb_spec i m) as [->|]; try lia; auto.
Qed.

Lemma shift_loop_X : forall B A e p w, prep p (A ++ e :: B) w ->
  exists p', @shift_loop XF (seq (length A) (length B)) p = Some p' /\ prep p' (A ++ B) w.
Proof.
  induction B as [|b B IH]; intros A e p w P.
  - exists p. split; [reflexivity|]. intros i x Hx. apply P. rewrite app_nil_r in Hx. rewrite nth_error_app1; auto. apply nth_error_Some_lt in Hx. auto.
  - cbn [length seq shift_loop].
    rewrite (path_get_prep _ _ _ _ e P) by (rewrite nth_error_app2, Nat.sub_diag by lia; reflexivity). cbn [bind].
    rewrite (path_get_prep _ _ _ _ b P) by (rewrite nth_error_app2 by lia; replace (length A + 1 - length A)%nat with 1%nat by lia; reflexivity). cbn [bind].
    change (@mkPE XF _ _ _ _) with (pel b (w (length A))).
    destruct (path_set_elem p A e (b :: B) w b P) as (p1 & -> & P1). cbn [bind].
    destruct (IH (A ++ [b]) b p1 w) as (p2 & E2 & P2).
    { rewrite <- app_assoc. exact P1. }
    rewrite app_length in E2. cbn [length] in E2. rewrite Nat.add_1_r in E2. exists p2. split; auto. rewrite <- app_assoc in P2. exact P2.
Qed.

Lemma cf_mid : forall A e B i, cf (A ++ e :: B) i = fst (snd e) * cf (A ++ B) i + prev (fun k => snd (snd e) * cf (A ++ B) k) i.
Proof. intros A e B i. rewrite (cf_perm (A ++ e :: B) (e :: A ++ B)) by (symmetry; apply Permutation_middle). simpl. destruct i; reflexivity. Qed.

Lemma pw_mid : forall A e B i, pw (A ++ e :: B) i = wt (S (length (A ++ B))) i * (fst (snd e) * cf (A ++ B) i + prev (fun k => snd (snd e) * cf (A ++ B) k) i).
Proof. intros A e B i. unfold pw. rewrite cf_mid. f_equal. f_equal. rewrite !app_length. simpl. lia. Qed.

Lemma unwind_path_X : forall p D A e B, prep p (D :: A ++ e :: B) (pw (A ++ e :: B)) -> (snd (snd e) = 0 -> fst (snd e) <> 0) ->
  exists p', @unwind_path XF p (length (A ++ e :: B)) (S (length A)) = Some p' /\ prep p' (D :: A ++ B) (pw (A ++ B)).
Proof.
  intros p D A e B P OZ. unfold unwind_path.
  assert (LE : length (A ++ e :: B) = S (length (A ++ B))) by (rewrite !app_length; simpl; lia).
  rewrite (path_get_prep _ _ _ (S (length A)) e P) by (simpl; rewrite nth_error_app2, Nat.sub_diag by lia; reflexivity). cbn [bind].
  destruct (nth_lt (D :: A ++ e :: B) (length (A ++ e :: B))) as [ed Hd]; [simpl; lia|].
  rewrite (path_get_prep _ _ _ _ ed P Hd). cbn [bind]. rewrite LE.
  change (@pe_zero XF (pel e _)) with (Fin (fst (snd e))). change (@pe_one XF (pel e _)) with (Fin (snd (snd e))).
  change (@pe_weight XF (pel ed ?x)) with (Fin x).
  destruct (unwind_loop_X (fst (snd e)) (snd (snd e)) (length (A ++ B)) (D :: A ++ e :: B) (cf (A ++ B))) with
    (m := S (length (A ++ B))) (p := p) (w := pw (A ++ e :: B)) (next := pw (A ++ e :: B) (S (length (A ++ B)))) as (p1 & E1 & P1); auto.
  - cbn [length]. rewrite LE. reflexivity.
  - intros i _. apply pw_mid.
  - intros _. rewrite pw_mid, (cf_above (A ++ B) (S (length (A ++ B)))) by lia. rewrite Rmult_0_r, Rplus_0_l. reflexivity.
  - rewrite E1. cbn [bind].
    destruct (shift_loop_X B (D :: A) e p1 _ P1) as (p2 & E2 & P2).
    replace (S (length (A ++ B)) - S (length A))%nat with (length B) by (rewrite app_length; lia).
    cbn [length] in E2. rewrite E2. exists p2. split; auto. eapply prep_ext; [exact P2|].
    intros i Hi. cbv beta. cbn [length app] in Hi. destruct (Nat.ltb_spec i (S (length (A ++ B)))); [reflexivity|]. lia.
Qed.

(** *** The sum of the unwound weights *)
Lemma unwound_loop_X : forall z o d L c p w, length L = S (S d) -> prep p L w ->
  (forall i, (i <= d)%nat -> w i = wt (S d) i * (z * c i + prev (fun k => o * c k) i)) ->
  forall m, (m <= S d)%nat -> forall next total, (o <> 0 -> next = wt (S d) m * prev (fun k => o * c k) m) ->
  exists r, @unwound_loop XF (rev (seq 0 m)) (S d) (Fin z) (Fin o) (Fin next) (Fin total) p = Some (Fin r) /\
    (o <> 0 \/ z <> 0 -> r = total + psum (fun i => wt d i * c i) m).
Proof.
  intros z o d L c p w LL P HW. induction m as [|m IH]; intros Lm next total HN.
  - exists total. split; [reflexivity|]. intros _. simpl. lra.
  - rewrite rev_seq_S. cbn [unwound_loop]. destruct (nth_lt L m) as [e He]; [lia|].
    rewrite (path_get_prep _ _ _ _ _ P He). cbn [bind].
    assert (NZ : INR (S d + 1) <> 0) by (rewrite Nat.add_1_r; apply INR_nz).
    assert (NM : INR (m + 1) <> 0) by (rewrite Nat.add_1_r; apply INR_nz).
    assert (ND : INR (S d - m) <> 0) by (replace (S d - m)%nat with (S (d - m)) by lia; apply INR_nz).
    change (@feq (@f32 XF) (Fin o) (fzero f32)) with (xeq (Fin o) (Fin 0)).
    change (@feq (@f32 XF) (Fin z) (fzero f32)) with (xeq (Fin z) (Fin 0)).
    change (@feq (@f32 XF) (@pe_weight XF (pel e (w m))) (fzero f32)) with (xeq (Fin (w m)) (Fin 0)). rewrite !xeq_fin.
    destruct (Req_EM_T o 0) as [EO|NO]; cbn [negb].
    + destruct (Req_EM_T z 0) as [EZ|NZ0]; cbn [negb].
      * assert (W0 : w m = 0). { rewrite HW by lia. subst. replace (prev (fun k => 0 * c k) m) with 0 by (destruct m; simpl; lra). lra. }
        destruct (Req_EM_T (w m) 0) as [_|]; [|contradiction]. cbn [negb].
        destruct (IH ltac:(lia) next total) as (r & -> & _); [tauto|]. exists r. split; auto. tauto.
      * change (@fadd (@f32 XF) (Fin total) _) with
          (xadd (Fin total) (xdiv (xdiv (Fin (w m)) (Fin z)) (xdiv (Fin (INR (S d - m))) (Fin (INR (S d + 1)))))).
        assert (NQ : INR (S d - m) / INR (S d + 1) <> 0).
        { unfold Rdiv. apply Rmult_integral_contrapositive_currified; auto. apply Rinv_neq_0_compat; auto. }
        rewrite (xdiv_fin (w m) z), (xdiv_fin (INR (S d - m))) by auto. rewrite xdiv_fin by auto.
        change (xadd (Fin total) (Fin ?x)) with (Fin (total + x)).
        destruct (IH ltac:(lia) next (total + w m / z / (INR (S d - m) / INR (S d + 1)))) as (r & -> & Hr); [tauto|]. exists r. split; auto.
        intros H. rewrite (Hr H). cbn [psum]. 
        assert (EW : w m / z / (INR (S d - m) / INR (S d + 1)) = wt d m * c m); [|lra].
        rewrite HW by lia. subst o. replace (prev (fun k => 0 * c k) m) with 0 by (destruct m; simpl; lra).
        rewrite <- (wt_keep d m) by lia. field. auto.
    + assert (EN : next = wt (S d) (S m) * (o * c m)) by (apply (HN NO)).
      assert (NN : INR (m + 1) * o <> 0) by (apply Rmult_integral_contrapositive_currified; auto).
      assert (EW : next * INR (S d + 1) / (INR (m + 1) * o) = wt d m * c m).
      { rewrite EN, <- (wt_up d m) by lia. field. auto. }
      change (@fdiv (@f32 XF) (@fmul (@f32 XF) (Fin next) (@fofnat (@f32 XF) (S d + 1))) (@fmul (@f32 XF) (@fofnat (@f32 XF) (m + 1)) (Fin o))) with
        (xdiv (xmul (Fin next) (Fin (INR (S d + 1)))) (xmul (Fin (INR (m + 1))) (Fin o))).
      rewrite !xmul_fin, xdiv_fin, EW by auto.
      change (@fsub (@f32 XF) (@pe_weight XF (pel e (w m))) _) with
        (xsub (Fin (w m)) (xmul (xmul (Fin (wt d m * c m)) (Fin z)) (xdiv (Fin (INR (S d - m))) (Fin (INR (S d + 1)))))).
      rewrite xdiv_fin by auto. rewrite !xmul_fin, xsub_fin by auto.
      change (@fadd (@f32 XF) (Fin total) (Fin ?x)) with (Fin (total + x)).
      destruct (IH ltac:(lia) (w m - wt d m * c m * z * (INR (S d - m) / INR (S d + 1))) (total + wt d m * c m)) as (r & -> & Hr).
      { intros _. rewrite HW by lia. rewrite <- (wt_keep d m) by lia. field. auto. }
      exists r. split; auto. intros H. rewrite (Hr H). cbn [psum]. lra.
Qed.

Lemma unwound_sum_X : forall p D A e B, prep p (D :: A ++ e :: B) (pw (A ++ e :: B)) ->
  exists r, @unwound_path_sum XF p (length (A ++ e :: B)) (S (length A)) = Some (Fin r) /\
    r * (snd (snd e) - fst (snd e)) = (snd (snd e) - fst (snd e)) * psum (fun i => wt (length (A ++ B)) i * cf (A ++ B) i) (S (length (A ++ B))).
Proof.
  intros p D A e B P. unfold unwound_path_sum.
  assert (LE : length (A ++ e :: B) = S (length (A ++ B))) by (rewrite !app_length; simpl; lia).
  rewrite (path_get_prep _ _ _ (S (length A)) e P) by (simpl; rewrite nth_error_app2, Nat.sub_diag by lia; reflexivity). cbn [bind].
  destruct (nth_lt (D :: A ++ e :: B) (length (A ++ e :: B))) as [ed Hd]; [simpl; lia|].
  rewrite (path_get_prep _ _ _ _ ed P Hd). cbn [bind]. rewrite LE.
  change (@pe_zero XF (pel e _)) with (Fin (fst (snd e))). change (@pe_one XF (pel e _)) with (Fin (snd (snd e))).
  change (@pe_weight XF (pel ed ?x)) with (Fin x).
  destruct (unwound_loop_X (fst (snd e)) (snd (snd e)) (length (A ++ B)) (D :: A ++ e :: B) (cf (A ++ B)) p (pw (A ++ e :: B))) with
    (m := S (length (A ++ B))) (next := pw (A ++ e :: B) (S (length (A ++ B)))) (total := 0) as (r & E & Hr); auto.
  - cbn [length]. rewrite LE. reflexivity.
  - intros i _. apply pw_mid.
  - intros _. rewrite pw_mid, (cf_above (A ++ B) (S (length (A ++ B)))) by lia. rewrite Rmult_0_r, Rplus_0_l. reflexivity.
  - exists r. split; [exact E|]. destruct (Req_dec (snd (snd e)) 0) as [E1|]; [destruct (Req_dec (fst (snd e)) 0) as [E2|]|].
    + rewrite E1, E2. lra.
    + rewrite Hr by auto. lra.
    + rewrite Hr by auto. lra.
Qed.
