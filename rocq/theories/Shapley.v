(** Shapley values of a game on finitely many players: null players, additivity, efficiency, product games. *)
From Coq Require Import List Arith Lia Bool Reals Lra Permutation.
From Verif Require Import Prelude FloatX GrowInv.
Import ListNotations.
Local Open Scope R_scope.

(** The subsets of a list without duplicates. *)
Fixpoint subsets (N : list nat) : list (list nat) :=
  match N with [] => [[]] | a :: M => subsets M ++ map (cons a) (subsets M) end.

(** The share of the orders of n players in which a given player comes right after a given set of s others. *)
Definition shapley_weight (n s : nat) : R := INR (fact s) * INR (fact (n - s - 1)) / INR (fact n).

(** The Shapley value of player [f] among the players [N] in the game [v]. *)
Definition shapley (N : list nat) (v : list nat -> R) (f : nat) : R :=
  sumR (map (fun S => shapley_weight (length N) (length S) * (v (f :: S) - v S)) (subsets (remove Nat.eq_dec f N))).

(** *** Sums over subsets *)
Fixpoint sumsub (N : list nat) (G : list nat -> R) : R :=
  match N with [] => G [] | a :: M => sumsub M G + sumsub M (fun S => G (a :: S)) end.
Lemma sumsub_subsets : forall N G, sumR (map G (subsets N)) = sumsub N G.
Proof.
  induction N as [|a N IH]; intros G; simpl; [unfold sumR; simpl; lra|].
  rewrite map_app, sumR_app, map_map, IH. f_equal. rewrite <- IH. reflexivity.
Qed.
Lemma sumsub_ext : forall N G H, (forall S, incl S N -> NoDup N -> G S = H S) -> NoDup N -> sumsub N G = sumsub N H.
Proof.
  induction N as [|a N IH]; intros G H E ND; simpl; [apply E; auto; intros x []|]. inversion ND; subst.
  rewrite (IH G H), (IH (fun S => G (a :: S)) (fun S => H (a :: S))); auto; intros S HS _; apply E; auto.
  - intros x [<-|Hx]; [left; auto|right; auto].
  - intros x Hx; right; auto.
Qed.
Lemma sumsub_ext_all : forall N G H, (forall S, G S = H S) -> sumsub N G = sumsub N H.
Proof. induction N as [|a N IH]; intros G H E; simpl; auto. f_equal; apply IH; auto. Qed.
Lemma sumsub_add : forall N G H, sumsub N (fun S => G S + H S) = sumsub N G + sumsub N H.
Proof. induction N as [|a N IH]; intros G H; simpl; auto. rewrite !IH. lra. Qed.
Lemma sumsub_scal : forall N k G, sumsub N (fun S => k * G S) = k * sumsub N G.
Proof. induction N as [|a N IH]; intros k G; simpl; auto. rewrite !IH. lra. Qed.
Lemma sumsub_zero : forall N, sumsub N (fun _ => 0) = 0.
Proof. induction N as [|a N IH]; simpl; auto. rewrite IH. lra. Qed.

Definition invariant (G : list nat -> R) : Prop := forall S S', Permutation S S' -> G S = G S'.
Lemma invariant_cons : forall G a, invariant G -> invariant (fun S => G (a :: S)).
Proof. intros G a I S S' P. apply I. constructor; auto. Qed.

Lemma sumsub_perm : forall N N', Permutation N N' -> forall G, invariant G -> sumsub N G = sumsub N' G.
Proof.
  intros N N' P. induction P as [|a N N' P IH|a b N|N1 N2 N3 P1 IH1 P2 IH2]; intros G I; simpl; auto.
  - rewrite (IH G I), (IH (fun S => G (a :: S))); auto using invariant_cons.
  - rewrite (sumsub_ext_all N (fun S => G (b :: a :: S)) (fun S => G (a :: b :: S))); [lra|].
    intros S. apply I. constructor.
  - rewrite IH1, IH2; auto.
Qed.

(** *** Factorial weights *)
Definition wt (m s : nat) : R := INR (fact s) * INR (fact (m - s)) / INR (fact (S m)).
Lemma fact_pos : forall n, 0 < INR (fact n).
Proof. intros. apply INR_fact_lt_0. Qed.
Lemma fact_nz : forall n, INR (fact n) <> 0.
Proof. intros. apply INR_fact_neq_0. Qed.
Lemma fact_step : forall n, INR (fact (S n)) = INR (S n) * INR (fact n).
Proof. intros. change (fact (S n)) with (S n * fact n)%nat. apply mult_INR. Qed.
Lemma shapley_weight_wt : forall m s, shapley_weight (S m) s = wt m s.
Proof. intros m s. unfold shapley_weight, wt. replace (S m - s - 1)%nat with (m - s)%nat by lia. reflexivity. Qed.

Lemma wt_sum : forall m s, (s <= m)%nat -> wt (S m) s + wt (S m) (S s) = wt m s.
Proof.
  intros m s H. unfold wt. replace (S m - S s)%nat with (m - s)%nat by lia. replace (S m - s)%nat with (S (m - s)) by lia.
  rewrite (fact_step (S m)), (fact_step (m - s)), (fact_step s). pose proof (fact_nz (S m)) as N1.
  assert (E : INR (S (S m)) = INR (S (m - s)) + INR (S s)) by (rewrite <- plus_INR; f_equal; lia).
  assert (N2 : INR (S (S m)) <> 0) by (apply not_0_INR; lia). rewrite E in *. field. split; auto.
Qed.

(** removing a player that makes no difference *)
Lemma sumsub_len : forall N G H, (forall S, (length S <= length N)%nat -> G S = H S) -> sumsub N G = sumsub N H.
Proof.
  induction N as [|a N IH]; intros G H E; simpl; [apply E; simpl; lia|].
  rewrite (IH G H), (IH (fun S => G (a :: S)) (fun S => H (a :: S))); auto; intros S HS; apply E; simpl; lia.
Qed.
(** subsets are duplicate free and contained in the list *)
Lemma sumsub_sub : forall N G H, NoDup N -> (forall S, incl S N -> NoDup S -> (length S <= length N)%nat -> G S = H S) -> sumsub N G = sumsub N H.
Proof.
  induction N as [|a N IH]; intros G H ND E; simpl; [apply E; [intros x []|constructor|simpl; lia]|]. inversion ND; subst.
  rewrite (IH G H), (IH (fun S => G (a :: S)) (fun S => H (a :: S))); auto; intros S HS NS LS; apply E; simpl; try lia.
  - intros x [<-|Hx]; [left; auto|right; auto].
  - constructor; auto.
  - intros x Hx; right; auto.
  - auto.
Qed.

Lemma sumsub_null : forall N a G, ~ In a N -> NoDup N -> (forall S, incl S N -> G (a :: S) = G S) ->
  sumsub (a :: N) (fun T => wt (S (length N)) (length T) * G T) = sumsub N (fun S => wt (length N) (length S) * G S).
Proof.
  intros N a G Ha ND E. cbn [sumsub]. rewrite <- sumsub_add. apply sumsub_sub; auto. intros S HS _ LS.
  rewrite (E S HS). cbn [length]. rewrite <- (wt_sum (length N) (length S) LS). lra.
Qed.
Lemma sumsub_nulls : forall Z N G, NoDup (Z ++ N) -> (forall a S, In a Z -> G (a :: S) = G S) ->
  sumsub (Z ++ N) (fun S => wt (length (Z ++ N)) (length S) * G S) = sumsub N (fun S => wt (length N) (length S) * G S).
Proof.
  induction Z as [|a Z IH]; intros N G ND E; [reflexivity|]. simpl app in *. inversion ND; subst.
  change (length (a :: Z ++ N)) with (S (length (Z ++ N))). rewrite sumsub_null; auto; [|intros; apply E; left; auto].
  apply IH; auto. intros; apply E; right; auto.
Qed.

(** *** Product games: a factor (z, o) per player, z when absent and o when present *)
Notation Elem := (prod nat (prod R R)).
Definition present (S : list nat) (f : nat) : bool := existsb (Nat.eqb f) S.
Definition factor (S : list nat) (e : Elem) : R := if present S (fst e) then snd (snd e) else fst (snd e).
Fixpoint product (L : list Elem) (S : list nat) : R := match L with [] => 1 | e :: L => factor S e * product L S end.
(** coefficients of the polynomial prod (z + o x) *)
Fixpoint cf (L : list Elem) (i : nat) : R :=
  match L with
  | [] => match i with 0%nat => 1 | _ => 0 end
  | e :: L => fst (snd e) * cf L i + match i with 0%nat => 0 | S k => snd (snd e) * cf L k end
  end.
Fixpoint psum (u : nat -> R) (m : nat) : R := match m with 0%nat => 0 | S k => psum u k + u k end.

Lemma present_in : forall S f, present S f = true <-> In f S.
Proof. intros S f. unfold present. rewrite existsb_exists. split; [intros (x & Hx & E); apply Nat.eqb_eq in E; subst; auto|intros H; exists f; split; auto; apply Nat.eqb_refl]. Qed.
Lemma present_ext : forall S S' f, (In f S <-> In f S') -> present S f = present S' f.
Proof.
  intros S S' f H. destruct (present S f) eqn:E; destruct (present S' f) eqn:E'; auto.
  - apply present_in in E. apply H, present_in in E. congruence.
  - apply present_in in E'. apply H, present_in in E'. congruence.
Qed.
Lemma product_ext : forall L S S', (forall f, In f (map fst L) -> (In f S <-> In f S')) -> product L S = product L S'.
Proof.
  induction L as [|e L IH]; intros S S' H; simpl; auto. f_equal; [|apply IH; intros; apply H; right; auto].
  unfold factor. rewrite (present_ext S S'); auto. apply H. left; auto.
Qed.
Lemma product_app : forall L M S, product (L ++ M) S = product L S * product M S.
Proof. induction L as [|e L IH]; intros M S; simpl; [lra|]. rewrite IH. lra. Qed.
Lemma product_invariant : forall L, invariant (product L).
Proof. intros L S S' P. apply product_ext. intros f _. split; apply Permutation_in; [|symmetry]; auto. Qed.

Lemma cf_above : forall L i, (length L < i)%nat -> cf L i = 0.
Proof.
  induction L as [|e L IH]; intros [|i] H; simpl in *; auto; try lia. rewrite !IH by lia. lra.
Qed.
Lemma cf_perm : forall L L', Permutation L L' -> forall i, cf L i = cf L' i.
Proof.
  intros L L' P. induction P as [|e L L' P IH|a b L|L1 L2 L3 P1 IH1 P2 IH2]; intros i; simpl; auto.
  - rewrite IH. destruct i; auto. rewrite IH. reflexivity.
  - destruct i as [|[|i]]; lra.
  - rewrite IH1, IH2. reflexivity.
Qed.
Lemma psum_ext : forall m u u', (forall i, (i < m)%nat -> u i = u' i) -> psum u m = psum u' m.
Proof. induction m as [|m IH]; intros u u' H; simpl; auto. rewrite (IH u u'), H by (auto; intros; apply H; lia). reflexivity. Qed.
Lemma psum_add : forall m u u', psum (fun i => u i + u' i) m = psum u m + psum u' m.
Proof. induction m as [|m IH]; intros u u'; simpl; [lra|]. rewrite IH. lra. Qed.
Lemma psum_scal : forall m k u, psum (fun i => k * u i) m = k * psum u m.
Proof. induction m as [|m IH]; intros k u; simpl; [lra|]. rewrite IH. lra. Qed.
Lemma psum_shift : forall m (u : nat -> R), psum (fun i => match i with 0%nat => 0 | S k => u k end) (S m) = psum u m.
Proof. induction m as [|m IH]; intros u; [simpl; lra|]. change (psum u (S m)) with (psum u m + u m). rewrite <- IH. reflexivity. Qed.

Lemma sumsub_product : forall L u, NoDup (map fst L) ->
  sumsub (map fst L) (fun S => u (length S) * product L S) = psum (fun i => u i * cf L i) (S (length L)).
Proof.
  induction L as [|e L IH]; intros u ND; [simpl; lra|]. cbn [map sumsub length]. inversion ND; subst.
  rewrite (sumsub_sub _ _ (fun S => fst (snd e) * (u (length S) * product L S))); auto.
  - rewrite (sumsub_sub _ (fun S => u (length (fst e :: S)) * product (e :: L) (fst e :: S)) (fun T => snd (snd e) * (u (S (length T)) * product L T))); auto.
    + rewrite !sumsub_scal, IH, (IH (fun i => u (S i))) by auto.
      rewrite (psum_ext (S (S (length L))) _ (fun i => fst (snd e) * (u i * cf L i) + match i with 0%nat => 0 | S k => snd (snd e) * (u (S k) * cf L k) end)).
      * rewrite psum_add, psum_scal.
        rewrite (psum_ext _ (fun i => match i with 0%nat => 0 | S k => snd (snd e) * (u (S k) * cf L k) end) (fun i => snd (snd e) * (match i with 0%nat => 0 | S k => (u (S k) * cf L k) end)))
          by (intros [|i] _; lra).
        rewrite psum_scal, psum_shift. change (psum (fun i => u i * cf L i) (S (S (length L)))) with
          (psum (fun i => u i * cf L i) (S (length L)) + u (S (length L)) * cf L (S (length L))).
        rewrite (cf_above L (S (length L))) by apply Nat.lt_succ_diag_r. lra.
      * intros [|i] _; cbn [cf]; lra.
    + intros S HS _ _. cbn [length product]. unfold factor. rewrite (proj2 (present_in (fst e :: S) (fst e))) by (left; auto).
      rewrite (product_ext L (fst e :: S) S); [lra|]. intros f Hf. split; [intros [<-|]; auto; contradiction|right; auto].
  - intros S HS _ _. cbn [product]. unfold factor. destruct (present S (fst e)) eqn:EP; [apply present_in in EP; apply HS in EP; contradiction|]. lra.
Qed.

(** *** The Shapley value *)
Lemma shapley_sumsub : forall N v f, In f N -> NoDup N ->
  shapley N v f = sumsub (remove Nat.eq_dec f N) (fun S => wt (length (remove Nat.eq_dec f N)) (length S) * (v (f :: S) - v S)).
Proof.
  intros N v f Hf ND. unfold shapley. rewrite sumsub_subsets.
  assert (E : length N = S (length (remove Nat.eq_dec f N))).
  { clear v. induction N as [|a N IH]; [destruct Hf|]. inversion ND; subst. simpl. destruct (Nat.eq_dec f a) as [->|NE].
    - rewrite notin_remove; auto.
    - simpl. f_equal. apply IH; auto. destruct Hf; auto; congruence. }
  rewrite E. apply sumsub_ext_all. intros S. rewrite shapley_weight_wt. reflexivity.
Qed.
Lemma remove_NoDup : forall (N : list nat) f, NoDup N -> NoDup (remove Nat.eq_dec f N).
Proof.
  induction N as [|a N IH]; intros f ND; simpl; auto. inversion ND; subst. destruct (Nat.eq_dec f a); auto. constructor; auto.
  intros Q. apply in_remove in Q. tauto.
Qed.
Lemma in_remove_iff : forall (N : list nat) f x, In x (remove Nat.eq_dec f N) <-> In x N /\ x <> f.
Proof. intros N f x. split; [apply in_remove|intros [H1 H2]; apply in_in_remove; auto]. Qed.

Lemma shapley_ext : forall N v v' f, (forall S, v S = v' S) -> shapley N v f = shapley N v' f.
Proof. intros N v v' f E. unfold shapley. apply (f_equal sumR). apply map_ext. intros S. rewrite !E. reflexivity. Qed.
Lemma shapley_add : forall N v v' f, shapley N (fun S => v S + v' S) f = shapley N v f + shapley N v' f.
Proof.
  intros N v v' f. unfold shapley. rewrite !sumsub_subsets, <- sumsub_add. apply sumsub_ext_all. intros S. lra.
Qed.
Lemma shapley_scal : forall N k v f, shapley N (fun S => k * v S) f = k * shapley N v f.
Proof. intros N k v f. unfold shapley. rewrite !sumsub_subsets, <- sumsub_scal. apply sumsub_ext_all. intros S. lra. Qed.
Lemma shapley_const : forall N k f, shapley N (fun _ => k) f = 0.
Proof. intros N k f. unfold shapley. rewrite sumsub_subsets. rewrite <- (sumsub_zero (remove Nat.eq_dec f N)). apply sumsub_ext_all. intros S. lra. Qed.

(** The Shapley value of a product game. *)
Definition without (f : nat) (L : list Elem) : list Elem := filter (fun e => negb (fst e =? f)%nat) L.
Definition find_elem (f : nat) (L : list Elem) : option Elem := find (fun e => (fst e =? f)%nat) L.
Definition product_value (L : list Elem) (f : nat) : R :=
  match find_elem f L with
  | None => 0
  | Some e => (snd (snd e) - fst (snd e)) * psum (fun i => wt (length L - 1) i * cf (without f L) i) (length L)
  end.

Lemma without_split : forall f L e, find_elem f L = Some e -> NoDup (map fst L) -> fst e = f /\ Permutation L (e :: without f L).
Proof.
  intros f. induction L as [|a L IH]; intros e H ND; simpl in *; [discriminate|]. inversion ND; subst.
  destruct (Nat.eqb_spec (fst a) f) as [E|NE]; simpl.
  - injection H as <-. split; auto. constructor. 
    assert (Q : without f L = L); [|rewrite Q; auto]. clear IH ND. induction L as [|b L IHL]; simpl in *; auto.
    inversion H3; subst. destruct (Nat.eqb_spec (fst b) (fst a)); [exfalso; apply H2; auto|]. simpl. rewrite IHL; auto.
  - destruct (IH e H H3) as [E P]. split; auto. rewrite P at 1. constructor.
Qed.
Lemma find_elem_none : forall f L, find_elem f L = None -> ~ In f (map fst L).
Proof.
  intros f. induction L as [|a L IH]; simpl; intros H; auto. destruct (Nat.eqb_spec (fst a) f); [discriminate|]. intros [?|?]; [congruence|apply IH; auto].
Qed.

Theorem shapley_product : forall N L f, NoDup N -> NoDup (map fst L) -> incl (map fst L) N -> In f N ->
  shapley N (product L) f = product_value L f.
Proof.
  intros N L f NN NL I Hf. rewrite shapley_sumsub by auto. unfold product_value. destruct (find_elem f L) as [e|] eqn:EF.
  - destruct (without_split f L e EF NL) as [Ee P].
    assert (NW : NoDup (map fst (e :: without f L))) by (eapply Permutation_NoDup; [apply Permutation_map; exact P|auto]).
    cbn [map] in NW. inversion NW; subst x l. rewrite Ee in H1.
    (* players outside L are null players *)
    set (Z := filter (fun x => negb (existsb (Nat.eqb x) (map fst (without f L)))) (remove Nat.eq_dec f N)).
    assert (PZ : Permutation (remove Nat.eq_dec f N) (Z ++ map fst (without f L))).
    { apply NoDup_Permutation; [apply remove_NoDup; auto| |].
      - apply NoDup_app_iff. split; [apply NoDup_filter, remove_NoDup; auto|]. split; auto.
        intros x Hx Hy. apply filter_In in Hx. destruct Hx as [_ Hx]. apply (proj2 (present_in _ _)) in Hy. unfold present in Hy. rewrite Hy in Hx. discriminate.
      - intros x. rewrite in_app_iff. unfold Z. rewrite filter_In. split.
        + intros Hx. destruct (existsb (Nat.eqb x) (map fst (without f L))) eqn:EX; [right; apply present_in; auto|left; auto].
        + intros [[Hx _]|Hx]; auto. apply in_remove_iff. split.
          * apply I. eapply Permutation_in; [symmetry; apply Permutation_map; exact P|]. right; auto.
          * intros ->. contradiction. }
    set (G := fun S => product L (f :: S) - product L S).
    assert (IG : invariant G).
    { intros S S' PS. unfold G. rewrite (product_invariant L (f :: S) (f :: S')), (product_invariant L S S'); auto. }
    change (sumsub (remove Nat.eq_dec f N) (fun S => wt (length (remove Nat.eq_dec f N)) (length S) * G S) = (snd (snd e) - fst (snd e)) * psum (fun i => wt (length L - 1) i * cf (without f L) i) (length L)).
    rewrite (sumsub_perm _ _ PZ (fun S => wt (length (remove Nat.eq_dec f N)) (length S) * G S)) by (intros S S' PS; rewrite (Permutation_length PS), (IG S S'); auto).
    rewrite (Permutation_length PZ), sumsub_nulls.
    + rewrite map_length.
      assert (LL : length L = S (length (without f L))) by (rewrite (Permutation_length P); reflexivity).
      rewrite (sumsub_sub _ _ (fun S => (snd (snd e) - fst (snd e)) * (wt (length (without f L)) (length S) * product (without f L) S))); auto.
      * rewrite sumsub_scal, (sumsub_product (without f L) (wt (length (without f L)))) by auto. rewrite LL. replace (S (length (without f L)) - 1)%nat with (length (without f L)) by lia. reflexivity.
      * intros S HS _ _. unfold G. 
        assert (Q : forall T, product L T = product (e :: without f L) T).
        { intros T. clear -P. induction P; cbn [product]; auto; try lra; try congruence. }
        rewrite !Q. cbn [product]. unfold factor. rewrite Ee.
        rewrite (proj2 (present_in (f :: S) f)) by (left; auto).
        destruct (present S f) eqn:EP; [apply present_in in EP; apply HS in EP; contradiction|].
        rewrite (product_ext (without f L) (f :: S) S); [lra|]. intros x Hx. split; [intros [<-|]; auto; contradiction|right; auto].
    + eapply Permutation_NoDup; [exact PZ|apply remove_NoDup; auto].
    + intros a S Ha. unfold Z in Ha. apply filter_In in Ha. destruct Ha as [Ha Hb]. apply in_remove_iff in Ha. destruct Ha as [_ Hc].
      assert (NA : ~ In a (map fst L)).
      { intros Q. apply (Permutation_in _ (Permutation_map fst P)) in Q. destruct Q as [Q|Q]; [congruence|]. apply present_in in Q. unfold present in Q. rewrite Q in Hb. discriminate. }
      unfold G. rewrite (product_ext L (a :: S) S), (product_ext L (f :: a :: S) (f :: S)); auto.
      * intros x Hx. split; [intros [?|[->|?]]; [left; auto|contradiction|right; auto]|intros [?|?]; [left; auto|right; right; auto]].
      * intros x Hx. split; [intros [->|?]; [contradiction|auto]|right; auto].
  - apply find_elem_none in EF. rewrite <- (sumsub_zero (remove Nat.eq_dec f N)). apply sumsub_ext_all. intros S.
    rewrite (product_ext L (f :: S) S); [lra|]. intros x Hx. split; [intros [->|?]; [contradiction|auto]|right; auto].
Qed.

(** *** Efficiency *)
Lemma count_with : forall N H, NoDup N -> invariant H ->
  sumR (map (fun f => sumsub (remove Nat.eq_dec f N) (fun S => H (f :: S))) N) = sumsub N (fun T => INR (length T) * H T).
Proof.
  induction N as [|a N IH]; intros H ND I; [unfold sumR; simpl; lra|]. inversion ND; subst.
  cbn [map]. rewrite sumR_cons. cbn [remove]. destruct (Nat.eq_dec a a) as [_|]; [|congruence]. rewrite (notin_remove Nat.eq_dec N a) by auto.
  rewrite (map_ext_in _ (fun f => sumsub (remove Nat.eq_dec f N) (fun S => H (f :: S)) + sumsub (remove Nat.eq_dec f N) (fun S => H (a :: f :: S)))).
  - rewrite sumR_map_plus, IH by auto. rewrite (IH (fun T => H (a :: T))) by auto using invariant_cons. cbn [sumsub].
    rewrite (sumsub_ext_all N (fun S => INR (length (a :: S)) * H (a :: S)) (fun S => INR (length S) * H (a :: S) + H (a :: S))).
    + rewrite sumsub_add. lra.
    + intros S. cbn [length]. rewrite S_INR. lra.
  - intros f Hf. destruct (Nat.eq_dec f a) as [->|NE]; [contradiction|]. cbn [sumsub]. f_equal. apply sumsub_ext_all. intros S. apply I. constructor.
Qed.
Lemma count_without : forall N H, NoDup N ->
  sumR (map (fun f => sumsub (remove Nat.eq_dec f N) H) N) = sumsub N (fun T => INR (length N - length T) * H T).
Proof.
  induction N as [|a N IH]; intros H ND; [unfold sumR; simpl; lra|]. inversion ND; subst.
  cbn [map]. rewrite sumR_cons. cbn [remove]. destruct (Nat.eq_dec a a) as [_|]; [|congruence]. rewrite (notin_remove Nat.eq_dec N a) by auto.
  rewrite (map_ext_in _ (fun f => sumsub (remove Nat.eq_dec f N) H + sumsub (remove Nat.eq_dec f N) (fun S => H (a :: S)))).
  - rewrite sumR_map_plus, IH, (IH (fun T => H (a :: T))) by auto. cbn [sumsub length].
    rewrite (sumsub_len N (fun T => INR (S (length N) - length T) * H T) (fun T => H T + INR (length N - length T) * H T)).
    + rewrite sumsub_add. cbn [Nat.sub]. lra.
    + intros T LT. replace (S (length N) - length T)%nat with (S (length N - length T)) by lia. rewrite S_INR. lra.
  - intros f Hf. destruct (Nat.eq_dec f a) as [->|NE]; [contradiction|]. reflexivity.
Qed.
Lemma sumsub_top : forall N G, (forall S, (length S < length N)%nat -> G S = 0) -> sumsub N G = G N.
Proof.
  induction N as [|a N IH]; intros G H; simpl; auto. rewrite (sumsub_len N G (fun _ => 0)) by (intros; apply H; simpl; lia).
  rewrite sumsub_zero, (IH (fun S => G (a :: S))); [lra|]. intros; apply H; simpl; lia.
Qed.
Lemma sumsub_bottom : forall N G, (forall S, S <> [] -> G S = 0) -> sumsub N G = G [].
Proof.
  induction N as [|a N IH]; intros G H; simpl; auto. rewrite IH by auto. rewrite (sumsub_ext_all N _ (fun _ => 0)) by (intros; apply H; discriminate).
  rewrite sumsub_zero. lra.
Qed.

Theorem shapley_efficient : forall N v, NoDup N -> invariant v -> sumR (map (shapley N v) N) = v N - v [].
Proof.
  intros N v ND I. destruct N as [|a0 N0]; [unfold sumR; simpl; lra|]. set (N := a0 :: N0) in *. set (n := length N).
  assert (LR : forall f, In f N -> S (length (remove Nat.eq_dec f N)) = n).
  { intros f Hf. unfold n. clear -ND Hf. induction N as [|a N IH]; [destruct Hf|]. inversion ND; subst. simpl. destruct (Nat.eq_dec f a) as [->|NE].
    - rewrite notin_remove; auto.
    - simpl. rewrite IH; auto. destruct Hf; auto; congruence. }
  set (W := fun T => wt (n - 1) (length T - 1) * v T).
  rewrite (map_ext_in _ (fun f => sumsub (remove Nat.eq_dec f N) (fun S => W (f :: S)) +
                                  -1 * sumsub (remove Nat.eq_dec f N) (fun S => wt (n - 1) (length S) * v S))).
  - rewrite sumR_map_plus, (count_with N W) by (auto; intros S S' P; unfold W; rewrite (Permutation_length P), (I S S'); auto).
    rewrite sumR_map_scal, count_without by auto. fold n.
    rewrite <- sumsub_scal, <- sumsub_add.
    rewrite (sumsub_len N _ (fun T => (if (length T =? n)%nat then v T else 0) + (if (length T =? 0)%nat then - v T else 0))).
    + rewrite sumsub_add, sumsub_top, sumsub_bottom.
      * fold n. rewrite Nat.eqb_refl. simpl. lra.
      * intros [|x S] HS; [congruence|reflexivity].
      * intros S HS. fold n in HS. destruct (Nat.eqb_spec (length S) n); [lia|reflexivity].
    + intros T LT. fold n in LT. unfold W. assert (N1 : (1 <= n)%nat) by (unfold n, N; simpl; lia).
      assert (E1 : (1 <= length T)%nat -> INR (length T) * (wt (n - 1) (length T - 1) * v T) = INR (fact (length T)) * INR (fact (n - length T)) / INR (fact n) * v T).
      { intros HT. unfold wt. destruct (length T) as [|t]; [lia|]. rewrite (fact_step t). replace (S t - 1)%nat with t by lia.
        replace (n - 1 - t)%nat with (n - S t)%nat by lia. replace (S (n - 1)) with n by lia. field. apply fact_nz. }
      assert (E2 : (length T < n)%nat -> INR (n - length T) * (wt (n - 1) (length T) * v T) = INR (fact (length T)) * INR (fact (n - length T)) / INR (fact n) * v T).
      { intros HT. unfold wt. replace (n - length T)%nat with (S (n - 1 - length T)) by lia. rewrite (fact_step (n - 1 - length T)). replace (S (n - 1)) with n by lia. field. apply fact_nz. }
      destruct (Nat.eqb_spec (length T) n) as [EN|NN]; destruct (Nat.eqb_spec (length T) 0) as [EZ|NZ]; try lia.
      * rewrite (E1 ltac:(lia)), EN, Nat.sub_diag. change (INR (fact 0)) with 1. change (INR 0) with 0. field. apply fact_nz.
      * rewrite (E2 ltac:(lia)), EZ, Nat.sub_0_r. change (INR (fact 0)) with 1. change (INR 0) with 0. field. apply fact_nz.
      * rewrite (E1 ltac:(lia)), (E2 ltac:(lia)). lra.
  - intros f Hf. rewrite shapley_sumsub by auto. specialize (LR f Hf). replace (length (remove Nat.eq_dec f N)) with (n - 1)%nat by lia.
    rewrite <- sumsub_scal, <- sumsub_add. apply sumsub_ext_all. intros T. unfold W. cbn [length]. replace (S (length T) - 1)%nat with (length T) by lia. lra.
Qed.

(** *** The subsets *)
Lemma subsets_sound : forall N U, NoDup N -> In U (subsets N) -> NoDup U /\ incl U N.
Proof.
  induction N as [|a N IH]; intros U ND H; simpl in H.
  - destruct H as [<-|[]]. split; [constructor|intros x []].
  - inversion ND; subst. apply in_app_iff in H. destruct H as [H|H].
    + destruct (IH U H3 H). split; auto. intros x Hx. right; auto.
    + apply in_map_iff in H. destruct H as (V & <- & HV). destruct (IH V H3 HV) as [H4 H5]. split; [constructor; auto|].
      intros x [->|Hx]; [left; auto|right; auto].
Qed.
Lemma subsets_complete : forall N U, NoDup N -> NoDup U -> incl U N -> exists U', In U' (subsets N) /\ Permutation U U'.
Proof.
  induction N as [|a N IH]; intros U ND NU I.
  - exists []. split; [left; auto|]. destruct U as [|x U]; auto. destruct (I x (or_introl eq_refl)).
  - inversion ND; subst. destruct (in_dec Nat.eq_dec a U) as [Ha|Ha].
    + apply in_split in Ha. destruct Ha as (A & B & ->).
      destruct (IH (A ++ B) H2) as (U' & HU & P).
      * eapply NoDup_remove_1; eauto.
      * intros x Hx. assert (Q : In x (a :: N)) by (apply I; apply in_app_iff in Hx; apply in_app_iff; simpl; tauto).
        destruct Q as [->|]; auto. apply NoDup_remove_2 in NU. contradiction.
      * exists (a :: U'). split; [simpl; apply in_app_iff; right; apply in_map; auto|]. rewrite <- P. symmetry. apply Permutation_middle.
    + destruct (IH U H2 NU) as (U' & HU & P); [|exists U'; split; auto; simpl; apply in_app_iff; auto].
      intros x Hx. destruct (I x Hx) as [->|]; auto. contradiction.
Qed.
Lemma subsets_length : forall N, length (subsets N) = (2 ^ length N)%nat.
Proof. induction N as [|a N IH]; simpl; auto. rewrite app_length, map_length, IH. lia. Qed.
