(** The nodes a row passes during prediction, and the same path in the account of the growth. *)
From Coq Require Import List Arith NArith Lia Bool Permutation.
From Verif Require Import Prelude Float Data Utils Histogram Node Splitter Tree GrowProofs GrowInv GrowStep TreeWf
  TreeProofs FitProofs FitSplits.
Import ListNotations.

Section Path.
Context {FS : Floats}.

(** Numbers of the nodes prediction visits from node [i] on, in order; [row f] is the value of
    feature f.  Stated apart from [walk] (tree.rs:396-406), to which it is related below. *)
Fixpoint path (fuel : nat) (nodes : list Node) (row : nat -> option F64) (missing : F64) (i : nat)
  : option (list nat) :=
  match fuel with
  | 0 => None
  | S f =>
      let* n := nth_error nodes i in
      if n_is_leaf n then Some [i]
      else
        let* v := row (n_split_feature n) in
        let* c := get_child_idx n v missing in
        let* r := path f nodes row missing c in
        Some (i :: r)
  end.

Definition full_path (nodes : list Node) row missing := path (length nodes) nodes row missing 0.

(** Does the path of the row pass node [k]? *)
Definition passes (nodes : list Node) row missing (k : nat) : bool :=
  match full_path nodes row missing with Some l => existsb (Nat.eqb k) l | None => false end.

Lemma path_walk : forall nodes row missing, (forall i n, nth_error nodes i = Some n -> n_num n = i) ->
  forall fuel i, match path fuel nodes row missing i with
                 | Some l => exists n, walk fuel nodes row missing i = Some n /\ last l 0 = n_num n
                 | None => walk fuel nodes row missing i = None end.
Proof.
  intros nodes row missing W. induction fuel as [|f IH]; intros i; simpl; auto.
  destruct (nth_error nodes i) as [n|] eqn:E; cbn [bind]; auto. destruct (n_is_leaf n).
  - exists n. split; auto. simpl. symmetry. auto.
  - destruct (row (n_split_feature n)) as [v|]; cbn [bind]; auto.
    destruct (get_child_idx n v missing) as [c|]; cbn [bind]; auto.
    specialize (IH c). destruct (path f nodes row missing c) as [l|] eqn:El; cbn [bind]; auto.
    destruct IH as (m & H1 & H2). exists m. split; auto.
    destruct l; [|exact H2]. exfalso. clear -El. destruct f; simpl in El; [discriminate|].
    destruct (nth_error nodes c) as [n|]; simpl in El; [|discriminate].
    destruct (n_is_leaf n); [discriminate|].
    destruct (row (n_split_feature n)); simpl in El; [|discriminate].
    destruct (get_child_idx n f0 missing); simpl in El; [|discriminate].
    destruct (path f nodes row missing n0); discriminate.
Qed.

Variables (s : Splitter) (t : Train) (max_depth : nat).
Notation gvalid := (gvalid s t max_depth).

(** The account's leaf and path for a row. *)
Fixpoint gpath (g : gtree) (row : nat -> option F64) (missing : F64) : option (list nat) :=
  match g with
  | GL n _ => Some [sn_num n]
  | GB2 n _ si mr l r =>
      let* v := row (si_feature si) in
      let* m := is_missing v missing in
      let* p := (if m then (if mr then gpath r row missing else gpath l row missing)
                 else if (v <? si_value si)%f64 then gpath l row missing else gpath r row missing) in
      Some (sn_num n :: p)
  | GB3 n _ si m l r =>
      let* v := row (si_feature si) in
      let* ms := is_missing v missing in
      let* p := (if ms then gpath m row missing
                 else if (v <? si_value si)%f64 then gpath l row missing else gpath r row missing) in
      Some (sn_num n :: p)
  end.

Fixpoint gheight (g : gtree) : nat :=
  match g with
  | GL _ _ => 0
  | GB2 _ _ _ _ l r => S (Nat.max (gheight l) (gheight r))
  | GB3 _ _ _ m l r => S (Nat.max (gheight m) (Nat.max (gheight l) (gheight r)))
  end.

Lemma gheight_size : forall g, gheight g < length (gnums g).
Proof. induction g; simpl; rewrite ?app_length; lia. Qed.

Definition agrees (nodes : list Node) (g : gtree) : Prop :=
  forall x, In x (gall g) -> exists n, nth_error nodes (gnum x) = Some n /\ reweighted (gnode s x) n.

Lemma path_gpath : forall nodes row missing g, gvalid g -> agrees nodes g ->
  forall fuel, gheight g < fuel -> path fuel nodes row missing (gnum g) = gpath g row missing.
Proof.
  intros nodes row missing g V. 
  induction V as [n rows Hl|p0 n rows si mr l r sub lh rh E0 E1 E2 E3 E4 P S N1 N2 GL' GR' V1 IH1 V2 IH2
                 |n rows si m l r sub mh lh rh mi ml E1 E2 E3 E4 P S N1 N2 N3 GM' GL' GR' V0 IH0 V1 IH1 V2 IH2];
    intros A fuel HF; (destruct fuel as [|f]; [lia|]); simpl in HF; cbn [path gpath].
  - destruct (A (GL n rows)) as (nd & Hn & R); [simpl; auto|]. rewrite Hn. cbn [bind].
    apply reweighted_eq in R. destruct R as (_ & _ & _ & _ & _ & _ & _ & _ & _ & -> & _).
    simpl. rewrite Hl. reflexivity.
  - destruct (A (GB2 n rows si mr l r)) as (nd & Hn & R); [left; auto|]. rewrite Hn. cbn [bind].
    apply reweighted_eq in R. destruct R as (_ & _ & _ & R4 & R5 & _ & R7 & R8 & R9 & R10 & _).
    simpl gnode in *. simpl in R4, R5, R7, R8, R9, R10. rewrite R10, R5. 
    destruct (row (si_feature si)) as [v|]; cbn [bind]; auto.
    unfold get_child_idx. rewrite R4, R7, R8, R9. destruct (is_missing v missing) as [ms|]; cbn [bind]; auto.
    assert (A1 : agrees nodes l) by (intros x Hx; apply A; simpl; rewrite in_app_iff; auto).
    assert (A2 : agrees nodes r) by (intros x Hx; apply A; simpl; rewrite in_app_iff; auto).
    destruct ms; [destruct mr|destruct (v <? si_value si)%f64]; rewrite ?IH1, ?IH2 by (auto; lia); reflexivity.
  - destruct (A (GB3 n rows si m l r)) as (nd & Hn & R); [left; auto|]. rewrite Hn. cbn [bind].
    apply reweighted_eq in R. destruct R as (_ & _ & _ & R4 & R5 & _ & R7 & R8 & R9 & R10 & _).
    simpl gnode in *. simpl in R4, R5, R7, R8, R9, R10. rewrite R10, R5. 
    destruct (row (si_feature si)) as [v|]; cbn [bind]; auto.
    unfold get_child_idx. rewrite R4, R7, R8, R9. destruct (is_missing v missing) as [ms|]; cbn [bind]; auto.
    assert (A0 : agrees nodes m) by (intros x Hx; apply A; simpl; rewrite !in_app_iff; auto).
    assert (A1 : agrees nodes l) by (intros x Hx; apply A; simpl; rewrite !in_app_iff; auto).
    assert (A2 : agrees nodes r) by (intros x Hx; apply A; simpl; rewrite !in_app_iff; auto).
    destruct ms; [|destruct (v <? si_value si)%f64]; rewrite ?IH0, ?IH1, ?IH2 by (auto; lia); reflexivity.
Qed.

Lemma gpath_nums : forall g row missing p, gpath g row missing = Some p -> incl p (gnums g) /\ In (gnum g) p /\ p <> [].
Proof.
  induction g as [n rows|n rows si mr l IHl r IHr|n rows si m IHm l IHl r IHr]; intros row missing p H; simpl in H.
  - injection H as <-. split; [apply incl_refl|]. split; [left; auto|discriminate].
  - inv_bind H. inv_bind H. inv_bind H. injection H as <-.
    assert (incl v1 (gnums l) \/ incl v1 (gnums r)) as I.
    { destruct v0; [destruct mr|destruct (v <? si_value si)%f64]; [right|left|left|right];
        [eapply IHr|eapply IHl|eapply IHl|eapply IHr]; eauto. }
    split; [|split; [left; auto|discriminate]]. intros x [<-|Hx]; [left; auto|]. simpl. rewrite in_app_iff.
    destruct I as [I|I]; auto.
  - inv_bind H. inv_bind H. inv_bind H. injection H as <-.
    assert (incl v1 (gnums m) \/ incl v1 (gnums l) \/ incl v1 (gnums r)) as I.
    { destruct v0; [|destruct (v <? si_value si)%f64];
        [left; eapply IHm|right; left; eapply IHl|right; right; eapply IHr]; eauto. }
    split; [|split; [left; auto|discriminate]]. intros x [<-|Hx]; [left; auto|]. simpl. rewrite !in_app_iff.
    destruct I as [I|[I|I]]; auto.
Qed.
End Path.

Section Fit.
Context {FS : Floats}.

(** A fitted tree with its account. *)
Lemma fit_agrees : forall policy pick s t index max_leaves max_depth sm nodes st,
  tree_fit policy pick s t index max_leaves max_depth sm = Some (nodes, st) ->
  exists root g, root_node s t index sm = Some root /\ INV s t max_depth root index st g /\
    agrees s nodes g /\ length nodes = length (gnums g) /\ gnum g = 0 /\ NoDup (gnums g) /\
    forall row missing, full_path nodes row missing = gpath g row missing.
Proof.
  intros policy pick s t index max_leaves max_depth sm nodes st H. apply fit_account in H.
  destruct H as (root & g & HR & I & L & P & C & S).
  destruct (root_node_facts _ _ _ _ _ HR) as (A1 & A2 & A3 & A4 & A5 & A6).
  exists root, g. split; auto. split; auto.
  assert (AG : agrees s nodes g).
  { intros x Hx. eapply Forall2_nth_l; [exact S|]. apply (gall_agree s _ _ (iv_agree _ _ _ _ _ _ _ I) _ Hx). }
  assert (LN : length nodes = length (gnums g)).
  { rewrite <- (Forall2_len _ _ _ _ _ S), (iv_len _ _ _ _ _ _ _ I).
    pose proof (Permutation_length (iv_nums _ _ _ _ _ _ _ I)) as PL. rewrite seq_length in PL. auto. }
  assert (G0 : gnum g = 0) by (unfold gnum; rewrite (iv_root _ _ _ _ _ _ _ I); auto).
  split; auto. split; auto. split; auto. split.
  - eapply Permutation_NoDup; [symmetry; apply (iv_nums _ _ _ _ _ _ _ I)|apply seq_NoDup].
  - intros row missing. unfold full_path. rewrite <- G0 at 1.
    eapply path_gpath; [apply (iv_valid _ _ _ _ _ _ _ I)|auto|]. rewrite LN. apply gheight_size.
Qed.
End Fit.
