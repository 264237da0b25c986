(** Weights and bounds of the nodes while a tree grows. *)
From Coq Require Import List Arith NArith Lia Bool Permutation.
From Verif Require Import Prelude Float FloatLaws FloatMono Data Utils Histogram Node Splitter SplitProofs EvalProofs
  Tree GrowProofs GrowInv GrowStep TreeWf TreeProofs FitProofs FitSplits.
Import ListNotations.

Section Weights.
Context {FS : Floats}.
Variables (s : Splitter) (t : Train) (max_depth : nat).
Notation p := (params s).
Notation gvalid := (gvalid s t max_depth).
Notation ok x := (flt f32 (fninf f32) x = true).
Notation ggw g h w := (gain_given_weight (sp_l2 p) g h w).

(** What passes from a node to its children holds everywhere below it. *)
Lemma ghost_ind_in : forall (Q : gtree -> Prop) g0,
  (forall x c, In x (gall g0) -> gvalid x -> In c (gchildren x) -> Q x -> Q c) ->
  forall g, gvalid g -> incl (gall g) (gall g0) -> Q g -> forall x, In x (gall g) -> Q x.
Proof.
  intros Q g0 STEP g V. pose proof V as V0.
  induction V as [n rows Hl|p0 n rows si mr l r sub lh rh E0 E1 E2 E3 E4 PP S N1 N2 GL' GR' V1 IH1 V2 IH2
                 |n rows si m l r sub mh lh rh mi ml E1 E2 E3 E4 PP S N1 N2 N3 GM' GL' GR' Vm IH0 V1 IH1 V2 IH2]; intros HI HP x Hx; simpl in Hx, HI.
  - destruct Hx as [<-|[]]; auto.
  - destruct Hx as [<-|Hx]; auto. apply in_app_iff in Hx.
    assert (Hg : In (GB2 n rows si mr l r) (gall g0)) by (apply HI; left; auto).
    destruct Hx as [Hx|Hx]; [apply IH1|apply IH2]; auto;
      try (apply (STEP _ _ Hg V0); simpl; auto); intros z Hz; apply HI; right; apply in_app_iff; auto.
  - destruct Hx as [<-|Hx]; auto. rewrite !in_app_iff in Hx.
    assert (Hg : In (GB3 n rows si m l r) (gall g0)) by (apply HI; left; auto).
    destruct Hx as [Hx|[Hx|Hx]]; [apply IH0|apply IH1|apply IH2]; auto;
      try (apply (STEP _ _ Hg V0); simpl; auto); intros z Hz; apply HI; right; rewrite !in_app_iff; auto.
Qed.
Lemma ghost_ind : forall (P : SplittableNode -> Prop),
  (forall x c, gvalid x -> In c (gchildren x) -> P (groot x) -> P (groot c)) ->
  forall g, gvalid g -> P (groot g) -> forall x, In x (gall g) -> P (groot x).
Proof. intros P STEP g V HP x Hx. exact (ghost_ind_in (fun x => P (groot x)) g (fun x c _ V H HP => STEP x c V H HP) g V (incl_refl _) HP x Hx). Qed.

(** The children of a split node. *)
Inductive child_of (node : SplittableNode) (si : SplitInfo) : SplittableNode -> Prop :=
| co_left : forall c, sn_weight c = ni_weight (si_left si) -> sn_gain c = ni_gain (si_left si) ->
    sn_lower c = fst (ni_bounds (si_left si)) -> sn_upper c = snd (ni_bounds (si_left si)) -> child_of node si c
| co_right : forall c, sn_weight c = ni_weight (si_right si) -> sn_gain c = ni_gain (si_right si) ->
    sn_lower c = fst (ni_bounds (si_right si)) -> sn_upper c = snd (ni_bounds (si_right si)) -> child_of node si c
| co_missing : forall c q term treat force i, s = Branch q term treat force ->
    si_missing si = MBranch i \/ si_missing si = MLeaf i ->
    sn_weight c = ni_weight (missing_info_of treat node i) -> sn_gain c = ni_gain i ->
    sn_lower c = fst (ni_bounds i) -> sn_upper c = snd (ni_bounds i) -> child_of node si c.

Lemma gchildren_of : forall x c, gvalid x -> In c (gchildren x) -> exists si, gsplit x = Some si /\ child_of (groot x) si (groot c).
Proof.
  intros x c V Hc. inversion V; subst; simpl in Hc.
  - destruct Hc.
  - exists si. split; auto. destruct Hc as [<-|[<-|[]]]; [apply co_left|apply co_right];
      match goal with H : groot ?g = _ |- context [groot ?g] => rewrite H; reflexivity end.
  - exists si. split; auto. destruct Hc as [<-|[<-|[<-|[]]]]; [|apply co_left|apply co_right];
      try match goal with H : groot ?g = _ |- context [groot ?g] => rewrite H; reflexivity end.
    match goal with H : split3 _ _ _ _ _ _ _ _ _ _ _ _ _ |- _ => destruct H as [f q term treat force i HS HB HM HI HC HP HH] end.
    eapply co_missing; eauto; [destruct HM as [[-> _]|[-> _]]; auto| | | |];
      match goal with H : groot ?g = _ |- context [groot ?g] => rewrite H; rewrite HI; unfold missing_info_of; destruct treat; reflexivity end.
Qed.

Definition forces : bool := match s with Branch _ _ _ f => f | _ => false end.

(** What a chosen split satisfies. *)
Record split_facts (node : SplittableNode) (si : SplitInfo) : Prop := mkSF {
  sf_cull : match get_constraint s (si_feature si) with
            | Some Positive => (ni_weight (si_right si) <=? ni_weight (si_left si))%f32 = false
            | Some Negative => (ni_weight (si_left si) <=? ni_weight (si_right si))%f32 = false
            | _ => True end;
  sf_bounds : (ni_bounds (si_left si), ni_bounds (si_right si)) =
     child_bounds (sn_lower node) (sn_upper node) (ni_weight (si_left si)) (ni_weight (si_right si)) (get_constraint s (si_feature si));
  sf_weights : let cw i := cweight p (ni_grad i) (ni_cover i) (sn_lower node) (sn_upper node) (get_constraint s (si_feature si)) in
     (ni_weight (si_left si), ni_weight (si_right si)) =
       (if forces then bound_to_parent (sn_weight node) (cw (si_left si)) (cw (si_right si)) else (cw (si_left si), cw (si_right si))) /\
     (forces = true -> between (sn_lower node) (sn_upper node) (ni_weight (si_left si)) = true /\
                       between (sn_lower node) (sn_upper node) (ni_weight (si_right si)) = true);
  sf_gain_l : ok (ni_gain (si_left si)) /\ ni_gain (si_left si) = ggw (ni_grad (si_left si)) (ni_cover (si_left si)) (ni_weight (si_left si));
  sf_gain_r : ok (ni_gain (si_right si)) /\ ni_gain (si_right si) = ggw (ni_grad (si_right si)) (ni_cover (si_right si)) (ni_weight (si_right si));
  sf_cover_l : (ni_cover (si_left si) <? sp_min_leaf_weight p)%f32 = false;
  sf_cover_r : (ni_cover (si_right si) <? sp_min_leaf_weight p)%f32 = false;
  sf_node : fisnan f32 (sn_gain node) = false;
  sf_missing : match s with
     | Imputer _ => si_missing si = MLeft \/ si_missing si = MRight
     | Branch q term treat force => exists i, (si_missing si = MBranch i \/ si_missing si = MLeaf i) /\
         ni_bounds i = (sn_lower node, sn_upper node) /\ ok (ni_gain i) /\ ni_gain i = ggw (ni_grad i) (ni_cover i) (ni_weight i) /\
         ni_weight i = missing_weight_of q treat (ni_grad (si_left si)) (ni_cover (si_left si)) (ni_grad (si_right si)) (ni_cover (si_right si))
           (ni_grad i) (ni_cover i) (ni_weight (si_left si)) (ni_weight (si_right si)) (sn_lower node) (sn_upper node) (sn_weight node)
           (get_constraint s (si_feature si))
     end }.

Variables (tame : fcar (@f32 FS) -> Prop).
Hypotheses (OL : OrdLaws (@f32 FS)) (SL : SubLaws (@f32 FS)) (ML : MonoLaws (@f32 FS) tame).

Lemma pos_ok : forall x : F32, (fzero f32 <? x)%f32 = true -> ok x.
Proof.
  intros x H. destruct (ol_lt_nan _ OL _ _ H) as [NZ NX]. destruct (ml_inf_nan _ _ ML) as [_ NI].
  rewrite (ol_lt_le _ OL) by auto. apply negb_true_iff. destruct (x <=? fninf f32)%f32 eqn:E; auto.
  pose proof (flt_le_trans OL _ _ _ H E) as Q. rewrite (ml_ninf _ _ ML) in Q. discriminate.
Qed.
Lemma not_ok_ninf : ~ ok (fninf (@f32 FS)).
Proof. rewrite (ml_ninf _ _ ML). discriminate. Qed.
Lemma cull_ok : forall g a b c, ok (cull_gain g a b c) -> cull_gain g a b c = g.
Proof. intros g a b [[]|] H; simpl in *; auto; destruct (_ <=? _)%f32; auto; exfalso; apply not_ok_ninf; auto. Qed.

Lemma chosen_facts : forall node cols si, best_split s node cols = Some (Some si) -> split_facts node si.
Proof.
  intros node cols si HB. destruct (best_split_some s node OL (sl_zero_nan _ SL) _ _ HB) as (k & j & A & HG & _).
  pose proof (admissible_cover _ _ _ _ _ _ A) as [CL CR]. destruct A as [f missing bins bin Hf Hcol Hb HC].
  destruct (candidate_inv _ _ _ _ _ _ _ _ _ HC) as (l & r & m & HE & F1 & _ & _ & F2 & F3 & F4 & F5). cbv zeta in F5. destruct F5 as [F5 F6].
  set (c := get_constraint s f) in *. set (lo := sn_lower node) in *. set (up := sn_upper node) in *.
  assert (SG : fisnan f32 (cull_gain (get_split_gain node l r m (sp_gamma p)) (ni_weight l) (ni_weight r) c) = false).
  { destruct (fisnan f32 _) eqn:E; auto. rewrite F6 in HG. rewrite (ol_lt_le _ OL) in HG by apply (sl_zero_nan _ SL).
    rewrite (ol_le_refl _ OL) in HG by apply (sl_zero_nan _ SL). discriminate. }
  rewrite SG in F6. rewrite F6 in HG. apply pos_ok in HG. pose proof (cull_ok _ _ _ _ HG) as EC.
  assert (CU : match c with Some Positive => (ni_weight r <=? ni_weight l)%f32 = false | Some Negative => (ni_weight l <=? ni_weight r)%f32 = false | _ => True end).
  { unfold cull_gain in HG. destruct c as [[]|]; auto.
    - destruct (ni_weight r <=? ni_weight l)%f32; auto. exfalso. apply not_ok_ninf; auto.
    - destruct (ni_weight l <=? ni_weight r)%f32; auto. exfalso. apply not_ok_ninf; auto. }
  rewrite EC in HG. unfold get_split_gain in HG.
  apply (ml_ok_sub _ _ ML) in HG. destruct HG as [HG _]. apply (ml_ok_sub _ _ ML) in HG. destruct HG as [HG NN].
  apply (ml_ok_add _ _ ML) in HG. destruct HG as [HG OM]. apply (ml_ok_add _ _ ML) in HG. destruct HG as [OL' OR'].
  assert (BD : (ni_bounds (si_left si), ni_bounds (si_right si)) = child_bounds lo up (ni_weight (si_left si)) (ni_weight (si_right si)) c).
  { rewrite F3, F4. simpl. symmetry. apply surjective_pairing. }
  assert (CULL : match c with Some Positive => (ni_weight (si_right si) <=? ni_weight (si_left si))%f32 = false
     | Some Negative => (ni_weight (si_left si) <=? ni_weight (si_right si))%f32 = false | _ => True end) by (rewrite F3, F4; exact CU).
  assert (HOLD : let cw i := cweight p (ni_grad i) (ni_cover i) lo up c in
     ((ni_weight l, ni_weight r) = (if forces then bound_to_parent (sn_weight node) (cw l) (cw r) else (cw l, cw r)) /\
       (forces = true -> between lo up (ni_weight l) = true /\ between lo up (ni_weight r) = true)) /\
     ni_gain l = ggw (ni_grad l) (ni_cover l) (ni_weight l) /\ ni_gain r = ggw (ni_grad r) (ni_cover r) (ni_weight r) /\
     match s with
     | Imputer _ => m = MLeft \/ m = MRight
     | Branch q term treat force => exists i, (m = MBranch i \/ m = MLeaf i) /\
         ni_bounds i = (lo, up) /\ ni_gain i = ggw (ni_grad i) (ni_cover i) (ni_weight i) /\
         ni_weight i = missing_weight_of q treat (ni_grad l) (ni_cover l) (ni_grad r) (ni_cover r)
           (ni_grad i) (ni_cover i) (ni_weight l) (ni_weight r) lo up (sn_weight node) c
     end).
  { cbv zeta. unfold forces. destruct s as [q|q term treat force]; simpl in HE.
    - injection HE as HE. apply imputer_inv in HE. inversion HE; subst; simpl; simpl in OL', OR'.
      + split; [split; [auto|discriminate]|]. auto.
      + split; [split; [auto|discriminate]|]. unfold ml_gain in *. rewrite (cull_ok _ _ _ _ OL'). auto.
      + split; [split; [auto|discriminate]|]. unfold mr_gain in *. rewrite (cull_ok _ _ _ _ OR'). auto.
    - apply branch_inv in HE. cbv zeta in HE. destruct HE as [HE HF]. injection HE as -> -> ->. simpl.
      split; [split|].
      + unfold branch_weights. destruct force; auto. destruct (bound_to_parent _ _ _); auto.
      + intros ->. apply HF; auto.
      + split; auto. split; auto. eexists. split; [destruct (_ && _)%bool; eauto|]. simpl. auto. }
  cbv zeta in HOLD. destruct HOLD as ((HW & HF) & GL & GR & HM).
  assert (Hc : get_constraint s (si_feature si) = c) by (rewrite F1; reflexivity).
  constructor; fold lo up; rewrite ?Hc; auto; rewrite ?F3, ?F4; simpl; auto.
  rewrite F2. clear - HM OM. destruct s as [q|q term treat force]; auto.
    destruct HM as (i & HM & B & G & W). exists i. split; auto. split; auto. split; [destruct HM as [-> | ->]; exact OM|]. auto.
Qed.

(** Where the weight of a chosen child comes from. *)
Lemma btp_cases : forall w a b : F32, let r := bound_to_parent w a b in
  (fst r = w \/ fst r = a \/ fst r = b) /\ (snd r = w \/ snd r = a \/ snd r = b).
Proof.
  intros w a b r. unfold r, bound_to_parent.
  destruct (between a b w); simpl; auto. destruct (b <? a)%f32; [destruct (a <? w)%f32|destruct (b <? w)%f32]; simpl; auto.
Qed.

Lemma facts_weights : forall (P : F32 -> Prop) node si, split_facts node si -> P (sn_weight node) ->
  (forall g h, P (cweight p g h (sn_lower node) (sn_upper node) (get_constraint s (si_feature si)))) ->
  P (ni_weight (si_left si)) /\ P (ni_weight (si_right si)).
Proof.
  intros P node si F HW HC. destruct (sf_weights _ _ F) as [E _]. destruct forces.
  - destruct (btp_cases (sn_weight node)
      (cweight p (ni_grad (si_left si)) (ni_cover (si_left si)) (sn_lower node) (sn_upper node) (get_constraint s (si_feature si)))
      (cweight p (ni_grad (si_right si)) (ni_cover (si_right si)) (sn_lower node) (sn_upper node) (get_constraint s (si_feature si)))) as [A B].
    rewrite <- E in A, B. simpl in A, B.
    split; [destruct A as [->|[->| ->]]|destruct B as [->|[->| ->]]]; auto.
  - injection E as -> ->. auto.
Qed.

(** Splitters whose leaf values stay as the splits made them, except for values averaged over the children. *)
Definition no_average : Prop := match s with Branch _ _ t _ => t = TNone \/ t = AssignToParent | _ => True end.

Lemma facts_missing : forall (P : F32 -> Prop) node si q term treat force i, split_facts node si -> no_average ->
  s = Branch q term treat force -> si_missing si = MBranch i \/ si_missing si = MLeaf i -> P (sn_weight node) ->
  (forall g h, P (cweight p g h (sn_lower node) (sn_upper node) (get_constraint s (si_feature si)))) ->
  P (ni_weight (missing_info_of treat node i)) /\ ni_bounds i = (sn_lower node, sn_upper node).
Proof.
  intros P node si q term treat force i F NA HS HM HW HC. pose proof (sf_missing _ _ F) as M. rewrite HS in M.
  destruct M as (i' & HM' & HB & _ & _ & HWt).
  assert (i' = i) by (destruct HM as [E|E], HM' as [E'|E']; rewrite E in E'; try discriminate; injection E'; auto). subst i'.
  split; auto. unfold no_average in NA. rewrite HS in NA. destruct NA as [->| ->]; simpl; auto.
  rewrite HWt. simpl. destruct (_ || _)%bool; auto. specialize (HC (ni_grad i) (ni_cover i)). rewrite HS in HC. exact HC.
Qed.

(** *** max_delta_step *)
Section Delta.
Notation m := (sp_max_delta_step p).
Hypotheses (BL : BoundLaws (@f32 FS) m) (HM : feq (@f32 FS) m (fzero f32) = false) (NA : no_average).

Definition near (n : SplittableNode) : Prop :=
  bounded f32 m (sn_weight n) /\ (sn_lower n = fninf f32 \/ bounded f32 m (sn_lower n)) /\
  (sn_upper n = finf f32 \/ bounded f32 m (sn_upper n)).

Lemma weight_bounded : forall g h : F32, bounded f32 m (weight (sp_l1 p) (sp_l2 p) m g h).
Proof.
  intros g h. unfold weight. rewrite HM. cbn [negb andb].
  match goal with |- context [if ?b then _ else _] => destruct b eqn:E end; [apply (bl_copysign _ _ BL)|exact E].
Qed.
Lemma cweight_bounded : forall g h lo up c, lo = fninf f32 \/ bounded f32 m lo -> up = finf f32 \/ bounded f32 m up ->
  bounded f32 m (cweight p g h lo up c).
Proof.
  intros g h lo up c HL HU. unfold cweight, constrained_weight. pose proof (weight_bounded g h) as B.
  assert (C : bounded f32 m (if (up <? weight (sp_l1 p) (sp_l2 p) m g h)%f32 then up
     else if (weight (sp_l1 p) (sp_l2 p) m g h <? lo)%f32 then lo else weight (sp_l1 p) (sp_l2 p) m g h)).
  { destruct (up <? _)%f32 eqn:E1; [destruct HU as [->|HU]; auto; rewrite (ml_inf _ _ ML) in E1; discriminate|].
    destruct (_ <? lo)%f32 eqn:E2; auto. destruct HL as [->|HL]; auto. rewrite (ml_ninf _ _ ML) in E2. discriminate. }
  destruct c as [[]|]; auto.
Qed.

Lemma near_child : forall x c, gvalid x -> In c (gchildren x) -> near (groot x) -> near (groot c).
Proof.
  intros x c V Hc (N1 & N2 & N3). destruct (gchildren_of _ _ V Hc) as (si & HS & CO).
  destruct (gsplit_best _ _ _ _ _ V HS) as [HB _]. pose proof (chosen_facts _ _ _ HB) as F.
  destruct (facts_weights (bounded f32 m) _ _ F N1 (fun g h => cweight_bounded g h _ _ _ N2 N3)) as [WL WR].
  pose proof (sf_bounds _ _ F) as BD. unfold child_bounds in BD.
  pose proof (bl_mid _ _ BL _ _ WL WR) as WM. unfold fmid in WM.
  destruct CO as [c' E1 E2 E3 E4|c' E1 E2 E3 E4|c' q term treat force i Hq Hi E1 E2 E3 E4].
  - unfold near. rewrite E1, E3, E4. split; auto.
    destruct (get_constraint s (si_feature si)) as [[]|]; injection BD as -> _; simpl; auto.
  - unfold near. rewrite E1, E3, E4. split; auto.
    destruct (get_constraint s (si_feature si)) as [[]|]; injection BD as _ ->; simpl; auto.
  - destruct (facts_missing (bounded f32 m) _ _ _ _ _ _ _ F NA Hq Hi N1 (fun g h => cweight_bounded g h _ _ _ N2 N3)) as [W B].
    unfold near. rewrite E1, E3, E4, B. simpl. auto.
Qed.

Lemma near_root : forall index sm root, root_node s t index sm = Some root -> near root.
Proof.
  intros index sm root H. unfold root_node in H. inv_bind H. destruct v as [[gs hs] so]. inv_bind H. injection H as <-.
  unfold near. simpl. split; auto. apply weight_bounded.
Qed.
End Delta.

Lemma clean_id : no_average -> forall nodes nodes', clean_up_splits s nodes = Some nodes' -> nodes' = nodes.
Proof.
  intros NA nodes nodes' H. unfold no_average in NA. unfold clean_up_splits in H. destruct s as [q|q term treat force].
  - injection H as <-. auto.
  - destruct NA as [->| ->]; injection H as <-; auto.
Qed.
End Weights.

(** C23 *)
Theorem fit_delta : forall {FS : Floats} policy pick s t index max_leaves max_depth sm tame,
  OrdLaws (@f32 FS) -> SubLaws (@f32 FS) -> MonoLaws (@f32 FS) tame ->
  let m := sp_max_delta_step (params s) in
  BoundLaws f32 m -> feq f32 m (fzero f32) = false -> no_average s ->
  (fzero f32 <=? sp_learning_rate (params s))%f32 = true ->
  forall nodes st, tree_fit policy pick s t index max_leaves max_depth sm = Some (nodes, st) ->
  forall n, In n nodes -> (m * sp_learning_rate (params s) <? fabs f32 (n_weight n))%f32 = false.
Proof.
  intros FS policy pick s t index max_leaves max_depth sm tame OL SL ML m BL HM NA HL nodes st H n Hn.
  pose proof H as H'. apply fit_account in H'. destruct H' as (root & g & HR & I & L & P & C & S).
  apply clean_id in C; auto. subst nodes. apply In_nth_error in Hn. destruct Hn as [i Hi].
  destruct (INV_node _ _ _ _ _ _ _ I _ _ Hi) as (x & Hx & E & -> & V).
  destruct (gnode_facts s t max_depth x V) as (_ & _ & _ & -> & _).
  apply (bl_mul _ _ BL); auto.
  assert (N : near s (groot x)); [|apply N].
  refine (ghost_ind s t max_depth (near s) _ g (iv_valid _ _ _ _ _ _ _ I) _ x Hx).
  - intros y c Vy Hc. eapply near_child; eauto.
  - rewrite (iv_root _ _ _ _ _ _ _ I). eapply near_root; eauto.
Qed.
