(** Monotone constraints: bounds of nodes nest, leaf values respect them. *)
From Coq Require Import List Arith NArith Lia Bool Permutation.
From Verif Require Import Prelude Float FloatLaws FloatMono Data Utils Histogram Node Splitter SplitProofs EvalProofs
  Tree GrowProofs GrowInv GrowStep TreeWf TreeProofs FitProofs FitSplits PathProofs GrowWeights.
Import ListNotations.

(** Orders of a float format, for values that are not NaN. *)
Section Order.
Context {F : FloatOps}.
Hypothesis OL : OrdLaws F.
Lemma ord_irrefl : forall x, flt F x x = false.
Proof.
  intros x. destruct (flt F x x) eqn:E; auto. destruct (ol_lt_nan _ OL _ _ E) as [N _].
  rewrite (ol_lt_le _ OL), (ol_le_refl _ OL) in E by auto. discriminate.
Qed.
Lemma ord_le_nlt : forall x y, fle F x y = true -> flt F y x = false.
Proof. intros x y H. destruct (ol_le_nan _ OL _ _ H). rewrite (ol_lt_le _ OL), H by auto. reflexivity. Qed.
Lemma ord_nlt_le : forall x y, fisnan F x = false -> fisnan F y = false -> flt F y x = false -> fle F x y = true.
Proof. intros x y N1 N2 H. rewrite (ol_lt_le _ OL) in H by auto. destruct (fle F x y); auto. Qed.
Lemma ord_nle_lt : forall x y, fisnan F x = false -> fisnan F y = false -> fle F y x = false -> flt F x y = true.
Proof. intros x y N1 N2 H. rewrite (ol_lt_le _ OL), H by auto. reflexivity. Qed.
Lemma ord_lt_le : forall x y, flt F x y = true -> fle F x y = true.
Proof.
  intros x y H. destruct (ol_lt_nan _ OL _ _ H). rewrite (ol_lt_le _ OL) in H by auto.
  destruct (ol_le_total _ OL x y); auto. rewrite H2 in H. discriminate.
Qed.
Lemma ord_lt_le_trans : forall x y z, flt F x y = true -> fle F y z = true -> flt F x z = true.
Proof.
  intros x y z H1 H2. destruct (ol_lt_nan _ OL _ _ H1). destruct (ol_le_nan _ OL _ _ H2).
  rewrite (ol_lt_le _ OL) in * by auto. apply negb_true_iff in H1. apply negb_true_iff.
  destruct (fle F z x) eqn:E; auto. rewrite (ol_le_trans _ OL _ _ _ H2 E) in H1. discriminate.
Qed.
Lemma ord_le_lt_trans : forall x y z, fle F x y = true -> flt F y z = true -> flt F x z = true.
Proof.
  intros x y z H1 H2. destruct (ol_lt_nan _ OL _ _ H2). destruct (ol_le_nan _ OL _ _ H1).
  rewrite (ol_lt_le _ OL) in * by auto. apply negb_true_iff in H2. apply negb_true_iff.
  destruct (fle F z x) eqn:E; auto. rewrite (ol_le_trans _ OL _ _ _ E H1) in H2. discriminate.
Qed.
(** "not above" composes over a value that is not NaN *)
Lemma ord_nlt_trans : forall x y z, fisnan F y = false -> flt F y x = false -> flt F z y = false -> flt F z x = false.
Proof.
  intros x y z N H1 H2. destruct (flt F z x) eqn:E; auto. destruct (ol_lt_nan _ OL _ _ E) as [Nz Nx].
  apply ord_nlt_le in H1; auto. apply ord_nlt_le in H2; auto. apply ord_lt_le_trans with (z := z) in E; [|eapply ol_le_trans; eauto].
  rewrite ord_irrefl in E. discriminate.
Qed.
End Order.

Section Leaf.
Context {FS : Floats}.
(** The leaf of the account a row is sent to. *)
Fixpoint gleaf (g : gtree) (row : nat -> option F64) (missing : F64) : option SplittableNode :=
  match g with
  | GL n _ => Some n
  | GB2 n _ si mr l r =>
      let* v := row (si_feature si) in
      let* m := is_missing v missing in
      if m then (if mr then gleaf r row missing else gleaf l row missing)
      else if (v <? si_value si)%f64 then gleaf l row missing else gleaf r row missing
  | GB3 n _ si m l r =>
      let* v := row (si_feature si) in
      let* ms := is_missing v missing in
      if ms then gleaf m row missing
      else if (v <? si_value si)%f64 then gleaf l row missing else gleaf r row missing
  end.

Lemma gleaf_in : forall g row missing n, gleaf g row missing = Some n -> exists z rows, z = GL n rows /\ In z (gall g).
Proof.
  induction g as [n0 rows|n0 rows si mr l IHl r IHr|n0 rows si m IHm l IHl r IHr]; intros row missing n H; simpl in H.
  - injection H as <-. exists (GL n0 rows), rows. simpl; auto.
  - inv_bind H. inv_bind H.
    assert (X : gleaf l row missing = Some n \/ gleaf r row missing = Some n).
    { destruct v0; [destruct mr|destruct (v <? si_value si)%f64]; auto. }
    destruct X as [X|X]; [destruct (IHl _ _ _ X) as (z & rs & E1 & E2)|destruct (IHr _ _ _ X) as (z & rs & E1 & E2)];
      exists z, rs; (split; [auto|]); simpl; right; apply in_app_iff; auto.
  - inv_bind H. inv_bind H.
    assert (X : gleaf m row missing = Some n \/ gleaf l row missing = Some n \/ gleaf r row missing = Some n).
    { destruct v0; [|destruct (v <? si_value si)%f64]; auto. }
    destruct X as [X|[X|X]]; [destruct (IHm _ _ _ X) as (z & rs & E1 & E2)|destruct (IHl _ _ _ X) as (z & rs & E1 & E2)|destruct (IHr _ _ _ X) as (z & rs & E1 & E2)];
      exists z, rs; (split; [auto|]); simpl; right; rewrite !in_app_iff; auto.
Qed.

Lemma gleaf_path : forall g row missing p, gpath g row missing = Some p -> exists n, gleaf g row missing = Some n /\ last p 0 = sn_num n.
Proof.
  induction g as [n0 rows|n0 rows si mr l IHl r IHr|n0 rows si m IHm l IHl r IHr]; intros row missing p H; simpl in H |- *.
  - injection H as <-. exists n0. auto.
  - inv_bind H. inv_bind H. inv_bind H. injection H as <-. rewrite E. cbn [bind]. rewrite E0. cbn [bind].
    assert (X : forall g, gpath g row missing = Some v1 -> last (sn_num n0 :: v1) 0 = last v1 0).
    { intros g X. destruct (gpath_nums _ _ _ _ X) as (_ & _ & NE). destruct v1; [congruence|reflexivity]. }
    destruct v0; [destruct mr|destruct (v <? si_value si)%f64]; erewrite X by eauto; eauto.
  - inv_bind H. inv_bind H. inv_bind H. injection H as <-. rewrite E. cbn [bind]. rewrite E0. cbn [bind].
    assert (X : forall g, gpath g row missing = Some v1 -> last (sn_num n0 :: v1) 0 = last v1 0).
    { intros g X. destruct (gpath_nums _ _ _ _ X) as (_ & _ & NE). destruct v1; [congruence|reflexivity]. }
    destruct v0; [|destruct (v <? si_value si)%f64]; erewrite X by eauto; eauto.
Qed.
End Leaf.

Section Mono.
Context {FS : Floats}.
Variables (s : Splitter) (t : Train) (max_depth : nat) (tame : fcar (@f32 FS) -> Prop).
Notation p := (params s).
Notation gvalid := (gvalid s t max_depth).
Hypotheses (OL : OrdLaws (@f32 FS)) (SL : SubLaws (@f32 FS)) (ML : MonoLaws (@f32 FS) tame).
Hypotheses (NA : no_average s) (HL2 : (fzero f32 <=? sp_l2 p)%f32 = true) (HMW : (fzero f32 <=? sp_min_leaf_weight p)%f32 = true).

Definition constrained (f : nat) : Prop := get_constraint s f = Some Positive \/ get_constraint s f = Some Negative.

Definition inb (n : SplittableNode) : Prop :=
  (sn_lower n <=? sn_upper n)%f32 = true /\ (sn_weight n <? sn_lower n)%f32 = false /\ (sn_upper n <? sn_weight n)%f32 = false.

Lemma cweight_in : forall g h lo up c, c = Some Positive \/ c = Some Negative -> (lo <=? up)%f32 = true ->
  (cweight p g h lo up c <? lo)%f32 = false /\ (up <? cweight p g h lo up c)%f32 = false.
Proof.
  intros g h lo up c Hc H. unfold cweight, constrained_weight. set (w := weight _ _ _ _ _).
  pose proof (ord_le_nlt OL _ _ H) as E. pose proof (ord_irrefl OL lo). pose proof (ord_irrefl OL up).
  destruct Hc as [-> | ->].
  - destruct (up <? w)%f32 eqn:E1; [auto|]. destruct (w <? lo)%f32 eqn:E2; auto.
  - destruct (up <? w)%f32 eqn:E1; [auto|]. destruct (w <? lo)%f32 eqn:E2; auto.
Qed.

(** The two weights of a chosen split are tame. *)
Lemma cover_ok : forall h : F32, (h <? sp_min_leaf_weight p)%f32 = false -> (h + sp_l2 p <? fzero f32)%f32 = false.
Proof.
  intros h H. assert (H0 : (h <? fzero f32)%f32 = false).
  { destruct (h <? fzero f32)%f32 eqn:E; auto. rewrite (ord_lt_le_trans OL _ _ _ E HMW) in H. discriminate. }
  pose proof (ml_add _ _ ML _ _ _ _ H0 (ord_le_nlt OL _ _ HL2)) as A.
  destruct (h + sp_l2 p <? fzero f32)%f32 eqn:E; auto. rewrite (ord_lt_le_trans OL _ _ _ E (ml_zero _ _ ML)) in A. discriminate.
Qed.
Lemma facts_tame : forall node si, split_facts s node si -> tame (ni_weight (si_left si)) /\ tame (ni_weight (si_right si)).
Proof.
  intros node si F. destruct (sf_gain_l _ _ _ F) as [G1 E1]. destruct (sf_gain_r _ _ _ F) as [G2 E2].
  rewrite E1 in G1. rewrite E2 in G2. unfold gain_given_weight in *.
  split; eapply (FloatMono.ml_gain _ _ ML); eauto; apply cover_ok; [apply (sf_cover_l _ _ _ F)|apply (sf_cover_r _ _ _ F)].
Qed.

(** What a constrained split passes on; [dir] is true for Positive. *)
Definition dir_of (f : nat) : bool := match get_constraint s f with Some Positive => true | _ => false end.
Record mono_split (n : SplittableNode) (si : SplitInfo) (mid : F32) : Prop := mkMS {
  ms_lo : (sn_lower n <=? mid)%f32 = true;
  ms_up : (mid <=? sn_upper n)%f32 = true;
  ms_bl : ni_bounds (si_left si) = if dir_of (si_feature si) then (sn_lower n, mid) else (mid, sn_upper n);
  ms_br : ni_bounds (si_right si) = if dir_of (si_feature si) then (mid, sn_upper n) else (sn_lower n, mid);
  ms_wl : (ni_weight (si_left si) <? fst (ni_bounds (si_left si)))%f32 = false /\ (snd (ni_bounds (si_left si)) <? ni_weight (si_left si))%f32 = false;
  ms_wr : (ni_weight (si_right si) <? fst (ni_bounds (si_right si)))%f32 = false /\ (snd (ni_bounds (si_right si)) <? ni_weight (si_right si))%f32 = false }.

Lemma mono_split_of : forall node si, split_facts s node si -> constrained (si_feature si) -> inb node -> exists mid, mono_split node si mid.
Proof.
  intros node si F HC (B1 & B2 & B3). destruct (facts_tame _ _ F) as [TL TR].
  pose proof (ml_tame_nan _ _ ML _ TL) as NL. pose proof (ml_tame_nan _ _ ML _ TR) as NR.
  destruct (ol_le_nan _ OL _ _ B1) as [NLo NUp].
  destruct (facts_weights s (fun w => (w <? sn_lower node)%f32 = false) _ _ F B2 (fun g h => proj1 (cweight_in g h _ _ _ HC B1))) as [L1 R1].
  destruct (facts_weights s (fun w => (sn_upper node <? w)%f32 = false) _ _ F B3 (fun g h => proj2 (cweight_in g h _ _ _ HC B1))) as [L2 R2].
  set (lw := ni_weight (si_left si)) in *. set (rw := ni_weight (si_right si)) in *.
  set (mid := fmid f32 lw rw). pose proof (ml_mid_nan _ _ ML _ _ TL TR) as NM. fold mid in NM.
  pose proof (sf_bounds _ _ _ F) as BD. pose proof (sf_cull _ _ _ F) as CU. fold lw rw in BD, CU. unfold child_bounds in BD.
  change ((lw + rw) / lit f32 2)%f32 with mid in BD.
  exists mid. 
  assert (S1 : (sn_lower node <=? mid)%f32 = true) by (apply (ord_nlt_le OL); auto; apply (ml_mid_lo _ _ ML); auto).
  assert (S2 : (mid <=? sn_upper node)%f32 = true) by (apply (ord_nlt_le OL); auto; apply (ml_mid_hi _ _ ML); auto).
  pose proof (ord_irrefl OL lw) as IL. pose proof (ord_irrefl OL rw) as IR.
  constructor; auto; unfold dir_of; fold lw rw; destruct HC as [E|E]; rewrite E in *; injection BD as BL BR; auto.
  - rewrite BL. simpl. split; auto. apply (ml_mid_lo _ _ ML); auto.
    apply (ord_le_nlt OL). apply (ord_lt_le OL). apply (ord_nle_lt OL); auto.
  - rewrite BL. simpl. split; auto. apply (ml_mid_hi _ _ ML); auto.
    apply (ord_le_nlt OL). apply (ord_lt_le OL). apply (ord_nle_lt OL); auto.
  - rewrite BR. simpl. split; auto. apply (ml_mid_hi _ _ ML); auto.
    apply (ord_le_nlt OL). apply (ord_lt_le OL). apply (ord_nle_lt OL); auto.
  - rewrite BR. simpl. split; auto. apply (ml_mid_lo _ _ ML); auto.
    apply (ord_le_nlt OL). apply (ord_lt_le OL). apply (ord_nle_lt OL); auto.
Qed.

Lemma constrained_child : forall x c si, gvalid x -> In c (gchildren x) -> gsplit x = Some si -> constrained (si_feature si) -> inb (groot x) ->
  inb (groot c) /\ (sn_lower (groot x) <=? sn_lower (groot c))%f32 = true /\ (sn_upper (groot c) <=? sn_upper (groot x))%f32 = true.
Proof.
  intros x c si V Hc HS HC HI. destruct (gchildren_of _ _ _ _ _ V Hc) as (si' & HS' & CO).
  rewrite HS in HS'. injection HS' as <-. destruct (gsplit_best _ _ _ _ _ V HS) as [HB _].
  pose proof (chosen_facts s tame OL SL ML _ _ _ HB) as F.
  destruct (mono_split_of _ _ F HC HI) as (mid & M). pose proof HI as (B1 & B2 & B3).
  destruct (ol_le_nan _ OL _ _ B1) as [NLo NUp].
  pose proof (ms_lo _ _ _ M) as M1. pose proof (ms_up _ _ _ M) as M2. pose proof (ms_bl _ _ _ M) as ML'. pose proof (ms_br _ _ _ M) as MR.
  pose proof (ms_wl _ _ _ M) as [W1 W2]. pose proof (ms_wr _ _ _ M) as [W3 W4].
  pose proof (ol_le_refl _ OL _ NLo) as R1. pose proof (ol_le_refl _ OL _ NUp) as R2.
  destruct CO as [c' E1 E2 E3 E4|c' E1 E2 E3 E4|c' q term treat force i Hq Hi E1 E2 E3 E4].
  - unfold inb. rewrite E1, E3, E4. rewrite ML' in *. destruct (dir_of (si_feature si)); simpl in *; auto 10.
  - unfold inb. rewrite E1, E3, E4. rewrite MR in *. destruct (dir_of (si_feature si)); simpl in *; auto 10.
  - destruct (facts_missing s (fun w => (w <? sn_lower (groot x))%f32 = false) _ _ _ _ _ _ _ F NA Hq Hi B2
      (fun g h => proj1 (cweight_in g h _ _ _ HC B1))) as [X1 B].
    destruct (facts_missing s (fun w => (sn_upper (groot x) <? w)%f32 = false) _ _ _ _ _ _ _ F NA Hq Hi B3
      (fun g h => proj2 (cweight_in g h _ _ _ HC B1))) as [X2 _].
    unfold inb. rewrite E1, E3, E4, B. simpl. auto 10.
Qed.

Lemma free_child : forall x c si, gvalid x -> In c (gchildren x) -> gsplit x = Some si -> ~ constrained (si_feature si) ->
  sn_lower (groot c) = sn_lower (groot x) /\ sn_upper (groot c) = sn_upper (groot x).
Proof.
  intros x c si V Hc HS HC. destruct (gchildren_of _ _ _ _ _ V Hc) as (si' & HS' & CO).
  rewrite HS in HS'. injection HS' as <-. destruct (gsplit_best _ _ _ _ _ V HS) as [HB _].
  pose proof (chosen_facts s tame OL SL ML _ _ _ HB) as F. pose proof (sf_bounds _ _ _ F) as BD. unfold child_bounds in BD.
  assert (BE : ni_bounds (si_left si) = (sn_lower (groot x), sn_upper (groot x)) /\ ni_bounds (si_right si) = (sn_lower (groot x), sn_upper (groot x))).
  { unfold constrained in HC. destruct (get_constraint s (si_feature si)) as [[]|]; try (exfalso; tauto); injection BD as -> ->; auto. }
  destruct BE as [BE1 BE2].
  destruct CO as [c' E1 E2 E3 E4|c' E1 E2 E3 E4|c' q term treat force i Hq Hi E1 E2 E3 E4].
  - rewrite E3, E4, BE1. auto.
  - rewrite E3, E4, BE2. auto.
  - pose proof (sf_missing _ _ _ F) as M. rewrite Hq in M. destruct M as (i' & HM' & HBd & _).
    assert (i' = i) by (destruct Hi as [X|X], HM' as [X'|X']; rewrite X in X'; try discriminate; injection X'; auto). subst i'.
    rewrite E3, E4, HBd. auto.
Qed.

(** Below a split on a constrained feature every split is on a constrained feature. *)
Definition hereditary (g0 : gtree) : Prop := forall x c si sc, In x (gall g0) -> In c (gchildren x) ->
  gsplit x = Some si -> gsplit c = Some sc -> constrained (si_feature si) -> constrained (si_feature sc).

Lemma constrained_dec : forall f, constrained f \/ ~ constrained f.
Proof. intros f. unfold constrained. destruct (get_constraint s f) as [[]|]; intuition discriminate. Qed.

Variables (g0 : gtree).
Hypothesis HH : hereditary g0.

Definition good (x : gtree) : Prop := inb (groot x) /\
  forall si, gsplit x = Some si -> ~ constrained (si_feature si) -> sn_lower (groot x) = fninf f32 /\ sn_upper (groot x) = finf f32.

Lemma inb_free : forall n, sn_lower n = fninf f32 -> sn_upper n = finf f32 -> inb n.
Proof.
  intros n E1 E2. unfold inb. rewrite E1, E2. destruct (ml_inf_nan _ _ ML).
  split; [apply (ord_nlt_le OL); auto; apply (ml_inf _ _ ML)|]. split; [apply (ml_ninf _ _ ML)|apply (ml_inf _ _ ML)].
Qed.

Lemma good_child : forall x c, In x (gall g0) -> gvalid x -> In c (gchildren x) -> good x -> good c.
Proof.
  intros x c Hx V Hc [G1 G2]. destruct (gchildren_of _ _ _ _ _ V Hc) as (si & HS & _).
  destruct (constrained_dec (si_feature si)) as [HC|HC].
  - split; [apply (constrained_child x c si); auto|]. intros sc Hsc NC. exfalso. apply NC. apply (HH x c si sc); auto.
  - destruct (free_child _ _ _ V Hc HS HC) as [E1 E2]. destruct (G2 _ HS HC) as [F1 F2]. rewrite F1 in E1. rewrite F2 in E2.
    split; [apply inb_free; auto|]. intros; auto.
Qed.

(** Everything below a node whose split is constrained stays within its bounds. *)
Lemma nested : forall c, gvalid c -> incl (gall c) (gall g0) -> inb (groot c) -> (forall sc, gsplit c = Some sc -> constrained (si_feature sc)) ->
  forall z, In z (gall c) -> (sn_weight (groot z) <? sn_lower (groot c))%f32 = false /\ (sn_upper (groot c) <? sn_weight (groot z))%f32 = false.
Proof.
  intros c V HI HB HC z Hz. destruct HB as (B1 & B2 & B3). destruct (ol_le_nan _ OL _ _ B1) as [NLo NUp].
  assert (Q : inb (groot z) /\ (sn_lower (groot c) <=? sn_lower (groot z))%f32 = true /\ (sn_upper (groot z) <=? sn_upper (groot c))%f32 = true
     /\ forall sc, gsplit z = Some sc -> constrained (si_feature sc)).
  { revert z Hz. apply (ghost_ind_in s t max_depth (fun z => inb (groot z) /\ (sn_lower (groot c) <=? sn_lower (groot z))%f32 = true /\
       (sn_upper (groot z) <=? sn_upper (groot c))%f32 = true /\ forall sc, gsplit z = Some sc -> constrained (si_feature sc)) g0); auto.
    - intros x k Hx Vx Hk (Q1 & Q2 & Q3 & Q4). destruct (gchildren_of _ _ _ _ _ Vx Hk) as (si & HS & _).
      destruct (constrained_child _ _ _ Vx Hk HS (Q4 _ HS) Q1) as (R1 & R2 & R3).
      split; auto. split; [eapply ol_le_trans; eauto|]. split; [eapply ol_le_trans; eauto|].
      intros sc Hsc. apply (HH x k si sc); auto.
    - split; [unfold inb; auto|]. split; [apply (ol_le_refl _ OL); auto|]. split; [apply (ol_le_refl _ OL); auto|auto]. }
  destruct Q as ((Z1 & Z2 & Z3) & Q2 & Q3 & _). destruct (ol_le_nan _ OL _ _ Z1) as [NZLo NZUp].
  split; [apply (ord_nlt_trans OL) with (y := sn_lower (groot z))|apply (ord_nlt_trans OL) with (y := sn_upper (groot z))]; auto;
    apply (ord_le_nlt OL); auto.
Qed.

Variables (f : nat) (row1 row2 : nat -> option F64) (missing v1 v2 : F64).
Hypotheses (OL64 : OrdLaws (@f64 FS)) (HF : constrained f) (R1 : row1 f = Some v1) (R2 : row2 f = Some v2)
  (M1 : is_missing v1 missing = Some false) (M2 : is_missing v2 missing = Some false)
  (SAME : forall k, k <> f -> row1 k = row2 k) (LE : (v1 <=? v2)%f64 = true).

(** [b] is not on the wrong side of [a] *)
Definition ordered (F : FloatOps) (a b : fcar F) : Prop := if dir_of f then flt F b a = false else flt F a b = false.

Lemma sides : forall x si l r, gvalid x -> incl (gall x) (gall g0) -> good x -> gsplit x = Some si -> si_feature si = f ->
  In l (gchildren x) -> In r (gchildren x) ->
  sn_lower (groot l) = fst (ni_bounds (si_left si)) -> sn_upper (groot l) = snd (ni_bounds (si_left si)) ->
  sn_lower (groot r) = fst (ni_bounds (si_right si)) -> sn_upper (groot r) = snd (ni_bounds (si_right si)) ->
  forall n1 n2, gleaf l row1 missing = Some n1 -> gleaf r row2 missing = Some n2 -> ordered f32 (sn_weight n1) (sn_weight n2).
Proof.
  intros x si l r V HI [G1 G2] HS EF Hl Hr L1 L2 L3 L4 n1 n2 H1 H2.
  assert (HC : constrained (si_feature si)) by (rewrite EF; auto).
  destruct (gsplit_best _ _ _ _ _ V HS) as [HB _]. pose proof (chosen_facts s tame OL SL ML _ _ _ HB) as F.
  destruct (mono_split_of _ _ F HC G1) as (mid & M).
  destruct (ol_le_nan _ OL _ _ (ms_lo _ _ _ M)) as [_ NM].
  assert (Hx : In x (gall g0)) by (apply HI; apply gall_self).
  assert (SUB : forall c, In c (gchildren x) -> gvalid c /\ incl (gall c) (gall g0) /\ inb (groot c) /\
     (forall sc, gsplit c = Some sc -> constrained (si_feature sc))).
  { intros c Hc. pose proof (gchildren_all _ _ Hc) as Hc'. split; [eapply gall_valid; eauto|].
    split; [intros z Hz; apply HI; eapply gall_trans; eauto|]. split; [eapply constrained_child; eauto|].
    intros sc Hsc. apply (HH x c si sc); auto. }
  destruct (SUB l Hl) as (A1 & A2 & A3 & A4). destruct (SUB r Hr) as (B1 & B2 & B3 & B4).
  destruct (gleaf_in _ _ _ _ H1) as (z1 & rows1 & E1 & I1). destruct (gleaf_in _ _ _ _ H2) as (z2 & rows2 & E2 & I2).
  destruct (nested l A1 A2 A3 A4 _ I1) as [X1 X2]. destruct (nested r B1 B2 B3 B4 _ I2) as [Y1 Y2].
  subst z1 z2. simpl in *. rewrite L1 in X1. rewrite L2 in X2. rewrite L3 in Y1. rewrite L4 in Y2.
  rewrite (ms_bl _ _ _ M) in *. rewrite (ms_br _ _ _ M) in *. rewrite EF in *. unfold ordered.
  destruct (dir_of f); simpl in *; eapply (ord_nlt_trans OL); eauto.
Qed.

Lemma lt_first : forall sv : F64, (v2 <? sv)%f64 = true -> (v1 <? sv)%f64 = true.
Proof. intros sv H. eapply (ord_le_lt_trans OL64); eauto. Qed.

Lemma tree_mono : forall g, gvalid g -> incl (gall g) (gall g0) -> good g ->
  forall n1 n2, gleaf g row1 missing = Some n1 -> gleaf g row2 missing = Some n2 -> ordered f32 (sn_weight n1) (sn_weight n2).
Proof.
  intros g V. pose proof V as V0.
  induction V as [n rows Hl|p0 n rows si mr l r sub lh rh E0 E1 E2 E3 E4 PP S N1 N2 GL' GR' V1 IH1 V2 IH2
                 |n rows si m l r sub mh lh rh mi ml E1 E2 E3 E4 PP S N1 N2 N3 GM' GL' GR' Vm IH0 V1 IH1 V2 IH2]; intros HI HG n1 n2 H1 H2.
  - simpl in H1, H2. injection H1 as <-. injection H2 as <-. unfold ordered. rewrite (ord_irrefl OL). destruct (dir_of f); auto.
  - assert (Hx : In (GB2 n rows si mr l r) (gall g0)) by (apply HI; apply gall_self).
    assert (Gl : good l) by (apply (good_child _ _ Hx V0); simpl; auto). assert (Gr : good r) by (apply (good_child _ _ Hx V0); simpl; auto).
    assert (Il : incl (gall l) (gall g0)) by (intros z Hz; apply HI; simpl; rewrite in_app_iff; auto).
    assert (Ir : incl (gall r) (gall g0)) by (intros z Hz; apply HI; simpl; rewrite in_app_iff; auto).
    assert (SD := fun EF => sides (GB2 n rows si mr l r) si l r V0 HI HG eq_refl EF (or_introl eq_refl) (or_intror (or_introl eq_refl))).
    rewrite GL', GR' in SD. specialize (fun EF => SD EF eq_refl eq_refl eq_refl eq_refl).
    specialize (IH1 V1 Il Gl). specialize (IH2 V2 Ir Gr).
    simpl in H1, H2. destruct (Nat.eq_dec (si_feature si) f) as [EF|NF].
    + rewrite EF in *. rewrite R1 in H1. rewrite R2 in H2. cbn [bind] in *. rewrite M1 in H1. rewrite M2 in H2. cbn [bind] in *.
      destruct (v2 <? si_value si)%f64 eqn:C2.
      * rewrite (lt_first _ C2) in H1. auto.
      * destruct (v1 <? si_value si)%f64 eqn:C1; auto.
    + rewrite <- (SAME _ NF) in H2. inv_bind H1. rewrite E in H2. cbn [bind] in H2. inv_bind H1. rewrite E5 in H2. cbn [bind] in H2.
      destruct v0; [destruct mr|destruct (v <? si_value si)%f64]; auto.
  - assert (Hx : In (GB3 n rows si m l r) (gall g0)) by (apply HI; apply gall_self).
    assert (Gm : good m) by (apply (good_child _ _ Hx V0); simpl; auto).
    assert (Gl : good l) by (apply (good_child _ _ Hx V0); simpl; auto). assert (Gr : good r) by (apply (good_child _ _ Hx V0); simpl; auto).
    assert (Im : incl (gall m) (gall g0)) by (intros z Hz; apply HI; simpl; rewrite !in_app_iff; auto).
    assert (Il : incl (gall l) (gall g0)) by (intros z Hz; apply HI; simpl; rewrite !in_app_iff; auto).
    assert (Ir : incl (gall r) (gall g0)) by (intros z Hz; apply HI; simpl; rewrite !in_app_iff; auto).
    assert (SD := fun EF => sides (GB3 n rows si m l r) si l r V0 HI HG eq_refl EF (or_intror (or_introl eq_refl)) (or_intror (or_intror (or_introl eq_refl)))).
    rewrite GL', GR' in SD. specialize (fun EF => SD EF eq_refl eq_refl eq_refl eq_refl).
    specialize (IH0 Vm Im Gm). specialize (IH1 V1 Il Gl). specialize (IH2 V2 Ir Gr).
    simpl in H1, H2. destruct (Nat.eq_dec (si_feature si) f) as [EF|NF].
    + rewrite EF in *. rewrite R1 in H1. rewrite R2 in H2. cbn [bind] in *. rewrite M1 in H1. rewrite M2 in H2. cbn [bind] in *.
      destruct (v2 <? si_value si)%f64 eqn:C2.
      * rewrite (lt_first _ C2) in H1. auto.
      * destruct (v1 <? si_value si)%f64 eqn:C1; auto.
    + rewrite <- (SAME _ NF) in H2. inv_bind H1. rewrite E in H2. cbn [bind] in H2. inv_bind H1. rewrite E0 in H2. cbn [bind] in H2.
      destruct v0; [|destruct (v <? si_value si)%f64]; auto.
Qed.
End Mono.
