(** A Python object trained on a small frame, for the examples of PropPython. *)
From Coq Require Import List Arith NArith ZArith Bool String Ascii Lia.
From Verif Require Import Prelude Float FloatI Data Utils Binning BinningX PropBinning Histogram Node Splitter Tree Objective Metric Sampler Contrib Booster
  PropTree PropPredict Serde PyWrap PyState PyLoad.
Import ListNotations.
Local Open Scope string_scope.

(** *** One way of writing the metadata values as text *)
Fixpoint un (n : nat) : string := match n with 0 => "0" | S n => String "1" (un n) end.
Fixpoint rd_un (s : string) : option (nat * string) :=
  match s with
  | String "0" r => Some (0, r)
  | String "1" r => match rd_un r with Some (n, r) => Some (S n, r) | None => None end
  | _ => None
  end.
Fixpoint take (n : nat) (s : string) : option (string * string) :=
  match n with
  | 0 => Some ("", s)
  | S n => match s with String a r => match take n r with Some (x, r) => Some (String a x, r) | None => None end | EmptyString => None end
  end.
Definition key_text (k : pykey) : string :=
  match k with KInt (Zneg p) => "-" ++ un (Pos.to_nat p) | KInt i => "+" ++ un (Z.to_nat i) | KStr s => "s" ++ un (String.length s) ++ s end.
Definition rd_key (s : string) : option (pykey * string) :=
  match s with
  | String "-" r => match rd_un r with Some (n, r) => Some (KInt (- Z.of_nat n), r) | None => None end
  | String "+" r => match rd_un r with Some (n, r) => Some (KInt (Z.of_nat n), r) | None => None end
  | String "s" r => match rd_un r with Some (n, r) => match take n r with Some (x, r) => Some (KStr x, r) | None => None end | None => None end
  | _ => None
  end.
Fixpoint rd_keys (n : nat) (s : string) : option (list pykey) :=
  match n with
  | 0 => Some []
  | S n => match rd_key s with Some (k, r) => match rd_keys n r with Some l => Some (k :: l) | None => None end | None => None end
  end.
Definition text_keys (l : list pykey) : string := fold_right (fun k s => key_text k ++ s) "" l.
Definition ex_pc : PyCodec := mkPyCodec
  (fun v => match v with VNames l => "l" ++ un (List.length l) ++ text_keys l | VNat n => "n" ++ un n | VStr s => "t" ++ s end)
  (fun s => match s with
            | String "l" r => match rd_un r with Some (n, r) => option_map VNames (rd_keys n r) | None => None end
            | String "n" r => match rd_un r with Some (n, _) => Some (VNat n) | None => None end
            | String "t" r => Some (VStr r)
            | _ => None
            end).
Lemma rd_un_un : forall n s, rd_un (un n ++ s) = Some (n, s).
Proof. induction n; simpl; intros; auto. now rewrite IHn. Qed.
Lemma take_app : forall a s, take (String.length a) (a ++ s) = Some (a, s).
Proof. induction a; simpl; intros; auto. now rewrite IHa. Qed.
Lemma str_app_assoc : forall a b c : string, (a ++ b) ++ c = a ++ (b ++ c).
Proof. induction a; simpl; intros; auto. now rewrite IHa. Qed.
Lemma str_app_nil : forall a : string, a ++ "" = a.
Proof. induction a; simpl; auto. now rewrite IHa. Qed.
Lemma rd_key_text : forall k s, rd_key (key_text k ++ s) = Some (k, s).
Proof.
  intros [[|p|p]|x] s; cbn [key_text]; rewrite ?str_app_assoc; cbn [rd_key append]; rewrite ?rd_un_un.
  - reflexivity.
  - now rewrite Z2Nat.id.
  - do 3 f_equal. lia.
  - now rewrite take_app.
Qed.
Lemma ex_pc_ok : pycodec_ok ex_pc.
Proof.
  intros [l|n|s]; cbn [ex_pc dumps loads append]; auto.
  - rewrite rd_un_un. replace (rd_keys (List.length l) (text_keys l)) with (Some l); [reflexivity|].
    induction l as [|k l IH]; auto. cbn [List.length rd_keys text_keys fold_right]. rewrite rd_key_text. fold (text_keys l). now rewrite <- IH.
  - rewrite <- (str_app_nil (un n)), rd_un_un. reflexivity.
Qed.

(** *** The object *)
Definition exp_y (cons : list (pykey * Z)) (term : list pykey) : @PyParams IE :=
  @mkPy IE "SquaredLoss" 4 (z64 1) 5 10 (z64 0) (z64 1) (z64 0) (z64 0) (z64 1) (z64 3) 2 true false cons (z64 1) (z64 1) (z64 1) (z64 1) 7%N
    (fnan IOps64) true None "DepthWise" None None true term "None" 0 "Gain" false.
Definition exp_rows : list (list b64) := [[z64 5; z64 7]; [z64 1; z64 7]; [fnan IOps64; z64 8]; [z64 3; z64 7]; [z64 2; z64 8]].
Definition exp_a : pykey := KStr "a".
Definition exp_b : pykey := KStr "b".
Definition exp_X : @Frame IE := @mkFrame IE (Some [exp_a; exp_b]) exp_rows 2.
Definition exp_swapped : @Frame IE := @mkFrame IE (Some [exp_b; exp_a]) exp_rows 2.
Definition exp_t : list b64 := exb_y.
Definition exp_w : option (list b64) := Some ex_sw.
Notation exp_init y := (@py_new IE ex_pc y).
Notation exp_fit m X t := (@py_fit IE ex_pc exb_env m X t exp_w None).
Definition exp_new (y : @PyParams IE) : @PyModel IE :=
  match exp_init y with inl m => m | inr _ => @mkPyModel IE (exb_new None true) y None None end.
Definition exp_out (m : @PyModel IE) (X : @Frame IE) (t : list b64) : @PyModel IE := match exp_fit m X t with Some (r, _) => r | None => m end.
Definition raised (r : option (@PyModel IE * option PyErr)) : option (option PyErr) := option_map snd r.
Definition fails {A} (r : res A) : option PyErr := match r with Some (inr e) => Some e | _ => None end.
Definition answers {A} (r : res A) : bool := match r with Some (inl _) => true | _ => false end.
Lemma exp_new_ok : forall y, match exp_init y with inl _ => true | inr _ => false end = true -> exp_init y = inl (exp_new y).
Proof. intros y. unfold exp_new. destruct (exp_init y); [reflexivity|discriminate]. Qed.
Lemma exp_fit_ok : forall m X t e, raised (exp_fit m X t) = Some e -> exp_fit m X t = Some (exp_out m X t, e).
Proof. intros m X t e. unfold exp_out. destruct (exp_fit m X t) as [[r e']|]; simpl; [intros [= ->]; reflexivity|discriminate]. Qed.

Definition exp_one : @PyParams IE := exp_y [(exp_b, 1%Z)] [exp_a].
Definition exp_m : @PyModel IE := exp_out (exp_new exp_one) exp_X exp_t.
Example exp_trained : exp_init exp_one = inl (exp_new exp_one) /\ exp_fit (exp_new exp_one) exp_X exp_t = Some (exp_m, None) /\
  map (@List.length _) (gb_trees (py_booster exp_m)) = [7; 7; 7; 7] /\ py_names exp_m = Some [exp_a; exp_b].
Proof.
  split; [apply exp_new_ok; vm_compute; reflexivity|]. split; [apply exp_fit_ok; vm_compute; reflexivity|]. split; vm_compute; reflexivity.
Qed.
