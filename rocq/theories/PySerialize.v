(** The serializers offered to users: /repo/py-forust/forust/serialize.py ("ser"). *)
From Coq Require Import List Arith ZArith Bool String Ascii Lia.
From Verif Require Import Prelude PyWrap.
Import ListNotations.
Local Open Scope string_scope.

(** *** ScalerSerializer on strings: ser:29-38 *)
Definition quote_char : ascii := "'".
Definition scaler_serialize (s : string) : string := String quote_char (s ++ String quote_char EmptyString).

(** ast.literal_eval on Python source made of strings in single quotes: adjacent literals are joined; a string ends at
    the next quote, may not contain a line break, and a backslash starts an escape.  Only the escapes for a backslash, a single or double quote and "n" are
    modelled; source outside this fragment, like any syntax error, gives None. *)
Definition newline : ascii := ascii_of_nat 10.
Definition return_char : ascii := ascii_of_nat 13.
Definition null_char : ascii := ascii_of_nat 0.
Definition backslash : ascii := ascii_of_nat 92.
Definition escape (c : ascii) : option ascii :=
  if Ascii.eqb c backslash then Some backslash else if Ascii.eqb c quote_char then Some quote_char
  else if Ascii.eqb c (ascii_of_nat 34) then Some (ascii_of_nat 34) else if Ascii.eqb c "n" then Some newline else None.
Inductive mode := Outside | Inside | Escaped.
Fixpoint literal (m : mode) (s : string) : option string :=
  match s with
  | EmptyString => match m with Outside => Some EmptyString | _ => None end
  | String c r =>
      match m with
      | Outside => if Ascii.eqb c quote_char then literal Inside r
                   else if Ascii.eqb c " " then literal Outside r else None
      | Inside => if Ascii.eqb c quote_char then literal Outside r
                  else if Ascii.eqb c backslash then literal Escaped r
                  else if (Ascii.eqb c newline || Ascii.eqb c return_char || Ascii.eqb c null_char)%bool then None
                  else let* t := literal Inside r in Some (String c t)
      | Escaped => let* e := escape c in let* t := literal Inside r in Some (String e t)
      end
  end.
Definition scaler_deserialize (s : string) : option string :=
  match s with
  | String c _ => if Ascii.eqb c quote_char then literal Outside s else None
  | EmptyString => None
  end.

Fixpoint plain_text (s : string) : bool :=
  match s with
  | EmptyString => true
  | String c r => (negb (Ascii.eqb c quote_char || Ascii.eqb c backslash || Ascii.eqb c newline || Ascii.eqb c return_char || Ascii.eqb c null_char)
                   && plain_text r)%bool
  end.
Lemma literal_plain : forall s, plain_text s = true -> literal Inside (s ++ String quote_char EmptyString) = Some s.
Proof.
  induction s as [|c s IH]; intros H; [reflexivity|]. cbn [plain_text] in H. apply andb_true_iff in H. destruct H as [H1 H2]. apply negb_true_iff in H1.
  repeat (apply orb_false_iff in H1; let H := fresh in destruct H1 as [H1 H]). cbn [append literal].
  rewrite H1, H, H0, H3, H4. cbn [orb]. rewrite (IH H2). reflexivity.
Qed.
Theorem scaler_round_trip : forall s, plain_text s = true -> scaler_deserialize (scaler_serialize s) = Some s.
Proof. intros s H. unfold scaler_deserialize, scaler_serialize. rewrite Ascii.eqb_refl. cbn [literal]. rewrite Ascii.eqb_refl. now apply literal_plain. Qed.

(** *** NumpySerializer: ser:61-75.  An array is its shape and its elements in C order. *)
Section Numpy.
Context {A : Type}.
Record NArray := mkArray { a_shape : list nat; a_items : list A }.
Definition volume (shape : list nat) : nat := fold_right Nat.mul 1 shape.
Definition array_ok (a : NArray) : Prop := List.length (a_items a) = volume (a_shape a).
(** nested lists: what tolist() returns and what json reads *)
Inductive nested := Item (x : A) | NList (l : list nested).
(** obj.tolist(): split the elements into shape[0] lists, and so on; the element itself for shape () *)
Fixpoint chunks (n k : nat) (l : list A) : list (list A) := match n with 0 => [] | S n => firstn k l :: chunks n k (skipn k l) end.
Fixpoint tolist (shape : list nat) (items : list A) : option nested :=
  match shape with
  | [] => let* x := nth_error items 0 in Some (Item x)
  | n :: rest => let* l := mapM (tolist rest) (chunks n (volume rest) items) in Some (NList l)
  end.
(** np.array(nested): the shape is read along the first elements, and every list must agree with it *)
Fixpoint array_shape (x : nested) : list nat :=
  match x with Item _ => [] | NList l => List.length l :: match l with [] => [] | y :: _ => array_shape y end end.
Fixpoint fits (shape : list nat) (x : nested) : bool :=
  match x, shape with
  | Item _, [] => true
  | NList l, n :: rest => ((List.length l =? n)%nat && forallb (fits rest) l)%bool
  | _, _ => false
  end.
Fixpoint elements (x : nested) : list A := match x with Item a => [a] | NList l => flat_map elements l end.
Definition np_array (x : nested) : option NArray :=
  let shape := array_shape x in if fits shape x then Some (mkArray shape (elements x)) else None.
Definition reshape (shape : list nat) (a : NArray) : option NArray :=
  if (List.length (a_items a) =? volume shape)%nat then Some (mkArray shape (a_items a)) else None.
(** The data class; dtype is kept as text and used again, so it does not appear here. *)
Definition numpy_serialize (a : NArray) : option (nested * list nat) := let* l := tolist (a_shape a) (a_items a) in Some (l, a_shape a).
Definition numpy_deserialize (d : nested * list nat) : option NArray :=
  let* a := np_array (fst d) in
  match snd d with [_] => Some a | shape => reshape shape a end.

(** induction over nested lists *)
Lemma chunks_spec : forall n k l, List.length l = n * k -> List.concat (chunks n k l) = l /\ List.length (chunks n k l) = n /\ Forall (fun c => List.length c = k) (chunks n k l).
Proof.
  induction n as [|n IH]; intros k l H; simpl in *; [destruct l; [auto|discriminate]|].
  destruct (IH k (skipn k l)) as (E1 & E2 & E3); [rewrite skipn_length; lia|]. rewrite E1, E2, firstn_skipn. split; [auto|]. split; [auto|].
  constructor; auto. rewrite firstn_length. lia.
Qed.
Lemma tolist_spec : forall shape items, List.length items = volume shape ->
  exists x, tolist shape items = Some x /\ elements x = items /\ fits shape x = true /\
    (volume shape <> 0 -> array_shape x = shape) /\ fits (array_shape x) x = true.
Proof.
  induction shape as [|n rest IH]; intros items H; simpl in H.
  - destruct items as [|a [|b l]]; try discriminate. simpl. exists (Item a). auto.
  - simpl. destruct (chunks_spec n (volume rest) items H) as (E1 & E2 & E3).
    assert (M : forall cs, Forall (fun c => List.length c = volume rest) cs -> exists l, mapM (tolist rest) cs = Some l /\ List.length l = List.length cs /\
      flat_map elements l = List.concat cs /\ Forall (fun x => fits rest x = true) l /\
      Forall (fun x => (volume rest <> 0 -> array_shape x = rest) /\ fits (array_shape x) x = true) l).
    { induction cs as [|c cs IHc]; intros F; [exists []; simpl; auto|]. inversion F; subst. destruct (IH c) as (x & EX & X1 & X2 & X3 & X4); auto.
      destruct IHc as (l & E & L1 & L2 & L3 & L4); auto. simpl. rewrite EX, E. simpl. eexists. split; [reflexivity|]. simpl. rewrite L1, L2, X1. repeat split; auto. }
    destruct (M _ E3) as (l & -> & L1 & L2 & L3 & L4). simpl. eexists. split; [reflexivity|]. simpl. rewrite L1, E2, L2, E1, Nat.eqb_refl. simpl.
    assert (FL : forallb (fits rest) l = true). { apply forallb_forall. rewrite Forall_forall in L3. auto. }
    split; [auto|]. split; [auto|]. rewrite <- E2. destruct l as [|y l'] eqn:EL.
    + simpl. simpl in L1. split; [|reflexivity]. rewrite <- L1. simpl. congruence.
    + split.
      * intros NZ. f_equal. inversion L4 as [|? ? [Y _] _]; subst. apply Y. intros Z. rewrite Z in NZ. simpl in NZ. lia.
      * (* every list has the shape of the first *)
        clear - L3 L4 IH. inversion L4 as [|? ? [Y1 Y2] L4']; subst. inversion L3 as [|? ? Y3 L3']; subst. apply forallb_forall. intros z Hz.
        assert (S : forall s x y, fits s x = true -> fits s y = true -> fits (array_shape x) x = true -> fits (array_shape x) y = true); [|].
        2:{ apply (S rest y z); auto. rewrite Forall_forall in L3. auto. }
        clear. induction s as [|n s IH]; intros x y; destruct x as [a|la]; destruct y as [b|lb]; simpl; try discriminate; auto.
        rewrite !andb_true_iff, !Nat.eqb_eq, !forallb_forall. intros [<- H1] [H2 H3] [_ H4]. split; [auto|]. destruct la as [|xa la].
        -- simpl in H2. destruct lb; [|discriminate]. simpl. tauto.
        -- intros z Hz. apply (IH xa z); auto; [apply H1; left; auto|apply H4; left; auto].
Qed.
Theorem numpy_round_trip : forall a, array_ok a -> exists d, numpy_serialize a = Some d /\ numpy_deserialize d = Some a.
Proof.
  intros [shape items] H. unfold array_ok in H. simpl in H. unfold numpy_serialize. simpl. destruct (tolist_spec shape items H) as (x & E & X1 & X2 & X3 & X4).
  rewrite E. simpl. eexists. split; [reflexivity|]. unfold numpy_deserialize, np_array. simpl. rewrite X4, X1. simpl.
  assert (R : reshape shape (mkArray (array_shape x) items) = Some (mkArray shape items)).
  { unfold reshape. simpl. rewrite H, Nat.eqb_refl. reflexivity. }
  destruct shape as [|n [|k rest]]; auto. f_equal. f_equal. destruct n as [|n]; [|apply X3; simpl; lia].
  simpl in E. injection E as <-. reflexivity.
Qed.
End Numpy.
Arguments NArray : clear implicits.
Arguments nested : clear implicits.
