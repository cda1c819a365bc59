(** C32 (arrays), and the array parts of C31 and C14. *)
From Coq Require Import List ZArith Bool Lia.
From Verif Require Import VarModel.
Import ListNotations.

Section S.
Context {T : Type} (teq : T -> T -> bool) (dflt : T).
Notation ary := (ary T). Notation avar := (avar T). Notation aop := (aop T).

(** What a client can see of an array: one optional value per index. *)
Definition vis (a : ary) : list (option T) :=
  map (fun p : bool * T => if fst p then Some (snd p) else None) (combine (a_known a) (a_cont a)).

(** The two vectors of the representation have the same length. *)
Definition wf (a : ary) : Prop := length (a_known a) = length (a_cont a).

(** ** List facts *)

Lemma nth_listSet_eq : forall A (l : list A) i x, i < length l -> nth_error (listSet l i x) i = Some x.
Proof. induction l; intros [|i] x; cbn; intros H; try lia; auto. apply IHl. lia. Qed.

Lemma nth_listSet_ne : forall A (l : list A) i j x, i <> j -> nth_error (listSet l i x) j = nth_error l j.
Proof. induction l; intros [|i] [|j] x; cbn; intros H; auto; try congruence. Qed.

Lemma len_listSet : forall A (l : list A) i x, length (listSet l i x) = length l.
Proof. induction l; intros [|i] x; cbn; auto. Qed.

Lemma len_vecResize : forall A (l : list A) n x, length (vecResize l n x) = n.
Proof.
  intros. unfold vecResize. rewrite app_length, repeat_length, firstn_length. lia.
Qed.

Lemma nth_vecResize : forall A (l : list A) n x i,
  nth_error (vecResize l n x) i =
  (if Nat.ltb i n then (if Nat.ltb i (length l) then nth_error l i else Some x) else None).
Proof.
  intros A l n x i. destruct (Nat.ltb_spec i n).
  - unfold vecResize. destruct (Nat.ltb_spec i (length l)).
    + rewrite nth_error_app1 by (rewrite firstn_length; lia).
      revert i n H H0. clear. induction l; intros [|i] [|n]; cbn; intros; try lia; auto. apply IHl; lia.
    + rewrite nth_error_app2 by (rewrite firstn_length; lia).
      rewrite firstn_length. rewrite Nat.min_r by lia.
      apply nth_error_repeat. lia.
  - apply nth_error_None. rewrite len_vecResize. lia.
Qed.

Lemma list_ext : forall A (l k : list A), (forall i, nth_error l i = nth_error k i) -> l = k.
Proof.
  induction l as [|x l IH]; intros [|y k] H; auto; try (specialize (H 0); discriminate).
  pose proof (H 0) as H0. cbn in H0. injection H0 as ->. f_equal. apply IH. intros i. apply (H (S i)).
Qed.

Lemma nth_vis : forall (a : ary) i,
  nth_error (vis a) i =
  match nth_error (a_known a) i, nth_error (a_cont a) i with
  | Some k, Some x => Some (if k then Some x else None)
  | _, _ => None
  end.
Proof.
  intros [k c] i. unfold vis; cbn. revert c i.
  induction k as [|b k IH]; intros [|x c] [|i]; cbn; auto.
  destruct (nth_error k i); auto.
Qed.

Lemma len_vis : forall a, wf a -> length (vis a) = arySize a.
Proof. intros a H. unfold vis, arySize. rewrite map_length, combine_length, <- H. lia. Qed.

Lemma ltb_some : forall A (l : list A) i, Nat.ltb i (length l) = true -> exists x, nth_error l i = Some x.
Proof.
  intros A l i H. apply Nat.ltb_lt in H. destruct (nth_error l i) eqn:E; eauto.
  apply nth_error_None in E. lia.
Qed.

Lemma aryGet_vis : forall a i, wf a ->
  aryGet i a = Ok (match nth_error (vis a) i with Some (Some x) => Some x | _ => None end).
Proof.
  intros a i Hw. unfold aryGet, checkIndex, arySize, vecGet. rewrite nth_vis.
  destruct (Nat.ltb i (length (a_known a))) eqn:E.
  - destruct (ltb_some _ _ _ E) as (k & Ek). rewrite Hw in E. destruct (ltb_some _ _ _ E) as (x & Ex).
    rewrite Ek, Ex. cbn. destruct k; auto.
  - apply Nat.ltb_ge in E. apply nth_error_None in E. rewrite E. auto.
Qed.

Lemma vecSet_ok : forall A (l : list A) i x, i < length l -> vecSet l i x = Ok (listSet l i x).
Proof. intros. unfold vecSet. destruct (Nat.ltb_spec i (length l)); auto; lia. Qed.

Definition aSet (a : ary) i x : ary := {| a_known := listSet (a_known a) i true; a_cont := listSet (a_cont a) i x |}.
Definition aUnset (a : ary) i : ary := {| a_known := listSet (a_known a) i false; a_cont := a_cont a |}.

Lemma arySet_in : forall a i x, wf a -> i < arySize a -> arySet i x a = Ok (aSet a i x).
Proof.
  intros a i x Hw Hi. unfold arySet, checkIndex. destruct (Nat.ltb_spec i (arySize a)); [|lia].
  unfold arySize in *. rewrite vecSet_ok by (rewrite <- Hw; lia). cbn. rewrite vecSet_ok by lia. reflexivity.
Qed.

Lemma arySetUnknown_in : forall a i, i < arySize a -> arySetUnknown i a = Ok (aUnset a i).
Proof.
  intros a i Hi. unfold arySetUnknown, checkIndex. destruct (Nat.ltb_spec i (arySize a)); [|lia].
  unfold arySize in *. rewrite vecSet_ok by lia. reflexivity.
Qed.

Lemma vis_aSet : forall a i x, wf a -> vis (aSet a i x) = listSet (vis a) i (Some x).
Proof.
  intros a i x Hw. apply list_ext. intros j. rewrite nth_vis. unfold aSet; cbn.
  destruct (Nat.eq_dec i j) as [->|Hne].
  - destruct (Nat.lt_ge_cases j (arySize a)) as [Hl|Hl].
    + pose proof Hw as Hw'. unfold wf in Hw'. unfold arySize in Hl.
      rewrite !nth_listSet_eq; auto; try (rewrite len_vis; auto); try (unfold arySize); lia.
    + assert (E : nth_error (listSet (a_known a) j true) j = None)
        by (apply nth_error_None; rewrite len_listSet; exact Hl).
      rewrite E. symmetry. apply nth_error_None. rewrite len_listSet, len_vis; auto.
  - rewrite !nth_listSet_ne by auto. rewrite nth_vis. reflexivity.
Qed.

Lemma vis_aUnset : forall a i, wf a -> vis (aUnset a i) = listSet (vis a) i None.
Proof.
  intros a i Hw. apply list_ext. intros j. rewrite nth_vis. unfold aUnset; cbn.
  destruct (Nat.eq_dec i j) as [->|Hne].
  - destruct (Nat.lt_ge_cases j (arySize a)) as [Hl|Hl].
    + assert (Hl' := Hl). unfold arySize in Hl'. rewrite Hw in Hl'.
      destruct (ltb_some _ (a_cont a) j) as (x & Ex); [apply Nat.ltb_lt; auto|].
      rewrite !nth_listSet_eq, Ex; auto. rewrite len_vis; auto.
    + assert (E : nth_error (listSet (a_known a) j false) j = None)
        by (apply nth_error_None; rewrite len_listSet; exact Hl).
      rewrite E. symmetry. apply nth_error_None. rewrite len_listSet, len_vis; auto.
  - rewrite !nth_listSet_ne by auto. rewrite nth_vis. reflexivity.
Qed.

Lemma wf_aSet : forall a i x, wf a -> wf (aSet a i x).
Proof. intros a i x H. unfold wf, aSet; cbn. rewrite !len_listSet. exact H. Qed.
Lemma wf_aUnset : forall a i, wf a -> wf (aUnset a i).
Proof. intros a i H. unfold wf, aUnset; cbn. rewrite !len_listSet. exact H. Qed.
Lemma wf_resize : forall a n, wf (aryResize dflt n a).
Proof. intros. unfold wf, aryResize; cbn. rewrite !len_vecResize. reflexivity. Qed.
Lemma wf_reset : forall a, wf a -> wf (aryReset a).
Proof. intros a H. unfold wf, aryReset; cbn. rewrite map_length. exact H. Qed.
Lemma wf_new : forall n, wf (newAry dflt n).
Proof. intros. unfold wf, newAry; cbn. rewrite !repeat_length. reflexivity. Qed.
Lemma wf_of : forall l, wf (aryOf l).
Proof. intros. unfold wf, aryOf; cbn. rewrite repeat_length. reflexivity. Qed.

Lemma vis_resize : forall a n, wf a -> vis (aryResize dflt n a) = vecResize (vis a) n None.
Proof.
  intros a n Hw. apply list_ext. intros i. rewrite nth_vis. unfold aryResize; cbn.
  rewrite !nth_vecResize, nth_vis, len_vis, <- Hw by auto. unfold arySize.
  destruct (Nat.ltb i n); auto. destruct (Nat.ltb i (length (a_known a))); auto.
Qed.

Lemma vis_reset : forall a, wf a -> vis (aryReset a) = repeat None (arySize a).
Proof.
  intros [k c] Hw. unfold wf in Hw; cbn in Hw. unfold vis, aryReset, arySize; cbn.
  revert c Hw. induction k as [|b k IH]; intros [|x c] Hw; cbn in *; try discriminate; auto.
  f_equal. apply IH. lia.
Qed.

Lemma vis_new : forall n, vis (newAry dflt n) = repeat None n.
Proof. intros. unfold vis, newAry; cbn. induction n; cbn; congruence. Qed.

Lemma vis_of : forall l, vis (aryOf l) = map Some l.
Proof. unfold vis, aryOf; cbn. induction l; cbn; congruence. Qed.

Lemma size_vis : forall a, wf a -> arySize a = length (vis a).
Proof. intros. symmetry. apply len_vis; auto. Qed.

(** ** C32: one array under any history of its public operations *)

Inductive eop :=
| EWrite (i : nat) (x : option T)   (* setElementValue, or setElement when x is known *)
| ESet (i : nat) (x : T)            (* setElement *)
| EUnset (i : nat)                  (* setElementUnknown: plan error outside the bounds *)
| EResize (n : nat)
| EReset.

Definition estep (o : eop) (a : ary) : res ary :=
  match o with
  | EWrite i x => arySetValue i x a
  | ESet i x => arySet i x a
  | EUnset i => arySetUnknown i a
  | EResize n => Ok (aryResize dflt n a)
  | EReset => Ok (aryReset a)
  end.

(** A call that raises a plan error leaves the array as it was. *)
Definition ekeep (a : ary) (r : res ary) : ary := match r with Ok b => b | _ => a end.

Fixpoint erun (h : list eop) (a : ary) : ary :=   (* newest first *)
  match h with
  | [] => a
  | o :: t => ekeep (erun t a) (estep o (erun t a))
  end.

(** Specification: size and element [i] after a history (newest first). *)
Fixpoint esize (h : list eop) (n0 : nat) : nat :=
  match h with
  | [] => n0
  | EResize n :: _ => n
  | _ :: t => esize t n0
  end.

Fixpoint eat (h : list eop) (l0 : list (option T)) (i : nat) : option T :=
  match h with
  | [] => nth i l0 None
  | EWrite j x :: t => if Nat.eqb i j && Nat.ltb i (esize t (length l0)) then x else eat t l0 i
  | ESet j x :: t => if Nat.eqb i j && Nat.ltb i (esize t (length l0)) then Some x else eat t l0 i
  | EUnset j :: t => if Nat.eqb i j then None else eat t l0 i
  | EResize n :: t => if Nat.ltb i n then eat t l0 i else None
  | EReset :: t => None
  end.

Lemma vis_at : forall a i, match nth_error (vis a) i with Some (Some x) => Some x | _ => None end = nth i (vis a) None.
Proof.
  intros. generalize (vis a) as l. intros l. revert i.
  induction l; intros [|i]; cbn; auto. destruct a0; auto.
Qed.

Lemma nth_listSet : forall (l : list (option T)) j x i,
  nth i (listSet l j x) None = (if Nat.eqb i j && Nat.ltb i (length l) then x else nth i l None).
Proof.
  induction l as [|y l IH]; intros [|j] x [|i]; cbn; auto.
  - rewrite andb_false_r; auto.
  - rewrite IH. destruct (Nat.eqb i j); cbn; auto.
Qed.

Lemma nth_resize : forall (l : list (option T)) n i,
  nth i (vecResize l n None) None = (if Nat.ltb i n then nth i l None else None).
Proof.
  intros. rewrite <- !nth_default_eq. unfold nth_default. rewrite nth_vecResize.
  destruct (Nat.ltb i n); auto. destruct (Nat.ltb_spec i (length l)); auto.
  assert (E : nth_error l i = None) by (apply nth_error_None; lia). rewrite E. auto.
Qed.

Lemma nth_rep_none : forall n i, nth i (repeat (@None T) n) None = None.
Proof. induction n; intros [|i]; cbn; auto. Qed.

Lemma erun_spec : forall h a0, wf a0 ->
  wf (erun h a0) /\ arySize (erun h a0) = esize h (arySize a0)
  /\ forall i, nth i (vis (erun h a0)) None = eat h (vis a0) i.
Proof.
  induction h as [|o h IH]; intros a0 Hw.
  - cbn. auto.
  - destruct (IH a0 Hw) as (W & S & V). cbn [erun]. set (a := erun h a0) in *.
    rewrite <- (len_vis _ Hw) in S.
    assert (Hout : forall i, arySize a <= i -> nth i (vis a) None = None).
    { intros i Hi. apply nth_overflow. rewrite len_vis; auto. }
    destruct o as [j x|j x|j|n|]; cbn [estep].
    + cbn [esize eat]. unfold arySetValue, checkIndex. destruct (Nat.ltb_spec j (arySize a)) as [Hj|Hj].
      * destruct x as [x|].
        -- rewrite vecSet_ok by (rewrite <- W; exact Hj). cbn [bind].
           rewrite vecSet_ok by exact Hj. cbn [bind ekeep]. fold (aSet a j x).
           split; [apply wf_aSet; auto|]. split; [rewrite size_vis by (apply wf_aSet; auto); rewrite vis_aSet, len_listSet, len_vis; auto; rewrite S, len_vis; auto|].
           intros i. rewrite vis_aSet, nth_listSet by auto. rewrite len_vis, S by auto. rewrite <- V. reflexivity.
        -- rewrite vecSet_ok by exact Hj. cbn [bind ekeep]. fold (aUnset a j).
           split; [apply wf_aUnset; auto|]. split; [rewrite size_vis by (apply wf_aUnset; auto); rewrite vis_aUnset, len_listSet, len_vis; auto; rewrite S, len_vis; auto|].
           intros i. rewrite vis_aUnset, nth_listSet by auto. rewrite len_vis, S by auto. rewrite <- V. reflexivity.
      * cbn [ekeep]. split; auto. split; [rewrite S, len_vis; auto|]. intros i. rewrite V.
        destruct (Nat.eqb_spec i j) as [->|]; cbn [andb]; auto. destruct (Nat.ltb_spec j (esize h (length (vis a0)))); [lia|auto].
    + cbn [esize eat]. destruct (Nat.lt_ge_cases j (arySize a)) as [Hj|Hj].
      * rewrite arySet_in by auto. cbn [ekeep].
        split; [apply wf_aSet; auto|]. split; [rewrite size_vis by (apply wf_aSet; auto); rewrite vis_aSet, len_listSet, len_vis; auto; rewrite S, len_vis; auto|].
        intros i. rewrite vis_aSet, nth_listSet by auto. rewrite len_vis, S by auto. rewrite <- V. reflexivity.
      * unfold arySet, checkIndex. destruct (Nat.ltb_spec j (arySize a)); [lia|]. cbn [ekeep].
        split; auto. split; [rewrite S, len_vis; auto|]. intros i. rewrite V.
        destruct (Nat.eqb_spec i j) as [->|]; cbn [andb]; auto. destruct (Nat.ltb_spec j (esize h (length (vis a0)))); [lia|auto].
    + cbn [esize eat]. destruct (Nat.lt_ge_cases j (arySize a)) as [Hj|Hj].
      * rewrite arySetUnknown_in by auto. cbn [ekeep].
        split; [apply wf_aUnset; auto|]. split; [rewrite size_vis by (apply wf_aUnset; auto); rewrite vis_aUnset, len_listSet, len_vis; auto; rewrite S, len_vis; auto|].
        intros i. rewrite vis_aUnset, nth_listSet by auto. rewrite <- V, len_vis by auto.
        destruct (Nat.eqb_spec i j) as [->|]; cbn [andb]; auto. destruct (Nat.ltb_spec j (arySize a)); auto.
      * unfold arySetUnknown, checkIndex. destruct (Nat.ltb_spec j (arySize a)); [lia|]. cbn [ekeep].
        split; auto. split; [rewrite S, len_vis; auto|]. intros i. rewrite <- V.
        destruct (Nat.eqb_spec i j) as [->|]; cbn [andb]; auto.
    + cbn [ekeep esize eat]. split; [apply wf_resize|]. split.
      * rewrite size_vis by apply wf_resize. rewrite vis_resize, len_vecResize; auto.
      * intros i. rewrite vis_resize, nth_resize, V; auto.
    + cbn [ekeep esize eat]. split; [apply wf_reset; auto|]. split.
      * rewrite size_vis by (apply wf_reset; auto). rewrite vis_reset, repeat_length, S, len_vis; auto.
      * intros i. rewrite vis_reset, nth_rep_none; auto.
Qed.

(** C32: for every history of an array created with any contents, reading any
    index (inside or outside the bounds) yields exactly the last value written
    to that index while it was within the bounds, unknown if there is none
    (out of bounds, never written, made unknown, or truncated since);
    no operation accesses memory outside the array. *)
Theorem C32_array_history : forall (l0 : list T) h i,
  let a := erun h (aryOf l0) in
  aryGet i a = Ok (eat h (map Some l0) i) /\ arySize a = esize h (length l0).
Proof.
  intros l0 h i. cbn zeta. destruct (erun_spec h (aryOf l0) (wf_of l0)) as (W & S & V).
  split.
  - rewrite aryGet_vis, vis_at, V, vis_of by auto. reflexivity.
  - rewrite S. f_equal. unfold arySize, aryOf; cbn. apply repeat_length.
Qed.

Theorem C32_unknown_array_history : forall n h i,
  let a := erun h (newAry dflt n) in
  aryGet i a = Ok (eat h (repeat None n) i) /\ arySize a = esize h n.
Proof.
  intros n h i. cbn zeta. destruct (erun_spec h (newAry dflt n) (wf_new n)) as (W & S & V).
  split.
  - rewrite aryGet_vis, vis_at, V, vis_new by auto. reflexivity.
  - rewrite S. f_equal. unfold arySize, newAry; cbn. apply repeat_length.
Qed.

(** No call ever has undefined behaviour, and the only plan error is making an
    element outside the bounds unknown. *)
Theorem C32_calls_are_safe : forall (l0 : list T) h o,
  let a := erun h (aryOf l0) in
  estep o a <> Crash
  /\ (estep o a = PlanErr <-> exists i, o = EUnset i /\ esize h (length l0) <= i)
  /\ (forall i, (elementKnown i a = PlanErr <-> esize h (length l0) <= i) /\ elementKnown i a <> Crash).
Proof.
  intros l0 h o. cbn zeta. destruct (erun_spec h (aryOf l0) (wf_of l0)) as (W & S & V).
  assert (E0 : arySize (aryOf l0) = length l0) by (unfold arySize, aryOf; cbn; apply repeat_length).
  rewrite E0 in S. rewrite <- S. set (a := erun h (aryOf l0)) in *. clearbody a. clear - W.
  split; [|split].
  - destruct o as [j x|j x|j|n|]; cbn [estep]; try discriminate.
    + unfold arySetValue, checkIndex. destruct (Nat.ltb_spec j (arySize a)); [|discriminate].
      unfold arySize in *. destruct x; [rewrite vecSet_ok by (rewrite <- W; lia); cbn [bind]|];
        rewrite vecSet_ok by lia; discriminate.
    + destruct (Nat.lt_ge_cases j (arySize a)); [rewrite arySet_in by auto; discriminate|].
      unfold arySet, checkIndex. destruct (Nat.ltb_spec j (arySize a)); [lia|discriminate].
    + destruct (Nat.lt_ge_cases j (arySize a)); [rewrite arySetUnknown_in by auto; discriminate|].
      unfold arySetUnknown, checkIndex. destruct (Nat.ltb_spec j (arySize a)); [lia|discriminate].
  - destruct o as [j x|j x|j|n|]; cbn [estep]; split; try (intros (i & E & _); discriminate); try discriminate.
    + unfold arySetValue, checkIndex. destruct (Nat.ltb_spec j (arySize a)); [|discriminate].
      unfold arySize in *. destruct x; [rewrite vecSet_ok by (rewrite <- W; lia); cbn [bind]|];
        rewrite vecSet_ok by lia; discriminate.
    + destruct (Nat.lt_ge_cases j (arySize a)); [rewrite arySet_in by auto; discriminate|].
      unfold arySet, checkIndex. destruct (Nat.ltb_spec j (arySize a)); [lia|discriminate].
    + destruct (Nat.lt_ge_cases j (arySize a)); [rewrite arySetUnknown_in by auto; discriminate|].
      intros _. eauto.
    + intros (i & E & Hi). injection E as <-. unfold arySetUnknown, checkIndex.
      destruct (Nat.ltb_spec j (arySize a)); [lia|auto].
  - intros i. unfold elementKnown, checkIndex, vecGet. destruct (Nat.ltb_spec i (arySize a)).
    + unfold arySize in H. apply Nat.ltb_lt in H. destruct (ltb_some _ _ _ H) as (k & ->).
      apply Nat.ltb_lt in H. unfold arySize. split; [split; [discriminate|lia]|discriminate].
    + split; [tauto|discriminate].
Qed.

(** C32, reading an element through an expression array[index]: the element if
    it is within the bounds and known; unknown if index, array or element is
    unknown; a plan error exactly when the index is negative or (for a known
    array) at or beyond the size. *)
Theorem C32_element_reference : forall (idx : option Z) (a : option ary),
  (forall x, a = Some x -> wf x) ->
  arefRead idx a =
  match idx, a with
  | None, _ => Ok None
  | Some z, None => if (z <? 0)%Z then PlanErr else Ok None
  | Some z, Some x =>
      if (z <? 0)%Z then PlanErr
      else match nth_error (vis x) (Z.to_nat z) with
           | None => PlanErr
           | Some e => Ok e
           end
  end.
Proof.
  intros [z|] [x|] Hw; cbn [arefRead]; auto. specialize (Hw x eq_refl).
  destruct (z <? 0)%Z; auto. unfold checkIndex. set (i := Z.to_nat z).
  destruct (Nat.ltb_spec i (arySize x)) as [H|H].
  - rewrite aryGet_vis by auto. rewrite nth_vis. unfold vecGet.
    assert (H' := H). unfold arySize in H'. apply Nat.ltb_lt in H'. destruct (ltb_some _ _ _ H') as (k & ->).
    rewrite Hw in H'. destruct (ltb_some _ _ _ H') as (y & ->). cbn. destruct k; reflexivity.
  - assert (E : nth_error (vis x) i = None) by (apply nth_error_None; rewrite len_vis; auto).
    rewrite E. reflexivity.
Qed.

(** ** Array variables: specification (newest call first) *)

Fixpoint adepth (h : list aop) : nat :=
  match h with
  | [] => 0
  | AAct _ _ :: t => S (adepth t)
  | ADeact :: t => pred (adepth t)
  | _ :: t => adepth t
  end.

(** Pad with unknown elements up to the declared size. *)
Definition pad (m : nat) (l : list (option T)) : list (option T) := l ++ repeat None (m - length l).

(** [m]: declared size (0 if none declared). *)
Section ASpec.
Variables (m : nat) (hasSize hasInit : bool).

Fixpoint acur (h : list aop) : option (list (option T)) :=
  match h with
  | [] => None
  | AAct _ iv :: t =>
      if Nat.eqb (adepth t) 0
      then if hasInit then option_map (fun a => pad m (vis a)) iv
           else if hasSize && negb (Nat.eqb m 0) then Some (repeat None m) else None
      else acur t
  | ADeact :: t => acur t
  | ASet x :: t => option_map (fun a => pad m (vis a)) x
  | ASetUnknown :: t => None
  | ASave :: t => acur t
  | ASetElem i x :: t => option_map (fun l => listSet l i x) (acur t)
  | ASetElemUnknown i :: t => option_map (fun l => listSet l i None) (acur t)
  | ARestore :: t =>
      (fix asaved (h : list aop) : option (list (option T)) :=
         match h with [] => None | ASave :: t => acur t | _ :: t => asaved t end) t
  end.

Fixpoint asaved (h : list aop) : option (list (option T)) :=
  match h with [] => None | ASave :: t => acur t | _ :: t => asaved t end.

(** Number of writes since the last save (None: no save since activation). *)
Fixpoint writes (h : list aop) : option nat :=
  match h with
  | [] => None
  | ASave :: _ => Some 0
  | AAct _ _ :: t => if Nat.eqb (adepth t) 0 then None else writes t
  | ADeact :: t => writes t
  | _ :: t => option_map S (writes t)
  end.

(** Each restore follows a save with at most one write in between, which is how
    an assignment node uses the variable. *)
Fixpoint disciplined (h : list aop) : Prop :=
  match h with
  | [] => True
  | ARestore :: t => (exists n, writes t = Some n /\ n <= 1) /\ disciplined t
  | _ :: t => disciplined t
  end.

(** All size expressions evaluate to [m]; the arrays assigned are proper; whole
    arrays are assigned only while the variable is active. *)
Fixpoint argsok (h : list aop) : Prop :=
  match h with
  | [] => True
  | AAct sz iv :: t => (hasSize = true -> sz = Some (Z.of_nat m))
                       /\ (forall a, iv = Some a -> wf a) /\ argsok t
  | ASet x :: t => (forall a, x = Some a -> wf a) /\ 0 < adepth t /\ argsok t
  | _ :: t => argsok t
  end.
End ASpec.

Fixpoint runa (h : list aop) (v : avar) : res avar :=
  match h with
  | [] => Ok v
  | o :: t => bind (runa t v) (fun v1 => bind (avStep teq dflt o v1) (fun p => Ok (fst p)))
  end.

Lemma acur_restore : forall m s i t, acur m s i (ARestore :: t) = asaved m s i t.
Proof.
  intros m s b t. cbn [acur]. induction t as [|o t IH]; [reflexivity|]. destruct o; cbn [asaved]; auto.
Qed.

Definition visOf (known : bool) (a : option ary) : option (list (option T)) :=
  if known then option_map vis a else None.

Definition wfo (a : option ary) : Prop := forall x, a = Some x -> wf x.

Record AInv (m : nat) (s b : bool) (h : list aop) (v : avar) : Prop := {
  ai_cfg : av_hasSize v = s /\ av_init v = b;
  ai_max : if s then (0 < adepth h -> av_max v = m) else av_max v = 0;
  ai_m0 : s = false -> m = 0;
  ai_count : av_count v = adepth h;
  ai_wf : wfo (av_value v) /\ wfo (av_svalue v);
  ai_len : s = true -> forall a, av_value v = Some a -> arySize a <= m;
  ai_slen : s = true -> forall a, av_svalue v = Some a -> arySize a <= m;
  ai_alloc : (av_known v = true -> av_value v <> None)
             /\ (av_sknown v = true -> av_svalue v <> None /\ av_value v <> None);
  ai_cur : visOf (av_known v) (av_value v) = acur m s b h;
  ai_saved : visOf (av_sknown v) (av_svalue v) = asaved m s b h;
  ai_w0 : writes h = Some 0 -> av_sknown v = av_known v /\ (av_sknown v = true -> av_svalue v = av_value v);
  ai_w1 : writes h = Some 1 -> av_sknown v = true -> av_known v = false -> av_value v = av_svalue v
}.

Hypothesis teq_ok : forall x y, teq x y = true -> x = y.

Lemma aryEq_ok : forall a b, aryEq teq a b = true -> a = b.
Proof.
  intros [k c] [k' c']. unfold aryEq; cbn.
  destruct (listEq eqb k k') eqn:E1; [|discriminate]. intros E2. f_equal.
  - revert k' E1. clear. induction k; intros [|y k'] E; cbn in E; try discriminate; auto.
    apply andb_true_iff in E as [E1 E2]. apply eqb_prop in E1. f_equal; auto.
  - revert c' E2. induction c; intros [|y c'] E; cbn in E; try discriminate; auto.
    apply andb_true_iff in E as [E3 E4]. f_equal; auto.
Qed.

Lemma pad_resize : forall (a : ary) mx, wf a -> arySize a < mx -> vis (aryResize dflt mx a) = pad mx (vis a).
Proof.
  intros a mx Hw Hl. rewrite vis_resize by auto. unfold vecResize, pad.
  rewrite firstn_all2; auto. rewrite len_vis; auto. lia.
Qed.

Lemma pad_id : forall mx (l : list (option T)), mx <= length l -> pad mx l = l.
Proof. intros. unfold pad. replace (mx - length l) with 0 by lia. apply app_nil_r. Qed.

(** The outcome of setValueImpl. *)
Lemma avSetImpl_spec : forall a v v' p,
  wf a -> wfo (av_value v) ->
  avSetImpl teq dflt a v = Ok (v', p) ->
  exists a', v' = avWith v true (Some a') /\ wf a' /\ vis a' = pad (av_max v) (vis a)
             /\ (av_hasSize v = true -> arySize a' = av_max v)
             /\ (av_hasSize v = true -> arySize a <= av_max v).
Proof.
  intros a v v' p Hw Hv E. unfold avSetImpl in E.
  destruct (negb (av_hasSize v) || (arySize a <=? av_max v)) eqn:Eg; [|discriminate].
  assert (Hsz : av_hasSize v = true -> arySize a <= av_max v).
  { intros Hs. rewrite Hs in Eg. apply Nat.leb_le. exact Eg. }
  set (val := match av_value v with
              | Some old => if aryEq teq a old then (old, negb (av_known v)) else (a, true)
              | None => (a, true) end) in *.
  assert (Eval : fst val = a).
  { unfold val. destruct (av_value v); auto. destruct (aryEq teq a a0) eqn:Ee; auto.
    symmetry. apply aryEq_ok; auto. }
  destruct val as [x ch]. cbn in Eval. subst x. injection E as <- <-.
  destruct (Nat.ltb_spec (arySize a) (av_max v)) as [Hl|Hl].
  - exists (aryResize dflt (av_max v) a). split; auto. split; [apply wf_resize|].
    split; [apply pad_resize; auto|]. split; auto. intros _.
    unfold arySize, aryResize; cbn. apply len_vecResize.
  - exists a. split; auto. split; auto. split; [rewrite pad_id; auto; rewrite len_vis; auto|].
    split; auto. intros Hs. specialize (Hsz Hs). lia.
Qed.

Lemma AInv_setUnknown : forall m s b h v v' p o,
  AInv m s b h v -> avSetUnknown v = (v', p) -> o = ASet None \/ o = ASetUnknown ->
  AInv m s b (o :: h) v'.
Proof.
  intros m s b h v v' p o HI E Ho.
  destruct HI as [[Hs Hb] Hmax Hm0 Hc [Hw1 Hw2] Hl Hsl [Ha1 Ha2] Hcur Hsav H0 H1].
  assert (EW : writes (o :: h) = option_map S (writes h)) by (destruct Ho; subst; auto).
  assert (EC : acur m s b (o :: h) = None) by (destruct Ho; subst; auto).
  assert (ES : asaved m s b (o :: h) = asaved m s b h) by (destruct Ho; subst; auto).
  assert (ED : adepth (o :: h) = adepth h) by (destruct Ho; subst; auto).
  unfold avSetUnknown in E. destruct (av_known v) eqn:Ek; injection E as <- <-.
  - split; rewrite ?EW, ?EC, ?ES, ?ED; unfold avWith;
      cbn [av_count av_known av_value av_sknown av_svalue av_hasSize av_max av_init]; auto.
    + destruct (writes h) as [n|]; cbn; discriminate.
    + destruct (writes h) as [[|n]|]; cbn; try discriminate. intros _ Hk _.
      symmetry. apply H0; auto.
  - split; rewrite ?EW, ?EC, ?ES, ?ED; auto.
    + rewrite Ek. split; [discriminate|auto].
    + rewrite Ek. reflexivity.
    + destruct (writes h) as [n|]; cbn; discriminate.
    + destruct (writes h) as [[|n]|]; cbn; try discriminate. intros _ Hk _.
      destruct H0 as [H0 _]; auto. congruence.
Qed.

Lemma AInv_setElem : forall m s b h v a' a i x v' o,
  AInv m s b h v -> av_value v = Some a ->
  (o = ASetElem i x \/ o = ASetElemUnknown i /\ x = None) ->
  (v' = v \/ v' = avWith v (av_known v) (Some a')) -> av_value v' = Some a' ->
  wf a' -> vis a' = listSet (vis a) i x ->
  AInv m s b (o :: h) v'.
Proof.
  intros m s b h v a' a i x v' o HI Ea Ho Ev Ev' W V.
  destruct HI as [[Hs Hb] Hmax Hm0 Hc [Hw1 Hw2] Hl Hsl [Ha1 Ha2] Hcur Hsav H0 H1].
  assert (EW : writes (o :: h) = option_map S (writes h)) by (destruct Ho as [->|[-> ->]]; auto).
  assert (EC : acur m s b (o :: h) = option_map (fun l => listSet l i x) (acur m s b h))
    by (destruct Ho as [->|[-> ->]]; auto).
  assert (ES : asaved m s b (o :: h) = asaved m s b h) by (destruct Ho as [->|[-> ->]]; auto).
  assert (ED : adepth (o :: h) = adepth h) by (destruct Ho as [->|[-> ->]]; auto).
  assert (E1 : av_count v' = av_count v /\ av_known v' = av_known v /\ av_sknown v' = av_sknown v
     /\ av_svalue v' = av_svalue v /\ av_hasSize v' = av_hasSize v /\ av_max v' = av_max v /\ av_init v' = av_init v)
    by (destruct Ev as [->| ->]; repeat split).
  destruct E1 as (E1 & E2 & E3 & E4 & E5 & E6 & E7).
  split; rewrite ?EW, ?EC, ?ES, ?ED, ?E1, ?E2, ?E3, ?E4, ?E5, ?E6, ?E7, ?Ev'; auto.
  - split; auto. intros y Hy. injection Hy as <-. auto.
  - intros Hss y Hy. injection Hy as <-. rewrite size_vis, V, len_listSet, len_vis; auto.
  - split; [discriminate|]. intros Hk. split; [apply Ha2; auto|discriminate].
  - rewrite <- Hcur, Ea. destruct (av_known v); cbn; auto. rewrite V. reflexivity.
  - destruct (writes h) as [n|]; cbn; discriminate.
  - destruct (writes h) as [[|n]|]; cbn; try discriminate. intros _ Hk Hk'.
    destruct H0 as [H0 _]; auto. congruence.
Qed.

Lemma AInv_step : forall m s b h v o v' p,
  AInv m s b h v -> argsok m s (o :: h) -> disciplined (o :: h) ->
  avStep teq dflt o v = Ok (v', p) -> AInv m s b (o :: h) v'.
Proof.
  intros m s b h v o v' p HI HA HD E.
  destruct o as [sz iv| |x| | | |i x|i]; cbn [avStep] in E.
  - (* activate *)
    destruct HI as [[Hs Hb] Hmax Hm0 Hc [Hw1 Hw2] Hl Hsl [Ha1 Ha2] Hcur Hsav H0 H1].
    destruct HA as (HA1 & HA2 & _).
    unfold avActivate in E. rewrite Hc in E. destruct (Nat.eqb (adepth h) 0) eqn:Ed.
    + apply Nat.eqb_eq in Ed. rewrite Hs in E.
      assert (EV : exists v1, (if s then match sz with
               | Some z => if (z <? 0)%Z then PlanErr else Ok {| av_count := 1; av_known := av_known v; av_value := av_value v;
                    av_sknown := av_sknown v; av_svalue := av_svalue v;
                    av_hasSize := s; av_max := Z.to_nat z; av_init := av_init v |}
               | None => Ok {| av_count := 1; av_known := av_known v; av_value := av_value v;
                    av_sknown := av_sknown v; av_svalue := av_svalue v;
                    av_hasSize := s; av_max := av_max v; av_init := av_init v |}
               end else Ok {| av_count := 1; av_known := av_known v; av_value := av_value v;
                    av_sknown := av_sknown v; av_svalue := av_svalue v;
                    av_hasSize := s; av_max := av_max v; av_init := av_init v |}) = Ok v1
              /\ v1 = {| av_count := 1; av_known := av_known v; av_value := av_value v;
                    av_sknown := av_sknown v; av_svalue := av_svalue v;
                    av_hasSize := s; av_max := m; av_init := av_init v |}).
      { destruct s.
        - rewrite (HA1 eq_refl). destruct (Z.ltb_spec (Z.of_nat m) 0); [lia|].
          rewrite Nat2Z.id. eexists; split; reflexivity.
        - rewrite Hmax, (Hm0 eq_refl). eexists; split; reflexivity. }
      destruct EV as (v1 & EV & Ev1). rewrite EV in E. cbn [bind] in E. clear EV. subst v1.
      cbn [av_init av_hasSize av_max av_value] in E. rewrite Hb in E.
      destruct b.
      * destruct iv as [a|].
        -- destruct (s && negb (arySize a <=? m)); [discriminate|].
           apply avSetImpl_spec in E; [|auto|cbn; auto].
           destruct E as (a' & -> & W & V & S1 & S2). cbn in S1, S2, V |- *.
           split; unfold avWith; cbn [av_count av_known av_value av_sknown av_svalue av_hasSize av_max av_init]; auto.
           ++ destruct s; auto.
           ++ cbn. auto.
           ++ split; [intros y Hy; injection Hy as <-; auto|auto].
           ++ intros Hss y Hy. injection Hy as <-. rewrite (S1 Hss). auto.
           ++ split; [intros _; discriminate|]. intros Hk. split; [apply Ha2; auto|discriminate].
           ++ cbn. rewrite Ed. cbn. rewrite V. reflexivity.
           ++ cbn. rewrite Ed. cbn. discriminate.
           ++ cbn. rewrite Ed. cbn. discriminate.
        -- injection E as <- <-.
           split; unfold avWith; cbn [av_count av_known av_value av_sknown av_svalue av_hasSize av_max av_init]; auto.
           ++ destruct s; auto.
           ++ cbn. auto.
           ++ split; [discriminate|auto].
           ++ cbn. rewrite Ed. reflexivity.
           ++ cbn. rewrite Ed. cbn. discriminate.
           ++ cbn. rewrite Ed. cbn. discriminate.
      * destruct (s && negb (m =? 0)) eqn:Eg.
        -- apply andb_true_iff in Eg as [-> Eg]. apply negb_true_iff, Nat.eqb_neq in Eg.
           assert (EX : exists a', v' = avWith {| av_count := 1; av_known := av_known v; av_value := av_value v;
                    av_sknown := av_sknown v; av_svalue := av_svalue v;
                    av_hasSize := true; av_max := m; av_init := false |} true (Some a')
                    /\ wf a' /\ vis a' = repeat None m).
           { destruct (av_value v) as [a|] eqn:Ea; injection E as <- <-; eexists; (split; [reflexivity|]).
             - specialize (Hw1 a eq_refl). specialize (Hl eq_refl a eq_refl).
               assert (Hsz : arySize (aryReset a) = arySize a) by (unfold arySize, aryReset; cbn; apply map_length).
               rewrite Hsz. destruct (Nat.ltb_spec (arySize a) m).
               + split; [apply wf_resize|]. rewrite vis_resize by (apply wf_reset; auto).
                 rewrite vis_reset by auto. apply list_ext. intros i. rewrite nth_vecResize, repeat_length.
                 destruct (Nat.ltb_spec i m).
                 * assert (En : nth_error (repeat (@None T) m) i = Some None) by (apply nth_error_repeat; auto).
                   rewrite En. destruct (Nat.ltb_spec i (arySize a)); auto.
                   apply nth_error_repeat; auto.
                 * symmetry. apply nth_error_None. rewrite repeat_length; auto.
               + split; [apply wf_reset; auto|]. rewrite vis_reset by auto. f_equal. lia.
             - split; [apply wf_new|apply vis_new]. }
           destruct EX as (a' & -> & W & V).
           split; unfold avWith; cbn [av_count av_known av_value av_sknown av_svalue av_hasSize av_max av_init]; auto.
           ++ cbn. auto.
           ++ split; [intros y Hy; injection Hy as <-; auto|auto].
           ++ intros _ y Hy. injection Hy as <-. rewrite size_vis, V, repeat_length by auto. auto.
           ++ split; [intros _; discriminate|]. intros Hk. split; [apply Ha2; auto|discriminate].
           ++ cbn. rewrite Ed. cbn. destruct (Nat.eqb_spec m 0); [lia|]. cbn. rewrite V. reflexivity.
           ++ cbn. rewrite Ed. cbn. discriminate.
           ++ cbn. rewrite Ed. cbn. discriminate.
        -- injection E as <- <-.
           split; unfold avWith; cbn [av_count av_known av_value av_sknown av_svalue av_hasSize av_max av_init]; auto.
           ++ destruct s; auto.
           ++ cbn. auto.
           ++ split; [discriminate|auto].
           ++ cbn. rewrite Ed. cbn. rewrite Eg. reflexivity.
           ++ cbn. rewrite Ed. cbn. discriminate.
           ++ cbn. rewrite Ed. cbn. discriminate.
    + injection E as <- <-.
      split; cbn [av_count av_known av_value av_sknown av_svalue av_hasSize av_max av_init]; auto.
      * destruct s; auto. intros _. apply Hmax. apply Nat.eqb_neq in Ed. lia.
      * cbn. rewrite Ed. auto.
      * cbn. rewrite Ed. auto.
      * cbn. rewrite Ed. auto.
  - (* deactivate *)
    destruct HI as [[Hs Hb] Hmax Hm0 Hc [Hw1 Hw2] Hl Hsl [Ha1 Ha2] Hcur Hsav H0 H1].
    unfold avDeactivate in E. destruct (av_count v) as [|n] eqn:En; [discriminate|]. injection E as <- <-.
    split; cbn [av_count av_known av_value av_sknown av_svalue av_hasSize av_max av_init]; auto.
    + destruct s; auto. cbn. intros. apply Hmax. lia.
    + cbn. rewrite <- Hc. auto.
  - (* set *)
    destruct HI as [[Hs Hb] Hmax Hm0 Hc [Hw1 Hw2] Hl Hsl [Ha1 Ha2] Hcur Hsav H0 H1].
    destruct HA as (HA1 & HA2 & _).
    destruct x as [a|]; cbn [avSet] in E.
    + apply avSetImpl_spec in E; [|auto|auto].
      destruct E as (a' & -> & W & V & S1 & S2).
      assert (HX : av_max v = m).
      { rewrite Hs in *. destruct s; auto. rewrite Hmax, (Hm0 eq_refl). auto. }
      * split; unfold avWith; cbn [av_count av_known av_value av_sknown av_svalue av_hasSize av_max av_init]; auto.
        -- split; [intros y Hy; injection Hy as <-; auto|auto].
        -- intros Hss y Hy. injection Hy as <-. rewrite S1; [lia|congruence].
        -- split; [intros _; discriminate|]. intros Hk. split; [apply Ha2; auto|discriminate].
        -- cbn. rewrite V, HX. reflexivity.
        -- cbn. destruct (writes h) as [n|]; cbn; discriminate.
        -- cbn. intros _ _. discriminate.
    + injection E as E. eapply AInv_setUnknown; eauto. split; auto.
  - (* set unknown *)
    injection E as E. eapply AInv_setUnknown; eauto.
  - (* save *)
    destruct HI as [[Hs Hb] Hmax Hm0 Hc [Hw1 Hw2] Hl Hsl [Ha1 Ha2] Hcur Hsav H0 H1].
    unfold avSave in E. destruct (av_known v) eqn:Ek.
    + destruct (av_value v) as [a|] eqn:Ea; [|discriminate]. cbn in E. injection E as <- <-.
      split; cbn [av_count av_known av_value av_sknown av_svalue av_hasSize av_max av_init]; auto.
    + cbn in E. injection E as <- <-.
      split; cbn [av_count av_known av_value av_sknown av_svalue av_hasSize av_max av_init]; auto.
      * split; [discriminate|]. discriminate.
      * cbn. split; [auto|discriminate].
      * cbn. discriminate.
  - (* restore *)
    destruct HI as [[Hs Hb] Hmax Hm0 Hc [Hw1 Hw2] Hl Hsl [Ha1 Ha2] Hcur Hsav H0 H1].
    destruct HD as ((n & Hn & Hle) & _).
    assert (HW : writes (ARestore :: h) = Some (S n)) by (cbn; rewrite Hn; reflexivity).
    unfold avRestore in E. destruct (av_known v && av_sknown v) eqn:Ek.
    + apply andb_true_iff in Ek as [Ek Es].
      destruct (av_value v) as [a|] eqn:Ea; [|discriminate].
      destruct (av_svalue v) as [sv|] eqn:Ev; [|discriminate].
      assert (EX : v' = avWith v true (Some sv)).
      { rewrite Es in E. destruct (aryEq teq a sv) eqn:Ee; injection E as <- _; auto.
        apply aryEq_ok in Ee. congruence. }
      rewrite EX.
      split; unfold avWith; rewrite ?HW, ?acur_restore; cbn [av_count av_known av_value av_sknown av_svalue av_hasSize av_max av_init]; rewrite ?Ev; auto.
      * split; [discriminate|]. intros _. split; discriminate.
      * rewrite <- Hsav, Es. reflexivity.
    + injection E as <- _.
      assert (Hval : av_sknown v = true -> av_value v = av_svalue v).
      { intros Es. rewrite Es, andb_true_r in Ek. destruct n as [|[|n]]; [|auto|lia].
        destruct (H0 Hn) as [Hx _]. congruence. }
      split; unfold avWith; rewrite ?HW, ?acur_restore; cbn [av_count av_known av_value av_sknown av_svalue av_hasSize av_max av_init]; auto.
      * split; [intros Hk; apply Ha2; auto|auto].
      * rewrite <- Hsav. destruct (av_sknown v); auto. rewrite Hval; auto.
      * discriminate.
  - (* set element *)
    pose proof HI as HI0. destruct HI as [[Hs Hb] Hmax Hm0 Hc [Hw1 Hw2] Hl Hsl [Ha1 Ha2] Hcur Hsav H0 H1].
    unfold avSetElem in E. destruct (av_value v) as [a|] eqn:Ea; [|discriminate].
    specialize (Hw1 a eq_refl). rewrite aryGet_vis in E by auto. cbn [bind] in E.
    assert (EX : exists a', (v' = v \/ v' = avWith v (av_known v) (Some a')) /\ av_value v' = Some a'
                  /\ wf a' /\ vis a' = listSet (vis a) i x).
    { assert (Hsame : nth_error (vis a) i = None \/ nth_error (vis a) i = Some x -> listSet (vis a) i x = vis a).
      { intros Hx. apply list_ext. intros j. destruct (Nat.eq_dec i j) as [->|Hne].
        - destruct Hx as [Hx|Hx].
          + rewrite Hx. apply nth_error_None. rewrite len_listSet. apply nth_error_None; auto.
          + rewrite Hx. apply nth_listSet_eq. apply nth_error_Some. congruence.
        - apply nth_listSet_ne; auto. }
      assert (HIN : forall e, nth_error (vis a) i = Some e -> i < arySize a).
      { intros e He. rewrite size_vis by auto. apply nth_error_Some. congruence. }
      destruct x as [y|].
      - destruct (nth_error (vis a) i) as [[z|]|] eqn:En.
        + destruct (teq y z) eqn:Et.
          * apply teq_ok in Et. subst. injection E as <- _. exists a. repeat split; auto. rewrite Hsame; auto.
          * rewrite arySet_in in E by eauto. injection E as <- _. exists (aSet a i y).
            split; [auto|]. split; [auto|]. split; [apply wf_aSet; auto|apply vis_aSet; auto].
        + rewrite arySet_in in E by eauto. injection E as <- _. exists (aSet a i y).
          split; [auto|]. split; [auto|]. split; [apply wf_aSet; auto|apply vis_aSet; auto].
        + unfold arySet, checkIndex in E. apply nth_error_None in En. rewrite len_vis in En by auto.
          destruct (Nat.ltb_spec i (arySize a)); [lia|]. injection E as <- _. exists a.
          repeat split; auto. rewrite Hsame; auto.
      - destruct (nth_error (vis a) i) as [[z|]|] eqn:En.
        + rewrite arySetUnknown_in in E by eauto. injection E as <- _. exists (aUnset a i).
          split; [auto|]. split; [auto|]. split; [apply wf_aUnset; auto|apply vis_aUnset; auto].
        + injection E as <- _. exists a. repeat split; auto. rewrite Hsame; auto.
        + injection E as <- _. exists a. repeat split; auto. rewrite Hsame; auto. }
    destruct EX as (a' & Ev & Eval & W & V).
    apply (AInv_setElem _ _ _ _ v a' a i x v'); auto.
  - (* set element unknown *)
    destruct (av_known v) eqn:Ek; unfold avSetElemUnknown in E; rewrite Ek in E.
    + destruct (av_value v) as [a|] eqn:Ea; [|discriminate].
      pose proof (proj1 (ai_wf _ _ _ _ _ HI) a Ea) as Wa.
      destruct (Nat.lt_ge_cases i (arySize a)) as [Hi|Hi].
      * rewrite arySetUnknown_in in E by auto. cbn in E. injection E as <- <-.
        apply (AInv_setElem _ _ _ _ v (aUnset a i) a i None _ (ASetElemUnknown i)); auto.
        -- right. rewrite Ek. reflexivity.
        -- apply wf_aUnset; auto.
        -- apply vis_aUnset; auto.
      * unfold arySetUnknown, checkIndex in E. destruct (Nat.ltb_spec i (arySize a)); [lia|discriminate].
    + injection E as <- <-.
      destruct HI as [[Hs Hb] Hmax Hm0 Hc [Hw1 Hw2] Hl Hsl [Ha1 Ha2] Hcur Hsav H0 H1].
      split; auto.
      * cbn. rewrite <- Hcur, Ek. reflexivity.
      * cbn. destruct (writes h) as [n|]; cbn; discriminate.
      * cbn. destruct (writes h) as [[|n]|]; cbn; try discriminate. intros _ Hk _.
        destruct H0 as [H0 _]; auto. congruence.
Qed.

Lemma AInv0 : forall m s b, (s = false -> m = 0) -> AInv m s b [] (newAVar s b).
Proof.
  intros m s b Hm. split; cbn; auto; try discriminate.
  - destruct s; auto. lia.
  - split; intros x Hx; discriminate.
  - split; discriminate.
Qed.

Lemma argsok_tl : forall m s o h, argsok m s (o :: h) -> argsok m s h.
Proof. intros m s o h H. destruct o; cbn in H; tauto. Qed.
Lemma disc_tl : forall (o : aop) h, disciplined (o :: h) -> disciplined h.
Proof. intros o h H. destruct o; cbn in H; tauto. Qed.

Lemma AInv_run : forall m s b h v,
  (s = false -> m = 0) -> argsok m s h -> disciplined h ->
  runa h (newAVar s b) = Ok v -> AInv m s b h v.
Proof.
  induction h as [|o h IH]; intros v Hm HA HD E.
  - injection E as <-. apply AInv0; auto.
  - cbn [runa] in E. destruct (runa h (newAVar s b)) as [v1| |] eqn:E1; try discriminate.
    cbn [bind] in E. destruct (avStep teq dflt o v1) as [[v2 p]| |] eqn:E2; try discriminate.
    injection E as <-. eapply AInv_step; eauto. apply IH; auto.
    + eapply argsok_tl; eauto.
    + eapply disc_tl; eauto.
Qed.

Lemma AInv_read : forall m s b h v, AInv m s b h v ->
  exists r, avRead v = Ok r
    /\ option_map vis r = (if Nat.eqb (adepth h) 0 then None else acur m s b h).
Proof.
  intros m s b h v HI. unfold avRead, avActive. rewrite (ai_count _ _ _ _ _ HI).
  pose proof (ai_cur _ _ _ _ _ HI) as Hc. pose proof (proj1 (ai_alloc _ _ _ _ _ HI)) as Ha.
  destruct (Nat.eqb (adepth h) 0); cbn [negb andb]; [eexists; split; reflexivity|].
  destruct (av_known v) eqn:Ek; cbn in Hc.
  - destruct (av_value v) as [a|]; [|exfalso; apply Ha; auto]. exists (Some a). auto.
  - exists None. auto.
Qed.

(** C31, array variables ([m]: the declared size, 0 if none): for every history
    in which restores are used as assignment nodes use them, reading yields the
    last array assigned since activation (padded with unknown elements to the
    declared size) with the element assignments made since, or the initial
    value, or unknown. (Element equality is assumed to be identity, so for Real
    arrays the statement is up to 0.0 = -0.0.) *)
Theorem C31_array_reads_partial : forall m hasSize hasInit h v,
  (hasSize = false -> m = 0) -> argsok m hasSize h -> disciplined h ->
  runa h (newAVar hasSize hasInit) = Ok v ->
  exists r, avRead v = Ok r
    /\ option_map vis r = (if Nat.eqb (adepth h) 0 then None else acur m hasSize hasInit h).
Proof. intros. eapply AInv_read. eapply AInv_run; eauto. Qed.

(** The only undefined behaviour: deactivating an inactive variable (an
    assertion failure) or assigning an element of an array that is unknown
    (element references check for this first). *)
Theorem C31_array_no_crash : forall m hasSize hasInit h v o,
  (hasSize = false -> m = 0) -> argsok m hasSize h -> disciplined h ->
  runa h (newAVar hasSize hasInit) = Ok v ->
  avStep teq dflt o v = Crash ->
  (o = ADeact /\ adepth h = 0)
  \/ (exists i x, o = ASetElem i x /\ acur m hasSize hasInit h = None).
Proof.
  intros m s b h v o Hm HA HD E HC. pose proof (AInv_run _ _ _ _ _ Hm HA HD E) as HI.
  destruct HI as [[Hs Hb] Hmax Hm0 Hc [Hw1 Hw2] Hl Hsl [Ha1 Ha2] Hcur Hsav H0 H1].
  assert (HSI : forall a w, avSetImpl teq dflt a w <> Crash).
  { intros a w. unfold avSetImpl. destruct (_ || _); [|discriminate].
    destruct (match av_value w with Some old => _ | None => _ end); discriminate. }
  assert (HSU : forall i (a : ary), arySetUnknown i a <> Crash).
  { intros i a. destruct (Nat.lt_ge_cases i (arySize a)); [rewrite arySetUnknown_in by auto; discriminate|].
    unfold arySetUnknown, checkIndex. destruct (Nat.ltb_spec i (arySize a)); [lia|discriminate]. }
  destruct o as [sz iv| |x| | | |i x|i]; cbn [avStep] in HC.
  - exfalso. unfold avActivate in HC. destruct (Nat.eqb (av_count v) 0); [|discriminate].
    destruct (av_hasSize v); [destruct sz as [z|]; [destruct (z <? 0)%Z; [discriminate|]|]|];
      cbn [bind av_init av_hasSize av_max av_value] in HC;
      (destruct (av_init v);
       [destruct iv as [a|]; [destruct (_ && negb (arySize a <=? _)); [discriminate|]; eapply HSI; eauto|discriminate]
       |destruct (_ && negb (_ =? 0)); [destruct (av_value v)|]; discriminate]).
  - left. unfold avDeactivate in HC. destruct (av_count v) eqn:En; [|discriminate]. auto.
  - exfalso. destruct x; cbn in HC; [eapply HSI; eauto|discriminate].
  - discriminate.
  - exfalso. unfold avSave in HC. destruct (av_known v) eqn:Ek; [|discriminate].
    destruct (av_value v); [discriminate|apply Ha1; auto].
  - exfalso. unfold avRestore in HC. destruct (av_known v && av_sknown v) eqn:Ek; [|discriminate].
    apply andb_true_iff in Ek as [Ek Es]. destruct (Ha2 Es) as [X Y].
    destruct (av_value v); [|congruence]. destruct (av_svalue v); [|congruence].
    destruct (aryEq teq a a0); discriminate.
  - right. exists i, x. split; auto. unfold avSetElem in HC. destruct (av_value v) as [a|] eqn:Ea.
    + exfalso. specialize (Hw1 a eq_refl). rewrite aryGet_vis in HC by auto. cbn [bind] in HC.
      assert (HSE : forall y, arySet i y a <> Crash).
      { intros y. destruct (Nat.lt_ge_cases i (arySize a)); [rewrite arySet_in by auto; discriminate|].
        unfold arySet, checkIndex. destruct (Nat.ltb_spec i (arySize a)); [lia|discriminate]. }
      destruct x as [y|].
      * specialize (HSE y). destruct (nth_error (vis a) i) as [[z|]|]; [destruct (teq y z); [discriminate|]| |];
          destruct (arySet i y a); try discriminate; congruence.
      * specialize (HSU i a). destruct (nth_error (vis a) i) as [[z|]|]; try discriminate.
        destruct (arySetUnknown i a); try discriminate; congruence.
    + rewrite <- Hcur. destruct (av_known v); auto.
  - exfalso. unfold avSetElemUnknown in HC. destruct (av_known v) eqn:Ek; [|discriminate].
    destruct (av_value v); [|apply Ha1; auto]. specialize (HSU i a).
    destruct (arySetUnknown i a); try discriminate; congruence.
Qed.

(** C14 for a whole-array assignment: start ([ASave]), execute ([ASet x], any
    array or unknown), abort ([ARestore]): the array read is the original one. *)
Theorem C14_array_aborted : forall m hasSize hasInit h v1 v2 x,
  (hasSize = false -> m = 0) -> argsok m hasSize h -> disciplined h ->
  0 < adepth h -> (forall a, x = Some a -> wf a) ->
  runa h (newAVar hasSize hasInit) = Ok v1 ->
  runa (ARestore :: ASet x :: ASave :: h) (newAVar hasSize hasInit) = Ok v2 ->
  exists r1 r2, avRead v1 = Ok r1 /\ avRead v2 = Ok r2 /\ option_map vis r2 = option_map vis r1.
Proof.
  intros m s b h v1 v2 x Hm HA HD Hd Hx E1 E2.
  destruct (C31_array_reads_partial m s b h v1 Hm HA HD E1) as (r1 & R1 & V1).
  destruct (C31_array_reads_partial m s b (ARestore :: ASet x :: ASave :: h) v2 Hm) as (r2 & R2 & V2); auto.
  - cbn. auto.
  - cbn. split; auto. exists 1. auto.
  - exists r1, r2. split; auto. split; auto. rewrite V1, V2. cbn [adepth].
    destruct (Nat.eqb (adepth h) 0); reflexivity.
Qed.

Theorem C14_array_completed : forall m hasSize hasInit h v2 x,
  (hasSize = false -> m = 0) -> argsok m hasSize h -> disciplined h ->
  0 < adepth h -> (forall a, x = Some a -> wf a) ->
  runa (ASet x :: ASave :: h) (newAVar hasSize hasInit) = Ok v2 ->
  exists r2, avRead v2 = Ok r2 /\ option_map vis r2 = option_map (fun a => pad m (vis a)) x.
Proof.
  intros m s b h v2 x Hm HA HD Hd Hx E2.
  destruct (C31_array_reads_partial m s b (ASet x :: ASave :: h) v2 Hm) as (r2 & R2 & V2); auto.
  - cbn. auto.
  - exists r2. split; auto. rewrite V2. cbn [adepth]. destruct (Nat.eqb_spec (adepth h) 0); [lia|reflexivity].
Qed.

(** C14 for an element assignment array[index] := x: after start, execution and
    abort with an unchanged index, the array is as before, whatever the index
    (also unknown or outside the bounds). *)
Theorem C14_element_aborted : forall idx x (r r1 r2 r3 : mref T) p2 p3,
  wfo (av_value (mr_var r)) ->
  mrSave idx r = Ok r1 -> mrSet teq idx x r1 = Ok (r2, p2) -> mrRestore teq idx r2 = Ok (r3, p3) ->
  av_count (mr_var r3) = av_count (mr_var r) /\ av_known (mr_var r3) = av_known (mr_var r)
  /\ option_map vis (av_value (mr_var r3)) = option_map vis (av_value (mr_var r)).
Proof.
  intros idx x r r1 r2 r3 p2 p3 Hw E1 E2 E3.
  assert (HC : forall r' : mref T, av_count (mr_var r') = av_count (mr_var r) -> av_known (mr_var r') = av_known (mr_var r) ->
            mrCheck idx r' = mrCheck idx r).
  { intros r' A B. unfold mrCheck, avActive. rewrite A, B. reflexivity. }
  unfold mrSave in E1. destruct (mrCheck idx r) as [[i|]| |] eqn:EC; try discriminate; cbn [bind] in E1.
  2: { injection E1 as <-. unfold mrSet in E2. rewrite HC in E2 by reflexivity. cbn in E2. injection E2 as <- <-.
       unfold mrRestore in E3. rewrite HC in E3 by reflexivity. cbn in E3. injection E3 as <- <-. auto. }
  assert (HK : avActive (mr_var r) && av_known (mr_var r) = true).
  { unfold mrCheck in EC. destruct (avActive (mr_var r) && av_known (mr_var r)); auto; discriminate. }
  unfold avGetElem in E1. rewrite HK in E1.
  destruct (av_value (mr_var r)) as [a|] eqn:Ea; [|discriminate].
  specialize (Hw a eq_refl). rewrite aryGet_vis, vis_at in E1 by auto. cbn [bind] in E1. injection E1 as <-.
  unfold mrSet in E2. rewrite HC in E2 by reflexivity. cbn [bind mr_var] in E2.
  destruct (avSetElem teq i x (mr_var r)) as [[v2 q2]| |] eqn:ES; try discriminate. cbn in E2. injection E2 as <- <-.
  assert (HV2 : exists a2, av_value v2 = Some a2 /\ wf a2 /\ vis a2 = listSet (vis a) i x
            /\ av_count v2 = av_count (mr_var r) /\ av_known v2 = av_known (mr_var r)).
  { revert ES. clear - Ea Hw teq_ok. set (v := mr_var r) in *. clearbody v. clear r.
    intros ES. unfold avSetElem in ES. rewrite Ea in ES. rewrite aryGet_vis in ES by auto. cbn [bind] in ES.
    assert (Hsame : nth_error (vis a) i = None \/ nth_error (vis a) i = Some x -> listSet (vis a) i x = vis a).
    { intros Hx. apply list_ext. intros j. destruct (Nat.eq_dec i j) as [->|Hne].
      - destruct Hx as [Hx|Hx].
        + rewrite Hx. apply nth_error_None. rewrite len_listSet. apply nth_error_None; auto.
        + rewrite Hx. apply nth_listSet_eq. apply nth_error_Some. congruence.
      - apply nth_listSet_ne; auto. }
    assert (HIN : forall e, nth_error (vis a) i = Some e -> i < arySize a).
    { intros e He. rewrite size_vis by auto. apply nth_error_Some. congruence. }
    destruct x as [y|]; destruct (nth_error (vis a) i) as [[z|]|] eqn:En.
    - destruct (teq y z) eqn:Et.
      + apply teq_ok in Et. subst. injection ES as <- _. exists a. rewrite Hsame; auto.
      + rewrite arySet_in in ES by eauto. injection ES as <- _. exists (aSet a i y).
        rewrite vis_aSet by auto. repeat split; auto. apply wf_aSet; auto.
    - rewrite arySet_in in ES by eauto. injection ES as <- _. exists (aSet a i y).
      rewrite vis_aSet by auto. repeat split; auto. apply wf_aSet; auto.
    - unfold arySet, checkIndex in ES. apply nth_error_None in En. rewrite len_vis in En by auto.
      destruct (Nat.ltb_spec i (arySize a)); [lia|]. injection ES as <- _. exists a. rewrite Hsame; auto.
    - rewrite arySetUnknown_in in ES by eauto. injection ES as <- _. exists (aUnset a i).
      rewrite vis_aUnset by auto. repeat split; auto. apply wf_aUnset; auto.
    - injection ES as <- _. exists a. rewrite Hsame; auto.
    - injection ES as <- _. exists a. rewrite Hsame; auto. }
  destruct HV2 as (a2 & Ea2 & W2 & V2 & C2 & K2).
  unfold mrRestore in E3. rewrite HC in E3 by (cbn; auto). cbn [bind mr_saved mr_var mr_svalue mrWith] in E3.
  unfold avGetElem in E3.
  assert (HK2 : avActive v2 && av_known v2 = true) by (unfold avActive in *; rewrite C2, K2; auto).
  rewrite HK2, Ea2 in E3. rewrite aryGet_vis, vis_at in E3 by auto. cbn [bind] in E3.
  assert (Hback : nth i (vis a) None = nth i (vis a2) None -> vis a2 = vis a).
  { intros Hn. rewrite V2 in Hn |- *. apply list_ext. intros j. destruct (Nat.eq_dec i j) as [->|Hne].
    - destruct (Nat.lt_ge_cases j (length (vis a))) as [Hl|Hl].
      + rewrite nth_listSet, Nat.eqb_refl in Hn. apply Nat.ltb_lt in Hl. rewrite Hl in Hn. apply Nat.ltb_lt in Hl.
        cbn in Hn. rewrite nth_listSet_eq by auto. rewrite <- Hn. symmetry. apply nth_error_nth'. auto.
      + assert (En : nth_error (vis a) j = None) by (apply nth_error_None; auto).
        rewrite En. apply nth_error_None. rewrite len_listSet; auto.
    - apply nth_listSet_ne; auto. }
  destruct (optEq teq (nth i (vis a) None) (nth i (vis a2) None)) eqn:EO.
  - cbn in E3. injection E3 as <- <-. cbn. split; auto. split; auto. rewrite Ea2. cbn. f_equal. apply Hback.
    destruct (nth i (vis a) None), (nth i (vis a2) None); cbn in EO; try discriminate; auto.
    apply teq_ok in EO. congruence.
  - destruct (avSetElem teq i (nth i (vis a) None) v2) as [[v3 q3]| |] eqn:ES3; try discriminate.
    cbn in E3. injection E3 as <- <-. cbn.
    assert (Hin : i < length (vis a)).
    { destruct (Nat.lt_ge_cases i (length (vis a))) as [Hl|Hl]; auto.
      exfalso. rewrite nth_overflow in EO by auto. rewrite nth_overflow in EO by (rewrite V2, len_listSet; auto).
      discriminate. }
    assert (HV3 : av_count v3 = av_count v2 /\ av_known v3 = av_known v2 /\
       exists a3, av_value v3 = Some a3 /\ vis a3 = listSet (vis a2) i (nth i (vis a) None)).
    { unfold avSetElem in ES3. rewrite Ea2 in ES3. rewrite aryGet_vis, vis_at in ES3 by auto. cbn [bind] in ES3.
      assert (Hin2 : i < arySize a2) by (rewrite size_vis, V2, len_listSet by auto; auto).
      destruct (nth i (vis a) None) as [y|]; destruct (nth i (vis a2) None) as [z|]; cbn in EO.
      - rewrite EO in ES3. rewrite arySet_in in ES3 by auto. injection ES3 as <- _.
        split; auto. split; auto. exists (aSet a2 i y). split; auto. apply vis_aSet; auto.
      - rewrite arySet_in in ES3 by auto. injection ES3 as <- _.
        split; auto. split; auto. exists (aSet a2 i y). split; auto. apply vis_aSet; auto.
      - rewrite arySetUnknown_in in ES3 by auto. injection ES3 as <- _.
        split; auto. split; auto. exists (aUnset a2 i). split; auto. apply vis_aUnset; auto.
      - discriminate. }
    destruct HV3 as (C3 & K3 & a3 & Ea3 & V3). rewrite C3, K3, Ea3. split; auto. split; auto. cbn. f_equal.
    rewrite V3, V2. apply list_ext. intros j. destruct (Nat.eq_dec i j) as [->|Hne].
    + rewrite nth_listSet_eq by (rewrite len_listSet; auto). symmetry. apply nth_error_nth'. auto.
    + rewrite !nth_listSet_ne by auto. reflexivity.
Qed.

(** Executing array[i] := x with a valid index makes the element read x and
    leaves the others alone; outside the bounds nothing changes (silently). *)
Theorem C32_element_assignment : forall z x (r r2 : mref T) p a,
  av_value (mr_var r) = Some a -> wf a -> avActive (mr_var r) = true -> av_known (mr_var r) = true ->
  (0 <= z)%Z ->
  mrSet teq (Some z) x r = Ok (r2, p) ->
  exists a2, avRead (mr_var r2) = Ok (Some a2) /\ vis a2 = listSet (vis a) (Z.to_nat z) x
    /\ (Z.to_nat z < arySize a -> mrRead (Some z) r2 = Ok x)
    /\ (arySize a <= Z.to_nat z -> vis a2 = vis a)
    /\ (p = false -> vis a2 = vis a).
Proof.
  intros z x r r2 p a Ea Hw Hact Hk Hz E. set (i := Z.to_nat z) in *.
  unfold mrSet, mrCheck in E. rewrite Hact, Hk in E. cbn [andb] in E.
  destruct (Z.ltb_spec z 0); [lia|]. cbn [bind] in E. fold i in E.
  destruct (avSetElem teq i x (mr_var r)) as [[v2 q2]| |] eqn:ES; try discriminate. cbn in E. injection E as <- <-.
  cbn [mr_var mrWith].
  assert (Hout : length (vis a) <= i -> listSet (vis a) i x = vis a).
  { intros Hl. apply list_ext. intros j. destruct (Nat.eq_dec i j) as [->|Hne]; [|apply nth_listSet_ne; auto].
    assert (En : nth_error (vis a) j = None) by (apply nth_error_None; auto).
    rewrite En. apply nth_error_None. rewrite len_listSet; auto. }
  assert (HV2 : exists a2, av_value v2 = Some a2 /\ wf a2 /\ vis a2 = listSet (vis a) i x
            /\ av_count v2 = av_count (mr_var r) /\ av_known v2 = av_known (mr_var r)
            /\ (q2 = false -> vis a2 = vis a)).
  { revert ES Hact. clear - Ea Hw Hout teq_ok. set (v := mr_var r) in *. clearbody v. clear r.
    intros ES Hact. unfold avSetElem in ES. rewrite Ea in ES. rewrite aryGet_vis in ES by auto. cbn [bind] in ES.
    assert (Hsame : nth_error (vis a) i = None \/ nth_error (vis a) i = Some x -> listSet (vis a) i x = vis a).
    { intros [Hx|Hx].
      - apply Hout. apply nth_error_None; auto.
      - apply list_ext. intros j. destruct (Nat.eq_dec i j) as [->|Hne]; [|apply nth_listSet_ne; auto].
        rewrite Hx. apply nth_listSet_eq. apply nth_error_Some. congruence. }
    assert (HIN : forall e, nth_error (vis a) i = Some e -> i < arySize a).
    { intros e He. rewrite size_vis by auto. apply nth_error_Some. congruence. }
    destruct x as [y|]; destruct (nth_error (vis a) i) as [[zz|]|] eqn:En.
    - destruct (teq y zz) eqn:Et.
      + apply teq_ok in Et. subst. injection ES as <- <-. exists a. rewrite Hsame by auto. repeat split; auto.
      + rewrite arySet_in in ES by eauto. injection ES as <- <-. exists (aSet a i y).
        rewrite vis_aSet by auto. repeat split; auto. apply wf_aSet; auto. congruence.
    - rewrite arySet_in in ES by eauto. injection ES as <- <-. exists (aSet a i y).
      rewrite vis_aSet by auto. repeat split; auto. apply wf_aSet; auto. congruence.
    - unfold arySet, checkIndex in ES. apply nth_error_None in En. rewrite len_vis in En by auto.
      destruct (Nat.ltb_spec i (arySize a)); [lia|]. injection ES as <- <-. exists a. rewrite Hsame by auto. repeat split; auto.
    - rewrite arySetUnknown_in in ES by eauto. injection ES as <- <-. exists (aUnset a i).
      rewrite vis_aUnset by auto. repeat split; auto. apply wf_aUnset; auto. congruence.
    - injection ES as <- <-. exists a. rewrite Hsame by auto. repeat split; auto.
    - injection ES as <- <-. exists a. rewrite Hsame by auto. repeat split; auto. }
  destruct HV2 as (a2 & Ea2 & W2 & V2 & C2 & K2 & P2).
  assert (HR : avRead v2 = Ok (Some a2)).
  { unfold avRead, avActive in *. rewrite C2, K2, Hact, Hk, Ea2. reflexivity. }
  exists a2. split; auto. split; auto. split; [|split; auto].
  - intros Hi. unfold mrRead. cbn [mr_var mrWith]. rewrite HR. cbn [bind].
    rewrite C32_element_reference by (intros y Hy; injection Hy as <-; auto).
    destruct (Z.ltb_spec z 0); [lia|]. fold i. rewrite V2, nth_listSet_eq; auto. rewrite len_vis; auto.
  - intros Hi. rewrite V2. apply Hout. rewrite len_vis; auto.
Qed.

(** While an array variable stays active, an operation other than
    setElementUnknown that does not notify listeners has not changed what is read. *)
Theorem C31_array_no_missed_notification_partial : forall v o v',
  wfo (av_value v) -> (av_known v = true -> av_value v <> None) ->
  (forall a, o = ASet (Some a) -> wf a /\ (av_max v <= arySize a)) ->
  avActive v = true -> avActive v' = true -> (forall i, o <> ASetElemUnknown i) ->
  avStep teq dflt o v = Ok (v', false) ->
  visOf (av_known v) (av_value v) = visOf (av_known v') (av_value v').
Proof.
  intros v o v' Hw Hal Harg Ha Ha' Hne E.
  destruct o as [sz iv| |x| | | |i x|i]; cbn [avStep] in E.
  - unfold avActivate in E. unfold avActive in Ha. destruct (Nat.eqb (av_count v) 0); [discriminate|].
    injection E as <-. reflexivity.
  - unfold avDeactivate in E. destruct (av_count v); [discriminate|]. injection E as <-. reflexivity.
  - destruct x as [a|]; cbn [avSet] in E.
    + unfold avSetImpl in E. destruct (_ || _); [|discriminate].
      destruct (Harg a eq_refl) as [Wa La].
      destruct (Nat.ltb_spec (arySize a) (av_max v)); [lia|].
      destruct (av_value v) as [old|] eqn:Eo.
      * destruct (aryEq teq a old) eqn:Ee.
        -- injection E as <- E. rewrite Ha, andb_true_r in E. cbn. apply negb_false_iff in E. rewrite E. reflexivity.
        -- injection E as _ E. rewrite Ha in E. discriminate.
      * injection E as _ E. rewrite Ha in E. discriminate.
    + injection E as E. unfold avSetUnknown in E. destruct (av_known v) eqn:Ek; inversion E; subst; [congruence|].
      rewrite Ek. reflexivity.
  - injection E as E. unfold avSetUnknown in E. destruct (av_known v) eqn:Ek; inversion E; subst; [congruence|].
    rewrite Ek. reflexivity.
  - unfold avSave in E. destruct (av_known v) eqn:Ek.
    + destruct (av_value v) eqn:Ea; [|discriminate]. injection E as <-. cbn. reflexivity.
    + injection E as <-. cbn. reflexivity.
  - unfold avRestore in E. destruct (av_known v && av_sknown v) eqn:Ek.
    + apply andb_true_iff in Ek as [Ek Es]. rewrite Ek, Es in *.
      destruct (av_value v) as [a|]; [|discriminate]. destruct (av_svalue v) as [b|]; [|discriminate].
      destruct (aryEq teq a b); inversion E; subst; [reflexivity|congruence].
    + assert (E2 : negb (Bool.eqb (av_known v) (av_sknown v)) && avActive v = false) by (inversion E; reflexivity).
      inversion E; subst v'; clear E. rewrite Ha, andb_true_r in E2. apply negb_false_iff, eqb_prop in E2. cbn. rewrite E2. reflexivity.
  - unfold avSetElem in E. destruct (av_value v) as [a|] eqn:Ea; [|discriminate].
    destruct (aryGet i a) as [old| |]; try discriminate. cbn [bind] in E.
    destruct x as [y|]; destruct old as [z|].
    + destruct (teq y z); [injection E as <-; rewrite Ea; reflexivity|].
      destruct (arySet i y a); try discriminate; inversion E; subst; congruence.
    + destruct (arySet i y a); try discriminate; inversion E; subst; congruence.
    + destruct (arySetUnknown i a); try discriminate; inversion E; subst; congruence.
    + injection E as <-. rewrite Ea. reflexivity.
  - exfalso. eapply Hne; eauto.
Qed.
End S.

(** ** What the code gets wrong *)

Definition A2 (x y : nat) : ary nat := aryOf [x; y].

(** Making one element unknown through the array variable changes what readers
    see but notifies nobody. *)
Theorem C31_element_unknown_refuted :
  exists v v' : avar nat,
    runa Nat.eqb 0 [ASet (Some (A2 1 2)); AAct None None] (newAVar false false) = Ok v
    /\ avStep Nat.eqb 0 (ASetElemUnknown 0) v = Ok (v', false)
    /\ avActive v = true
    /\ visOf (av_known v) (av_value v) = Some [Some 1; Some 2]
    /\ visOf (av_known v') (av_value v') = Some [None; Some 2].
Proof. do 2 eexists. split; [reflexivity|]. split; [reflexivity|]. repeat split. Qed.

(** Restoring does not bring back the saved array if the variable was both
    overwritten and made unknown since: save [1;2], assign [8;9], set unknown,
    restore reads [8;9]. *)
Theorem C31_array_restore_refuted :
  exists v : avar nat,
    runa Nat.eqb 0 (rev [AAct None None; ASet (Some (A2 1 2)); ASave; ASet (Some (A2 8 9)); ASetUnknown; ARestore])
         (newAVar false false) = Ok v
    /\ visOf (av_known v) (av_value v) = Some [Some 8; Some 9].
Proof. eexists. split; reflexivity. Qed.

(** Reactivation with a smaller declared size leaves the old, larger array. *)
Theorem C31_array_shrink_refuted :
  exists v : avar nat,
    runa Nat.eqb 0 (rev [AAct (Some 3%Z) None; ADeact; AAct (Some 2%Z) None]) (newAVar true false) = Ok v
    /\ av_max v = 2
    /\ visOf (av_known v) (av_value v) = Some [None; None; None].
Proof. eexists. split; [reflexivity|]. repeat split. Qed.

(** Aborting array[i] := 5 after i has changed writes the saved element to the
    wrong place: [10;20] with i = 0 becomes [5;10] instead of [10;20]. *)
Theorem C14_element_index_changed_refuted :
  exists (r r1 r2 r3 : mref nat) p2 p3,
    avRead (mr_var r) = Ok (Some (A2 10 20))
    /\ mrSave (Some 0%Z) r = Ok r1
    /\ mrSet Nat.eqb (Some 0%Z) (Some 5) r1 = Ok (r2, p2)
    /\ mrRestore Nat.eqb (Some 1%Z) r2 = Ok (r3, p3)
    /\ avRead (mr_var r3) = Ok (Some (A2 5 10)).
Proof.
  exists {| mr_var := {| av_count := 1; av_known := true; av_value := Some (A2 10 20);
                         av_sknown := false; av_svalue := None; av_hasSize := false; av_max := 0; av_init := false |};
            mr_svalue := None; mr_saved := false |}.
  do 5 eexists. split; [reflexivity|]. split; [reflexivity|]. split; [reflexivity|]. split; reflexivity.
Qed.

(** A moved-from array still claims its elements are known but has no storage
    for them: reading element 0 reads outside the vector. *)
Theorem C32_moved_from_refuted :
  exists a : ary nat, aryGet 0 (snd (aryMove a)) = Crash /\ aryGet 0 a = Ok (Some 1).
Proof. exists (A2 1 2). split; reflexivity. Qed.

(** ** Non-vacuity *)

Definition ex_hist : list (aop nat) :=
  rev [AAct (Some 3%Z) None; ASetElem 1 (Some 7); ASave; ASet (Some (A2 1 2)); ARestore; ASetElem 0 (Some 4)].

Example C31_array_demo :
  argsok 3 true ex_hist /\ disciplined ex_hist
  /\ acur 3 true false ex_hist = Some [Some 4; Some 7; None]
  /\ exists v, runa Nat.eqb 0 ex_hist (newAVar true false) = Ok v
        /\ visOf (av_known v) (av_value v) = Some [Some 4; Some 7; None].
Proof.
  split; [|split; [|split]].
  - cbn. repeat split; auto; try discriminate. intros a H. injection H as <-. reflexivity.
  - cbn. split; auto. exists 1. split; auto.
  - reflexivity.
  - eexists. split; reflexivity.
Qed.

Example C32_demo :
  let h := rev [ESet 1 9; ESet 7 5; EResize 2; EResize 4; EWrite 3 (Some 6); EUnset 0; EUnset 4] in
  map (fun i => aryGet i (erun 0 h (aryOf [1; 2; 3]))) [0; 1; 2; 3; 4]
  = [Ok None; Ok (Some 9); Ok None; Ok (Some 6); Ok None]
  /\ map (eat h (map Some [1; 2; 3])) [0; 1; 2; 3; 4] = [None; Some 9; None; Some 6; None].
Proof. split; reflexivity. Qed.

Example C14_element_demo :
  exists (r r1 r2 r3 : mref nat) p2 p3,
    mrSave (Some 1%Z) r = Ok r1 /\ mrSet Nat.eqb (Some 1%Z) (Some 5) r1 = Ok (r2, p2)
    /\ mrRestore Nat.eqb (Some 1%Z) r2 = Ok (r3, p3)
    /\ avRead (mr_var r2) = Ok (Some (A2 10 5)) /\ avRead (mr_var r3) = Ok (Some (A2 10 20)).
Proof.
  exists {| mr_var := {| av_count := 1; av_known := true; av_value := Some (A2 10 20);
                         av_sknown := false; av_svalue := None; av_hasSize := false; av_max := 0; av_init := false |};
            mr_svalue := None; mr_saved := false |}.
  do 5 eexists. split; [reflexivity|]. split; [reflexivity|]. split; [reflexivity|]. split; reflexivity.
Qed.

(** Assumptions *)
Print Assumptions C32_array_history.
Print Assumptions C32_unknown_array_history.
Print Assumptions C32_calls_are_safe.
Print Assumptions C32_element_reference.
Print Assumptions C31_array_reads_partial.
Print Assumptions C31_array_no_crash.
Print Assumptions C14_array_aborted.
Print Assumptions C14_array_completed.
Print Assumptions C14_element_aborted.
Print Assumptions C32_element_assignment.
Print Assumptions C31_array_no_missed_notification_partial.
Print Assumptions C31_element_unknown_refuted.
Print Assumptions C31_array_restore_refuted.
Print Assumptions C31_array_shrink_refuted.
Print Assumptions C14_element_index_changed_refuted.
Print Assumptions C32_moved_from_refuted.
