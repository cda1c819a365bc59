(** C23: comparisons; choice of arithmetic operator. *)
From Verif Require Import OpModel OpSpec OrderProps.

(** * C23: comparisons *)
(** A well-formed operand: its value, when known, is of the expression's type (a Date or Duration
    is held as a Real). *)
Definition typed (a : earg) : Prop :=
  match ea_val a with
  | VUnk _ => True
  | VReal _ => ea_type a = REAL_TYPE \/ ea_type a = DATE_TYPE \/ ea_type a = DURATION_TYPE
  | v => ea_type a = vtype v
  end.
Definition unknown_arg (a : earg) : Prop := vknown (ea_val a) = false.
(** The types for which expressions exist. *)
Definition value_type (t : Z) : Prop :=
  In t [BOOLEAN_TYPE; INTEGER_TYPE; REAL_TYPE; STRING_TYPE; BOOLEAN_ARRAY_TYPE; INTEGER_ARRAY_TYPE; REAL_ARRAY_TYPE; STRING_ARRAY_TYPE;
        NODE_STATE_TYPE; OUTCOME_TYPE; FAILURE_TYPE; COMMAND_HANDLE_TYPE].
Definition order_type (t : Z) : Prop := In t [INTEGER_TYPE; REAL_TYPE; STRING_TYPE; DATE_TYPE; DURATION_TYPE].
Ltac types H := repeat (destruct H as [H|H]; [symmetry in H|]); try (exfalso; exact H).
(** Equality: unknown exactly when an operand is; otherwise it is value equality (C19) and
    NotEqual is its complement. *)
Theorem C23_equality_partial : forall a b, typed a -> typed b ->
  value_type (ea_type a) -> value_type (ea_type b) -> canBeEqual (ea_type a) (ea_type b) = true ->
  (unknown_arg a \/ unknown_arg b -> opEqual a b = RUnknown /\ opNotEqual a b = RUnknown) /\
  (~ unknown_arg a -> ~ unknown_arg b ->
     opEqual a b = RKnown (veq (ea_val a) (ea_val b)) /\ opNotEqual a b = RKnown (negb (veq (ea_val a) (ea_val b)))).
Proof.
  intros [ta va] [tb vb]. unfold typed, unknown_arg, value_type. cbn [ea_type ea_val]. intros TA TB VA VB C.
  types VA; subst ta; types VB; subst tb; try (vm_compute in C; discriminate C); clear C;
  destruct va; cbn [vtype vknown] in TA |- *;
    try (exfalso; vm_compute in TA; intuition discriminate);
  destruct vb; cbn [vtype vknown] in TB |- *;
    try (exfalso; vm_compute in TB; intuition discriminate);
  (split; [intros H; try (exfalso; intuition congruence); split; reflexivity
          |intros H1 H2; try (exfalso; apply H1; reflexivity); try (exfalso; apply H2; reflexivity)]);
  try (split; reflexivity).
  - (* Integer, Real *) unfold opEqual, opNotEqual, isEqual, cmp2, veq. cbn. unfold oext_eq, ext_eq. destruct (rkey r) as [[|k|]|]; cbn; try (split; reflexivity).
    rewrite (Z.eqb_sym k). split; reflexivity.
Qed.
(** The defect (Comparisons.cc:119-158): Date and Duration operands pass the load-time check, but
    comparing them for equality is an error.  Node timepoints have type Date
    (NodeTimepointValue.cc:86), so "node.STATE.START == x" always fails. *)
Theorem C23_date_equality_refuted : forall t v b, t = DATE_TYPE \/ t = DURATION_TYPE -> isNumericType (ea_type b) = true ->
  canBeEqual t (ea_type b) = true /\ opEqual (mkArg t v) b = RError /\ opNotEqual (mkArg t v) b = RError.
Proof.
  intros t v b T N. assert (C : canBeEqual t (ea_type b) = true).
  { unfold canBeEqual. rewrite N. destruct (t =? ea_type b); [reflexivity|]. destruct ((t =? UNKNOWN_TYPE) || (ea_type b =? UNKNOWN_TYPE)); [reflexivity|]. destruct T as [-> | ->]; reflexivity. }
  split; [exact C|]. destruct T as [-> | ->]; split; reflexivity.
Qed.
(** Equality is asymmetric on such operands: with the Real on the left it works. *)
Example C23_date_asymmetric : opEqual (mkArg REAL_TYPE (VReal 0)) (mkArg DATE_TYPE (VReal 0)) = RKnown true /\
  opEqual (mkArg DATE_TYPE (VReal 0)) (mkArg REAL_TYPE (VReal 0)) = RError.
Proof. split; reflexivity. Qed.

(** The meaning of the four order comparisons in terms of value order and equality. *)
Definition cmpSpec (op : cmpOp) (a b : val) : bool :=
  match op with
  | CLT => vlt a b
  | CGT => vlt b a
  | CLE => vlt a b || veq a b
  | CGE => vlt b a || veq a b
  end.
Lemma sltb_neg a : forall b, negb (sltb b a) = sltb a b || seqb a b.
Proof.
  induction a as [|x a IH]; intros [|y b]; cbn [sltb seqb]; try reflexivity.
  destruct (Z.ltb_spec x y), (Z.ltb_spec y x), (Z.eqb_spec x y); cbn; try lia; try reflexivity. apply IH.
Qed.
Lemma seqb_symm a b : seqb a b = seqb b a.
Proof. revert b. induction a as [|x a IH]; intros [|y b]; cbn [seqb]; try reflexivity. rewrite Z.eqb_sym, IH. reflexivity. Qed.
Lemma intCmp_spec op x y : intCmp op x y = cmpSpec op (VInt x) (VInt y).
Proof.
  destruct op; unfold cmpSpec; cbn [intCmp]; unfold vlt, veq; cbn.
  - reflexivity.
  - destruct (Z.leb_spec y x), (Z.ltb_spec y x), (Z.eqb_spec x y); cbn; lia || reflexivity.
  - reflexivity.
  - destruct (Z.leb_spec x y), (Z.ltb_spec x y), (Z.eqb_spec x y); cbn; lia || reflexivity.
Qed.
Lemma strCmp_spec op x y : strCmp op x y = cmpSpec op (VStr x) (VStr y).
Proof.
  destruct op; unfold cmpSpec; cbn [strCmp]; unfold vlt, veq; cbn.
  - reflexivity.
  - rewrite sltb_neg, seqb_symm. reflexivity.
  - reflexivity.
  - apply sltb_neg.
Qed.
Lemma oext_eq_sym x y : oext_eq x y = oext_eq y x.
Proof. destruct x as [[]|], y as [[]|]; cbn; try reflexivity. apply Z.eqb_sym. Qed.
Lemma realCmp_spec op a b x y : getReal a = RKnown x -> getReal b = RKnown y -> typed a -> typed b ->
  comparisonType (ea_type a) (ea_type b) = REAL_TYPE -> realCmp op x y = cmpSpec op (ea_val a) (ea_val b).
Proof.
  destruct a as [ta va], b as [tb vb]. unfold getReal, typed. cbn [ea_type ea_val]. intros EA EB TA TB C.
  destruct va; try (destruct (_ =? _) in EA; [discriminate|]; destruct (_ || _) in EA; discriminate);
  destruct vb; try (destruct (_ =? _) in EB; [discriminate|]; destruct (_ || _) in EB; discriminate).
  - exfalso. subst. vm_compute in C. discriminate.
  - cbn [vtype] in TA. subst ta. rewrite Z.eqb_refl in EA. destruct (Z.eqb_spec tb INTEGER_TYPE) as [->|N]; [exfalso; destruct TB as [H|[H|H]]; discriminate H|].
    destruct (_ || _) in EB; [|discriminate]. injection EA as <-. injection EB as <-.
    destruct op; unfold cmpSpec; cbn [realCmp]; unfold vlt, veq; cbn [vknown vtype negb andb Bool.eqb]; change (REAL_TYPE =? INTEGER_TYPE) with false; change (INTEGER_TYPE =? INTEGER_TYPE) with true;
      change (REAL_TYPE =? REAL_TYPE) with true; change (INTEGER_TYPE =? REAL_TYPE) with false; cbv iota; rewrite ?(oext_eq_sym (rkey r)); reflexivity.
  - cbn [vtype] in TB. subst tb. rewrite Z.eqb_refl in EB. destruct (Z.eqb_spec ta INTEGER_TYPE) as [->|N]; [exfalso; destruct TA as [H|[H|H]]; discriminate H|].
    destruct (_ || _) in EA; [|discriminate]. injection EA as <-. injection EB as <-.
    destruct op; reflexivity.
  - destruct (Z.eqb_spec ta INTEGER_TYPE) as [->|N]; [discriminate|]. destruct (Z.eqb_spec tb INTEGER_TYPE) as [->|N']; [discriminate|].
    destruct (_ || _) in EA; [|discriminate]. destruct (_ || _) in EB; [|discriminate]. injection EA as <-. injection EB as <-. destruct op; reflexivity.
Qed.
(** Order comparisons: unknown exactly when an operand is; otherwise the order of C20. *)
Theorem C23_order : forall op a b, typed a -> typed b -> order_type (ea_type a) -> order_type (ea_type b) ->
  canBeCompared (ea_type a) (ea_type b) = true ->
  (unknown_arg a \/ unknown_arg b -> opCompare op a b = RUnknown) /\
  (~ unknown_arg a -> ~ unknown_arg b -> opCompare op a b = RKnown (cmpSpec op (ea_val a) (ea_val b))).
Proof.
  intros op a b TA TB OA OB C. unfold opCompare.
  assert (G : forall t, comparisonType (ea_type a) (ea_type b) = t -> t = INTEGER_TYPE \/ t = REAL_TYPE \/ t = STRING_TYPE ->
      (t = INTEGER_TYPE -> ea_type a = INTEGER_TYPE /\ ea_type b = INTEGER_TYPE) /\ (t = STRING_TYPE -> ea_type a = STRING_TYPE /\ ea_type b = STRING_TYPE)
      /\ (t = REAL_TYPE -> ea_type a <> STRING_TYPE /\ ea_type b <> STRING_TYPE)).
  { intros t <- _. destruct a as [ta va], b as [tb vb]. cbn [ea_type] in *. clear TA TB. unfold order_type in OA, OB. types OA; subst ta; types OB; subst tb; try (vm_compute in C; discriminate C);
      vm_compute; intuition (discriminate || congruence). }
  assert (GT : In (comparisonType (ea_type a) (ea_type b)) [INTEGER_TYPE; REAL_TYPE; STRING_TYPE]).
  { destruct a as [ta va], b as [tb vb]. cbn [ea_type] in *. clear TA TB G. unfold order_type in OA, OB. types OA; subst ta; types OB; subst tb; try (vm_compute in C; discriminate C); vm_compute; tauto. }
  destruct GT as [E|[E|[E|[]]]]; rewrite <- E; specialize (G _ (eq_sym E)); cbv zeta.
  - destruct (proj1 (G ltac:(tauto)) eq_refl) as [A B]. destruct a as [ta va], b as [tb vb]. cbn [ea_type] in A, B. subst ta tb. clear G E.
    unfold typed, unknown_arg in *. cbn [ea_type ea_val] in *.
    destruct va; cbn [vtype vknown] in TA |- *; try (exfalso; vm_compute in TA; intuition discriminate);
    destruct vb; cbn [vtype vknown] in TB |- *; try (exfalso; vm_compute in TB; intuition discriminate);
    (split; [intros H; try (exfalso; intuition congruence); reflexivity|intros H1 H2; try (exfalso; apply H1; reflexivity); try (exfalso; apply H2; reflexivity)]).
    unfold cmp2, getInt. cbn [ea_type ea_val]. change (INTEGER_TYPE =? INTEGER_TYPE) with true. cbn [rbind]. rewrite intCmp_spec. reflexivity.
  - destruct (proj2 (proj2 (G ltac:(tauto))) eq_refl) as [A B].
    change (REAL_TYPE =? INTEGER_TYPE) with false. change (REAL_TYPE =? REAL_TYPE) with true. cbv iota.
    assert (R : forall c, typed c -> order_type (ea_type c) -> ea_type c <> STRING_TYPE -> (unknown_arg c /\ getReal c = RUnknown) \/ (~ unknown_arg c /\ exists x, getReal c = RKnown x)).
    { clear. intros [t v] T O N. unfold order_type, typed, unknown_arg, getReal in *. cbn [ea_type ea_val] in *.
      types O; subst t; try (exfalso; apply N; reflexivity); destruct v; cbn [vtype vknown] in *; try (exfalso; vm_compute in T; intuition discriminate);
      try (left; split; reflexivity); right; (split; [discriminate|eexists; reflexivity]). }
    unfold cmp2. destruct (R a TA OA A) as [[Ua Ga]|[Ka [x Ga]]]; rewrite Ga; cbn [rbind].
    { split; [reflexivity|intros H; contradiction]. }
    destruct (R b TB OB B) as [[Ub Gb]|[Kb [y Gb]]]; rewrite Gb; cbn [rbind].
    { split; [reflexivity|intros _ H; contradiction]. }
    split; [intros [H|H]; contradiction|]. intros _ _. f_equal. apply realCmp_spec; try assumption. symmetry; exact E.
  - destruct (proj1 (proj2 (G ltac:(tauto))) eq_refl) as [A B]. destruct a as [ta va], b as [tb vb]. cbn [ea_type] in A, B. subst ta tb. clear G E.
    unfold typed, unknown_arg in *. cbn [ea_type ea_val] in *.
    destruct va; cbn [vtype vknown] in TA |- *; try (exfalso; vm_compute in TA; intuition discriminate);
    destruct vb; cbn [vtype vknown] in TB |- *; try (exfalso; vm_compute in TB; intuition discriminate);
    (split; [intros H; try (exfalso; intuition congruence); reflexivity|intros H1 H2; try (exfalso; apply H1; reflexivity); try (exfalso; apply H2; reflexivity)]).
    unfold cmp2, getStr. cbn [ea_type ea_val]. change (STRING_TYPE =? INTEGER_TYPE) with false. change (STRING_TYPE =? REAL_TYPE) with false. change (STRING_TYPE =? STRING_TYPE) with true. cbn [rbind]. rewrite strCmp_spec. reflexivity.
Qed.
(** On numbers other than NaN and on strings: a > b iff b < a, and <, >= and >, <= are complementary. *)
Theorem C23_order_consistent : forall a b,
  cmpSpec CGT a b = cmpSpec CLT b a /\ cmpSpec CGE a b = cmpSpec CLE b a /\
  (ordinary a -> ordinary b -> scalar a -> scalar b ->
     cmpSpec CGE a b = negb (cmpSpec CLT a b) /\ cmpSpec CLE a b = negb (cmpSpec CGT a b)).
Proof.
  intros a b. unfold cmpSpec. split; [reflexivity|]. split; [rewrite (C19_symmetric a b); reflexivity|].
  intros Oa Ob Sa Sb. pose proof (C20_trichotomy a b Sa Sb Oa Ob) as T.
  destruct good_vlt as [AS _].
  pose proof (AS a b Oa Ob) as A1. pose proof (AS b a Ob Oa) as A2.
  destruct (vlt a b), (vlt b a), (veq a b); cbn; intuition congruence.
Qed.
(** NaN: <, <=, >, >=, = are all false, so complementarity fails (IEEE 754). *)
Example C23_nan : map (fun op => cmpSpec op (VReal (2 ^ 63 - 1)) (VInt 0)) [CLT; CLE; CGT; CGE] = [false; false; false; false].
Proof. vm_compute. reflexivity. Qed.
(** IsKnown is always known and says whether its operand is. *)
Theorem C23_is_known : forall a, exists k, opIsKnown a = RKnown k /\ (k = true <-> ~ unknown_arg a).
Proof.
  intros a. exists (vknown (ea_val a)). split; [reflexivity|]. unfold unknown_arg. destruct (vknown (ea_val a)); split; congruence.
Qed.
Example C23_example :
  opCompare CLT (mkArg INTEGER_TYPE (VInt 2)) (mkArg REAL_TYPE (VReal 0x4004000000000000)) = RKnown true /\
  opCompare CGE (mkArg DATE_TYPE (VReal 0x4004000000000000)) (mkArg INTEGER_TYPE (VInt 3)) = RKnown false /\
  opCompare CGE (mkArg DATE_TYPE (VReal 0x4004000000000000)) (mkArg INTEGER_TYPE (VUnk INTEGER_TYPE)) = RUnknown /\
  opEqual (mkArg INTEGER_TYPE (VInt 2)) (mkArg REAL_TYPE (VReal 0x4000000000000000)) = RKnown true /\
  typed (mkArg DATE_TYPE (VReal 0x4004000000000000)).
Proof. repeat split; try (vm_compute; reflexivity). right; left; reflexivity. Qed.

(** ** Choice of operator by the plan reader *)
(** Arithmetic on operands of declared types is done in Integer exactly when all are Integer, in
    Real when all are numeric and one is not Integer, and is rejected otherwise. *)
Theorem C23_arithmetic_type : forall types d, types <> [] -> ~ In UNKNOWN_TYPE types ->
  arithmeticCommonType types d =
    if forallb isNumericType types then (if forallb (fun t => t =? INTEGER_TYPE) types then INTEGER_TYPE else REAL_TYPE) else UNKNOWN_TYPE.
Proof.
  assert (L : forall l r, r = INTEGER_TYPE \/ r = REAL_TYPE -> ~ In UNKNOWN_TYPE l ->
    commonLoop r l = if forallb isNumericType l then (if (r =? INTEGER_TYPE) && forallb (fun t => t =? INTEGER_TYPE) l then INTEGER_TYPE else REAL_TYPE) else UNKNOWN_TYPE).
  { induction l as [|t l IH]; intros r R N; cbn [commonLoop forallb].
    - destruct R as [-> | ->]; reflexivity.
    - assert (NT : t <> UNKNOWN_TYPE) by (intros ->; apply N; left; reflexivity). assert (NL : ~ In UNKNOWN_TYPE l) by (intros X; apply N; right; exact X).
      unfold isNumericType at 1. rewrite (proj2 (Z.eqb_neq _ _) NT). cbn [orb].
      destruct (Z.eqb_spec t INTEGER_TYPE) as [->|N2].
      + change (INTEGER_TYPE =? REAL_TYPE) with false. change (INTEGER_TYPE =? DATE_TYPE) with false. change (INTEGER_TYPE =? DURATION_TYPE) with false. cbn [orb andb].
        destruct R as [-> | ->]; rewrite IH by tauto; reflexivity.
      + cbn [orb]. destruct ((t =? REAL_TYPE) || (t =? DATE_TYPE) || (t =? DURATION_TYPE)) eqn:RT; [|reflexivity].
        cbn [andb]. rewrite IH by tauto. change (REAL_TYPE =? INTEGER_TYPE) with false. rewrite andb_false_r. reflexivity. }
  intros [|t l] d NE N; [congruence|]. cbn [arithmeticCommonType forallb].
  assert (NT : t <> UNKNOWN_TYPE) by (intros ->; apply N; left; reflexivity). assert (NL : ~ In UNKNOWN_TYPE l) by (intros X; apply N; right; exact X).
  unfold isNumericType at 1. rewrite (proj2 (Z.eqb_neq _ _) NT).
  destruct (Z.eqb_spec t INTEGER_TYPE) as [->|N2].
  - change (INTEGER_TYPE =? REAL_TYPE) with false. change (INTEGER_TYPE =? DATE_TYPE) with false. change (INTEGER_TYPE =? DURATION_TYPE) with false. cbn [orb andb].
    rewrite L by tauto. reflexivity.
  - cbn [orb]. destruct ((t =? REAL_TYPE) || (t =? DATE_TYPE) || (t =? DURATION_TYPE)) eqn:RT; [|reflexivity].
    cbn [andb]. rewrite L by tauto. reflexivity.
Qed.

(** Assumptions *)
Print Assumptions C23_equality_partial.
Print Assumptions C23_date_equality_refuted.
Print Assumptions C23_order.
Print Assumptions C23_order_consistent.
Print Assumptions C23_is_known.
Print Assumptions C23_arithmetic_type.
