(** C58: which expressions the plan loader accepts.  C59: accepted expressions evaluate without type errors. *)
From Coq Require Import ZArith List Bool Lia.
From Flocq Require Import Core BinarySingleNaN.
From Verif Require Import ValueModel OpModel FloatModel FloatBridge TypeModel TypeSpec TypeProofs TypeProofs2.
Import ListNotations.
Open Scope Z_scope.

(** ** C58 *)
Lemma definite_noQuery e : definite e -> noQueryOfVariable e.
Proof.
  induction e as [t i|a b c i|elt i|t i|a idx IHa IHi|o args IH] using texp_ind'; cbn; auto; try tauto.
  - destruct a; try tauto. intros [_ D]. cbn. auto.
  - intros D. change (allP definite args) in D. change ((match o, args with NArrQ _, [XArr _ _] => False | _, _ => True end) /\ allP noQueryOfVariable args).
    rewrite allP_Forall in *. split.
    + destruct o; auto. destruct args as [|[] [|]]; auto. inversion D; subst. cbn in *. contradiction.
    + rewrite Forall_forall in *. intros x X. apply (IH x X), (D x X).
Qed.
Lemma load_split e d c : load e d = Made c -> exists t, check e d = Some t /\ alloc e d = Made c.
Proof. unfold load. destruct (check e d); intros H; [eauto|discriminate]. Qed.

(** An expression over declared leaves that the loader accepts is well typed, and the object built has that type. *)
Theorem C58_accepted_is_well_typed e d c :
  definite e -> divBinary e -> load e d = Made c -> hasType d e (cType c).
Proof.
  intros D B L. apply load_split in L as (t & C & A). destruct (load_sound e D B d t C) as [_ S]. destruct (S c A) as [-> H]. exact H.
Qed.
(** A well-typed expression, also over array variables and elements of array lookups, is accepted with its type. *)
Theorem C58_well_typed_is_accepted e d T :
  hasType d e T -> noQueryOfVariable e -> exists c, load e d = Made c /\ cType c = T.
Proof. apply load_typed. Qed.
Theorem C58_loader_decides_typing e d T :
  definite e -> divBinary e -> ((exists c, load e d = Made c /\ cType c = T) <-> hasType d e T).
Proof.
  intros D B. split.
  - intros (c & L & <-). apply C58_accepted_is_well_typed; auto.
  - intros H. apply load_typed; auto. apply definite_noQuery. exact D.
Qed.
(** The type the check pass computes is the type of the object the construction pass builds. *)
Theorem C58_passes_agree e d t c :
  definite e -> divBinary e -> check e d = Some t -> alloc e d = Made c -> cType c = t.
Proof. intros D B C A. destruct (load_sound e D B d t C) as [_ S]. apply (S c A). Qed.
(** A type is determined by the expression and the type the context asks for. *)
Theorem C58_types_unique e d T T' : hasType d e T -> hasType d e T' -> T = T'.
Proof. apply hasType_unique. Qed.

(** Subexpressions. *)
Inductive occursIn (x : texp) : texp -> Prop :=
| OI_self : occursIn x x
| OI_array a idx : occursIn x a -> occursIn x (XElem a idx)
| OI_index a idx : occursIn x idx -> occursIn x (XElem a idx)
| OI_arg o args a : In a args -> occursIn x a -> occursIn x (XOp o args).
Lemma allMade_crash l : allMade l = inr tt -> In Crash l.
Proof.
  induction l as [|[c| |] l IH]; cbn; intros H; try discriminate; auto.
  destruct (allMade l) as [[cs|]|] eqn:E; try discriminate. right. apply IH. destruct u. reflexivity.
Qed.
Lemma crash_date e : definite e -> divBinary e -> forall d t, check e d = Some t -> alloc e d = Crash ->
  exists c a u, occursIn (XOp (NConv c) [a]) e /\ hasType UNKNOWN_TYPE a u /\ (u = DATE_TYPE \/ u = DURATION_TYPE).
Proof.
  induction e as [t i|a b c i|elt i|t i|a idx IHa IHi|o args IH] using texp_ind'; intros D B d t' C A; try discriminate.
  - cbn in A. destruct (_ || _); discriminate.
  - cbn in D. destruct a as [| |elt j| | |]; try contradiction. destruct D as [[t AO] D]. cbn in B. destruct B as [_ B].
    cbn in C. destruct (check idx UNKNOWN_TYPE) as [ti|] eqn:Ci; [|discriminate].
    cbn in A. destruct (ArrayOf_arrayOf _ _ AO) as (A1 & A2 & _). rewrite A1, A2 in A. cbn [orb] in A.
    destruct (alloc idx UNKNOWN_TYPE) eqn:Ai; try discriminate.
    { destruct (_ || _); discriminate. }
    destruct (IHi D B _ _ Ci Ai) as (c & x & u & O & R). exists c, x, u. split; [apply OI_index; exact O|exact R].
  - pose proof (definite_noQuery _ D) as NQ. pose proof D as D0. pose proof B as B0.
    cbn in D, B, C. destruct B as [BD B]. change (allP definite args) in D. change (allP divBinary args) in B.
    apply allP_Forall in D. apply allP_Forall in B.
    destruct (countOk o (length args)) eqn:CO; [|discriminate].
    destruct (allSome (map (fun a => check a UNKNOWN_TYPE) args)) as [ts|] eqn:TS; [|discriminate].
    destruct (typesOk o ts) eqn:OK; [|discriminate]. apply allSome_F2 in TS.
    cbn [alloc] in A. destruct (allMade (map (fun a => alloc a UNKNOWN_TYPE) args)) as [[cs|]|u] eqn:CS; try discriminate.
    + destruct (getOperator o (map cType cs) d) eqn:G; [discriminate|].
      apply allMade_F2 in CS.
      assert (W : map cType cs = ts /\ typesOf args ts /\ Forall (fun t => t <> UNKNOWN_TYPE) ts).
      { clear - TS D B CS. revert ts cs TS CS. induction args as [|x l IHl]; intros ts cs TS CS; inversion TS; subst; inversion CS; subst; [repeat split; constructor|].
        inversion D as [|? ? D1 D2]; subst. inversion B as [|? ? B1 B2]; subst.
        destruct (load_sound x D1 B1 UNKNOWN_TYPE y) as [NZ W]; [assumption|]. destruct (W y0) as [W1 W2]; [assumption|].
        destruct (IHl D2 B2 l' l'0) as (I1 & I2 & I3); auto. cbn. rewrite W1, I1. repeat split; constructor; auto. }
      destruct W as (W1 & W2 & W3). rewrite W1 in G.
      assert (LT : length args = length ts) by (apply typesOf_F2 in W2; apply (F2_len _ _ _ W2)).
      rewrite LT in CO. destruct o as [b|a| | |c|n|c| |q| |]; cbn [countOk typesOk] in CO, OK; try discriminate G.
      * exfalso. pose proof (nums_def _ OK W3) as N.
        assert (NE : ts <> []) by (intros ->; destruct a; discriminate CO).
        assert (KK : forallb numOrUnknown ts = true) by exact OK.
        destruct (common_num ts d NE KK) as [E|E]; cbn [getOperator] in G; rewrite E in G; discriminate G.
      * apply one_arg in CO as [u ->]. inversion W2 as [|x l t0 l0 H1 H2]; subst. inversion H2; subst.
        exists c, x, u. split; [apply OI_self|]. split; [exact H1|].
        cbn in OK. unfold numOrUnknown in OK. rewrite orb_true_iff, numeric_spec, Z.eqb_eq in OK.
        inversion W3 as [|? ? NZ _]; subst. destruct OK as [N|]; [|contradiction].
        cbn [getOperator nth] in G. unfold conversionReturnType in G.
        destruct (d =? INTEGER_TYPE); [discriminate|]. destruct (d =? REAL_TYPE); [discriminate|].
        destruct (Z.eqb_spec u UNKNOWN_TYPE); [contradiction|].
        unfold Numeric in N. destruct N as [ -> | [ -> | [ -> | -> ]]]; try discriminate G; auto.
      * exfalso. apply two_args in CO as (x & y & ->). inversion W3 as [|? ? N1 F']; subst. inversion F' as [|? ? N2 _]; subst.
        cbn in OK. cbn [getOperator nth] in G.
        destruct (canBeCompared_def _ _ N1 N2 OK) as [[X Y]|[-> ->]]; [|discriminate G].
        destruct (comparisonType_num _ _ X Y) as [E|E]; rewrite E in G; discriminate G.
    + destruct u. apply allMade_crash in CS. apply in_map_iff in CS as (x & X & I).
      assert (Cx : exists tx, check x UNKNOWN_TYPE = Some tx).
      { clear - TS I. revert ts TS. induction args as [|z l IHl]; intros ts TS; [destruct I|]. inversion TS; subst.
        destruct I as [->|I]; [eauto|]. apply (IHl I l'). assumption. }
      destruct Cx as [tx Cx]. rewrite Forall_forall in *.
      destruct (IH x I (D x I) (B x I) _ _ Cx X) as (c & a & u & O & R). exists c, a, u. split; [eapply OI_arg; eauto|exact R].
Qed.
(** Loading an expression over declared leaves reads out of bounds only when a rounding operation is applied to
    a timepoint or duration. *)
Theorem C58_crash_only_rounding_dates e d :
  definite e -> divBinary e -> load e d = Crash ->
  exists c a u, occursIn (XOp (NConv c) [a]) e /\ hasType UNKNOWN_TYPE a u /\ (u = DATE_TYPE \/ u = DURATION_TYPE).
Proof.
  intros D B L. unfold load in L. destruct (check e d) eqn:C; [|discriminate]. eapply crash_date; eauto.
Qed.

(** Conditions and assignments. *)
Theorem C58_condition_iff_boolean e :
  definite e -> divBinary e -> ((exists c, loadCondition e = Made c) <-> hasType UNKNOWN_TYPE e BOOLEAN_TYPE).
Proof.
  intros D B. unfold loadCondition. split.
  - intros (c & L). destruct (check e UNKNOWN_TYPE) as [t|] eqn:C; [|discriminate].
    destruct (areTypesCompatible BOOLEAN_TYPE t) eqn:K; [|discriminate].
    destruct (alloc e UNKNOWN_TYPE) as [c'| |] eqn:A; try discriminate.
    destruct (load_sound e D B _ _ C) as [NZ S]. destruct (S c' A) as [T H]. rewrite T in L.
    destruct (Z.eqb_spec t BOOLEAN_TYPE) as [->|]; auto. destruct (Z.eqb_spec t UNKNOWN_TYPE); [contradiction|discriminate].
  - intros H. destruct (load_typed _ _ _ H (definite_noQuery _ D)) as (c & L & T). apply load_split in L as (t & C & A).
    rewrite C. destruct (load_sound e D B _ _ C) as [_ S]. destruct (S c A) as [T' _]. rewrite A.
    assert (t = BOOLEAN_TYPE) by congruence. subst t. cbn. rewrite T. cbn. eauto.
Qed.
(** Assignable: same type; Real, Date and Duration receive each other's numbers as the language allows. *)
Definition Assignable (dest src : Z) : Prop :=
  dest = src
  \/ ((dest = DATE_TYPE \/ dest = DURATION_TYPE) /\ (src = REAL_TYPE \/ src = INTEGER_TYPE))
  \/ (dest = REAL_TYPE /\ (src = INTEGER_TYPE \/ src = DATE_TYPE \/ src = DURATION_TYPE)).
Lemma compatible_spec dest src : UserType dest -> src <> UNKNOWN_TYPE -> areTypesCompatible dest src = true <-> Assignable dest src.
Proof.
  intros U NZ. unfold areTypesCompatible, Assignable.
  destruct (Z.eqb_spec dest UNKNOWN_TYPE) as [->|_]. { tcases U. dest_or; discriminate. }
  destruct (Z.eqb_spec src UNKNOWN_TYPE); [contradiction|].
  destruct (Z.eqb_spec dest src); [tauto|].
  destruct (Z.eqb_spec dest DATE_TYPE) as [->|]; [cbn; rewrite orb_true_iff, !Z.eqb_eq; intuition discriminate|].
  destruct (Z.eqb_spec dest DURATION_TYPE) as [->|]; [cbn; rewrite orb_true_iff, !Z.eqb_eq; intuition discriminate|]. cbn [orb].
  destruct (Z.eqb_spec dest REAL_TYPE) as [->|]; [rewrite !orb_true_iff, !Z.eqb_eq; intuition discriminate|].
  destruct (Z.eqb_spec dest ARRAY_TYPE) as [->|]. { tcases U. dest_or; discriminate. }
  intuition discriminate.
Qed.
Theorem C58_assignment_iff_assignable vt e :
  UserType vt -> definite e -> divBinary e ->
  ((exists c, loadAssignment vt e = Made c) <-> exists T, hasType vt e T /\ Assignable vt T).
Proof.
  intros U D B. unfold loadAssignment. split.
  - intros (c & L). destruct (check e vt) as [t|] eqn:C; [|discriminate].
    destruct (areTypesCompatible vt t) eqn:K; [|discriminate].
    destruct (alloc e vt) as [c'| |] eqn:A; try discriminate.
    destruct (load_sound e D B _ _ C) as [NZ S]. destruct (S c' A) as [T H]. exists t. split; auto.
    apply compatible_spec; auto.
  - intros (T & H & AS). destruct (load_typed _ _ _ H (definite_noQuery _ D)) as (c & L & TT). apply load_split in L as (t & C & A).
    rewrite C. destruct (load_sound e D B _ _ C) as [NZ S]. destruct (S c A) as [T' _]. rewrite A.
    assert (t = T) by congruence. subst t. rewrite TT. apply compatible_spec in AS; [|assumption|congruence]. rewrite AS. eauto.
Qed.

(** What is wrong with the claims without their side conditions. *)
(** A size query on an array variable is well typed but always refused (the check pass does not know the type). *)
Theorem C58_array_variable_query_refuted q elt t i d :
  ArrayOf elt t -> (exists T, hasType d (XOp (NArrQ q) [XArr elt i]) T) /\ load (XOp (NArrQ q) [XArr elt i]) d = Refused.
Proof.
  intros A. split; [|reflexivity].
  assert (S : typesOf [XArr elt i] [t]) by (constructor; [constructor; exact A|constructor]).
  pose proof (ArrayOf_inv _ _ A) as I.
  destruct q; eexists; (econstructor; [exact S|]); [apply Sig_size|apply Sig_size|apply Sig_all|apply Sig_all]; auto.
Qed.
(** NOT of an array variable is accepted, although it has no type. *)
Theorem C58_array_operand_refuted elt i d :
  (exists c, load (XOp (NBool OpNot) [XArr elt i]) d = Made c)
  /\ (forall T, ~ hasType d (XOp (NBool OpNot) [XArr elt i]) T).
Proof.
  split; [eexists; reflexivity|]. intros T H. inversion H as [| | | | |d' o args ts T' TS S]; subst.
  inversion TS as [|a l t0 ts0 Ha Tr]; subst. inversion Tr; subst. inversion Ha; subst.
  inversion S; subst; [|congruence]. match goal with X : ArrayOf _ _ |- _ => inversion X end.
Qed.
(** DIV with one operand, or three, is accepted. *)
Theorem C58_division_operands_refuted i d :
  (exists c, load (XOp (NArith IDiv) [XConst REAL_TYPE i]) d = Made c)
  /\ (exists c, load (XOp (NArith IDiv) [XConst REAL_TYPE i; XConst REAL_TYPE i; XConst REAL_TYPE i]) d = Made c)
  /\ forall ts T, length ts <> 2%nat -> ~ opSig d (NArith IDiv) ts T.
Proof. split; [eexists; reflexivity|]. split; [eexists; reflexivity|]. intros ts T L S. inversion S; subst; contradiction. Qed.
(** Rounding a timepoint where no type is asked for reads past the end of a vector. *)
Theorem C58_rounding_timepoint_refuted c i : load (XOp (NConv c) [XConst DATE_TYPE i]) UNKNOWN_TYPE = Crash.
Proof. destruct c; reflexivity. Qed.
(** An Integer assignment whose right-hand side is Integer valued is refused: the check pass takes the
    element of an array lookup for a Real. *)
Theorem C58_integer_assignment_refuted i j :
  let e := XOp (NArith IAbs) [XOp (NArith IAbs) [XElem (XLookup INTEGER_ARRAY_TYPE i) (XConst INTEGER_TYPE j)]] in
  hasType INTEGER_TYPE e INTEGER_TYPE /\ loadAssignment INTEGER_TYPE e = Refused.
Proof.
  split; [|reflexivity].
  assert (U : UserType INTEGER_ARRAY_TYPE) by (unfold UserType, IsArray; auto 10).
  assert (A : AnyType INTEGER_TYPE) by (unfold AnyType, UserType, Numeric; auto 10).
  assert (E : hasType UNKNOWN_TYPE (XElem (XLookup INTEGER_ARRAY_TYPE i) (XConst INTEGER_TYPE j)) INTEGER_TYPE)
    by (apply T_elem with (t := INTEGER_ARRAY_TYPE); [constructor | apply T_lookup, U | apply T_const, A]).
  assert (S : forall d, opSig d (NArith IAbs) [INTEGER_TYPE] INTEGER_TYPE) by (intro d; apply Sig_int; [reflexivity | repeat constructor]).
  eapply T_op; [|apply S]. constructor; [|constructor].
  eapply T_op; [|apply S]. constructor; [exact E | constructor].
Qed.

(** ** C59 *)
(** Evaluating a loaded well-typed expression, in any state whose values fit the declared types, never stops
    with a type error, and a known result is a value of its type. *)
Theorem C59_no_type_error E d e T c :
  hasType d e T -> clean e -> load e d = Made c -> fits E e ->
  o_val (objOf E c) <> ETypeErr /\ forall v, o_val (objOf E c) = EVal v -> valueFor T v.
Proof.
  intros H C L F. apply load_split in L as (t & _ & A). pose proof (eval_good E d e T c H C F A) as G. apply (g_val _ _ _ G).
Qed.
Theorem C59_accepted_evaluates E d e c :
  definite e -> divBinary e -> clean e -> load e d = Made c -> fits E e ->
  o_val (objOf E c) <> ETypeErr /\ forall v, o_val (objOf E c) = EVal v -> valueFor (cType c) v.
Proof. intros D B C L F. eapply C59_no_type_error; eauto. apply C58_accepted_is_well_typed; auto. Qed.
(** An accepted condition can always be read as a Boolean. *)
Theorem C59_condition_readable E e c :
  definite e -> divBinary e -> clean e -> loadCondition e = Made c -> fits E e -> o_B (objOf E c) <> ETypeErr.
Proof.
  intros D B C L F. assert (H : hasType UNKNOWN_TYPE e BOOLEAN_TYPE) by (apply C58_condition_iff_boolean; eauto).
  unfold loadCondition in L. destruct (check e UNKNOWN_TYPE); [|discriminate]. destruct (areTypesCompatible _ _); [|discriminate].
  destruct (alloc e UNKNOWN_TYPE) as [c'| |] eqn:A; try discriminate. destruct (_ || _); [|discriminate]. injection L as ->.
  apply (g_B _ _ _ (eval_good E _ _ _ _ H C F A)). reflexivity.
Qed.
Lemma valueOf_type t v : valueOf t v -> ~ RealLike t -> tvalType v = t.
Proof.
  destruct 1 as [b|z|t r R|s|t n I|elt t l A F]; intros N; cbn; auto.
  - contradiction.
  - destruct A; reflexivity.
Qed.
(** An accepted assignment stores a value of the variable's type, or unknown; it never fails with a type error. *)
Theorem C59_assignment_stores E vt e c :
  UserType vt -> definite e -> divBinary e -> clean e -> loadAssignment vt e = Made c -> fits E e ->
  storeAs vt (o_val (objOf E c)) <> ETypeErr
  /\ forall v, storeAs vt (o_val (objOf E c)) = EVal v -> valueOf vt v.
Proof.
  intros U D B C L F.
  assert (X : exists T, hasType vt e T /\ Assignable vt T) by (apply C58_assignment_iff_assignable; eauto).
  destruct X as (T & H & AS).
  assert (A : alloc e vt = Made c).
  { unfold loadAssignment in L. destruct (check e vt); [|discriminate]. destruct (areTypesCompatible _ _); [|discriminate].
    destruct (alloc e vt) as [c'| |] eqn:A; try discriminate. destruct (areTypesCompatible _ _); [|discriminate]. congruence. }
  destruct (g_val _ _ _ (eval_good E _ _ _ _ H C F A)) as [V1 V2]. unfold storeAs.
  assert (K : forall x, valueFor T x ->
    (if realLike vt then match x with TVs (SR r) => EVal (TVs (SR r)) | TVs (SI z) => EVal (TVs (SR (toReal z))) | _ => ETypeErr end
     else if tvalType x =? vt then EVal x else ETypeErr) <> ETypeErr /\
    forall v, (if realLike vt then match x with TVs (SR r) => EVal (TVs (SR r)) | TVs (SI z) => EVal (TVs (SR (toReal z))) | _ => ETypeErr end
     else if tvalType x =? vt then EVal x else ETypeErr) = EVal v -> valueOf vt v).
  { intros x VF. destruct (realLike vt) eqn:R.
    - apply realLike_spec in R.
      assert (NT : RealLike T \/ T = INTEGER_TYPE).
      { unfold Assignable, RealLike in *. dest_or; auto; try tauto. }
      assert (XX : (exists r, x = TVs (SR r)) \/ exists z, x = TVs (SI z)).
      { destruct VF as [VF|[_ VF]]; [|right; exact VF].
        destruct VF as [b|z|t r R'|s|t n I|elt t l AO F']; eauto; exfalso.
        - unfold RealLike in NT. dest_or; discriminate.
        - unfold RealLike in NT. dest_or; discriminate.
        - unfold RealLike, IsEnum in *. dest_or; discriminate.
        - unfold RealLike in NT. destruct AO; dest_or; discriminate. }
      destruct XX as [[r ->]|[z ->]]; (split; [noerr|]); intros v Q; injection Q as <-; constructor; exact R.
    - assert (NR : ~ RealLike vt) by (intros X; apply realLike_spec in X; congruence).
      assert (T = vt).
      { unfold Assignable in AS. destruct AS as [<-|[[X _]|[-> _]]]; auto; exfalso; apply NR; unfold RealLike; tauto. }
      subst T. destruct VF as [VF|[X _]]; [|contradiction].
      rewrite (valueOf_type _ _ VF NR), Z.eqb_refl. split; [noerr|]. intros v Q. injection Q as <-. exact VF. }
  split.
  - apply ebind_noerr; auto. intros x Q. apply K, V2, Q.
  - intros v Q. apply ebind_val in Q as (x & Q & S). apply (K x (V2 x Q)). exact S.
Qed.

(** The side conditions are needed. *)
Definition half : fl := @B754_finite 53 1024 false 4503599627370496 (-53) eq_refl.
Definition env0 : env :=
  {| e_leaf := fun i => match i with
                        | 0%nat => Some (TVs (SS [104; 105]))
                        | 1%nat => Some (TVs (SR half))
                        | 2%nat => Some (TVa BOOLEAN_TYPE [(true, SB true)])
                        | 3%nat => Some (TVs (SI 3))
                        | _ => None end;
     e_ltype := fun _ => REAL_TYPE; e_look := fun _ => Some (TVs (SR half)) |}.
(** STRLEN(s) + 0.5 loads, is well typed, and stops the executive with a PlanError. *)
Theorem C59_length_as_real_refuted :
  let e := XOp (NArith IAdd) [XOp NStrlen [XVar STRING_TYPE STRING_TYPE STRING_TYPE 0]; XConst REAL_TYPE 1] in
  hasType UNKNOWN_TYPE e REAL_TYPE /\ fits env0 e /\
  exists c, load e UNKNOWN_TYPE = Made c /\ o_val (objOf env0 c) = ETypeErr.
Proof.
  split; [|split].
  - assert (A : AnyType STRING_TYPE) by (unfold AnyType, UserType, Numeric; auto 10).
    assert (A' : AnyType REAL_TYPE) by (unfold AnyType, UserType, Numeric; auto 10).
    eapply T_op; [constructor; [eapply T_op; [constructor; [constructor; exact A|constructor]|constructor]|constructor; [constructor; exact A'|constructor]]|].
    apply Sig_real; [discriminate | | apply Exists_cons_tl, Exists_cons_hd; discriminate].
    constructor; [left; reflexivity|]. constructor; [right; left; reflexivity|constructor].
  - cbn. repeat split; intros v Q; injection Q as <-; constructor; auto.
  - eexists. split; reflexivity.
Qed.
(** Two timepoints can not be compared for equality: accepted, then an error. *)
Theorem C59_timepoint_equality_refuted i j E n :
  exists c, loadCondition (XOp (NEq n) [XConst DATE_TYPE i; XConst DATE_TYPE j]) = Made c /\ o_B (objOf E c) = ETypeErr.
Proof. eexists. split; reflexivity. Qed.
(** The operands the loader can not type: NOT of a Boolean array variable, and DIV with one operand. *)
Theorem C59_array_operand_refuted :
  exists c, loadCondition (XOp (NBool OpNot) [XArr BOOLEAN_TYPE 2]) = Made c /\ o_B (objOf env0 c) = ETypeErr.
Proof. eexists. split; reflexivity. Qed.
Theorem C59_unary_division_refuted :
  exists c, load (XOp (NArith IDiv) [XConst REAL_TYPE 1]) UNKNOWN_TYPE = Made c /\ o_val (objOf env0 c) = ETypeErr.
Proof. eexists. split; reflexivity. Qed.
(** An undeclared lookup that delivers a Real: lookup + 3 works, 3 + lookup fails; 3 < lookup works, lookup > 3 fails. *)
Theorem C59_undeclared_lookup_order_refuted :
  (exists c v, load (XOp (NArith IAdd) [XLookup UNKNOWN_TYPE 0; XConst INTEGER_TYPE 3]) UNKNOWN_TYPE = Made c /\ o_val (objOf env0 c) = EVal v)
  /\ (exists c, load (XOp (NArith IAdd) [XConst INTEGER_TYPE 3; XLookup UNKNOWN_TYPE 0]) UNKNOWN_TYPE = Made c /\ o_val (objOf env0 c) = ETypeErr)
  /\ (exists c, loadCondition (XOp (NCmp CLT) [XConst INTEGER_TYPE 3; XLookup UNKNOWN_TYPE 0]) = Made c /\ o_B (objOf env0 c) = EVal false)
  /\ (exists c, loadCondition (XOp (NCmp CGT) [XLookup UNKNOWN_TYPE 0; XConst INTEGER_TYPE 3]) = Made c /\ o_B (objOf env0 c) = ETypeErr).
Proof.
  split; [eexists; eexists; split; reflexivity|]. split; [eexists; split; reflexivity|].
  split; eexists; (split; [reflexivity|]); vm_compute; reflexivity.
Qed.
(** A lookup declared Integer whose interface delivers a Real. *)
Theorem C59_wrong_lookup_value_refuted :
  exists c, load (XOp (NArith IAdd) [XLookup INTEGER_TYPE 0; XConst INTEGER_TYPE 3]) UNKNOWN_TYPE = Made c /\ o_val (objOf env0 c) = ETypeErr.
Proof. eexists. split; reflexivity. Qed.

(** A concrete case of the theorems: x := STRLEN(s) * 2 into a Real variable, and the condition
    a[0] AND (lookup >= 0.5). *)
Definition exAssign : texp := XOp (NArith IMul) [XOp NStrlen [XVar STRING_TYPE STRING_TYPE STRING_TYPE 0]; XConst INTEGER_TYPE 3].
Definition exCond : texp :=
  XOp (NBool OpAnd) [XElem (XArr BOOLEAN_TYPE 2) (XConst INTEGER_TYPE 4); XOp (NCmp CGE) [XLookup REAL_TYPE 0; XConst REAL_TYPE 1]].
Example ex_assign_meets : definite exAssign /\ divBinary exAssign /\ clean exAssign /\ fits env0 exAssign
  /\ exists c, loadAssignment REAL_TYPE exAssign = Made c /\ storeAs REAL_TYPE (o_val (objOf env0 c)) = EVal (TVs (SR (toReal 6))).
Proof.
  assert (A : AnyType STRING_TYPE) by (unfold AnyType, UserType, Numeric; auto 10).
  assert (A' : AnyType INTEGER_TYPE) by (unfold AnyType, UserType, Numeric; auto 10).
  split; [cbn; auto|]. split; [cbn; auto|]. split.
  { cbn. split.
    - intros _. split; [|exact I].
      constructor; [eapply T_op; [constructor; [constructor; exact A|constructor]|constructor]|constructor; [constructor; exact A'|constructor]].
    - split; [exact I|]. split; [|auto]. split; [discriminate|auto]. }
  split; [cbn; repeat split; intros v Q; injection Q as <-; constructor|].
  eexists. split; reflexivity.
Qed.
Example ex_cond_meets : definite exCond /\ divBinary exCond /\ clean exCond /\ fits env0 exCond
  /\ exists c, loadCondition exCond = Made c /\ o_B (objOf env0 c) = EUnk.
Proof.
  split; [cbn; repeat split; eauto using ArrayOf; unfold AnyType, UserType, Numeric; auto 10|]. split; [cbn; repeat split; auto|]. split.
  { cbn. repeat split; auto; discriminate. }
  split.
  { cbn. split; [split|split; [split; [|split; [|exact I]]|exact I]].
    - intros v t Q AO. injection Q as <-. inversion AO; subst. econstructor; [constructor|]. repeat constructor.
    - intros v Q. discriminate.
    - right. split; [left; reflexivity|]. intros x Q. injection Q as <-. constructor; auto.
    - intros v Q. injection Q as <-. constructor; auto. }
  eexists. split; [reflexivity|]. vm_compute. reflexivity.
Qed.

(** Assumptions *)
Print Assumptions C58_accepted_is_well_typed.
Print Assumptions C58_well_typed_is_accepted.
Print Assumptions C58_loader_decides_typing.
Print Assumptions C58_passes_agree.
Print Assumptions C58_types_unique.
Print Assumptions C58_crash_only_rounding_dates.
Print Assumptions C58_condition_iff_boolean.
Print Assumptions C58_assignment_iff_assignable.
Print Assumptions C58_array_variable_query_refuted.
Print Assumptions C58_array_operand_refuted.
Print Assumptions C58_division_operands_refuted.
Print Assumptions C58_rounding_timepoint_refuted.
Print Assumptions C58_integer_assignment_refuted.
Print Assumptions C59_no_type_error.
Print Assumptions C59_accepted_evaluates.
Print Assumptions C59_condition_readable.
Print Assumptions C59_assignment_stores.
Print Assumptions C59_length_as_real_refuted.
Print Assumptions C59_timepoint_equality_refuted.
Print Assumptions C59_array_operand_refuted.
Print Assumptions C59_unary_division_refuted.
Print Assumptions C59_undeclared_lookup_order_refuted.
Print Assumptions C59_wrong_lookup_value_refuted.
