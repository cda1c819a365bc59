(** What "well typed" means for PLEXIL expressions, and what a value of a type is.  Uses only the syntax
    ([texp], [opn]), the values and the type codes of the model. *)
From Coq Require Import ZArith List Bool.
From Verif Require Import ValueModel OpModel FloatModel TypeModel.
Import ListNotations.
Open Scope Z_scope.

Definition Numeric (t : Z) : Prop := t = INTEGER_TYPE \/ t = REAL_TYPE \/ t = DATE_TYPE \/ t = DURATION_TYPE.
Definition IsArray (t : Z) : Prop :=
  t = BOOLEAN_ARRAY_TYPE \/ t = INTEGER_ARRAY_TYPE \/ t = REAL_ARRAY_TYPE \/ t = STRING_ARRAY_TYPE.
Definition IsEnum (t : Z) : Prop :=
  t = NODE_STATE_TYPE \/ t = OUTCOME_TYPE \/ t = FAILURE_TYPE \/ t = COMMAND_HANDLE_TYPE.
(** Types an expression may have, and those a lookup may be declared with. *)
Definition UserType (t : Z) : Prop := t = BOOLEAN_TYPE \/ Numeric t \/ t = STRING_TYPE \/ IsArray t.
Definition AnyType (t : Z) : Prop := UserType t \/ IsEnum t.
(** Element types of arrays, and the array type of each. *)
Inductive ArrayOf : Z -> Z -> Prop :=
| AO_bool : ArrayOf BOOLEAN_TYPE BOOLEAN_ARRAY_TYPE
| AO_int : ArrayOf INTEGER_TYPE INTEGER_ARRAY_TYPE
| AO_real : ArrayOf REAL_TYPE REAL_ARRAY_TYPE
| AO_str : ArrayOf STRING_TYPE STRING_ARRAY_TYPE.

(** Numbers of operands of the arithmetic operations. *)
Definition arity (a : intOp) (n : nat) : Prop :=
  match a with
  | IAbs => n = 1%nat
  | IMod | IDiv => n = 2%nat
  | _ => n <> 0%nat
  end.
(** Operand types and result type of each operation; [d] is the type the context asks for (0: none),
    which only the roundings look at. *)
Inductive opSig (d : Z) : opn -> list Z -> Z -> Prop :=
| Sig_not : opSig d (NBool OpNot) [BOOLEAN_TYPE] BOOLEAN_TYPE
| Sig_bool b ts : b <> OpNot -> Forall (eq BOOLEAN_TYPE) ts -> opSig d (NBool b) ts BOOLEAN_TYPE
| Sig_int a ts : arity a (length ts) -> Forall (eq INTEGER_TYPE) ts -> opSig d (NArith a) ts INTEGER_TYPE
| Sig_real a ts : arity a (length ts) -> Forall Numeric ts -> Exists (fun t => t <> INTEGER_TYPE) ts ->
                  opSig d (NArith a) ts REAL_TYPE
| Sig_sqrt t : Numeric t -> opSig d NSqrt [t] REAL_TYPE
| Sig_toint t : Numeric t -> opSig d NRealToInt [t] INTEGER_TYPE
| Sig_conv_int c t : Numeric t -> d = INTEGER_TYPE \/ (d <> REAL_TYPE /\ t = INTEGER_TYPE) -> opSig d (NConv c) [t] INTEGER_TYPE
| Sig_conv_real c t : Numeric t -> d = REAL_TYPE \/ (d <> INTEGER_TYPE /\ t = REAL_TYPE) -> opSig d (NConv c) [t] REAL_TYPE
| Sig_eq n ta tb : (ta = tb \/ (Numeric ta /\ Numeric tb)) -> opSig d (NEq n) [ta; tb] BOOLEAN_TYPE
| Sig_cmp c ta tb : (Numeric ta /\ Numeric tb) \/ (ta = STRING_TYPE /\ tb = STRING_TYPE) -> opSig d (NCmp c) [ta; tb] BOOLEAN_TYPE
| Sig_known t : opSig d NIsKnown [t] BOOLEAN_TYPE
| Sig_size q t : q = QSize \/ q = QMaxSize -> IsArray t -> opSig d (NArrQ q) [t] INTEGER_TYPE
| Sig_all q t : q = QAll \/ q = QAny -> IsArray t -> opSig d (NArrQ q) [t] BOOLEAN_TYPE
| Sig_concat ts : Forall (eq STRING_TYPE) ts -> opSig d NConcat ts STRING_TYPE
| Sig_strlen : opSig d NStrlen [STRING_TYPE] INTEGER_TYPE.

Inductive hasType : Z -> texp -> Z -> Prop :=
| T_const d t i : AnyType t -> hasType d (XConst t i) t
| T_var d t i : AnyType t -> hasType d (XVar t t t i) t
| T_arr d elt t i : ArrayOf elt t -> hasType d (XArr elt i) t
| T_lookup d t i : UserType t -> hasType d (XLookup t i) t
| T_elem d a idx elt t : ArrayOf elt t -> hasType UNKNOWN_TYPE a t -> hasType UNKNOWN_TYPE idx INTEGER_TYPE ->
                         hasType d (XElem a idx) elt
| T_op d o args ts T : typesOf args ts -> opSig d o ts T -> hasType d (XOp o args) T
with typesOf : list texp -> list Z -> Prop :=
| TS_nil : typesOf [] []
| TS_cons a args t ts : hasType UNKNOWN_TYPE a t -> typesOf args ts -> typesOf (a :: args) (t :: ts).

(** Every leaf has a statically known type: lookups are declared, literals and variables have one of the
    types of the language (the declaration found by the check pass being that of the object used), and an
    array variable occurs only as the array of an ArrayElement. *)
Fixpoint definite (e : texp) : Prop :=
  match e with
  | XConst t _ => AnyType t
  | XVar _ decl obj _ => decl = obj /\ AnyType obj
  | XArr _ _ => False
  | XLookup t _ => UserType t
  | XElem a idx => match a with XArr elt _ => (exists t, ArrayOf elt t) /\ definite idx | _ => False end
  | XOp _ args => (fix all l := match l with [] => True | x :: r => definite x /\ all r end) args
  end.
(** Division is written with two operands. *)
Fixpoint divBinary (e : texp) : Prop :=
  match e with
  | XElem a idx => divBinary a /\ divBinary idx
  | XOp o args =>
      match o with NArith IDiv => length args = 2%nat | _ => True end
      /\ (fix all l := match l with [] => True | x :: r => divBinary x /\ all r end) args
  | _ => True
  end.
(** No array query (ArraySize, ArrayMaxSize, ALL_KNOWN, ANY_KNOWN) is applied to an array variable. *)
Fixpoint noQueryOfVariable (e : texp) : Prop :=
  match e with
  | XElem a idx => noQueryOfVariable a /\ noQueryOfVariable idx
  | XOp o args =>
      match o, args with NArrQ _, [XArr _ _] => False | _, _ => True end
      /\ (fix all l := match l with [] => True | x :: r => noQueryOfVariable x /\ all r end) args
  | _ => True
  end.
(** The operations whose Integer result can not be read as a Real. *)
Definition isLength (e : texp) : bool :=
  match e with XOp NStrlen _ | XOp (NArrQ QSize) _ | XOp (NArrQ QMaxSize) _ => true | _ => false end.
(** The side conditions of evaluation without type errors: a length is only combined with Integers, and
    no equality has a Date or Duration as its first operand. *)
Fixpoint clean (e : texp) : Prop :=
  match e with
  | XElem a idx => clean a /\ clean idx
  | XOp o args =>
      (existsb isLength args = true ->
         Forall (fun a => hasType UNKNOWN_TYPE a INTEGER_TYPE) args
         /\ match o with NSqrt | NRealToInt | NConv _ => False | _ => True end)
      /\ match o, args with
         | NEq _, a :: _ => ~ hasType UNKNOWN_TYPE a DATE_TYPE /\ ~ hasType UNKNOWN_TYPE a DURATION_TYPE
         | _, _ => True
         end
      /\ (fix all l := match l with [] => True | x :: r => clean x /\ all r end) args
  | _ => True
  end.

(** Values of a type.  Dates and Durations are Reals. *)
Inductive valueOf : Z -> tval -> Prop :=
| V_bool b : valueOf BOOLEAN_TYPE (TVs (SB b))
| V_int z : valueOf INTEGER_TYPE (TVs (SI z))
| V_real t r : t = REAL_TYPE \/ t = DATE_TYPE \/ t = DURATION_TYPE -> valueOf t (TVs (SR r))
| V_str s : valueOf STRING_TYPE (TVs (SS s))
| V_enum t n : IsEnum t -> valueOf t (TVe t n)
| V_arr elt t l : ArrayOf elt t -> Forall (fun p => valueOf elt (TVs (snd p))) l -> valueOf t (TVa elt l).
(** As [valueOf], but an Integer may stand for a Real. *)
Definition valueFor (t : Z) (v : tval) : Prop :=
  valueOf t v \/ ((t = REAL_TYPE \/ t = DATE_TYPE \/ t = DURATION_TYPE) /\ exists z, v = TVs (SI z)).
(** The values the expression's leaves have at run time fit their declared types: constants and
    variables hold values of their type; a lookup's state has no value yet, or a cached value whose type is
    the declared one (Integer or Real where Real, Date or Duration is declared). *)
Definition lookupFits (decl ct : Z) (v : option tval) : Prop :=
  ct = UNKNOWN_TYPE \/
  ((ct = decl \/ ((decl = REAL_TYPE \/ decl = DATE_TYPE \/ decl = DURATION_TYPE) /\ (ct = INTEGER_TYPE \/ ct = REAL_TYPE)))
   /\ forall x, v = Some x -> valueOf ct x).
Fixpoint fits (E : env) (e : texp) : Prop :=
  match e with
  | XConst t i => forall v, e_leaf E i = Some v -> valueOf t v
  | XVar _ _ t i => forall v, e_leaf E i = Some v -> valueOf t v
  | XArr elt i => forall v t, e_leaf E i = Some v -> ArrayOf elt t -> valueOf t v
  | XLookup t i => lookupFits t (e_ltype E i) (e_look E i)
  | XElem a idx => fits E a /\ fits E idx
  | XOp _ args => (fix all l := match l with [] => True | x :: r => fits E x /\ all r end) args
  end.
