(** Loading and evaluating PLEXIL expressions: /repo/src/xml-parser OperationFactory.cc, Operations.cc,
    ExpressionMap.gperf, VariableReferenceFactory.cc, ArrayVariableReferenceFactory.cc,
    ArrayReferenceFactory.cc, LookupFactory.cc, parseAssignment.cc, parseNode.cc (conditions), and the
    evaluation of what they build: /repo/src/expr Function.cc, CachedFunction.cc, OperatorImpl.cc,
    Operator.cc, Expression.cc, GetValueImpl.cc, ArrayReference.cc, the operator files, and
    /repo/src/intfc/Lookup.cc.
    Simplifications:
    - an expression is a syntax tree; leaves carry what name resolution delivers (ScopeModel.v): the
      type of the declaration the check pass finds and the type of the object the construction pass finds;
    - a Lookup's name and parameters are not expressions here, only its declared type (0: undeclared);
    - node predicates (Finished, Succeeded, ...) are Boolean leaves;
    - the expression is active while it is evaluated;
    - what C++ leaves undefined (Integer overflow, cast of a NaN) is [EUB], not refined further. *)
From Coq Require Import ZArith List Bool.
From Flocq Require Import Core BinarySingleNaN.
From Verif Require Import ValueModel OpModel FloatModel FloatBridge.
Import ListNotations.
Open Scope Z_scope.

(** ** Operations, ExpressionMap.gperf:40-112. *)
(** ArraySize, ArrayMaxSize, ALL_KNOWN, ANY_KNOWN. *)
Inductive arrQ : Type := QSize | QMaxSize | QAll | QAny.
Inductive opn : Type :=
| NBool (b : boolOp)             (* NOT AND OR XOR *)
| NArith (a : intOp)             (* ADD SUB MUL DIV MOD MIN MAX ABS *)
| NSqrt | NRealToInt             (* SQRT REAL_TO_INT *)
| NConv (c : convOp)             (* CEIL FLOOR ROUND TRUNC *)
| NEq (neg : bool)               (* EQ*, NE* *)
| NCmp (c : cmpOp)               (* GT GE LT LE *)
| NIsKnown | NArrQ (q : arrQ) | NConcat | NStrlen.
(** Expressions as written in the plan. *)
Inductive texp : Type :=
| XConst (t : Z) (i : nat)                  (* literal, node predicate, timepoint, internal variable of type t *)
| XVar (tag decl obj : Z) (i : nat)         (* BooleanVariable etc.: type of the tag, of the declaration, of the object *)
| XArr (elt : Z) (i : nat)                  (* ArrayVariable: element type *)
| XLookup (decl : Z) (i : nat)              (* LookupNow, LookupOnChange; 0 when undeclared *)
| XElem (a idx : texp)                      (* ArrayElement *)
| XOp (o : opn) (args : list texp).

(** arrayElementType, ValueType.cc:157-162; arrayType :164-169. *)
Definition elementType (t : Z) : Z := if isArrayType t then t - ARRAY_TYPE else UNKNOWN_TYPE.
Definition arrayOf (t : Z) : Z :=
  if (t <=? UNKNOWN_TYPE) || (STRING_TYPE <? t) then UNKNOWN_TYPE else t + ARRAY_TYPE.
(** areTypesCompatible, ValueType.cc:171-198. *)
Definition areTypesCompatible (dest src : Z) : bool :=
  if dest =? UNKNOWN_TYPE then true
  else if src =? UNKNOWN_TYPE then true
  else if dest =? src then true
  else if (dest =? DATE_TYPE) || (dest =? DURATION_TYPE) then (src =? REAL_TYPE) || (src =? INTEGER_TYPE)
  else if dest =? REAL_TYPE then (src =? INTEGER_TYPE) || (src =? DATE_TYPE) || (src =? DURATION_TYPE)
  else if dest =? ARRAY_TYPE then isArrayType src
  else false.

(** ** The Operation objects, Operations.cc. *)
(** OperationBase::checkArgCount :51-55 with the bounds of the registrations (OperationFactory.hh:56-125):
    simple operations any number, NOT and the one-argument operations exactly one, arithmetic at least
    one (also DIV), MOD exactly two. *)
Definition countOk (o : opn) (n : nat) : bool :=
  match o with
  | NBool OpNot => (n =? 1)%nat
  | NBool _ | NConcat => true
  | NArith IAbs => (n =? 1)%nat
  | NArith IMod => (n =? 2)%nat
  | NArith _ => negb (n =? 0)%nat
  | NSqrt | NRealToInt | NConv _ | NIsKnown | NArrQ _ | NStrlen => (n =? 1)%nat
  | NEq _ | NCmp _ => (n =? 2)%nat
  end.
(** checkArgTypes: SimpleOperation :89-96, 126-129; AnyArgOperation :228-231; ArithmeticOperation :347-353;
    SpecialArithmeticOperation :416-419, ArithmeticConversionOperation :480-483 (first argument);
    EqualityOperation :558-562; ComparisonOperation :688-691; ArrayOperation :745-748. *)
Definition allSameOrUnknown (t : Z) (ts : list Z) : bool := forallb (fun a => (a =? t) || (a =? UNKNOWN_TYPE)) ts.
Definition numOrUnknown (t : Z) : bool := isNumericType t || (t =? UNKNOWN_TYPE).
Definition typesOk (o : opn) (ts : list Z) : bool :=
  match o with
  | NBool _ => allSameOrUnknown BOOLEAN_TYPE ts
  | NConcat | NStrlen => allSameOrUnknown STRING_TYPE ts
  | NArith _ => forallb numOrUnknown ts
  | NSqrt | NRealToInt | NConv _ => numOrUnknown (nth 0 ts UNKNOWN_TYPE)
  | NEq _ => canBeEqual (nth 0 ts UNKNOWN_TYPE) (nth 1 ts UNKNOWN_TYPE)
  | NCmp _ => canBeCompared (nth 0 ts UNKNOWN_TYPE) (nth 1 ts UNKNOWN_TYPE)
  | NIsKnown => true
  | NArrQ _ => isArrayType (nth 0 ts UNKNOWN_TYPE)
  end.
(** getValueType: :131-135, :233-237, :355-359, :421-425, :485-489, :564-568, :693-697, :750-754. *)
Definition valueTypeOf (o : opn) (ts : list Z) (desired : Z) : Z :=
  match o with
  | NBool _ | NEq _ | NCmp _ | NIsKnown | NArrQ QAll | NArrQ QAny => BOOLEAN_TYPE
  | NConcat => STRING_TYPE
  | NStrlen | NRealToInt | NArrQ QSize | NArrQ QMaxSize => INTEGER_TYPE
  | NSqrt => REAL_TYPE
  | NArith _ => arithmeticCommonType ts desired
  | NConv _ => conversionReturnType (nth 0 ts UNKNOWN_TYPE) desired
  end.
(** The Operator instances an Operation chooses from. *)
Inductive oper : Type :=
| PBool (b : boolOp) | PInt (a : intOp) | PReal (a : realOp)
| PConvI (c : convOp) | PConvR (c : convOp) | PRealToInt
| PEq (neg : bool) | PCmpI (c : cmpOp) | PCmpR (c : cmpOp) | PCmpS (c : cmpOp)
| PIsKnown | PArrQ (q : arrQ) | PConcat | PStrlen.
(** CLASS<Integer> and CLASS<Real> of one arithmetic registration, OperationFactory.hh:83-93. *)
Definition realOf (a : intOp) : realOp :=
  match a with IAdd => FAdd | ISub => FSub | IMul => FMul | IDiv => FDiv | IMod => FMod | IMin => FMin | IMax => FMax | IAbs => FAbs end.
(** getOperator: :137-141, :239-243, :361-374, :427-431, :491-502, :570-574, :699-711, :756-760. *)
Definition getOperator (o : opn) (ts : list Z) (desired : Z) : option oper :=
  match o with
  | NBool b => Some (PBool b)
  | NArith a => let t := arithmeticCommonType ts desired in
                if t =? INTEGER_TYPE then Some (PInt a) else if t =? REAL_TYPE then Some (PReal (realOf a)) else None
  | NSqrt => Some (PReal FSqrt)
  | NRealToInt => Some PRealToInt
  | NConv c => let t := conversionReturnType (nth 0 ts UNKNOWN_TYPE) desired in
               if t =? INTEGER_TYPE then Some (PConvI c) else if t =? REAL_TYPE then Some (PConvR c) else None
  | NEq n => Some (PEq n)
  | NCmp c => let t := comparisonType (nth 0 ts UNKNOWN_TYPE) (nth 1 ts UNKNOWN_TYPE) in
              if t =? INTEGER_TYPE then Some (PCmpI c) else if t =? REAL_TYPE then Some (PCmpR c)
              else if t =? STRING_TYPE then Some (PCmpS c) else None
  | NIsKnown => Some PIsKnown
  | NArrQ q => Some (PArrQ q)
  | NConcat => Some PConcat
  | NStrlen => Some PStrlen
  end.

(** ** First pass: checkExpression (createExpression.cc:77-94). [None]: ParserException. *)
Fixpoint allSome {A} (l : list (option A)) : option (list A) :=
  match l with
  | [] => Some []
  | Some a :: r => match allSome r with Some r' => Some (a :: r') | None => None end
  | None :: _ => None
  end.
Fixpoint check (e : texp) (desired : Z) {struct e} : option Z :=
  match e with
  | XConst t _ => Some t
  | XVar tag decl _ _ => if tag =? decl then Some tag else None        (* VariableReferenceFactory.cc:55-96 *)
  | XArr _ _ => Some UNKNOWN_TYPE                                      (* ArrayVariableReferenceFactory.cc:50-62 *)
  | XLookup decl _ => Some decl                                        (* LookupFactory.cc:46-155 *)
  | XElem a idx =>                                                     (* ArrayReferenceFactory.cc:87-143 *)
      match a with
      | XArr elt _ => match check idx UNKNOWN_TYPE with Some _ => Some elt | None => None end
      | _ => match check a UNKNOWN_TYPE with
             | None => None
             | Some _ => match check idx UNKNOWN_TYPE with Some _ => Some UNKNOWN_TYPE | None => None end
             end
      end
  | XOp o args =>                                                      (* OperationFactory.cc:52-77 *)
      if countOk o (length args) then
        match allSome (map (fun a => check a UNKNOWN_TYPE) args) with
        | Some ts => if typesOk o ts then Some (valueTypeOf o ts desired) else None
        | None => None
        end
      else None
  end.

(** ** Second pass: createExpression (createExpression.cc:119-140). *)
(** Expression objects. *)
Inductive cexp : Type :=
| CLeaf (t : Z) (i : nat)
| CLook (decl : Z) (i : nat)
| CElem (a idx : cexp)
| CFun (p : oper) (args : list cexp).
(** Operator::valueType. *)
Definition operType (p : oper) : Z :=
  match p with
  | PBool _ | PEq _ | PCmpI _ | PCmpR _ | PCmpS _ | PIsKnown | PArrQ QAll | PArrQ QAny => BOOLEAN_TYPE
  | PInt _ | PConvI _ | PRealToInt | PStrlen | PArrQ QSize | PArrQ QMaxSize => INTEGER_TYPE
  | PReal _ | PConvR _ => REAL_TYPE
  | PConcat => STRING_TYPE
  end.
(** valueType() before any lookup has a value: Function.cc:60-63, ArrayReference.cc:77-83, Lookup.cc:242-247. *)
Fixpoint cType (c : cexp) : Z :=
  match c with CLeaf t _ => t | CLook d _ => d | CElem a _ => elementType (cType a) | CFun p _ => operType p end.
(** Made: constructed; Refused: ParserException; Crash: argTypes[1] read past the end of a
    one-element vector while composing the error message (OperationFactory.cc:107-112). *)
Inductive made : Type := Made (c : cexp) | Refused | Crash.
Fixpoint allMade (l : list made) : option (list cexp) + unit :=
  match l with
  | [] => inl (Some [])
  | Made c :: r => match allMade r with inl (Some cs) => inl (Some (c :: cs)) | x => x end
  | Refused :: _ => inl None
  | Crash :: _ => inr tt
  end.
Fixpoint alloc (e : texp) (desired : Z) {struct e} : made :=
  match e with
  | XConst t i => Made (CLeaf t i)
  | XVar tag _ obj i =>                                                (* VariableReferenceFactory.cc:98-128 *)
      if (tag =? obj) || ((tag =? REAL_TYPE) && (obj =? INTEGER_TYPE)) then Made (CLeaf obj i) else Refused
  | XArr elt i => Made (CLeaf (arrayOf elt) i)                         (* ArrayVariableReferenceFactory.cc:64-81 *)
  | XLookup decl i => Made (CLook (if decl =? UNKNOWN_TYPE then desired else decl) i) (* LookupFactory.cc:158-260 *)
  | XElem a idx =>                                                     (* ArrayReferenceFactory.cc:45-85, 145-159 *)
      match alloc a UNKNOWN_TYPE with
      | Made ca =>
          if isArrayType (cType ca) || (cType ca =? UNKNOWN_TYPE) then
            match alloc idx UNKNOWN_TYPE with
            | Made ci => if (cType ci =? INTEGER_TYPE) || (cType ci =? UNKNOWN_TYPE) then Made (CElem ca ci) else Refused
            | x => x
            end
          else Refused
      | x => x
      end
  | XOp o args =>                                                      (* OperationFactory.cc:79-120 *)
      match allMade (map (fun a => alloc a UNKNOWN_TYPE) args) with
      | inl (Some cs) =>
          match getOperator o (map cType cs) desired with
          | Some p => Made (CFun p cs)
          | None => if (length cs <? 2)%nat then Crash else Refused
          end
      | inl None => Refused
      | inr _ => Crash
      end
  end.
(** A plan is checked completely before anything is built (parsePlan.cc:130-137: checkPlan, then constructPlan). *)
Definition load (e : texp) (desired : Z) : made :=
  match check e desired with None => Refused | Some _ => alloc e desired end.
(** Conditions: checkCondition, parseNode.cc:444-461, and createConditions :1238-1256. *)
Definition loadCondition (e : texp) : made :=
  match check e UNKNOWN_TYPE with
  | None => Refused
  | Some t => if areTypesCompatible BOOLEAN_TYPE t then
                match alloc e UNKNOWN_TYPE with
                | Made c => if (cType c =? BOOLEAN_TYPE) || (cType c =? UNKNOWN_TYPE) then Made c else Refused
                | x => x
                end
              else Refused
  end.
(** Assignment of e to a variable of type vt: checkAssignmentBody, parseAssignment.cc:46-80, and
    finalizeAssignment :90-128. *)
Definition loadAssignment (vt : Z) (e : texp) : made :=
  match check e vt with
  | None => Refused
  | Some t => if areTypesCompatible vt t then
                match alloc e vt with
                | Made c => if areTypesCompatible vt (cType c) then Made c else Refused
                | x => x
                end
              else Refused
  end.

(** ** Evaluation. *)
(** Scalar values, internal enumeration values (with their type), arrays (element type; known flag and
    content of each element). *)
Inductive sval : Type := SB (b : bool) | SI (z : Z) | SR (r : fl) | SS (s : str).
Inductive tval : Type := TVs (v : sval) | TVe (t n : Z) | TVa (elt : Z) (l : list (bool * sval)).
Definition svalType (v : sval) : Z :=
  match v with SB _ => BOOLEAN_TYPE | SI _ => INTEGER_TYPE | SR _ => REAL_TYPE | SS _ => STRING_TYPE end.
Definition tvalType (v : tval) : Z := match v with TVs s => svalType s | TVe t _ => t | TVa e _ => e + ARRAY_TYPE end.
(** Result of a read: a value, unknown, PlanError because of a type or an unimplemented operator,
    PlanError because of an array index, undefined behaviour. *)
Inductive eres (A : Type) : Type := EVal (a : A) | EUnk | ETypeErr | EIndexErr | EUB.
Arguments EVal {A}. Arguments EUnk {A}. Arguments ETypeErr {A}. Arguments EIndexErr {A}. Arguments EUB {A}.
Definition ebind {A B} (x : eres A) (f : A -> eres B) : eres B :=
  match x with EVal a => f a | EUnk => EUnk | ETypeErr => ETypeErr | EIndexErr => EIndexErr | EUB => EUB end.
Definition eofOp {A} (r : opres A) : eres A :=
  match r with RKnown a => EVal a | RUnknown => EUnk | RError => ETypeErr | RUB => EUB end.
Definition ofOption {A} (o : option A) : eres A := match o with Some a => EVal a | None => EUnk end.
(** The virtual methods of Expression: valueType, isKnown, getValue(Boolean/Integer/Real/String/internal
    enumeration), getValuePointer(Array), toValue. *)
Record obj : Type := mkObj {
  o_type : Z; o_known : eres bool; o_B : eres bool; o_I : eres Z; o_R : eres fl; o_S : eres str;
  o_E : Z -> eres Z; o_A : eres (Z * list (bool * sval)); o_val : eres tval }.
(** (Real) of an Integer: exact. *)
Definition toReal (z : Z) : fl := binary_normalize 53 1024 _ _ mode_NE z 0 false.
(** Constants, variables, cached values: GetValueImpl.cc:36-192 over Expression.cc:120-168.  A Date or
    Duration has a Real value. *)
Definition realLike (t : Z) : bool := (t =? REAL_TYPE) || (t =? DATE_TYPE) || (t =? DURATION_TYPE).
Definition isEnumType (t : Z) : bool :=
  (t =? NODE_STATE_TYPE) || (t =? OUTCOME_TYPE) || (t =? FAILURE_TYPE) || (t =? COMMAND_HANDLE_TYPE).
Definition leafObj (t : Z) (v : option tval) : obj :=
  {| o_type := t;
     o_known := EVal (match v with Some _ => true | None => false end);
     o_B := if t =? BOOLEAN_TYPE then match v with Some (TVs (SB b)) => EVal b | _ => EUnk end else ETypeErr;
     o_I := if t =? INTEGER_TYPE then match v with Some (TVs (SI z)) => EVal z | _ => EUnk end else ETypeErr;
     o_R := if t =? INTEGER_TYPE then match v with Some (TVs (SI z)) => EVal (toReal z) | _ => EUnk end
            else if realLike t then match v with Some (TVs (SR r)) => EVal r | _ => EUnk end else ETypeErr;
     o_S := if t =? STRING_TYPE then match v with Some (TVs (SS s)) => EVal s | _ => EUnk end else ETypeErr;
     o_E := fun u => if (t =? u) && isEnumType t then match v with Some (TVe _ n) => EVal n | _ => EUnk end else ETypeErr;
     o_A := if isArrayType t then match v with Some (TVa e l) => EVal (e, l) | _ => EUnk end else ETypeErr;
     o_val := ofOption v |}.
(** Lookup, Lookup.cc:242-310: the state's cached value decides; [ct] is the cached value's type, 0 when
    there is none yet.  The internal enumerations are not supported. *)
Definition lookObj (decl ct : Z) (v : option tval) : obj :=
  if ct =? UNKNOWN_TYPE then
    {| o_type := decl; o_known := EVal false; o_B := EUnk; o_I := EUnk; o_R := EUnk; o_S := EUnk;
       o_E := fun _ => ETypeErr; o_A := EUnk; o_val := EUnk |}
  else let l := leafObj ct v in
    {| o_type := ct; o_known := o_known l; o_B := o_B l; o_I := o_I l; o_R := o_R l; o_S := o_S l;
       o_E := fun _ => ETypeErr; o_A := o_A l; o_val := o_val l |}.
(** ArrayReference: selfCheck, ArrayReference.cc:125-143; getValue :146-211; toValue :213-220.  Reading an
    element as another type is Array's default, a PlanError (Array.cc:126-160). *)
Definition selfCheck (a i : obj) : eres (Z * sval) :=
  ebind (o_I i) (fun z =>
    if z <? 0 then EIndexErr
    else ebind (o_A a) (fun '(elt, l) =>
      match nth_error l (Z.to_nat z) with
      | None => EIndexErr
      | Some (k, s) => if k : bool then EVal (elt, s) else EUnk
      end)).
Definition knownOf {A} (r : eres A) : eres bool :=
  match r with EVal _ => EVal true | EUnk => EVal false | ETypeErr => ETypeErr | EIndexErr => EIndexErr | EUB => EUB end.
Definition elemObj (a i : obj) : obj :=
  let sc := selfCheck a i in
  {| o_type := elementType (o_type a);
     o_known := knownOf sc;
     o_B := ebind sc (fun '(elt, s) => if elt =? BOOLEAN_TYPE then match s with SB b => EVal b | _ => EUnk end else ETypeErr);
     o_I := ebind sc (fun '(elt, s) => if elt =? INTEGER_TYPE then match s with SI z => EVal z | _ => EUnk end else ETypeErr);
     o_R := ebind sc (fun '(elt, s) => if elt =? INTEGER_TYPE then match s with SI z => EVal (toReal z) | _ => EUnk end
                                       else if elt =? REAL_TYPE then match s with SR r => EVal r | _ => EUnk end else ETypeErr);
     o_S := ebind sc (fun '(elt, s) => if elt =? STRING_TYPE then match s with SS x => EVal x | _ => EUnk end else ETypeErr);
     o_E := fun _ => ETypeErr;
     o_A := ETypeErr;
     o_val := ebind sc (fun '(_, s) => EVal (TVs s)) |}.

(** ** Operators. *)
(** Operands are read in order; [stop] says after which result the remaining ones are not read (they are
    handed on as unknown, which the operator no longer looks at). *)
Fixpoint consult {A} (stop : option A -> bool) (rs : list (eres A)) : eres (list (option A)) :=
  match rs with
  | [] => EVal []
  | EVal a :: r => if stop (Some a) then EVal (Some a :: map (fun _ => None) r)
                   else ebind (consult stop r) (fun l => EVal (Some a :: l))
  | EUnk :: r => if stop None then EVal (None :: map (fun _ => None) r)
                 else ebind (consult stop r) (fun l => EVal (None :: l))
  | ETypeErr :: _ => ETypeErr
  | EIndexErr :: _ => EIndexErr
  | EUB :: _ => EUB
  end.
Definition isNone {A} (o : option A) : bool := match o with None => true | Some _ => false end.
(** BooleanOperators.cc: OR stops at true (:78-118), AND at false (:144-186), XOR at the first unknown
    operand of two (:208-217) and at the first of three or more (:219-233). *)
Definition boolStop (b : boolOp) (n : nat) (o : option bool) : bool :=
  match b with
  | OpNot => false
  | OpOr => match o with Some true => true | _ => false end
  | OpAnd => match o with Some false => true | _ => false end
  | OpXor => if (2 <? n)%nat then true else isNone o
  end.
(** std::ceil, floor, round, trunc. *)
Definition convF (c : convOp) (r : fl) : fl :=
  Bnearbyint (match c with CCeil => mode_UP | CFloor => mode_DN | CRound => mode_NA | CTrunc => mode_ZR end) r.
(** ConversionOperator<NUM>::calc, ConversionOperators.cc:96-115: isKnown, then the Real value. *)
Definition convRead (c : convOp) (a : obj) : eres fl :=
  ebind (o_known a) (fun k => if k then ebind (o_R a) (fun r => EVal (convF c r)) else EUnk).
Definition toInt (r : fl) : eres Z := eofOp (realToInt (key r)).
(** compareEqual, Comparisons.cc:59-91. *)
Definition read2 {A} (get : obj -> eres A) (f : A -> A -> bool) (a b : obj) : eres bool :=
  ebind (get a) (fun x => ebind (get b) (fun y => EVal (f x y))).
Definition feq (x y : fl) : bool := Beqb x y.
Definition svalEq (a b : sval) : bool :=
  match a, b with
  | SB x, SB y => Bool.eqb x y | SI x, SI y => x =? y | SR x, SR y => feq x y | SS x, SS y => seqb x y
  | _, _ => false
  end.
Definition arrEq (x y : Z * list (bool * sval)) : bool :=
  (fst x =? fst y)
  && vec_eq Bool.eqb (map fst (snd x)) (map fst (snd y)) && vec_eq svalEq (map snd (snd x)) (map snd (snd y)).
(** isEqual, Comparisons.cc:117-159. *)
Definition equalObj (a b : obj) : eres bool :=
  let t := o_type a in
  if t =? UNKNOWN_TYPE then EUnk
  else if t =? BOOLEAN_TYPE then read2 o_B Bool.eqb a b
  else if (t =? INTEGER_TYPE) && (o_type b =? INTEGER_TYPE) then read2 o_I Z.eqb a b
  else if (t =? INTEGER_TYPE) || (t =? REAL_TYPE) then read2 o_R feq a b
  else if t =? STRING_TYPE then read2 o_S seqb a b
  else if isArrayType t then read2 o_A arrEq a b
  else if isEnumType t then read2 (fun o => o_E o t) Z.eqb a b
  else ETypeErr.
Definition fcmp (c : cmpOp) (x y : fl) : bool := realCmp c (key x) (key y).
(** Boolean-valued operators. *)
Definition evalB (p : oper) (args : list obj) : eres bool :=
  match p, args with
  | PBool b, _ => ebind (consult (boolStop b (length args)) (map o_B args)) (fun l => eofOp (boolApply b l))
  | PEq n, [a; b] => ebind (equalObj a b) (fun r => EVal (if n then negb r else r))
  | PCmpI c, [a; b] => read2 o_I (intCmp c) a b
  | PCmpR c, [a; b] => read2 o_R (fcmp c) a b
  | PCmpS c, [a; b] => read2 o_S (strCmp c) a b
  | PIsKnown, [a] => o_known a
  | PArrQ QAll, [a] => ebind (o_A a) (fun '(_, l) => EVal (forallb fst l))
  | PArrQ QAny, [a] => ebind (o_A a) (fun '(_, l) => EVal (existsb fst l))
  | _, _ => ETypeErr
  end.
(** Integer-valued operators.  Sizes are converted to int32_t. *)
Definition wrap32 (n : nat) : Z := (Z.of_nat n + 2 ^ 31) mod 2 ^ 32 - 2 ^ 31.
Definition evalI (p : oper) (args : list obj) : eres Z :=
  match p, args with
  | PInt a, _ => ebind (consult isNone (map o_I args)) (fun l => eofOp (intApply a l))
  | PConvI c, [a] => ebind (convRead c a) toInt
  | PRealToInt, [a] => ebind (o_R a) toInt
  | PStrlen, [a] => ebind (o_S a) (fun s => EVal (wrap32 (length s)))
  | PArrQ QSize, [a] | PArrQ QMaxSize, [a] => ebind (o_A a) (fun '(_, l) => EVal (wrap32 (length l)))
  | _, _ => ETypeErr
  end.
Definition evalR (p : oper) (args : list obj) : eres fl :=
  match p, args with
  | PReal a, _ => ebind (consult isNone (map o_R args)) (fun l => eofOp (realApply a l))
  | PConvR c, [a] => convRead c a
  | _, _ => ETypeErr
  end.
(** StringConcat, StringOperators.cc:49-97. *)
Definition evalS (p : oper) (args : list obj) : eres str :=
  match p with
  | PConcat => ebind (consult isNone (map o_S args))
                 (fun l => match allSome l with Some ss => EVal (concat ss) | None => EUnk end)
  | _ => ETypeErr
  end.
(** Whether reading an Integer-valued operator as Real works: OperatorImpl<Integer>::operator()(Real&)
    calls calc (OperatorImpl.cc:179-209), which STRLEN, ArraySize and ArrayMaxSize do not define
    (StringOperators.cc:118-125, ArrayOperators.cc:53-60, 83-91): calc's default is a PlanError. *)
Definition hasCalc (p : oper) : bool :=
  match p with PStrlen | PArrQ _ => false | _ => true end.
(** Function: getValue dispatches on the operator's result type (Function.cc:77-93; Operator.cc:69-113);
    isKnown and toValue read the value as that type (OperatorImpl.cc:211-283). *)
Definition funObj (p : oper) (args : list obj) : obj :=
  let t := operType p in
  let b := if t =? BOOLEAN_TYPE then evalB p args else ETypeErr in
  let i := if t =? INTEGER_TYPE then evalI p args else ETypeErr in
  let r := if t =? REAL_TYPE then evalR p args else ETypeErr in
  let s := if t =? STRING_TYPE then evalS p args else ETypeErr in
  {| o_type := t;
     o_known := if t =? BOOLEAN_TYPE then knownOf b else if t =? INTEGER_TYPE then knownOf i
                else if t =? REAL_TYPE then knownOf r else knownOf s;
     o_B := b;
     o_I := i;
     o_R := if t =? INTEGER_TYPE then (if hasCalc p then ebind i (fun z => EVal (toReal z)) else ETypeErr) else r;
     o_S := s;
     o_E := fun _ => ETypeErr;
     o_A := ETypeErr;
     o_val := if t =? BOOLEAN_TYPE then ebind b (fun x => EVal (TVs (SB x)))
              else if t =? INTEGER_TYPE then ebind i (fun x => EVal (TVs (SI x)))
              else if t =? REAL_TYPE then ebind r (fun x => EVal (TVs (SR x)))
              else ebind s (fun x => EVal (TVs (SS x))) |}.
(** The state an expression is evaluated in: values of constants and variables, and for each lookup the
    type of the cached value (0: none yet) and the value. *)
Record env : Type := mkEnv { e_leaf : nat -> option tval; e_ltype : nat -> Z; e_look : nat -> option tval }.
Fixpoint objOf (E : env) (c : cexp) : obj :=
  match c with
  | CLeaf t i => leafObj t (e_leaf E i)
  | CLook d i => lookObj d (e_ltype E i) (e_look E i)
  | CElem a i => elemObj (objOf E a) (objOf E i)
  | CFun p args => funObj p (map (objOf E) args)
  end.
(** Assignment::fixValue and execute, Assignment.cc:118-123, 139-147, with UserVariable::setValue
    (UserVariable.cc:286-303) and Value::getValue (Value.cc:742-837): the value the variable of type
    vt gets; ETypeErr is a PlanError.  Scalar variables only. *)
Definition storeAs (vt : Z) (v : eres tval) : eres tval :=
  ebind v (fun x =>
    if realLike vt then match x with TVs (SR r) => EVal (TVs (SR r)) | TVs (SI z) => EVal (TVs (SR (toReal z))) | _ => ETypeErr end
    else if tvalType x =? vt then EVal x else ETypeErr).
