(** PLEXIL operators: /repo/src/expr BooleanOperators.cc, ArithmeticOperators.cc (Integer
    instances, and Minimum/Maximum/Abs on keys are not instantiated for Real), Comparisons.cc,
    ConversionOperators.cc, and the operator selection in /repo/src/xml-parser/Operations.cc and
    argument-count dispatch in Function.cc.
    - An operand is what Expression::getValue delivers: [None] for unknown.
    - Expressions are read without side effects, so reading order only matters for errors.
    - Real +,-,*,/,fmod,sqrt: FloatModel.v. *)
From Verif Require Export ValueModel.

(** Outcome of evaluating an operator: known value, unknown, reportPlanError/errorMsg, or C++
    undefined behaviour (signed overflow, out-of-range cast, read of an uninitialised variable). *)
Inductive opres (A : Type) : Type := RKnown (a : A) | RUnknown | RError | RUB.
Arguments RKnown {A}. Arguments RUnknown {A}. Arguments RError {A}. Arguments RUB {A}.
Definition ofOpt {A} (o : option A) : opres A := match o with Some a => RKnown a | None => RUnknown end.

(** ** Boolean operators *)
(** BooleanNot::operator(), BooleanOperators.cc:49-56. *)
Definition boolNot (a : option bool) : opres bool :=
  match a with None => RUnknown | Some t => RKnown (negb t) end.
(** BooleanOr two-argument case, BooleanOperators.cc:78-98. *)
Definition boolOr2 (a b : option bool) : opres bool :=
  match a with
  | Some t => if t then RKnown true
              else match b with Some u => RKnown u | None => RUnknown end
  | None => match b with Some u => if u then RKnown u else RUnknown | None => RUnknown end
  end.
(** BooleanOr general case, BooleanOperators.cc:100-118 (loop over args with anyKnown). *)
Fixpoint boolOrLoop (anyKnown : bool) (args : list (option bool)) : opres bool :=
  match args with
  | [] => if anyKnown then RKnown false else RUnknown
  | Some t :: r => if t then RKnown true else boolOrLoop true r
  | None :: r => boolOrLoop anyKnown r
  end.
(** BooleanAnd two-argument case, BooleanOperators.cc:144-165. *)
Definition boolAnd2 (a b : option bool) : opres bool :=
  match a with
  | Some t => if negb t then RKnown false
              else match b with Some u => RKnown u | None => RUnknown end
  | None => match b with Some u => if negb u then RKnown false else RUnknown | None => RUnknown end
  end.
(** BooleanAnd general case, BooleanOperators.cc:167-186. *)
Fixpoint boolAndLoop (allKnown : bool) (args : list (option bool)) : opres bool :=
  match args with
  | [] => if allKnown then RKnown true else RUnknown
  | Some t :: r => if negb t then RKnown false else boolAndLoop allKnown r
  | None :: r => boolAndLoop false r
  end.
(** BooleanXor two-argument case, BooleanOperators.cc:208-217. *)
Definition boolXor2 (a b : option bool) : opres bool :=
  match a with
  | None => RUnknown
  | Some t => match b with None => RUnknown | Some u => RKnown (negb (Bool.eqb t u)) end
  end.
(** BooleanXor general case, BooleanOperators.cc:219-233.  Line 226 tests getValue without the
    negation the comment calls for: a known argument returns unknown, an unknown one goes on to
    read the uninitialised temp2. *)
Definition boolXorLoop (temp1 : bool) (args : list (option bool)) : opres bool :=
  match args with
  | [] => RKnown temp1
  | Some _ :: _ => RUnknown
  | None :: _ => RUB
  end.

Inductive boolOp : Type := OpNot | OpAnd | OpOr | OpXor.
(** checkArgCount: BooleanOperators.cc:38-41, 63-66, 129-132, 193-196. *)
Definition boolArgCountOk (op : boolOp) (n : nat) : bool :=
  match op with OpNot => (n =? 1)%nat | _ => negb (n =? 0)%nat end.
(** Function::getValue(Boolean&): one- and two-argument functions call the one- and two-argument
    operators, all others the general one (Function.cc:252-261, 328-337, 399-408, 522-541).
    OperatorImpl's defaults report a plan error (OperatorImpl.cc:294-319). *)
Definition boolApply (op : boolOp) (args : list (option bool)) : opres bool :=
  match op, args with
  | OpNot, [a] => boolNot a
  | OpNot, _ => RError
  | _, [a] => ofOpt a                                   (* :73-76, :139-142, :203-206 *)
  | OpAnd, [a; b] => boolAnd2 a b
  | OpOr, [a; b] => boolOr2 a b
  | OpXor, [a; b] => boolXor2 a b
  | OpAnd, _ => boolAndLoop true args
  | OpOr, _ => boolOrLoop false args
  | OpXor, _ => boolXorLoop false args
  end.

(** Boolean expressions: operands and nested Functions. *)
Inductive bexp : Type := BLeaf (n : nat) | BOp (op : boolOp) (args : list bexp).
(** What an enclosing operator sees of a result. *)
Definition seen (r : opres bool) : option bool := match r with RKnown b => Some b | _ => None end.
Fixpoint bexpEval (env : nat -> option bool) (e : bexp) : opres bool :=
  match e with
  | BLeaf n => ofOpt (env n)
  | BOp op args => boolApply op (map (fun x => seen (bexpEval env x)) args)
  end.

(** ** Integer arithmetic.  int32_t with undefined overflow ("TODO: overflow checks"). *)
Definition INT_MIN : Z := - 2 ^ 31.
Definition INT_MAX : Z := 2 ^ 31 - 1.
Definition inInt (z : Z) : bool := (INT_MIN <=? z) && (z <=? INT_MAX).
(** One machine operation whose exact result is z. *)
Definition mach (z : Z) : opres Z := if inInt z then RKnown z else RUB.
Definition rbind {A B} (x : opres A) (f : A -> opres B) : opres B :=
  match x with RKnown a => f a | RUnknown => RUnknown | RError => RError | RUB => RUB end.
(** Common shape of the two-argument cases: unknown if either operand is. *)
Definition int2 (f : Z -> Z -> opres Z) (a b : option Z) : opres Z :=
  match a with None => RUnknown | Some x => match b with None => RUnknown | Some y => f x y end end.
(** Common shape of the general cases: fold from an initial value, unknown at the first unknown. *)
Fixpoint intLoop (f : Z -> Z -> opres Z) (acc : Z) (args : list (option Z)) : opres Z :=
  match args with
  | [] => RKnown acc
  | None :: _ => RUnknown
  | Some x :: r => rbind (f acc x) (fun acc' => intLoop f acc' r)
  end.
Inductive intOp : Type := IAdd | ISub | IMul | IDiv | IMod | IMin | IMax | IAbs.
(** The machine operation: ArithmeticOperators.cc:68,82 (+), :124,147 (-), :182,197 ( * ), :224-227 (/),
    :252-255 (%), :299,314 (min), :349,364 (max).  x86 and the C++ standard make INT_MIN / -1 and
    INT_MIN % -1 undefined. *)
Definition intMach (op : intOp) (x y : Z) : opres Z :=
  match op with
  | IAdd => mach (x + y)
  | ISub => mach (x - y)
  | IMul => mach (x * y)
  | IDiv => if y =? 0 then RUnknown else mach (Z.quot x y)
  | IMod => if y =? 0 then RUnknown else rbind (mach (Z.quot x y)) (fun _ => RKnown (Z.rem x y))
  | IMin => RKnown (if x <? y then x else y)
  | IMax => RKnown (if x >? y then x else y)
  | IAbs => RError
  end.
(** The update in the loops of Minimum and Maximum, :314-315 and :364-365. *)
Definition intStep (op : intOp) (x y : Z) : opres Z :=
  match op with
  | IMin => RKnown (if y <? x then y else x)
  | IMax => RKnown (if y >? x then y else x)
  | _ => intMach op x y
  end.
(** checkArgCount: :50, :99, :164, :214, :242, :282, :332, :382, and the plan reader's minimum of one. *)
Definition intArgCountOk (op : intOp) (n : nat) : bool :=
  match op with
  | IDiv | IMod => (n =? 2)%nat
  | IAbs => (n =? 1)%nat
  | _ => negb (n =? 0)%nat
  end.
Definition intApply (op : intOp) (args : list (option Z)) : opres Z :=
  match op, args with
  | ISub, [a] => match a with None => RUnknown | Some x => mach (- x) end                    (* :109-116 *)
  | IAbs, [a] => match a with None => RUnknown | Some x => if x <? 0 then mach (- x) else RKnown x end (* :390-398 *)
  | (IAdd | IMul | IMin | IMax), [a] => ofOpt a                                                (* :56-59 etc. *)
  | (IAdd | ISub | IMul | IDiv | IMod | IMin | IMax), [a; b] => int2 (intMach op) a b
  | IAdd, _ => intLoop (intStep IAdd) 0 args                                                    (* :74-86 *)
  | (ISub | IMul | IMin | IMax), Some x :: r => intLoop (intStep op) x r   (* :129-151, :188-201, :304-319, :354-369 *)
  | (ISub | IMul | IMin | IMax), None :: _ => RUnknown
  | _, _ => RError
  end.
(** A function selected for Integer but read as Real: OperatorImpl.cc:182-209. *)
Definition intApplyReal (op : intOp) (args : list (option Z)) : opres ext :=
  rbind (intApply op args) (fun z => RKnown (ikey z)).

(** ** Real to Integer conversions on the exact value of the operand ([None] = NaN). *)
Definition SC : Z := 2 ^ 1074.
(** RealToInt, ConversionOperators.cc:45-57.  The cast of a NaN is undefined. *)
Definition realToInt (r : option ext) : opres Z :=
  if oext_lt r (Some (ikey INT_MIN)) || oext_lt (Some (ikey INT_MAX)) r then RUnknown
  else match r with
       | Some (Fin k) => let t := Z.quot k SC in if k - t * SC =? 0 then RKnown t else RUnknown
       | _ => RUB
       end.
(** ceil, floor, round (half away from zero), trunc of <cmath>: exact, NaN and infinities unchanged. *)
Inductive convOp : Type := CCeil | CFloor | CRound | CTrunc.
Definition convReal (op : convOp) (r : option ext) : option ext :=
  match r with
  | Some (Fin k) =>
      Some (ikey (match op with
                  | CFloor => k / SC
                  | CCeil => - ((- k) / SC)
                  | CTrunc => Z.quot k SC
                  | CRound => if 0 <=? k then (2 * k + SC) / (2 * SC) else - ((2 * (- k) + SC) / (2 * SC))
                  end))
  | _ => r
  end.
(** ConversionOperator<Integer>::calc, :96-107, with calcInternal of Ceiling, Floor, Round, Truncate
    (:127-203); an outer None is an unknown operand. *)
Definition convInt (op : convOp) (a : option (option ext)) : opres Z :=
  match a with None => RUnknown | Some r => realToInt (convReal op r) end.
(** ConversionOperator<Real>::calc, :109-115. *)
Definition convToReal (op : convOp) (a : option (option ext)) : opres (option ext) :=
  match a with None => RUnknown | Some r => RKnown (convReal op r) end.
(** RealToInteger::calc, :224-231. *)
Definition realToInteger (a : option (option ext)) : opres Z :=
  match a with None => RUnknown | Some r => realToInt r end.

(** ** Comparisons.  An operand: its valueType() and value.  A Date or Duration expression has a
    Real value (NodeTimepointValue.cc:86). *)
Record earg : Type := mkArg { ea_type : Z; ea_val : val }.
(** GetValueImpl.cc:36-130: getValue on the expression's own type; Integer converts to Real;
    anything else is a plan error (Expression's default methods). *)
Definition getBool (a : earg) : opres bool :=
  if ea_type a =? BOOLEAN_TYPE then match ea_val a with VBool b => RKnown b | _ => RUnknown end else RError.
Definition getInt (a : earg) : opres Z :=
  if ea_type a =? INTEGER_TYPE then match ea_val a with VInt n => RKnown n | _ => RUnknown end else RError.
Definition getReal (a : earg) : opres (option ext) :=
  if ea_type a =? INTEGER_TYPE then match ea_val a with VInt n => RKnown (Some (ikey n)) | _ => RUnknown end
  else if (ea_type a =? REAL_TYPE) || (ea_type a =? DATE_TYPE) || (ea_type a =? DURATION_TYPE)
  then match ea_val a with VReal r => RKnown (rkey r) | _ => RUnknown end
  else RError.
Definition getStr (a : earg) : opres str :=
  if ea_type a =? STRING_TYPE then match ea_val a with VStr s => RKnown s | _ => RUnknown end else RError.
(** The internal enumerations, compared as integers. *)
Definition getEnum (t : Z) (a : earg) : opres Z :=
  if ea_type a =? t then
    match ea_val a with VNodeState n | VOutcome n | VFailure n | VHandle n => RKnown n | _ => RUnknown end
  else RError.
Definition isArrayType (t : Z) : bool :=
  (t =? BOOLEAN_ARRAY_TYPE) || (t =? INTEGER_ARRAY_TYPE) || (t =? REAL_ARRAY_TYPE) || (t =? STRING_ARRAY_TYPE).
Definition getArr (a : earg) : opres val :=
  if isArrayType (ea_type a) then (if vknown (ea_val a) then RKnown (ea_val a) else RUnknown) else RError.
(** compareEqual<T>, Comparisons.cc:59-91: the second operand is read only if the first is known. *)
Definition cmp2 {A} (get : earg -> opres A) (f : A -> A -> bool) (a b : earg) : opres bool :=
  rbind (get a) (fun x => rbind (get b) (fun y => RKnown (f x y))).
(** isEqual, Comparisons.cc:117-159.  Array operator== delegates to the element type's comparison
    and is false across element types (ArrayImpl.cc:332-340). *)
Definition isEqual (a b : earg) : opres bool :=
  let t := ea_type a in
  if t =? UNKNOWN_TYPE then RUnknown
  else if t =? BOOLEAN_TYPE then cmp2 getBool Bool.eqb a b
  else if (t =? INTEGER_TYPE) && (ea_type b =? INTEGER_TYPE) then cmp2 getInt Z.eqb a b
  else if (t =? INTEGER_TYPE) || (t =? REAL_TYPE) then cmp2 getReal oext_eq a b
  else if t =? STRING_TYPE then cmp2 getStr seqb a b
  else if isArrayType t then cmp2 getArr veq a b
  else if (t =? NODE_STATE_TYPE) || (t =? OUTCOME_TYPE) || (t =? FAILURE_TYPE) || (t =? COMMAND_HANDLE_TYPE)
  then cmp2 (getEnum t) Z.eqb a b
  else RError.
(** Equal and NotEqual, Comparisons.cc:177-180, 201-208. *)
Definition opEqual (a b : earg) : opres bool := isEqual a b.
Definition opNotEqual (a b : earg) : opres bool := rbind (isEqual a b) (fun r => RKnown (negb r)).
(** IsKnown, Comparisons.cc:48-52. *)
Definition opIsKnown (a : earg) : opres bool := RKnown (vknown (ea_val a)).
(** canBeEqual, Comparisons.cc:99-115 (same in Operations.cc:525-541); isNumericType, ValueType.cc:132-144. *)
Definition isNumericType (t : Z) : bool :=
  (t =? INTEGER_TYPE) || (t =? REAL_TYPE) || (t =? DATE_TYPE) || (t =? DURATION_TYPE).
Definition canBeEqual (ta tb : Z) : bool :=
  if ta =? tb then true
  else if (ta =? UNKNOWN_TYPE) || (tb =? UNKNOWN_TYPE) then true
  else isNumericType ta && isNumericType tb.
(** canBeCompared and comparisonType, Operations.cc:597-668. *)
Definition canBeCompared (ta tb : Z) : bool :=
  if (ta =? UNKNOWN_TYPE) || (tb =? UNKNOWN_TYPE) then true
  else if isNumericType ta then isNumericType tb
  else if ta =? STRING_TYPE then tb =? STRING_TYPE
  else false.
Definition coerceDate (t : Z) : Z := if (t =? DATE_TYPE) || (t =? DURATION_TYPE) then REAL_TYPE else t.
Definition comparisonType (ta0 tb0 : Z) : Z :=
  let ta := coerceDate ta0 in
  let tb := coerceDate tb0 in
  if ta =? tb then ta
  else if ta =? UNKNOWN_TYPE then
    (if tb =? REAL_TYPE then REAL_TYPE else if tb =? INTEGER_TYPE then INTEGER_TYPE
     else if tb =? STRING_TYPE then STRING_TYPE else UNKNOWN_TYPE)
  else if ta =? INTEGER_TYPE then (if (tb =? REAL_TYPE) || (tb =? UNKNOWN_TYPE) then REAL_TYPE else UNKNOWN_TYPE)
  else if ta =? REAL_TYPE then (if (tb =? INTEGER_TYPE) || (tb =? UNKNOWN_TYPE) then REAL_TYPE else UNKNOWN_TYPE)
  else UNKNOWN_TYPE.
Inductive cmpOp : Type := CGT | CGE | CLT | CLE.
(** C++ <, >, <=, >= on Integer, Real and std::string; all false on NaN. *)
Definition intCmp (op : cmpOp) (x y : Z) : bool :=
  match op with CGT => y <? x | CGE => y <=? x | CLT => x <? y | CLE => x <=? y end.
Definition realCmp (op : cmpOp) (x y : option ext) : bool :=
  match op with
  | CGT => oext_lt y x
  | CGE => oext_lt y x || oext_eq x y
  | CLT => oext_lt x y
  | CLE => oext_lt x y || oext_eq x y
  end.
Definition strCmp (op : cmpOp) (x y : str) : bool :=
  match op with CGT => sltb y x | CGE => negb (sltb x y) | CLT => sltb x y | CLE => negb (sltb y x) end.
(** GreaterThan<T> etc., Comparisons.cc:251-361, with the operator the plan reader selects
    (Operations.cc:697-710; a null operator is a parser error). *)
Definition opCompare (op : cmpOp) (a b : earg) : opres bool :=
  let t := comparisonType (ea_type a) (ea_type b) in
  if t =? INTEGER_TYPE then cmp2 getInt (intCmp op) a b
  else if t =? REAL_TYPE then cmp2 getReal (realCmp op) a b
  else if t =? STRING_TYPE then cmp2 getStr (strCmp op) a b
  else RError.

(** ** Result type of arithmetic: arithmeticCommonType, Operations.cc:275-325 (0 = UNKNOWN_TYPE,
    which makes getOperator return null: a parser error). *)
Fixpoint commonLoop (result : Z) (types : list Z) : Z :=
  match types with
  | [] => if result =? UNKNOWN_TYPE then REAL_TYPE else result
  | t :: r =>
      if (t =? REAL_TYPE) || (t =? DATE_TYPE) || (t =? DURATION_TYPE) then commonLoop REAL_TYPE r
      else if (t =? UNKNOWN_TYPE) || (t =? INTEGER_TYPE) then
        commonLoop (if negb (result =? REAL_TYPE) then INTEGER_TYPE else result) r
      else UNKNOWN_TYPE
  end.
Definition arithmeticCommonType (types : list Z) (desired : Z) : Z :=
  match types with
  | [] => UNKNOWN_TYPE                     (* assertTrue_1 *)
  | t :: r =>
      if (t =? REAL_TYPE) || (t =? DATE_TYPE) || (t =? DURATION_TYPE) then commonLoop REAL_TYPE r
      else if t =? INTEGER_TYPE then commonLoop INTEGER_TYPE r
      else if t =? UNKNOWN_TYPE then commonLoop (if desired =? INTEGER_TYPE then INTEGER_TYPE else REAL_TYPE) r
      else UNKNOWN_TYPE
  end.
(** conversionReturnType, Operations.cc:454-464, and getOperator :491-502. *)
Definition conversionReturnType (argType desired : Z) : Z :=
  if desired =? INTEGER_TYPE then INTEGER_TYPE
  else if desired =? REAL_TYPE then REAL_TYPE
  else if argType =? UNKNOWN_TYPE then REAL_TYPE
  else argType.
