(** Reading the values of a TestExec script, /repo/src/apps/TestExec/TestExternalInterface.cc:346-498, and the making of arrays
    from them, /repo/src/value/Value.cc:287-379.
    Simplifications:
    - XML is the tree that pugixml holds (LaunchModel.v);
    - operator>> of std::istringstream is that of libstdc++ in the "C" locale: num_get collects the
      characters of a number, which strtol and strtod (LitModel.v) read; when the text has nothing but
      white space the variable is not set;
    - reportPlanError, reportParserException and checkError end the script: no result. *)
From Coq Require Import ZArith List Bool String.
From Flocq Require Import Core BinarySingleNaN.
From Verif Require Import ValueModel FloatModel TypeModel UdpQueueModel LitModel LaunchModel.
Import ListNotations.
Open Scope Z_scope.

(** A value read: unknown (of a type), known, or whatever was in an uninitialised variable. *)
Inductive rval : Type := RUnk (t : Z) | RVal (v : sval) | RGarbage.

(** std::string::find(p) == 0 and std::string::rfind(p) != npos. *)
Fixpoint starts (p s : str) : bool :=
  match p, s with [], _ => true | x :: p', y :: s' => (x =? y) && starts p' s' | _, [] => false end.
Fixpoint contains (p s : str) : bool := starts p s || match s with [] => false | _ :: r => contains p r end.

(** ** std::istringstream >> *)
(** >> to an Integer: 0 if there are no digits, the nearest limit if the number is too large. *)
Definition clamp (z : Z) : Z := Z.max (- 2 ^ 31) (Z.min z (2 ^ 31 - 1)).
Definition getInt (s : str) : option Z :=
  match skipSpace s with
  | [] => None
  | t => let '(neg, u) := takeSign t in let '(ds, _) := takeDigits 10 u in
         Some (match ds with [] => 0 | _ => clamp (if neg then - number 10 ds else number 10 ds) end)
  end.
(** >> to a bool: 0 and 1, other numbers are true. *)
Definition getBool (s : str) : option bool :=
  match skipSpace s with
  | [] => None
  | t => let '(neg, u) := takeSign t in let '(ds, _) := takeDigits 10 u in
         Some (match ds with [] => false | _ => negb ((if neg then - number 10 ds else number 10 ds) =? 0) end)
  end.
(** >> to a Real: the characters that num_get collects (it keeps one of several leading zeros, here all are kept). *)
Fixpoint spanDigits (s : str) : str * str :=
  match s with c :: r => if (48 <=? c) && (c <=? 57) then let '(a, t) := spanDigits r in (c :: a, t) else ([], s) | [] => ([], []) end.
Definition spanSign (s : str) : str * str :=
  match s with c :: r => if (c =? 45) || (c =? 43) then ([c], r) else ([], s) | [] => ([], []) end.
Definition collect (t : str) : str :=
  let '(sg, t1) := spanSign t in
  let '(a, t2) := spanDigits t1 in
  let '(f, t3) := match t2 with c :: r => if c =? 46 then let '(b, t') := spanDigits r in (c :: b, t') else ([], t2) | [] => ([], []) end in
  let found := match a, f with [], [] => false | [], [_] => false | _, _ => true end in
  let e := match t3 with
           | c :: r => if isExp c && found then let '(esg, r1) := spanSign r in c :: esg ++ fst (spanDigits r1) else []
           | [] => []
           end in
  sg ++ a ++ f ++ e.
Definition maxReal (neg : bool) : fl := @B754_finite 53 1024 neg 9007199254740991 971 eq_refl.
Definition getReal (s : str) : option fl :=
  match skipSpace s with
  | [] => None
  | t => Some (match strtod (collect t) with
               | Some (x, []) => match x with B754_infinity neg => maxReal neg | _ => x end
               | _ => B754_zero false
               end)
  end.

Definition orGarbage {A} (f : A -> sval) (o : option A) : rval := match o with Some a => RVal (f a) | None => RGarbage end.
(** parseOneValue :457-498. *)
Definition parseOneValue (type s : str) : option rval :=
  if stricmp s (chars "Plexil_Unknown") =? 0 then Some (RUnk UNKNOWN_TYPE)
  else if starts (chars "string") type then Some (RVal (SS s))
  else if starts (chars "int") type then Some (orGarbage SI (getInt s))
  else if starts (chars "real") type then Some (orGarbage SR (getReal s))
  else if starts (chars "bool") type then
    (if stricmp s (chars "true") =? 0 then Some (RVal (SB true))
     else if stricmp s (chars "false") =? 0 then Some (RVal (SB false))
     else Some (orGarbage SB (getBool s)))
  else None.

(** ** Arrays: Value::Value(std::vector<Value> const &), Value.cc:287-379 *)
(** Garbage in a variable of type [t] is a known value of that type. *)
Definition rtype (garbage : Z) (v : rval) : Z := match v with RUnk t => t | RVal v => svalType v | RGarbage => garbage end.
(** The loop over the types, :295-308; the error is reported, None. *)
Fixpoint eltType (g t : Z) (l : list rval) : option Z :=
  match l with
  | [] => Some t
  | v :: r => let i := rtype g v in
              if t =? UNKNOWN_TYPE then eltType g i r
              else if (t =? INTEGER_TYPE) && (i =? REAL_TYPE) then eltType g i r
              else if negb (t =? i) then None
              else eltType g t r
  end.
Inductive sread : Type := SOne (v : rval) | SArray (t : Z) (l : list rval).
Definition makeArray (g : Z) (l : list rval) : option sread :=
  match eltType g UNKNOWN_TYPE l with
  | Some t => if t =? UNKNOWN_TYPE then None else Some (SArray t l)
  | None => None
  end.
Fixpoint allRead (l : list (option rval)) : option (list rval) :=
  match l with [] => Some [] | Some v :: r => option_map (cons v) (allRead r) | None :: _ => None end.
Definition garbageType (type : str) : Z := if starts (chars "int") type then INTEGER_TYPE else if starts (chars "real") type then REAL_TYPE else BOOLEAN_TYPE.
(** The values from node [tag] on: parseResult :355-367 and parseStateValue :441-453; for an array every node after the first is an element. *)
Fixpoint from (tag : string) (l : list xml) : list xml := match l with [] => [] | x :: r => if is tag x then l else from tag r end.
Definition readValues (tag : string) (type : str) (kids : list xml) : option sread :=
  match from tag kids with
  | [] => None
  | v :: r =>
      if contains (chars "array") type then
        match allRead (map (fun x => parseOneValue type (childValue x)) (v :: r)) with
        | Some l => makeArray (garbageType type) l
        | None => None
        end
      else option_map SOne (parseOneValue type (childValue v))
  end.
(** parseStateValue :432-454. *)
Definition parseStateValue (x : xml) : option sread :=
  match attr "type" x with Some (c :: t) => readValues "Value" (c :: t) (kidsOf x) | _ => None end.
(** parseResult :346-368: the Result must not be empty, and there must be an attribute. *)
Definition parseResult (x : xml) : option sread :=
  match child "Result" x with
  | Some r => match kidsOf r with [] => None | _ => match attr "type" x with Some t => readValues "Result" t (kidsOf x) | None => None end end
  | None => None
  end.
(** parseParam :385-430. *)
Definition attrOr (n : string) (x : xml) : str := match attr n x with Some s => s | None => [] end.
Definition parseParam (x : xml) : option rval :=
  let type := attrOr "type" x in
  match kidsOf x with
  | [] => if streq type (chars "string") then Some (RVal (SS [])) else None
  | _ =>
      let s := childValue x in
      if streq s (chars "UNKNOWN") then
        Some (RUnk (if streq type (chars "int") then INTEGER_TYPE else if streq type (chars "real") then REAL_TYPE
                    else if streq type (chars "bool") then BOOLEAN_TYPE else if streq type (chars "string") then STRING_TYPE else UNKNOWN_TYPE))
      else if streq type (chars "int") then Some (orGarbage SI (getInt s))
      else if streq type (chars "real") then Some (orGarbage SR (getReal s))
      else if streq type (chars "bool") then Some (orGarbage SB (getBool s))
      else Some (RVal (SS s))
  end.
