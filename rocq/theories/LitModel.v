(** Literals: /repo/src/value/ValueType.cc (parseValue, printValue, parseValueType), NodeConstants.cc, CommandHandle.cc,
    /repo/src/utils/stricmp.c, /repo/src/xml-parser/ConstantFactory.cc, ArrayLiteralFactory.cc, ArrayVariableFactory.cc (MaxSize),
    parseNode.cc (checkPriority, parsePriority).
    Simplifications:
    - a C string is the list of its characters before the NUL, each a number 1..255; the text of an XML element is
      what child_value() returns, empty if there is none;
    - strtol, strtoul and strtod are those of the C standard in the "C" locale, long having 64 bits; strtod
      rounds correctly, to nearest even;
    - exceptions are [Refused]. *)
From Coq Require Import ZArith List Bool Ascii String.
From Flocq Require Import Core BinarySingleNaN.
From Verif Require Import ValueModel FloatModel TypeModel UdpQueueModel.
Import ListNotations.
Open Scope Z_scope.

Inductive pres (A : Type) : Type := Known (a : A) | Unknown | Refused.
Arguments Known {A}. Arguments Unknown {A}. Arguments Refused {A}.
Definition streq (a b : str) : bool := if str_eq_dec a b then true else false.     (* !strcmp(a, b) *)

(** ** stricmp.c:27-66 *)
Definition upper (c : Z) : Z := if (97 <=? c) && (c <=? 122) then c - 32 else c.
Fixpoint stricmp (a b : str) : Z :=
  match a, b with
  | [], [] => 0
  | _ :: _, [] => 1
  | [], _ :: _ => -1
  | x :: a', y :: b' =>
      if x =? y then stricmp a' b'
      else if upper y <? upper x then 1 else if upper x <? upper y then -1 else stricmp a' b'
  end.
(** parseValue<Boolean>, ValueType.cc:407-451. *)
Definition parseBoolean (s : str) : pres bool :=
  match length s with
  | 1%nat => if nth 0 s 0 =? 48 then Known false else if nth 0 s 0 =? 49 then Known true else Refused
  | 4%nat => if stricmp s (chars "true") =? 0 then Known true else Refused
  | 5%nat => if stricmp s (chars "false") =? 0 then Known false else Refused
  | 7%nat => if streq s (chars "UNKNOWN") then Unknown else Refused
  | _ => Refused
  end.

(** ** strtol, strtoul *)
Definition isSpace (c : Z) : bool := (c =? 32) || ((9 <=? c) && (c <=? 13)).
Fixpoint skipSpace (s : str) : str := match s with c :: r => if isSpace c then skipSpace r else s | [] => [] end.
(** Whether there was a minus sign, and what follows the sign. *)
Definition takeSign (s : str) : bool * str :=
  match s with c :: r => if c =? 45 then (true, r) else if c =? 43 then (false, r) else (false, s) | [] => (false, []) end.
Definition digitVal (c : Z) : Z :=
  if (48 <=? c) && (c <=? 57) then c - 48
  else if (97 <=? c) && (c <=? 122) then c - 87
  else if (65 <=? c) && (c <=? 90) then c - 55 else 99.
Fixpoint takeDigits (base : Z) (s : str) : list Z * str :=
  match s with
  | c :: r => if digitVal c <? base then let '(ds, t) := takeDigits base r in (digitVal c :: ds, t) else ([], s)
  | [] => ([], [])
  end.
Definition number (base : Z) (ds : list Z) : Z := fold_left (fun a d => a * base + d) ds 0.
Definition isX (c : Z) : bool := (c =? 120) || (c =? 88).
(** Base 0: the prefix decides; "0x" counts only before a hexadecimal digit. *)
Definition choose (s : str) : Z * str :=
  match s with
  | z :: r =>
      if z =? 48 then
        match r with
        | x :: h :: r' => if isX x && (digitVal h <? 16) then (16, h :: r') else (8, s)
        | _ => (8, s)
        end
      else (10, s)
  | [] => (10, [])
  end.
(** Sign, magnitude and the unread characters; [None]: no conversion, *endptr is the start. *)
Definition strtoMag (base : Z) (s : str) : option (bool * Z * str) :=
  let '(neg, s2) := takeSign (skipSpace s) in
  let '(b, s3) := if base =? 0 then choose s2 else (base, s2) in
  let '(ds, rest) := takeDigits b s3 in
  match ds with [] => None | _ => Some (neg, number b ds, rest) end.
(** Value and whether errno is ERANGE. *)
Definition longOf (neg : bool) (m : Z) : Z * bool :=
  let v := if neg then - m else m in
  if v <? - 2 ^ 63 then (- 2 ^ 63, true) else if 2 ^ 63 - 1 <? v then (2 ^ 63 - 1, true) else (v, false).
Definition ulongOf (neg : bool) (m : Z) : Z * bool :=
  if 2 ^ 64 - 1 <? m then (2 ^ 64 - 1, true) else ((if neg then - m else m) mod 2 ^ 64, false).
(** parseValue<Integer>, :453-471. *)
Definition parseInteger (s : str) : pres Z :=
  if streq s [] || streq s (chars "UNKNOWN") then Unknown
  else match strtoMag 0 s with
       | Some (neg, m, []) =>
           let '(v, err) := longOf neg m in
           if negb err && (v <=? 2 ^ 31 - 1) && (- 2 ^ 31 <=? v) then Known v else Refused
       | _ => Refused
       end.

(** ** strtod *)
Definition isExp (c : Z) : bool := (c =? 101) || (c =? 69).
Definition isP (c : Z) : bool := (c =? 112) || (c =? 80).
(** num/den, rounded to nearest even. *)
Definition ratFl (neg : bool) (num den : positive) : fl :=
  SF2B _ (proj1 (Bdiv_correct_aux 53 1024 eq_refl eq_refl mode_NE neg num 0 false den 0)).
(** m * base^e. *)
Definition scaled (neg : bool) (m base e : Z) : fl :=
  match m with
  | Zpos p => ratFl neg (p * Z.to_pos (base ^ Z.max e 0)) (Z.to_pos (base ^ Z.max (- e) 0))
  | _ => B754_zero neg
  end.
(** Digits with an optional point: all digits, how many after the point, the rest. *)
Definition takeMantissa (base : Z) (s : str) : list Z * Z * str :=
  let '(a, r) := takeDigits base s in
  match r with
  | c :: r' => if c =? 46 then
                 let '(b, t) := takeDigits base r' in
                 match a ++ b with [] => ([], 0, s) | _ => (a ++ b, Z.of_nat (length b), t) end
               else (a, 0, r)
  | [] => (a, 0, [])
  end.
(** An exponent, if one is complete. *)
Definition takeExponent (mark : Z -> bool) (s : str) : Z * str :=
  match s with
  | c :: r => if mark c then
                let '(neg, r1) := takeSign r in
                let '(ds, t) := takeDigits 10 r1 in
                match ds with [] => (0, s) | _ => ((if neg then - number 10 ds else number 10 ds), t) end
              else (0, s)
  | [] => (0, [])
  end.
(** Does [s] start with [w], whatever the case?  The rest. *)
Fixpoint dropWord (w s : str) : option str :=
  match w, s with
  | [], _ => Some s
  | x :: w', c :: s' => if upper x =? upper c then dropWord w' s' else None
  | _, [] => None
  end.
Definition isAlnum_ (c : Z) : bool := (digitVal c <? 36) || (c =? 95).
Fixpoint dropAlnum (s : str) : str := match s with c :: r => if isAlnum_ c then dropAlnum r else s | [] => [] end.
(** "nan" may be followed by letters and digits in parentheses. *)
Definition nanTail (s : str) : str :=
  match s with
  | c :: r => if c =? 40 then match dropAlnum r with d :: t => if d =? 41 then t else s | [] => s end else s
  | [] => []
  end.
Definition hexStart (s : str) : option str :=
  match s with
  | z :: x :: r => if (z =? 48) && isX x then match fst (fst (takeMantissa 16 r)) with [] => None | _ => Some r end else None
  | _ => None
  end.
Definition strtod (s : str) : option (fl * str) :=
  let '(neg, t) := takeSign (skipSpace s) in
  match dropWord (chars "inf") t with
  | Some r => Some (B754_infinity neg, match dropWord (chars "inity") r with Some r' => r' | None => r end)
  | None =>
      match dropWord (chars "nan") t with
      | Some r => Some (B754_nan, nanTail r)
      | None =>
          match hexStart t with
          | Some r => let '(ds, k, r1) := takeMantissa 16 r in
                      let '(e, r2) := takeExponent isP r1 in Some (scaled neg (number 16 ds) 2 (e - 4 * k), r2)
          | None =>
              let '(ds, k, r1) := takeMantissa 10 t in
              match ds with
              | [] => None
              | _ => let '(e, r2) := takeExponent isExp r1 in Some (scaled neg (number 10 ds) 10 (e - k), r2)
              end
          end
      end
  end.
(** parseValue<Real>, :473-489. *)
Definition isInf (x : fl) : bool := match x with B754_infinity _ => true | _ => false end.
Definition parseReal (s : str) : pres fl :=
  if streq s [] || streq s (chars "UNKNOWN") then Unknown
  else match strtod s with
       | Some (x, []) => if isInf x then Refused else Known x
       | _ => Refused
       end.

(** ** Plan literals, ConstantFactory.cc *)
(** REAL_ONE_EXP etc., :170-201. *)
Definition fone : fl := binary_normalize 53 1024 eq_refl eq_refl mode_NE 1 0 false.
Definition realConstant (x : fl) : fl :=
  if feq x fone then fone else if feq x (B754_zero false) then B754_zero false
  else if feq x (fneg fone) then fneg fone else x.
(** <BooleanValue>, <IntegerValue>, <RealValue>, <StringValue>: check :60-106 and allocate :114-213.
    [None]: the plan is refused; [Some None]: unknown. *)
Inductive litTag : Type := LBool | LInt | LReal | LString.
Definition ofPres {A} (f : A -> sval) (p : pres A) : option (option sval) :=
  match p with Known a => Some (Some (f a)) | Unknown => Some None | Refused => None end.
Definition parseAs (t : litTag) (s : str) : option (option sval) :=
  match t with
  | LBool => ofPres SB (parseBoolean s)
  | LInt => ofPres SI (parseInteger s)
  | LReal => ofPres SR (parseReal s)
  | LString => Some (Some (SS s))
  end.
Definition literal (t : litTag) (s : str) : option (option sval) :=
  match t with
  | LString => Some (Some (SS s))
  | LReal => if streq s [] then None else ofPres (fun x => SR (realConstant x)) (parseReal s)
  | _ => if streq s [] then None else parseAs t s
  end.

(** <ArrayValue Type="...">: elements as tag and text. ArrayLiteralFactory.cc:45-132. *)
Definition testSuffix (suffix s : str) : bool :=
  if (length s <? length suffix)%nat then false else streq (skipn (length s - length suffix) s) suffix.
(** !strncmp(a, b, n) *)
Fixpoint strneq (a b : str) (n : nat) : bool :=
  match n, a, b with
  | O, _, _ => true
  | S n', x :: a', y :: b' => (x =? y) && strneq a' b' n'
  | S _, [], [] => true
  | _, _, _ => false
  end.
Definition litName (t : litTag) : str :=
  match t with LBool => chars "Boolean" | LInt => chars "Integer" | LReal => chars "Real" | LString => chars "String" end.
Definition eltOk (t : litTag) (e : str * str) : bool :=
  match t with
  | LString => streq (fst e) (chars "StringValue")
  | _ => testSuffix (chars "Value") (fst e) && strneq (fst e) (litName t) (length (fst e) - 5)
         && negb (streq (snd e) []) && match parseAs t (snd e) with Some _ => true | None => false end
  end.
Definition arrayLiteral (t : litTag) (es : list (str * str)) : option (list (option sval)) :=
  if forallb (eltOk t) es
  then Some (map (fun e => match parseAs t (snd e) with Some v => v | None => None end) es)
  else None.

(** <MaxSize> of an array declaration: the check, ArrayVariableFactory.cc:66-84, and the size built, :184-190. *)
Definition maxSizeCheck (s : str) : bool :=
  negb (streq s []) && match parseInteger s with Known n => 0 <=? n | _ => false end.
Definition maxSizeBuilt (s : str) : Z :=
  match strtoMag 10 s with Some (neg, m, _) => toInt32 (fst (longOf neg m) mod 2 ^ 32) | None => 0 end.

(** <Priority>: the check, parseNode.cc:274-296, and the priority set, :797-802. *)
Definition priorityCheck (s : str) : bool :=
  negb (streq s []) &&
  match strtoMag 10 s with
  | Some (neg, m, []) => let '(v, err) := ulongOf neg m in negb err && (v <? 2 ^ 31 - 1)
  | _ => false
  end.
Definition prioritySet (s : str) : Z :=
  match strtoMag 10 s with Some (neg, m, _) => toInt32 (fst (ulongOf neg m) mod 2 ^ 32) | None => 0 end.

(** ** Printing: printValue, ValueType.cc:335-347 (Boolean, Integer) *)
Fixpoint digitsRev (fuel : nat) (n : Z) : list Z :=
  match fuel with
  | O => []
  | S f => (n mod 10 + 48) :: (if n <? 10 then [] else digitsRev f (n / 10))
  end.
Definition printNat (n : Z) : str := rev (digitsRev (S (Z.to_nat (Z.log2 n))) n).
Definition printInteger (z : Z) : str := if z <? 0 then 45 :: printNat (- z) else printNat z.
Definition printBoolean (b : bool) : str := if b then chars "true" else chars "false".

(** ** Names *)
(** NodeConstants.cc:32-59, CommandHandle.cc:36-47; the first name stands for no value. *)
Definition stateNames : list string :=
  ["NO_STATE"; "INACTIVE"; "WAITING"; "EXECUTING"; "ITERATION_ENDED"; "FINISHED"; "FAILING"; "FINISHING"]%string.
Definition outcomeNames : list string := ["NO_OUTCOME"; "SUCCESS"; "FAILURE"; "SKIPPED"; "INTERRUPTED"]%string.
Definition failureNames : list string :=
  ["NO_FAILURE"; "PRE_CONDITION_FAILED"; "POST_CONDITION_FAILED"; "INVARIANT_CONDITION_FAILED"; "PARENT_FAILED"; "EXITED"; "PARENT_EXITED"]%string.
Definition handleNames : list string :=
  ["NO_COMMAND_HANDLE"; "COMMAND_SENT_TO_SYSTEM"; "COMMAND_ACCEPTED"; "COMMAND_RCVD_BY_SYSTEM"; "COMMAND_FAILED"; "COMMAND_DENIED";
   "COMMAND_SUCCESS"; "COMMAND_ABORTED"; "COMMAND_ABORT_FAILED"; "COMMAND_INTERFACE_ERROR"]%string.
(** The loops of parseNodeState :67-73, parseNodeOutcome :92-98, parseFailureType :117-123, parseCommandHandleValue :49-55:
    the index of a name, from 1; 0 if there is none. *)
Fixpoint searchFrom (i : nat) (names : list string) (s : str) : nat :=
  match names with [] => O | n :: r => if streq (chars n) s then i else searchFrom (S i) r s end.
Definition parseName (names : list string) (s : str) : nat := searchFrom 1 (tl names) s.
(** nodeStateName, outcomeName, failureTypeName, commandHandleValueName. *)
Definition nameOf (names : list string) (i : nat) : str := chars (nth i names (hd EmptyString names)).
(** Command handles a <NodeCommandHandleValue> may name, ConstantFactory.cc:386-405, 408-438. *)
Definition handleConstant (s : str) : option nat :=
  match parseName handleNames s with
  | (1 | 2 | 3 | 4 | 5 | 6)%nat as i => Some i
  | _ => None
  end.

(** valueTypeName, ValueType.cc:51-117. *)
Definition typeName (t : Z) : str :=
  chars (if Z.eqb t BOOLEAN_TYPE then "Boolean" else if Z.eqb t INTEGER_TYPE then "Integer" else if Z.eqb t REAL_TYPE then "Real"
   else if Z.eqb t STRING_TYPE then "String" else if Z.eqb t DATE_TYPE then "Date" else if Z.eqb t DURATION_TYPE then "Duration"
   else if Z.eqb t BOOLEAN_ARRAY_TYPE then "BooleanArray" else if Z.eqb t INTEGER_ARRAY_TYPE then "IntegerArray"
   else if Z.eqb t REAL_ARRAY_TYPE then "RealArray" else if Z.eqb t STRING_ARRAY_TYPE then "StringArray"
   else if Z.eqb t STATE_TYPE then "State" else if Z.eqb t NODE_STATE_TYPE then "NodeState" else if Z.eqb t OUTCOME_TYPE then "NodeOutcome"
   else if Z.eqb t FAILURE_TYPE then "NodeFailure" else if Z.eqb t COMMAND_HANDLE_TYPE then "NodeCommandHandle" else "UNKNOWN")%string.
(** parseValueType, :205-328: switch on the first character and the length. *)
Definition cmp (s : str) (n : string) (t : Z) : Z := if streq s (chars n) then t else UNKNOWN_TYPE.
Definition parseValueType (s : str) : Z :=
  match s with
  | [] => UNKNOWN_TYPE
  | c :: _ =>
      if c =? 65 then cmp s "Array" ARRAY_TYPE
      else if c =? 66 then match length s with 7%nat => cmp s "Boolean" BOOLEAN_TYPE | 12%nat => cmp s "BooleanArray" BOOLEAN_ARRAY_TYPE | _ => UNKNOWN_TYPE end
      else if c =? 68 then if streq s (chars "Date") then DATE_TYPE else cmp s "Duration" DURATION_TYPE
      else if c =? 73 then match length s with 7%nat => cmp s "Integer" INTEGER_TYPE | 12%nat => cmp s "IntegerArray" INTEGER_ARRAY_TYPE | _ => UNKNOWN_TYPE end
      else if c =? 78 then
        match length s with
        | 9%nat => cmp s "NodeState" NODE_STATE_TYPE
        | 11%nat => if (nth 4 s 0 =? 70) && streq s (chars "NodeFailure") then FAILURE_TYPE else cmp s "NodeOutcome" OUTCOME_TYPE
        | 17%nat => cmp s "NodeCommandHandle" COMMAND_HANDLE_TYPE
        | _ => UNKNOWN_TYPE
        end
      else if c =? 82 then match length s with 4%nat => cmp s "Real" REAL_TYPE | 9%nat => cmp s "RealArray" REAL_ARRAY_TYPE | _ => UNKNOWN_TYPE end
      else if c =? 83 then
        match length s with 5%nat => cmp s "State" STATE_TYPE | 6%nat => cmp s "String" STRING_TYPE | 11%nat => cmp s "StringArray" STRING_ARRAY_TYPE | _ => UNKNOWN_TYPE end
      else UNKNOWN_TYPE
  end.
