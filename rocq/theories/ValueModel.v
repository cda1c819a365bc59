(** PLEXIL values: /repo/src/value (Value.cc, ArrayImpl.cc, Array.cc, ValueType.cc) and
    /repo/src/intfc/State.cc: equality, ordering, serialization.
    - Bytes are integers 0..255; a [char] is signed 8 bits (Linux/x86 ABI; only the three
      array-size readers in ArrayImpl.cc use a plain char as a number).
    - Integer is int32_t, a Z in [-2^31, 2^31).
    - Real is IEEE binary64, represented by its 64-bit pattern.
    - Buffers are byte lists: serialize returns the bytes it would store (None for nullptr),
      deserialize the value and the remaining bytes. *)
From Coq Require Export List ZArith Bool Lia.
Export ListNotations.
Open Scope Z_scope.

(** ** Reals: value of a bit pattern.  Every finite double is an integer multiple of 2^-1074;
    [Fin k] stands for k * 2^-1074. *)
Inductive ext : Type := NInf | Fin (k : Z) | PInf.
Definition rkey (b : Z) : option ext :=
  let neg := 2 ^ 63 <=? b in
  let m := b mod 2 ^ 63 in
  let e := m / 2 ^ 52 in
  let f := m mod 2 ^ 52 in
  if e =? 2047 then (if f =? 0 then Some (if neg then NInf else PInf) else None)
  else let k := if e =? 0 then f else (2 ^ 52 + f) * 2 ^ (e - 1) in
       Some (Fin (if neg then - k else k)).
(** The exact value of (Real) n for an Integer n (every int32 is exactly representable). *)
Definition ikey (n : Z) : ext := Fin (n * 2 ^ 1074).
Definition ext_lt (a b : ext) : bool :=
  match a, b with
  | NInf, NInf => false | NInf, _ => true
  | _, NInf => false
  | Fin x, Fin y => x <? y
  | Fin _, PInf => true
  | PInf, _ => false
  end.
Definition ext_eq (a b : ext) : bool :=
  match a, b with NInf, NInf => true | PInf, PInf => true | Fin x, Fin y => x =? y | _, _ => false end.
(** C++ operator== and operator< on doubles (false when a NaN is involved). *)
Definition oext_eq (a b : option ext) : bool := match a, b with Some x, Some y => ext_eq x y | _, _ => false end.
Definition oext_lt (a b : option ext) : bool := match a, b with Some x, Some y => ext_lt x y | _, _ => false end.
Definition req (a b : Z) : bool := oext_eq (rkey a) (rkey b).
Definition rlt (a b : Z) : bool := oext_lt (rkey a) (rkey b).

(** ** Strings: std::string, compared byte-wise as unsigned (char_traits<char>). *)
Definition str := list Z.
Fixpoint seqb (a b : str) : bool :=
  match a, b with [], [] => true | x :: a', y :: b' => (x =? y) && seqb a' b' | _, _ => false end.
Fixpoint sltb (a b : str) : bool :=
  match a, b with
  | [], [] => false | [], _ :: _ => true | _ :: _, [] => false
  | x :: a', y :: b' => if x <? y then true else if y <? x then false else sltb a' b'
  end.

(** ** Arrays (ArrayImpl.hh): known flags and contents of the same length; the contents of
    unknown elements are retained. *)
Record arr (T : Type) : Type := mkArr { a_known : list bool; a_cont : list T }.
Arguments mkArr {T}. Arguments a_known {T}. Arguments a_cont {T}.

(** ** ValueType.hh:109-141. *)
Definition UNKNOWN_TYPE := 0. Definition BOOLEAN_TYPE := 1. Definition INTEGER_TYPE := 2.
Definition REAL_TYPE := 3. Definition STRING_TYPE := 4. Definition DATE_TYPE := 5. Definition DURATION_TYPE := 6.
Definition ARRAY_TYPE := 16. Definition BOOLEAN_ARRAY_TYPE := 17. Definition INTEGER_ARRAY_TYPE := 18.
Definition REAL_ARRAY_TYPE := 19. Definition STRING_ARRAY_TYPE := 20. Definition STATE_TYPE := 32.
Definition NODE_STATE_TYPE := 49. Definition OUTCOME_TYPE := 50. Definition FAILURE_TYPE := 51.
Definition COMMAND_HANDLE_TYPE := 52.

(** Value.hh: union + m_type + m_known.  [VUnk t] is an unknown of type t. *)
Inductive val : Type :=
| VUnk (t : Z)
| VBool (b : bool) | VInt (n : Z) | VReal (r : Z) | VStr (s : str)
| VNodeState (n : Z) | VOutcome (n : Z) | VFailure (n : Z) | VHandle (n : Z)
| VBoolArr (a : arr bool) | VIntArr (a : arr Z) | VRealArr (a : arr Z) | VStrArr (a : arr str).
Definition vtype (v : val) : Z :=
  match v with
  | VUnk t => t | VBool _ => BOOLEAN_TYPE | VInt _ => INTEGER_TYPE | VReal _ => REAL_TYPE | VStr _ => STRING_TYPE
  | VNodeState _ => NODE_STATE_TYPE | VOutcome _ => OUTCOME_TYPE | VFailure _ => FAILURE_TYPE | VHandle _ => COMMAND_HANDLE_TYPE
  | VBoolArr _ => BOOLEAN_ARRAY_TYPE | VIntArr _ => INTEGER_ARRAY_TYPE | VRealArr _ => REAL_ARRAY_TYPE | VStrArr _ => STRING_ARRAY_TYPE
  end.
Definition vknown (v : val) : bool := match v with VUnk _ => false | _ => true end.

(** std::vector operator==. *)
Fixpoint vec_eq {T} (eq : T -> T -> bool) (a b : list T) : bool :=
  match a, b with [], [] => true | x :: a', y :: b' => eq x y && vec_eq eq a' b' | _, _ => false end.
(** ArrayImpl<T>::operator==, ArrayImpl.cc:315-330. *)
Definition arr_eq {T} (eq : T -> T -> bool) (a b : arr T) : bool :=
  vec_eq Bool.eqb (a_known a) (a_known b) && vec_eq eq (a_cont a) (a_cont b).
(** operator<(ArrayImpl, ArrayImpl), ArrayImpl.cc:451-532 (general and Boolean versions). *)
Fixpoint arr_lt_loop {T} (lt : T -> T -> bool) (ka kb : list bool) (ca cb : list T) : bool :=
  match ka, kb, ca, cb with
  | x :: ka', y :: kb', u :: ca', v :: cb' =>
      if negb x && y then true
      else if x && negb y then false
      else if negb x then arr_lt_loop lt ka' kb' ca' cb'
      else if lt u v then true
      else if lt v u then false
      else arr_lt_loop lt ka' kb' ca' cb'
  | _, _, _, _ => false
  end.
Definition arr_lt {T} (lt : T -> T -> bool) (a b : arr T) : bool :=
  let sa := length (a_known a) in
  let sb := length (a_known b) in
  if (sa <? sb)%nat then true
  else if (sb <? sa)%nat then false
  else arr_lt_loop lt (a_known a) (a_known b) (a_cont a) (a_cont b).

(** Value::equals, Value.cc:996-1060. *)
Definition veq (a b : val) : bool :=
  if negb (Bool.eqb (vknown a) (vknown b)) then false
  else if vtype a =? INTEGER_TYPE then
    if vtype b =? vtype a then
      (if negb (vknown a) then true else match a, b with VInt x, VInt y => x =? y | _, _ => false end)
    else if vtype b =? REAL_TYPE then
      (if negb (vknown a) then true else match a, b with VInt x, VReal y => oext_eq (rkey y) (Some (ikey x)) | _, _ => false end)
    else false
  else if vtype a =? REAL_TYPE then
    if vtype b =? vtype a then
      (if negb (vknown a) then true else match a, b with VReal x, VReal y => req x y | _, _ => false end)
    else if vtype b =? INTEGER_TYPE then
      (if negb (vknown a) then true else match a, b with VReal x, VInt y => oext_eq (rkey x) (Some (ikey y)) | _, _ => false end)
    else false
  else if negb (vtype b =? vtype a) then false
  else if negb (vknown a) then true
  else match a, b with
       | VBool x, VBool y => Bool.eqb x y
       | VNodeState x, VNodeState y => x =? y
       | VOutcome x, VOutcome y => x =? y
       | VFailure x, VFailure y => x =? y
       | VHandle x, VHandle y => x =? y
       | VStr x, VStr y => seqb x y
       | VBoolArr x, VBoolArr y => arr_eq Bool.eqb x y
       | VIntArr x, VIntArr y => arr_eq Z.eqb x y
       | VRealArr x, VRealArr y => arr_eq req x y
       | VStrArr x, VStrArr y => arr_eq seqb x y
       | _, _ => false
       end.

Definition bool_lt (a b : bool) : bool := negb a && b.
(** Value::lessThan, Value.cc:1062-1158. *)
Definition vlt (a b : val) : bool :=
  if negb (vknown a) && vknown b then true
  else if vknown a && negb (vknown b) then false
  else if vtype a =? INTEGER_TYPE then
    if vtype a =? vtype b then
      (if vknown a then match a, b with VInt x, VInt y => x <? y | _, _ => false end else false)
    else if vtype b =? REAL_TYPE then
      (if vknown a then match a, b with VInt x, VReal y => oext_lt (Some (ikey x)) (rkey y) | _, _ => false end else true)
    else vtype a <? vtype b
  else if vtype a =? REAL_TYPE then
    if vtype a =? vtype b then
      (if vknown a then match a, b with VReal x, VReal y => rlt x y | _, _ => false end else false)
    else if vtype b =? INTEGER_TYPE then
      (if vknown a then match a, b with VReal x, VInt y => oext_lt (rkey x) (Some (ikey y)) | _, _ => false end else false)
    else vtype a <? vtype b
  else if vtype a <? vtype b then true
  else if vtype b <? vtype a then false
  else if negb (vknown a) then false
  else match a, b with
       | VBool x, VBool y => bool_lt x y
       | VNodeState x, VNodeState y => x <? y
       | VOutcome x, VOutcome y => x <? y
       | VFailure x, VFailure y => x <? y
       | VHandle x, VHandle y => x <? y
       | VStr x, VStr y => sltb x y
       | VBoolArr x, VBoolArr y => arr_lt bool_lt x y
       | VIntArr x, VIntArr y => arr_lt Z.ltb x y
       | VRealArr x, VRealArr y => arr_lt rlt x y
       | VStrArr x, VStrArr y => arr_lt sltb x y
       | _, _ => false
       end.

(** ** State: name and parameters (State.hh). *)
Record state : Type := mkState { s_name : str; s_params : list val }.
(** operator==, State.cc:273-277. *)
Definition state_eq (a b : state) : bool := seqb (s_name a) (s_name b) && vec_eq veq (s_params a) (s_params b).
(** operator<, State.cc:279-301. *)
Fixpoint params_lt (a b : list val) : bool :=
  match a, b with
  | x :: a', y :: b' => if vlt x y then true else if vlt y x then false else params_lt a' b'
  | _, _ => false
  end.
Definition state_lt (a b : state) : bool :=
  if sltb (s_name a) (s_name b) then true
  else if sltb (s_name b) (s_name a) then false
  else let n := length (s_params a) in let m := length (s_params b) in
       if (n <? m)%nat then true
       else if (m <? n)%nat then false
       else params_lt (s_params a) (s_params b).

(** ** Serialization *)
Definition byteAt (k v : Z) : Z := Z.land 255 (Z.shiftr v k).
(** Integer bytes, ValueType.cc:583-592, ArrayImpl.cc:602-610. *)
Definition serInt4 (v : Z) : list Z := [byteAt 24 v; byteAt 16 v; byteAt 8 v; byteAt 0 v].
(** Real bytes, ValueType.cc:618-636, ArrayImpl.cc:634-651. *)
Definition serReal8 (v : Z) : list Z :=
  [byteAt 56 v; byteAt 48 v; byteAt 40 v; byteAt 32 v; byteAt 24 v; byteAt 16 v; byteAt 8 v; byteAt 0 v].
(** Three size bytes, e.g. ValueType.cc:678-680. *)
Definition serSize3 (n : Z) : list Z := [byteAt 16 n; byteAt 8 n; byteAt 0 n].
(** Length-prefixed characters, ArrayImpl.cc:683-695; None when longer than 0xFFFFFF. *)
Definition serChars (s : str) : option (list Z) :=
  let n := Z.of_nat (length s) in
  if 16777215 <? n then None else Some (serSize3 n ++ s).
(** serializeBoolVector, ArrayImpl.cc:717-771: per byte up to 8 flags, first flag at mask 0x80. *)
Fixpoint maskBits (mask : Z) (l : list bool) : Z :=
  match l with [] => 0 | b :: l' => Z.lor (if b then mask else 0) (maskBits (Z.shiftr mask 1) l') end.
Fixpoint packBits (fuel : nat) (l : list bool) : list Z :=
  match fuel with
  | O => []
  | S f => match l with [] => [] | _ => maskBits 128 (firstn 8 l) :: packBits f (skipn 8 l) end
  end.
Definition serBools (l : list bool) : list Z := packBits (length l) l.
(** Element loop, ArrayImpl.cc:856-860 and 905-910. *)
Fixpoint serElts {T} (ser : T -> option (list Z)) (l : list T) : option (list Z) :=
  match l with
  | [] => Some []
  | x :: l' => match ser x, serElts ser l' with Some a, Some b => Some (a ++ b) | _, _ => None end
  end.
(** ArrayImpl<T>::serialize, ArrayImpl.cc:837-912. *)
Definition serArr {T} (tag : Z) (serC : list T -> option (list Z)) (a : arr T) : option (list Z) :=
  let n := Z.of_nat (length (a_known a)) in
  if 16777215 <? n then None
  else match serC (a_cont a) with
       | Some c => Some (tag :: serSize3 n ++ serBools (a_known a) ++ c)
       | None => None
       end.
(** Value::serialize, Value.cc:1160-1191. *)
Definition vser (v : val) : option (list Z) :=
  match v with
  | VUnk _ => Some [UNKNOWN_TYPE]
  | VBool b => Some [BOOLEAN_TYPE; if b then 1 else 0]
  | VInt n => Some (INTEGER_TYPE :: serInt4 n)
  | VReal r => Some (REAL_TYPE :: serReal8 r)
  | VStr s => match serChars s with Some c => Some (STRING_TYPE :: c) | None => None end
  | VHandle h => Some [COMMAND_HANDLE_TYPE; h]
  | VBoolArr a => serArr BOOLEAN_ARRAY_TYPE (fun c => Some (serBools c)) a
  | VIntArr a => serArr INTEGER_ARRAY_TYPE (serElts (fun n => Some (serInt4 n))) a
  | VRealArr a => serArr REAL_ARRAY_TYPE (serElts (fun n => Some (serReal8 n))) a
  | VStrArr a => serArr STRING_ARRAY_TYPE (serElts serChars) a
  | VNodeState _ | VOutcome _ | VFailure _ => None
  end.
(** State::serialize, State.cc:218-230.  Outer None: the name does not fit, and the code goes
    on to write through a null pointer; inner None: a parameter cannot be serialized. *)
Definition sser (s : state) : option (option (list Z)) :=
  match vser (VStr (s_name s)) with
  | None => None
  | Some nm => Some (match serElts vser (s_params s) with
                     | Some ps => Some (STATE_TYPE :: nm ++ serSize3 (Z.of_nat (length (s_params s))) ++ ps)
                     | None => None
                     end)
  end.

(** Announced sizes: ValueType.cc serialSize specializations, ArrayImpl.cc:986-1013, Value.cc:1263-1294. *)
Definition bitVectorSize (n : Z) : Z := n / 8 + (if n mod 8 =? 0 then 0 else 1).
Definition vsize (v : val) : Z :=
  match v with
  | VUnk _ => 1
  | VBool _ => 2 | VInt _ => 5 | VReal _ => 9
  | VStr s => Z.of_nat (length s) + 4
  | VHandle _ => 2
  | VBoolArr a => 4 + 2 * bitVectorSize (Z.of_nat (length (a_known a)))
  | VIntArr a => let n := Z.of_nat (length (a_known a)) in 4 + bitVectorSize n + n * 4
  | VRealArr a => let n := Z.of_nat (length (a_known a)) in 4 + bitVectorSize n + n * 8
  | VStrArr a => let n := Z.of_nat (length (a_known a)) in
                 fold_left (fun r s => r + (3 + Z.of_nat (length s))) (a_cont a) (4 + bitVectorSize n)
  | VNodeState _ | VOutcome _ | VFailure _ => 0
  end.
(** State::serialSize, State.cc:259-265. *)
Definition ssize (s : state) : Z :=
  fold_left (fun r v => r + vsize v) (s_params s) (4 + vsize (VStr (s_name s))).

(** ** Deserialization *)
Inductive dres (A : Type) : Type :=
| DOk (a : A) (rest : list Z) | DNull (* returned nullptr *) | DOver (* read past the bytes given *) | DThrow (* exception *).
Arguments DOk {A}. Arguments DNull {A}. Arguments DOver {A}. Arguments DThrow {A}.
Definition dbind {A B} (x : dres A) (f : A -> list Z -> dres B) : dres B :=
  match x with DOk a r => f a r | DNull => DNull | DOver => DOver | DThrow => DThrow end.
Definition get1 (buf : list Z) : dres Z := match buf with [] => DOver | b :: r => DOk b r end.
Definition getTag (tag : Z) (buf : list Z) : dres unit :=
  dbind (get1 buf) (fun b r => if b =? tag then DOk tt r else DNull).
(** Conversion of a uint32_t to Integer. *)
Definition toInt32 (u : Z) : Z := if u <? 2 ^ 31 then u else u - 2 ^ 32.
(** ValueType.cc:595-606, ArrayImpl.cc:613-622. *)
Definition desInt4 (buf : list Z) : dres Z :=
  dbind (get1 buf) (fun b3 r => dbind (get1 r) (fun b2 r => dbind (get1 r) (fun b1 r => dbind (get1 r) (fun b0 r =>
    DOk (toInt32 (((b3 * 256 + b2) * 256 + b1) * 256 + b0)) r)))).
(** ValueType.cc:639-658, ArrayImpl.cc:654-671. *)
Definition desReal8 (buf : list Z) : dres Z :=
  dbind (get1 buf) (fun b7 r => dbind (get1 r) (fun b6 r => dbind (get1 r) (fun b5 r => dbind (get1 r) (fun b4 r =>
  dbind (get1 r) (fun b3 r => dbind (get1 r) (fun b2 r => dbind (get1 r) (fun b1 r => dbind (get1 r) (fun b0 r =>
    DOk (((((((b7 * 256 + b6) * 256 + b5) * 256 + b4) * 256 + b3) * 256 + b2) * 256 + b1) * 256 + b0) r)))))))).
(** Three size bytes read as unsigned char: ValueType.cc:692-694, ArrayImpl.cc:701-703, State.cc:244-246. *)
Definition desSize3u (buf : list Z) : dres Z :=
  dbind (get1 buf) (fun b2 r => dbind (get1 r) (fun b1 r => dbind (get1 r) (fun b0 r =>
    DOk ((b2 * 256 + b1) * 256 + b0) r))).
(** Three size bytes read as plain char and widened to size_t: ArrayImpl.cc:929-932, 950-952, 968-971. *)
Definition schar (b : Z) : Z := if b <? 128 then b else b - 256.
Definition u64 (z : Z) : Z := z mod 2 ^ 64.
Definition desSize3s (buf : list Z) : dres Z :=
  dbind (get1 buf) (fun b2 r => dbind (get1 r) (fun b1 r => dbind (get1 r) (fun b0 r =>
    DOk (u64 (u64 (u64 (u64 (schar b2) * 256) + u64 (schar b1)) * 256 + u64 (schar b0))) r))).
(** n characters. *)
Definition getN (n : Z) (buf : list Z) : dres str :=
  if Z.of_nat (length buf) <? n then DOver else DOk (firstn (Z.to_nat n) buf) (skipn (Z.to_nat n) buf).
(** ArrayImpl.cc:698-707. *)
Definition desChars (buf : list Z) : dres str := dbind (desSize3u buf) getN.
(** deserializeBoolVector, ArrayImpl.cc:776-828. *)
Fixpoint unmask (n : nat) (mask b : Z) : list bool :=
  match n with O => [] | S m => negb (Z.land b mask =? 0) :: unmask m (Z.shiftr mask 1) b end.
Fixpoint unpackBits (fuel : nat) (n : nat) (buf : list Z) : dres (list bool) :=
  match fuel with
  | O => DOk [] buf
  | S f => match n with
           | O => DOk [] buf
           | _ => dbind (get1 buf) (fun b r => dbind (unpackBits f (n - 8)%nat r) (fun l r' => DOk (unmask (Nat.min n 8) 128 b ++ l) r'))
           end
  end.
Definition desBools (n : nat) (buf : list Z) : dres (list bool) := unpackBits n n buf.
(** Element loop, ArrayImpl.cc:937-938. *)
Fixpoint desElts {T} (des : list Z -> dres T) (n : nat) (buf : list Z) : dres (list T) :=
  match n with
  | O => DOk [] buf
  | S m => dbind (des buf) (fun x r => dbind (desElts des m r) (fun l r' => DOk (x :: l) r'))
  end.
(** ArrayImpl<T>::deserialize, ArrayImpl.cc:922-981.  The array is resized to the decoded size
    (std::length_error beyond max_size, taken as 2^62) and every element is overwritten. *)
Definition desArr {T} (tag : Z) (desC : nat -> list Z -> dres (list T)) (buf : list Z) : dres (arr T) :=
  dbind (getTag tag buf) (fun _ r => dbind (desSize3s r) (fun n r =>
    if 2 ^ 62 <? n then DThrow
    else dbind (desBools (Z.to_nat n) r) (fun k r => dbind (desC (Z.to_nat n) r) (fun c r => DOk (mkArr k c) r)))).
(** Value::deserialize, Value.cc:1193-1261. *)
Definition dmap {A B} (f : A -> B) (x : dres A) : dres B := dbind x (fun a r => DOk (f a) r).
Definition vdes (buf : list Z) : dres val :=
  match buf with
  | [] => DOver
  | t :: r =>
      if t =? UNKNOWN_TYPE then DOk (VUnk UNKNOWN_TYPE) r
      else if t =? BOOLEAN_TYPE then dmap (fun b => VBool (negb (b =? 0))) (get1 r)
      else if t =? INTEGER_TYPE then dmap VInt (desInt4 r)
      else if t =? REAL_TYPE then dmap VReal (desReal8 r)
      else if t =? STRING_TYPE then dmap VStr (desChars r)
      else if t =? COMMAND_HANDLE_TYPE then dmap VHandle (get1 r)
      else if t =? BOOLEAN_ARRAY_TYPE then dmap VBoolArr (desArr BOOLEAN_ARRAY_TYPE desBools buf)
      else if t =? INTEGER_ARRAY_TYPE then dmap VIntArr (desArr INTEGER_ARRAY_TYPE (desElts desInt4) buf)
      else if t =? REAL_ARRAY_TYPE then dmap VRealArr (desArr REAL_ARRAY_TYPE (desElts desReal8) buf)
      else if t =? STRING_ARRAY_TYPE then dmap VStrArr (desArr STRING_ARRAY_TYPE (desElts desChars) buf)
      else DNull
  end.
(** State::deserialize, State.cc:238-251. *)
Definition sdes (buf : list Z) : dres state :=
  dbind (getTag STATE_TYPE buf) (fun _ r =>
  dbind (getTag STRING_TYPE r) (fun _ r => dbind (desChars r) (fun nm r =>
  dbind (desSize3u r) (fun n r => dbind (desElts vdes (Z.to_nat n) r) (fun ps r => DOk (mkState nm ps) r))))).
