(** Model of the assignable objects of a plan: scalar variables
    (src/expr/UserVariable.cc), arrays (src/value/Array.cc, ArrayImpl.cc), array
    variables (src/expr/ArrayVariable.cc), array element references
    (src/expr/ArrayReference.cc) and the Assignment object that writes them
    (src/exec/Assignment.cc, src/expr/SimpleBooleanVariable.cc).

    The element type is an arbitrary type [T] with the C++ operator== [teq]
    (no law assumed: for Real, NaN <> NaN) and value-initialised element [dflt].
    A well-typed [Value] argument is an [option T]: None = unknown.
    (Ill-typed Values raise a plan error in Value::getValue, Value.cc:742-880,
    before anything is changed; not modelled here.)
    Every operation returns the new object and the flag "publishChange() was
    called on an active notifier", i.e. the listeners were notified
    (Notifier.cc:180-187). *)
From Coq Require Import List ZArith Bool Lia.
Import ListNotations.

(** Outcome of an operation: normal, PlanError exception, or undefined
    behaviour (null pointer, index outside a vector). *)
Inductive res (A : Type) := Ok (a : A) | PlanErr | Crash.
Arguments Ok {A} a. Arguments PlanErr {A}. Arguments Crash {A}.

Definition bind {A B} (r : res A) (f : A -> res B) : res B :=
  match r with Ok a => f a | PlanErr => PlanErr | Crash => Crash end.

Section Var.
Context {T : Type} (teq : T -> T -> bool) (dflt : T).

(** * Scalar variables: UserVariable<T> *)

(** UserVariable.hh members m_known, m_value, m_savedKnown, m_savedValue,
    m_initializer (presence only), Notifier.hh m_activeCount.  [uv_value] and
    [uv_svalue] are uninitialised memory while never assigned: any [T]. *)
Record uvar := { uv_count : nat; uv_known : bool; uv_value : T;
                 uv_sknown : bool; uv_svalue : T; uv_init : bool }.

(** UserVariable.cc:56-110 constructors; [g1], [g2]: whatever the memory held. *)
Definition newVar (hasInit : bool) (g1 g2 : T) : uvar :=
  {| uv_count := 0; uv_known := false; uv_value := g1;
     uv_sknown := false; uv_svalue := g2; uv_init := hasInit |}.

(** Notifier.cc:89-92. *)
Definition uvActive (v : uvar) : bool := negb (Nat.eqb (uv_count v) 0).

(** UserVariable.cc:193-219 getValue. *)
Definition uvRead (v : uvar) : option T :=
  if uvActive v then (if uv_known v then Some (uv_value v) else None) else None.

(** Notifier.cc:99-109 activate + UserVariable.cc:230-260 handleActivate.
    [iv]: what the initialiser's getValue yields once it has been activated.
    The counter is incremented before handleActivate, so its publishChange is
    delivered. (Counter overflow at 2^32 not modelled.) *)
Definition uvActivate (iv : option T) (v : uvar) : uvar * bool :=
  if Nat.eqb (uv_count v) 0
  then
    if uv_init v
    then match iv with
         | Some x => ({| uv_count := 1; uv_known := true; uv_value := x;
                         uv_sknown := false; uv_svalue := uv_svalue v; uv_init := true |}, true)
         | None => ({| uv_count := 1; uv_known := false; uv_value := uv_value v;
                       uv_sknown := false; uv_svalue := uv_svalue v; uv_init := true |}, false)
         end
    else ({| uv_count := 1; uv_known := false; uv_value := uv_value v;
             uv_sknown := false; uv_svalue := uv_svalue v; uv_init := false |}, false)
  else ({| uv_count := S (uv_count v); uv_known := uv_known v; uv_value := uv_value v;
           uv_sknown := uv_sknown v; uv_svalue := uv_svalue v; uv_init := uv_init v |}, false).

(** Notifier.cc:116-122 deactivate + UserVariable.cc:262-273 handleDeactivate
    (which only deactivates the initialiser).  Deactivating an inactive
    expression fails an assertion: Crash. *)
Definition uvDeactivate (v : uvar) : res (uvar * bool) :=
  match uv_count v with
  | 0 => Crash
  | S n => Ok ({| uv_count := n; uv_known := uv_known v; uv_value := uv_value v;
                  uv_sknown := uv_sknown v; uv_svalue := uv_svalue v; uv_init := uv_init v |}, false)
  end.

(** UserVariable.cc:324-341 setValueImpl. *)
Definition uvSetImpl (x : T) (v : uvar) : uvar * bool :=
  let changed := negb (uv_known v) || negb (teq x (uv_value v)) in
  ({| uv_count := uv_count v; uv_known := true; uv_value := x;
      uv_sknown := uv_sknown v; uv_svalue := uv_svalue v; uv_init := uv_init v |},
   changed && uvActive v).

(** UserVariable.cc:343-358 setUnknown. *)
Definition uvSetUnknown (v : uvar) : uvar * bool :=
  ({| uv_count := uv_count v; uv_known := false; uv_value := uv_value v;
      uv_sknown := uv_sknown v; uv_svalue := uv_svalue v; uv_init := uv_init v |},
   uv_known v && uvActive v).

(** UserVariable.cc:286-322 setValue(Value), setValue(Expression). *)
Definition uvSet (x : option T) (v : uvar) : uvar * bool :=
  match x with Some y => uvSetImpl y v | None => uvSetUnknown v end.

(** UserVariable.cc:360-371 saveCurrentValue. *)
Definition uvSave (v : uvar) : uvar :=
  {| uv_count := uv_count v; uv_known := uv_known v; uv_value := uv_value v;
     uv_sknown := uv_known v; uv_svalue := uv_value v; uv_init := uv_init v |}.

(** UserVariable.cc:373-391 restoreSavedValue. *)
Definition uvRestore (v : uvar) : uvar * bool :=
  let changed := negb (eqb (uv_known v) (uv_sknown v)) || negb (teq (uv_value v) (uv_svalue v)) in
  ({| uv_count := uv_count v; uv_known := uv_sknown v; uv_value := uv_svalue v;
      uv_sknown := uv_sknown v; uv_svalue := uv_svalue v; uv_init := uv_init v |},
   changed && uvActive v).

(** UserVariable.cc:393-402 getSavedValue: a known Value whatever m_savedKnown says. *)
Definition uvGetSaved (v : uvar) : option T := Some (uv_svalue v).

Inductive vop :=
| VAct (iv : option T) | VDeact | VSet (x : option T) | VSetUnknown | VSave | VRestore.

Definition uvStep (o : vop) (v : uvar) : res (uvar * bool) :=
  match o with
  | VAct iv => Ok (uvActivate iv v)
  | VDeact => uvDeactivate v
  | VSet x => Ok (uvSet x v)
  | VSetUnknown => Ok (uvSetUnknown v)
  | VSave => Ok (uvSave v, false)
  | VRestore => Ok (uvRestore v)
  end.

(** * Arrays: Array, ArrayImpl<T> *)

(** Array.hh m_known, ArrayImpl.hh m_contents. *)
Record ary := { a_known : list bool; a_cont : list T }.

(** ArrayImpl.cc:83-89 ArrayImpl(size). *)
Definition newAry (n : nat) : ary := {| a_known := repeat false n; a_cont := repeat dflt n |}.

(** ArrayImpl.cc:109-120 ArrayImpl(vector). *)
Definition aryOf (l : list T) : ary := {| a_known := repeat true (length l); a_cont := l |}.

(** Array.cc:72-75. *)
Definition arySize (a : ary) : nat := length (a_known a).

(** Array.hh checkIndex: index < m_known.size(). *)
Definition checkIndex (i : nat) (a : ary) : bool := Nat.ltb i (arySize a).

(** m_known[i], m_contents[i]: out of range is undefined behaviour. *)
Definition vecGet {A} (l : list A) (i : nat) : res A :=
  match nth_error l i with Some x => Ok x | None => Crash end.

Fixpoint listSet {A} (l : list A) (i : nat) (x : A) : list A :=
  match l, i with
  | [], _ => []
  | _ :: t, 0 => x :: t
  | y :: t, S j => y :: listSet t j x
  end.

Definition vecSet {A} (l : list A) (i : nat) (x : A) : res (list A) :=
  if Nat.ltb i (length l) then Ok (listSet l i x) else Crash.

(** Array.cc:77-82 elementKnown. *)
Definition elementKnown (i : nat) (a : ary) : res bool :=
  if checkIndex i a then vecGet (a_known a) i else PlanErr.

(** std::vector::resize(n, x). *)
Definition vecResize {A} (l : list A) (n : nat) (x : A) : list A :=
  firstn n l ++ repeat x (n - length l).

(** Array.cc:84-87, ArrayImpl.cc:205-215 resize. *)
Definition aryResize (n : nat) (a : ary) : ary :=
  {| a_known := vecResize (a_known a) n false; a_cont := vecResize (a_cont a) n dflt |}.

(** Array.cc:89-94 setElementUnknown. *)
Definition arySetUnknown (i : nat) (a : ary) : res ary :=
  if checkIndex i a
  then bind (vecSet (a_known a) i false) (fun k => Ok {| a_known := k; a_cont := a_cont a |})
  else PlanErr.

(** Array.cc:96-99 reset. *)
Definition aryReset (a : ary) : ary :=
  {| a_known := map (fun _ => false) (a_known a); a_cont := a_cont a |}.

(** ArrayImpl.cc:245-279 getElement, getElementPointer; also 229-243
    getElementValue, which yields the same information as a Value. *)
Definition aryGet (i : nat) (a : ary) : res (option T) :=
  if checkIndex i a
  then bind (vecGet (a_known a) i) (fun k =>
         if k then bind (vecGet (a_cont a) i) (fun x => Ok (Some x)) else Ok None)
  else Ok None.

(** ArrayImpl.cc:335-350 setElement. *)
Definition arySet (i : nat) (x : T) (a : ary) : res ary :=
  if checkIndex i a
  then bind (vecSet (a_cont a) i x) (fun c =>
       bind (vecSet (a_known a) i true) (fun k => Ok {| a_known := k; a_cont := c |}))
  else Ok a.

(** ArrayImpl.cc:352-376 setElementValue. *)
Definition arySetValue (i : nat) (x : option T) (a : ary) : res ary :=
  if checkIndex i a
  then match x with
       | Some y => bind (vecSet (a_cont a) i y) (fun c =>
                   bind (vecSet (a_known a) i true) (fun k => Ok {| a_known := k; a_cont := c |}))
       | None => bind (vecSet (a_known a) i false) (fun k => Ok {| a_known := k; a_cont := a_cont a |})
       end
  else Ok a.

(** std::vector operator==, element comparison [e]. *)
Fixpoint listEq {A} (e : A -> A -> bool) (l k : list A) : bool :=
  match l, k with
  | [], [] => true
  | x :: l', y :: k' => e x y && listEq e l' k'
  | _, _ => false
  end.

(** ArrayImpl.cc:302-317 (member) and 424-433 (free) operator==. *)
Definition aryEq (a b : ary) : bool :=
  if listEq eqb (a_known a) (a_known b) then listEq teq (a_cont a) (a_cont b) else false.

(** ArrayImpl.cc:62-73 move constructor: [Array(orig)] COPIES the known vector
    (orig is an lvalue), while the contents are moved; result: new object, moved-from object. *)
Definition aryMove (a : ary) : ary * ary := (a, {| a_known := a_known a; a_cont := [] |}).

(** * Array variables *)

(** ArrayVariable.hh members. m_value and m_savedValue are unique_ptrs. *)
Record avar := { av_count : nat; av_known : bool; av_value : option ary;
                 av_sknown : bool; av_svalue : option ary;
                 av_hasSize : bool; av_max : nat; av_init : bool }.

(** ArrayVariable.cc:40-75 constructors (then setInitializer, 212-231). *)
Definition newAVar (hasSize hasInit : bool) : avar :=
  {| av_count := 0; av_known := false; av_value := None; av_sknown := false; av_svalue := None;
     av_hasSize := hasSize; av_max := 0; av_init := hasInit |}.

Definition avActive (v : avar) : bool := negb (Nat.eqb (av_count v) 0).

(** ArrayVariable.cc:293-301 (and 523-549) getValuePointer: the array read by a client. *)
Definition avRead (v : avar) : res (option ary) :=
  if avActive v && av_known v
  then match av_value v with Some a => Ok (Some a) | None => Crash end
  else Ok None.

Definition avWith (v : avar) (known : bool) (value : option ary) : avar :=
  {| av_count := av_count v; av_known := known; av_value := value;
     av_sknown := av_sknown v; av_svalue := av_svalue v;
     av_hasSize := av_hasSize v; av_max := av_max v; av_init := av_init v |}.

(** ArrayVariable.cc:588-683 setValueImpl (all three specialisations). *)
Definition avSetImpl (a : ary) (v : avar) : res (avar * bool) :=
  if negb (av_hasSize v) || Nat.leb (arySize a) (av_max v)
  then
    let '(val, changed) :=
      match av_value v with
      | Some old => if aryEq a old then (old, negb (av_known v)) else (a, true)
      | None => (a, true)
      end in
    let val' := if Nat.ltb (arySize a) (av_max v) then aryResize (av_max v) val else val in
    Ok (avWith v true (Some val'), changed && avActive v)
  else PlanErr.

(** ArrayVariable.cc:184-190 setUnknown. *)
Definition avSetUnknown (v : avar) : avar * bool :=
  if av_known v then (avWith v false (av_value v), avActive v) else (v, false).

(** ArrayVariable.cc:233-249 setValue. *)
Definition avSet (x : option ary) (v : avar) : res (avar * bool) :=
  match x with Some a => avSetImpl a v | None => Ok (avSetUnknown v) end.

(** ArrayVariable.cc:113-169 handleActivate on the 0 -> 1 transition.
    [sz]: value of the size expression, [iv]: value of the initialiser.
    (m_sizeIsConstant only skips re-evaluating a constant; not modelled.) *)
Definition avActivate (sz : option Z) (iv : option ary) (v : avar) : res (avar * bool) :=
  if Nat.eqb (av_count v) 0
  then
    let v1 mx := {| av_count := 1; av_known := av_known v; av_value := av_value v;
                    av_sknown := av_sknown v; av_svalue := av_svalue v;
                    av_hasSize := av_hasSize v; av_max := mx; av_init := av_init v |} in
    bind (if av_hasSize v
          then match sz with
               | Some z => if (z <? 0)%Z then PlanErr else Ok (v1 (Z.to_nat z))
               | None => Ok (v1 (av_max v))
               end
          else Ok (v1 (av_max v)))
      (fun v =>
        if av_init v
        then match iv with
             | Some a =>
                 if av_hasSize v && negb (Nat.leb (arySize a) (av_max v)) then PlanErr
                 else avSetImpl a (avWith v false (av_value v))
             | None => Ok (avWith v false (av_value v), false)
             end
        else if av_hasSize v && negb (Nat.eqb (av_max v) 0)
             then match av_value v with
                  | Some a =>
                      let a1 := aryReset a in
                      let a2 := if Nat.ltb (arySize a1) (av_max v) then aryResize (av_max v) a1 else a1 in
                      Ok (avWith v true (Some a2), true)
                  | None => Ok (avWith v true (Some (newAry (av_max v))), true)
                  end
             else Ok (avWith v false (av_value v), false))
  else Ok ({| av_count := S (av_count v); av_known := av_known v; av_value := av_value v;
              av_sknown := av_sknown v; av_svalue := av_svalue v;
              av_hasSize := av_hasSize v; av_max := av_max v; av_init := av_init v |}, false).

(** Notifier.cc:116-122, ArrayVariable.cc:171-177. *)
Definition avDeactivate (v : avar) : res (avar * bool) :=
  match av_count v with
  | 0 => Crash
  | S n => Ok ({| av_count := n; av_known := av_known v; av_value := av_value v;
                  av_sknown := av_sknown v; av_svalue := av_svalue v;
                  av_hasSize := av_hasSize v; av_max := av_max v; av_init := av_init v |}, false)
  end.

(** ArrayVariable.cc:192-202 saveCurrentValue. *)
Definition avSave (v : avar) : res avar :=
  if av_known v
  then match av_value v with
       | Some a => Ok {| av_count := av_count v; av_known := av_known v; av_value := av_value v;
                         av_sknown := true; av_svalue := Some a;
                         av_hasSize := av_hasSize v; av_max := av_max v; av_init := av_init v |}
       | None => Crash
       end
  else Ok {| av_count := av_count v; av_known := av_known v; av_value := av_value v;
             av_sknown := false; av_svalue := av_svalue v;
             av_hasSize := av_hasSize v; av_max := av_max v; av_init := av_init v |}.

(** ArrayVariable.cc:449-509 equals, 686-734 restoreSavedValue. *)
Definition avRestore (v : avar) : res (avar * bool) :=
  let changed := negb (eqb (av_known v) (av_sknown v)) in
  if av_known v && av_sknown v
  then match av_value v, av_svalue v with
       | Some a, Some s =>
           if aryEq a s then Ok (avWith v (av_sknown v) (Some a), changed && avActive v)
           else Ok (avWith v (av_sknown v) (Some s), avActive v)
       | _, _ => Crash
       end
  else Ok (avWith v (av_sknown v) (av_value v), changed && avActive v).

(** ArrayVariable.cc:204-209 getSavedValue. *)
Definition avGetSaved (v : avar) : option ary := av_svalue v.

(** ArrayVariable.cc:736-806 setElement. *)
Definition avSetElem (i : nat) (x : option T) (v : avar) : res (avar * bool) :=
  match av_value v with
  | None => Crash
  | Some a =>
      bind (aryGet i a) (fun old =>
      match x, old with
      | Some y, Some z =>
          if teq y z then Ok (v, false)
          else bind (arySet i y a) (fun a' => Ok (avWith v (av_known v) (Some a'), avActive v))
      | Some y, None =>
          bind (arySet i y a) (fun a' => Ok (avWith v (av_known v) (Some a'), avActive v))
      | None, Some _ =>
          bind (arySetUnknown i a) (fun a' => Ok (avWith v (av_known v) (Some a'), avActive v))
      | None, None => Ok (v, false)
      end)
  end.

(** ArrayVariable.cc:286-291 setElementUnknown: no publishChange. *)
Definition avSetElemUnknown (i : nat) (v : avar) : res (avar * bool) :=
  if av_known v
  then match av_value v with
       | Some a => bind (arySetUnknown i a) (fun a' => Ok (avWith v (av_known v) (Some a'), false))
       | None => Crash
       end
  else Ok (v, false).

(** ArrayVariable.cc:279-284 getElementValue. *)
Definition avGetElem (i : nat) (v : avar) : res (option T) :=
  if avActive v && av_known v
  then match av_value v with Some a => aryGet i a | None => Crash end
  else Ok None.

Inductive aop :=
| AAct (sz : option Z) (iv : option ary) | ADeact | ASet (x : option ary) | ASetUnknown
| ASave | ARestore | ASetElem (i : nat) (x : option T) | ASetElemUnknown (i : nat).

Definition avStep (o : aop) (v : avar) : res (avar * bool) :=
  match o with
  | AAct sz iv => avActivate sz iv v
  | ADeact => avDeactivate v
  | ASet x => avSet x v
  | ASetUnknown => Ok (avSetUnknown v)
  | ASave => bind (avSave v) (fun v' => Ok (v', false))
  | ARestore => avRestore v
  | ASetElem i x => avSetElem i x v
  | ASetElemUnknown i => avSetElemUnknown i v
  end.

(** * Array element references *)

(** ArrayReference.cc:118-133 selfCheck + 135-190 getValue/toValue.
    [idx]: value of the index expression, [a]: value of the array expression. *)
Definition arefRead (idx : option Z) (a : option ary) : res (option T) :=
  match idx with
  | None => Ok None
  | Some z =>
      if (z <? 0)%Z then PlanErr
      else match a with
           | None => Ok None
           | Some ar =>
               if checkIndex (Z.to_nat z) ar
               then bind (vecGet (a_known ar) (Z.to_nat z)) (fun k =>
                      if k then aryGet (Z.to_nat z) ar else Ok None)
               else PlanErr
           end
  end.

(** MutableArrayReference: members m_mutableArray (the variable), m_savedValue, m_saved. *)
Record mref := { mr_var : avar; mr_svalue : option T; mr_saved : bool }.

(** ArrayReference.cc:235-248 mutableSelfCheck; [isKnown] is ArrayVariable.cc:107-110. *)
Definition mrCheck (idx : option Z) (r : mref) : res (option nat) :=
  if avActive (mr_var r) && av_known (mr_var r)
  then match idx with
       | None => Ok None
       | Some z => if (z <? 0)%Z then PlanErr else Ok (Some (Z.to_nat z))
       end
  else Ok None.

Definition mrWith (r : mref) (v : avar) : mref :=
  {| mr_var := v; mr_svalue := mr_svalue r; mr_saved := mr_saved r |}.

(** ArrayReference.cc:250-256 setValue. *)
Definition mrSet (idx : option Z) (x : option T) (r : mref) : res (mref * bool) :=
  bind (mrCheck idx r) (fun oi =>
  match oi with
  | None => Ok (r, false)
  | Some i => bind (avSetElem i x (mr_var r)) (fun p => Ok (mrWith r (fst p), snd p))
  end).

(** ArrayReference.cc:266-276 saveCurrentValue. *)
Definition mrSave (idx : option Z) (r : mref) : res mref :=
  bind (mrCheck idx r) (fun oi =>
  match oi with
  | None => Ok {| mr_var := mr_var r; mr_svalue := mr_svalue r; mr_saved := false |}
  | Some i => bind (avGetElem i (mr_var r)) (fun x =>
              Ok {| mr_var := mr_var r; mr_svalue := x; mr_saved := true |})
  end).

(** Value::operator!= on two element Values of the same type (Value.cc equals). *)
Definition optEq (x y : option T) : bool :=
  match x, y with
  | Some a, Some b => teq a b
  | None, None => true
  | _, _ => false
  end.

(** ArrayReference.cc:278-287 restoreSavedValue. *)
Definition mrRestore (idx : option Z) (r : mref) : res (mref * bool) :=
  bind (mrCheck idx r) (fun oi =>
  match oi with
  | None => Ok (r, false)
  | Some i =>
      if mr_saved r
      then bind (avGetElem i (mr_var r)) (fun cur =>
           bind (if optEq (mr_svalue r) cur then Ok (mr_var r, false)
                 else avSetElem i (mr_svalue r) (mr_var r)) (fun p =>
           Ok ({| mr_var := fst p; mr_svalue := mr_svalue r; mr_saved := false |}, snd p)))
      else Ok (r, false)
  end).

(** ArrayReference.cc:289-292. *)
Definition mrGetSaved (r : mref) : option T := mr_svalue r.

(** What a client reads through the reference. *)
Definition mrRead (idx : option Z) (r : mref) : res (option T) :=
  bind (avRead (mr_var r)) (fun a => arefRead idx a).

(** * SimpleBooleanVariable: the assignment's ack and abortComplete *)

(** SimpleBooleanVariable.cc:34-110: value and activation count. *)
Record sbv := { sb_count : nat; sb_val : bool }.

Definition sbActivate (b : sbv) : sbv :=
  {| sb_count := S (sb_count b);
     sb_val := if Nat.eqb (sb_count b) 0 then false else sb_val b |}.
Definition sbSet (x : bool) (b : sbv) : sbv :=
  if negb (Nat.eqb (sb_count b) 0) then {| sb_count := sb_count b; sb_val := x |} else b.

(** * Assignment of a scalar variable *)

(** Assignment.hh members m_dest, m_value, m_ack, m_abortComplete. *)
Record asgn := { as_dest : uvar; as_value : option T; as_ack : sbv; as_abort : sbv }.

(** Assignment.cc:122-126 fixValue; [rhs]: current value of the right-hand side. *)
Definition asFix (rhs : option T) (a : asgn) : asgn :=
  {| as_dest := uvSave (as_dest a); as_value := rhs; as_ack := as_ack a; as_abort := as_abort a |}.

(** Assignment.cc:142-149 execute; second component: the value reported to the
    exec listener, third: variable published a change. *)
Definition asExecute (a : asgn) : asgn * option T * bool :=
  let (d, p) := uvSet (as_value a) (as_dest a) in
  ({| as_dest := d; as_value := as_value a; as_ack := sbSet true (as_ack a); as_abort := as_abort a |},
   as_value a, p).

(** Assignment.cc:151-160 retract; second component: the value reported to the exec listener. *)
Definition asRetract (a : asgn) : asgn * option T * bool :=
  let (d, p) := uvRestore (as_dest a) in
  ({| as_dest := d; as_value := as_value a; as_ack := as_ack a; as_abort := sbSet true (as_abort a) |},
   uvGetSaved d, p).

End Var.
Arguments uvar : clear implicits.
Arguments ary : clear implicits.
Arguments avar : clear implicits.
Arguments mref : clear implicits.
Arguments asgn : clear implicits.
Arguments vop : clear implicits.
Arguments aop : clear implicits.
