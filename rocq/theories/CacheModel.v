(** Model of the state cache and of Lookup expressions: src/intfc/CachedValueImpl.cc,
    StateCacheEntry.cc, StateCache.cc, Lookup.cc.

    Simplifications, common to the whole file:
    - a lookup's state name and parameter expressions are represented by the state they
      currently compute ([l_env], None while some part is unknown), its tolerance expression
      by its current value ([l_tol]); a change of either is one event ([OEnv], [OTol]) and
      reaches an active lookup as one handleChange call, which presumes that somebody
      listens to the lookup (Lookup.cc 190-211 only listens to parameters then);
    - publishChange is recorded in a trace; what listeners do in reaction is not part of this
      model (a lookup whose parameter is another lookup sees a separate [OEnv] event);
    - what the interface does inside lookupNow is an arbitrary list of calls on the receiver,
      supplied with the operation ([ans]);
    - std::map<State,...> is a list searched for the first key that is neither less nor greater
      ([state_lt]), new keys at the end;
    - None means an assertion/errorMsg/PlanError fires or a dangling or null pointer is used. *)
From Verif Require Import ValueModel OpModel RealModel.
Open Scope Z_scope.

(** ** CachedValue: value (unknown of the cache's type when not known) and timestamp;
    type UNKNOWN_TYPE is VoidCachedValue (CachedValueImpl.cc 44-90). *)
Record cv := mkCv { cv_v : val; cv_ts : nat }.
Definition cvType (c : cv) : Z := vtype (cv_v c).

(** CachedValueFactory, CachedValueImpl.cc 670-709 (timestamp 0: CachedValue.cc 34-37). *)
Definition cvFactory (t : Z) : option cv :=
  if (t =? DATE_TYPE) || (t =? DURATION_TYPE) || (t =? REAL_TYPE) then Some (mkCv (VUnk REAL_TYPE) 0)
  else if (t =? BOOLEAN_TYPE) || (t =? INTEGER_TYPE) || (t =? STRING_TYPE) || (t =? BOOLEAN_ARRAY_TYPE)
       || (t =? INTEGER_ARRAY_TYPE) || (t =? REAL_ARRAY_TYPE) || (t =? STRING_ARRAY_TYPE) || (t =? UNKNOWN_TYPE)
       then Some (mkCv (VUnk t) 0)
  else None.

(** update of a typed cache with a native value of its type, CachedValueImpl.cc 517-568, 633-666
    (!= on the native type is the negation of [veq] between two known values of one type). *)
Definition cvStore (c : cv) (ts : nat) (v : val) : cv * bool :=
  if negb (vknown (cv_v c)) || negb (veq (cv_v c) v) then (mkCv v ts, true) else (c, false).

(** setUnknown, CachedValueImpl.cc 394-431; VoidCachedValue's, CachedValueImpl.hh 112-115. *)
Definition cvSetUnknown (c : cv) (ts : nat) : cv * bool :=
  if cvType c =? UNKNOWN_TYPE then (c, false)
  else (mkCv (VUnk (cvType c)) ts, vknown (cv_v c)).

(** update from a Value, CachedValueImpl.cc 81-90, 570-631; Value::getValue, Value.cc 785-826;
    Integer to Real: CachedValueImpl.cc 562-566, Value.cc 817-819.  The native overloads of
    StateCacheEntry::update (StateCacheEntry.cc 229-311) have the effect of this one on the
    Value of the same type. *)
Definition cvUpdate (c : cv) (ts : nat) (v : val) : option (cv * bool) :=
  if cvType c =? UNKNOWN_TYPE then
    if vknown v then None else Some (mkCv (VUnk UNKNOWN_TYPE) ts, true)
  else match v with
       | VUnk _ => Some (cvSetUnknown c ts)
       | VInt n => if cvType c =? REAL_TYPE then Some (cvStore c ts (VReal (intBits n)))
                   else if cvType c =? INTEGER_TYPE then Some (cvStore c ts v) else None
       | _ => if vtype v =? cvType c then Some (cvStore c ts v) else None
       end.

(** ** Thresholds: ThresholdCacheImpl<Integer>/<Real>, Lookup.cc 540-652. *)
Inductive thr :=
| TI (lo hi tol : Z) (wk : bool)
| TR (lo hi tol : real) (wk : bool).
(** 32-bit two's complement; signed overflow is undefined in C++, wrapping in practice. *)
Definition wrap32 (z : Z) : Z := toInt32 (z mod 2 ^ 32).
(** tolerance->getValue(NUM): the tolerance is known at every call (Lookup.cc 1000, 1035). *)
Definition tolI (tv : val) : option Z :=
  match tv with VInt z => Some (if z <? 0 then wrap32 (- z) else z) | _ => None end.
Definition realOf (v : val) : option real :=
  match v with VReal r => Some (rkey r) | VInt z => Some (Some (ikey z)) | _ => None end.
Definition tolR (tv : val) : option real :=
  option_map (fun r => if oext_lt r (Some (Fin 0)) then rneg r else r) (realOf tv).
(** toleranceChanged, Lookup.cc 559-575. *)
Definition tolChanged (t : thr) (tv : val) : option bool :=
  match t with
  | TI _ _ tol _ => option_map (fun z => negb (z =? tol)) (tolI tv)
  | TR _ _ tol _ => option_map (fun r => negb (oext_eq r tol)) (tolR tv)
  end.
(** setThresholds, Lookup.cc 586-613. *)
Definition setThr (t : thr) (v tv : val) : option thr :=
  match t with
  | TI lo hi tol wk =>
      match tolI tv, v with
      | Some z, VInt b => Some (TI (wrap32 (b - z)) (wrap32 (b + z)) z true)
      | Some _, VUnk _ => Some (TI lo hi tol false)
      | _, _ => None
      end
  | TR lo hi tol wk =>
      match tolR tv, v with
      | Some z, VUnk _ => Some (TR lo hi tol false)
      | Some z, _ => option_map (fun b => TR (rsub b z) (radd b z) z true) (realOf v)
      | None, _ => None
      end
  end.
(** thresholdsExceeded, Lookup.cc 627-670. *)
Definition thrExceeded (t : thr) (v : val) : option bool :=
  match t with
  | TI lo hi tol wk =>
      match v with
      | VInt c => Some ((hi <=? c) || (c <=? lo))
      | VUnk _ => Some wk
      | _ => None
      end
  | TR lo hi tol wk =>
      match v with
      | VUnk _ => Some wk
      | _ => option_map (fun c =>
               if negb wk then true
               else if rge c hi || rle c lo then true
               else let eps := rmulc (rabs c) c13M c13p in
                    oext_lt (rsub hi c) eps || oext_lt (rsub c lo) eps) (realOf v)
      end
  end.
(** ThresholdCacheFactory, Lookup.cc 679-700.  The members are uninitialised in the code; they
    are set by the setThresholds call which follows (Lookup.cc 1046-1052, value known). *)
Definition thrFactory (t : Z) : option thr :=
  if t =? INTEGER_TYPE then Some (TI 0 0 0 false)
  else if (t =? UNKNOWN_TYPE) || (t =? DATE_TYPE) || (t =? DURATION_TYPE) || (t =? REAL_TYPE)
       then Some (TR (Some (Fin 0)) (Some (Fin 0)) (Some (Fin 0)) false)
  else None.

(** ** State cache entries (StateCacheEntry.cc 520-540): value, registered lookups, and whether
    m_lowThreshold/m_highThreshold are present. *)
Record entry := mkEnt { e_val : option cv; e_lk : list nat; e_thr : bool }.
Definition ent0 : entry := mkEnt None [] false.

(** ** Lookups (Lookup.cc 70-108, 712-729).
    l_onch: LookupOnChange; l_const: m_stateIsConstant; l_tolconst: the tolerance is a constant
    (known whether activated or not); l_cnt: activation count; l_st, l_known, l_ent, l_reg:
    m_cachedState, m_stateKnown, m_entry, m_isRegistered; l_thr, l_cv: m_thresholds,
    m_cachedValue; l_env: the state the name and parameters currently denote; l_tol: the
    current value of the tolerance expression, l_tola: it is active. *)
Record lk := mkLk {
  l_onch : bool; l_const : bool; l_tolconst : bool;
  l_cnt : nat; l_st : state; l_known : bool; l_ent : option nat; l_reg : bool;
  l_thr : option thr; l_cv : option cv; l_env : option state; l_tol : val; l_tola : bool }.

(** Observable events.  [Got s u]: the interface delivered update u for state s;
    [Ask s]: the cache asked the interface for the value of s (lookupNow);
    [Pub l]: lookup l notified its listeners; [SetT]/[ClrT]: thresholds sent to the interface;
    [Del s]: the cache entry of s was deleted; [Cyc]: a new macro step began. *)
Inductive upd := UVal (v : val) | UUnk.
Inductive ev :=
| Got (s : state) (u : upd) | Ask (s : state) | Pub (l : nat)
| SetTI (s : state) (hi lo : Z) | SetTR (s : state) (hi lo : real) | ClrT (s : state) | Del (s : state) | Cyc.

Record world := mkW {
  w_map : list (state * nat); w_ent : nat -> entry; w_next : nat;
  w_lk : nat -> lk; w_cyc : nat; w_tr : list ev }.

Definition updf {A} (f : nat -> A) (i : nat) (x : A) : nat -> A := fun j => if Nat.eqb j i then x else f j.
Definition setEnt w e x := mkW (w_map w) (updf (w_ent w) e x) (w_next w) (w_lk w) (w_cyc w) (w_tr w).
Definition setLk w l x := mkW (w_map w) (w_ent w) (w_next w) (updf (w_lk w) l x) (w_cyc w) (w_tr w).
Definition emit w v := mkW (w_map w) (w_ent w) (w_next w) (w_lk w) (w_cyc w) (w_tr w ++ [v]).
Definition obind {A B} (x : option A) (f : A -> option B) : option B := match x with Some a => f a | None => None end.

(** Use of a StateCacheEntry pointer: the entry must not have been deleted. *)
Definition live w (e : nat) : bool := existsb (fun p => Nat.eqb (snd p) e) (w_map w).
Definition getE w e : option entry := if live w e then Some (w_ent w e) else None.

(** std::map::find, StateCache.cc 112-118. *)
Definition same_key (a b : state) : bool := negb (state_lt a b) && negb (state_lt b a).
Fixpoint findKey (s : state) (m : list (state * nat)) : option nat :=
  match m with [] => None | (k, e) :: r => if same_key k s then Some e else findKey s r end.
(** ensureStateCacheEntry, StateCache.cc 111-117. *)
Definition ensureE w (s : state) : world * nat :=
  match findKey s (w_map w) with
  | Some e => (w, e)
  | None => let e := w_next w in
            (mkW (w_map w ++ [(s, e)]) (updf (w_ent w) e ent0) (S e) (w_lk w) (w_cyc w) (w_tr w), e)
  end.

Definition lkActive (x : lk) : bool := Nat.ltb 0 (l_cnt x).
Definition lkTol (x : lk) : val := if l_tolconst x || l_tola x then l_tol x else VUnk UNKNOWN_TYPE.
Definition entKnown (x : entry) : bool := match e_val x with Some c => vknown (cv_v c) | None => false end.
Definition entType (x : entry) : Z := match e_val x with Some c => cvType c | None => UNKNOWN_TYPE end.

(** Notifier::publishChange (Notifier.cc 180-190): only when active. *)
Definition publish w l := if lkActive (w_lk w l) then emit w (Pub l) else w.

(** getThresholds, Lookup.cc 336-344 (base class: none), 778-826. *)
Definition lkThr (w : world) (l : nat) : option thr :=
  let x := w_lk w l in if l_onch x && lkActive x then l_thr x else None.
(** Survey of the registered lookups, StateCacheEntry.cc 431-453 (Integer); a Real threshold
    cache asked for Integers is an error (Lookup.cc 524-528). *)
Fixpoint surveyI (w : world) (ls : list nat) (acc : option (Z * Z)) : option (option (Z * Z)) :=
  match ls with
  | [] => Some acc
  | l :: r =>
      match lkThr w l with
      | None => surveyI w r acc
      | Some (TI lo hi _ _) =>
          surveyI w r (Some (match acc with
                             | None => (lo, hi)
                             | Some (alo, ahi) => (if alo <? lo then lo else alo, if hi <? ahi then hi else ahi)
                             end))
      | Some (TR _ _ _ _) => None
      end
  end.
(** The same for Real, StateCacheEntry.cc 475-495. *)
Fixpoint surveyR (w : world) (ls : list nat) (acc : option (real * real)) : option (option (real * real)) :=
  match ls with
  | [] => Some acc
  | l :: r =>
      match lkThr w l with
      | None => surveyR w r acc
      | Some (TR lo hi _ _) =>
          surveyR w r (Some (match acc with
                             | None => (lo, hi)
                             | Some (alo, ahi) => (if oext_lt alo lo then lo else alo, if oext_lt hi ahi then hi else ahi)
                             end))
      | Some (TI _ _ _ _) => None
      end
  end.
Definition setThrFlag w e (b : bool) := let x := w_ent w e in setEnt w e (mkEnt (e_val x) (e_lk x) b).

(** updateThresholds with integer/realUpdateThresholds, StateCacheEntry.cc 151-187, 431-515. *)
Definition updateThresholds w (e : nat) (st : state) : option world :=
  obind (getE w e) (fun x =>
  match e_val x with
  | None => None
  | Some c =>
      if cvType c =? INTEGER_TYPE then
        obind (surveyI w (e_lk x) None) (fun r =>
        match r with
        | Some (lo, hi) => Some (emit (setThrFlag w e true) (SetTI st hi lo))
        | None => Some (setThrFlag (if e_thr x then emit w (ClrT st) else w) e false)
        end)
      else if (cvType c =? DATE_TYPE) || (cvType c =? DURATION_TYPE) || (cvType c =? REAL_TYPE) then
        obind (surveyR w (e_lk x) None) (fun r =>
        match r with
        | Some (lo, hi) => Some (emit (setThrFlag w e true) (SetTR st hi lo))
        | None => Some (setThrFlag (if e_thr x then emit w (ClrT st) else w) e false)
        end)
      else Some w
  end).

Definition setLkTC w l t c :=
  let x := w_lk w l in
  setLk w l (mkLk (l_onch x) (l_const x) (l_tolconst x) (l_cnt x) (l_st x) (l_known x) (l_ent x) (l_reg x)
                  t c (l_env x) (l_tol x) (l_tola x)).

(** *m_cachedValue = *val: the dynamic types must agree (CachedValueImpl.cc 138-186). *)
Definition assignCv (old new : cv) : option cv := if cvType old =? cvType new then Some new else None.

(** LookupOnChange::updateInternal, Lookup.cc 995-1062. *)
Definition updateInternal w (l : nat) (vc : bool) : option (world * bool) :=
  let x := w_lk w l in
  match l_thr x with
  | Some t0 =>
      obind (l_ent x) (fun e =>
      if vknown (lkTol x) then
        obind (tolChanged t0 (lkTol x)) (fun ch =>
        obind (if ch then obind (l_cv x) (fun c => setThr t0 (cv_v c) (lkTol x)) else Some t0) (fun t1 =>
        obind (getE w e) (fun en =>
        obind (e_val en) (fun vc1 =>
        obind (thrExceeded t1 (cv_v vc1)) (fun ex =>
        if ex then
          obind (l_cv x) (fun c =>
          obind (assignCv c vc1) (fun c' =>
          obind (setThr t1 (cv_v vc1) (lkTol x)) (fun t2 =>
          obind (updateThresholds (setLkTC w l (Some t2) (Some c')) e (l_st x)) (fun w' =>
          Some (w', true)))))
        else Some (setLkTC w l (Some t1) (l_cv x), false))))))
      else
        obind (updateThresholds (setLkTC w l None None) e (l_st x)) (fun w' => Some (w', vc)))
  | None =>
      match l_ent x with
      | None => Some (w, vc)
      | Some e =>
          obind (getE w e) (fun en =>
          if entKnown en && vknown (lkTol x) then
            obind (e_val en) (fun c =>
            obind (thrFactory (cvType c)) (fun t0 =>
            obind (match l_cv x with Some old => assignCv old c | None => Some c end) (fun c' =>
            obind (setThr t0 (cv_v c) (lkTol x)) (fun t1 =>
            obind (updateThresholds (setLkTC w l (Some t1) (Some c')) e (l_st x)) (fun w' =>
            Some (w', vc))))))
          else Some (w, vc))
      end
  end.

(** valueChanged, Lookup.cc 323-326 and 757-771. *)
Definition valueChanged (l : nat) (w : world) : option world :=
  if l_onch (w_lk w l) then
    if lkActive (w_lk w l) then
      obind (updateInternal w l true) (fun p => Some (if snd p then publish (fst p) l else fst p))
    else Some w
  else Some (publish w l).
(** notify, StateCacheEntry.cc 375-379. *)
Fixpoint notifyAll (ls : list nat) (w : world) : option world :=
  match ls with [] => Some w | l :: r => obind (valueChanged l w) (notifyAll r) end.

(** ensureCachedValue, StateCacheEntry.cc 388-424; inner None: the update is dropped. *)
Definition ensureCv (cur : option cv) (typ : Z) : option (option cv) :=
  match cur with
  | None => option_map Some (cvFactory typ)
  | Some c =>
      let ctyp := cvType c in
      if (ctyp =? typ) || (typ =? UNKNOWN_TYPE) then Some (Some c)
      else if ctyp =? UNKNOWN_TYPE then option_map Some (cvFactory typ)
      else if (typ =? INTEGER_TYPE) && isNumericType ctyp then Some (Some c)
      else if (typ =? REAL_TYPE) && ((ctyp =? DATE_TYPE) || (ctyp =? DURATION_TYPE)) then Some (Some c)
      else Some None
  end.
Definition setVal w e c := let x := w_ent w e in setEnt w e (mkEnt (Some c) (e_lk x) (e_thr x)).

(** updateValue, update and setUnknown, StateCacheEntry.cc 197-223. *)
Definition entUpdate w (e : nat) (u : upd) : option world :=
  obind (getE w e) (fun x =>
  match u with
  | UVal v =>
      obind (ensureCv (e_val x) (vtype v)) (fun oc =>
      match oc with
      | None => Some w
      | Some c => obind (cvUpdate c (w_cyc w) v) (fun p =>
                  let w1 := setVal w e (fst p) in
                  if snd p then notifyAll (e_lk x) w1 else Some w1)
      end)
  | UUnk =>
      match e_val x with
      | None => Some w
      | Some c => let p := cvSetUnknown c (w_cyc w) in
                  let w1 := setVal w e (fst p) in
                  if snd p then notifyAll (e_lk x) w1 else Some w1
      end
  end).
Fixpoint answers w (e : nat) (s : state) (us : list upd) : option world :=
  match us with [] => Some w | u :: r => obind (entUpdate (emit w (Got s u)) e u) (fun w' => answers w' e s r) end.

(** registerLookup, StateCacheEntry.cc 90-103. *)
Definition registerE w e (st : state) (l : nat) (ans : list upd) : option world :=
  obind (getE w e) (fun x =>
  let w1 := setEnt w e (mkEnt (e_val x) (e_lk x ++ [l]) (e_thr x)) in
  if match e_val x with None => true | Some c => Nat.ltb (cv_ts c) (w_cyc w) end
  then answers (emit w1 (Ask st)) e st ans
  else Some w1).

Fixpoint removeFirst (l : nat) (xs : list nat) : list nat :=
  match xs with [] => [] | x :: r => if Nat.eqb x l then r else x :: removeFirst l r end.
(** unregisterLookup, StateCacheEntry.cc 108-147. *)
Definition unregisterE w e (st : state) (l : nat) : option world :=
  obind (getE w e) (fun x =>
  match e_lk x with
  | [] => Some w
  | _ :: _ =>
      if negb (existsb (Nat.eqb l) (e_lk x)) then Some w
      else
        let ls := if Nat.eqb (last (e_lk x) l) l then removelast (e_lk x) else removeFirst l (e_lk x) in
        match ls with
        | [] => Some (setEnt w e (mkEnt (e_val x) [] false))
        | _ :: _ =>
            let w1 := setEnt w e (mkEnt (e_val x) ls (e_thr x)) in
            if e_thr x then updateThresholds w1 e st else Some w1
        end
  end).

Definition setLkReg w l (b : bool) :=
  let x := w_lk w l in
  setLk w l (mkLk (l_onch x) (l_const x) (l_tolconst x) (l_cnt x) (l_st x) (l_known x) (l_ent x) b
                  (l_thr x) (l_cv x) (l_env x) (l_tol x) (l_tola x)).
Definition setLkEnt w l (st : state) (kn : bool) (en : option nat) :=
  let x := w_lk w l in
  setLk w l (mkLk (l_onch x) (l_const x) (l_tolconst x) (l_cnt x) st kn en (l_reg x)
                  (l_thr x) (l_cv x) (l_env x) (l_tol x) (l_tola x)).
Definition setLkCnt w l (n : nat) :=
  let x := w_lk w l in
  setLk w l (mkLk (l_onch x) (l_const x) (l_tolconst x) n (l_st x) (l_known x) (l_ent x) (l_reg x)
                  (l_thr x) (l_cv x) (l_env x) (l_tol x) (l_tola x)).
Definition setLkTola w l (b : bool) :=
  let x := w_lk w l in
  setLk w l (mkLk (l_onch x) (l_const x) (l_tolconst x) (l_cnt x) (l_st x) (l_known x) (l_ent x) (l_reg x)
                  (l_thr x) (l_cv x) (l_env x) (l_tol x) b).

(** ensureRegistered and unregister, Lookup.cc 471-489. *)
Definition ensureRegistered w l (ans : list upd) : option world :=
  let x := w_lk w l in
  if l_reg x then Some w
  else obind (l_ent x) (fun e => obind (registerE w e (l_st x) l ans) (fun w' => Some (setLkReg w' l true))).
Definition unregister w l : option world :=
  let x := w_lk w l in
  if l_reg x then obind (l_ent x) (fun e => obind (unregisterE w e (l_st x) l) (fun w' => Some (setLkReg w' l false)))
  else Some w.
(** Discarding thresholds and the locally cached value, Lookup.cc 940-943, 979-982. *)
Definition dropThr w l := match l_thr (w_lk w l) with Some _ => setLkTC w l None None | None => w end.
(** invalidateOldState, Lookup.cc 493-497 and 975-983. *)
Definition invalidateOld w l : option world :=
  obind (unregister w l) (fun w1 =>
  let w2 := setLkEnt w1 l (l_st (w_lk w1 l)) (l_known (w_lk w1 l)) None in
  Some (if l_onch (w_lk w l) then dropThr w2 l else w2)).

(** Lookup::isKnown, Lookup.cc 249-254. *)
Definition lkKnown w l : option bool :=
  let x := w_lk w l in
  if lkActive x then match l_ent x with None => Some false | Some e => obind (getE w e) (fun en => Some (entKnown en)) end
  else Some false.
(** toValue and getValue, Lookup.cc 258-311, 882-911.
    (A Lookup has no value of its own type while unknown or inactive.) *)
Definition lkRead w l : option val :=
  let x := w_lk w l in
  if lkActive x then
    match l_ent x with
    | None => Some (VUnk UNKNOWN_TYPE)
    | Some e =>
        obind (getE w e) (fun en =>
        match e_val en with
        | None => Some (VUnk UNKNOWN_TYPE)
        | Some c =>
            if l_onch x then
              match l_cv x with
              | Some c' => Some (cv_v c')
              | None => if vknown (cv_v c) then Some (cv_v c) else Some (VUnk UNKNOWN_TYPE)
              end
            else Some (cv_v c)
        end)
    end
  else Some (VUnk UNKNOWN_TYPE).

(** handleActivate, Lookup.cc 368-385 and 920-930; activate, Notifier.cc 99-109. *)
Definition handleActivate w l (ans : list upd) : option world :=
  let x := w_lk w l in
  let w1 := if l_const x then w
            else match l_env x with
                 | Some s => setLkEnt w l s true (l_ent x)
                 | None => setLkEnt w l (l_st x) false (l_ent x)
                 end in
  let x1 := w_lk w1 l in
  let w2 := match l_ent x1 with
            | Some _ => w1
            | None => if l_known x1 then let p := ensureE w1 (l_st x1) in
                                         setLkEnt (fst p) l (l_st x1) (l_known x1) (Some (snd p))
                      else w1
            end in
  match l_ent (w_lk w2 l) with
  | None => Some w2
  | Some _ => ensureRegistered w2 l ans
  end.
Definition opActivate w l ans : option world :=
  let n := l_cnt (w_lk w l) in
  let w1 := setLkCnt w l (S n) in
  if Nat.eqb n 0 then
    obind (handleActivate w1 l ans) (fun w2 =>
    if l_onch (w_lk w l) then
      obind (updateInternal (setLkTola w2 l true) l true) (fun p =>
      obind (lkKnown (fst p) l) (fun k => Some (if k then publish (fst p) l else fst p)))
    else Some w2)
  else Some w1.
(** handleDeactivate, Lookup.cc 388-403 and 935-944; deactivate, Notifier.cc 116-122. *)
Definition opDeactivate w l : option world :=
  match l_cnt (w_lk w l) with
  | O => None
  | S n =>
      let w1 := setLkCnt w l n in
      if Nat.eqb n 0 then
        obind (if l_known (w_lk w l) then unregister w1 l else Some w1) (fun w2 =>
        let x2 := w_lk w2 l in
        let w3 := if l_const x2 then w2 else setLkEnt w2 l (l_st x2) (l_known x2) None in
        Some (if l_onch x2 then dropThr (setLkTola w3 l false) l else w3))
      else Some w1
  end.

(** handleChangeInternal, Lookup.cc 440-468. *)
Definition handleChangeInternal w l (ans : list upd) : option (world * bool) :=
  let x := w_lk w l in
  let oldKnown := l_known x in
  match l_env x with
  | Some s =>
      let w1 := setLkEnt w l (l_st x) true (l_ent x) in
      let differs := oldKnown && negb (state_eq s (l_st x)) in
      obind (if differs then invalidateOld w1 l else Some w1) (fun w2 =>
      let p := ensureE w2 s in
      let w3 := setLkEnt (fst p) l s true (Some (snd p)) in
      obind (ensureRegistered w3 l ans) (fun w4 => Some (w4, negb oldKnown || differs)))
  | None =>
      let w1 := setLkEnt w l (l_st x) false (l_ent x) in
      obind (if oldKnown then invalidateOld w1 l else Some w1) (fun w2 => Some (w2, oldKnown))
  end.
(** handleChange, Lookup.cc 410-416 and 953-958; delivered by Notifier::notifyChanged only
    while active (Propagator.cc / Notifier.cc). *)
Definition handleChange w l ans : option world :=
  if lkActive (w_lk w l) then
    obind (handleChangeInternal w l ans) (fun p =>
    if l_onch (w_lk w l) then
      obind (updateInternal (fst p) l (snd p)) (fun q => Some (if snd q then publish (fst q) l else fst q))
    else Some (if snd p then publish (fst p) l else fst p))
  else Some w.

Definition setLkEnv w l (s : option state) :=
  let x := w_lk w l in
  setLk w l (mkLk (l_onch x) (l_const x) (l_tolconst x) (l_cnt x) (l_st x) (l_known x) (l_ent x) (l_reg x)
                  (l_thr x) (l_cv x) s (l_tol x) (l_tola x)).
Definition setLkTol w l (v : val) :=
  let x := w_lk w l in
  setLk w l (mkLk (l_onch x) (l_const x) (l_tolconst x) (l_cnt x) (l_st x) (l_known x) (l_ent x) (l_reg x)
                  (l_thr x) (l_cv x) (l_env x) v (l_tola x)).

(** ** Operations *)
Inductive op :=
| OAct (l : nat) (ans : list upd)                        (* Expression::activate *)
| ODeact (l : nat)                                       (* Expression::deactivate *)
| OEnv (l : nat) (s : option state) (ans : list upd)     (* name or parameter expressions change *)
| OTol (l : nat) (v : val)                               (* the tolerance expression changes *)
| OUpd (s : state) (u : upd)                             (* lookupReturn / LookupReceiver calls *)
| OCycle                                                 (* incrementCycleCount *)
| ODel (s : state).                                      (* deleteStateCacheEntry *)

Definition step (o : op) (w : world) : option world :=
  match o with
  | OAct l ans => opActivate w l ans
  | ODeact l => opDeactivate w l
  | OEnv l s ans => if l_const (w_lk w l) then None else handleChange (setLkEnv w l s) l ans
  | OTol l v => if l_tolconst (w_lk w l) then None
                else if lkActive (w_lk w l) && l_onch (w_lk w l) then handleChange (setLkTol w l v) l []
                else Some (setLkTol w l v)
  | OUpd s u =>
      (* StateCache::lookupReturn, getLookupReceiver: StateCache.cc 103-106, 124-127 *)
      let p := ensureE w s in
      entUpdate (emit (fst p) (Got s u)) (snd p) u
  | OCycle => Some (emit (mkW (w_map w) (w_ent w) (w_next w) (w_lk w) (S (w_cyc w)) (w_tr w)) Cyc) (* StateCache.cc 84-87 *)
  | ODel s =>
      (* deleteStateCacheEntry, StateCache.cc 248-259 *)
      match findKey s (w_map w) with
      | None => Some w
      | Some e => match e_lk (w_ent w e) with
                  | [] => Some (emit (mkW (filter (fun p => negb (Nat.eqb (snd p) e)) (w_map w))
                                          (w_ent w) (w_next w) (w_lk w) (w_cyc w) (w_tr w)) (Del s))
                  | _ :: _ => Some w
                  end
      end
  end.

(** Newly built lookups: constructor, Lookup.cc 118-152 (a constant state is computed at once;
    checkPlanError if it is unknown). *)
Record lkspec := mkSpec { ls_onch : bool; ls_const : bool; ls_tolconst : bool; ls_env : option state; ls_tol : val }.
Definition newLk (p : lkspec) : lk :=
  mkLk (ls_onch p) (ls_const p) (ls_tolconst p) 0
       (match ls_env p with Some s => s | None => mkState [] [] end) (ls_const p) None false
       None None (ls_env p) (ls_tol p) false.
Definition init (ps : nat -> lkspec) : world :=
  mkW [] (fun _ => ent0) 0 (fun l => newLk (ps l)) 1 [].
Fixpoint run (os : list op) (w : world) : option world :=
  match os with [] => Some w | o :: r => obind (step o w) (run r) end.
