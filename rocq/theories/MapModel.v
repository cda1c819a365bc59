(** Model of the sorted-vector containers: src/utils/SimpleMap.hh and src/utils/SimpleSet.hh, with the
    comparators of src/utils/map-utils.hh.

    Simplifications: a vector is a list; iterators are positions; capacity (reserve, grow) has no
    effect on contents and is left out; allocation succeeds.  std::lower_bound is written out as the
    standard's bisection. *)
From Coq Require Import Arith List Bool.
Import ListNotations.

Section Store.
  Variables (E X : Type).
  (** The heterogeneous comparator "entry a is before index b": SimpleMap.hh 272-290, SimpleSet.hh 183-195. *)
  Variable before : E -> X -> bool.

  (** std::lower_bound over [first, first+len): bisection; the fuel bounds the loop. *)
  Fixpoint lbLoop (fuel : nat) (s : list E) (x : X) (first len : nat) : nat :=
    match fuel with
    | 0 => first
    | S f =>
      match len with
      | 0 => first
      | S _ =>
        let half := Nat.div2 len in
        match nth_error s (first + half) with
        | Some e => if before e x then lbLoop f s x (first + half + 1) (len - half - 1)
                    else lbLoop f s x first half
        | None => first
        end
      end
    end.
  Definition lowerBound (s : list E) (x : X) : nat := lbLoop (length s) s x 0 (length s).
End Store.

(** m_store.insert(it, e) and m_store.erase(it). *)
Definition insAt {E} (s : list E) (i : nat) (e : E) : list E := firstn i s ++ e :: skipn i s.
Definition delAt {E} (s : list E) (i : nat) : list E := firstn i s ++ skipn (S i) s.
(** it->second = v. *)
Definition setAt {K V} (s : list (K * V)) (i : nat) (v : V) : list (K * V) :=
  match nth_error s i with
  | Some (k, _) => firstn i s ++ (k, v) :: skipn (S i) s
  | None => s
  end.

Section SMap.
  Variables (K V : Type) (lt eqb : K -> K -> bool) (dflt : V).
  (** EntryComparator: SimpleMap.hh 272-290. *)
  Definition entBefore (e : K * V) (k : K) : bool := lt (fst e) k.
  Definition entEqual (e : K * V) (k : K) : bool := eqb (fst e) k.
  Definition mlb (s : list (K * V)) (k : K) : nat := lowerBound _ _ entBefore s k.

  (** insert 119-128. *)
  Definition smInsert (s : list (K * V)) (k : K) (v : V) : list (K * V) * bool :=
    let it := mlb s k in
    match nth_error s it with
    | Some e => if entEqual e k then (s, false) else (insAt s it (k, v), true)
    | None => (insAt s it (k, v), true)
    end.
  (** find 130-150 (both versions): the position, or end(). *)
  Definition smFind (s : list (K * V)) (k : K) : nat :=
    let it := mlb s k in
    match nth_error s it with
    | None => it
    | Some e => if entEqual e k then it else length s
    end.
  (** operator[] 152-160: the new store, and the position of the entry referred to. *)
  Definition smIndex (s : list (K * V)) (k : K) : list (K * V) * nat :=
    let it := mlb s k in
    match nth_error s it with
    | Some e => if entEqual e k then (s, it) else (insAt s it (k, dflt), it)
    | None => (insAt s it (k, dflt), it)
    end.
  (** const operator[] 162-172. *)
  Definition smConst (s : list (K * V)) (k : K) : V :=
    match nth_error s (mlb s k) with
    | Some e => if entEqual e k then snd e else dflt
    | None => dflt
    end.

  (** What a client can do, and what it sees. *)
  Inductive mop : Type :=
  | MInsert (k : K) (v : V)   (* m.insert(k, v) *)
  | MAssign (k : K) (v : V)   (* m[k] = v *)
  | MIndex (k : K)            (* reading m[k] through the non-const operator *)
  | MConst (k : K)            (* reading m[k] through the const operator *)
  | MFind (k : K)             (* m.find(k), dereferenced unless it is end() *)
  | MSize | MEmpty | MIter | MClear.
  Inductive mout : Type :=
  | OBool (b : bool) | OVal (v : V) | OFind (r : option (K * V)) | ONum (n : nat)
  | OList (l : list (K * V)) | OUnit.
  Definition mstep (s : list (K * V)) (o : mop) : list (K * V) * mout :=
    match o with
    | MInsert k v => let (s', b) := smInsert s k v in (s', OBool b)
    | MAssign k v => let (s', i) := smIndex s k in (setAt s' i v, OUnit)
    | MIndex k => let (s', i) := smIndex s k in
                  (s', OVal (match nth_error s' i with Some e => snd e | None => dflt end))
    | MConst k => (s, OVal (smConst s k))
    | MFind k => (s, OFind (nth_error s (smFind s k)))
    | MSize => (s, ONum (length s))                       (* 229-232 *)
    | MEmpty => (s, OBool (match s with [] => true | _ => false end))  (* 224-227 *)
    | MIter => (s, OList s)                               (* begin() .. end(), 199-217 *)
    | MClear => ([], OUnit)                               (* 219-222 *)
    end.
  Fixpoint mrun (s : list (K * V)) (os : list mop) : list (K * V) * list mout :=
    match os with
    | [] => (s, [])
    | o :: os' => let (s1, r) := mstep s o in let (s2, rs) := mrun s1 os' in (s2, r :: rs)
    end.
End SMap.

Section SSet.
  Variables (K : Type) (lt : K -> K -> bool).
  Definition slb (s : list K) (k : K) : nat := lowerBound _ _ lt s k.
  (** Comparator::equal 190-193. *)
  Definition setEqual (a b : K) : bool := negb (lt a b) && negb (lt b a).
  (** insert 73-82. *)
  Definition ssInsert (s : list K) (k : K) : list K * bool :=
    let it := slb s k in
    match nth_error s it with
    | Some e => if setEqual e k then (s, false) else (insAt s it k, true)
    | None => (insAt s it k, true)
    end.
  (** find 86-106. *)
  Definition ssFind (s : list K) (k : K) : nat :=
    let it := slb s k in
    match nth_error s it with
    | None => it
    | Some e => if setEqual e k then it else length s
    end.
  (** contains 108-112: std::binary_search, that is lower_bound and then !(val < *it). *)
  Definition ssContains (s : list K) (k : K) : bool :=
    match nth_error s (slb s k) with
    | None => false
    | Some e => negb (lt k e)
    end.
  (** erase(val) 124-131. *)
  Definition ssErase (s : list K) (k : K) : list K * nat :=
    let it := ssFind s k in
    match nth_error s it with
    | None => (s, 0)
    | Some _ => (delAt s it, 1)
    end.
  Inductive sop : Type := SInsert (k : K) | SErase (k : K) | SContains (k : K) | SFind (k : K) | SSize | SIter | SClear.
  Inductive sout : Type := PBool (b : bool) | PFind (r : option K) | PNum (n : nat) | PList (l : list K) | PUnit.
  Definition sstep (s : list K) (o : sop) : list K * sout :=
    match o with
    | SInsert k => let (s', b) := ssInsert s k in (s', PBool b)
    | SErase k => let (s', n) := ssErase s k in (s', PNum n)
    | SContains k => (s, PBool (ssContains s k))
    | SFind k => (s, PFind (nth_error s (ssFind s k)))
    | SSize => (s, PNum (length s))
    | SIter => (s, PList s)
    | SClear => ([], PUnit)
    end.
  Fixpoint srun (s : list K) (os : list sop) : list K * list sout :=
    match os with
    | [] => (s, [])
    | o :: os' => let (s1, r) := sstep s o in let (s2, rs) := srun s1 os' in (s2, r :: rs)
    end.
End SSet.

(** Character strings (bytes without the terminator).  strcmp(a, b) < 0 and !strcmp(a, b):
    CStringComparator, map-utils.hh 44-59; std::string's < and == compare the same way. *)
Fixpoint strLt (a b : list nat) : bool :=
  match a, b with
  | [], [] => false
  | [], _ :: _ => true
  | _ :: _, [] => false
  | x :: a', y :: b' => (x <? y) || ((x =? y) && strLt a' b')
  end.
Fixpoint strEq (a b : list nat) : bool :=
  match a, b with
  | [], [] => true
  | x :: a', y :: b' => (x =? y) && strEq a' b'
  | _, _ => false
  end.
