(** Model of activation and change notification in the expression graph:
    src/expr/Notifier.cc, src/expr/Propagator.cc, the activation methods of the
    expression classes, and the listener methods of Lookups
    (src/intfc/Lookup.cc, src/intfc/ExprVec.cc). *)
From Coq Require Import List Arith Lia Bool.
Import ListNotations.

(** What a listenable object is.
    - [KConst]: derives from Listenable only (Listenable.hh 67-105: every method
      a no-op, isActive is true) -- constants;
    - [KFwd t]: StateVariable, OutcomeVariable, FailureVariable
      (src/exec/NodeVariables.cc 59-73, 113-127, 163-177): add/removeListener
      are forwarded to node [t]; activation is a no-op;
    - [KNode]: a plan node (src/exec/NodeImpl.hh 168-193): keeps listeners as a
      Notifier but is always active and ignores activate/deactivate;
    - [KNotif]: Notifier -- variables, command handle variables, timepoints;
    - [KProp]: Propagator -- functions, array references, aliases, lookups, node functions. *)
Inductive knd := KConst | KFwd (t : nat) | KNode | KNotif | KProp.

(** The expression graph.  Fields, for expression [e]:
    - [kids e]: the subexpressions doSubexprs visits (Function.cc 278-282,
      ArrayReference.cc 202-206, Alias.cc 171-174, Lookup.cc 356-361, 964-968,
      NodeVariables.cc 59-62, NodeFunction.cc 75-78);
    - [akids e]: the expressions handleActivate/handleDeactivate pass the call on
      to (Function.cc 231-241, ArrayReference.cc 208-218, Lookup.cc 368-403,
      920-944; UserVariable.cc: the initializer; nothing for Alias and NodeFunction);
    - [xhead e], [xparams e]: the expressions a Lookup listens to explicitly:
      tolerance (LookupOnChange only) and state name; and parameters
      (Lookup.cc 190-211, 861-875); empty for everything else;
    - [src e]: isPropagationSource. *)
Record graph := {
  gsize : nat;
  kind : nat -> knd;
  kids : nat -> list nat;
  akids : nat -> list nat;
  xhead : nat -> list nat;
  xparams : nat -> list nat;
  src : nat -> bool }.

(** A listener is either external (a plan node, or any other ExpressionListener)
    or an expression of the graph (Propagator derives from ExpressionListener). *)
Inductive lis := LExt (x : nat) | LExp (p : nat).

Definition lis_eqb (a b : lis) : bool :=
  match a, b with
  | LExt x, LExt y => Nat.eqb x y
  | LExp x, LExp y => Nat.eqb x y
  | _, _ => false
  end.

(** Notifier's data (Notifier.hh 155-160): m_activeCount, m_outgoingListeners.
    The counter is unbounded here; the code's is a size_t and an assertion
    fires when it wraps. *)
Record nst := { cnt : nat -> nat; lst : nat -> list lis }.
Definition nst0 : nst := {| cnt := fun _ => 0; lst := fun _ => [] |}.

Definition updn {A} (f : nat -> A) (e : nat) (x : A) : nat -> A :=
  fun y => if Nat.eqb y e then x else f y.
Definition setCnt e c st := {| cnt := updn (cnt st) e c; lst := lst st |}.
Definition setLst e l st := {| cnt := cnt st; lst := updn (lst st) e l |}.

Section G.
Variable g : graph.

Definition counted (e : nat) : bool := match kind g e with KNotif | KProp => true | _ => false end.

(** Listenable.hh 101-105, NodeImpl.hh 168-172, Notifier.cc 89-92. *)
Definition isActive (st : nst) (e : nat) : bool :=
  if counted e then Nat.ltb 0 (cnt st e) else true.

(** Notifier::activate (Notifier.cc 99-109) and the handleActivate methods.  The
    fuel bounds the depth of the graph (arguments are numbered below the
    expressions using them); [activate] supplies enough. *)
Fixpoint act (f e : nat) (st : nst) : nst :=
  match f with
  | 0 => st
  | S f' =>
    if counted e then
      let c := cnt st e in
      let st1 := setCnt e (S c) st in
      if Nat.eqb c 0 then fold_left (fun s k => act f' k s) (akids g e) st1 else st1
    else st
  end.
Definition activate e st := act (S e) e st.

(** Notifier::deactivate (Notifier.cc 116-122) and the handleDeactivate methods;
    [None]: the assertion "deactivated too many times" fails. *)
Fixpoint deact (f e : nat) (st : nst) : option nst :=
  match f with
  | 0 => Some st
  | S f' =>
    if counted e then
      match cnt st e with
      | 0 => None
      | S c =>
        let st1 := setCnt e c st in
        if Nat.eqb c 0
        then fold_left (fun os k => match os with Some s => deact f' k s | None => None end)
                       (akids g e) (Some st1)
        else Some st1
      end
    else Some st
  end.
Definition deactivate e st := deact (S e) e st.

(** Notifier::addListener (Notifier.cc 129-146). *)
Definition addN (e : nat) (l : lis) (st : nst) : nst :=
  if existsb (lis_eqb l) (lst st e) then st else setLst e (lst st e ++ [l]) st.

Fixpoint removeFirst (l : lis) (xs : list lis) : list lis :=
  match xs with
  | [] => []
  | x :: r => if lis_eqb l x then r else x :: removeFirst l r
  end.

(** Notifier::removeListener (Notifier.cc 148-178). *)
Definition rmN (e : nat) (l : lis) (st : nst) : nst :=
  setLst e (removeFirst l (lst st e)) st.

(** The traversal in Propagator::addListener/removeListener (Propagator.cc
    64-76, 85-94): the nearest propagation sources beneath [e], in visiting order. *)
Fixpoint nearest (f e : nat) : list nat :=
  match f with
  | 0 => []
  | S f' => flat_map (fun k => if src g k then [k] else nearest f' k) (kids g e)
  end.

Definition isNil {A} (l : list A) : bool := match l with [] => true | _ => false end.

(** addListener: Propagator.cc 60-78, Lookup.cc 190-199 and 861-866 (tolerance,
    state name, parameters, then the Propagator method), Notifier.cc 129-146,
    NodeVariables.cc 65-68, Listenable.hh 75-78. *)
Fixpoint addL (f e : nat) (l : lis) (st : nst) : nst :=
  match f with
  | 0 => st
  | S f' =>
    match kind g e with
    | KConst => st
    | KFwd t => addN t l st
    | KNode | KNotif => addN e l st
    | KProp =>
      let st1 :=
        if isNil (lst st e)
        then fold_left (fun s d => addL f' d (LExp e) s)
                       (xhead g e ++ xparams g e ++ nearest (S e) e) st
        else st in
      addN e l st1
    end
  end.
Definition addListener e l st := addL (S e) e l st.

(** removeListener: Propagator.cc 80-95, Lookup.cc 203-211 and 870-875,
    NodeVariables.cc 70-73, Listenable.hh 83-86.  The parameter vector of a
    lookup is a FixedExprVec up to four parameters and a GeneralExprVec above
    (ExprVec.cc 294-318); GeneralExprVec::removeListener (ExprVec.cc 261-265)
    calls addListener. *)
Fixpoint rmL (f e : nat) (l : lis) (st : nst) : nst :=
  match f with
  | 0 => st
  | S f' =>
    match kind g e with
    | KConst => st
    | KFwd t => rmN t l st
    | KNode | KNotif => rmN e l st
    | KProp =>
      let st1 := rmN e l st in
      if isNil (lst st1 e)
      then
        let st2 := fold_left (fun s d => rmL f' d (LExp e) s) (nearest (S e) e) st1 in
        let st3 := if Nat.leb (length (xparams g e)) 4
                   then fold_left (fun s d => rmL f' d (LExp e) s) (xparams g e) st2
                   else fold_left (fun s d => addL f' d (LExp e) s) (xparams g e) st2 in
        fold_left (fun s d => rmL f' d (LExp e) s) (rev (xhead g e)) st3
      else st1
    end
  end.
Definition removeListener e l st := rmL (S e) e l st.

(** What happens while a change is published: expression [p] got notifyChanged
    while active and handled it; expression [e] called its external listener [x]. *)
Inductive ev := Handled (p : nat) | Told (e x : nat).

(** Notifier::publishChange (Notifier.cc 180-187) and Propagator::notifyChanged /
    handleChange (Propagator.cc 97-106).  [chg tr p] says whether p's handleChange
    publishes, given what happened so far: constantly true for every class but
    the lookups, which publish only if their state or value changed
    (Lookup.cc 410-415, 951-956).  Listeners do not alter the graph. *)
Fixpoint pub (chg : list ev -> nat -> bool) (st : nst) (f e : nat) (tr : list ev) : list ev :=
  match f with
  | 0 => tr
  | S f' =>
    if isActive st e then
      fold_left (fun tr l =>
        match l with
        | LExt x => tr ++ [Told e x]
        | LExp p =>
          if isActive st p then
            let tr' := tr ++ [Handled p] in
            if chg tr' p then pub chg st f' p tr' else tr'
          else tr
        end) (lst st e) tr
    else tr
  end.
Definition publishChange chg st e : list ev := pub chg st (gsize g - e) e [].

(** Histories of calls made from outside the graph. *)
Inductive nop := OAct (e : nat) | ODeact (e : nat) | OAdd (e x : nat) | ORem (e x : nat).
Definition nstep (o : nop) (st : nst) : option nst :=
  match o with
  | OAct e => Some (activate e st)
  | ODeact e => deactivate e st
  | OAdd e x => Some (addListener e (LExt x) st)
  | ORem e x => Some (removeListener e (LExt x) st)
  end.
(** Latest call first. *)
Fixpoint nrun (h : list nop) : option nst :=
  match h with
  | [] => Some nst0
  | o :: r => match nrun r with Some st => nstep o st | None => None end
  end.
End G.
