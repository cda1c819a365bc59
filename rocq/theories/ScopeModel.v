(** Model of name resolution when a plan is loaded: src/xml-parser/parseNode.cc, parseLibraryCall.cc,
    parseNodeReference.cc, planLibrary.cc, createExpression.cc, ArrayReferenceFactory.cc,
    VariableReferenceFactory.cc, and the run-time side in src/exec/NodeImpl.cc, ListNode.cc,
    LibraryCallNode.cc, NodeVariableMap.cc, src/expr/Alias.cc, src/value/ValueType.cc.

    What a name means in a node depends only on the node and its ancestors, so the model is of a node
    with its ancestors: a list, the node first and the root of the plan last.  A library's nodes appear
    where they are expanded, below the node that calls it.

    Simplifications: names are numbers; an Interface has at most one In and one InOut element, as the
    schema requires; the expression given as a default or as an argument is represented by its type, or
    by the variable's name if it is a variable reference (whose tag agrees with the variable's type). *)
From Coq Require Import Arith List Bool.
Import ListNotations.

(** ** Types: ValueType.hh 101-140 (user types). *)
Inductive sty : Type := SBool | SInt | SReal | SStr | SDate | SDur.
Inductive vty : Type := TUnk | TSc (s : sty) | TAr (s : sty).
Definition sty_eqb (a b : sty) : bool :=
  match a, b with
  | SBool, SBool | SInt, SInt | SReal, SReal | SStr, SStr | SDate, SDate | SDur, SDur => true
  | _, _ => false
  end.
Definition vty_eqb (a b : vty) : bool :=
  match a, b with
  | TUnk, TUnk => true
  | TSc x, TSc y => sty_eqb x y
  | TAr x, TAr y => sty_eqb x y
  | _, _ => false
  end.
Definition isAr (t : vty) : bool := match t with TAr _ => true | _ => false end.
(** areTypesCompatible, ValueType.cc 170-197. *)
Definition compat (dest src : vty) : bool :=
  match dest, src with
  | TUnk, _ => true
  | _, TUnk => true
  | _, _ => vty_eqb dest src ||
    match dest, src with
    | TSc SDate, TSc SReal | TSc SDate, TSc SInt | TSc SDur, TSc SReal | TSc SDur, TSc SInt => true
    | TSc SReal, TSc SInt | TSc SReal, TSc SDate | TSc SReal, TSc SDur => true
    | _, _ => false
    end
  end.
(** The variable object made for a declared type: UserVariableFactory.cc 112-130 (a Date or a Duration
    is a RealVariable), ArrayVariableFactory.cc. *)
Definition objTy (t : vty) : vty :=
  match t with TSc SDate | TSc SDur => TSc SReal | _ => t end.
(** Acceptable type of an initial value: UserVariableFactory.cc 88-97, ArrayVariableFactory.cc 122-150. *)
Definition defOk (declared init : vty) : bool :=
  match declared with
  | TAr e => vty_eqb init (TAr e) || (match init with TSc _ => compat (TSc e) init | _ => false end)
  | _ => compat declared init
  end.

(** ** The plan as written *)
(** An argument of a library call: the name of a variable, or any other expression (its type). *)
Inductive aexp : Type := AVar (y : nat) | AOther (t : vty).
(** One In (i_out false) or InOut (i_out true) declaration; i_def is the type of its InitialValue. *)
Record idecl : Type := mkI { i_out : bool; i_name : nat; i_ty : vty; i_def : option vty }.
(** A LibraryNodeCall: the NodeId text in the call, and the Alias elements. *)
Record lcall : Type := mkC { c_ref : nat; c_args : list (nat * aexp) }.
(** A node: its NodeId, the NodeIds of its children (of the called node, for a library call), its
    declared variables, interface, mutexes; and, for the root of a document, its global mutexes. *)
Record lvl : Type := mkL {
  l_id : nat; l_kids : list nat;
  l_vars : list (nat * vty); l_if : list idecl; l_mtx : list nat;
  l_call : option lcall;
  l_gmtx : list nat }.
Definition isCall (n : lvl) : bool := match l_call n with Some _ => true | None => false end.

(** ** The node as built *)
(** What an entry in a variable map can be: the variable declared as x in the node at depth d; an Alias
    object (a read-only view); the default value of a parameter; an argument expression of a call. *)
Inductive ent : Type :=
| EVar (d x : nat) (t : vty)
| EView (d x : nat) (e : ent)
| EDef (d x : nat) (t : vty)
| EArg (d x : nat) (t : vty).
(** valueType(): Alias.cc 63-66. *)
Fixpoint entTy (e : ent) : vty :=
  match e with EVar _ _ t => t | EView _ _ e' => entTy e' | EDef _ _ t => t | EArg _ _ t => t end.
(** isAssignable(): true of variables only (Expression.cc 42-45; Alias does not override it). *)
Definition assignable (e : ent) : bool := match e with EVar _ _ _ => true | _ => false end.
(** getBaseExpression(): Alias.cc 78-86. *)
Fixpoint baseOf (e : ent) : ent := match e with EView _ _ e' => baseOf e' | _ => e end.

Definition entries : Type := list (nat * ent).
Fixpoint mget {A} (m : list (nat * A)) (x : nat) : option A :=
  match m with
  | [] => None
  | (y, e) :: m' => if x =? y then Some e else mget m' x
  end.
(** m_variablesByName, m_aliasMap (library calls only). *)
Record rlvl : Type := mkR { r_map : option entries; r_alias : option entries }.

(** A NodeVariableMap together with the chain of its m_parentMap. *)
Definition nvm : Type := list entries.
(** NodeVariableMap::findVariable, NodeVariableMap.cc 60-77. *)
Fixpoint nvmFind (m : nvm) (x : nat) : option ent :=
  match m with
  | [] => None
  | e :: m' => match mget e x with Some r => Some r | None => nvmFind m' x end
  end.
Definition orNil (m : option nvm) : nvm := match m with Some l => l | None => [] end.
(** For a node (first) and its ancestors: getVariableMap(); getChildVariableMap() (ListNode.cc 219-232,
    LibraryCallNode.cc 84-87); and the first getVariableMap() at the node or above it.  A new map's parent
    is the parent node's child map: allocateVariables, NodeImpl.cc 288-299. *)
Fixpoint maps (rs : list rlvl) : option nvm * option nvm * option nvm :=
  match rs with
  | [] => (None, None, None)
  | r :: up =>
    let '(_, upChild, upFirst) := maps up in
    let own := match r_map r with Some e => Some (e :: orNil upChild) | None => None end in
    let child := match r_alias r with
                 | Some a => Some [a]
                 | None => match own with Some m => Some m | None => upFirst end
                 end in
    (own, child, match own with Some m => Some m | None => upFirst end)
  end.
Definition ownMap (rs : list rlvl) : option nvm := fst (fst (maps rs)).
Definition childMap (rs : list rlvl) : option nvm := snd (fst (maps rs)).
(** NodeImpl::findVariable, NodeImpl.cc 1584-1619. *)
Definition findVariable (rs : list rlvl) (x : nat) : option ent :=
  match rs with
  | [] => None
  | r :: up =>
    match ownMap (r :: up) with
    | Some m => nvmFind m x
    | None => match childMap up with Some m => nvmFind m x | None => None end
    end
  end.

(** ** Building a node whose ancestors are built *)
Fixpoint nodupb (l : list nat) : bool :=
  match l with [] => true | x :: l' => negb (existsb (Nat.eqb x) l') && nodupb l' end.
(** checkVariableNameConflicts, parseNode.cc 204-271 (mutex names are among the VariableDeclarations). *)
Definition namesOk (n : lvl) : bool :=
  nodupb (map i_name (l_if n) ++ map fst (l_vars n) ++ l_mtx n).
(** checkAlias, parseLibraryCall.cc 50-86: no two aliases of one name. *)
Definition argsOk (n : lvl) : bool :=
  match l_call n with Some c => nodupb (map fst (c_args c)) | None => true end.
(** checkVariableDeclaration: the declared default has an acceptable type. *)
Definition defsOk (n : lvl) : bool :=
  forallb (fun d => match i_def d with Some t => defOk (i_ty d) t | None => true end) (l_if n).
(** initializeNodeVariables, parseNode.cc 816-857: whether allocateVariables is called. *)
Definition hasMap (n : lvl) : bool :=
  match l_vars n, l_if n with
  | [], [] => match l_mtx n, l_call n with
              | _ :: _, Some c => match c_args c with [] => false | _ :: _ => true end
              | _, _ => false
              end
  | _, _ => true
  end.
(** addLocalVariable, NodeImpl.cc 306-315. *)
Definition addLocal (r : rlvl) (x : nat) (e : ent) : option rlvl :=
  match r_map r with
  | None => None
  | Some m => match mget m x with Some _ => None | None => Some (mkR (Some ((x, e) :: m)) (r_alias r)) end
  end.
(** linkInVar, parseNode.cc 1095-1161, and linkInOutVar, 1168-1215.  [d] is the node's depth; None is a
    ParserException.  1202: createAssignable on the declaration itself, which refuses a DeclareArray
    element (createExpression.cc 154-160). *)
Definition linkVar (up : list rlvl) (d : nat) (r : rlvl) (i : idecl) : option rlvl :=
  match findVariable (r :: up) (i_name i), i_out i with
  | Some e, false =>
    if vty_eqb (i_ty i) (entTy e)
    then if assignable e then addLocal r (i_name i) (EView d (i_name i) e) else Some r
    else None
  | None, false =>
    match i_def i with Some t => addLocal r (i_name i) (EDef d (i_name i) t) | None => None end
  | Some e, true => if vty_eqb (i_ty i) (entTy e) && assignable e then Some r else None
  | None, true =>
    match i_def i with
    | Some _ => if isAr (i_ty i) then None else addLocal r (i_name i) (EVar d (i_name i) (objTy (i_ty i)))
    | None => None
    end
  end.
(** linkAndInitializeInterfaceVars, parseNode.cc 1217-1236. *)
Fixpoint linkVars (up : list rlvl) (d : nat) (r : rlvl) (is : list idecl) : option rlvl :=
  match is with
  | [] => Some r
  | i :: is' => match linkVar up d r i with Some r' => linkVars up d r' is' | None => None end
  end.
(** finalizeAliases, parseLibraryCall.cc 131-146: createExpression in the calling node. *)
Fixpoint makeAliases (rs : list rlvl) (d : nat) (al : list (nat * aexp)) : option entries :=
  match al with
  | [] => Some []
  | (x, a) :: al' =>
    match (match a with AVar y => findVariable rs y | AOther t => Some (EArg d x t) end), makeAliases rs d al' with
    | Some e, Some m => Some ((x, e) :: m)
    | _, _ => None
    end
  end.
(** The passes over one node: the checks, constructNode (907-975), finalizeNode (1274-1315). *)
Definition buildLvl (up : list rlvl) (d : nat) (n : lvl) : option rlvl :=
  if namesOk n && argsOk n && defsOk n then
    let locals := map (fun v => (fst v, EVar d (fst v) (objTy (snd v)))) (l_vars n) in
    let r0 := mkR (if hasMap n then Some locals else None) (match l_call n with Some _ => Some [] | None => None end) in
    match linkVars up d r0 (l_if n) with
    | None => None
    | Some r1 =>
      match l_call n with
      | None => Some r1
      | Some c => match makeAliases (r1 :: up) d (c_args c) with
                  | Some a => Some (mkR (r_map r1) (Some a))
                  | None => None
                  end
      end
    end
  else None.
(** A node and its ancestors, built from the root down.  None: the plan is refused. *)
Fixpoint build (ns : list lvl) : option (list rlvl) :=
  match ns with
  | [] => Some []
  | n :: up =>
    match build up with
    | None => None
    | Some rup => match buildLvl rup (length up) n with Some r => Some (r :: rup) | None => None end
    end
  end.

(** ** Assignment targets *)
(** createAssignable on a variable reference, createExpression.cc 145-170. *)
Definition assignVar (rs : list rlvl) (x : nat) : option ent :=
  match findVariable rs x with Some e => if assignable e then Some e else None | None => None end.
(** createMutableArrayReference, ArrayReferenceFactory.cc 169-197: the exception for a read-only array is
    caught at once (185-190) and the reference made anyway; it writes to the base expression's variable
    (ArrayReference.cc 224-233, 250-256).  The result is the variable whose element is written. *)
Definition assignElement (rs : list rlvl) (x : nat) : option ent :=
  match findVariable rs x with
  | Some e => if isAr (entTy e) then (if assignable (baseOf e) then Some (baseOf e) else None) else None
  | None => None
  end.

(** ** Mutexes *)
Inductive ment : Type := MLocal (d m : nat) | MGlobal (m : nat).
Definition memb (x : nat) (l : list nat) : bool := existsb (Nat.eqb x) l.
(** Whether the node is the root of its document: its parent, if any, is a library call. *)
Definition docRoot (up : list lvl) : bool := match up with [] => true | p :: _ => isCall p end.
(** isMutexInScope, parseNode.cc 299-333. *)
Fixpoint mutexInScope (ns : list lvl) (m : nat) : bool :=
  match ns with
  | [] => false
  | n :: up => memb m (l_mtx n) || (if docRoot up then memb m (l_gmtx n) else mutexInScope up m)
  end.
(** findMutex, NodeImpl.cc 1650-1681, after the ancestors' documents have registered their global mutexes
    (ensureGlobalMutex, Mutex.cc 87-99). *)
Fixpoint findMutexUp (ns : list lvl) (m : nat) : option ment :=
  match ns with
  | [] => None
  | n :: up => if memb m (l_mtx n) then Some (MLocal (length up) m) else findMutexUp up m
  end.
Definition findMutex (globals : list nat) (ns : list lvl) (m : nat) : option ment :=
  match findMutexUp ns m with
  | Some r => Some r
  | None => if memb m globals then Some (MGlobal m) else None
  end.

(** ** Node references *)
(** The node at depth d, or its k-th child. *)
Inductive target : Type := NSelf (d : nat) | NKid (d k : nat).
Fixpoint indexOf (x : nat) (l : list nat) : option nat :=
  match l with
  | [] => None
  | y :: l' => if x =? y then Some 0 else option_map S (indexOf x l')
  end.
(** getNodeChild, parseNodeReference.cc 56-80: for a library call, the name in the call. *)
Definition xmlKids (n : lvl) : list nat := match l_call n with Some c => [c_ref c] | None => l_kids n end.
(** checkNodeId 124-162: the search goes up to the root of the document. *)
Fixpoint checkNodeId (ns : list lvl) (x : nat) : bool :=
  match ns with
  | [] => false
  | n :: up => (x =? l_id n) || memb x (xmlKids n) || (if docRoot up then false else checkNodeId up x)
  end.
(** parseNodeId 232-257: the search goes up to the root of the plan. *)
Fixpoint parseNodeId (ns : list lvl) (x : nat) : option target :=
  match ns with
  | [] => None
  | n :: up =>
    if x =? l_id n then Some (NSelf (length up)) else
    match indexOf x (l_kids n) with
    | Some k => Some (NKid (length up) k)
    | None => parseNodeId up x
    end
  end.
Inductive dirref : Type := RSelf | RParent | RChild (x : nat) | RSibling (x : nat) | RId (x : nat).
(** checkNodeRef 82-122. *)
Definition checkNodeReference (ns : list lvl) (r : dirref) : bool :=
  match ns with
  | [] => false
  | n :: up =>
    match r with
    | RSelf => true
    | RParent => negb (docRoot up)
    | RChild x => memb x (xmlKids n)
    | RSibling x => negb (docRoot up) && match up with p :: _ => memb x (xmlKids p) | [] => false end
    | RId x => checkNodeId ns x
    end
  end.
(** parseNodeRef 181-221, parseNodeReference 259-266.  None is an internal error. *)
Definition parseNodeReference (ns : list lvl) (r : dirref) : option target :=
  match ns with
  | [] => None
  | n :: up =>
    match r with
    | RSelf => Some (NSelf (length up))
    | RParent => match up with p :: up' => Some (NSelf (length up')) | [] => None end
    | RChild x => option_map (NKid (length up)) (indexOf x (l_kids n))
    | RSibling x => match up with p :: up' => option_map (NKid (length up')) (indexOf x (l_kids p)) | [] => None end
    | RId x => parseNodeId ns x
    end
  end.
(** checkChildNodes, parseNode.cc 374-402: siblings have different NodeIds; the comparison of a child's
    NodeId with its parent's compares two pointers, and never finds them equal (384). *)
Definition childIdsOk (n : lvl) : bool := nodupb (l_kids n).

(** ** Expanding library calls: constructPlan, constructNode, constructLibraryCall
    (parseNode.cc 886-975, parseLibraryCall.cc 102-127), with a store of loaded library documents. *)
Inductive tree : Type := Leaf (id : nat) | Lst (id : nat) (kids : list tree) | Call (id ref : nat).
Inductive built : Type := BLeaf (id : nat) | BLst (id : nat) (kids : list built) | BCall (id : nat) (callee : built).
(** The result: the node, a ParserException (library not found), or recursion deeper than [fuel]. *)
Inductive outcome : Type := Built (b : built) | NotFound | TooDeep.
Fixpoint expand (lib : nat -> option tree) (fuel : nat) (t : tree) : outcome :=
  match fuel with
  | 0 => TooDeep
  | S f =>
    match t with
    | Leaf id => Built (BLeaf id)
    | Lst id kids =>
      (fix go (ks : list tree) (acc : list built) : outcome :=
         match ks with
         | [] => Built (BLst id (rev acc))
         | k :: ks' => match expand lib f k with Built b => go ks' (b :: acc) | o => o end
         end) kids []
    | Call id ref =>
      match lib ref with
      | None => NotFound
      | Some t' => match expand lib f t' with Built b => Built (BCall id b) | o => o end
      end
    end
  end.
