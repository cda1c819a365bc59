(** Global declarations and the checking of commands and lookups against them when a plan is loaded:
    /repo/src/xml-parser parseGlobalDeclarations.cc, SymbolTable.cc, parsePlan.cc, planLibrary.cc,
    parseLibraryCall.cc, commandXmlParser.cc, LookupFactory.cc.
    Simplifications:
    - the GlobalDeclarations element is an XML tree as pugixml delivers it (comments and insignificant white
      space removed, parsePlan.cc:45); the nodes of the plan are abstract syntax: which expressions, commands,
      children and library calls they have; that they are well formed otherwise is assumed;
    - an expression is a string literal, a lookup, or any other expression, given by its subexpressions and by
      the functions that tell its type from theirs in the check pass and in the construction pass, or refuse
      it (TypeModel.v models them), and by the string it stands for if it is constant (an alias of a literal);
    - a library is called by its node name, which is also the name of the file;
    - a library that calls itself makes the construction recurse for ever: [RDeep] here, for every fuel;
    - memory management and the texts of the messages are left out. *)
From Coq Require Import ZArith List Bool String.
From Verif Require Import ValueModel UdpQueueModel OpModel TypeModel LitModel.
Import ListNotations.
Open Scope string_scope.
Open Scope list_scope.
Open Scope Z_scope.

(** ** XML, as seen through pugi::xml_node. *)
Inductive xml : Type := El (tag : string) (kids : list xml) | Txt (s : string).
(** name(): "" for a text node. *)
Definition tagOf (x : xml) : string := match x with El t _ => t | Txt _ => "" end.
Definition kidsOf (x : xml) : list xml := match x with El _ k => k | Txt _ => [] end.
(** child_value(): the first text child, or "". *)
Fixpoint firstText (l : list xml) : string :=
  match l with [] => "" | Txt s :: _ => s | El _ _ :: r => firstText r end.
Definition childValue (x : xml) : string := firstText (kidsOf x).
(** testTag, parser-utils.cc:67-69, of a node that exists. *)
Definition is (t : string) (x : xml) : bool := String.eqb (tagOf x) t.
(** child(t), and the siblings that follow it. *)
Fixpoint find (t : string) (l : list xml) : option (xml * list xml) :=
  match l with [] => None | x :: r => if is t x then Some (x, r) else find t r end.
Definition child (t : string) (x : xml) : option xml := option_map fst (find t (kidsOf x)).
Definition valueOfChild (t : string) (x : xml) : string :=
  match child t x with Some c => childValue c | None => "" end.
Definition named (t : string) (l : list xml) : list xml := filter (is t) l.
Definition empty (s : string) : bool := match s with EmptyString => true | _ => false end.

(** parseValueType(char const * ), ValueType.cc:205-328 (LitModel.v). *)
Definition typ (s : string) : Z := parseValueType (chars s).
(** isScalarType, ValueType.cc:146-149: SCALAR_TYPE_MAX follows DURATION_TYPE. *)
Definition isScalar (t : Z) : bool := (UNKNOWN_TYPE <? t) && (t <=? DURATION_TYPE).

(** ** First pass, parseGlobalDeclarations.cc:40-278. *)
(** checkValueDeclaration :40-72. *)
Definition checkValueDecl (x : xml) : bool :=
  match find "Type" (kidsOf x) with
  | None => false
  | Some (ty, rest) =>
      let s := childValue ty in
      negb (empty s) && (negb (Z.eqb (typ s) UNKNOWN_TYPE) || String.eqb s "Any")
      && match rest with
         | [] => true
         | m :: _ => is "MaxSize" m && negb (Z.eqb (arrayOf (typ s)) UNKNOWN_TYPE)
         end
  end.
(** The Parameter loop :94-97, :123-126: what follows the parameters, or a refusal. *)
Fixpoint checkParams (l : list xml) : option (list xml) :=
  match l with
  | x :: r => if is "Parameter" x then (if checkValueDecl x then checkParams r else None) else Some l
  | [] => Some []
  end.
(** The Name with which every declaration begins: what follows it. *)
Definition checkName (l : list xml) : option (list xml) :=
  match l with x :: r => if is "Name" x && negb (empty (childValue x)) then Some r else None | [] => None end.
(** checkCommandDeclaration :74-106: whatever follows the parameters is let pass. *)
Definition checkCommandDecl (x : xml) : bool :=
  match checkName (kidsOf x) with
  | None => false
  | Some [] => true
  | Some (y :: r) =>
      if is "Return" y then checkValueDecl y && match checkParams r with Some _ => true | None => false end
      else match checkParams (y :: r) with Some _ => true | None => false end
  end.
(** checkStateDeclaration :108-138. *)
Definition checkStateDecl (x : xml) : bool :=
  match checkName (kidsOf x) with
  | Some (y :: r) =>
      is "Return" y && checkValueDecl y
      && match checkParams r with
         | Some [] => true
         | Some [z] => is "AnyParameters" z
         | _ => false
         end
  | _ => false
  end.
(** checkInterfaceVariable :140-168, checkInterfaceArrayVariable :170-199. *)
Definition checkIfVar (arr : bool) (x : xml) : bool :=
  match checkName (kidsOf x) with
  | Some (ty :: _) =>
      let s := childValue ty in
      is "Type" ty && negb (empty s) && isScalar (typ s)
      && (negb arr || negb (Z.eqb (arrayOf (typ s)) UNKNOWN_TYPE))
  | _ => false
  end.
(** checkInDeclaration :201-214, checkInOutDeclaration :216-229. *)
Definition checkIfDecls (l : list xml) : bool :=
  forallb (fun d => if is "DeclareVariable" d then checkIfVar false d
                    else if is "DeclareArray" d then checkIfVar true d else false) l.
(** checkLibraryNodeDeclaration :231-258: only an Interface that directly follows the Name is looked at. *)
Definition checkLibDecl (x : xml) : bool :=
  match checkName (kidsOf x) with
  | None => false
  | Some [] => true
  | Some (y :: _) =>
      if is "Interface" y
      then forallb (fun c => (is "In" c || is "InOut" c) && checkIfDecls (kidsOf c)) (kidsOf y)
      else true
  end.
(** checkMutexDeclaration :260-269. *)
Definition checkMutexDecl (x : xml) : bool := match checkName (kidsOf x) with Some _ => true | None => false end.
(** checkGlobalDeclarations :271-289. *)
Definition checkDecl (d : xml) : bool :=
  if is "CommandDeclaration" d then checkCommandDecl d
  else if is "StateDeclaration" d then checkStateDecl d
  else if is "LibraryNodeDeclaration" d then checkLibDecl d
  else if is "DeclareMutex" d then checkMutexDecl d
  else false.
Definition checkDecls (x : xml) : bool := forallb checkDecl (kidsOf x).

(** ** The symbol table, SymbolTable.hh, SymbolTable.cc:37-286. *)
Record sym : Type := mkSym { s_ret : Z; s_par : list Z; s_any : bool }.
(** One interface variable of a library node: name, type, whether it is InOut. *)
Definition ifvar : Type := (string * Z * bool)%type.
Record table : Type := mkT {
  t_cmd : list (string * sym); t_look : list (string * sym); t_mutex : list string;
  t_lib : list (string * list ifvar) }.
Definition noTable : table := mkT [] [] [] [].              (* makeSymbolTable :283-286 *)
Fixpoint lookup {A} (m : list (string * A)) (n : string) : option A :=
  match m with [] => None | (k, v) :: r => if String.eqb k n then Some v else lookup r n end.
Definition has {A} (m : list (string * A)) (n : string) : bool :=
  match lookup m n with Some _ => true | None => false end.
Definition mem (n : string) (l : list string) : bool := existsb (String.eqb n) l.

(** ** Second pass, parseGlobalDeclarations.cc:295-457. *)
(** parseValueDeclaration :295-306. *)
Definition valueDecl (x : xml) : Z :=
  let t := typ (valueOfChild "Type" x) in
  match child "MaxSize" x with Some _ => arrayOf t | None => t end.
(** The body shared by parseCommandDeclaration :308-336 and parseStateDeclaration :338-358; a command without
    a Return keeps UNKNOWN_TYPE (Symbol::Symbol, SymbolTable.cc:49-56). *)
Definition readSym (x : xml) : sym :=
  mkSym (match child "Return" x with Some r => valueDecl r | None => UNKNOWN_TYPE end)
        (map valueDecl (named "Parameter" (kidsOf x)))
        (match child "AnyParameters" x with Some _ => true | None => false end).
(** parseInterfaceVariable :360-370, parseInterfaceArrayVariable :372-382. *)
Definition ifType (arr : bool) (x : xml) : Z :=
  let t := typ (valueOfChild "Type" x) in if arr then arrayOf t else t.
Definition addIfVar (inout arr : bool) (x : xml) (l : list ifvar) : option (list ifvar) :=
  let n := valueOfChild "Name" x in
  if mem n (map (fun v => fst (fst v)) l) then None else Some (l ++ [(n, ifType arr x, inout)]).
(** parseInDeclaration, parseInOutDeclaration :384-402. *)
Fixpoint addIfDecls (inout : bool) (ds : list xml) (l : list ifvar) : option (list ifvar) :=
  match ds with
  | [] => Some l
  | d :: r =>
      match (if is "DeclareVariable" d then addIfVar inout false d l
             else if is "DeclareArray" d then addIfVar inout true d l else Some l) with
      | Some l' => addIfDecls inout r l'
      | None => None
      end
  end.
Fixpoint addIfs (cs : list xml) (l : list ifvar) : option (list ifvar) :=
  match cs with
  | [] => Some l
  | c :: r =>
      match (if is "In" c then addIfDecls false (kidsOf c) l
             else if is "InOut" c then addIfDecls true (kidsOf c) l else Some l) with
      | Some l' => addIfs r l'
      | None => None
      end
  end.
(** parseLibraryNodeDeclaration :404-425. *)
Definition readLib (x : xml) : option (list ifvar) :=
  match child "Interface" x with Some i => addIfs (kidsOf i) [] | None => Some [] end.
(** One declaration: parseCommandDeclaration, parseStateDeclaration, parseLibraryNodeDeclaration,
    parseMutexDeclaration :427-434, and addCommand, addLookup, addLibraryNode, addMutex, SymbolTable.cc:183-240.
    The names of the global mutexes ([ensureGlobalMutex], SymbolTable.cc:216) are kept beside the table. *)
Definition parseDecl (d : xml) (gt : list string * table) : list string * option table :=
  let '(g, t) := gt in
  let n := valueOfChild "Name" d in
  if is "CommandDeclaration" d then
    (g, if has (t_cmd t) n then None else Some (mkT (t_cmd t ++ [(n, readSym d)]) (t_look t) (t_mutex t) (t_lib t)))
  else if is "StateDeclaration" d then
    (g, if has (t_look t) n then None else Some (mkT (t_cmd t) (t_look t ++ [(n, readSym d)]) (t_mutex t) (t_lib t)))
  else if is "LibraryNodeDeclaration" d then
    (g, if has (t_lib t) n then None
        else match readLib d with
             | Some l => Some (mkT (t_cmd t) (t_look t) (t_mutex t) (t_lib t ++ [(n, l)]))
             | None => None
             end)
  else if is "DeclareMutex" d then
    if mem n (t_mutex t) then (g, None)
    else (if mem n g then g else g ++ [n], Some (mkT (t_cmd t) (t_look t) (t_mutex t ++ [n]) (t_lib t)))
  else (g, Some t).
(** parseGlobalDeclarations :436-457. *)
Fixpoint parseDecls (ds : list xml) (gt : list string * table) : list string * option table :=
  match ds with
  | [] => (fst gt, Some (snd gt))
  | d :: r => match parseDecl d gt with (g, Some t) => parseDecls r (g, t) | (g, None) => (g, None) end
  end.
(** The first part of checkPlan, parsePlan.cc:71-85: None when the document has no GlobalDeclarations. *)
Definition readDecls (x : option xml) (g : list string) : list string * option table :=
  match x with
  | None => (g, Some noTable)
  | Some d => if checkDecls d then parseDecls (kidsOf d) (g, noTable) else (g, None)
  end.

(** ** Expressions *)
Inductive expr : Type :=
| EStr (s : string)                                                     (* <StringValue> *)
| EOp (chk mk : list Z -> option Z) (const : option string) (kids : list (Z * expr))
| ELookup (change : bool) (nm : expr) (tol : option expr) (args : option (list expr)).
(** getCommandSymbol, getLookupSymbol, SymbolTable.cc:315-329: of the current table, if there is one. *)
Definition cmdSym (T : option table) (n : string) : option sym := match T with Some t => lookup (t_cmd t) n | None => None end.
Definition lookSym (T : option table) (n : string) : option sym := match T with Some t => lookup (t_look t) n | None => None end.
Definition literal (e : expr) : option string := match e with EStr s => Some s | _ => None end.
(** isConstant, Expression.cc:59, Constant.cc:181-189, Alias.cc:76-79: literals, and aliases of them. *)
Definition constOf (e : expr) : option string := match e with EStr s => Some s | EOp _ _ c _ => c | _ => None end.
Definition obind {A B} (o : option A) (f : A -> option B) : option B := match o with Some a => f a | None => None end.
Definition isStringish (t : Z) : bool := Z.eqb t STRING_TYPE || Z.eqb t UNKNOWN_TYPE.
(** The argument count, commandXmlParser.cc:384-391, LookupFactory.cc:205-212. *)
Definition countOk (s : sym) (n : nat) : bool :=
  Nat.eqb n (length (s_par s)) || (s_any s && Nat.ltb (length (s_par s)) n).
(** The types of the arguments for which there is a declared parameter; Symbol::parameterType. *)
Fixpoint parsOk (ps ts : list Z) : bool :=
  match ps, ts with p :: ps', t :: ts' => areTypesCompatible p t && parsOk ps' ts' | _, _ => true end.
Definition argsOk (s : option sym) (ts : list Z) : bool :=
  match s with Some s => countOk s (length ts) && parsOk (s_par s) ts | None => true end.

(** checkExpression: OperationFactory etc., LookupFactory.cc:45-149 (factoryCheck<Lookup>).  The order in which
    refusals are found is not modelled. *)
Fixpoint checkE (T : option table) (e : expr) {struct e} : option Z :=
  match e with
  | EStr _ => Some STRING_TYPE
  | EOp chk _ _ kids => obind (allSome (map (fun k => checkE T (snd k)) kids)) chk
  | ELookup change nm tol args =>
      obind (checkE T nm) (fun tn =>
      if isStringish tn then
        let s := obind (literal nm) (lookSym T) in
        let ret := match s with Some s => s_ret s | None => UNKNOWN_TYPE end in
        obind (match tol with
               | None => Some tt
               | Some e' => if change
                            then obind (checkE T e') (fun t => if numOrUnknown t then Some tt else None)
                            else None
               end) (fun _ =>
        match args with
        | None => Some ret
        | Some l => obind (allSome (map (checkE T) l)) (fun ts => if argsOk s ts then Some ret else None)
        end)
      else None)
  end.
(** createExpression: LookupFactory.cc:151-258 (factoryAllocate<Lookup>); [d] is the returnType argument. *)
Fixpoint makeE (T : option table) (d : Z) (e : expr) {struct e} : option Z :=
  match e with
  | EStr _ => Some STRING_TYPE
  | EOp _ mk _ kids => obind (allSome (map (fun k => makeE T (fst k) (snd k)) kids)) mk
  | ELookup change nm tol args =>
      obind (makeE T UNKNOWN_TYPE nm) (fun tn =>
      if isStringish tn then
        let s := obind (constOf nm) (lookSym T) in
        let ret := match s with Some s => s_ret s | None => d end in
        obind (match args with Some l => allSome (map (makeE T UNKNOWN_TYPE) l) | None => Some [] end) (fun ts =>
        if argsOk s ts then
          match tol with
          | None => Some ret
          | Some e' => obind (makeE T UNKNOWN_TYPE e') (fun t => if numOrUnknown t then Some ret else None)
          end
        else None)
      else None)
  end.

(** ** Commands, commandXmlParser.cc *)
Inductive rfield : Type := FName | FPriority | FUpper | FRelease.
Record command : Type := mkCmd {
  c_res : option (list (list (rfield * expr)));                (* ResourceList *)
  c_dest : option (option Z * option Z);     (* what checkAssignable, createAssignable say of the destination's type *)
  c_name : expr;
  c_args : option (list expr) }.                               (* Arguments *)
(** checkResource :47-151: one field; [n], [p]: the name, the priority was seen.  The variables that would
    remember the other two are declared inside the loop :60. *)
Definition checkField (T : option table) (np : bool * bool) (f : rfield * expr) : option (bool * bool) :=
  let '(n, p) := np in
  obind (checkE T (snd f)) (fun t =>
  match fst f with
  | FName => if negb n && isStringish t then Some (true, p) else None
  | FPriority => if negb p && numOrUnknown t then Some (n, true) else None
  | FUpper => if numOrUnknown t then Some np else None
  | FRelease => if areTypesCompatible BOOLEAN_TYPE t then Some np else None
  end).
Fixpoint checkFields (T : option table) (np : bool * bool) (l : list (rfield * expr)) : option (bool * bool) :=
  match l with [] => Some np | f :: r => obind (checkField T np f) (fun np' => checkFields T np' r) end.
Definition checkResource (T : option table) (l : list (rfield * expr)) : bool :=
  match checkFields T (false, false) l with Some (true, true) => true | _ => false end.
(** The name of a resource if it is a literal, and the check for duplicates, checkResourceList :164-184. *)
Fixpoint resName (l : list (rfield * expr)) : option string :=
  match l with [] => None | (FName, e) :: _ => literal e | _ :: r => resName r end.
Fixpoint resDistinct (l : list (list (rfield * expr))) : bool :=
  match l with
  | [] => true
  | x :: r =>
      match resName x with
      | Some n => forallb (fun y => match resName y with Some m => negb (String.eqb n m) | None => true end) r
      | None => true
      end && resDistinct r
  end.
(** checkCommandBody :188-244. *)
Definition checkCommand (T : option table) (c : command) : bool :=
  match c_res c with Some rs => forallb (checkResource T) rs && resDistinct rs | None => true end
  && match c_dest c with Some (None, _) => false | _ => true end
  && match checkE T (c_name c) with Some t => areTypesCompatible STRING_TYPE t | None => false end
  && match obind (literal (c_name c)) (cmdSym T), c_dest c with
     | Some s, Some (Some v, _) => areTypesCompatible v (s_ret s)
     | _, _ => true
     end
  && match c_args c with Some l => forallb (fun e => match checkE T e with Some _ => true | None => false end) l | None => true end.
(** finalizeResourceList :247-322. *)
Definition makeField (T : option table) (f : rfield * expr) : bool :=
  match makeE T UNKNOWN_TYPE (snd f) with
  | None => false
  | Some t =>
      match fst f with
      | FName => isStringish t
      | FPriority => Z.eqb t INTEGER_TYPE || Z.eqb t UNKNOWN_TYPE
      | FUpper => numOrUnknown t
      | FRelease => Z.eqb t BOOLEAN_TYPE || Z.eqb t UNKNOWN_TYPE
      end
  end.
(** finalizeCommand :325-425: the arguments are looked at only if there is an Arguments element. *)
Definition makeCommand (T : option table) (c : command) : bool :=
  match c_res c with Some rs => forallb (forallb (makeField T)) rs | None => true end
  && match c_dest c with Some (_, None) => false | _ => true end
  && match makeE T UNKNOWN_TYPE (c_name c) with
     | None => false
     | Some t =>
         isStringish t
         && let s := if Z.eqb t STRING_TYPE then obind (constOf (c_name c)) (cmdSym T) else None in
            match s, c_dest c with Some s, Some (_, Some v) => areTypesCompatible v (s_ret s) | _, _ => true end
            && match c_args c with
               | None => true
               | Some l => match allSome (map (makeE T UNKNOWN_TYPE) l) with Some ts => argsOk s ts | None => false end
               end
     end.

(** ** Plans *)
(** A node: the expressions of its conditions, variables and body other than a command (with the types
    createExpression is asked for), its command, its children, its library call with the arguments. *)
Inductive pnode : Type :=
| PSimple (es : list (Z * expr))
| PCommand (es : list (Z * expr)) (c : command)
| PList (es : list (Z * expr)) (kids : list pnode)
| PCall (es : list (Z * expr)) (lib : string) (al : list expr).
Definition doc : Type := (option xml * pnode)%type.            (* GlobalDeclarations and the root node *)
Definition checkEs (T : option table) (es : list (Z * expr)) : bool :=
  forallb (fun e => match checkE T (snd e) with Some _ => true | None => false end) es.
Definition makeEs (T : option table) (es : list (Z * expr)) : bool :=
  forallb (fun e => match makeE T (fst e) (snd e) with Some _ => true | None => false end) es.
(** checkNode, parseNode.cc; checkLibraryCall, parseLibraryCall.cc:88-101, does not look into the arguments. *)
Fixpoint checkN (T : option table) (n : pnode) : bool :=
  match n with
  | PSimple es => checkEs T es
  | PCommand es c => checkEs T es && checkCommand T c
  | PList es kids => checkEs T es && forallb (checkN T) kids
  | PCall es _ _ => checkEs T es
  end.

(** The statics of SymbolTable.cc:288-290 and planLibrary.cc:53, and the global mutexes. *)
Record pstate : Type := mkP {
  p_cur : option table; p_stk : list table; p_libs : list (string * (table * pnode)); p_glob : list string }.
(** pushSymbolTable, popSymbolTable, SymbolTable.cc:292-313. *)
Definition pushT (t : table) (s : pstate) : pstate :=
  mkP (Some t) (match p_cur s with Some c => c :: p_stk s | None => p_stk s end) (p_libs s) (p_glob s).
Definition popT (s : pstate) : pstate :=
  match p_stk s with
  | [] => mkP None [] (p_libs s) (p_glob s)
  | t :: r => mkP (Some t) r (p_libs s) (p_glob s)
  end.
Inductive res : Type := ROk | RRefused | RAbort | RDeep.
(** checkPlan, parsePlan.cc:66-100. *)
Definition checkPlan (d : doc) (s : pstate) : pstate * option table :=
  match readDecls (fst d) (p_glob s) with
  | (g, None) => (mkP (p_cur s) (p_stk s) (p_libs s) g, None)
  | (g, Some t) =>
      let s1 := pushT t (mkP (p_cur s) (p_stk s) (p_libs s) g) in
      let ok := checkN (p_cur s1) (snd d) in
      (popT s1, if ok then Some t else None)
  end.
(** getLibraryNode, planLibrary.cc:193-202, with loadLibraryNode :110-138 and loadLibraryDocument :150-184. *)
Definition getLib (files : string -> option doc) (n : string) (s : pstate) : pstate * option (table * pnode) :=
  match lookup (p_libs s) n with
  | Some l => (s, Some l)
  | None =>
      match files n with
      | None => (s, None)
      | Some d =>
          match checkPlan d s with
          | (s', Some t) => (mkP (p_cur s') (p_stk s') (p_libs s' ++ [(n, (t, snd d))]) (p_glob s'), Some (t, snd d))
          | (s', None) => (s', None)
          end
      end
  end.
(** One after the other, up to the first that fails (an exception). *)
Definition each {A} (f : A -> pstate -> pstate * res) : list A -> pstate -> pstate * res :=
  fix loop (l : list A) (s : pstate) : pstate * res :=
  match l with
  | [] => (s, ROk)
  | a :: r => match f a s with (s', ROk) => loop r s' | e => e end
  end.
(** constructNode, constructLibraryCall (parseLibraryCall.cc:120-138), constructPlan (parsePlan.cc:102-127).
    The first pass has checked everything that the construction of the nodes themselves needs. *)
Fixpoint construct (files : string -> option doc) (fuel : nat) {struct fuel} : pnode -> pstate -> pstate * res :=
  match fuel with
  | O => fun _ s => (s, RDeep)
  | S f =>
      fix go (n : pnode) (s : pstate) {struct n} : pstate * res :=
        match n with
        | PSimple _ | PCommand _ _ => (s, ROk)
        | PList _ kids => each go kids s
        | PCall _ lib _ =>
            match getLib files lib s with
            | (s1, None) => (s1, RRefused)
            | (s1, Some (t, body)) => let '(s2, r) := construct files f body (pushT t s1) in (popT s2, r)
            end
        end
  end.
Definition okIf (b : bool) : res := if b then ROk else RRefused.
Definition andThen (r : pstate * res) (f : pstate -> pstate * res) : pstate * res :=
  match r with (s, ROk) => f s | e => e end.
(** finalizeNode, finalizeLibraryCall (parseLibraryCall.cc:157-186). *)
Fixpoint finalize (files : string -> option doc) (fuel : nat) {struct fuel} : pnode -> pstate -> pstate * res :=
  match fuel with
  | O => fun _ s => (s, RDeep)
  | S f =>
      fix go (n : pnode) (s : pstate) {struct n} : pstate * res :=
        match n with
        | PSimple es => (s, okIf (makeEs (p_cur s) es))
        | PCommand es c => (s, okIf (makeEs (p_cur s) es && makeCommand (p_cur s) c))
        | PList es kids => andThen (s, okIf (makeEs (p_cur s) es)) (each go kids)
        | PCall es lib al =>
            andThen (s, okIf (makeEs (p_cur s) es && makeEs (p_cur s) (map (fun e => (UNKNOWN_TYPE, e)) al))) (fun s =>
            match getLib files lib s with
            | (s1, None) => (s1, RAbort)
            | (s1, Some (t, body)) => let '(s2, r) := finalize files f body (pushT t s1) in (popT s2, r)
            end)
        end
  end.
(** parsePlan, parsePlan.cc:129-152. *)
Definition parsePlan (files : string -> option doc) (fuel : nat) (d : doc) (s : pstate) : pstate * res :=
  match checkPlan d s with
  | (s1, None) => (s1, RRefused)
  | (s1, Some t) =>
      let '(s2, r) := construct files fuel (snd d) (pushT t s1) in
      let s3 := popT s2 in
      match r with
      | ROk => let '(s4, r') := finalize files fuel (snd d) (pushT t s3) in (popT s4, r')
      | _ => (s3, r)
      end
  end.
