(** Plans that start, stop and watch other plans: /repo/src/app-framework/Launcher.cc, and as much of
    /repo/src/xml-parser (parsePlan.cc, parseNode.cc, parseLibraryCall.cc, ConstantFactory.cc,
    ArrayLiteralFactory.cc, parser-utils.cc) as reads the plans it makes.
    Simplifications:
    - XML is the tree that pugixml holds; it is never written out or parsed;
    - of nodes only library calls with a name, an exit condition and a body are read, of expressions only
      literals and, as a condition, LookupNow with literal name and arguments: any other is refused here;
    - whether the library named exists and accepts the aliases (C53-C57, C69) is a parameter;
    - a node state, outcome, failure type or command handle is its index in the table of names (LitModel.v);
    - debug output is left out, messages are left out. *)
From Coq Require Import ZArith List Bool String.
From Verif Require Import ValueModel FloatModel TypeModel UdpQueueModel LitModel PrintModel.
Import ListNotations.
Open Scope Z_scope.

(** ** Values: Value.hh. *)
Inductive nkind : Type := KState | KOutcome | KFailure | KHandle.
Definition namesOf (k : nkind) : list string :=
  match k with KState => stateNames | KOutcome => outcomeNames | KFailure => failureNames | KHandle => handleNames end.
Inductive lval : Type :=
| LvUnk (t : Z)                                   (* unknown, of type t *)
| LvS (v : sval)                                  (* Boolean, Integer, Real, String *)
| LvN (k : nkind) (i : nat)
| LvA (t : litTag) (l : list (option sval)).      (* array; None: an unknown element *)
Definition isKnown (v : lval) : bool := match v with LvUnk _ => false | _ => true end.
(** Value::print, Value.cc:922-981 and valueToString :989-994 of what is not an array; a name out of range is
    printed as "<INVALID ...>", ValueType.cc:356-391. *)
Definition unknownText : str := chars "[unknown_value]".
Definition scalarText (v : sval) : str :=
  match v with SB b => printBoolean b | SI z => printInteger z | SR x => printReal x | SS s => s end.
Definition nameText (k : nkind) (i : nat) : str :=
  if (0 <? i)%nat && (i <? length (namesOf k))%nat then nameOf (namesOf k) i else chars "<INVALID>".

(** ** XML *)
Inductive xml : Type := El (tag : string) (attrs : list (string * str)) (kids : list xml) | Txt (s : str).
Definition is (t : string) (x : xml) : bool := match x with El t' _ _ => String.eqb t' t | Txt _ => false end.
Definition kidsOf (x : xml) : list xml := match x with El _ _ k => k | Txt _ => [] end.
Fixpoint firstText (l : list xml) : str := match l with [] => [] | Txt s :: _ => s | El _ _ _ :: r => firstText r end.
Definition childValue (x : xml) : str := firstText (kidsOf x).
Definition attr (n : string) (x : xml) : option str :=
  match x with El _ a _ => option_map snd (find (fun p => String.eqb (fst p) n) a) | Txt _ => None end.
Definition child (t : string) (x : xml) : option xml := find (is t) (kidsOf x).
(** std::string::c_str() handed to set_value: what follows a NUL is lost. *)
Fixpoint cstr (s : str) : str := match s with [] => [] | c :: r => if c =? 0 then [] else c :: cstr r end.
(** append_child(tag).append_child(node_pcdata).set_value(s). *)
Definition textEl (tag : string) (s : str) : xml := El tag [] [Txt s].

(** ** Making the plan, Launcher.cc:128-203 *)
(** typeNameAsValue, parser-utils.cc:231-272. *)
Definition tagOfLit (t : litTag) : string :=
  match t with LBool => "BooleanValue" | LInt => "IntegerValue" | LReal => "RealValue" | LString => "StringValue" end%string.
Definition litOf (v : sval) : litTag := match v with SB _ => LBool | SI _ => LInt | SR _ => LReal | SS _ => LString end.
Definition tagOfKind (k : nkind) : string :=
  match k with KState => "NodeStateValue" | KOutcome => "NodeOutcomeValue" | KFailure => "NodeFailureValue" | KHandle => "NodeCommandHandleValue" end%string.
(** valueToExprXml :130-152, of a known value. *)
Definition eltText (o : option sval) : str := match o with Some v => scalarText v | None => unknownText end.
Definition valueXml (v : lval) : xml :=
  match v with
  | LvS s => textEl (tagOfLit (litOf s)) (cstr (scalarText s))
  | LvN k i => textEl (tagOfKind k) (nameText k i)
  | LvA t l => El "ArrayValue" [("Type"%string, chars (tagOfLit t))] (map (fun o => textEl (tagOfLit t) (cstr (eltText o))) l)
  | LvUnk _ => textEl "" unknownText          (* not reached: arguments are known *)
  end.
Definition aliasXml (p : str * lval) : xml := El "Alias" [] [textEl "NodeParameter" (cstr (fst p)); valueXml (snd p)].
(** makeWrapperPlanXml :173-203. *)
Definition wrapperXml (caller callee : str) (args : list (str * lval)) : xml :=
  El "PlexilPlan" []
    [El "Node" [("NodeType"%string, chars "LibraryNodeCall")]
       [textEl "NodeId" caller;
        El "ExitCondition" []
          [El "LookupNow" [] [El "Name" [] [textEl "StringValue" (chars "ExitPlan")]; El "Arguments" [] [textEl "StringValue" caller]]];
        El "NodeBody" [] [El "LibraryNodeCall" [] (textEl "NodeId" callee :: map aliasXml args)]]].

(** ** Reading it *)
(** createExpression of a literal; the alias of a library call is not checked first (parseLibraryCall.cc:145-158).
    [None]: a parser exception. *)
Definition allocLit (t : litTag) (s : str) : option (option sval) :=
  match t with LReal => ofPres (fun x => SR (realConstant x)) (parseReal s) | _ => parseAs t s end.
Fixpoint allAlloc (l : list (option (option sval))) : option (list (option sval)) :=
  match l with
  | [] => Some []
  | None :: _ => None
  | Some v :: r => option_map (cons v) (allAlloc r)
  end.
Definition kindConstant (k : nkind) (s : str) : option lval :=
  match k with
  | KHandle => option_map (LvN KHandle) (handleConstant s)
  | _ => match parseName (namesOf k) s with O => None | i => Some (LvN k i) end
  end.
Definition typeOfLit (t : litTag) : Z :=
  match t with LBool => BOOLEAN_TYPE | LInt => INTEGER_TYPE | LReal => REAL_TYPE | LString => STRING_TYPE end.
Definition createLiteral (x : xml) : option lval :=
  let s := childValue x in
  let scalar t := option_map (fun o => match o with Some v => LvS v | None => LvUnk (typeOfLit t) end) (allocLit t s) in
  if is "BooleanValue" x then scalar LBool
  else if is "IntegerValue" x then scalar LInt
  else if is "RealValue" x then scalar LReal
  else if is "StringValue" x then scalar LString
  else if is "NodeStateValue" x then kindConstant KState s
  else if is "NodeOutcomeValue" x then kindConstant KOutcome s
  else if is "NodeFailureValue" x then kindConstant KFailure s
  else if is "NodeCommandHandleValue" x then kindConstant KHandle s
  else if is "ArrayValue" x then
    let ty := parseValueType (match attr "Type" x with Some t => t | None => [] end) in
    let arr t := option_map (LvA t) (allAlloc (map (fun e => parseAs t (childValue e)) (kidsOf x))) in
    if Z.eqb ty BOOLEAN_TYPE then arr LBool
    else if Z.eqb ty INTEGER_TYPE then arr LInt
    else if Z.eqb ty REAL_TYPE then arr LReal
    else if Z.eqb ty STRING_TYPE then arr LString
    else None
  else None.

(** checkAlias, parseLibraryCall.cc:51-88; [seen]: the names of the aliases before. *)
Fixpoint checkAliases (seen : list str) (l : list xml) : bool :=
  match l with
  | [] => true
  | a :: r =>
      is "Alias" a
      && match kidsOf a with
         | p :: rest =>
             let name := childValue p in
             is "NodeParameter" p && negb (streq name []) && negb (existsb (streq name) seen)
             && match rest with
                | El t _ k :: _ => match k with [] => String.eqb t "StringValue" | _ => true end
                | _ => false
                end
             && checkAliases (name :: seen) r
         | [] => false
         end
  end.
(** finalizeAliases :145-158. *)
Fixpoint makeAliases (l : list xml) : option (list (str * lval)) :=
  match l with
  | [] => Some []
  | a :: r =>
      match kidsOf a with
      | p :: e :: _ =>
          match createLiteral e, makeAliases r with Some v, Some m => Some ((childValue p, v) :: m) | _, _ => None end
      | _ => None
      end
  end.
(** A library call, as loaded: its name, the state its exit condition looks up, the library, the aliases. *)
Record loaded : Type := mkLoaded { w_id : str; w_exit : str * list str; w_callee : str; w_aliases : list (str * lval) }.
Definition stringLit (x : xml) : option str := if is "StringValue" x then Some (childValue x) else None.
Fixpoint stringLits (l : list xml) : option (list str) :=
  match l with
  | [] => Some []
  | x :: r => match stringLit x, stringLits r with Some s, Some m => Some (s :: m) | _, _ => None end
  end.
(** A condition that is a LookupNow, LookupFactory.cc. *)
Definition readLookup (x : xml) : option (str * list str) :=
  match x with
  | El "LookupNow" _ [El "Name" _ (n :: _); El "Arguments" _ args] =>
      match stringLit n, stringLits args with Some s, Some l => Some (s, l) | _, _ => None end
  | _ => None
  end.
(** parsePlan.cc:67-150 with checkNode parseNode.cc:463-737, checkLibraryCall :90-104, constructLibraryCall :126-145. *)
Definition readPlan (x : xml) : option loaded :=
  match x with
  | El "PlexilPlan" _ [El "Node" a [El "NodeId" _ (Txt id :: _); El "ExitCondition" _ (c :: _); El "NodeBody" _ (El "LibraryNodeCall" _ (n :: al) :: _)]] =>
      let callee := childValue n in
      if match attr "NodeType" (El "Node" a []) with Some t => streq t (chars "LibraryNodeCall") | None => false end
         && negb (streq id []) && is "NodeId" n && negb (streq callee []) && checkAliases [] al
      then match readLookup c, makeAliases al with
           | Some e, Some m => Some (mkLoaded id e callee m)
           | _, _ => None
           end
      else None
  | _ => None
  end.

(** ** The command handlers *)
(** What they do to the executive: AdapterExecInterface. *)
Inductive post : Type :=
| PPlan (w : loaded)                                     (* a plan put in the queue: handleAddPlan *)
| PReturn (s : str)                                      (* handleCommandReturn *)
| PAck (ok : bool)                                       (* handleCommandAck: COMMAND_SUCCESS or COMMAND_FAILED *)
| PValue (name : string) (arg : str) (v : lval)          (* handleValueChange(State(name, arg), v) *)
| PNotify.                                               (* notifyOfExternalEvent *)
Definition failed : list post := [PAck false; PNotify].

Section Handlers.
(** The library exists and can be built with these aliases. *)
Variable lib : str -> list (str * lval) -> bool.
(** InterfaceManager::handleAddPlan, InterfaceManager.cc:345-361: [None], a parser exception. *)
Definition addPlan (x : xml) : option loaded :=
  match readPlan x with Some w => if lib (w_callee w) (w_aliases w) then Some w else None | None => None end.

(** checkPlanNameArgument :160-181. *)
Definition planName (args : list lval) : option str := match args with LvS (SS s) :: _ => Some s | _ => None end.
(** The loop over the arguments :224-259. *)
Fixpoint pairs (l : list lval) : option (list (str * lval)) :=
  match l with
  | [] => Some []
  | LvS (SS f) :: v :: r => if isKnown v then option_map (cons (f, v)) (pairs r) else None
  | _ => None
  end.
(** nextSerialNumber :154-158: unsigned. *)
Definition nextSerial (n : Z) : Z := (n + 1) mod 2 ^ 32.
Definition callerName (callee : str) (n : Z) : str := callee ++ 95 :: printNat n.
(** executeStartPlanCommand :209-291; the counter before, the counter after. *)
Definition startPlan (n : Z) (args : list lval) : Z * list post :=
  match planName args with
  | None => (n, failed)
  | Some callee =>
      match pairs (tl args) with
      | None => (n, failed)
      | Some ps =>
          let n' := nextSerial n in
          let caller := callerName callee n' in
          match addPlan (wrapperXml (cstr caller) (cstr callee) ps) with
          | Some w => (n', [PPlan w; PReturn caller; PAck true; PNotify])
          | None => (n', failed)
          end
      end
  end.
End Handlers.

(** findNode :294-314: exactly one root with that name. *)
Definition findNode (roots : list str) (name : str) : bool :=
  match filter (streq name) roots with [_] => true | _ => false end.
(** executeExitPlanCommand :317-347. *)
Definition exitPlan (roots : list str) (args : list lval) : list post :=
  match planName args with
  | None => failed
  | Some name =>
      match args with
      | [_] => if findNode roots name then [PValue "ExitPlan" name (LvS (SB true)); PAck true; PNotify] else failed
      | _ => failed
      end
  end.

(** ** LauncherListener :64-122 *)
(** A transition, and the node as it is when the listener is called. *)
Record trans : Type := mkTrans { t_root : bool; t_id : str; t_new : nat; t_outcome : nat; t_failure : nat }.
Definition text (names : list string) (i : nat) : lval := LvS (SS (nameOf names i)).
Definition reportOne (t : trans) : list post :=
  PValue "PlanState" (t_id t) (text stateNames (t_new t))
  :: (if (t_outcome t =? 0)%nat then []
      else PValue "PlanOutcome" (t_id t) (text outcomeNames (t_outcome t))
           :: (if (t_failure t =? 0)%nat then [] else [PValue "PlanFailureType" (t_id t) (text failureNames (t_failure t))])).
Definition report (l : list trans) : list post :=
  let roots := filter t_root l in
  flat_map reportOne roots ++ (match roots with [] => [] | _ => [PNotify] end).
