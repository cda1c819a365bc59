(** What global declarations say, which calls conform to them, and which plans may be loaded (C69). *)
From Coq Require Import ZArith List Bool String.
From Verif Require Import ValueModel DeclModel.
Import ListNotations.
Open Scope string_scope.
Open Scope list_scope.
Open Scope Z_scope.

(** ** Declarations, as the schema writes them *)
(** Names of types; 0 stands for "of any type". *)
Definition typeWords : list (string * Z) :=
  [("Any", 0); ("Boolean", BOOLEAN_TYPE); ("Integer", INTEGER_TYPE); ("Real", REAL_TYPE); ("String", STRING_TYPE);
   ("Date", DATE_TYPE); ("Duration", DURATION_TYPE); ("Array", ARRAY_TYPE); ("BooleanArray", BOOLEAN_ARRAY_TYPE);
   ("IntegerArray", INTEGER_ARRAY_TYPE); ("RealArray", REAL_ARRAY_TYPE); ("StringArray", STRING_ARRAY_TYPE);
   ("State", STATE_TYPE); ("NodeState", NODE_STATE_TYPE); ("NodeOutcome", OUTCOME_TYPE); ("NodeFailure", FAILURE_TYPE);
   ("NodeCommandHandle", COMMAND_HANDLE_TYPE)].
(** Types of elements, and the arrays of them. *)
Definition elementWords : list (string * Z) :=
  [("Boolean", BOOLEAN_ARRAY_TYPE); ("Integer", INTEGER_ARRAY_TYPE); ("Real", REAL_ARRAY_TYPE); ("String", STRING_ARRAY_TYPE)].
(** A Return or Parameter element: optional name, type, MaxSize if it is an array. *)
Record value : Type := mkV { v_name : option string; v_type : string; v_max : option string }.
Definition means (v : value) (t : Z) : Prop :=
  match v_max v with None => In (v_type v, t) typeWords | Some _ => In (v_type v, t) elementWords end.
(** An interface variable of a library node: InOut or In, an array or not, name and (element) type. *)
Record var : Type := mkVar { w_inout : bool; w_arr : bool; w_name : string; w_type : string }.
Definition varMeans (w : var) (t : Z) : Prop :=
  if w_arr w then In (w_type w, t) elementWords
  else In (w_type w, t) typeWords /\ 1 <= t <= DURATION_TYPE.
Inductive decl : Type :=
| DCommand (n : string) (ret : option value) (ps : list value) (any : bool)
| DState (n : string) (ret : value) (ps : list value) (any : bool)
| DLib (n : string) (ws : list var)
| DMutex (n : string).

(** The XML. *)
Definition text (tag s : string) : xml := El tag [Txt s].
Definition opt {A} (f : A -> xml) (o : option A) : list xml := match o with Some a => [f a] | None => [] end.
Definition xValue (tag : string) (v : value) : xml :=
  El tag (opt (text "Name") (v_name v) ++ [text "Type" (v_type v)] ++ opt (text "MaxSize") (v_max v)).
Definition xAny (any : bool) : list xml := if any then [El "AnyParameters" []] else [].
Definition xVar (w : var) : xml :=
  El (if w_inout w then "InOut" else "In")
     [El (if w_arr w then "DeclareArray" else "DeclareVariable") [text "Name" (w_name w); text "Type" (w_type w)]].
Definition xDecl (d : decl) : xml :=
  match d with
  | DCommand n ret ps any => El "CommandDeclaration" (text "Name" n :: opt (xValue "Return") ret ++ map (xValue "Parameter") ps ++ xAny any)
  | DState n ret ps any => El "StateDeclaration" (text "Name" n :: xValue "Return" ret :: map (xValue "Parameter") ps ++ xAny any)
  | DLib n ws => El "LibraryNodeDeclaration" [text "Name" n; El "Interface" (map xVar ws)]
  | DMutex n => El "DeclareMutex" [text "Name" n]
  end.
Definition xDecls (ds : list decl) : xml := El "GlobalDeclarations" (map xDecl ds).

(** Well written: names are not empty, types exist, a library's interface variables have different names. *)
Definition nonempty (n : string) : Prop := n <> "".
Definition meaningful (v : value) : Prop := exists t, means v t.
Definition wf (d : decl) : Prop :=
  match d with
  | DCommand n ret ps _ => nonempty n /\ (forall v, ret = Some v -> meaningful v) /\ Forall meaningful ps
  | DState n ret ps _ => nonempty n /\ meaningful ret /\ Forall meaningful ps
  | DLib n ws => nonempty n /\ NoDup (map w_name ws) /\ Forall (fun w => nonempty (w_name w) /\ exists t, varMeans w t) ws
  | DMutex n => nonempty n
  end.
(** Commands, states, library nodes and mutexes have separate name spaces. *)
Inductive kind : Type := KCommand | KState | KLib | KMutex.
Definition key (d : decl) : kind * string :=
  match d with DCommand n _ _ _ => (KCommand, n) | DState n _ _ _ => (KState, n) | DLib n _ => (KLib, n) | DMutex n => (KMutex, n) end.

(** A table says exactly what was declared. *)
Definition sigMeans (ret : option value) (ps : list value) (any : bool) (s : sym) : Prop :=
  match ret with Some v => means v (s_ret s) | None => s_ret s = 0 end /\ Forall2 means ps (s_par s) /\ s_any s = any.
Definition libMeans (ws : list var) (l : list ifvar) : Prop :=
  Forall2 (fun w x => fst (fst x) = w_name w /\ varMeans w (snd (fst x)) /\ snd x = w_inout w) ws l.
Definition says (T : table) (ds : list decl) : Prop :=
  (forall n, match lookup (t_cmd T) n with
             | Some s => exists ret ps any, In (DCommand n ret ps any) ds /\ sigMeans ret ps any s
             | None => forall ret ps any, ~ In (DCommand n ret ps any) ds end) /\
  (forall n, match lookup (t_look T) n with
             | Some s => exists ret ps any, In (DState n ret ps any) ds /\ sigMeans (Some ret) ps any s
             | None => forall ret ps any, ~ In (DState n ret ps any) ds end) /\
  (forall n, match lookup (t_lib T) n with
             | Some l => exists ws, In (DLib n ws) ds /\ libMeans ws l
             | None => forall ws, ~ In (DLib n ws) ds end) /\
  (forall n, In n (t_mutex T) <-> In (DMutex n) ds).

(** ** Conforming calls *)
(** A value of type [t] may be passed where [p] is declared; 0: any type, or a type not known yet. *)
Inductive fits : Z -> Z -> Prop :=
| fits_any t : fits 0 t
| fits_later p : fits p 0
| fits_same t : fits t t
| fits_time p t : In p [DATE_TYPE; DURATION_TYPE] -> In t [REAL_TYPE; INTEGER_TYPE] -> fits p t
| fits_real t : In t [INTEGER_TYPE; DATE_TYPE; DURATION_TYPE] -> fits REAL_TYPE t
| fits_array t : In t [BOOLEAN_ARRAY_TYPE; INTEGER_ARRAY_TYPE; REAL_ARRAY_TYPE; STRING_ARRAY_TYPE] -> fits ARRAY_TYPE t.
Definition conforms (s : sym) (ts : list Z) : Prop :=
  (length ts = length (s_par s) \/ s_any s = true /\ (length (s_par s) < length ts)%nat) /\
  forall i p t, nth_error (s_par s) i = Some p -> nth_error ts i = Some t -> fits p t.
(** If there is a declaration, the call conforms to it. *)
Definition conformsIf (s : option sym) (ts : list Z) : Prop := forall g, s = Some g -> conforms g ts.
Definition stringish (t : Z) : Prop := t = STRING_TYPE \/ t = 0.
Definition numericish (t : Z) : Prop := In t [INTEGER_TYPE; REAL_TYPE; DATE_TYPE; DURATION_TYPE; 0].
Definition resultType (s : option sym) (d : Z) : Z := match s with Some g => s_ret g | None => d end.
Definition declaredLookup (T : table) (n : option string) : option sym :=
  match n with Some n => lookup (t_look T) n | None => None end.
Definition declaredCommand (T : table) (n : option string) : option sym :=
  match n with Some n => lookup (t_cmd T) n | None => None end.

(** Expressions built under the declarations [T]: where [d] is asked for, [e] has type [t]. *)
Inductive typed (T : table) : Z -> expr -> Z -> Prop :=
| typed_str d s : typed T d (EStr s) STRING_TYPE
| typed_op d chk mk c kids ts t :
    Forall2 (fun k => typed T (fst k) (snd k)) kids ts -> mk ts = Some t -> typed T d (EOp chk mk c kids) t
| typed_lookup d change nm tn tol args ts :
    typed T 0 nm tn -> stringish tn ->
    Forall2 (typed T 0) (match args with Some l => l | None => [] end) ts ->
    conformsIf (declaredLookup T (constOf nm)) ts ->
    (forall e, tol = Some e -> exists t, typed T 0 e t /\ numericish t) ->
    typed T d (ELookup change nm tol args) (resultType (declaredLookup T (constOf nm)) d).
(** Expressions as the first pass sees them: only a literal names a declaration, and a lookup without
    Arguments is not compared with it. *)
Inductive checked (T : table) : expr -> Z -> Prop :=
| checked_str s : checked T (EStr s) STRING_TYPE
| checked_op chk mk c kids ts t :
    Forall2 (fun k => checked T (snd k)) kids ts -> chk ts = Some t -> checked T (EOp chk mk c kids) t
| checked_lookup change nm tn tol args :
    checked T nm tn -> stringish tn ->
    (forall l, args = Some l -> exists ts, Forall2 (checked T) l ts /\ conformsIf (declaredLookup T (literal nm)) ts) ->
    (forall e, tol = Some e -> change = true /\ exists t, checked T e t /\ numericish t) ->
    checked T (ELookup change nm tol args) (resultType (declaredLookup T (literal nm)) 0).
Inductive subexpr : expr -> expr -> Prop :=
| sub_refl e : subexpr e e
| sub_op e k chk mk c kids : In k kids -> subexpr e (snd k) -> subexpr e (EOp chk mk c kids)
| sub_name e change nm tol args : subexpr e nm -> subexpr e (ELookup change nm tol args)
| sub_tol e e' change nm args : subexpr e e' -> subexpr e (ELookup change nm (Some e') args)
| sub_arg e a l change nm tol : In a l -> subexpr e a -> subexpr e (ELookup change nm tol (Some l)).

(** ** Commands *)
(** One resource: exactly one name and one priority, and fields of the right types. *)
Definition fieldChecked (f : rfield) (t : Z) : Prop :=
  match f with FName => stringish t | FPriority | FUpper => numericish t | FRelease => fits BOOLEAN_TYPE t end.
Definition fieldTyped (f : rfield) (t : Z) : Prop :=
  match f with
  | FName => stringish t | FPriority => t = INTEGER_TYPE \/ t = 0 | FUpper => numericish t | FRelease => t = BOOLEAN_TYPE \/ t = 0
  end.
Definition isField (f g : rfield) : bool := match f, g with FName, FName | FPriority, FPriority | FUpper, FUpper | FRelease, FRelease => true | _, _ => false end.
Definition countField (f : rfield) (l : list (rfield * expr)) : nat := length (filter (fun x => isField f (fst x)) l).
Definition resourceOk (T : table) (l : list (rfield * expr)) : Prop :=
  countField FName l = 1%nat /\ countField FPriority l = 1%nat /\
  (forall f e, In (f, e) l -> (exists t, checked T e t /\ fieldChecked f t) /\ (exists t, typed T 0 e t /\ fieldTyped f t)).
Definition resourcesOk (T : table) (rs : list (list (rfield * expr))) : Prop :=
  Forall (resourceOk T) rs /\
  (forall i j x y n, nth_error rs i = Some x -> nth_error rs j = Some y -> In (FName, EStr n) x -> In (FName, EStr n) y -> i = j).
Definition commandOk (T : table) (c : command) : Prop :=
  (forall rs, c_res c = Some rs -> resourcesOk T rs) /\
  (exists t, checked T (c_name c) t /\ stringish t) /\
  (forall v, c_dest c = Some v -> exists v1 v2, v = (Some v1, Some v2) /\
     (forall s, declaredCommand T (literal (c_name c)) = Some s -> fits v1 (s_ret s))) /\
  (forall l, c_args c = Some l -> exists ts, Forall2 (checked T) l ts) /\
  exists t, typed T 0 (c_name c) t /\ stringish t /\
  let s := if Z.eqb t STRING_TYPE then declaredCommand T (constOf (c_name c)) else None in
  (forall v1 v2 g, c_dest c = Some (v1, Some v2) -> s = Some g -> fits v2 (s_ret g)) /\
  (forall l, c_args c = Some l -> exists ts, Forall2 (typed T 0) l ts /\ conformsIf s ts).

(** ** Plans *)
Inductive inside : pnode -> pnode -> Prop :=
| in_self n : inside n n
| in_kid n k es kids : In k kids -> inside n k -> inside n (PList es kids).
(** The expressions of a node other than those of a command or the arguments of a library call. *)
Definition exprsOf (n : pnode) : list (Z * expr) :=
  match n with PSimple es | PCommand es _ | PList es _ | PCall es _ _ => es end.
Definition nodeOk (T : table) (n : pnode) : Prop :=
  (forall d e, In (d, e) (exprsOf n) -> (exists t, checked T e t) /\ (exists t, typed T d e t)) /\
  (forall es c, n = PCommand es c -> commandOk T c) /\
  (forall es lib al, n = PCall es lib al -> forall e, In e al -> exists t, typed T 0 e t).
Definition calls (n : pnode) (lib : string) : Prop := exists es al, inside (PCall es lib al) n.
(** The documents a plan consists of: itself and, again and again, the libraries called. *)
Inductive reaches (files : string -> option doc) (d : doc) : doc -> Prop :=
| reach_self : reaches files d d
| reach_call d1 lib d2 : reaches files d d1 -> calls (snd d1) lib -> files lib = Some d2 -> reaches files d d2.
(** The table of a document's own declarations. *)
Definition declares (d : doc) (T : table) : Prop := snd (readDecls (fst d) []) = Some T.
(** A document is in order, by its own declarations. *)
Definition docOk (d : doc) : Prop := exists T, declares d T /\ forall n, inside n (snd d) -> nodeOk T n.
(** Library calls are nested at most [k] deep. *)
Fixpoint shallow (files : string -> option doc) (k : nat) (n : pnode) : Prop :=
  match k with
  | O => False
  | S k' => forall lib d, calls n lib -> files lib = Some d -> shallow files k' (snd d)
  end.
(** What is known between loads: no table is current, and the libraries are those of the files. *)
Definition settled (files : string -> option doc) (s : pstate) : Prop :=
  p_cur s = None /\ p_stk s = [] /\
  forall n l, lookup (p_libs s) n = Some l -> exists d, files n = Some d /\ snd d = snd l /\ declares d (fst l)
     /\ checkN (Some (fst l)) (snd l) = true.

(** Every expression written in a node. *)
Definition exprIn (n : pnode) (e : expr) : Prop :=
  (exists d, In (d, e) (exprsOf n)) \/
  (exists es c, n = PCommand es c /\
     (e = c_name c \/ (exists l, c_args c = Some l /\ In e l) \/ (exists rs r f, c_res c = Some rs /\ In r rs /\ In (f, e) r))) \/
  (exists es lib al, n = PCall es lib al /\ In e al).
(** The plan is accepted. *)
Definition accepted (files : string -> option doc) (k : nat) (d : doc) (s : pstate) : Prop := snd (parsePlan files k d s) = ROk.

(** ** Which declarations are accepted, whatever the XML *)
Definition valueWellFormed (x : xml) : Prop := exists pre ty rest,
  kidsOf x = pre ++ ty :: rest /\ (forall y, In y pre -> tagOf y <> "Type") /\ tagOf ty = "Type" /\
  match rest with
  | [] => exists t, In (childValue ty, t) typeWords
  | m :: _ => tagOf m = "MaxSize" /\ exists t, In (childValue ty, t) elementWords
  end.
(** The first child is a Name that is not empty; [rest] are the others. *)
Definition namedFirst (x : xml) (rest : list xml) : Prop :=
  exists n, kidsOf x = n :: rest /\ tagOf n = "Name" /\ childValue n <> "".
Definition tagged (t : string) (x : xml) : Prop := tagOf x = t /\ valueWellFormed x.
Definition interfaceWellFormed (i : xml) : Prop :=
  forall c, In c (kidsOf i) -> In (tagOf c) ["In"; "InOut"] /\
  forall v, In v (kidsOf c) -> exists ty r, namedFirst v (ty :: r) /\ tagOf ty = "Type" /\
    (tagOf v = "DeclareVariable" /\ (exists t, In (childValue ty, t) typeWords /\ 1 <= t <= DURATION_TYPE) \/
     tagOf v = "DeclareArray" /\ exists t, In (childValue ty, t) elementWords).
Definition declWellFormed (d : xml) : Prop := exists rest, namedFirst d rest /\
  (tagOf d = "CommandDeclaration" /\ (exists ret ps others, rest = ret ++ ps ++ others /\ (ret = [] \/ exists r, ret = [r] /\ tagged "Return" r)
      /\ Forall (tagged "Parameter") ps /\ (forall j r, others = j :: r -> tagOf j <> "Parameter")
      /\ (forall j r, rest = j :: r -> ret = [] -> tagOf j <> "Return")) \/
   tagOf d = "StateDeclaration" /\ (exists r ps any, rest = r :: ps ++ any /\ tagged "Return" r /\ Forall (tagged "Parameter") ps
      /\ (any = [] \/ exists z, any = [z] /\ tagOf z = "AnyParameters")) \/
   tagOf d = "LibraryNodeDeclaration" /\ (forall i r, rest = i :: r -> tagOf i = "Interface" -> interfaceWellFormed i) \/
   tagOf d = "DeclareMutex").
(** The names of the interface variables of a library declaration. *)
Definition interfaceNames (d : xml) : list string :=
  match child "Interface" d with
  | Some i => flat_map (fun c => if existsb (String.eqb (tagOf c)) ["In"; "InOut"]
                                 then map (valueOfChild "Name") (filter (fun v => existsb (String.eqb (tagOf v)) ["DeclareVariable"; "DeclareArray"]) (kidsOf c)) else []) (kidsOf i)
  | None => []
  end.
