(** Handlers and listeners: /repo/src/app-framework/AdapterConfiguration.cc, CommandHandler.cc, LookupHandler.cc,
    InterfaceManager.cc (handleCommandAck), InterfaceSchema.cc (parseCommaSeparatedArgs), ExecListenerHub.cc,
    ExecListener.cc, ListenerFilters.cc.
    Simplifications:
    - user code (handlers, adapters) is a number; what it does when called is a parameter [ub] of the functions below;
    - std::map is a finite function; strings are character lists; XML elements are the data read from them;
    - debug output and warnings are left out. *)
From Coq Require Import ZArith List Bool String.
From Verif Require Import ValueModel FloatModel TypeModel UdpQueueModel LitModel.
Import ListNotations.
Open Scope Z_scope.

Record command : Type := { c_id : nat; c_name : str }.
Record wstate : Type := { s_name : str; s_args : list (option sval) }.
(** Calls of user code. *)
Inductive call : Type :=
| CExec (c : command) | CAbort (c : command) | CLookup (s : wstate)
| CSetR (s : wstate) (hi lo : fl) | CSetI (s : wstate) (hi lo : Z) | CClear (s : wstate) | CUpdate (u : nat).
(** What happens, in order. *)
Inductive eff : Type :=
| Ran (n : nat) (k : call)                                    (* user code n is called *)
| PostAck (c : command) (h : Z) | PostAbortAck (c : command) (b : bool) | PostUpdateAck (u : nat) (b : bool)   (* InterfaceManager::handle... *)
| Notify                                                      (* notifyOfExternalEvent *)
| NowHandle (c : command) (h : Z) | NowAbortAck (c : command) (b : bool) | NowUnknown (s : wstate).      (* immediately, in the executive *)
(** How a call ends: [IfaceErr] InterfaceError thrown, [OtherErr] any other exception, [Crash] null pointer called. *)
Inductive ending : Type := Returns | IfaceErr | OtherErr | Crash.
Definition outcome : Type := list eff * ending.
Definition userCode : Type := nat -> call -> outcome.
Definition COMMAND_DENIED := 5. Definition COMMAND_SUCCESS := 6. Definition COMMAND_INTERFACE_ERROR := 9.   (* CommandHandle.hh:40-52, from 0 *)

Definition runUser (ub : userCode) (n : nat) (k : call) : outcome := (Ran n k :: fst (ub n k), snd (ub n k)).

(** Command handlers: null, the base class (CommandHandler.cc:54-65), a derived class, functions (CommandHandlerWrapper,
    AdapterConfiguration.cc:763-809; no abort function means the default one, :802-806, CommandHandler.cc:40-45). *)
Inductive chandler : Type := CNull | CBase | CUser (n : nat) | CFun (ex ab : option nat).
Definition defaultAbort (c : command) : outcome := ([PostAbortAck c true; Notify], Returns).
Definition execBy (ub : userCode) (h : chandler) (c : command) : outcome :=
  match h with
  | CNull => ([], Crash)
  | CBase => ([PostAck c COMMAND_SUCCESS; Notify], Returns)
  | CUser n | CFun (Some n) _ => runUser ub n (CExec c)
  | CFun None _ => ([], OtherErr)                           (* std::bad_function_call *)
  end.
Definition abortBy (ub : userCode) (h : chandler) (c : command) : outcome :=
  match h with
  | CNull => ([], Crash)
  | CBase | CFun _ None => defaultAbort c
  | CUser n | CFun _ (Some n) => runUser ub n (CAbort c)
  end.
(** Lookup handlers: LookupHandler.cc:39-63, LookupHandlerWrapper, AdapterConfiguration.cc:814-871. *)
Inductive lhandler : Type := LNull | LBase | LUser (n : nat) | LFun (now setR setI clr : option nat).
Definition runOpt (ub : userCode) (o : option nat) (k : call) : outcome :=
  match o with Some n => runUser ub n k | None => ([], Returns) end.
Definition lookupBy (ub : userCode) (h : lhandler) (k : call) : outcome :=
  match h with
  | LNull => ([], Crash)
  | LBase => ([], Returns)
  | LUser n => runUser ub n k
  | LFun now setR setI clr =>
      match k with
      | CLookup _ => runOpt ub now k | CSetR _ _ _ => runOpt ub setR k | CSetI _ _ _ => runOpt ub setI k | CClear _ => runOpt ub clr k
      | _ => ([], Returns)
      end
  end.

(** ** The configuration, AdapterConfiguration.cc:876-904; initially :108-111. *)
Record config : Type := { cmap : str -> option chandler; cdef : chandler; lmap : str -> option lhandler; ldef : lhandler; upd : option nat }.
Definition config0 : config := {| cmap := fun _ => None; cdef := CBase; lmap := fun _ => None; ldef := LBase; upd := None |}.
Definition put {A} (m : str -> option A) (k : str) (v : A) : str -> option A := fun x => if str_eq_dec x k then Some v else m x.
(** Registration: :351-457. *)
Inductive reg : Type :=
| RegCmd (h : chandler) (names : list str) | RegCmd1 (h : chandler) (name : str) | DefCmd (h : chandler)
| RegLk (h : lhandler) (names : list str) | RegLk1 (h : lhandler) (name : str) | DefLk (h : lhandler)
| RegUpd (n : option nat).
Definition setCmap (s : config) m := {| cmap := m; cdef := cdef s; lmap := lmap s; ldef := ldef s; upd := upd s |}.
Definition setLmap (s : config) m := {| cmap := cmap s; cdef := cdef s; lmap := m; ldef := ldef s; upd := upd s |}.
Definition register (s : config) (r : reg) : config :=
  match r with
  | RegCmd h names => setCmap s (fold_left (fun m n => put m n h) names (cmap s))
  | RegCmd1 h n => setCmap s (put (cmap s) n h)
  | DefCmd h => {| cmap := cmap s; cdef := h; lmap := lmap s; ldef := ldef s; upd := upd s |}
  | RegLk h names => setLmap s (fold_left (fun m n => put m n h) names (lmap s))
  | RegLk1 h n => setLmap s (put (lmap s) n h)
  | DefLk h => {| cmap := cmap s; cdef := cdef s; lmap := lmap s; ldef := h; upd := upd s |}
  | RegUpd n => {| cmap := cmap s; cdef := cdef s; lmap := lmap s; ldef := ldef s; upd := n |}
  end.
Definition configure (h : list reg) : config := fold_left register h config0.
(** getCommandHandler, getLookupHandler :585-611. *)
Definition commandHandler (s : config) (n : str) : chandler := match cmap s n with Some h => h | None => cdef s end.
Definition lookupHandler (s : config) (n : str) : lhandler := match lmap s n with Some h => h | None => ldef s end.

(** ** The dispatcher, :477-579 *)
Inductive request : Type :=
| DExec (c : command) | DAbort (c : command) | DDeny (c : command) | DUpdate (u : nat)
| DLookup (s : wstate) | DSetR (s : wstate) (hi lo : fl) | DSetI (s : wstate) (hi lo : Z) | DClear (s : wstate).
Definition catch (o : outcome) (e : eff) : outcome :=
  match snd o with IfaceErr => (fst o ++ [e], Returns) | _ => o end.
Definition dispatch (ub : userCode) (s : config) (d : request) : outcome :=
  match d with
  | DExec c => catch (execBy ub (commandHandler s (c_name c)) c) (NowHandle c COMMAND_INTERFACE_ERROR)
  | DAbort c => catch (abortBy ub (commandHandler s (c_name c)) c) (NowAbortAck c false)
  | DDeny c => ([NowHandle c COMMAND_DENIED], Returns)
  | DUpdate u => match upd s with None => ([PostUpdateAck u true; Notify], Returns) | Some n => runUser ub n (CUpdate u) end
  | DLookup st => catch (lookupBy ub (lookupHandler s (s_name st)) (CLookup st)) (NowUnknown st)
  | DSetR st hi lo => lookupBy ub (lookupHandler s (s_name st)) (CSetR st hi lo)
  | DSetI st hi lo => lookupBy ub (lookupHandler s (s_name st)) (CSetI st hi lo)
  | DClear st => lookupBy ub (lookupHandler s (s_name st)) (CClear st)
  end.
(** InterfaceManager::handleCommandAck, InterfaceManager.cc:152-175: what is queued. *)
Definition queuedAck (c : option command) (h : Z) : option (command * Z) :=
  match c with None => None | Some c => Some (c, if (h <=? 0) || (10 <=? h) then COMMAND_INTERFACE_ERROR else h) end.

(** ** Adapters *)
(** An adapter: the registrations its initialize() makes, and whether initialize() and start() succeed. *)
Record adapter : Type := { a_id : nat; a_regs : list reg; a_init : bool; a_start : bool }.
(** initialize, :300-314. *)
Fixpoint initialize (s : config) (l : list adapter) : config * bool :=
  match l with
  | [] => (s, true)
  | a :: r => let s' := fold_left register (a_regs a) s in if a_init a then initialize s' r else (s', false)
  end.
(** start, :318-333: the adapters called, and the result. *)
Fixpoint startAll (l : list adapter) : list nat * bool :=
  match l with
  | [] => ([], true)
  | a :: r => if a_start a then let '(t, ok) := startAll r in (a_id a :: t, ok) else ([a_id a], false)
  end.
(** stop, :337-345. *)
Definition stopAll (l : list adapter) : list nat := map a_id l.

(** parseCommaSeparatedArgs, InterfaceSchema.cc:41-69. *)
Definition isBlank (c : Z) : bool := (c =? 32) || (c =? 9) || (c =? 10).
Fixpoint skipBlank (s : str) : str := match s with c :: r => if isBlank c then skipBlank r else s | [] => [] end.
Fixpoint toComma (s : str) : option (str * str) :=             (* strchr: before and after the first comma *)
  match s with
  | [] => None
  | c :: r => if c =? 44 then Some ([], r) else match toComma r with Some (a, b) => Some (c :: a, b) | None => None end
  end.
Fixpoint toBlank (s : str) : str := match s with c :: r => if isBlank c then [] else c :: toBlank r | [] => [] end.   (* strcspn *)
Fixpoint commaArgs (fuel : nat) (s : str) : list str :=
  match fuel with
  | O => []
  | S f => match skipBlank s with
           | [] => []
           | t => match toComma t with None => [toBlank t] | Some (a, r) => a :: commaArgs f r end
           end
  end.
Definition parseArgs (s : str) : list str := commaArgs (S (length s)) s.

(** constructInterfaces, :195-298: elements of the configuration file. *)
Inductive element : Type :=
| EAdapter (a : option adapter)                               (* what AdapterFactory::createInstance returns *)
| EHandler (tag : nat)                                        (* <CommandHandler>, <LookupHandler>, <PlannerUpdateHandler> *)
| ELibrary (ok : bool) | EListener (l : option nat)
| ELibPath (text : str) | EPlanPath (text : str) | EUnknown.
Record built : Type := { b_adapters : list adapter; b_listeners : list nat; b_libPath : list str; b_planPath : list str }.
Definition built0 : built := {| b_adapters := []; b_listeners := []; b_libPath := []; b_planPath := [] |}.
Definition element1 (b : built) (e : element) : option built :=
  match e with
  | EAdapter None | ELibrary false | EListener None => None
  | EAdapter (Some a) => Some {| b_adapters := b_adapters b ++ [a]; b_listeners := b_listeners b; b_libPath := b_libPath b; b_planPath := b_planPath b |}
  | EListener (Some l) => Some {| b_adapters := b_adapters b; b_listeners := b_listeners b ++ [l]; b_libPath := b_libPath b; b_planPath := b_planPath b |}
  | ELibPath t => Some {| b_adapters := b_adapters b; b_listeners := b_listeners b; b_libPath := b_libPath b ++ parseArgs t; b_planPath := b_planPath b |}
  | EPlanPath t => Some {| b_adapters := b_adapters b; b_listeners := b_listeners b; b_libPath := b_libPath b; b_planPath := b_planPath b ++ parseArgs t |}
  | ELibrary true | EHandler _ | EUnknown => Some b           (* :738-754: handlers are "TODO", nothing is built *)
  end.
Fixpoint constructInterfaces (b : built) (l : list element) : built * bool :=
  match l with
  | [] => (b, true)
  | e :: r => match element1 b e with Some b' => constructInterfaces b' r | None => (b, false) end
  end.

(** ** Listeners *)
(** A node transition; NodeState numbers as in NodeConstants.hh. *)
Record ntrans : Type := { t_node : nat; t_old : nat; t_new : nat }.
Record nassign : Type := { n_dest : str; n_value : option sval }.
(** NodeStateFilter::initialize, ListenerFilters.cc:61-104, and reportNodeTransition :107-110. *)
Definition enableAll (b : bool) (names : list str) : nat -> bool :=
  fold_left (fun m n => let i := parseName stateNames n in fun j => if Nat.eqb j i then b else m j) names (fun _ => negb b).
Definition nodeStateFilter (states ignored : str) : option (nat -> bool) :=
  match states, ignored with
  | [], [] => Some (fun _ => true)
  | _ :: _, [] => Some (enableAll true (parseArgs states))
  | [], _ :: _ => Some (enableAll false (parseArgs ignored))
  | _ :: _, _ :: _ => None
  end.
Definition reports (f : option (nat -> bool)) (t : ntrans) : bool :=
  match f with None => true | Some m => m (t_old t) || m (t_new t) end.
(** The hub: its listeners, by number and filter, and what is pending.  A NodeStateFilter passes assignments, plans and
    libraries (ExecListenerFilter.cc:49-103). *)
Record hub : Type := { h_listeners : list (nat * option (nat -> bool)); h_trans : list ntrans; h_assigns : list nassign }.
Definition hub0 : hub := {| h_listeners := []; h_trans := []; h_assigns := [] |}.
Inductive hubCall : Type :=
| HAddListener (n : nat) (f : option (nat -> bool)) | HTransitions (ts : list ntrans) | HAssignment (a : nassign)
| HAddPlan (p : nat) | HAddLibrary (p : nat) | HStepComplete.
(** What a listener is told. *)
Inductive note : Type := NTrans (t : ntrans) | NAssign (a : nassign) | NPlan (p : nat) | NLibrary (p : nat).
(** ExecListener::implementNotifyNodeTransitions, ExecListener.cc:199-211, then the assignments, ExecListenerHub.cc:109-118. *)
Definition stepNotes (h : hub) (f : option (nat -> bool)) : list note :=
  map NTrans (filter (reports f) (h_trans h)) ++ map NAssign (h_assigns h).
Definition hubStep (h : hub) (k : hubCall) : hub * list (nat * note) :=
  match k with
  | HAddListener n f => ({| h_listeners := h_listeners h ++ [(n, f)]; h_trans := h_trans h; h_assigns := h_assigns h |}, [])
  | HTransitions ts => ({| h_listeners := h_listeners h; h_trans := h_trans h ++ ts; h_assigns := h_assigns h |}, [])
  | HAssignment a => ({| h_listeners := h_listeners h; h_trans := h_trans h; h_assigns := h_assigns h ++ [a] |}, [])
  | HAddPlan p => (h, map (fun l => (fst l, NPlan p)) (h_listeners h))
  | HAddLibrary p => (h, map (fun l => (fst l, NLibrary p)) (h_listeners h))
  | HStepComplete =>
      ({| h_listeners := h_listeners h; h_trans := []; h_assigns := [] |},
       flat_map (fun l => map (fun m => (fst l, m)) (stepNotes h (snd l))) (h_listeners h))
  end.
Fixpoint hubRun (h : hub) (ks : list hubCall) : hub * list (nat * note) :=
  match ks with
  | [] => (h, [])
  | k :: r => let '(h', o) := hubStep h k in let '(h'', o') := hubRun h' r in (h'', o ++ o')
  end.
