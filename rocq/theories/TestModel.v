(** The scripted environment of TestExec, /repo/src/apps/TestExec/TestExternalInterface.cc.
    Simplifications:
    - script elements are given as parsed (names, parameters and values; TestLitModel.v has the reading of
      values); an element that the parser refuses is [BBad];
    - the executive is any function of what happened so far: the calls it makes on the environment while
      it steps and, while it is told something, the lookups that causes (StateCache.cc notifies lookups,
      which may look up again); commands, aborts and updates are only dispatched by
      PlexilExec::step (PlexilExec.cc), so no other call can come in between;
    - checkError, assertTrueMsg and reportParserException end the script;
    - a command, an update and a plan is a number, a command handle its index in the table of names;
    - what print and pprint write to standard output is left out. *)
From Coq Require Import ZArith List Bool String.
From Verif Require Import ValueModel UdpQueueModel LitModel LaunchModel.
Import ListNotations.
Open Scope Z_scope.

(** ** std::map<State, T>, ordered by State::operator< (ValueModel.state_lt) *)
Definition same (a b : state) : bool := negb (state_lt a b) && negb (state_lt b a).
Fixpoint mfind {A} (k : state) (m : list (state * A)) : option A :=
  match m with [] => None | (k', a) :: r => if same k' k then Some a else mfind k r end.
(** m[k] = a *)
Fixpoint mset {A} (k : state) (a : A) (m : list (state * A)) : list (state * A) :=
  match m with [] => [(k, a)] | (k', b) :: r => if same k' k then (k', a) :: r else (k', b) :: mset k a r end.
Definition merase {A} (k : state) (m : list (state * A)) : list (state * A) := filter (fun p => negb (same (fst p) k)) m.
(** std::map<std::string, Update *>: find, insert (which does not replace), erase. *)
Fixpoint nfind (n : str) (m : list (str * nat)) : option nat :=
  match m with [] => None | (n', u) :: r => if streq n' n then Some u else nfind n r end.
Definition ninsert (n : str) (u : nat) (m : list (str * nat)) : list (str * nat) :=
  match nfind n m with Some _ => m | None => (n, u) :: m end.
Definition nerase (n : str) (m : list (str * nat)) : list (str * nat) := filter (fun p => negb (streq (fst p) n)) m.

(** ** What happens between the environment and the executive *)
Inductive ev : Type :=
| Look (s : state) (v : val)                    (* a lookup and its answer *)
| Issue (c : nat) (s : state) (ret : bool)      (* a command is executed; whether it expects a return value *)
| Served (c : nat) (s : state)                  (* print, pprint, printToString, pprintToString: done at once *)
| Denied (c : nat)                              (* COMMAND_DENIED returned: the arbiter refused the command *)
| AbortReq (c : nat) (s : state)                (* a command is to be aborted *)
| Update (u : nat) (n : str)                    (* an update of node n *)
| Tell (s : state) (v : val)                    (* StateCache::lookupReturn *)
| Return (c : nat) (s : state) (v : val)        (* commandReturn *)
| Ack (c : nat) (s : state) (h : nat)           (* commandHandleReturn *)
| AbortAck (c : nat) (s : state) (b : bool)     (* commandAbortAcknowledge *)
| UpdateAck (u : nat) (n : str)                 (* Update::acknowledge(true) *)
| AddPlan (p : nat)                             (* PlexilExec::addPlan *)
| Step.                                         (* PlexilExec::step *)
(** Calls of the executive. *)
Inductive call : Type :=
| CLook (s : state) | CExec (c : nat) (s : state) (ret : bool) | CDeny (c : nat) | CAbort (c : nat) (s : state) | CUpdate (u : nat) (n : str).
(** The executive: what it does, and whether it needs another step, after what happened (newest first); and the plan loader. *)
Record executive : Type := mkX { react : list ev -> list call; needs : list ev -> bool; load : xml -> option nat }.

(** TestExternalInterface.hh:86-91; [t_trace] is what happened, newest first. *)
Record env : Type := mkEnv {
  t_states : list (state * val);      (* m_states *)
  t_exec : list (state * nat);        (* m_executingCommands *)
  t_acks : list (state * nat);        (* m_commandAcks *)
  t_aborts : list (state * nat);      (* m_abortingCommands *)
  t_upds : list (str * nat);          (* m_waitingUpdates *)
  t_trace : list ev }.
Definition setStates m e := mkEnv m (t_exec e) (t_acks e) (t_aborts e) (t_upds e) (t_trace e).
Definition setExec m e := mkEnv (t_states e) m (t_acks e) (t_aborts e) (t_upds e) (t_trace e).
Definition setAcks m e := mkEnv (t_states e) (t_exec e) m (t_aborts e) (t_upds e) (t_trace e).
Definition setAborts m e := mkEnv (t_states e) (t_exec e) (t_acks e) m (t_upds e) (t_trace e).
Definition setUpds m e := mkEnv (t_states e) (t_exec e) (t_acks e) (t_aborts e) m (t_trace e).
Definition emit v e := mkEnv (t_states e) (t_exec e) (t_acks e) (t_aborts e) (t_upds e) (v :: t_trace e).
(** State::timeState(), State.cc; the constructor, TestExternalInterface.cc:68-73: the time is 0. *)
Definition timeState : state := mkState (chars "time") [].
Definition env0 : env := mkEnv [(timeState, VReal 0)] [] [] [] [] [].

(** ** The Dispatcher interface, :500-586 *)
Definition utility (s : state) : bool :=
  streq (s_name s) (chars "print") || streq (s_name s) (chars "pprint") ||
  streq (s_name s) (chars "printToString") || streq (s_name s) (chars "pprintToString").
Definition unk : val := VUnk UNKNOWN_TYPE.
Definition docall (a : call) (e : env) : env :=
  match a with
  | CLook s =>                                            (* lookupNow :500-512 *)
      match mfind s (t_states e) with
      | Some v => emit (Look s v) e
      | None => emit (Look s unk) (setStates (mset s unk (t_states e)) e)
      end
  | CExec c s ret =>                                      (* executeCommand :527-557 *)
      if utility s then emit (Served c s) e
      else let e1 := setAcks (mset s c (t_acks e)) e in
           emit (Issue c s ret) (if ret then setExec (mset s c (t_exec e1)) e1 else e1)
  | CDeny c => emit (Denied c) e                          (* reportCommandArbitrationFailure :562-565 *)
  | CAbort c s => emit (AbortReq c s) (setAborts (mset s c (t_aborts e)) e)       (* invokeAbort :571-577 *)
  | CUpdate u n => emit (Update u n) (setUpds (ninsert n u (t_upds e)) e)         (* executeUpdate :579-586 *)
  end.
Definition isLook (a : call) : bool := match a with CLook _ => true | _ => false end.
(** The executive is told something: it may look up. *)
Definition tell (x : executive) (v : ev) (e : env) : env :=
  let e1 := emit v e in fold_left (fun e a => docall a e) (filter isLook (react x (t_trace e1))) e1.
(** g_exec->step(): any calls. *)
Definition step (x : executive) (e : env) : env :=
  let e1 := emit Step e in fold_left (fun e a => docall a e) (react x (t_trace e1)) e1.

(** ** Script elements *)
Inductive basic : Type :=
| BState (s : state) (v : val) | BCommand (s : state) (v : val) | BAck (s : state) (v : val) | BAbort (s : state) (v : val)
| BUpdateAck (n : str) | BText | BBad.
Inductive item : Type :=
| Basic (b : basic) | Simultaneous (l : list basic) | Delay
| SendPlan (doc : option xml).       (* the document element of the file; None: it cannot be read *)
(** Children of InitialState. *)
Inductive init : Type := InState (s : state) (v : val) | InText | InBad.

(** Whether the script goes on, and the environment. *)
Definition res : Type := bool * env.
(** :84-111 and handleState :170-178, handleCommand :180-192, handleCommandAck :194-209, handleCommandAbort :211-231,
    handleUpdateAck :233-242. *)
Definition ackHandle (v : val) : nat := match v with VStr s => parseName handleNames s | _ => 0%nat end.
Definition doBasic (x : executive) (b : basic) (e : env) : res :=
  match b with
  | BState s v => (true, tell x (Tell s v) (setStates (mset s v (t_states e)) e))
  | BCommand s v =>
      match mfind s (t_exec e) with
      | Some c => let e1 := tell x (Return c s v) e in (true, setExec (merase s (t_exec e1)) e1)
      | None => (false, e)
      end
  | BAck s v =>
      match mfind s (t_acks e) with
      | Some c => (true, tell x (Ack c s (ackHandle v)) e)
      | None => (false, e)
      end
  | BAbort s v =>
      match v with
      | VBool b =>
          match mfind s (t_aborts e) with
          | Some c => let e1 := tell x (AbortAck c s b) e in (true, setAborts (merase s (t_aborts e1)) e1)
          | None => (false, e)
          end
      | _ => (false, e)
      end
  | BUpdateAck n =>
      match nfind n (t_upds e) with
      | Some u => let e1 := tell x (UpdateAck u n) e in (true, setUpds (nerase n (t_upds e1)) e1)
      | None => (false, e)
      end
  | BText => (true, e)
  | BBad => (false, e)
  end.
(** handleSimultaneous :269-310. *)
Fixpoint doBasics (x : executive) (l : list basic) (e : env) : res :=
  match l with
  | [] => (true, e)
  | b :: r => let '(ok, e1) := doBasic x b e in if ok then doBasics x r e1 else (false, e1)
  end.
(** handleSendPlan :244-267: the plan is looked for below the document element. *)
Definition doSendPlan (x : executive) (doc : option xml) (e : env) : res :=
  match doc with
  | None => (false, e)
  | Some d =>
      match child "PlexilPlan" d with
      | None => (true, e)                         (* parsePlan throws, and the exception is caught *)
      | Some p => match load x p with Some n => (true, tell x (AddPlan n) e) | None => (true, e) end
      end
  end.
Definition doItem (x : executive) (i : item) (e : env) : res :=
  match i with
  | Basic b => doBasic x b e
  | Simultaneous l => doBasics x l e
  | Delay => (true, e)
  | SendPlan d => doSendPlan x d e
  end.
(** run :75-147: after each element one step. *)
Fixpoint doItems (x : executive) (l : list item) (e : env) : res :=
  match l with
  | [] => (true, e)
  | i :: r => let '(ok, e1) := doItem x i e in if ok then doItems x r (step x e1) else (false, e1)
  end.
(** handleInitialState :149-168. *)
Fixpoint doInits (x : executive) (l : list init) (e : env) : res :=
  match l with
  | [] => (true, e)
  | InState s v :: r => doInits x r (tell x (Tell s v) (setStates (mset s v (t_states e)) e))
  | _ :: _ => (false, e)
  end.
(** :154-155: if the first child is text, there is nothing to do. *)
Definition setInitial (x : executive) (l : list init) (e : env) : res := match l with InText :: _ => (true, e) | _ => doInits x l e end.
Definition doInitial (x : executive) (l : list init) (e : env) : res :=
  let '(ok, e1) := setInitial x l e in
  if ok then (true, step x e1) else (false, e1).
(** The loop at the end, :142-146, for at most [k] steps: it may go on for ever. *)
Fixpoint settle (x : executive) (k : nat) (e : env) : env :=
  match k with O => e | S k' => if needs x (t_trace e) then settle x k' (step x e) else e end.
Definition run (x : executive) (k : nat) (inits : list init) (script : list item) : res :=
  let '(ok, e) := doInitial x inits env0 in
  if ok then let '(ok2, e2) := doItems x script e in if ok2 then (true, settle x k e2) else (false, e2) else (false, e).
