(** Simulator scripts: /repo/src/apps/StandAloneSimulator/LineInStream.cc, SimulatorScriptReader.cc, ResponseFactory.cc,
    /repo/src/apps/StandAloneSimulator/PlexilSimResponseFactory.cc.
    Simplifications: characters are numbers 1..255, of which only the ASCII letters and digits are isalnum; the file can be read to its
    end; stream extraction is libstdc++'s in the "C" locale; delays stay doubles (doubleToTimeval: C50); what is scheduled or given
    to a response manager is listed in order (scriptAgenda, scriptMgrs of C66 say what becomes of it). *)
From Coq Require Import ZArith List Bool Ascii String.
From Verif Require Import ValueModel FloatModel TypeModel UdpQueueModel LitModel ResFileModel.
Import ListNotations.
Open Scope Z_scope.

(** ** LineInStream *)
(** find_first_not_of(" \t\n\r") and isalnum, LineInStream.cc:81-84. *)
Fixpoint dropBlanks (s : str) : str :=
  match s with c :: r => if (c =? 32) || (c =? 9) || (c =? 10) || (c =? 13) then dropBlanks r else s | [] => [] end.
Definition ignored (l : str) : bool := match dropBlanks l with c :: _ => negb (digitVal c <? 36) | [] => true end.
(** getLine, :69-96.  The lines not yet read, the last one having no newline; none: eof(), and there is no line. *)
Fixpoint getLine (ls : list str) : str * list str :=
  match ls with
  | [] => ([], [])
  | [l] => (l, [])
  | l :: r => if ignored l then getLine r else (l, r)
  end.

(** ** Extraction from the line *)
(** operator>>(std::string &): [None] leaves the string as it was. *)
Definition nextWord (s : str) : option (str * str) := match skipSpace s with [] => None | t => Some (takeWord t) end.
(** operator>>(unsigned), below [m]. *)
Definition readUnsigned (m : Z) (s : str) : option (Z * str) :=
  match strtoMag 10 s with
  | Some (neg, n, rest) => if n <? m then Some ((if neg then - n else n) mod m, rest) else None
  | None => None
  end.
(** num_get::_M_extract_float after the sign: the characters taken and those left. *)
Fixpoint floatBody (mant dec sci : bool) (s : str) : str * str :=
  match s with
  | [] => ([], [])
  | c :: r =>
    if digitVal c <? 10 then let '(b, t) := floatBody true dec sci r in (c :: b, t)
    else if (c =? 46) && negb dec && negb sci then let '(b, t) := floatBody mant true sci r in (c :: b, t)
    else if isExp c && negb sci && mant then
      match r with
      | d :: r' => if (d =? 43) || (d =? 45) then let '(b, t) := floatBody mant dec true r' in (c :: d :: b, t)
                   else let '(b, t) := floatBody mant dec true r in (c :: b, t)
      | [] => ([c], [])
      end
    else ([], s)
  end.
(** operator>>(double &): what was taken must be a number for strtod, and in range. *)
Definition readDouble (s : str) : option (fl * str) :=
  let s0 := skipSpace s in
  let '(sg, t) := match s0 with c :: r => if (c =? 43) || (c =? 45) then ([c], r) else ([], s0) | [] => ([], []) end in
  let '(b, rest) := floatBody false false false t in
  match strtod (sg ++ b) with Some (x, []) => if isInf x then None else Some (x, rest) | _ => None end.

(** ** Values *)
(** A value, a command handle (0: none), a variable that was never given a value, the default Value. *)
Inductive rval : Type := VVal (v : sval) | VHandle (i : nat) | VGarbage | VNone.
(** parseReturnValue, ResponseFactory.cc:90-144; the result of parseValue is not looked at.  [None]: it throws. *)
Definition noted {A} (f : A -> sval) (p : pres A) : option rval :=
  match p with Known a => Some (VVal (f a)) | Unknown => Some VGarbage | Refused => None end.
Definition readValue (t : Z) (line : str) : option rval :=
  if t =? BOOLEAN_TYPE then noted SB (parseBoolean line)
  else if t =? INTEGER_TYPE then noted SI (parseInteger line)
  else if t =? REAL_TYPE then noted SR (parseReal line)
  else if t =? STRING_TYPE then Some (VVal (SS line))
  else if t =? COMMAND_HANDLE_TYPE then Some (VHandle (parseName handleNames line))
  else Some VNone.

(** ** Entries *)
(** ensureResponseMessageManager; addResponse; scheduleResponse. *)
Inductive entry : Type :=
| EManager (name : str)
| ECommand (name : str) (index count : Z) (delay : fl) (v : rval)
| ETelemetry (name : str) (delay : fl) (v : rval).
(** m_symbolTable: a name, whether it is a lookup, its type. *)
Definition table : Type := list (str * (bool * Z)).
Definition findSym (n : str) (t : table) : option (bool * Z) := option_map snd (find (fun e => streq (fst e) n) t).
(** A turn of the loop of readScript: on to the next with the flags telemetry and compatibilityMode, or the end of it
    ([None]: an exception, otherwise what readScript returns). *)
Inductive turn : Type := Go (es : list entry) (tab : table) (tel compat : bool) (ls : list str) | Stop (ok : option bool) (es : list entry).
(** parseTelemetryReturn, PlexilSimResponseFactory.cc:44-69, with parseTelemetryHeader; a failure is a break. *)
Definition parseTelemetry (name rest : str) (ty : Z) (tab : table) (tel compat : bool) (ls : list str) : turn :=
  match readDouble rest with
  | None => Stop (Some true) []
  | Some (d, _) =>
    let '(v, ls') := getLine ls in
    match readValue ty v with None => Stop None [] | Some x => Go [ETelemetry name d x] tab tel compat ls' end
  end.
(** parseCommandReturn, :71-113, with parseCommandResponseHeader. *)
Definition commandHeader (s : str) : option (Z * Z * fl) :=
  match readUnsigned (2 ^ 64) s with
  | None => None
  | Some (i, r1) => match readUnsigned (2 ^ 32) r1 with
                    | None => None
                    | Some (n, r2) => match readDouble r2 with None => None | Some (d, _) => Some (i, n, d) end
                    end
  end.
Definition parseCommand (name rest : str) (ty : Z) (tab : table) (tel compat : bool) (ls : list str) : turn :=
  match commandHeader rest with
  | None => Stop (Some true) [EManager name]
  | Some (i, n, d) =>
    let '(v, ls') := getLine ls in
    match ls' with
    | [] => Stop (Some true) [EManager name]
    | _ => match readValue ty v with
           | None => Stop None [EManager name]
           | Some x => Go [EManager name; ECommand name i n d x] tab tel compat ls'
           end
    end
  end.
(** parseDeclaration, SimulatorScriptReader.cc:218-253; parseCommandDeclaration, :258-274. *)
Definition wordOr (old s : str) : str * str := match nextWord s with Some p => p | None => (old, []) end.
Definition commandDecl (rest : str) (ty : Z) : str * (bool * Z) := (fst (wordOr [] rest), (false, ty)).
Definition declaration (rest : str) (ty : Z) : option (str * (bool * Z)) :=
  let '(w, r) := wordOr [] rest in
  if streq w (chars "Command") then Some (commandDecl r ty)
  else if streq w (chars "Lookup") then Some (fst (wordOr w r), (true, ty))
  else None.
Definition declare (s : option (str * (bool * Z))) (tab : table) (tel compat : bool) (ls : list str) : turn :=
  match s with
  | None => Stop (Some false) []
  | Some (n, k) => match findSym n tab with Some _ => Stop (Some false) [] | None => Go [] (tab ++ [(n, k)]) tel compat ls end
  end.
(** The chain of conditions, :120-204. *)
Definition scriptLine (w rest : str) (tab : table) (tel compat : bool) (ls : list str) : turn :=
  if streq w (chars "BEGIN_TELEMETRY") then Go [] tab true true ls
  else if streq w (chars "BEGIN_COMMANDS") then Go [] tab false true ls
  else if compat then if tel then parseTelemetry w rest REAL_TYPE tab tel compat ls else parseCommand w rest REAL_TYPE tab tel compat ls
  else if negb (parseValueType w =? UNKNOWN_TYPE) then declare (declaration rest (parseValueType w)) tab tel compat ls
  else if streq w (chars "Command") then declare (Some (commandDecl rest UNKNOWN_TYPE)) tab tel compat ls
  else if (match tab with [] => true | _ => false end) && negb tel then parseCommand w rest REAL_TYPE tab tel true ls
  else match findSym w tab with
       | Some (true, ty) => parseTelemetry w rest ty tab tel compat ls
       | Some (false, ty) => parseCommand w rest ty tab tel compat ls
       | None => Stop (Some false) []
       end.
(** The loop, :105-207.  Each turn reads a line at least: [fuel] is the number of lines. *)
Fixpoint readLoop (fuel : nat) (tab : table) (tel compat : bool) (ls : list str) : option bool * list entry * table :=
  match ls, fuel with
  | [], _ | _, O => (Some true, [], tab)
  | _, S f =>
    let '(line, ls1) := getLine ls in
    match nextWord line with
    | None => (Some true, [], tab)
    | Some (w, rest) =>
      match scriptLine w rest tab tel compat ls1 with
      | Stop ok es => (ok, es, tab)
      | Go es tab' tel' compat' ls' => let '(ok, es', tab'') := readLoop f tab' tel' compat' ls' in (ok, es ++ es', tab'')
      end
    end
  end.
(** readScript, :85-213; no text: the file cannot be opened. *)
Definition readScript (tab : table) (tel : bool) (file : option str) : option bool * list entry * table :=
  match file with
  | None => (Some false, [], tab)
  | Some t => let ls := splitLines t in readLoop (length ls) tab tel tel ls
  end.
