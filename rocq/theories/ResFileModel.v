(** Resource hierarchy files: /repo/src/intfc/ResourceArbiterInterface.cc:389-502.
    Simplifications:
    - characters are numbers 0..255; a file is its text, or the part that can be read before an I/O error;
    - std::map::emplace is appending to a list of entries with different names (the arbiter only looks entries up by name);
    - strtod is LitModel.v's; messages and debug output are left out. *)
From Coq Require Import ZArith List Bool Ascii String.
From Flocq Require Import Core BinarySingleNaN.
From Verif Require Import ValueModel FloatModel TypeModel UdpQueueModel LitModel.
Import ListNotations.
Open Scope Z_scope.

(** ResourceNode :123-160 with its name; a child's weight and name, ChildResourceNode(d, cName) :491. *)
Record rentry := { re_name : str; re_max : fl; re_kids : list (fl * str) }.
(** What std::getline gives, one after the other, :414-415. *)
Fixpoint splitLines (s : str) : list str :=
  match s with
  | [] => [[]]
  | c :: r => if c =? 10 then [] :: splitLines r else match splitLines r with l :: ls => (c :: l) :: ls | [] => [[c]] end
  end.
(** dataStr.c_str(), as strspn, strcspn and strtod see it. *)
Fixpoint cstr (s : str) : str := match s with c :: r => if c =? 0 then [] else c :: cstr r | [] => [] end.
(** strcspn(data, WHITESPACE): a name and what follows it. *)
Fixpoint takeWord (s : str) : str * str :=
  match s with c :: r => if isSpace c then ([], s) else let '(w, t) := takeWord r in (c :: w, t) | [] => ([], []) end.
(** The loop over children, :469-499 (after white space): the children, and whether all was in order.  Each round takes
    a character at least: [fuel] is the length of the rest of the line. *)
Fixpoint readKids (fuel : nat) (s : str) : list (fl * str) * bool :=
  match s with
  | [] => ([], true)
  | _ :: _ =>
    match fuel with
    | O => ([], false)
    | S k =>
      match strtod s with
      | None => ([], false)                                            (* :472-476 *)
      | Some (d, r) =>
        match skipSpace r with
        | [] => ([], false)                                            (* :483-487 *)
        | r' => let '(n, t) := takeWord r' in
                let '(l, ok) := readKids k (skipSpace t) in ((d, n) :: l, ok)
        end
      end
    end
  end.
Definition hasName (n : str) (h : list rentry) : bool := existsb (fun e => streq (re_name e) n) h.
(** One line, :416-499. *)
Definition readLine (line : str) (h : list rentry) : bool * list rentry :=
  let data := skipSpace (cstr line) in
  match data with
  | c :: _ =>
    if c =? 37 then (true, h)
    else
      let '(n, t) := takeWord data in
      match strtod t with
      | None => (false, h)
      | Some (m, r) =>
        if hasName n h then (false, h)
        else let '(kids, ok) := readKids (length line) (skipSpace r) in (ok, h ++ [{| re_name := n; re_max := m; re_kids := kids |}])
      end
  | [] => if streq line (cstr line) then (true, h) else (false, h)     (* a NUL where a name should be: "" and no number *)
  end.
(** readResourceHierarchy, :408-502; what was there before is cleared, :412. *)
Fixpoint readLines (ls : list str) (h : list rentry) : bool * list rentry :=
  match ls with
  | [] => (true, h)
  | l :: r => match readLine l h with (true, h') => readLines r h' | (false, h') => (false, h') end
  end.
Definition readHierarchy (old : list rentry) (text : str) : bool * list rentry := readLines (splitLines text) [].
(** readResourceHierarchyFile, :389-403; [None]: cannot be opened. *)
Definition readFile (old : list rentry) (file : option str) : bool * list rentry :=
  match file with None => (false, old) | Some text => readHierarchy old text end.

(** A file that opens but cannot be read to its end (a directory; an I/O error): getline sets badbit, never eofbit, so the loop goes on.
    The first failing getline leaves the part of the line it got; the later ones find the stream failed and leave dataStr
    as it is.  [None]: still running after [fuel] rounds. *)
Fixpoint readAgain (fuel : nat) (line : str) (h : list rentry) : option (bool * list rentry) :=
  match fuel with
  | O => None
  | S k => match readLine line h with (true, h') => readAgain k line h' | (false, h') => Some (false, h') end
  end.
Definition readBroken (fuel : nat) (text : str) : option (bool * list rentry) :=
  let ls := splitLines text in
  match readLines (removelast ls) [] with
  | (true, h) => readAgain fuel (last ls []) h
  | (false, h) => Some (false, h)
  end.
(** Lookup by name: determineChildResources :276, maxConsumableResourceValue :663. *)
Definition lookupRes (n : str) (h : list rentry) : option rentry := find (fun e => streq (re_name e) n) h.
