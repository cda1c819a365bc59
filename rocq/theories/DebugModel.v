(** Debug messages: /repo/src/utils/DebugMessage.cc.
    Simplifications: characters are numbers, a marker is a C string (no 0 in it); streams do not fail; std::list of messages newest first. *)
From Coq Require Import ZArith List Bool.
From Verif Require Import ValueModel FloatModel TypeModel UdpQueueModel LitModel ResFileModel.
Import ListNotations.
Open Scope Z_scope.

(** DebugMessage, :47-53; the list allDebugMessages, :45, and allDebugPatterns, :102. *)
Record dmsg := { d_marker : str; d_enabled : bool }.
Record debug := { d_msgs : list dmsg; d_pats : list str }.
Definition noDebug : debug := {| d_msgs := []; d_pats := [] |}.
(** strstr(s, p) != nullptr *)
Fixpoint startsWith (p s : str) : bool := match p, s with [], _ => true | x :: p', c :: s' => (x =? c) && startsWith p' s' | _ :: _, [] => false end.
Fixpoint strstr (s p : str) : bool := startsWith p s || match s with [] => false | _ :: r => strstr r p end.
(** markerMatches, :109-112; matchesPatterns, :114-120. *)
Definition markerMatches (m p : str) : bool := strstr m (cstr p).
Definition matchesPatterns (m : str) (pats : list str) : bool := existsb (fun p => markerMatches m p) pats.
(** The constructor, :47-53. *)
Definition newMessage (m : str) (d : debug) : debug :=
  {| d_msgs := {| d_marker := m; d_enabled := matchesPatterns m (d_pats d) |} :: d_msgs d; d_pats := d_pats d |}.
(** enableMatchingDebugMessages, :122-132. *)
Definition enable (p : str) (d : debug) : debug :=
  {| d_msgs := map (fun m => if negb (d_enabled m) && markerMatches (d_marker m) p then {| d_marker := d_marker m; d_enabled := true |} else m) (d_msgs d);
     d_pats := d_pats d ++ [p] |}.
(** The body of the loop of readDebugConfigStream, :145-170, on one line: the pattern, if there is one.
    [skipSpace]: from the first character that is not white space on; the part before the first of "#/"; without trailing white space
    (find_last_not_of finds at least the first character). *)
Definition isComment (c : Z) : bool := (c =? 35) || (c =? 47).
Fixpoint beforeComment (s : str) : str := match s with c :: r => if isComment c then [] else c :: beforeComment r | [] => [] end.
Definition trimRight (s : str) : str := rev (skipSpace (rev s)).
Definition linePattern (line : str) : option str :=
  match skipSpace line with
  | [] => None
  | c :: r =>
    if isComment c then None
    else let t := trimRight (beforeComment (c :: r)) in
         Some (if c =? 58 then tl t else t)
  end.
(** readDebugConfigStream, :134-175. *)
Definition readConfig (text : str) (d : debug) : debug :=
  fold_left (fun d l => match linePattern l with Some p => enable p d | None => d end) (splitLines text) d.

Inductive dop := NewMessage (m : str) | ReadConfig (text : str) | EnablePattern (p : str).
Definition dstep (d : debug) (o : dop) : debug :=
  match o with NewMessage m => newMessage m d | ReadConfig t => readConfig t d | EnablePattern p => enable p d end.
Definition drun (l : list dop) : debug := fold_left dstep l noDebug.
