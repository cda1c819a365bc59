(** Specification vocabulary for the stand-alone simulator (C66): what can be read off a history of the
    process without looking at its code. *)
From Coq Require Import ZArith List Bool String.
From Verif Require Import SimModel.
Import ListNotations.
Open Scope Z_scope.

(** Every history: the clock, the two threads and the requests in any order. *)
Inductive reach (w0 : world) : world -> Prop :=
| reach0 : reach w0 w0
| reach1 w a : reach w0 w -> reach w0 (stepw a w).
(** Histories in which the threads take turns: a thread does nothing while the other is in the middle of
    something.  (The code has no lock that ensures it.) *)
Definition inTurn (a : act) (w : world) : Prop :=
  match a with
  | Tick _ => True
  | RunMain => ipc w = Idle
  | RunIpc | NewCommand _ _ | NewLookup _ => main w = Idle
  end.
Inductive sreach (w0 : world) : world -> Prop :=
| sreach0 : sreach w0 w0
| sreach1 w a : sreach w0 w -> inTurn a w -> sreach w0 (stepw a w).

(** The trace is newest first; these lists too. *)
Definition sent (tr : list event) : list (Z * msg) :=
  flat_map (fun e => match e with Sent _ t m => [(t, m)] | _ => [] end) tr.
(** What has to be sent, with its time: the telemetry [ag] of the scripts, relative to the start, and the
    responses to commands. *)
Definition entered (ag : list (Z * msg)) (tr : list event) : list (Z * msg) :=
  flat_map (fun e => match e with Scheduled t m => [(t, m)] | Started n => map (fun x => (fst x + n, snd x)) ag | _ => [] end) tr.
Definition responses (tr : list event) : list msg :=
  flat_map (fun e => match e with Scheduled _ m => [m] | _ => [] end) tr.
(** The message a thread has taken off the agenda and not yet sent. *)
Definition inHand (p : pc) : list (Z * msg) :=
  match p with LoopRecord _ t m | LoopSend _ t m => [(t, m)] | _ => [] end.

(** The answers given to a command, newest first, and the answer its script prescribes for the k-th. *)
Definition answers (c : string) (tr : list event) : list (option resp) :=
  flat_map (fun e => match e with Answered _ d _ o => if String.eqb c d then [o] else [] | _ => [] end) tr.
Definition prescribed (m : mgr) (k : Z) : option resp :=
  match findZ k (indexed m) with Some r => Some r | None => dflt m end.
(** The answers that call for a message, with the time they were chosen, newest first. *)
Definition promised (tr : list event) : list (Z * Z * msg) :=
  flat_map (fun e => match e with
    | Answered n c id (Some r) => if (0 <? rCount r)%nat then [(n, rDelay r, Msg CommandReturn c (rVal r) id)] else []
    | _ => [] end) tr.
Definition scheduledAt (tr : list event) : list (Z * msg) :=
  flat_map (fun e => match e with Scheduled t m => [(t, m)] | _ => [] end) tr.

(** The value last sent for a state. *)
Fixpoint lastSent (n : string) (tr : list event) : option nat :=
  match tr with
  | [] => None
  | Sent _ _ m :: r => match mKind m with
                       | Telemetry => if String.eqb n (mName m) then Some (mVal m) else lastSent n r
                       | CommandReturn => lastSent n r
                       end
  | _ :: r => lastSent n r
  end.

Definition quiet (w : world) : Prop := main w = Idle /\ ipc w = Idle /\ crashed (sh w) = false.
Inductive nonDecreasing : list Z -> Prop :=
| nd0 : nonDecreasing []
| nd1 a l : (forall b, In b l -> a <= b) -> nonDecreasing l -> nonDecreasing (a :: l).
(** A time the code can set its timer for after sending: not a whole second, not in the first second of 1970. *)
Definition fractional (t : Z) : Prop := million <= t /\ t mod million <> 0.
(** The timer was never set to the very microsecond at which it is set. *)
Definition neverDisarmed (tr : list event) : Prop := forall t, ~ In (Disarmed t) tr.
(** The main thread alone, the clock advancing by [f i] before its i-th statement. *)
Fixpoint mainAlone (f : nat -> Z) (n : nat) (w : world) : world :=
  match n with
  | O => w
  | S n => stepw RunMain (stepw (Tick (f n)) (mainAlone f n w))
  end.

(** The scripts: telemetry is (delay, (state, value)), command responses are (command, index, response). *)
Definition telemetry (l : list (Z * (string * nat))) : list (Z * msg) :=
  map (fun e => (fst e, Msg Telemetry (fst (snd e)) (snd (snd e)) 0)) l.
Definition started (tel : list (Z * (string * nat))) (cmds : list (string * Z * resp)) (now : Z) : world :=
  boot (scriptAgenda tel) (scriptMgrs cmds) now.
Fixpoint firstEntry (c : string) (k : Z) (l : list (string * Z * resp)) : option resp :=
  match l with
  | [] => None
  | (d, i, r) :: t => if String.eqb c d && (k =? i) then Some r else firstEntry c k t
  end.
(** The k-th command gets the first entry with index k, or else the last entry with index 0. *)
Definition scripted (c : string) (l : list (string * Z * resp)) (k : Z) : option resp :=
  match firstEntry c k l with Some r => Some r | None => firstEntry c 0 (rev l) end.
Definition mentioned (c : string) (l : list (string * Z * resp)) : Prop := exists i r, In (c, i, r) l.
