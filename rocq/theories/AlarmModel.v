(** Model of wall-clock alarms: src/utils/timespec-utils.cc, src/utils/timeval-utils.cc,
    src/app-framework/PosixTimebase.cc, ItimerTimebase.cc, Timebase.cc, TimeAdapter.cc.

    Simplifications: time_t, long and suseconds_t arithmetic is exact (Z), with the ranges checked
    where a double is converted; system calls succeed; DispatchTimebase (macOS) is not modelled. *)
From Coq Require Import ZArith List Bool.
From Flocq Require Import Core BinarySingleNaN.
From Verif Require Import FloatModel.
Import ListNotations.
Open Scope Z_scope.

(** ** timespec-utils.cc and timeval-utils.cc: the same code with [unit] = ONE_BILLION (34) and
    ONE_MILLION (timeval-utils.cc 44); a time is (tv_sec, tv_nsec or tv_usec). *)
Definition ts : Type := Z * Z.
Definition billion : Z := 1000000000.
Definition million : Z := 1000000.
(** timespecNormalize 51-72, timevalNormalize timeval-utils.cc 61-82. *)
Definition carry (unit : Z) (t : ts) : ts :=
  let (s, n) := t in
  if unit <=? n then (s + 1, n - unit) else if n + unit <=? 0 then (s - 1, n + unit) else (s, n).
Definition signs (unit : Z) (t : ts) : ts :=
  let (s, n) := t in
  if (0 <? s) && (n <? 0) then (s - 1, n + unit) else if (s <? 0) && (0 <? n) then (s + 1, n - unit) else (s, n).
Definition tsNormalize (unit : Z) (t : ts) : ts := signs unit (carry unit t).
(** operator<, operator>, operator==: 74-89; timeval-utils.cc 84-99. *)
Definition tsLt (a b : ts) : bool := (fst a <? fst b) || ((fst a =? fst b) && (snd a <? snd b)).
Definition tsGt (a b : ts) : bool := (fst b <? fst a) || ((fst a =? fst b) && (snd b <? snd a)).
Definition tsEq (a b : ts) : bool := (fst a =? fst b) && (snd a =? snd b).
(** operator+, operator-: 91-105; timeval-utils.cc 101-115. *)
Definition tsAdd (unit : Z) (a b : ts) : ts := tsNormalize unit (fst a + fst b, snd a + snd b).
Definition tsSub (unit : Z) (a b : ts) : ts := tsNormalize unit (fst a - fst b, snd a - snd b).

(** Conversions between double and integers: (time_t) d, (double) n. *)
Definition ftrunc (d : fl) : Z :=
  match d with
  | B754_finite s m e _ => if 0 <=? e then szm s m * 2 ^ e else Z.quot (szm s m) (2 ^ (- e))
  | _ => 0
  end.
Definition fofZ (z : Z) : fl := binary_normalize 53 1024 _ _ mode_NE z 0 false.
(** doubleToTimespec 107-118, doubleToTimeval timeval-utils.cc 117-133.  None: the argument is
    infinite, NaN or outside time_t (the result is left uninitialised, or the cast is undefined). *)
Definition d2ts (unit : Z) (d : fl) : option ts :=
  if is_finite d then
    let s := ftrunc d in
    if (- 2 ^ 63 <=? s) && (s <? 2 ^ 63)
    then Some (tsNormalize unit (s, ftrunc (fmul (fofZ unit) (fsub d (fofZ s)))))
    else None
  else None.
(** timespecToDouble 127-132; timevalToDouble, timeval-utils.cc 142-147 (operands of + exchanged). *)
Definition ts2d (unit : Z) (t : ts) : fl := fadd (fdiv (fofZ (snd t)) (fofZ unit)) (fofZ (fst t)).

(** ** The clock: [c] nanoseconds since the epoch. *)
Definition clockTs (c : Z) : ts := (c / billion, c mod billion).        (* clock_gettime *)
Definition clockTv (c : Z) : ts := (c / billion, (c mod billion) / 1000). (* gettimeofday *)
Definition getTime (c : Z) : fl := ts2d billion (clockTs c).            (* Timebase.cc 109-121 *)
Definition total (unit : Z) (t : ts) : Z := fst t * unit + snd t.

(** ** PosixTimebase in deadline mode with TimeAdapter, statement by statement.
    A thread is the stack of the calls it is executing. *)
Inductive frame : Type :=
| SetT0 (d : fl)       (* setTimer(d): convert, read the clock, compare: PosixTimebase.cc 163-184 *)
| SetP                 (* m_nextWakeup = 0; m_wakeupFn(): 189-190 *)
| SetT1 (t : ts)       (* timer_settime: 195-200 *)
| SetT2 (t : ts)       (* m_nextWakeup = timespecToDouble(...): 203 *)
| Tm0                  (* timeout: now = getTime(): TimeAdapter.cc 182-188 *)
| Tm1 (now : fl)       (* next = getNextWakeup(); test: 192-197 *)
| Tm2.                 (* notifyOfExternalEvent: 200 *)
Record alarm := mkA {
  a_clk : Z;                       (* the system clock *)
  a_timer : option Z;              (* expiration time of the OS timer, when armed *)
  a_next : fl;                     (* m_nextWakeup *)
  a_exec : list frame;             (* the executive's call of setThresholds, if any *)
  a_cbs : list (list frame);       (* timer callback threads (SIGEV_THREAD) *)
  a_notes : list Z                 (* clock at each notifyOfExternalEvent, newest first *)
}.
Definition alarm0 (c : Z) : alarm := mkA c None fzero [] [] [].

(** The effect of the top frame of a thread. *)
Definition fstep (f : frame) (k : list frame) (a : alarm) : option (list frame * alarm) :=
  match f with
  | SetT0 d => match d2ts billion d with
               | Some t => Some ((if tsLt t (clockTs (a_clk a)) then SetP else SetT1 t) :: k, a)
               | None => None
               end
  | SetP => Some (Tm0 :: k, mkA (a_clk a) (a_timer a) fzero (a_exec a) (a_cbs a) (a_notes a))
  (* timer_settime with a zero it_value disarms *)
  | SetT1 t => Some (SetT2 t :: k, mkA (a_clk a) (if tsEq t (0, 0) then None else Some (total billion t)) (a_next a) (a_exec a) (a_cbs a) (a_notes a))
  | SetT2 t => Some (k, mkA (a_clk a) (a_timer a) (ts2d billion t) (a_exec a) (a_cbs a) (a_notes a))
  | Tm0 => Some (Tm1 (getTime (a_clk a)) :: k, a)
  | Tm1 now => Some (if negb (fis0 (a_next a)) && flt now (a_next a) then SetT0 (a_next a) :: Tm2 :: k else Tm2 :: k, a)
  | Tm2 => Some (k, mkA (a_clk a) (a_timer a) (a_next a) (a_exec a) (a_cbs a) (a_clk a :: a_notes a))
  end.
Definition setExec (t : list frame) (a : alarm) := mkA (a_clk a) (a_timer a) (a_next a) t (a_cbs a) (a_notes a).
Definition setCbs (l : list (list frame)) (a : alarm) := mkA (a_clk a) (a_timer a) (a_next a) (a_exec a) l (a_notes a).

(** Transitions: the clock advances; an expired timer starts a callback thread (one-shot timer);
    the executive asks for a wake-up; a thread executes one statement. *)
Inductive alabel := LTick (c : Z) | LFire | LAsk (d : fl) | LExec | LCb (i : nat).
Definition arun (l : alabel) (a : alarm) : option alarm :=
  match l with
  | LTick c => if a_clk a <=? c then Some (mkA c (a_timer a) (a_next a) (a_exec a) (a_cbs a) (a_notes a)) else None
  | LFire => match a_timer a with
             | Some t => if t <=? a_clk a then Some (mkA (a_clk a) None (a_next a) (a_exec a) (a_cbs a ++ [[Tm0]]) (a_notes a)) else None
             | None => None
             end
  | LAsk d => match a_exec a with [] => Some (setExec [SetT0 d] a) | _ => None end
  | LExec => match a_exec a with
             | f :: k => match fstep f k a with Some (t, a') => Some (setExec t a') | None => None end
             | [] => None
             end
  | LCb i => match nth_error (a_cbs a) i with
             | Some (f :: k) => match fstep f k a with
                                | Some (t, a') => Some (setCbs (firstn i (a_cbs a) ++ t :: skipn (S i) (a_cbs a)) a')
                                | None => None
                                end
             | _ => None
             end
  end.
Fixpoint aruns (h : list alabel) (a : alarm) : option alarm :=   (* oldest first *)
  match h with [] => Some a | l :: r => match arun l a with Some a' => aruns r a' | None => None end end.

(** ** Tick mode: PosixTimebase::start 114-119.  m_interval_usec is a uint32_t and 1000 an int, so the
    product is computed modulo 2^32.  The repeat interval of the timer in nanoseconds; 0: never expires. *)
Definition posixTick (usec : Z) : Z := let nanos := (1000 * usec) mod 2 ^ 32 in (nanos / billion) * billion + nanos mod billion.
(** ItimerTimebase::start, ItimerTimebase.cc 102-113, in microseconds. *)
Definition itimerTick (usec : Z) : Z := (usec / million) * million + usec mod million.

(** ** ItimerTimebase::setTimer in deadline mode, 148-193, without interleaving: the resulting
    expiration time of the interval timer, set when the clock reads [c] (setitimer with a zero
    value disarms); [ICall]: the wake-up function is called at once. *)
Inductive iresult := ICall | IArm (t : option Z) | IUndef.
Definition itimerSet (d : fl) (c : Z) : iresult :=
  match d2ts million d with
  | None => IUndef
  | Some t => if tsLt t (clockTv c) then ICall
              else let v := tsSub million t (clockTv c) in
                   IArm (if tsEq v (0, 0) then None else Some (c + total million v * 1000))
  end.

(** ** start and stop: PosixTimebase.cc 81-159, ItimerTimebase.cc 78-146: m_started and whether
    the OS timer exists. *)
Record tb := mkTb { tb_started : bool; tb_timer : bool }.
Definition tbStart (b : tb) : tb := if tb_started b then b else mkTb true true.
Definition tbStop (b : tb) : tb := if tb_started b then mkTb (tb_started b) false else b.
