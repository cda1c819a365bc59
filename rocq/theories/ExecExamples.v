(** Concrete plans used to show that the hypotheses of the theorems are met, and
    as counterexamples.  The world is a natural number chosen by the
    environment; conditions compare it. *)
From Verif Require Export ExecSpec.

(** Tree shape as a parent table. *)
Definition ancOf (par : nat -> option nat) : nat -> list nat :=
  fun n => match par n with
           | None => []
           | Some p => p :: match par p with None => [] | Some q => [q] end
           end.
Definition kidsOf (N : list nat) (par : nat -> option nat) : nat -> list nat :=
  fun p => filter (fun c => match par c with Some q => Nat.eqb q p | None => false end) N.

Definition mkP (N : list nat) (ty : nat -> ntype) (par : nat -> option nat) (mx : nat -> list nat)
  (has : nat -> ucond -> bool) (cnd : nat -> (nat -> nview) -> nat -> ucond -> tri) : plan nat :=
  mkPlan nat ty (ancOf par) (kidsOf N par) (fun _ => 0%Z) mx (fun _ => 0) has cnd
    (fun w _ _ _ => w) (fun w _ => w) (fun w _ => w).

(** The environment sets the world to [c]. *)
Definition envSet : nat -> nat -> nat := fun c _ => c.

(** After each transition every node of [N] that can be notified is. *)
Definition everyone (N : list nat) : est nat -> nat -> list nat * list nat :=
  fun st n => ([], filter (fun m => match qs st m with QDelete | QPendingTryCheck => false | _ => negb (Nat.eqb m n) end) N).
(** Nobody but those the exec itself notifies. *)
Definition nobody : est nat -> nat -> list nat * list nat := fun _ _ => ([], []).

Definition stepN {W} (P : plan W) pol (o : option (est W)) : option (est W) :=
  match o with Some st => macroStep P pol 100 st | None => None end.
Definition doAct (P : plan nat) (a : action) (o : option (est nat)) : option (est nat) :=
  match o with Some st => Some (act envSet P st a) | None => None end.
Definition start : option (est nat) := Some (e0 0).

Notation "o |> f" := (f o) (at level 50, left associativity, only parsing).

(** ---- demo: a list with one child of each kind, and a competitor for the mutex ---- *)
Definition demoN := [0; 1; 2; 3; 4; 5].
Definition demoTy n := match n with 0 => NList | 1 => NAssignment | 2 => NCommand | 3 => NUpdate | _ => NEmpty end.
Definition demoPar n := match n with 1 | 2 | 3 | 4 => Some 0 | _ => None end.
Definition demoMx n := match n with 4 | 5 => [0] | _ => [] end.
Definition demoHas n u := match n, u with 4, UEnd | 5, UEnd | 2, UEnd => true | _, _ => false end.
Definition demoCond (w : nat) (v : nat -> nview) (n : nat) (u : ucond) : tri :=
  match n with
  | 2 => Some (match v_handle (v 2) with COMMAND_SUCCESS => true | _ => false end)
  | 4 => Some (1 <=? w)
  | _ => Some (2 <=? w)
  end.
Definition demo : plan nat := mkP demoN demoTy demoPar demoMx demoHas demoCond.

Definition demo1 := start |> doAct demo (AAddPlan 0 []) |> doAct demo (AAddPlan 5 [])
  |> stepN demo (everyone demoN) |> stepN demo (everyone demoN) |> stepN demo (everyone demoN).
Definition demo2 := demo1 |> doAct demo (AEnv 1 [4]) |> doAct demo (ACommandHandle 2 COMMAND_SUCCESS [2])
  |> doAct demo (AUpdateAck 3 [3]) |> stepN demo (everyone demoN) |> stepN demo (everyone demoN).
Definition demo3 := demo2 |> doAct demo (AEnv 2 [5]) |> stepN demo (everyone demoN) |> stepN demo (everyone demoN).
Definition demo4 := demo3 |> doAct demo ADelete.

Definition states (N : list nat) (o : option (est nat)) : list nstate :=
  match o with Some st => map (state st) N | None => [] end.

Lemma demo1_states : states demoN demo1 = [EXECUTING; FINISHED; EXECUTING; EXECUTING; WAITING; EXECUTING].
Proof. vm_compute. reflexivity. Qed.
Lemma demo3_states : states demoN demo3 = [FINISHED; FINISHED; FINISHED; FINISHED; FINISHED; FINISHED].
Proof. vm_compute. reflexivity. Qed.

(** ---- leak: a list (0) with an exit condition and an Empty child (1) using mutex 0;
    another root (2) uses the same mutex.  The environment makes the exit
    condition true while the child is executing. ---- *)
Definition leakN := [0; 1; 2].
Definition leakTy n := match n with 0 => NList | _ => NEmpty end.
Definition leakPar n := match n with 1 => Some 0 | _ => None end.
Definition leakMx n := match n with 1 | 2 => [0] | _ => [] end.
Definition leakHas n u := match n, u with 0, UExit | 1, UEnd | 2, UStart => true | _, _ => false end.
Definition leakCond (w : nat) (v : nat -> nview) (n : nat) (u : ucond) : tri :=
  match n with 0 => Some (1 <=? w) | 1 => Some false | _ => Some (2 <=? w) end.
Definition leak : plan nat := mkP leakN leakTy leakPar leakMx leakHas leakCond.
(** Notified by the change of the exit condition: the list and its child, both
    of which have it among their active conditions. *)
Definition leak1 := start |> doAct leak (AAddPlan 0 []) |> doAct leak (AAddPlan 2 []) |> stepN leak nobody.
Definition leak2 := leak1 |> doAct leak (AEnv 1 [0; 1]) |> stepN leak (everyone leakN) |> stepN leak (everyone leakN).
Definition leak3 := leak2 |> doAct leak (AEnv 2 [2]) |> stepN leak (everyone leakN).

(** ---- limbo: roots 0 and 1 use mutex 0; 1 waits for it, becomes ineligible
    (start condition false), then eligible again; then 0 finishes. ---- *)
Definition limboTy (n : nat) := NEmpty.
Definition limboPar (n : nat) : option nat := None.
Definition limboMx n := match n with 0 | 1 => [0] | _ => [] end.
Definition limboHas n u := match n, u with 0, UEnd | 1, UStart => true | _, _ => false end.
Definition limboCond (w : nat) (v : nat -> nview) (n : nat) (u : ucond) : tri :=
  match n with 0 => Some (3 <=? w) | _ => Some (negb (w =? 1)) end.
Definition limboP : plan nat := mkP [0; 1] limboTy limboPar limboMx limboHas limboCond.
Definition limbo1 := start |> doAct limboP (AAddPlan 0 []) |> doAct limboP (AAddPlan 1 []) |> stepN limboP nobody.
Definition limbo2 := limbo1 |> doAct limboP (AEnv 1 [1]) |> stepN limboP nobody.
Definition limbo3 := limbo2 |> doAct limboP (AEnv 2 [1]) |> stepN limboP nobody.
Definition limbo4 := limbo3 |> doAct limboP (AEnv 3 [0]) |> stepN limboP nobody.

(** ---- skipped try: 0 holds mutex 0, 1 and 2 wait for it; 1 is to be skipped as
    soon as 0 has ended its iteration. ---- *)
Definition tryMx n := match n with 0 | 1 | 2 => [0] | _ => [] end.
Definition tryHas n u := match n, u with 0, UEnd | 1, USkip => true | _, _ => false end.
Definition tryCond (w : nat) (v : nat -> nview) (n : nat) (u : ucond) : tri :=
  match n with
  | 0 => Some (1 <=? w)
  | _ => Some (match v_state (v 0) with ITERATION_ENDED | FINISHED => true | _ => false end)
  end.
Definition tryP : plan nat := mkP [0; 1; 2] limboTy limboPar tryMx tryHas tryCond.
(** Node 1's skip condition reads the state of node 0. *)
Definition tryPol : est nat -> nat -> list nat * list nat :=
  fun st n => match n with 0 => ([], if nstate_eqb (state st 1) WAITING then [1] else []) | _ => ([], []) end.
Definition try1 := start |> doAct tryP (AAddPlan 0 []) |> stepN tryP tryPol
  |> doAct tryP (AAddPlan 1 []) |> stepN tryP tryPol |> doAct tryP (AAddPlan 2 []) |> stepN tryP tryPol.
Definition try2 := try1 |> doAct tryP (AEnv 1 [0]) |> stepN tryP tryPol.

(** ---- orphan: a list (0) with a user end condition and a repeating child (1). ---- *)
Definition orphanTy n := match n with 0 => NList | _ => NEmpty end.
Definition orphanHas n u := match n, u with 0, UEnd | 1, UEnd | 1, URepeat => true | _, _ => false end.
Definition orphanCond (w : nat) (v : nat -> nview) (n : nat) (u : ucond) : tri :=
  match n, u with
  | 0, _ => Some (w =? 1)
  | _, UEnd => Some (w =? 2)
  | _, _ => Some true
  end.
Definition orphanP : plan nat := mkP [0; 1] orphanTy leakPar (fun _ => []) orphanHas orphanCond.
(** The list's action-complete condition reads the child's state. *)
Definition orphanPol : est nat -> nat -> list nat * list nat :=
  fun st n => match n with 1 => ([], [0]) | _ => ([], []) end.
Definition orphan1 := start |> doAct orphanP (AAddPlan 0 []) |> stepN orphanP orphanPol.
Definition orphan2 := orphan1 |> doAct orphanP (AEnv 1 [0; 1]) |> stepN orphanP orphanPol.
(** Both the end conditions change; after that, three turns of the loop. *)
Definition turnOf (P : plan nat) pol (o : option (est nat)) : option (est nat) :=
  match o with
  | Some st => let st1 := checkAll P st in
               Some (transAll P pol (if isNil (e_pend st1) then st1 else resolve P st1))
  | None => None
  end.
Definition orphan3 := orphan2 |> doAct orphanP (AEnv 2 [0; 1]) |> turnOf orphanP orphanPol |> turnOf orphanP orphanPol |> turnOf orphanP orphanPol.

(** ---- a root Empty node that repeats unconditionally ---- *)
Definition spin : plan nat := mkP [0] limboTy limboPar (fun _ => []) (fun _ u => match u with URepeat => true | _ => false end)
  (fun _ _ _ _ => Some true).
Definition spin1 := start |> doAct spin (AAddPlan 0 []).

Definition dump (N : list nat) (o : option (est nat)) := match o with None => None | Some st => Some (map (state st) N, map (qs st) N, (e_cand st, e_pend st, e_chg st), r_holder (e_res st (RMutex 0)), r_waiters (e_res st (RMutex 0)), e_errs st) end.
