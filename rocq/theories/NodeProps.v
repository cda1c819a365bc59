(** Property theorems about single nodes: C01, C02, C03, C35. *)
From Verif Require Import NodeSpec NodeProofs.

(** C01. Whatever the history [h] of condition valuations and parent states,
    the next examination [e] either leaves the state alone or follows an edge of
    the node type's diagram; the node is always in a state its type has; and no
    "undefined state" error branch is reached. *)
Theorem C01_only_legal_transitions :
  forall t h e,
    let k := coreRun t h core0 in
    let k' := coreRun t (h ++ [e]) core0 in
    (k_state k' = k_state k \/ In (k_state k') (successors t (k_state k))) /\
    has_state t (k_state k') /\
    getDest t (k_state k) (k_fail k) (fst e) (snd e) <> DErr.
Proof.
  exact (fun t h e => conj (coreRun_legal t h e)
    (conj (proj1 (coreRun_inv t (h ++ [e]))) (coreRun_noerr t h (fst e) (snd e)))).
Qed.
Print Assumptions C01_only_legal_transitions.

(** Non-vacuity: a Command node runs through every one of its seven states. *)
Definition ex_idle : conds :=
  mkConds None None None None None None None None None None None (Some true) (Some true).
Definition ex_inv (b : bool) : conds :=
  mkConds None None None None None None None (Some (Some b)) None None None (Some false) (Some true).
Example C01_example_states :
  map (fun n => k_state (coreRun NCommand
        (firstn n [(None, ex_idle); (None, ex_idle); (None, ex_inv true); (None, ex_inv false);
                   (None, ex_idle); (None, ex_idle); (Some WAITING, ex_idle)]) core0))
      (seq 0 8)
  = [INACTIVE; WAITING; EXECUTING; FINISHING; FAILING; ITERATION_ENDED; FINISHED; INACTIVE].
Proof. reflexivity. Qed.

(** C02. The decision rules, state by state, for every reachable node. *)
Theorem C02_inactive :
  forall t par c h, let k := coreRun t h core0 in let k' := coreStep t par c k in
  k_state k = INACTIVE ->
  (par = None -> core_obs k' = (WAITING, NO_OUTCOME, NO_FAILURE)) /\
  (par = Some FINISHED -> core_obs k' = (FINISHED, SKIPPED, NO_FAILURE)) /\
  (par = Some EXECUTING ->
     (holds (c_ancExit c) \/ violated (c_ancInv c) \/ holds (c_ancEnd c) ->
        core_obs k' = (FINISHED, SKIPPED, NO_FAILURE)) /\
     (~ (holds (c_ancExit c) \/ violated (c_ancInv c) \/ holds (c_ancEnd c)) ->
        core_obs k' = (WAITING, NO_OUTCOME, NO_FAILURE))) /\
  (forall ps, par = Some ps -> ps <> FINISHED -> ps <> EXECUTING ->
     core_obs k' = (INACTIVE, NO_OUTCOME, NO_FAILURE)).
Proof. exact inactive_decision. Qed.
Print Assumptions C02_inactive.

Theorem C02_waiting :
  forall t par c h, let k := coreRun t h core0 in let k' := coreStep t par c k in
  k_state k = WAITING ->
  let quit := holds (c_ancExit c) \/ holds (c_exit c) \/ violated (c_ancInv c) \/
              holds (c_ancEnd c) \/ holds (c_skip c) in
  (quit -> core_obs k' = (FINISHED, SKIPPED, NO_FAILURE)) /\
  (~ quit -> ~ permits (c_start c) -> core_obs k' = (WAITING, NO_OUTCOME, NO_FAILURE)) /\
  (~ quit -> permits (c_start c) -> ~ permits (c_pre c) ->
     core_obs k' = (ITERATION_ENDED, FAILURE, PRE_CONDITION_FAILED)) /\
  (~ quit -> permits (c_start c) -> permits (c_pre c) ->
     core_obs k' = (EXECUTING, NO_OUTCOME, NO_FAILURE)).
Proof. exact waiting_decision. Qed.
Print Assumptions C02_waiting.

Theorem C02_executing_empty :
  forall t par c h, let k := coreRun t h core0 in let k' := coreStep t par c k in
  t = NEmpty -> k_state k = EXECUTING ->
  (holds (c_ancExit c) -> core_obs k' = (FINISHED, INTERRUPTED, PARENT_EXITED)) /\
  (~ holds (c_ancExit c) -> holds (c_exit c) ->
     core_obs k' = (ITERATION_ENDED, INTERRUPTED, EXITED)) /\
  (~ holds (c_ancExit c) -> ~ holds (c_exit c) -> violated (c_ancInv c) ->
     core_obs k' = (FINISHED, FAILURE, PARENT_FAILED)) /\
  (~ holds (c_ancExit c) -> ~ holds (c_exit c) -> ~ violated (c_ancInv c) ->
   violated (c_inv c) -> core_obs k' = (ITERATION_ENDED, FAILURE, INVARIANT_CONDITION_FAILED)) /\
  (undisturbed c -> ~ permits (c_end c) -> core_obs k' = (EXECUTING, NO_OUTCOME, NO_FAILURE)) /\
  (undisturbed c -> permits (c_end c) -> ~ permits (c_post c) ->
     core_obs k' = (ITERATION_ENDED, FAILURE, POST_CONDITION_FAILED)) /\
  (undisturbed c -> permits (c_end c) -> permits (c_post c) ->
     core_obs k' = (ITERATION_ENDED, SUCCESS, NO_FAILURE)).
Proof. exact executing_empty_decision. Qed.
Print Assumptions C02_executing_empty.

Theorem C02_interruption :
  forall t par c h, let k := coreRun t h core0 in let k' := coreStep t par c k in
  (k_state k = EXECUTING /\ (t = NUpdate \/ t = NCommand \/ t = NList \/
                             (t = NAssignment /\ c_action c = Some true))) \/
  k_state k = FINISHING ->
  (holds (c_ancExit c) -> core_obs k' = (FAILING, INTERRUPTED, PARENT_EXITED)) /\
  (~ holds (c_ancExit c) -> holds (c_exit c) ->
     core_obs k' = (FAILING, INTERRUPTED, EXITED)) /\
  (~ holds (c_ancExit c) -> ~ holds (c_exit c) -> violated (c_ancInv c) ->
     core_obs k' = (FAILING, FAILURE, PARENT_FAILED)) /\
  (~ holds (c_ancExit c) -> ~ holds (c_exit c) -> ~ violated (c_ancInv c) ->
   violated (c_inv c) -> core_obs k' = (FAILING, FAILURE, INVARIANT_CONDITION_FAILED)).
Proof. exact interrupt_decision. Qed.
Print Assumptions C02_interruption.

Theorem C02_assignment_waits_for_completion :
  forall t par c h, let k := coreRun t h core0 in let k' := coreStep t par c k in
  t = NAssignment -> k_state k = EXECUTING -> c_action c <> Some true ->
  core_obs k' = (EXECUTING, NO_OUTCOME, NO_FAILURE).
Proof. exact executing_assignment_waits. Qed.
Print Assumptions C02_assignment_waits_for_completion.

Theorem C02_assignment_update_end :
  forall t par c h, let k := coreRun t h core0 in let k' := coreStep t par c k in
  t = NUpdate \/ (t = NAssignment /\ c_action c = Some true) ->
  k_state k = EXECUTING -> undisturbed c ->
  (~ permits (c_end c) -> core_obs k' = (EXECUTING, NO_OUTCOME, NO_FAILURE)) /\
  (permits (c_end c) -> ~ permits (c_post c) ->
     core_obs k' = (ITERATION_ENDED, FAILURE, POST_CONDITION_FAILED)) /\
  (permits (c_end c) -> permits (c_post c) ->
     core_obs k' = (ITERATION_ENDED, SUCCESS, NO_FAILURE)).
Proof. exact executing_assign_update_end. Qed.
Print Assumptions C02_assignment_update_end.

Theorem C02_command_list_end :
  forall t par c h, let k := coreRun t h core0 in let k' := coreStep t par c k in
  t = NCommand \/ t = NList -> k_state k = EXECUTING -> undisturbed c ->
  (~ permits (c_end c) -> core_obs k' = (EXECUTING, NO_OUTCOME, NO_FAILURE)) /\
  (permits (c_end c) -> core_obs k' = (FINISHING, NO_OUTCOME, NO_FAILURE)).
Proof. exact executing_command_list_end. Qed.
Print Assumptions C02_command_list_end.

Theorem C02_finishing :
  forall t par c h, let k := coreRun t h core0 in let k' := coreStep t par c k in
  k_state k = FINISHING -> undisturbed c ->
  (c_action c <> Some true -> core_obs k' = (FINISHING, NO_OUTCOME, NO_FAILURE)) /\
  (c_action c = Some true -> ~ permits (c_post c) ->
     core_obs k' = (ITERATION_ENDED, FAILURE, POST_CONDITION_FAILED)) /\
  (c_action c = Some true -> permits (c_post c) ->
     core_obs k' = (ITERATION_ENDED, SUCCESS, NO_FAILURE)).
Proof. exact finishing_decision. Qed.
Print Assumptions C02_finishing.

Theorem C02_failing :
  forall t par c h, let k := coreRun t h core0 in let k' := coreStep t par c k in
  k_state k = FAILING ->
  let done := match t with NAssignment | NCommand => c_abort c | _ => c_action c end in
  (done <> Some true -> core_obs k' = core_obs k) /\
  (done = Some true -> k_fail k = PARENT_FAILED \/ k_fail k = PARENT_EXITED ->
     core_obs k' = (FINISHED, k_out k, k_fail k)) /\
  (done = Some true -> k_fail k <> PARENT_FAILED -> k_fail k <> PARENT_EXITED ->
     core_obs k' = (ITERATION_ENDED, k_out k, k_fail k)).
Proof. exact failing_decision. Qed.
Print Assumptions C02_failing.

Theorem C02_iteration_ended :
  forall t par c h, let k := coreRun t h core0 in let k' := coreStep t par c k in
  k_state k = ITERATION_ENDED ->
  (holds (c_ancExit c) -> core_obs k' = (FINISHED, INTERRUPTED, PARENT_EXITED)) /\
  (~ holds (c_ancExit c) -> violated (c_ancInv c) ->
     core_obs k' = (FINISHED, FAILURE, PARENT_FAILED)) /\
  (~ holds (c_ancExit c) -> ~ violated (c_ancInv c) ->
     (holds (c_ancEnd c) -> core_obs k' = (FINISHED, k_out k, k_fail k)) /\
     (~ holds (c_ancEnd c) -> holds (c_repeat c) ->
        core_obs k' = (WAITING, NO_OUTCOME, NO_FAILURE)) /\
     (~ holds (c_ancEnd c) -> c_repeat c = None \/ violated (c_repeat c) ->
        core_obs k' = (FINISHED, k_out k, k_fail k)) /\
     (~ holds (c_ancEnd c) -> c_repeat c = Some None -> core_obs k' = core_obs k)).
Proof. exact iteration_ended_decision. Qed.
Print Assumptions C02_iteration_ended.

Theorem C02_finished :
  forall t par c h, let k := coreRun t h core0 in let k' := coreStep t par c k in
  k_state k = FINISHED ->
  (par = Some WAITING -> core_obs k' = (INACTIVE, NO_OUTCOME, NO_FAILURE)) /\
  (par <> Some WAITING -> core_obs k' = core_obs k).
Proof. exact finished_decision. Qed.
Print Assumptions C02_finished.

(** Non-vacuity: each state named above is reached (C01_example_states), e.g. a
    list node whose exit condition and invariant fire together. *)
Example C02_example_priority :
  core_obs (coreStep NList None
     (mkConds None None None None None None (Some (Some true)) (Some (Some false)) None None None
              (Some false) (Some false))
     (coreRun NList [(None, ex_idle); (None, ex_idle)] core0)) = (FAILING, INTERRUPTED, EXITED).
Proof. reflexivity. Qed.

(** C03. Outcome/failure coherence along every history. *)
Theorem C03_outcome_coherent :
  forall t h, let k := coreRun t h core0 in coherent (k_state k) (k_out k) (k_fail k).
Proof. exact (fun t h => proj1 (proj2 (coreRun_inv t h))). Qed.
Print Assumptions C03_outcome_coherent.
Example C03_example :
  core_obs (coreRun NCommand
    [(None, ex_idle); (None, ex_idle); (None, ex_inv false); (None, ex_idle)] core0)
  = (ITERATION_ENDED, FAILURE, INVARIANT_CONDITION_FAILED).
Proof. reflexivity. Qed.

(** C35. Condition activation.  (a) At every point of every history, each own
    condition of a node is activated exactly once when documented as active in
    the node's state and not at all otherwise -- except the exit condition of
    Command nodes; (b) even there it is active whenever documented; (c) a
    decision never depends on a condition that is not active. *)
Theorem C35_activation_balanced_partial :
  forall t h i, t <> NCommand \/ i <> CExit ->
    snd (actRun t h) i = (if active_in t (k_state (fst (actRun t h))) i then 1 else 0)%Z.
Proof. exact actRun_exact. Qed.
Print Assumptions C35_activation_balanced_partial.

Theorem C35_consulted_conditions_are_active :
  forall t h i, active_in t (k_state (fst (actRun t h))) i = true ->
    (1 <= snd (actRun t h) i)%Z.
Proof.
  exact (fun t h i H => eq_ind true (fun b => (b2z b <= snd (actRun t h) i)%Z -> (1 <= _)%Z)
    (fun x => x) _ (eq_sym H) (actRun_ge t h i)).
Qed.
Print Assumptions C35_consulted_conditions_are_active.

Theorem C35_decision_uses_active_conditions_only :
  forall t s f par c c',
  has_state t s ->
  c_ancExit c = c_ancExit c' -> c_ancInv c = c_ancInv c' -> c_ancEnd c = c_ancEnd c' ->
  (forall i, active_in t s i = true -> own_cond c i = own_cond c' i) ->
  getDest t s f par c = getDest t s f par c'.
Proof. exact getDest_active_only. Qed.
Print Assumptions C35_decision_uses_active_conditions_only.

(** The full claim fails for Command nodes: CommandNode::transitionToExecuting
    activates the already active exit condition, so after [n+1] iterations a
    FINISHED command node still holds [n+1] activations of it. *)
Theorem C35_command_exit_activation_leak_refuted :
  forall n, exists h, k_state (fst (actRun NCommand h)) = FINISHED /\
                      active_in NCommand FINISHED CExit = false /\
                      snd (actRun NCommand h) CExit = Z.of_nat (S n).
Proof.
  exact (fun n => match command_exit_leak n with
                  | ex_intro _ h (conj a b) => ex_intro _ h (conj a (conj eq_refl b)) end).
Qed.
Print Assumptions C35_command_exit_activation_leak_refuted.
