From Verif Require Export NodeSpec.

Ltac dcond :=
  match goal with
  | |- context [isT ?c] => let E := fresh "E" in destruct c as [[[|]|]|] eqn:E; cbn [isT isF notT]
  | |- context [isF ?c] => let E := fresh "E" in destruct c as [[[|]|]|] eqn:E; cbn [isT isF notT]
  | |- context [notT ?c] => let E := fresh "E" in destruct c as [[[|]|]|] eqn:E; cbn [isT isF notT]
  end.

Lemma isT_iff c : holds c <-> isT c = true.
Proof. unfold holds; destruct c as [[[|]|]|]; cbn; split; intro; congruence. Qed.
Lemma isF_iff c : violated c <-> isF c = true.
Proof. unfold violated; destruct c as [[[|]|]|]; cbn; split; intro; congruence. Qed.
Lemma permits_iff c : permits c <-> notT c = false.
Proof.
  unfold permits; destruct c as [[[|]|]|]; cbn; split; intro H; try congruence;
    intuition congruence.
Qed.

(** Branch of a getDest call: generic inversion of nested ifs. *)
Ltac destr_if :=
  match goal with
  | |- context [if ?b then _ else _] => destruct b eqn:?
  | |- context [match c_action ?c with _ => _ end] => destruct (c_action c) as [[|]|] eqn:?
  | |- context [match c_abort ?c with _ => _ end] => destruct (c_abort c) as [[|]|] eqn:?
  | |- context [match c_repeat ?c with _ => _ end] => destruct (c_repeat c) as [[[|]|]|] eqn:?
  end.

Ltac unfold_dest :=
  unfold getDest, destFromInactive, destFromWaiting, destFromExecuting,
    destFromExecutingEmpty, destFromExecutingAssignment, destFromExecutingUpdate,
    destFromExecutingCmdList, destFromFinishing, destFromFinishingCmdList,
    destFromFailing, destFailingDone, destFromIterationEnded, destFromFinished,
    destInterrupt, destPost.

(** Invariant of a node outside of a transition. *)
Definition core_inv (t : ntype) (k : ncore) : Prop :=
  has_state t (k_state k) /\ coherent (k_state k) (k_out k) (k_fail k) /\
  k_nextOut k = NO_OUTCOME /\ k_nextFail k = NO_FAILURE.

(** What a decision may be, given the state: successor is legal and the outcome
    written is coherent with the new state. *)
Definition go_ok (t : ntype) (s : nstate) (o : outcome) (f : failure)
           (s' : nstate) (o' : option outcome) (f' : option failure) : Prop :=
  In s' (successors t s) /\ s' <> s /\ has_state t s' /\
  let no := orElse o' NO_OUTCOME in
  let nf := orElse f' NO_FAILURE in
  coherent s'
    (if isNoOut no then (if resets s s' then NO_OUTCOME else o) else no)
    (if isNoOut no then (if resets s s' then NO_FAILURE else f)
     else if isNoFail nf then (if resets s s' then NO_FAILURE else f) else nf).

Lemma getDest_ok t s o f par c :
  has_state t s -> coherent s o f ->
  match getDest t s f par c with
  | DStay => True
  | DErr => False
  | DGo s' o' f' => go_ok t s o f s' o' f'
  end.
Proof.
  intros Hs Hc.
  destruct s; unfold_dest.
  - (* INACTIVE *)
    destruct Hc as [-> ->].
    destruct par as [[]|]; repeat destr_if; unfold go_ok; cbn; intuition congruence.
  - (* WAITING *)
    destruct Hc as [-> ->].
    repeat destr_if; unfold go_ok; cbn; intuition congruence.
  - (* EXECUTING *)
    destruct Hc as [-> ->].
    destruct t; repeat destr_if; unfold go_ok; cbn; intuition congruence.
  - (* ITERATION_ENDED *)
    cbn in Hc.
    repeat destr_if; unfold go_ok; cbn; intuition (subst; cbn; intuition congruence).
  - (* FINISHED *)
    destruct par as [[]|]; unfold go_ok; cbn; intuition congruence.
  - (* FAILING *)
    destruct t; cbn in Hs; try congruence; repeat destr_if; trivial;
    cbn in Hc; destruct Hc as [[-> [-> | ->]] | [-> [-> | ->]]];
      unfold go_ok; cbn; intuition congruence.
  - (* FINISHING *)
    destruct Hc as [-> ->].
    destruct t; cbn in Hs; try (exfalso; intuition congruence);
    repeat destr_if; unfold go_ok; cbn; intuition congruence.
Qed.

Lemma nstate_eqb_eq a b : nstate_eqb a b = true <-> a = b.
Proof. destruct a, b; cbn; split; congruence. Qed.
Lemma nstate_eqb_refl a : nstate_eqb a a = true.
Proof. destruct a; reflexivity. Qed.
Lemma nstate_eqb_neq a b : nstate_eqb a b = false <-> a <> b.
Proof. destruct a, b; cbn; split; congruence. Qed.

(** coreStep in closed form, for a node satisfying the invariant. *)
Lemma coreStep_eq t par c k :
  core_inv t k ->
  coreStep t par c k =
  match getDest t (k_state k) (k_fail k) par c with
  | DGo s o f =>
      mkCore s
        (if isNoOut (orElse o NO_OUTCOME)
         then (if resets (k_state k) s then NO_OUTCOME else k_out k)
         else orElse o NO_OUTCOME)
        (if isNoOut (orElse o NO_OUTCOME)
         then (if resets (k_state k) s then NO_FAILURE else k_fail k)
         else if isNoFail (orElse f NO_FAILURE)
              then (if resets (k_state k) s then NO_FAILURE else k_fail k)
              else orElse f NO_FAILURE)
        None NO_OUTCOME NO_FAILURE
  | _ => mkCore (k_state k) (k_out k) (k_fail k) None NO_OUTCOME NO_FAILURE
  end.
Proof.
  intros (Hs & Hc & Ho & Hf).
  pose proof (getDest_ok t (k_state k) (k_out k) (k_fail k) par c Hs Hc) as Hg.
  unfold coreStep, coreGetDest.
  destruct (getDest t (k_state k) (k_fail k) par c) as [|s o f|]; rewrite ?Ho, ?Hf;
    cbn; try reflexivity.
  destruct Hg as (_ & Hne & _).
  unfold coreTransition; cbn.
  apply nstate_eqb_neq in Hne; rewrite Hne.
  reflexivity.
Qed.

Lemma coreStep_inv t par c k : core_inv t k -> core_inv t (coreStep t par c k).
Proof.
  intros Hk; rewrite coreStep_eq by assumption.
  destruct Hk as (Hs & Hc & Ho & Hf).
  pose proof (getDest_ok t (k_state k) (k_out k) (k_fail k) par c Hs Hc) as Hg.
  destruct (getDest t (k_state k) (k_fail k) par c) as [|s o f|];
    unfold core_inv; cbn; auto.
  destruct Hg as (_ & _ & Hst & Hco). auto.
Qed.

Lemma core0_inv t : core_inv t core0.
Proof. unfold core_inv, core0; cbn; auto. Qed.

Lemma coreRun_snoc t h e k :
  coreRun t (h ++ [e]) k = coreStep t (fst e) (snd e) (coreRun t h k).
Proof. unfold coreRun; now rewrite fold_left_app. Qed.

Lemma coreRun_inv t h : core_inv t (coreRun t h core0).
Proof.
  induction h as [|e h IH] using rev_ind; [apply core0_inv|].
  rewrite coreRun_snoc; now apply coreStep_inv.
Qed.

Lemma coreRun_legal t h e :
  let k := coreRun t h core0 in
  let k' := coreRun t (h ++ [e]) core0 in
  k_state k' = k_state k \/ In (k_state k') (successors t (k_state k)).
Proof.
  cbn zeta; rewrite coreRun_snoc.
  pose proof (coreRun_inv t h) as Hk.
  rewrite coreStep_eq by assumption.
  destruct Hk as (Hs & Hc & _).
  pose proof (getDest_ok t _ _ _ (fst e) (snd e) Hs Hc) as Hg.
  destruct (getDest _ _ _ _ _); cbn; auto.
  right; apply Hg.
Qed.

Lemma coreRun_noerr t h par c :
  getDest t (k_state (coreRun t h core0)) (k_fail (coreRun t h core0)) par c <> DErr.
Proof.
  destruct (coreRun_inv t h) as (Hs & Hc & _).
  pose proof (getDest_ok t _ _ _ par c Hs Hc) as Hg.
  intro E; rewrite E in Hg; exact Hg.
Qed.

(** Decision characterisations.  [core_obs] is what a listener sees. *)

Section Decisions.
  Variables (t : ntype) (par : option nstate) (c : conds) (h : list (option nstate * conds)).
  Let k := coreRun t h core0.
  Let k' := coreStep t par c k.

  Ltac start_decision Hst :=
    intros Hst;
    pose proof (coreRun_inv t h) as Hk;
    subst k'; rewrite coreStep_eq by exact Hk;
    destruct Hk as (Hs & Hc & _); fold k in Hs, Hc; fold k;
    rewrite Hst in *; cbn in Hs, Hc;
    unfold core_obs, undisturbed; unfold_dest; rewrite ?isT_iff, ?isF_iff, ?permits_iff.
  Ltac finish_decision :=
    repeat (destr_if; cbn [isNoOut isNoFail orElse resets]); cbn; repeat split; intros;
    try reflexivity; try (exfalso; intuition congruence).

  Lemma inactive_decision :
    k_state k = INACTIVE ->
    (par = None -> core_obs k' = (WAITING, NO_OUTCOME, NO_FAILURE)) /\
    (par = Some FINISHED -> core_obs k' = (FINISHED, SKIPPED, NO_FAILURE)) /\
    (par = Some EXECUTING ->
       (holds (c_ancExit c) \/ violated (c_ancInv c) \/ holds (c_ancEnd c) ->
          core_obs k' = (FINISHED, SKIPPED, NO_FAILURE)) /\
       (~ (holds (c_ancExit c) \/ violated (c_ancInv c) \/ holds (c_ancEnd c)) ->
          core_obs k' = (WAITING, NO_OUTCOME, NO_FAILURE))) /\
    (forall ps, par = Some ps -> ps <> FINISHED -> ps <> EXECUTING ->
       core_obs k' = (INACTIVE, NO_OUTCOME, NO_FAILURE)).
  Proof.
    start_decision Hst. destruct Hc as [-> ->].
    destruct par as [[]|]; cbn; finish_decision.
  Qed.

  Lemma waiting_decision :
    k_state k = WAITING ->
    let quit := holds (c_ancExit c) \/ holds (c_exit c) \/ violated (c_ancInv c) \/
                holds (c_ancEnd c) \/ holds (c_skip c) in
    (quit -> core_obs k' = (FINISHED, SKIPPED, NO_FAILURE)) /\
    (~ quit -> ~ permits (c_start c) -> core_obs k' = (WAITING, NO_OUTCOME, NO_FAILURE)) /\
    (~ quit -> permits (c_start c) -> ~ permits (c_pre c) ->
       core_obs k' = (ITERATION_ENDED, FAILURE, PRE_CONDITION_FAILED)) /\
    (~ quit -> permits (c_start c) -> permits (c_pre c) ->
       core_obs k' = (EXECUTING, NO_OUTCOME, NO_FAILURE)).
  Proof.
    start_decision Hst. destruct Hc as [-> ->]. cbn zeta. finish_decision.
  Qed.

  Lemma executing_empty_decision :
    t = NEmpty -> k_state k = EXECUTING ->
    (holds (c_ancExit c) -> core_obs k' = (FINISHED, INTERRUPTED, PARENT_EXITED)) /\
    (~ holds (c_ancExit c) -> holds (c_exit c) ->
       core_obs k' = (ITERATION_ENDED, INTERRUPTED, EXITED)) /\
    (~ holds (c_ancExit c) -> ~ holds (c_exit c) -> violated (c_ancInv c) ->
       core_obs k' = (FINISHED, FAILURE, PARENT_FAILED)) /\
    (~ holds (c_ancExit c) -> ~ holds (c_exit c) -> ~ violated (c_ancInv c) ->
     violated (c_inv c) -> core_obs k' = (ITERATION_ENDED, FAILURE, INVARIANT_CONDITION_FAILED)) /\
    (undisturbed c -> ~ permits (c_end c) -> core_obs k' = (EXECUTING, NO_OUTCOME, NO_FAILURE)) /\
    (undisturbed c -> permits (c_end c) -> ~ permits (c_post c) ->
       core_obs k' = (ITERATION_ENDED, FAILURE, POST_CONDITION_FAILED)) /\
    (undisturbed c -> permits (c_end c) -> permits (c_post c) ->
       core_obs k' = (ITERATION_ENDED, SUCCESS, NO_FAILURE)).
  Proof.
    intros Ht. start_decision Hst. rewrite Ht. destruct Hc as [-> ->]. finish_decision.
  Qed.

  (** The priority of the four interrupting conditions, for every other type. *)
  Lemma interrupt_decision :
    (k_state k = EXECUTING /\ (t = NUpdate \/ t = NCommand \/ t = NList \/
                               (t = NAssignment /\ c_action c = Some true))) \/
    k_state k = FINISHING ->
    (holds (c_ancExit c) -> core_obs k' = (FAILING, INTERRUPTED, PARENT_EXITED)) /\
    (~ holds (c_ancExit c) -> holds (c_exit c) ->
       core_obs k' = (FAILING, INTERRUPTED, EXITED)) /\
    (~ holds (c_ancExit c) -> ~ holds (c_exit c) -> violated (c_ancInv c) ->
       core_obs k' = (FAILING, FAILURE, PARENT_FAILED)) /\
    (~ holds (c_ancExit c) -> ~ holds (c_exit c) -> ~ violated (c_ancInv c) ->
     violated (c_inv c) -> core_obs k' = (FAILING, FAILURE, INVARIANT_CONDITION_FAILED)).
  Proof.
    intros [[Hst Ht]|Hst]; revert Hst; start_decision Hst; destruct Hc as [-> ->].
    - destruct Ht as [->|[->|[->|[-> ->]]]]; finish_decision.
    - destruct Hs as [-> | ->]; finish_decision.
  Qed.

  Lemma executing_assignment_waits :
    t = NAssignment -> k_state k = EXECUTING -> c_action c <> Some true ->
    core_obs k' = (EXECUTING, NO_OUTCOME, NO_FAILURE).
  Proof.
    intros Ht. start_decision Hst. rewrite Ht. destruct Hc as [-> ->].
    destruct (c_action c) as [[|]|]; cbn; congruence.
  Qed.

  Lemma executing_assign_update_end :
    t = NUpdate \/ (t = NAssignment /\ c_action c = Some true) ->
    k_state k = EXECUTING -> undisturbed c ->
    (~ permits (c_end c) -> core_obs k' = (EXECUTING, NO_OUTCOME, NO_FAILURE)) /\
    (permits (c_end c) -> ~ permits (c_post c) ->
       core_obs k' = (ITERATION_ENDED, FAILURE, POST_CONDITION_FAILED)) /\
    (permits (c_end c) -> permits (c_post c) ->
       core_obs k' = (ITERATION_ENDED, SUCCESS, NO_FAILURE)).
  Proof.
    intros Ht. start_decision Hst. destruct Hc as [-> ->].
    destruct Ht as [->|[-> ->]]; finish_decision.
  Qed.

  Lemma executing_command_list_end :
    t = NCommand \/ t = NList -> k_state k = EXECUTING -> undisturbed c ->
    (~ permits (c_end c) -> core_obs k' = (EXECUTING, NO_OUTCOME, NO_FAILURE)) /\
    (permits (c_end c) -> core_obs k' = (FINISHING, NO_OUTCOME, NO_FAILURE)).
  Proof.
    intros Ht. start_decision Hst. destruct Hc as [-> ->].
    destruct Ht as [->| ->]; finish_decision.
  Qed.

  Lemma finishing_decision :
    k_state k = FINISHING -> undisturbed c ->
    (c_action c <> Some true -> core_obs k' = (FINISHING, NO_OUTCOME, NO_FAILURE)) /\
    (c_action c = Some true -> ~ permits (c_post c) ->
       core_obs k' = (ITERATION_ENDED, FAILURE, POST_CONDITION_FAILED)) /\
    (c_action c = Some true -> permits (c_post c) ->
       core_obs k' = (ITERATION_ENDED, SUCCESS, NO_FAILURE)).
  Proof.
    start_decision Hst. destruct Hc as [-> ->].
    destruct Hs as [-> | ->]; finish_decision.
  Qed.

  Lemma failing_decision :
    k_state k = FAILING ->
    let done := match t with NAssignment | NCommand => c_abort c | _ => c_action c end in
    (done <> Some true -> core_obs k' = core_obs k) /\
    (done = Some true -> k_fail k = PARENT_FAILED \/ k_fail k = PARENT_EXITED ->
       core_obs k' = (FINISHED, k_out k, k_fail k)) /\
    (done = Some true -> k_fail k <> PARENT_FAILED -> k_fail k <> PARENT_EXITED ->
       core_obs k' = (ITERATION_ENDED, k_out k, k_fail k)).
  Proof.
    start_decision Hst. cbn zeta.
    destruct t; try congruence;
    (destruct (c_abort c) as [[|]|] || destruct (c_action c) as [[|]|]);
    destruct (c_action c) as [[|]|];
    destruct (k_fail k); cbn; rewrite ?Hst; repeat split; intros; try reflexivity;
      try (exfalso; intuition congruence).
  Qed.

  Lemma iteration_ended_decision :
    k_state k = ITERATION_ENDED ->
    (holds (c_ancExit c) -> core_obs k' = (FINISHED, INTERRUPTED, PARENT_EXITED)) /\
    (~ holds (c_ancExit c) -> violated (c_ancInv c) ->
       core_obs k' = (FINISHED, FAILURE, PARENT_FAILED)) /\
    (~ holds (c_ancExit c) -> ~ violated (c_ancInv c) ->
       (holds (c_ancEnd c) -> core_obs k' = (FINISHED, k_out k, k_fail k)) /\
       (~ holds (c_ancEnd c) -> holds (c_repeat c) ->
          core_obs k' = (WAITING, NO_OUTCOME, NO_FAILURE)) /\
       (~ holds (c_ancEnd c) -> c_repeat c = None \/ violated (c_repeat c) ->
          core_obs k' = (FINISHED, k_out k, k_fail k)) /\
       (~ holds (c_ancEnd c) -> c_repeat c = Some None -> core_obs k' = core_obs k)).
  Proof.
    start_decision Hst.
    destruct (c_repeat c) as [[[|]|]|]; cbn [isT isF];
    repeat (destr_if; cbn [isNoOut isNoFail orElse resets]); cbn; rewrite ?Hst; repeat split; intros;
      try reflexivity; try (exfalso; intuition congruence).
  Qed.

  Lemma finished_decision :
    k_state k = FINISHED ->
    (par = Some WAITING -> core_obs k' = (INACTIVE, NO_OUTCOME, NO_FAILURE)) /\
    (par <> Some WAITING -> core_obs k' = core_obs k).
  Proof.
    start_decision Hst.
    destruct par as [[]|]; cbn; rewrite ?Hst; split; intros; try reflexivity; congruence.
  Qed.
End Decisions.

(** ---------------- condition activation ---------------- *)

Definition b2z (b : bool) : Z := if b then 1%Z else 0%Z.

(** Net effect of one legal transition on each counter. *)
Definition delta (l : list (cidx * Z)) (i : cidx) : Z :=
  fold_right (fun e z => ((if cidx_eqb i (fst e) then snd e else 0) + z)%Z) 0%Z l.

Lemma applyActs_delta l : forall a i, applyActs l a i = (a i + delta l i)%Z.
Proof.
  induction l as [|e l IH]; intros a i; unfold applyActs; cbn [fold_left]; unfold delta; cbn [fold_right].
  - lia.
  - change (fold_left _ l ?x) with (applyActs l x). rewrite IH.
    unfold delta. set (z := fold_right _ _ l).
    destruct (cidx_eqb i (fst e)); lia.
Qed.

Definition surplus (t : ntype) (s' : nstate) (i : cidx) : Z :=
  match t, s', i with NCommand, EXECUTING, CExit => 1%Z | _, _, _ => 0%Z end.

Lemma delta_ok t s s' i :
  has_state t s -> In s' (successors t s) ->
  (b2z (active_in t s i) + delta (fromActs t s s' ++ toActs t s') i)%Z =
  (b2z (active_in t s' i) + surplus t s' i)%Z.
Proof.
  intros Hs Hin.
  destruct s; cbn in Hin; destruct t; cbn in Hin, Hs;
    repeat (destruct Hin as [<-|Hin]); try contradiction;
    try (exfalso; intuition congruence);
    destruct i; reflexivity.
Qed.

Lemma delta_app l1 l2 i : delta (l1 ++ l2) i = (delta l1 i + delta l2 i)%Z.
Proof.
  unfold delta. rewrite fold_right_app.
  induction l1 as [|e l IH]; cbn [fold_right]; [lia|]. rewrite IH. lia.
Qed.

Lemma actTransition_spec t k a s' i :
  k_next k = Some s' -> s' <> k_state k -> has_state t (k_state k) ->
  In s' (successors t (k_state k)) ->
  (actTransition t k a i - b2z (active_in t s' i))%Z =
  (a i - b2z (active_in t (k_state k) i) + surplus t s' i)%Z.
Proof.
  intros Hn Hne Hs Hin. unfold actTransition; rewrite Hn.
  apply nstate_eqb_neq in Hne; rewrite Hne.
  rewrite !applyActs_delta.
  pose proof (delta_ok t _ _ i Hs Hin) as H. rewrite delta_app in H. lia.
Qed.

Lemma actStep_fst t par c ka : fst (actStep t par c ka) = coreStep t par c (fst ka).
Proof. unfold actStep, coreStep. destruct (coreGetDest t par c (fst ka)) as [k1 []]; reflexivity. Qed.

Lemma actStep_spec t par c k a i :
  core_inv t k ->
  let k' := coreStep t par c k in
  (snd (actStep t par c (k, a)) i - b2z (active_in t (k_state k') i))%Z =
  (a i - b2z (active_in t (k_state k) i)
   + (if nstate_eqb (k_state k') (k_state k) then 0 else surplus t (k_state k') i))%Z.
Proof.
  intros Hk; cbn zeta. rewrite coreStep_eq by assumption.
  pose proof Hk as (Hs & Hc & _).
  pose proof (getDest_ok t _ _ _ par c Hs Hc) as Hg.
  unfold actStep, coreGetDest; cbn [fst snd].
  destruct (getDest t (k_state k) (k_fail k) par c) as [|s o f|] eqn:E; cbn [fst snd k_state].
  - rewrite nstate_eqb_refl. lia.
  - destruct Hg as (Hin & Hne & _ & _).
    pose proof Hne as Hne'. apply nstate_eqb_neq in Hne'. rewrite Hne'.
    rewrite (actTransition_spec t _ a s i); cbn [k_state k_next]; auto.
  - contradiction.
Qed.

Lemma actRun_fst t h : fst (actRun t h) = coreRun t h core0.
Proof.
  unfold actRun, coreRun.
  induction h as [|e h IH] using rev_ind; [reflexivity|].
  rewrite !fold_left_app. cbn [fold_left]. rewrite actStep_fst. now rewrite IH.
Qed.

Lemma actRun_snoc t h e : actRun t (h ++ [e]) = actStep t (fst e) (snd e) (actRun t h).
Proof. unfold actRun. now rewrite fold_left_app. Qed.

Lemma surplus_nonneg t s i : (0 <= surplus t s i)%Z.
Proof. destruct t, s, i; cbn; lia. Qed.
Lemma surplus_zero t s i : t <> NCommand \/ i <> CExit -> surplus t s i = 0%Z.
Proof. destruct t, s, i; cbn; try reflexivity; intros; exfalso; intuition congruence. Qed.

Lemma actRun_ge t h i :
  (b2z (active_in t (k_state (fst (actRun t h))) i) <= snd (actRun t h) i)%Z.
Proof.
  induction h as [|e h IH] using rev_ind.
  - cbn. lia.
  - rewrite actRun_snoc, actStep_fst.
    pose proof (actRun_fst t h) as Hf.
    destruct (actRun t h) as [k a]; cbn [fst snd] in *. subst k.
    pose proof (actStep_spec t (fst e) (snd e) _ a i (coreRun_inv t h)) as H.
    cbn zeta in H.
    destruct (nstate_eqb _ _); [lia|].
    pose proof (surplus_nonneg t (k_state (coreStep t (fst e) (snd e) (coreRun t h core0))) i).
    lia.
Qed.

Lemma actRun_exact t h i :
  t <> NCommand \/ i <> CExit ->
  snd (actRun t h) i = b2z (active_in t (k_state (fst (actRun t h))) i).
Proof.
  intros Hti.
  induction h as [|e h IH] using rev_ind.
  - reflexivity.
  - rewrite actRun_snoc, actStep_fst.
    pose proof (actRun_fst t h) as Hf.
    destruct (actRun t h) as [k a]; cbn [fst snd] in *. subst k.
    pose proof (actStep_spec t (fst e) (snd e) _ a i (coreRun_inv t h)) as H.
    cbn zeta in H.
    rewrite (surplus_zero t _ i Hti) in H.
    destruct (nstate_eqb _ _); lia.
Qed.

(** The decision depends only on conditions that are active in the state. *)
Lemma getDest_active_only t s f par c c' :
  has_state t s ->
  c_ancExit c = c_ancExit c' -> c_ancInv c = c_ancInv c' -> c_ancEnd c = c_ancEnd c' ->
  (forall i, active_in t s i = true -> own_cond c i = own_cond c' i) ->
  getDest t s f par c = getDest t s f par c'.
Proof.
  intros Hs H1 H2 H3 H.
  pose proof (H CSkip) as hSkip; pose proof (H CStart) as hStart; pose proof (H CPre) as hPre;
  pose proof (H CExit) as hExit; pose proof (H CInv) as hInv; pose proof (H CEnd) as hEnd;
  pose proof (H CPost) as hPost; pose proof (H CRepeat) as hRep; pose proof (H CAction) as hAct;
  pose proof (H CAbort) as hAb; clear H.
  destruct c as [xe xi xn sk st pr ex iv en po re ac ab].
  destruct c' as [xe' xi' xn' sk' st' pr' ex' iv' en' po' re' ac' ab'].
  cbn in *. subst xe' xi' xn'.
  destruct s; [| | | | | |]; destruct t; cbn in *; try reflexivity; try congruence;
    try (exfalso; intuition congruence);
    repeat match goal with
    | H : true = true -> Some _ = Some _ |- _ => specialize (H eq_refl); injection H as H; subst
    | H : true = true -> _ |- _ => specialize (H eq_refl); subst
    | H : false = true -> _ |- _ => clear H
    end; reflexivity.
Qed.

(** Growth of the exit condition's counter of Command nodes: each pass
    through EXECUTING leaves one activation behind. *)
Definition cTT : cond := Some (Some true).
Definition cFF : cond := Some (Some false).
Definition plainConds (rep : cond) : conds :=
  mkConds None None None None None None (Some (Some false)) None None None rep (Some true) (Some true).
Definition loopHist : list (option nstate * conds) :=
  [(None, plainConds cTT); (None, plainConds cTT); (None, plainConds cTT); (None, plainConds cTT)].
Fixpoint loops (n : nat) : list (option nstate * conds) :=
  match n with O => [] | S n => loops n ++ loopHist end.

Lemma loops_state n :
  fst (actRun NCommand ((None, plainConds cTT) :: loops n)) =
    mkCore WAITING NO_OUTCOME NO_FAILURE None NO_OUTCOME NO_FAILURE /\
  snd (actRun NCommand ((None, plainConds cTT) :: loops n)) CExit = (1 + Z.of_nat n)%Z.
Proof.
  induction n as [|n [IH1 IH2]].
  - split; reflexivity.
  - cbn [loops]. rewrite app_comm_cons.
    unfold actRun. rewrite fold_left_app.
    change (fold_left _ (_ :: loops n) _) with (actRun NCommand ((None, plainConds cTT) :: loops n)).
    destruct (actRun NCommand ((None, plainConds cTT) :: loops n)) as [k a].
    cbn [fst snd] in IH1, IH2. subst k.
    split; [reflexivity|].
    cbn -[Z.add Z.of_nat]. rewrite IH2. lia.
Qed.

Lemma command_exit_leak n :
  exists h, k_state (fst (actRun NCommand h)) = FINISHED /\
            snd (actRun NCommand h) CExit = Z.of_nat (S n).
Proof.
  exists (((None, plainConds cTT) :: loops n)
          ++ [(None, plainConds cTT); (None, plainConds cTT); (None, plainConds cTT); (None, plainConds cFF)]).
  pose proof (loops_state n) as [H1 H2].
  unfold actRun. rewrite fold_left_app.
  change (fold_left _ (_ :: loops n) _) with (actRun NCommand ((None, plainConds cTT) :: loops n)).
  destruct (actRun NCommand ((None, plainConds cTT) :: loops n)) as [k a].
  cbn [fst snd] in H1, H2. subst k.
  split; [reflexivity|].
  cbn -[Z.add Z.of_nat]. rewrite H2. lia.
Qed.
