(** Properties of the executive, continued: priority order, termination,
    error freedom, histories, outbound actions, synchronous turns. *)
From Coq Require Import Sorted.
From Verif Require Export ExecProps.

(** ------------------------------------------------------------------ C12 *)
(** The pending queue is always in ascending order of priority number. *)
Theorem C12_pending_sorted {W} (P : plan W) env l w :
  StronglySorted (fun a b => (p_prio P a <= p_prio P b)%Z) (e_pend (run env P l (e0 w))).
Proof. apply run_sorted. Qed.

(** [a] comes before [b]. *)
Definition before (a b : nat) (l : list nat) : Prop := exists l1 l2 l3, l = l1 ++ a :: l2 ++ b :: l3.

Lemma subseq_before a b l l' : subseq l l' -> NoDup l' -> In a l -> In b l -> before a b l' -> before a b l.
Proof.
  intros S. induction S as [l'|x l l' S IH|x l l' S IH]; intros Hnd Ha Hb (l1 & l2 & l3 & E).
  - destruct Ha.
  - destruct l1 as [|y l1]; cbn in E; inversion E; subst.
    + assert (Hbl : In b l).
      { destruct Hb as [->|Hb]; [|exact Hb]. exfalso. inversion Hnd as [|? ? Hn _]; subst. apply Hn. rewrite in_app_iff. right. now left. }
      apply in_split in Hbl as (m1 & m2 & ->). exists [], m1, m2. reflexivity.
    + assert (Ha' : In a l). { destruct Ha as [->|Ha]; [|exact Ha]. exfalso. inversion Hnd as [|? ? Hn _]; subst. apply Hn. rewrite in_app_iff. right. now left. }
      assert (Hb' : In b l). { destruct Hb as [->|Hb]; [|exact Hb]. exfalso. inversion Hnd as [|? ? Hn _]; subst. apply Hn. rewrite in_app_iff. right. right. rewrite in_app_iff. right. now left. }
      inversion Hnd; subst. destruct IH as (k1 & k2 & k3 & ->); auto; [now exists l1, l2, l3|]. exists (y :: k1), k2, k3. reflexivity.
  - inversion Hnd as [|? ? Hn Hnd']; subst. destruct l1 as [|y l1]; cbn in E; inversion E; subst.
    + exfalso. apply Hn. eapply subseq_In; eauto.
    + apply IH; auto. now exists l1, l2, l3.
Qed.
Lemma insert_before {W} (P : plan W) a b n l : before a b l -> before a b (insertPrio P n l).
Proof.
  assert (H1 : forall l1 l, exists k, insertPrio P n (l1 ++ l) = k ++ l /\ (forall x, In x l1 -> In x k) /\ incl l1 k \/ insertPrio P n (l1 ++ l) = l1 ++ insertPrio P n l).
  { clear. induction l1 as [|x l1 IH]; intro l; cbn; [exists []; right; reflexivity|].
    destruct (_ <? _)%Z.
    - exists (n :: x :: l1). left. split; [reflexivity|]. split; [intros; now right|intros z Hz; now right].
    - destruct (IH l) as (k & [(E & A & B)|E]); [exists (x :: k); left|exists []; right; cbn; now rewrite E].
      rewrite E. split; [reflexivity|]. split; [intros z [->|Hz]; [now left|right; auto]|intros z [->|Hz]; [now left|right; auto]]. }
  intros (l1 & l2 & l3 & ->).
  destruct (H1 l1 (a :: l2 ++ b :: l3)) as (k & [(E & _)|E]); rewrite E; [now exists k, l2, l3|].
  cbn. destruct (_ <? _)%Z; [exists (l1 ++ [n]), l2, l3; now rewrite <- app_assoc|].
  destruct (H1 l2 (b :: l3)) as (k' & [(E' & _)|E']); rewrite E'; [now exists l1, k', l3|].
  cbn. destruct (_ <? _)%Z; [exists l1, (l2 ++ [n]), l3; now rewrite <- app_assoc|]. now exists l1, l2, (insertPrio P n l3).
Qed.
Lemma insert_after_le {W} (P : plan W) a b l : StronglySorted (lep P) l -> In a l -> (p_prio P a <= p_prio P b)%Z ->
  before a b (insertPrio P b l).
Proof.
  intros S Ha Hle. destruct (insertPrio_split P b l S) as (l1 & l2 & -> & -> & A & B).
  rewrite Forall_forall in *. apply in_app_iff in Ha as [Ha|Ha].
  - apply in_split in Ha as (m1 & m2 & ->). exists m1, m2, l2. now rewrite <- app_assoc.
  - specialize (B _ Ha). lia.
Qed.

(** First come, first served among equal priorities: a node that has been
    pending ever since [b] was not yet pending stays ahead of [b], unless [b]
    has a strictly better priority. *)
Theorem C12_first_come_first_served {W} (P : plan W) env l0 w l a b :
  let st := run env P l0 (e0 w) in
  In a (e_pend st) -> ~ In b (e_pend st) -> (p_prio P a <= p_prio P b)%Z ->
  (forall k, In a (e_pend (run env P (firstn k l) st))) ->
  In b (e_pend (run env P l st)) -> before a b (e_pend (run env P l st)).
Proof.
  cbn zeta. intros Ha Hb Hle.
  assert (G : forall l st, Inv P st -> StronglySorted (lep P) (e_pend st) ->
     (In b (e_pend st) -> before a b (e_pend st)) ->
     (forall k, In a (e_pend (run env P (firstn k l) st))) ->
     In b (e_pend (run env P l st)) -> before a b (e_pend (run env P l st))).
  { clear - Hle. induction l as [|x l IH]; intros st HI HS Hab Hk Hb; [now apply Hab|].
    cbn in *. apply IH; [now apply act_Inv| | |intro k; apply (Hk (S k))|exact Hb].
    - destruct (act_pend P env st x HI) as [H|(n & _ & ->)]; [eapply subseq_sorted; eauto|now apply insertPrio_sorted].
    - intro Hb1. pose proof (Hk 0) as Ha0. pose proof (Hk 1) as Ha1. cbn in Ha0, Ha1.
      destruct (act_pend P env st x HI) as [H|(n & Hn & E)].
      + assert (Hb0 : In b (e_pend st)) by (eapply subseq_In; eauto).
        eapply subseq_before; eauto. apply (q_ndp _ _ (proj1 HI)).
      + rewrite E in *. destruct (Nat.eq_dec n b) as [->|Hne].
        * now apply insert_after_le.
        * apply insert_before, Hab. apply insertPrio_In in Hb1 as [Hb1|Hb1]; [congruence|exact Hb1]. }
  apply G; [apply run_Inv|apply run_sorted|tauto].
Qed.

(** A node that becomes pending is queued behind everything of the same or better
    priority and ahead of the rest; nothing else is reordered. *)
Theorem C12_only_insertion_changes_order {W} (P : plan W) env l w a :
  let st := run env P l (e0 w) in
  subseq (e_pend (act env P st a)) (e_pend st) \/
  exists n l1 l2, ~ In n (e_pend st) /\ e_pend st = l1 ++ l2 /\ e_pend (act env P st a) = l1 ++ n :: l2 /\
    Forall (fun m => (p_prio P m <= p_prio P n)%Z) l1 /\ Forall (fun m => (p_prio P n < p_prio P m)%Z) l2.
Proof.
  cbn zeta. destruct (act_pend P env _ a (run_Inv P env l w)) as [H|(n & Hn & E)]; [now left|right].
  destruct (insertPrio_split P n _ (run_sorted P env l w)) as (l1 & l2 & A & B & C & D).
  exists n, l1, l2. rewrite E. auto.
Qed.
(** Three nodes queue for mutex 0: two of them pend, in order of arrival. *)
Example C12_example : match try1 with Some st => e_pend st = [1; 2] | None => False end.
Proof. vm_compute. reflexivity. Qed.
Print Assumptions C12_pending_sorted.
Print Assumptions C12_first_come_first_served.
Print Assumptions C12_only_insertion_changes_order.

(** ------------------------------------------------------------------ C13 *)
(** [N] lists the nodes concerned: closed under children, containing whatever
    is queued or can be notified.  Without Repeat conditions step() returns
    within 6|N|+1 passes of its loop. *)
Theorem C13_step_returns_partial {W} (P : plan W) env (N : list nat) pol st :
  wf_plan P -> (forall n, p_has P n URepeat = false) ->
  NoDup N -> (forall n c, In n N -> In c (p_kids P n) -> In c N) ->
  (forall st n, In n N -> incl (fst (pol st n)) N /\ incl (snd (pol st n)) N) ->
  (incl (e_cand st) N /\ incl (e_pend st) N /\ incl (e_chg st) N) ->
  at_rest P env st ->
  exists st', macroStep P pol (S (6 * length N)) st = Some st'.
Proof.
  intros HW Hrep Hnd Hk Hp Hw Hr. unfold macroStep.
  destruct (quiesce_terminates P env (wf_cond P HW) Hrep N pol st Hnd Hk Hp Hw Hr) as [st1 ->]. eauto.
Qed.

(** In any plan: if step() has not returned after [fuel] passes, then nodes have
    begun a new iteration (or been reset for one) at least (fuel - 6|N|)/7 times
    during those passes.  [times startsOver] counts these events. *)
Theorem C13_only_repetition_prolongs {W} (P : plan W) env (N : list nat) pol st fuel :
  NoDup N -> (forall n c, In n N -> In c (p_kids P n) -> In c N) ->
  (forall st n, In n N -> incl (fst (pol st n)) N /\ incl (snd (pol st n)) N) ->
  (incl (e_cand st) N /\ incl (e_pend st) N /\ incl (e_chg st) N) ->
  at_rest P env st ->
  quiesce P pol fuel st = None ->
  fuel + 7 * times startsOver (e_trace st) <= 6 * length N + 7 * times startsOver (e_trace (turns P pol fuel st)).
Proof.
  intros Hnd Hk Hp Hw Hr H. apply (quiesce_bound P N Hnd Hk pol fuel st Hp (at_rest_Inv P env st Hr) Hw H).
Qed.

(** When the quiescence loop ends, no node is left to examine, unless there is an
    assignment, retraction, command or abort to carry out. *)
Lemma checkOne_cand {W} (P : plan W) st : e_cand (checkOne P st) = tl (e_cand st).
Proof.
  unfold checkOne. destruct (e_cand st) as [|x cs] eqn:Ec; [now rewrite Ec|]. set (st0 := setQs _ _ _).
  assert (E0 : e_cand (fst (getDestNode P st0 x)) = cs) by (unfold getDestNode; destruct (coreGetDest _ _ _ _); reflexivity).
  destruct (getDestNode P st0 x) as [st1 go]; cbn [fst] in E0. destruct go; [|exact E0]. destruct (_ && _); [exact E0|].
  unfold addStateChange. destruct (qs st1 x); exact E0.
Qed.
Lemma checkAll_cand {W} (P : plan W) st : e_cand (checkAll P st) = [].
Proof.
  unfold checkAll. assert (G : forall k st, length (e_cand st) <= k -> e_cand (Nat.iter k (checkOne P) st) = []).
  { induction k as [|k IH]; intros s H; [destruct (e_cand s) eqn:E; cbn in *; [exact E|lia]|].
    rewrite iter_S. apply IH. rewrite checkOne_cand. destruct (e_cand s); cbn in *; lia. }
  apply G. lia.
Qed.
Theorem C13_returns_when_quiet {W} (P : plan W) env pol fuel st st' :
  at_rest P env st -> quiesce P pol fuel st = Some st' ->
  e_chg st' = [] /\ (e_cand st' = [] \/ e_asg st' <> [] \/ e_ret st' <> [] \/ e_cmd st' <> [] \/ e_abt st' <> []).
Proof.
  intros Hr H. split; [eapply at_rest_chg, at_rest_quiesce; eauto|].
  revert st Hr H. induction fuel as [|f IH]; intros st Hr; cbn; [discriminate|].
  assert (HI : Inv P (checkAll P st)).
  { destruct (steps_checkAll P env st) as [l E]. rewrite E. apply run_Inv_from, (at_rest_Inv P env), Hr. }
  fold (decideAll P st). destruct (isNil (e_chg (decideAll P st))).
  - intro E; inversion E; subst. left. unfold decideAll. destruct (isNil _); [apply checkAll_cand|]. now rewrite resolve_cand, checkAll_cand.
  - fold (turn P pol st). set (s3 := turn P pol st) in *.
    destruct (e_asg s3) eqn:E1, (e_ret s3) eqn:E2, (e_cmd s3) eqn:E3, (e_abt s3) eqn:E4, (e_cand s3) eqn:E5; cbn;
      intro E; try (inversion E; subst; rewrite ?E1, ?E2, ?E3, ?E4, ?E5; auto; right; (left; discriminate) || (right; ((left; discriminate) || right; ((left; discriminate) || right; discriminate)))).
    apply (IH s3); [apply ar_turn; exact Hr|exact E].
Qed.
Example C13_example :
  (forall n c, In n demoN -> In c (p_kids demo n) -> In c demoN) /\ NoDup demoN /\ (forall n, p_has demo n URepeat = false) /\
  (forall st n, In n demoN -> incl (fst (everyone demoN st n)) demoN /\ incl (snd (everyone demoN st n)) demoN) /\
  match demo1 with Some st => incl (e_cand st) demoN /\ incl (e_pend st) demoN /\ incl (e_chg st) demoN | None => False end.
Proof.
  split. { intros n c _ Hc. change (In c (kidsOf demoN demoPar n)) in Hc. unfold kidsOf in Hc. apply filter_In in Hc. tauto. }
  split. { repeat (constructor; [cbn; intuition discriminate|]). constructor. }
  split. { intro n. do 6 (destruct n as [|n]; [reflexivity|]). reflexivity. }
  split. { intros st n _. cbn [everyone fst snd]. split; [intros x []|]. intros x Hx. apply filter_In in Hx. tauto. }
  vm_compute. repeat split; intros x Hx; repeat destruct Hx as [<-|Hx]; auto 10; try destruct Hx.
Qed.

(** step() need not return: a plan of one Empty node whose repeat condition is
    true keeps the quiescence loop busy for ever. *)
Definition spinning (st : est nat) : Prop :=
  e_cand st = [0] /\ e_pend st = [] /\ e_chg st = [] /\ e_asg st = [] /\ e_ret st = [] /\ e_cmd st = [] /\ e_abt st = [] /\
  qs st 0 = QCheck /\ In (state st 0) [INACTIVE; WAITING; EXECUTING; ITERATION_ENDED].
Lemma spin_check w nd rs fi u pl de tr er s o f nx no nf ak ab hd :
  nd 0 = mkD (mkCore s o f nx no nf) QCheck ak ab hd -> In s [INACTIVE; WAITING; EXECUTING; ITERATION_ENDED] ->
  exists s' no' nf', checkAll spin (mkE w nd rs [0] [] [] fi [] [] [] [] u pl de tr er) =
   mkE w (upd (upd (upd nd 0 (mkD (mkCore s o f nx no nf) QNone ak ab hd)) 0 (mkD (mkCore s o f (Some s') no' nf') QNone ak ab hd)) 0 (mkD (mkCore s o f (Some s') no' nf') QTransition ak ab hd))
     rs [] [] [0] fi [] [] [] [] u pl de tr er /\ In s' [WAITING; EXECUTING; ITERATION_ENDED] /\ nstate_eqb s' s = false.
Proof.
  intros E Hs. unfold checkAll. cbn [length e_cand Nat.iter nat_rect].
  unfold checkOne. cbn [e_cand]. unfold setQs at 1. cbn [set_queues e_nodes e_pend e_chg e_fin e_world e_res e_asg e_ret e_cmd e_abt e_upd e_plans e_deleted e_trace e_errs]. rewrite E.
  cbn [d_core d_ack d_abort d_handle set_nodes e_nodes e_pend e_chg e_fin e_world e_res e_asg e_ret e_cmd e_abt e_upd e_plans e_deleted e_trace e_errs e_cand].
  destruct Hs as [<-|[<-|[<-|[<-|[]]]]]; do 3 eexists; (split; [|split]).
  all: try (vm_compute; reflexivity).
  all: match goal with |- In _ _ => cbn; auto | |- _ = false => reflexivity end.
Qed.
Lemma spin_turn st : spinning st -> spinning (turn spin nobody st) /\ e_chg (decideAll spin st) <> [].
Proof.
  destruct st as [w nd rs ca pe ch fi a r c b u pl de tr er]. unfold spinning, qs, state, core. cbn [e_cand e_pend e_chg e_asg e_ret e_cmd e_abt e_nodes].
  destruct (nd 0) as [k q ak ab hd] eqn:E. destruct k as [s o f nx no nf]. cbn [d_core d_qs k_state].
  intros (-> & -> & -> & -> & -> & -> & -> & -> & Hs).
  destruct (spin_check w nd rs fi u pl de tr er s o f nx no nf ak ab hd E Hs) as (s' & no' & nf' & C & H1 & H2).
  unfold turn. assert (D : decideAll spin (mkE w nd rs [0] [] [] fi [] [] [] [] u pl de tr er) = checkAll spin (mkE w nd rs [0] [] [] fi [] [] [] [] u pl de tr er)).
  { unfold decideAll. rewrite C. reflexivity. }
  rewrite D, C. split; [|discriminate].
  destruct H1 as [<-|[<-|[<-|[]]]]; destruct Hs as [<-|[<-|[<-|[<-|[]]]]]; try discriminate H2; vm_compute; auto 15.
Qed.
Theorem C13_refuted : exists (P : plan nat) env st pol, reachable P env st /\ forall fuel, macroStep P pol fuel st = None.
Proof.
  exists spin, envSet, (act envSet spin (e0 0) (AAddPlan 0 [])), nobody.
  split; [apply re_event; [reflexivity|apply re_init]|].
  intro fuel. unfold macroStep.
  assert (G : forall st, spinning st -> quiesce spin nobody fuel st = None).
  { induction fuel as [|k IH]; intros st H; [reflexivity|]. cbn [quiesce]. fold (decideAll spin st).
    destruct (spin_turn st H) as [A B]. fold (turn spin nobody st).
    destruct (e_chg (decideAll spin st)) eqn:E; [congruence|]. cbn [isNil].
    destruct A as (A1 & A2 & A3 & A4 & A5 & A6 & A7 & A8 & A9) eqn:EA. rewrite A1, A4, A5, A6, A7. cbn. apply IH. exact A. }
  rewrite G; [reflexivity|]. vm_compute. auto 12.
Qed.
Print Assumptions C13_step_returns_partial.
Print Assumptions C13_only_repetition_prolongs.
Print Assumptions C13_returns_when_quiet.
Print Assumptions C13_refuted.

(** ------------------------------------------------------------------ C36 *)
(** Of all the internal consistency checks of the executive, only three can ever
    fire: notifying a node whose plan is finished, notifying a node that is
    already marked for both a check and a try, and the plan error "an ancestor
    holds the mutex".  In particular no queue insertion error, invalid pending
    status, invalid transition or busy finished root occurs. *)
Theorem C36_internal_errors_unreachable {W} (P : plan W) env l w e :
  In e (e_errs (run env P l (e0 w))) ->
  exists n, e = ENotifyDeleted n \/ e = ENotifyInvalid n \/ e = EAncestorHolds n.
Proof.
  intro H. pose proof (q_errs _ _ (proj1 (run_Inv P env l w))) as F. rewrite Forall_forall in F. specialize (F e H).
  destruct e as [n|n|n|n|n|n|n|]; try destruct F; eauto.
Qed.
Definition try3 := try2 |> doAct tryP (AEnv 1 [2]) |> doAct tryP (AEnv 1 [2]).
Lemma try3_ok : okR tryP envSet try3. Proof. unfold try3. okR. apply try2_ok. Qed.
(** One of them is reachable by an ordinary sequence of events: the node is
    waiting for a resource that became free and two of its conditions change
    before the executive gets to it. *)
Theorem C36_second_notification_is_error :
  exists (P : plan nat) env st n, reachable P env st /\ In (ENotifyInvalid n) (e_errs st).
Proof.
  exists tryP, envSet. destruct (okR_use tryP envSet try3 (fun st => In (ENotifyInvalid 2) (e_errs st)) try3_ok) as (st & R & H).
  - vm_compute. auto.
  - eauto.
Qed.
Print Assumptions C36_internal_errors_unreachable.
Print Assumptions C36_second_notification_is_error.

(** ------------------------------------------------------------------ C37 *)
(** The transitions reported for a node, in order, form an unbroken path of legal
    moves from INACTIVE to the node's present state. *)
Theorem C37_reported_history {W} (P : plan W) env l w n :
  let st := run env P l (e0 w) in
  leads INACTIVE (moves n (e_trace st)) (state st n) /\
  Forall (fun m => In (snd m) (successors (p_type P n) (fst m))) (moves n (e_trace st)).
Proof. cbn zeta. split; [apply (t_path _ _ (run_TInv P env l w))|apply (t_legal _ _ (run_TInv P env l w))]. Qed.
Example C37_example : match demo3 with
  | Some st => moves 2 (e_trace st) = [(INACTIVE, WAITING); (WAITING, EXECUTING); (EXECUTING, FINISHING); (FINISHING, ITERATION_ENDED); (ITERATION_ENDED, FINISHED)]
  | None => False end.
Proof. vm_compute. reflexivity. Qed.
Print Assumptions C37_reported_history.

(** ------------------------------------------------------------------ C38 *)
(** At any point: effects carried out plus effects still queued = entries into
    the state that triggers them; a node of another type triggers none. *)
Theorem C38_effects_accounted {W} (P : plan W) env l w n :
  let st := run env P l (e0 w) in let tr := e_trace st in
  times (is_assign n) tr + occ n (e_asg st) = (if isTy (p_type P n) NAssignment then entries n EXECUTING tr else 0) /\
  times (is_retract n) tr + occ n (e_ret st) = (if isTy (p_type P n) NAssignment then entries n FAILING tr else 0) /\
  times (is_command n) tr + occ n (e_cmd st) = (if isTy (p_type P n) NCommand then entries n EXECUTING tr else 0) /\
  times (is_abort n) tr + occ n (e_abt st) = (if isTy (p_type P n) NCommand then entries n FAILING tr else 0) /\
  times (is_update n) tr + occ n (e_upd st) = (if isTy (p_type P n) NUpdate then entries n EXECUTING tr else 0).
Proof.
  cbn zeta. destruct (run_TInv P env l w). auto 10.
Qed.

Lemma notifyAll_asg {W} (st : est W) l : e_asg (notifyAll st l) = e_asg st /\ e_ret (notifyAll st l) = e_ret st.
Proof. destruct (quiet_notifyAll st l). auto. Qed.
Lemma assignPol_asg {W} (P : plan W) pol st : e_asg (assignPol P pol st) = tl (e_asg st) /\ e_ret (assignPol P pol st) = e_ret st.
Proof.
  unfold assignPol, assignOne. destruct (e_asg st) as [|n l] eqn:E; [now rewrite E|].
  match goal with |- context[notifyAll ?s ?k] => destruct (notifyAll_asg s k) as [-> ->] end.
  destruct (nstate_eqb _ _); auto.
Qed.
Lemma retractPol_ret {W} (P : plan W) pol st : e_ret (retractPol P pol st) = tl (e_ret st) /\ e_asg (retractPol P pol st) = e_asg st.
Proof.
  unfold retractPol, retractOne. destruct (e_ret st) as [|n l] eqn:E; [now rewrite E|].
  match goal with |- context[notifyAll ?s ?k] => destruct (notifyAll_asg s k) as [-> ->] end.
  destruct (nstate_eqb _ _); auto.
Qed.
Lemma performAssignments_empty {W} (P : plan W) pol st : e_asg (performAssignments P pol st) = [] /\ e_ret (performAssignments P pol st) = [].
Proof.
  assert (G1 : forall k st, length (e_asg st) <= k -> e_asg (Nat.iter k (assignPol P pol) st) = []).
  { induction k as [|k IH]; intros s H; [destruct (e_asg s) eqn:E; cbn in *; [exact E|lia]|]. rewrite iter_S. apply IH.
    destruct (assignPol_asg P pol s) as [-> _]. destruct (e_asg s); cbn in *; lia. }
  assert (G2 : forall k st, length (e_ret st) <= k -> e_ret (Nat.iter k (retractPol P pol) st) = []).
  { induction k as [|k IH]; intros s H; [destruct (e_ret s) eqn:E; cbn in *; [exact E|lia]|]. rewrite iter_S. apply IH.
    destruct (retractPol_ret P pol s) as [-> _]. destruct (e_ret s); cbn in *; lia. }
  assert (G3 : forall k st, e_asg (Nat.iter k (retractPol P pol) st) = e_asg st).
  { induction k as [|k IH]; intros s; [reflexivity|]. rewrite iter_S, IH. apply retractPol_ret. }
  unfold performAssignments. split; [rewrite G3; apply G1; lia|apply G2; lia].
Qed.
(** When step() returns nothing is left queued, so every entry of a Command node
    into EXECUTING has sent exactly one command, and so on. *)
Theorem C38_exactly_once {W} (P : plan W) env pol fuel st st' n :
  reachable P env st -> macroStep P pol fuel st = Some st' ->
  let tr := e_trace st' in
  times (is_assign n) tr = (if isTy (p_type P n) NAssignment then entries n EXECUTING tr else 0) /\
  times (is_retract n) tr = (if isTy (p_type P n) NAssignment then entries n FAILING tr else 0) /\
  times (is_command n) tr = (if isTy (p_type P n) NCommand then entries n EXECUTING tr else 0) /\
  times (is_abort n) tr = (if isTy (p_type P n) NCommand then entries n FAILING tr else 0) /\
  times (is_update n) tr = (if isTy (p_type P n) NUpdate then entries n EXECUTING tr else 0).
Proof.
  intros R E. cbn zeta. destruct (reachable_run P env st' (re_step P env st st' pol fuel R E)) as (w & l & E').
  pose proof (C38_effects_accounted P env l w n) as H. cbn zeta in H. rewrite <- E' in H.
  unfold macroStep in E. destruct (quiesce P pol fuel st) as [s1|]; [|discriminate].
  assert (E1 : outbound (performAssignments P pol s1) = st') by congruence.
  destruct (performAssignments_empty P pol s1) as [A B].
  assert (Z : e_asg st' = [] /\ e_ret st' = [] /\ e_cmd st' = [] /\ e_abt st' = [] /\ e_upd st' = []).
  { rewrite <- E1. unfold outbound. cbn.
    assert (F : forall (g : nat -> event) l (s : est W), e_asg (fold_left (fun st n => log st (g n)) l s) = e_asg s /\ e_ret (fold_left (fun st n => log st (g n)) l s) = e_ret s).
    { intros g. induction l0 as [|y k IH]; cbn; intro s; [auto|]. destruct (IH (log s (g y))) as [-> ->]. auto. }
    split; [rewrite !(fun g l s => proj1 (F g l s)); exact A|]. split; [rewrite !(fun g l s => proj2 (F g l s)); exact B|]. auto. }
  destruct Z as (Z1 & Z2 & Z3 & Z4 & Z5). rewrite Z1, Z2, Z3, Z4, Z5 in H. unfold occ in H. cbn in H. rewrite !Nat.add_0_r in H. exact H.
Qed.
Example C38_example : match demo3 with
  | Some st => times (is_command 2) (e_trace st) = 1 /\ times (is_assign 1) (e_trace st) = 1 /\ times (is_update 3) (e_trace st) = 1 | None => False end.
Proof. vm_compute. auto. Qed.
Print Assumptions C38_effects_accounted.
Print Assumptions C38_exactly_once.

(** ------------------------------------------------------------------ C39 *)
(** Synchronous semantics.  One pass of the loop: every state change is the
    decision the node takes in the common snapshot [st] taken before any node
    moves (or the start, granted now, of a node that was waiting for a
    resource), and every notified node that needs no resource and decides to
    move does move, whatever the others do. *)
Theorem C39_synchronous_turn {W} (P : plan W) env pol st :
  wf_plan P -> at_rest P env st ->
  let st' := turn P pol st in
  (forall n, state st' n <> state st n ->
     (exists o f, decision P st n = DGo (state st' n) o f) \/
     (state st n = WAITING /\ state st' n = EXECUTING /\ acquiresResources P n = true)) /\
  (forall n s o f, In n (e_cand st) -> acquiresResources P n = false -> decision P st n = DGo s o f -> state st' n = s).
Proof.
  intros HW Hr. destruct (turn_spec P (wf_cond P HW) pol st (at_rest_Inv _ _ _ Hr) (at_rest_chg _ _ _ Hr)) as (_ & _ & A & B).
  cbn zeta. split; [intros n Hn; apply A, Hn|exact B].
Qed.
(** Nothing but passes of the loop happens until quiescence. *)
Theorem C39_quiescence_is_turns {W} (P : plan W) env pol fuel st st' :
  at_rest P env st -> quiesce P pol fuel st = Some st' -> exists k, k <= fuel /\ st' = turns P pol k st.
Proof.
  revert st. induction fuel as [|f IH]; intros st Hr; cbn; [discriminate|].
  fold (decideAll P st). destruct (isNil (e_chg (decideAll P st))) eqn:En.
  - intro E; inversion E; subst. exists 1. split; [lia|]. cbn. unfold turn. symmetry. apply transAll_nil. now destruct (e_chg (decideAll P st)).
  - fold (turn P pol st). destruct (_ && _).
    + intro E. destruct (IH (turn P pol st) (ar_turn P env pol st Hr) E) as (k & Hk & ->). exists (S k). split; [lia|reflexivity].
    + intro E; inversion E; subst. exists 1. split; [lia|reflexivity].
Qed.
Example C39_example : match demoT 4 with
  | Some st => decision demo st 0 = DGo FINISHING None None /\ state (turn demo (everyone demoN) st) 0 = FINISHING | None => False end.
Proof. vm_compute. auto. Qed.
Print Assumptions C39_synchronous_turn.
Print Assumptions C39_quiescence_is_turns.
