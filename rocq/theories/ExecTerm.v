(** Termination of the quiescence loop, and invariants at turn boundaries. *)
From Verif Require Export ExecBatch.

Section Rest.
Context {W : Type} (P : plan W) (env : nat -> W -> W).
Implicit Types (st : est W).

(** States in which the exec is between turns of the quiescence loop, or
    outside step(): reached by external events, performed assignments, outbound
    calls, deletions and turns. *)
Inductive at_rest : est W -> Prop :=
| ar_init w : at_rest (e0 w)
| ar_ext st a : isLoop a = false -> at_rest st -> at_rest (act env P st a)
| ar_turn pol st : at_rest st -> at_rest (turn P pol st).

Lemma act_other_chg st a : isLoop a = false -> e_chg (act env P st a) = e_chg st.
Proof.
  intro Ha. apply (act_other_J P env (fun s : est W => e_chg s = e_chg st)); auto.
  - intros s n <-. apply notify_chg.
  - intros s s' Hi _ <-. apply (in_chg _ _ Hi).
Qed.
Lemma act_other_pend st a : isLoop a = false -> e_pend (act env P st a) = e_pend st.
Proof.
  intro Ha. apply (act_other_J P env (fun s : est W => e_pend s = e_pend st)); auto.
  - intros s n <-. apply notify_pend.
  - intros s s' Hi _ <-. apply (in_pend _ _ Hi).
Qed.
Lemma act_other_state st a : isLoop a = false -> forall n, state (act env P st a) n = state st n.
Proof.
  intro Ha. apply (act_other_J P env (fun s : est W => forall n, state s n = state st n)); auto.
  - intros s x H n. rewrite (qt_state _ _ (quiet_notify s x)). apply H.
  - intros s s' Hi _ H n. unfold state in *. rewrite (in_core _ _ Hi). apply H.
Qed.

Lemma steps_turn pol st : steps P env st (turn P pol st).
Proof.
  unfold turn, decideAll. eapply steps_trans; [|apply steps_transAll].
  destruct (isNil _); [apply steps_checkAll|]. eapply steps_trans; [apply steps_checkAll|apply (steps_act P env _ AResolve)].
Qed.

Lemma at_rest_run st : at_rest st -> exists w l, st = run env P l (e0 w).
Proof.
  induction 1 as [w|st a Ha _ (w & l & ->)|pol st _ (w & l & ->)].
  - exists w, []. reflexivity.
  - exists w, (l ++ [a]). now rewrite run_app.
  - destruct (steps_turn pol (run env P l (e0 w))) as [l' E]. exists w, (l ++ l'). now rewrite run_app.
Qed.
Lemma at_rest_Inv st : at_rest st -> Inv P st.
Proof. intro H. destruct (at_rest_run st H) as (w & l & ->). apply run_Inv. Qed.

Lemma turn_chg pol st : Inv P st -> e_chg (turn P pol st) = [].
Proof.
  intro HI. unfold turn. refine (proj1 (proj2 (transAll_spec P pol (decideAll P st) _))).
  unfold decideAll.
  assert (I1 : Inv P (checkAll P st)).
  { destruct (steps_checkAll P env st) as [l E]. rewrite E. now apply run_Inv_from. }
  destruct (isNil _); [exact I1|now apply resolve_Inv].
Qed.
Lemma at_rest_chg st : at_rest st -> e_chg st = [].
Proof.
  induction 1 as [w|st a Ha H IH|pol st H IH]; [reflexivity|now rewrite act_other_chg|].
  apply turn_chg, at_rest_Inv, H.
Qed.

Lemma transAll_nil pol st : e_chg st = [] -> transAll P pol st = st.
Proof. intro E. unfold transAll. now rewrite E. Qed.
Lemma at_rest_quiesce pol fuel : forall st st', at_rest st -> quiesce P pol fuel st = Some st' -> at_rest st'.
Proof.
  induction fuel as [|f IH]; intros st st' Hr; cbn; [discriminate|].
  fold (decideAll P st). destruct (isNil (e_chg (decideAll P st))) eqn:En.
  - intro E; inversion E; subst. replace (decideAll P st) with (turn P pol st); [now apply ar_turn|].
    unfold turn. apply transAll_nil. now destruct (e_chg (decideAll P st)).
  - fold (turn P pol st). destruct (_ && _).
    + intro E. eapply IH; [|exact E]. now apply ar_turn.
    + intro E; inversion E; subst. now apply ar_turn.
Qed.
Lemma at_rest_performAssignments pol st : at_rest st -> at_rest (performAssignments P pol st).
Proof.
  assert (I : forall (f : est W -> est W) n, (forall s, at_rest s -> at_rest (f s)) -> forall s, at_rest s -> at_rest (Nat.iter n f s)).
  { intros f n Hf s Hs. induction n as [|n IHn]; [exact Hs|]. cbn. apply Hf, IHn. }
  intro H. unfold performAssignments. apply I; [|apply I; [|exact H]].
  - intros s Hs. unfold retractPol. destruct (e_ret s); [exact Hs|]. now apply (ar_ext s (ARetract _)).
  - intros s Hs. unfold assignPol. destruct (e_asg s); [exact Hs|]. now apply (ar_ext s (AAssign _)).
Qed.
Lemma at_rest_macroStep pol fuel st st' : at_rest st -> macroStep P pol fuel st = Some st' -> at_rest st'.
Proof.
  intro Hr. unfold macroStep. destruct (quiesce P pol fuel st) as [st1|] eqn:E; [|discriminate].
  intro H; inversion H; subst. apply (ar_ext _ AOutbound eq_refl). apply at_rest_performAssignments. eapply at_rest_quiesce; eauto.
Qed.
End Rest.

(** ---------- work bound ---------- *)
Definition rank (s : nstate) : nat :=
  match s with
  | INACTIVE => 0 | WAITING => 1 | EXECUTING => 2 | FINISHING => 3 | FAILING => 4 | ITERATION_ENDED => 5 | FINISHED => 6
  end.
(** A node starts over: repeats, or is reset because its parent repeats. *)
Definition startsOver (e : event) : bool :=
  match e with EvTrans _ ITERATION_ENDED WAITING | EvTrans _ FINISHED INACTIVE => true | _ => false end.
Definition isTrans (e : event) : bool := match e with EvTrans _ _ _ => true | _ => false end.

Lemma rank_succ t s s' n : In s' (successors t s) -> startsOver (EvTrans n s s') = false -> rank s < rank s'.
Proof. destruct s, s'; cbn; intros H E; try discriminate; try lia; destruct t; cbn in H; intuition congruence. Qed.
Lemma rank_max s : rank s <= 6.
Proof. destruct s; cbn; lia. Qed.

Section Work.
Context {W : Type} (P : plan W).
Implicit Types (st : est W).
Variable N : list nat.
Hypothesis N_nodup : NoDup N.
Hypothesis N_kids : forall n c, In n N -> In c (p_kids P n) -> In c N.

Definition ranksum st : nat := fold_right plus 0 (map (fun n => rank (state st n)) N).

Lemma ranksum_max st : ranksum st <= 6 * length N.
Proof.
  unfold ranksum. clear. induction N as [|n l IH]; [cbn; lia|]. cbn [map fold_right length]; pose proof (rank_max (state st n)). lia.
Qed.
Lemma ranksum_upd st st' x s s' : In x N -> state st x = s -> (forall n, state st' n = if Nat.eqb n x then s' else state st n) ->
  ranksum st' + rank s = ranksum st + rank s'.
Proof.
  intros Hx Hs H. unfold ranksum. revert Hx N_nodup. clear - Hs H. induction N as [|n l IH]; [intros []|].
  intros Hx Hnd. inversion Hnd as [|? ? Hn Hl]; subst. cbn. rewrite H.
  assert (Hout : forall l, ~ In x l -> map (fun n => rank (state st' n)) l = map (fun n => rank (state st n)) l).
  { clear - H. intros l Hl. apply map_ext_in. intros a Ha. rewrite H. destruct (Nat.eqb_spec a x); [subst; tauto|reflexivity]. }
  destruct (Nat.eqb_spec n x) as [->|Hne].
  - rewrite Hout by exact Hn. lia.
  - destruct Hx as [Hx|Hx]; [congruence|]. specialize (IH Hx Hl). lia.
Qed.

(** Only nodes of [N] are queued. *)
Definition within st : Prop := incl (e_cand st) N /\ incl (e_pend st) N /\ incl (e_chg st) N.

Section JN.
Variables (J : est W -> Prop) (x : nat).
Hypothesis x_in : In x N.
Hypothesis J_notify : forall st n, In n N -> J st -> J (notify st n).
Hypothesis J_release : forall st r, J st -> J (release st r x).
Hypothesis J_inert : forall st st', inert st st' -> J st -> J st'.
Hypothesis J_core : forall st k, J st -> J (setCore st x k).
Hypothesis J_fin : forall st, J st -> J (addFinished st x).
Hypothesis J_err : forall st e, J st -> J (fail st e).

Lemma notifyAll_JN l : forall st, incl l N -> J st -> J (notifyAll st l).
Proof.
  induction l as [|y l IH]; cbn; intros st Hl H; [exact H|]. apply IH; [intros z Hz; apply Hl; now right|].
  apply J_notify; [apply Hl; now left|exact H].
Qed.
Lemma releaseAll_JN l : forall st, J st -> J (releaseAll st x l).
Proof. induction l as [|y l IH]; cbn; intros st H; [exact H|]. apply IH, J_release, H. Qed.
Lemma notifyKids_JN st nxt : J st -> J (notifyKids P st x nxt).
Proof.
  intro H. unfold notifyKids. destruct (p_type P x); try exact H.
  assert (G : forall (f : est W -> nat -> bool) l st, incl l N -> J st -> J (fold_left (fun st c => if f st c then notify st c else st) l st)).
  { intros f. induction l as [|y l IH]; cbn; intros s Hl Hs; [exact Hs|]. apply IH; [intros z Hz; apply Hl; now right|].
    destruct (f s y); [apply J_notify; [apply Hl; now left|exact Hs]|exact Hs]. }
  destruct nxt; try exact H; apply (G (fun st c => nstate_eqb (state st c) _)); auto; intros c Hc; eapply N_kids; eauto.
Qed.
Lemma transition_JN st pre post : incl pre N -> incl post N -> J st -> J (transition P st x pre post).
Proof.
  intros Hpre Hpost H. unfold transition. destruct (next st x) as [nxt|]; [|now apply J_err].
  destruct (nstate_eqb nxt (state st x)); [exact H|].
  apply notifyAll_JN; [exact Hpost|]. eapply J_inert; [apply log_inert|].
  eapply J_inert; [apply set_world_inert|].
  eapply J_inert; [apply execEnqueue_inert|].
  eapply J_inert; [apply resetAcks_inert|].
  apply notifyKids_JN. unfold afterSetState.
  match goal with |- context[setCore ?a ?b ?c] => assert (H4 : J (setCore a b c)) end.
  { apply J_core. eapply J_inert; [apply failEnqueue_inert|].
    assert (H1 : forall s0, J s0 -> J (leaveResources P (notifyAll s0 pre) x (state st x) nxt)).
    { intros s0 Hs0. assert (Hn : J (notifyAll s0 pre)) by now apply notifyAll_JN.
      unfold leaveResources. destruct nxt; try exact Hn.
      - destruct (isWaiting _); [exact Hn|]. apply releaseAll_JN. destruct (isAssignment P x); auto.
      - match goal with |- context[if ?c then release ?a ?b ?d else ?e] => assert (H5 : J (if c then release a b d else e)) end.
        { destruct (_ && _); auto. }
        destruct (isWaiting _); auto. apply releaseAll_JN; auto. }
    apply H1. destruct (inb nxt _); auto. }
  match goal with |- context[setCore ?a ?b ?c] => set (st4 := setCore a b c) in * end. clearbody st4.
  destruct (parent P x); [now apply J_notify|]. destruct nxt; auto.
Qed.
End JN.

Lemma notify_within st n : In n N -> within st -> within (notify st n).
Proof.
  intros Hn (A & B & C). unfold within. rewrite notify_pend, notify_chg. split; [|auto].
  unfold notify. destruct (qs st n); try exact A. cbn. intros z Hz. apply in_snoc in Hz as [Hz| ->]; auto.
Qed.
Lemma notifyRes_queues st n : e_cand (notifyRes st n) = e_cand st /\ e_pend (notifyRes st n) = e_pend st /\ e_chg (notifyRes st n) = e_chg st.
Proof. unfold notifyRes. destruct (qs st n); auto. Qed.
Lemma release_queues st r x : e_cand (release st r x) = e_cand st /\ e_pend (release st r x) = e_pend st /\ e_chg (release st r x) = e_chg st.
Proof.
  unfold release. destruct (r_holder _); [|auto]. destruct (Nat.eqb _ _); [|auto].
  assert (G : forall l (s : est W), e_cand (fold_left notifyRes l s) = e_cand s /\ e_pend (fold_left notifyRes l s) = e_pend s /\ e_chg (fold_left notifyRes l s) = e_chg s).
  { induction l as [|y l IH]; cbn; intro s; [auto|]. destruct (IH (notifyRes s y)) as (-> & -> & ->). apply notifyRes_queues. }
  destruct (G (r_waiters (e_res st r)) (set_res st (updr (e_res st) r (mkRes None (r_waiters (e_res st r)))))) as (-> & -> & ->). auto.
Qed.
Lemma transitionOne_within st pre post : incl pre N -> incl post N -> within st -> within (transitionOne P st pre post).
Proof.
  intros H1 H2 Hw. unfold transitionOne. destruct (e_chg st) as [|x cs] eqn:Ec; [exact Hw|].
  assert (Hx : In x N) by (apply Hw; rewrite Ec; now left).
  apply (transition_JN within x); auto.
  - intros s n. apply notify_within.
  - intros s r. unfold within. destruct (release_queues s r x) as (-> & -> & ->). auto.
  - intros s s' Hi. unfold within. now rewrite (in_cand _ _ Hi), (in_pend _ _ Hi), (in_chg _ _ Hi).
  - intros s (A & B & C). unfold within, addFinished. destruct (qs s x); cbn; auto.
    split; [|auto]. intros z Hz. apply rem1_In in Hz; auto.
  - assert (W0 : within (setQs (set_queues st (e_cand st) (e_pend st) cs (e_fin st)) x QNone)).
    { destruct Hw as (A & B & C). split; [exact A|]. split; [exact B|]. cbn. intros z Hz. apply C. rewrite Ec; now right. }
    destruct (qs st x); try exact W0. now apply notify_within.
Qed.
Lemma checkOne_within st : Inv P st -> within st -> within (checkOne P st).
Proof.
  intros HI (A & B & C). unfold within, checkOne. destruct (e_cand st) as [|x cs] eqn:Ec; [rewrite Ec; auto|].
  set (st0 := setQs _ _ _).
  assert (E0 : e_cand (fst (getDestNode P st0 x)) = cs /\ e_pend (fst (getDestNode P st0 x)) = e_pend st /\ e_chg (fst (getDestNode P st0 x)) = e_chg st).
  { unfold getDestNode. destruct (coreGetDest _ _ _ _). auto. }
  destruct (getDestNode P st0 x) as [st1 go]; cbn [fst] in E0. destruct E0 as (E1 & E2 & E3).
  assert (Hcs : incl cs N) by (intros z Hz; apply A; now right).
  assert (Hx : In x N) by (apply A; now left).
  destruct go; [|rewrite E1, E2, E3; auto].
  destruct (_ && _).
  - cbn. rewrite E1, E2, E3. split; [exact Hcs|]. split; [|exact C]. intros z Hz. apply insertPrio_In in Hz as [-> | Hz]; auto.
  - unfold addStateChange. destruct (qs st1 x); cbn; rewrite E1, E2, E3; auto.
    split; [exact Hcs|]. split; [exact B|]. intros z Hz. apply in_snoc in Hz as [Hz | ->]; auto.
Qed.
Lemma resolve_cand st : Inv P st -> e_cand (resolve P st) = e_cand st.
Proof.
  assert (RW : forall (s : est W) r x, e_cand (removeWaiting s r x) = e_cand s) by reflexivity.
  assert (RP : forall s x, e_cand (removePending P s x) = e_cand s).
  { intros s x. unfold removePending, releaseReservations.
    assert (F : forall l s, e_cand (fold_left (fun st r => removeWaiting st r x) l s) = e_cand s).
    { induction l as [|y l IH]; cbn; intro s0; [reflexivity|]. now rewrite IH. }
    rewrite F. destruct (isAssignment P x); reflexivity. }
  assert (AC : forall (s : est W) x, e_cand (addStateChange s x) = e_cand s) by (intros; unfold addStateChange; destruct (qs s x); reflexivity).
  assert (AW : forall (s : est W) r x, e_cand (addWaiting s r x) = e_cand s) by (intros; unfold addWaiting; destruct (memb _ _); reflexivity).
  assert (GD : forall s x, e_cand (fst (getDestNode P s x)) = e_cand s) by (intros; unfold getDestNode; destruct (coreGetDest _ _ _ _); reflexivity).
  assert (AQ : forall (s : est W) r x, e_cand (fst (acquire s r x)) = e_cand s).
  { intros; unfold acquire. destruct (r_holder _); cbn; [apply AW|reflexivity]. }
  intro HI. apply (resolve_J P (fun s => e_cand s = e_cand st)); auto.
  - intros s x _ <- _. unfold checkEligible. pose proof (GD s x) as E. destruct (getDestNode P s x) as [s1 go]; cbn [fst] in E.
    destruct (qs s x); auto; destruct go; cbn [negb]; try destruct (isExecuting (next s1 x)); cbn [negb fst]; rewrite <- ?E; auto;
      try (change (e_cand (setQs ?a ?b ?c)) with (e_cand a)); rewrite ?AC, ?RP; auto.
  - intros s x _ <- _. unfold tryOne.
    assert (AA : forall rs s, e_cand (fst (acquireAll P s x rs)) = e_cand s).
    { induction rs as [|r rs IH]; cbn; intro s0; [reflexivity|]. pose proof (AQ s0 r x) as E. destruct (acquire s0 r x) as [s1 ok]; cbn [fst] in E.
      destruct ok; [now rewrite IH|]. cbn. destruct (r_holder _); [destruct (memb _ _)|]; cbn; exact E. }
    assert (BO : forall rs (s : est W), e_cand (backOff s x rs) = e_cand s).
    { induction rs as [|r rs IH]; cbn; intro s0; [reflexivity|]. unfold backOff in IH. rewrite IH, AW.
      destruct (r_holder _); [|reflexivity]. destruct (Nat.eqb _ _); [|reflexivity]. apply release_queues. }
    assert (TA : e_cand (fst (tryAcquire P s x)) = e_cand s).
    { unfold tryAcquire. pose proof (AA (mutexes P x) s) as E. destruct (acquireAll P s x (mutexes P x)) as [s1 ok]; cbn [fst] in E.
      destruct (isAssignment P x); [destruct ok|].
      - pose proof (AQ s1 (RVar (p_var P x)) x) as E2. destruct (acquire s1 _ x) as [s2 ok2]; cbn [fst] in *.
        destruct ok2; rewrite ?BO; congruence.
      - cbn. rewrite BO, AW. exact E.
      - destruct ok; cbn; rewrite ?BO; exact E. }
    destruct (tryAcquire P s x) as [s1 ok]; cbn [fst] in TA. destruct ok; [now rewrite AC, RP|exact TA].
Qed.
Lemma resolve_within st : Inv P st -> within st -> within (resolve P st).
Proof.
  intros HI (A & B & C). destruct (resolve_chg P st HI) as [R1 R2].
  split; [now rewrite resolve_cand|]. split; [intros z Hz; apply B, R2, Hz|].
  intros z Hz. destruct (in_dec Nat.eq_dec z (e_pend st)) as [Hp|Hp]; [auto|]. apply C, R1; auto.
Qed.

(** Transitions so far, and how many of them were restarts. *)
Definition ntrans st := times isTrans (e_trace st).
Definition nover st := times startsOver (e_trace st).

Lemma transitionOne_work st pre post x cs : Inv P st -> e_chg st = x :: cs -> In x N ->
  let st' := transitionOne P st pre post in
  ntrans st' = S (ntrans st) /\ S (ranksum st + 7 * nover st) <= ranksum st' + 7 * nover st'.
Proof.
  intros HI Ec Hx. cbn zeta.
  destruct (transitionOne_moved P st pre post x cs HI Ec) as (nxt & N1 & N2 & N3 & M).
  set (st' := transitionOne P st pre post) in *. clearbody st'.
  pose proof (ranksum_upd st st' x (state st x) nxt Hx eq_refl (mv_state _ _ _ _ _ _ M)) as R.
  unfold ntrans, nover. rewrite (mv_trace _ _ _ _ _ _ M). unfold times. cbn [filter isTrans]. cbn [length].
  split; [reflexivity|].
  destruct (startsOver (EvTrans x (state st x) nxt)) eqn:Eo; cbn [length].
  - pose proof (rank_max (state st x)). lia.
  - pose proof (rank_succ _ _ _ x N2 Eo). lia.
Qed.

Definition polN (pol : policy) : Prop := forall (st : est W) n, In n N -> incl (fst (pol st n)) N /\ incl (snd (pol st n)) N.

Lemma transAll_work pol : polN pol -> forall st, Inv P st -> within st ->
  let st' := transAll P pol st in
  within st' /\ ntrans st' = ntrans st + length (e_chg st) /\
  ranksum st + 7 * nover st + length (e_chg st) <= ranksum st' + 7 * nover st'.
Proof.
  intros Hp st. unfold transAll. remember (e_chg st) as c eqn:Hc. revert st Hc.
  induction c as [|x c IH]; intros st Hc HI Hw; cbn zeta.
  - cbn. split; [exact Hw|]. lia.
  - cbn [length]. rewrite iter_S.
    assert (Hx : In x N) by (apply Hw; rewrite <- Hc; now left).
    assert (E1 : exists pre post, transPol P pol st = transitionOne P st pre post /\ incl pre N /\ incl post N).
    { unfold transPol. rewrite <- Hc. destruct (Hp st x Hx) as [A B]. destruct (pol st x) as [pre post]. cbn in A, B. eauto. }
    destruct E1 as (pre & post & -> & Hpre & Hpost). symmetry in Hc.
    destruct (transitionOne_work st pre post x c HI Hc Hx) as [A B]. cbn zeta in *.
    pose proof (transitionOne_within st pre post Hpre Hpost Hw) as W1.
    pose proof (transitionOne_Inv P st pre post HI) as I1.
    pose proof (transitionOne_chg P st pre post x c Hc) as C1.
    set (s1 := transitionOne P st pre post) in *. clearbody s1.
    destruct (IH s1 (eq_sym C1) I1 W1) as (D1 & D2 & D3). cbn zeta in *. split; [exact D1|]. lia.
Qed.

Lemma checkAll_within st : Inv P st -> within st -> Inv P (checkAll P st) /\ within (checkAll P st).
Proof.
  unfold checkAll. generalize (length (e_cand st)) as k. intros k HI HW.
  induction k as [|k IHk]; cbn; [auto|]. destruct IHk. split; [now apply checkOne_Inv|now apply checkOne_within].
Qed.
Lemma decideAll_within st : Inv P st -> within st -> Inv P (decideAll P st) /\ within (decideAll P st).
Proof.
  intros HI HW. destruct (checkAll_within st HI HW) as [A B]. unfold decideAll.
  destruct (isNil _); [auto|]. split; [now apply resolve_Inv|now apply resolve_within].
Qed.
Lemma quiet_checkAll st : quiet st (checkAll P st).
Proof.
  unfold checkAll. generalize (length (e_cand st)) as k. induction k as [|k IH]; cbn; [apply quiet_refl|].
  eapply quiet_trans; [exact IH|apply quiet_checkOne].
Qed.
Lemma quiet_decideAll st : quiet st (decideAll P st).
Proof.
  unfold decideAll. destruct (isNil _); [apply quiet_checkAll|]. eapply quiet_trans; [apply quiet_checkAll|apply quiet_resolve].
Qed.
Lemma ranksum_quiet st st' : quiet st st' -> ranksum st' = ranksum st.
Proof. intro Q. unfold ranksum. f_equal. apply map_ext. intro n. now rewrite (qt_state _ _ Q). Qed.

Lemma turn_work pol st : polN pol -> Inv P st -> within st ->
  let st' := turn P pol st in
  Inv P st' /\ within st' /\ ntrans st' = ntrans st + length (e_chg (decideAll P st)) /\
  ranksum st + 7 * nover st + length (e_chg (decideAll P st)) <= ranksum st' + 7 * nover st'.
Proof.
  intros Hp HI HW. cbn zeta. destruct (decideAll_within st HI HW) as [A B]. pose proof (quiet_decideAll st) as Q.
  unfold turn. destruct (transAll_work pol Hp _ A B) as (C & D & E). cbn zeta in *.
  rewrite (ranksum_quiet _ _ Q) in E. unfold ntrans, nover in *. rewrite (qt_trace _ _ Q) in *.
  split; [apply (transAll_spec P pol _ A)|]. auto.
Qed.

(** Every turn but the last makes progress; so if the loop has not stopped
    after [fuel] turns, then [fuel] - 6|N| is at most 7 times the number of
    restarts that occurred. *)
Fixpoint turns (pol : policy) (k : nat) st : est W :=
  match k with O => st | S k' => turns pol k' (turn P pol st) end.

Lemma quiesce_none pol fuel : polN pol -> forall st, Inv P st -> within st -> quiesce P pol fuel st = None ->
  let st' := turns pol fuel st in
  fuel + ranksum st + 7 * nover st <= ranksum st' + 7 * nover st'.
Proof.
  intro Hp. induction fuel as [|f IH]; intros st HI HW H; cbn zeta; cbn [turns]; [lia|].
  cbn [quiesce] in H. fold (decideAll P st) in H.
  destruct (isNil (e_chg (decideAll P st))) eqn:En; [discriminate|].
  fold (turn P pol st) in H.
  destruct (_ && _) in H; [|discriminate].
  destruct (turn_work pol st Hp HI HW) as (A & B & C & D). cbn zeta in *.
  specialize (IH (turn P pol st) A B H). cbn zeta in IH.
  assert (1 <= length (e_chg (decideAll P st))) by (destruct (e_chg (decideAll P st)); [discriminate|cbn; lia]). lia.
Qed.
Lemma quiesce_bound pol fuel st : polN pol -> Inv P st -> within st -> quiesce P pol fuel st = None ->
  fuel + 7 * nover st <= 6 * length N + 7 * nover (turns pol fuel st).
Proof.
  intros Hp HI HW H. pose proof (quiesce_none pol fuel Hp st HI HW H). cbn zeta in *.
  pose proof (ranksum_max (turns pol fuel st)). lia.
Qed.
End Work.

(** ---------- plans in which nothing repeats ---------- *)
Section NoRepeat.
Context {W : Type} (P : plan W) (env : nat -> W -> W).
Hypothesis wfc : forall w v v' n u, (forall m, v m = v' m) -> p_cond P w v n u = p_cond P w v' n u.
Hypothesis no_repeat : forall n, p_has P n URepeat = false.
Implicit Types (st : est W).

(** A node that has left INACTIVE has a parent that has started executing. *)
Definition RInv st : Prop := forall n p, parent P n = Some p -> state st n <> INACTIVE -> 2 <= rank (state st p).

Lemma decision_up st n s o f : RInv st -> decision P st n = DGo s o f -> startsOver (EvTrans n (state st n) s) = false.
Proof.
  intros HR E. unfold decision in E. destruct (state st n) eqn:Es; try (destruct s; reflexivity).
  - cbn in E. unfold destFromIterationEnded in E. cbn in E. unfold ucondv in E. rewrite no_repeat in E.
    destruct s; try reflexivity. repeat match type of E with context[if ?b then _ else _] => destruct b end; discriminate.
  - cbn in E. destruct s; try reflexivity. destruct (parent P n) as [p|] eqn:Ep; cbn in E; [|discriminate].
    specialize (HR n p Ep ltac:(congruence)). destruct (state st p); cbn in *; try discriminate; lia.
Qed.

Lemma turn_up pol st : Inv P st -> e_chg st = [] -> RInv st ->
  RInv (turn P pol st) /\ forall n, rank (state st n) <= rank (state (turn P pol st) n).
Proof.
  intros HI Hc HR. destruct (turn_spec P wfc pol st HI Hc) as (A & B & C & _). cbn zeta in *.
  set (st' := turn P pol st) in *. clearbody st'.
  assert (U : forall n, rank (state st n) <= rank (state st' n)).
  { intro n. assert (D : state st' n = state st n \/ state st' n <> state st n) by (destruct (state st' n), (state st n); auto; right; discriminate).
    destruct D as [-> |D]; [lia|]. destruct (C n D) as (S1 & [(o & f & E)|(E1 & E2 & _)]).
    - pose proof (rank_succ _ _ _ n S1 (decision_up st n _ o f HR E)). lia.
    - rewrite E1, E2. cbn; lia. }
  split; [|exact U]. intros n p Ep Hn. specialize (U p).
  assert (D : state st n = INACTIVE \/ state st n <> INACTIVE) by (destruct (state st n); auto; right; discriminate).
  destruct D as [D|D]; [|specialize (HR n p Ep D); lia].
  destruct (C n) as (_ & [(o & f & E)|(E1 & _)]); [congruence| |congruence].
  unfold decision in E. rewrite D, Ep in E. cbn in E. destruct (state st p); try discriminate; cbn in *; lia.
Qed.

Lemma nover_turn pol st : Inv P st -> e_chg st = [] -> RInv st -> nover (turn P pol st) = nover st.
Proof.
  intros HI Hc HR. destruct (decideAll_spec P wfc st HI Hc) as (A1 & A2 & A3 & _). cbn zeta in *.
  unfold turn. assert (E0 : nover (decideAll P st) = nover st) by (unfold nover; now rewrite (qt_trace _ _ A2)).
  rewrite <- E0. clear E0.
  assert (D : forall n s, In n (e_chg (decideAll P st)) -> next (decideAll P st) n = Some s -> startsOver (EvTrans n (state (decideAll P st) n) s) = false).
  { intros n s Hn Hs. destruct (A3 n Hn) as (nxt & N1 & N2). rewrite Hs in N1. inversion N1; subst nxt.
    destruct N2 as [(o & f & E)|(E1 & E2 & _)].
    - rewrite (decision_quiet P wfc st _ n A2) in E. rewrite (qt_state _ _ A2). eapply decision_up; eauto.
    - rewrite E1, E2. reflexivity. }
  set (st2 := decideAll P st) in *. clearbody st2. clear A2 A3.
  unfold transAll. remember (e_chg st2) as c eqn:Ec. revert st2 A1 Ec D. clear. induction c as [|x c IH]; intros st2 A1 Ec D; [reflexivity|].
  cbn [length]. rewrite iter_S. symmetry in Ec.
  assert (E1 : exists pre post, transPol P pol st2 = transitionOne P st2 pre post).
  { unfold transPol. rewrite Ec. destruct (pol st2 x). eauto. }
  destruct E1 as (pre & post & ->).
  destruct (transitionOne_moved P st2 pre post x c A1 Ec) as (nxt & N1 & N2 & N3 & M).
  pose proof (transitionOne_Inv P st2 pre post A1) as I1.
  pose proof (transitionOne_chg P st2 pre post x c Ec) as C1.
  pose proof (transitionOne_sameexc P st2 pre post x c Ec) as S1.
  pose proof (q_ndg _ _ (proj1 A1)) as Hnd. rewrite Ec in Hnd. inversion Hnd as [|? ? Hx Hnd']; subst.
  set (s1 := transitionOne P st2 pre post) in *. clearbody s1.
  rewrite IH; auto.
  - unfold nover. rewrite (mv_trace _ _ _ _ _ _ M). unfold times. cbn [filter].
    rewrite (D x nxt); auto. now left.
  - intros n s Hn Hs. assert (Hne : n <> x) by congruence.
    assert (Es : core s1 n = core st2 n) by apply (s_core _ _ _ (S1 n Hne)).
    unfold state. rewrite Es. apply D; [now right|]. unfold next in *. now rewrite <- Es.
Qed.

Lemma turns_nover pol k : forall st, Inv P st -> e_chg st = [] -> RInv st -> nover (turns P pol k st) = nover st.
Proof.
  induction k as [|k IH]; intros st HI Hc HR; [reflexivity|]. cbn [turns].
  destruct (turn_up pol st HI Hc HR) as [A _]. destruct (turn_spec P wfc pol st HI Hc) as (B & C & _). cbn zeta in *.
  rewrite IH; auto. now apply nover_turn.
Qed.

Lemma at_rest_RInv st : at_rest P env st -> RInv st.
Proof.
  induction 1 as [w|st a Ha H IH|pol st H IH].
  - intros n p _ Hn. cbn in Hn. congruence.
  - intros n p Hp. rewrite !act_other_state by exact Ha. now apply IH.
  - apply turn_up; auto; [eapply at_rest_Inv; eauto|eapply at_rest_chg; eauto].
Qed.

Theorem quiesce_terminates (N : list nat) pol st :
  NoDup N -> (forall n c, In n N -> In c (p_kids P n) -> In c N) -> polN N pol -> within N st -> at_rest P env st ->
  exists st', quiesce P pol (S (6 * length N)) st = Some st'.
Proof.
  intros Hnd Hk Hp Hw Hr. destruct (quiesce P pol (S (6 * length N)) st) as [st'|] eqn:E; [eauto|].
  pose proof (at_rest_Inv P env st Hr) as HI.
  pose proof (quiesce_bound P N Hnd Hk pol _ st Hp HI Hw E) as B.
  rewrite (turns_nover pol _ st HI (at_rest_chg P env st Hr) (at_rest_RInv st Hr)) in B. lia.
Qed.
End NoRepeat.
