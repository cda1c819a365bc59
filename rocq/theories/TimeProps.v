(** C33: node timepoints. *)
From Verif Require Import TimeSpec ExecProps2.
From Coq Require Import Lia.

Lemma nse_refl s : nstate_eqb s s = true. Proof. destruct s; reflexivity. Qed.
Lemma nse_iff a b : nstate_eqb a b = true <-> a = b.
Proof. split; [destruct a, b; cbn; congruence|intros ->; apply nse_refl]. Qed.

Section P.
Context {T : Type} (t0 tmin c : T).
Notation hrun := (hrun t0 c).

Lemma cur_state h : n_state (hrun h) = cur h.
Proof.
  induction h as [|[s e|b t] h IH]; [reflexivity| |]; cbn [TimeModel.hrun tstep cur].
  - unfold ensureTimepoint. destruct (findTp s e (n_tps (hrun h))); exact IH.
  - unfold setState. destruct (nstate_eqb b (n_state (hrun h))) eqn:E; cbn; [|reflexivity].
    apply nse_iff in E. congruence.
Qed.

Lemma find_map (f : tp T -> tp T) s e ps :
  (forall p, t_state (f p) = t_state p /\ t_end (f p) = t_end p) ->
  findTp s e (map f ps) = option_map f (findTp s e ps).
Proof.
  intros F. induction ps as [|p r IH]; [reflexivity|]. cbn. destruct (F p) as [-> ->].
  destruct (nstate_eqb s (t_state p) && eqb e (t_end p)); [reflexivity|exact IH].
Qed.
Lemma find_some s e (ps : list (tp T)) p : findTp s e ps = Some p -> t_state p = s /\ t_end p = e.
Proof.
  induction ps as [|q r IH]; cbn; [discriminate|].
  destruct (nstate_eqb s (t_state q) && eqb e (t_end q)) eqn:E; [|auto].
  intros X; inversion X; subst q. apply andb_prop in E as [A B]. apply nse_iff in A. apply eqb_prop in B. auto.
Qed.
Lemma find_ensure s e s' e' (n : tnode T) :
  findTp s e (n_tps (ensureTimepoint t0 s' e' n)) =
  match findTp s e (n_tps n) with
  | Some p => Some p
  | None => if nstate_eqb s s' && eqb e e' then Some (mkTp s' e' false t0) else None
  end.
Proof.
  unfold ensureTimepoint. destruct (findTp s' e' (n_tps n)) eqn:F.
  - destruct (findTp s e (n_tps n)) eqn:G; [reflexivity|].
    destruct (nstate_eqb s s' && eqb e e') eqn:E; [|reflexivity].
    apply andb_prop in E as [A B]. apply nse_iff in A. apply eqb_prop in B. congruence.
  - cbn. destruct (nstate_eqb s s' && eqb e e') eqn:E; [|destruct (findTp s e (n_tps n)); reflexivity].
    apply andb_prop in E as [A B]. apply nse_iff in A. apply eqb_prop in B. subst. rewrite F. reflexivity.
Qed.
Lemma find_trans s e t b (n : tnode T) :
  nstate_eqb b (n_state n) = false ->
  findTp s e (n_tps (fst (setState t b n))) =
  option_map (fun p => if relevant (n_state n) b p then tpSet t p
                       else if nstate_eqb b INACTIVE then tpReset p else p) (findTp s e (n_tps n)).
Proof.
  intros E. unfold setState. rewrite E. cbn. destruct (nstate_eqb b INACTIVE).
  - rewrite map_map, find_map.
    + destruct (findTp s e (n_tps n)) as [p|]; [|reflexivity]. cbn. f_equal.
    + intros p. unfold relevant. cbn. destruct (_ || _); cbn; auto.
  - rewrite find_map; [reflexivity|]. intros p. destruct (relevant _ _ p); cbn; auto.
Qed.
Lemma ensured h s e : findTp s e (n_tps (hrun h)) <> None <-> In (TEnsure s e) h.
Proof.
  induction h as [|[s' e'|b t] h IH]; cbn [TimeModel.hrun tstep In].
  - cbn. intuition.
  - rewrite find_ensure. destruct (findTp s e (n_tps (hrun h))).
    + split; intros _; [|congruence]. right. apply IH. congruence.
    + destruct (nstate_eqb s s' && eqb e e') eqn:E.
      * apply andb_prop in E as [A B]. apply nse_iff in A. apply eqb_prop in B. subst. split; [auto|congruence].
      * split; [congruence|]. intros [X|X]; [|apply IH in X; congruence].
        inversion X; subst. rewrite nse_refl, eqb_reflx in E. discriminate.
  - destruct (nstate_eqb b (n_state (hrun h))) eqn:E.
    + unfold setState. rewrite E. cbn. rewrite IH. split; [auto|]. intros [X|X]; [discriminate|exact X].
    + rewrite find_trans by exact E. split.
      * intros X. right. apply IH. destruct (findTp s e (n_tps (hrun h))); [congruence|exact X].
      * intros [X|X]; [discriminate|]. apply IH in X. destruct (findTp s e (n_tps (hrun h))); [cbn; congruence|exact X].
Qed.
Lemma records_asked s e h t : @records T s e h t -> In (TEnsure s e) h.
Proof. induction 1; cbn; auto. Qed.
Lemma relevant_about s e a b (p : tp T) : t_state p = s -> t_end p = e -> (relevant a b p = true <-> about s e a b).
Proof.
  intros A B. unfold relevant, about. rewrite A, B. destruct e; cbn.
  - rewrite andb_true_r, andb_false_r, orb_false_r, nse_iff. split; congruence.
  - rewrite andb_false_r, andb_true_r. cbn. rewrite nse_iff. split; congruence.
Qed.

(** What a timepoint expression reads is the time of the most recent exit from (entry into) its
    state since the node's last reset, and unknown if there was none. *)
Theorem C33_timepoint s e h t :
  readTimepoint s e (hrun h) = Some t <-> records s e h t.
Proof.
  induction h as [|[s' e'|b u] h IH]; cbn [TimeModel.hrun tstep].
  - cbn. split; [discriminate|inversion 1].
  - unfold readTimepoint in *. rewrite find_ensure. split.
    + intros X. apply rec_ask. apply IH.
      destruct (findTp s e (n_tps (hrun h))); [exact X|].
      destruct (nstate_eqb s s' && eqb e e'); discriminate.
    + intros X. inversion X as [| | |? ? ? ? R]; subst. apply IH in R. destruct (findTp s e (n_tps (hrun h))); [exact R|discriminate].
  - destruct (nstate_eqb b (n_state (hrun h))) eqn:E.
    + unfold setState. rewrite E. cbn [fst]. apply nse_iff in E. rewrite cur_state in E. subst b. rewrite IH. split.
      * apply rec_stay.
      * intros X; inversion X; subst; try congruence.
    + assert (D : cur h <> b).
      { intros X. rewrite cur_state, X, nse_refl in E. discriminate. }
      unfold readTimepoint in *. rewrite find_trans by exact E. rewrite cur_state.
      destruct (findTp s e (n_tps (hrun h))) as [p|] eqn:F.
      * destruct (find_some _ _ _ _ F) as [A B]. pose proof (relevant_about s e (cur h) b p A B) as R.
        assert (I : In (TEnsure s e) h) by (apply ensured; congruence).
        cbn. destruct (relevant (cur h) b p) eqn:V.
        -- cbn. split; [intros X; inversion X; subst; apply rec_now; [exact D|apply R; reflexivity|exact I]|].
           intros X; inversion X; subst; [reflexivity| |congruence]. exfalso. match goal with N : ~ about _ _ _ _ |- _ => apply N end. apply R. reflexivity.
        -- assert (NA : ~ about s e (cur h) b) by (intros X; apply R in X; discriminate).
           destruct (nstate_eqb b INACTIVE) eqn:W; cbn.
           ++ apply nse_iff in W. split; [discriminate|]. intros X; inversion X; subst; try congruence; contradiction.
           ++ rewrite IH. split.
              ** apply rec_later; auto. intros X; subst. discriminate.
              ** intros X; inversion X; subst; try congruence; contradiction.
      * cbn. split; [discriminate|]. intros X. apply records_asked in X. destruct X as [X|X]; [discriminate|].
        apply ensured in X. congruence.
Qed.
(** A timepoint nobody recorded is unknown. *)
Theorem C33_unknown_otherwise s e h :
  (forall t, ~ records s e h t) -> readTimepoint s e (hrun h) = None.
Proof.
  intros N. destruct (readTimepoint s e (hrun h)) eqn:E; [|reflexivity]. apply C33_timepoint in E. destruct (N _ E).
Qed.

(** The start time of the current state: the most recent change of state, or the creation. *)
Theorem C33_current_state_start h o :
  lastMove h o -> getCurrentStateStartTime (hrun h) = match o with Some t => t | None => c end.
Proof.
  unfold getCurrentStateStartTime. induction 1; cbn [TimeModel.hrun tstep].
  - reflexivity.
  - unfold setState. destruct (nstate_eqb b (n_state (hrun h))) eqn:E; [|reflexivity].
    apply nse_iff in E. rewrite cur_state in E. congruence.
  - unfold setState. rewrite cur_state, nse_refl. exact IHlastMove.
  - unfold ensureTimepoint. destruct (findTp s e (n_tps (hrun h))); exact IHlastMove.
Qed.
Theorem lastMove_total h : exists o, @lastMove T h o.
Proof.
  induction h as [|[s e|b t] h [o IH]]; eauto using lm_none, lm_now, lm_stay, lm_ask.
  destruct (nstate_eqb b (cur h)) eqn:E.
  - apply nse_iff in E. subst b. eauto using lm_none, lm_now, lm_stay, lm_ask.
  - exists (Some t). constructor. intros X. rewrite X, nse_refl in E. discriminate.
Qed.
(** getStateStartTime of another state: the recorded time, else the "not found" constant. *)
Theorem C33_state_start_time s h :
  (s = cur h -> getStateStartTime tmin s (hrun h) = getCurrentStateStartTime (hrun h)) /\
  (s <> cur h -> (forall t, records s false h t -> getStateStartTime tmin s (hrun h) = t) /\
                 ((forall t, ~ records s false h t) -> getStateStartTime tmin s (hrun h) = tmin)).
Proof.
  unfold getStateStartTime. rewrite cur_state. split.
  - intros ->. rewrite nse_refl. reflexivity.
  - intros D. destruct (nstate_eqb s (cur h)) eqn:E; [apply nse_iff in E; congruence|].
    pose proof (fun t => C33_timepoint s false h t) as R. unfold readTimepoint in R.
    destruct (findTp s false (n_tps (hrun h))) as [p|].
    + split.
      * intros t X. apply R in X. rewrite X. reflexivity.
      * intros N. destruct (tpRead p) eqn:F; [|reflexivity]. destruct (N t). apply R. reflexivity.
    + split; [intros t X; apply R in X; discriminate|reflexivity].
Qed.

Lemma uniq_names h : NoDup (map name (n_tps (hrun h))).
Proof.
  assert (F : forall s e (ps : list (tp T)), findTp s e ps = None -> ~ In (s, e) (map name ps)).
  { intros s e ps. induction ps as [|p r IH]; cbn; [auto|].
    destruct (nstate_eqb s (t_state p) && eqb e (t_end p)) eqn:E; [discriminate|].
    intros X [Y|Y]; [|exact (IH X Y)]. unfold name in Y. inversion Y; subst. rewrite nse_refl, eqb_reflx in E. discriminate. }
  induction h as [|[s e|b t] h IH]; cbn [TimeModel.hrun tstep]; [constructor| |].
  - unfold ensureTimepoint. destruct (findTp s e (n_tps (hrun h))) eqn:G; [exact IH|].
    cbn. constructor; [|exact IH]. apply F. exact G.
  - unfold setState. destruct (nstate_eqb b (n_state (hrun h))); [exact IH|]. cbn.
    match goal with |- NoDup (map name ?l) => replace (map name l) with (map name (n_tps (hrun h))) end; [exact IH|].
    destruct (nstate_eqb b INACTIVE).
    + rewrite !map_map. apply map_ext. intros p. cbn. destruct (relevant _ _ _); reflexivity.
    + rewrite map_map. apply map_ext. intros p. destruct (relevant _ _ _); reflexivity.
Qed.
(** Listeners: a timepoint whose value changed has published a change. *)
Theorem C33_changes_published s e b t h :
  readTimepoint s e (fst (setState t b (hrun h))) <> readTimepoint s e (hrun h) ->
  In (s, e) (snd (setState t b (hrun h))).
Proof.
  intros D. destruct (nstate_eqb b (n_state (hrun h))) eqn:E.
  - unfold setState in D. rewrite E in D. cbn in D. congruence.
  - unfold readTimepoint in D. rewrite find_trans in D by exact E. unfold setState. rewrite E. cbn.
    destruct (findTp s e (n_tps (hrun h))) as [p|] eqn:F; [|cbn in D; congruence].
    assert (I : In p (n_tps (hrun h)) /\ name p = (s, e)).
    { destruct (find_some _ _ _ _ F) as [A B]. split; [|unfold name; congruence].
      clear -F. revert F. induction (n_tps (hrun h)) as [|q r IH]; cbn; [discriminate|].
      destruct (nstate_eqb s (t_state q) && eqb e (t_end q)); [|auto]. intros X; inversion X; auto. }
    destruct I as [I J]. apply in_or_app. destruct (nstate_eqb b INACTIVE) eqn:W.
    + left. rewrite <- J. apply in_map. exact I.
    + right. cbn in D. destruct (relevant (n_state (hrun h)) b p) eqn:V; [|congruence].
      rewrite <- J. apply in_map. apply filter_In. auto.
Qed.
End P.

(** ** In every execution.  The node's timepoints are requested while the plan is read (es);
    then the node makes the moves the exec reports, at the times ts. *)
Section X.
Context {T : Type} (t0 c : T).
Definition history (es : list (nstate * bool)) (ms : list (nstate * nstate)) (ts : list T) : list (top T) :=
  rev (map (fun p => TTrans (snd (fst p)) (snd p)) (List.combine ms ts)) ++ map (fun p => TEnsure (fst p) (snd p)) es.

Lemma history_snoc es ms ts m t : length ts = length ms ->
  history es (ms ++ [m]) (ts ++ [t]) = TTrans (snd m) t :: history es ms ts.
Proof.
  intros L. unfold history.
  assert (C : List.combine (ms ++ [m]) (ts ++ [t]) = List.combine ms ts ++ [(m, t)]).
  { revert ts L. induction ms as [|x ms IH]; intros [|y ts] L; cbn in *; try discriminate; [reflexivity|].
    rewrite IH by lia. reflexivity. }
  rewrite C, map_app, rev_app_distr. reflexivity.
Qed.
Lemma cur_asks es : cur (map (fun p => TEnsure (fst p) (snd p)) es : list (top T)) = INACTIVE.
Proof. induction es; auto. Qed.
Lemma leads_snoc s ms a b s' : leads s (ms ++ [(a, b)]) s' -> leads s ms a /\ s' = b.
Proof. revert s. induction ms as [|[x y] ms IH]; cbn; intros s; [intuition|]. intros [-> H]. apply IH in H. intuition. Qed.
Lemma cur_history es ms : forall ts s', length ts = length ms -> leads INACTIVE ms s' -> cur (history es ms ts) = s'.
Proof.
  induction ms as [|[a b] ms IH] using rev_ind; intros ts s' L H.
  - destruct ts; [|discriminate]. cbn in H. subst. apply cur_asks.
  - rewrite app_length in L. cbn in L. destruct (exists_last (l := ts)) as [ts' [t ->]]; [destruct ts; cbn in *; [lia|congruence]|].
    rewrite app_length in L. cbn in L. rewrite history_snoc by lia. apply leads_snoc in H as [_ ->]. reflexivity.
Qed.
Lemma no_asks_records s e es t : ~ records (T := T) s e (map (fun p => TEnsure (fst p) (snd p)) es) t.
Proof. induction es; intros X; inversion X; subst. auto. Qed.

Lemma records_history s e es ms : forall ts s' t, length ts = length ms -> leads INACTIVE ms s' ->
  Forall (fun m => fst m <> snd m) ms -> In (s, e) es ->
  (records s e (history es ms ts) t <->
   exists i a b, nth_error ms i = Some (a, b) /\ nth_error ts i = Some t /\ about s e a b /\
     forall j a' b', i < j -> nth_error ms j = Some (a', b') -> ~ about s e a' b' /\ b' <> INACTIVE).
Proof.
  induction ms as [|[a b] ms IH] using rev_ind; intros ts s' t L H N I.
  - destruct ts; [|discriminate]. split; [intros X; apply no_asks_records in X; destruct X|].
    intros [i [x [y [X _]]]]. destruct i; discriminate.
  - rewrite app_length in L. cbn in L. destruct (exists_last (l := ts)) as [ts' [u ->]]; [destruct ts; cbn in *; [lia|congruence]|].
    rewrite app_length in L. cbn in L. assert (L' : length ts' = length ms) by lia.
    rewrite history_snoc by lia. apply leads_snoc in H as [H ->].
    apply Forall_app in N as [N N1]. inversion N1; subst. cbn in H2.
    assert (C : cur (history es ms ts') = a) by (apply (cur_history es ms ts' a L' H)).
    specialize (IH ts' a t L' H N I). cbn [snd].
    assert (EQ : forall i x, nth_error (ms ++ [(a, b)]) i = Some x ->
             (i < length ms /\ nth_error ms i = Some x) \/ (i = length ms /\ x = (a, b))).
    { intros i x X. destruct (Nat.lt_ge_cases i (length ms)) as [Y|Y].
      - rewrite nth_error_app1 in X by exact Y. auto.
      - rewrite nth_error_app2 in X by exact Y. destruct (i - length ms) as [|k] eqn:Z.
        + right. cbn in X. split; [lia|congruence].
        + destruct k; discriminate. }
    split.
    + intros X. inversion X; subst.
      * exists (length ms), (cur (history es ms ts')), b. rewrite nth_error_app2, Nat.sub_diag by lia.
        rewrite <- L'. rewrite nth_error_app2, Nat.sub_diag by lia. repeat (split; [reflexivity || assumption|]).
        intros j a' b' J K. apply EQ in K as [[K _]|[K _]]; lia.
      * match goal with R : records _ _ (history _ _ _) _ |- _ => apply IH in R; destruct R as [i [x [y [A [B [D E]]]]]] end. exists i, x, y.
        assert (i < length ms) by (apply nth_error_Some; congruence).
        rewrite nth_error_app1 by lia. rewrite nth_error_app1 by lia. repeat (split; [assumption|]).
        intros j a' b' J K. apply EQ in K as [[K1 K2]|[K1 K2]]; [exact (E j a' b' J K2)|].
        inversion K2; subst. auto.
      * congruence.
    + intros [i [x [y [A [B [D E]]]]]]. apply EQ in A as [[A1 A2]|[A1 A2]].
      * rewrite nth_error_app1 in B by lia.
        assert (K : nth_error (ms ++ [(a, b)]) (length ms) = Some (a, b)) by (rewrite nth_error_app2, Nat.sub_diag by lia; reflexivity).
        destruct (E (length ms) a b A1 K) as [E1 E2].
        apply rec_later; [congruence|rewrite C; exact E1|exact E2|].
        apply IH. exists i, x, y. repeat (split; [assumption|]).
        intros j a' b' J M. apply (E j a' b' J). rewrite nth_error_app1; [exact M|]. apply nth_error_Some. congruence.
      * inversion A2; subst x y. rewrite A1, <- L', nth_error_app2, Nat.sub_diag in B by lia. cbn in B. inversion B; subst u.
        apply rec_now; [congruence|rewrite C; exact D|]. unfold history. apply in_or_app. right.
        apply in_map_iff. exists (s, e). auto.
Qed.

Lemma successors_move ty a b : In b (successors ty a) -> a <> b.
Proof. intros H E. subst b. destruct ty, a; cbn in H; intuition discriminate. Qed.

(** For every plan, environment and execution, every node and every timepoint the plan mentions:
    the timepoint reads t exactly when some move of the node left (entered) its state at time t
    and no later move did so or reset the node. *)
Theorem C33_in_executions {W} (P : plan W) env l w n es ts s e t :
  let ms := moves n (e_trace (run env P l (e0 w))) in
  length ts = length ms -> In (s, e) es ->
  (readTimepoint s e (hrun t0 c (history es ms ts)) = Some t <->
   exists i a b, nth_error ms i = Some (a, b) /\ nth_error ts i = Some t /\ (if e then a = s else b = s) /\
     forall j a' b', i < j -> nth_error ms j = Some (a', b') -> ~ (if e then a' = s else b' = s) /\ b' <> INACTIVE).
Proof.
  intros ms L I. rewrite C33_timepoint. destruct (C37_reported_history P env l w n) as [A B].
  apply (records_history s e es ms ts _ t L A); [|exact I].
  eapply Forall_impl; [|exact B]. intros [a b] X. apply successors_move in X. exact X.
Qed.
End X.

(** A loop: EXECUTING.START is the second entry, EXECUTING.END still the first exit. *)
Definition loop1 : list (top nat) :=
  rev [TEnsure EXECUTING false; TEnsure EXECUTING true; TEnsure FINISHED true; TTrans WAITING 1; TTrans EXECUTING 2; TTrans ITERATION_ENDED 3;
       TTrans WAITING 4; TTrans EXECUTING 5].
Example C33_loop : readTimepoint EXECUTING false (hrun 0 0 loop1) = Some 5 /\ readTimepoint EXECUTING true (hrun 0 0 loop1) = Some 3.
Proof. vm_compute. auto. Qed.
(** So an end time can precede the start time of the same state. *)
Theorem C33_end_after_start_refuted : exists (h : list (top nat)) s a b,
  readTimepoint s false (hrun 0 0 h) = Some a /\ readTimepoint s true (hrun 0 0 h) = Some b /\ b < a.
Proof. exists loop1, EXECUTING, 5, 3. vm_compute. repeat split; lia. Qed.
(** After a reset every timepoint is unknown except the end of the state the node was reset from
    and the start of INACTIVE. *)
Theorem C33_reset {T} (t0 c : T) s e t h :
  cur h <> INACTIVE ->
  readTimepoint s e (hrun t0 c (TTrans INACTIVE t :: h)) =
  (if nstate_eqb s (if e then cur h else INACTIVE) then
     match findTp s e (n_tps (hrun t0 c h)) with Some _ => Some t | None => None end else None).
Proof.
  intros D.
  assert (E : nstate_eqb INACTIVE (n_state (hrun t0 c h)) = false).
  { rewrite cur_state. destruct (nstate_eqb INACTIVE (cur h)) eqn:X; [apply nse_iff in X; congruence|reflexivity]. }
  cbn [hrun tstep]. unfold readTimepoint. rewrite find_trans by exact E. rewrite cur_state.
  destruct (findTp s e (n_tps (hrun t0 c h))) as [p|] eqn:F; cbn.
  - destruct (find_some _ _ _ _ F) as [A B]. unfold relevant. rewrite A, B. destruct e; cbn.
    + rewrite andb_true_r, andb_false_r, orb_false_r. destruct (nstate_eqb s (cur h)); reflexivity.
    + rewrite andb_false_r, andb_true_r. cbn. destruct (nstate_eqb s INACTIVE); reflexivity.
  - destruct (nstate_eqb s _); reflexivity.
Qed.
(** A node which has been INACTIVE since it was created has no INACTIVE.START. *)
Theorem C33_initial_inactive_refuted : exists (h : list (top nat)),
  In (TEnsure INACTIVE false) h /\ cur h = INACTIVE /\ readTimepoint INACTIVE false (hrun 0 7 h) = None.
Proof. exists [TEnsure INACTIVE false]. vm_compute. auto. Qed.
(** Nor does getStateStartTime know the start of a state the node visited, unless some expression
    mentions that timepoint. *)
Theorem C33_unmentioned_start_refuted : exists (h : list (top nat)),
  cur h = EXECUTING /\ In (TTrans WAITING 1) h /\ getStateStartTime 99 WAITING (hrun 0 0 h) = 99.
Proof. exists [TTrans EXECUTING 2; TTrans WAITING 1]. vm_compute. auto. Qed.
Example C33_execution_example : match demo3 with
  | Some st => let ms := moves 2 (e_trace st) in
               readTimepoint EXECUTING true (hrun 0 0 (history [(EXECUTING, false); (EXECUTING, true)] ms [10; 20; 30; 40; 50])) = Some 30
  | None => False end.
Proof. vm_compute. reflexivity. Qed.

(** Assumptions *)
Print Assumptions C33_timepoint.
Print Assumptions C33_unknown_otherwise.
Print Assumptions C33_current_state_start.
Print Assumptions C33_state_start_time.
Print Assumptions C33_changes_published.
Print Assumptions C33_in_executions.
Print Assumptions C33_end_after_start_refuted.
Print Assumptions C33_reset.
Print Assumptions C33_initial_inactive_refuted.
Print Assumptions C33_unmentioned_start_refuted.
