(** Trace invariants of the executive. *)
From Verif Require Export ExecProofs3 ExecSpec.

Lemma leads_snoc l : forall s s' a b, leads s l s' -> a = s' -> leads s (l ++ [(a, b)]) b.
Proof.
  induction l as [|[x y] l IH]; cbn; intros s s' a b H ->.
  - subst; auto.
  - destruct H as [-> H]. split; [reflexivity|]. eapply IH; eauto.
Qed.

Lemma occ_app n l l' : occ n (l ++ l') = occ n l + occ n l'.
Proof. unfold occ. now rewrite filter_app, app_length. Qed.
Lemma occ_cons n x l : occ n (x :: l) = (if Nat.eqb n x then 1 else 0) + occ n l.
Proof. unfold occ; cbn. destruct (Nat.eqb n x); reflexivity. Qed.
Lemma occ_enq n c l x : occ n (enq c l x) = occ n l + (if c && Nat.eqb n x then 1 else 0).
Proof.
  unfold enq. destruct c; cbn; [|lia]. rewrite occ_app. unfold occ at 2; cbn.
  destruct (Nat.eqb n x); reflexivity.
Qed.
Lemma entries_trans n s m a b tr :
  entries n s (EvTrans m a b :: tr) = entries n s tr + (if Nat.eqb m n && nstate_eqb b s then 1 else 0).
Proof.
  unfold entries; cbn. rewrite filter_app, app_length.
  destruct (Nat.eqb m n); cbn; [|lia]. destruct (nstate_eqb b s); cbn; lia.
Qed.

Section Trace.
Context {W : Type} (P : plan W) (env : nat -> W -> W).
Implicit Types (st : est W).

(** Any action is one of these, as seen from outside. *)
Inductive obs st : est W -> Prop :=
| o_quiet st' : quiet st st' -> obs st st'
| o_move st' x nxt : next st x = Some nxt -> In nxt (successors (p_type P x) (state st x)) ->
    In x (e_chg st) -> nxt <> state st x -> moved P st st' x (state st x) nxt -> obs st st'
| o_log st' : (* assignments, outbound calls, acknowledgements, plan addition, world changes *)
    (forall n, core st' n = core st n) -> e_fin st' = e_fin st ->
    (exists evs, e_trace st' = evs ++ e_trace st /\
       (forall e, In e evs -> match e with EvTrans _ _ _ | EvDelete _ => False | _ => True end) /\
       (forall n, times (is_assign n) evs + occ n (e_asg st') = occ n (e_asg st)) /\
       (forall n, times (is_retract n) evs + occ n (e_ret st') = occ n (e_ret st)) /\
       (forall n, times (is_command n) evs + occ n (e_cmd st') = occ n (e_cmd st)) /\
       (forall n, times (is_abort n) evs + occ n (e_abt st') = occ n (e_abt st)) /\
       (forall n, times (is_update n) evs + occ n (e_upd st') = occ n (e_upd st))) ->
    obs st st'
| o_delete : obs st (deleteFinished st).

Lemma times_app f l l' : times f (l ++ l') = times f l + times f l'.
Proof. unfold times. now rewrite filter_app, app_length. Qed.
Lemma times_rev f l : times f (rev l) = times f l.
Proof. induction l as [|a l IH]; [reflexivity|]. cbn [rev]. rewrite times_app, IH. unfold times; cbn. destruct (f a); cbn; lia. Qed.
Lemma times_none f l : (forall e, In e l -> f e = false) -> times f l = 0.
Proof.
  induction l as [|a l IH]; intro H; [reflexivity|]. unfold times; cbn. rewrite (H a (or_introl eq_refl)).
  apply IH. intros; apply H; now right.
Qed.
Lemma times_map f (g : nat -> event) n l : (forall m, f (g m) = Nat.eqb m n) -> times f (map g l) = occ n l.
Proof.
  intro H. induction l as [|a l IH]; [reflexivity|]. unfold times, occ in *; cbn. rewrite H, Nat.eqb_sym.
  destruct (Nat.eqb n a); cbn; lia.
Qed.
Lemma times_map0 f (g : nat -> event) l : (forall m, f (g m) = false) -> times f (map g l) = 0.
Proof.
  intro H. apply times_none. intros e He. apply in_map_iff in He as (m & <- & _). apply H.
Qed.

Lemma fold_log (g : nat -> event) l : forall st,
  let st' := fold_left (fun st n => log st (g n)) l st in
  e_trace st' = rev (map g l) ++ e_trace st /\ e_nodes st' = e_nodes st /\ e_fin st' = e_fin st /\
  e_asg st' = e_asg st /\ e_ret st' = e_ret st /\ e_cmd st' = e_cmd st /\ e_abt st' = e_abt st /\ e_upd st' = e_upd st.
Proof.
  induction l as [|a l IH]; cbn; intro st; [auto 10|].
  destruct (IH (log st (g a))) as (A & B & C & D & E & F & G & H). cbn zeta in *.
  rewrite A, B, C, D, E, F, G, H. cbn. rewrite <- app_assoc. auto 10.
Qed.

Lemma obs_outbound st : obs st (outbound st).
Proof.
  apply o_log; unfold outbound.
  - intro n. unfold core; cbn.
    destruct (fold_log EvCommand (e_cmd st) st) as (_ & A & _).
    set (s1 := fold_left _ (e_cmd st) st) in *.
    destruct (fold_log EvAbort (e_abt st) s1) as (_ & B & _).
    set (s2 := fold_left _ (e_abt st) s1) in *.
    destruct (fold_log EvUpdate (e_upd st) s2) as (_ & C & _). cbn zeta in *. now rewrite C, B, A.
  - cbn.
    destruct (fold_log EvCommand (e_cmd st) st) as (_ & _ & A & _).
    set (s1 := fold_left _ (e_cmd st) st) in *.
    destruct (fold_log EvAbort (e_abt st) s1) as (_ & _ & B & _).
    set (s2 := fold_left _ (e_abt st) s1) in *.
    destruct (fold_log EvUpdate (e_upd st) s2) as (_ & _ & C & _). cbn zeta in *. now rewrite C, B, A.
  - cbn.
    destruct (fold_log EvCommand (e_cmd st) st) as (A1 & _ & _ & A2 & A3 & A4 & A5 & A6).
    set (s1 := fold_left _ (e_cmd st) st) in *.
    destruct (fold_log EvAbort (e_abt st) s1) as (B1 & _ & _ & B2 & B3 & B4 & B5 & B6).
    set (s2 := fold_left _ (e_abt st) s1) in *.
    destruct (fold_log EvUpdate (e_upd st) s2) as (C1 & _ & _ & C2 & C3 & C4 & C5 & C6). cbn zeta in *.
    set (s3 := fold_left _ (e_upd st) s2) in *.
    exists (rev (map EvUpdate (e_upd st)) ++ rev (map EvAbort (e_abt st)) ++ rev (map EvCommand (e_cmd st))).
    split; [rewrite C1, B1, A1, <- !app_assoc; reflexivity|].
    split.
    { intros e He. rewrite !in_app_iff, <- !in_rev, !in_map_iff in He.
      destruct He as [(m & <- & _)|[(m & <- & _)|(m & <- & _)]]; exact I. }
    rewrite C2, C3, B2, B3, A2, A3.
    repeat split; intro n; rewrite !times_app, !times_rev;
    repeat first [ rewrite (times_map0 _ EvUpdate) by reflexivity
                 | rewrite (times_map0 _ EvAbort) by reflexivity
                 | rewrite (times_map0 _ EvCommand) by reflexivity
                 | rewrite (times_map (is_update n) EvUpdate n) by reflexivity
                 | rewrite (times_map (is_abort n) EvAbort n) by reflexivity
                 | rewrite (times_map (is_command n) EvCommand n) by reflexivity ]; unfold occ; cbn; lia.
Qed.

Lemma obs_nothing st st' :
  (forall n, core st' n = core st n) -> e_fin st' = e_fin st -> e_trace st' = e_trace st ->
  e_asg st' = e_asg st -> e_ret st' = e_ret st -> e_cmd st' = e_cmd st -> e_abt st' = e_abt st -> e_upd st' = e_upd st ->
  obs st st'.
Proof.
  intros A B C D E F G H. apply o_log; auto. exists []. rewrite D, E, F, G, H. split; [exact C|]. split; [intros e []|]. cbn. auto 10.
Qed.

Lemma obs_notifyAll st st1 notes : 
  (forall n, core st1 n = core st n) -> e_fin st1 = e_fin st -> e_trace st1 = e_trace st ->
  e_asg st1 = e_asg st -> e_ret st1 = e_ret st -> e_cmd st1 = e_cmd st -> e_abt st1 = e_abt st -> e_upd st1 = e_upd st ->
  obs st (notifyAll st1 notes).
Proof.
  intros A B C D E F G H. destruct (quiet_notifyAll st1 notes). apply obs_nothing; try congruence.
  intro n. rewrite (s_core _ _ _ (notifyAll_same notes st1 n)). apply A.
Qed.

Lemma act_obs st a : Inv P st -> obs st (act env P st a).
Proof.
  intros HI. destruct a; cbn [act].
  - apply o_quiet, quiet_checkOne.
  - apply o_quiet, quiet_resolve.
  - destruct (e_chg st) as [|x cs] eqn:Ec.
    + unfold transitionOne. rewrite Ec. apply o_quiet, quiet_refl.
    + destruct (transitionOne_moved P st pre post x cs HI Ec) as (nxt & A & B & C & D).
      eapply o_move; eauto. rewrite Ec; now left.
  - unfold assignOne. destruct (e_asg st) as [|x l] eqn:Ea; [apply o_quiet, quiet_refl|].
    set (st3 := if nstate_eqb _ _ then _ else _).
    assert (C3 : forall n, core st3 n = core st n) by (intro n; unfold st3; destruct (nstate_eqb _ _); [rewrite core_setAcks; reflexivity|reflexivity]).
    assert (R : e_trace st3 = e_trace st /\ e_asg st3 = l /\ e_ret st3 = e_ret st /\ e_cmd st3 = e_cmd st /\ e_abt st3 = e_abt st /\ e_upd st3 = e_upd st /\ e_fin st3 = e_fin st)
      by (unfold st3; destruct (nstate_eqb _ _); cbn; auto 10).
    clearbody st3. destruct R as (R1 & R2 & R3 & R4 & R5 & R6 & R7).
    pose proof (quiet_notifyAll (log st3 (EvAssign x)) notes) as [].
    apply o_log.
    + intro n. rewrite (s_core _ _ _ (notifyAll_same notes (log st3 (EvAssign x)) n)). apply C3.
    + rewrite qt_fin. exact R7.
    + exists [EvAssign x]. rewrite qt_trace, qt_asg, qt_ret, qt_cmd, qt_abt, qt_upd. cbn. rewrite R1, R2, R3, R4, R5, R6, Ea.
      split; [reflexivity|]. split; [intros e [<-|[]]; exact I|].
      repeat split; try (intro n; unfold times; cbn; lia).
      intro n. unfold times, occ; cbn. rewrite (Nat.eqb_sym n x). destruct (Nat.eqb x n); cbn; lia.
  - unfold retractOne. destruct (e_ret st) as [|x l] eqn:Ea; [apply o_quiet, quiet_refl|].
    set (st3 := if nstate_eqb _ _ then _ else _).
    assert (C3 : forall n, core st3 n = core st n) by (intro n; unfold st3; destruct (nstate_eqb _ _); [rewrite core_setAcks; reflexivity|reflexivity]).
    assert (R : e_trace st3 = e_trace st /\ e_asg st3 = e_asg st /\ e_ret st3 = l /\ e_cmd st3 = e_cmd st /\ e_abt st3 = e_abt st /\ e_upd st3 = e_upd st /\ e_fin st3 = e_fin st)
      by (unfold st3; destruct (nstate_eqb _ _); cbn; auto 10).
    clearbody st3. destruct R as (R1 & R2 & R3 & R4 & R5 & R6 & R7).
    pose proof (quiet_notifyAll (log st3 (EvRetract x)) notes) as [].
    apply o_log.
    + intro n. rewrite (s_core _ _ _ (notifyAll_same notes (log st3 (EvRetract x)) n)). apply C3.
    + rewrite qt_fin. exact R7.
    + exists [EvRetract x]. rewrite qt_trace, qt_asg, qt_ret, qt_cmd, qt_abt, qt_upd. cbn. rewrite R1, R2, R3, R4, R5, R6, Ea.
      split; [reflexivity|]. split; [intros e [<-|[]]; exact I|].
      repeat split; try (intro n; unfold times; cbn; lia).
      intro n. unfold times, occ; cbn. rewrite (Nat.eqb_sym n x). destruct (Nat.eqb x n); cbn; lia.
  - apply obs_outbound.
  - destruct (parent P root); [apply o_quiet, quiet_refl|]. destruct (_ && _); [|apply o_quiet, quiet_refl].
    apply (obs_notifyAll st (notify (set_plans st (e_plans st ++ [root]) (e_deleted st)) root));
      try (rewrite ?(qt_trace _ _ (quiet_notify _ _)), ?(qt_fin _ _ (quiet_notify _ _)), ?(qt_asg _ _ (quiet_notify _ _)),
           ?(qt_ret _ _ (quiet_notify _ _)), ?(qt_cmd _ _ (quiet_notify _ _)), ?(qt_abt _ _ (quiet_notify _ _)),
           ?(qt_upd _ _ (quiet_notify _ _)); reflexivity).
    intro n. rewrite (s_core _ _ _ (notify_same _ root n)). reflexivity.
  - apply obs_notifyAll; reflexivity.
  - destruct (p_type P n); try (apply o_quiet, quiet_refl). destruct (running _); [|apply o_quiet, quiet_refl].
    apply obs_notifyAll; try reflexivity. intro m; apply core_setAcks.
  - destruct (p_type P n); try (apply o_quiet, quiet_refl). destruct (running _); [|apply o_quiet, quiet_refl].
    apply obs_notifyAll; try reflexivity. intro m; apply core_setAcks.
  - destruct (p_type P n); try (apply o_quiet, quiet_refl). destruct (nstate_eqb _ _); [|apply o_quiet, quiet_refl].
    apply obs_notifyAll; try reflexivity. intro m; apply core_setAcks.
  - apply o_delete.
Qed.

Lemma filter_two a l pl :
  filter (fun m => negb (memb m l)) (filter (fun m => negb (Nat.eqb m a)) pl) = filter (fun m => negb (memb m (a :: l))) pl.
Proof.
  induction pl as [|m pl IH]; [reflexivity|]. cbn [filter].
  assert (H : memb m (a :: l) = Nat.eqb m a || memb m l) by reflexivity. rewrite H.
  destruct (Nat.eqb m a) eqn:E1; cbn [negb orb filter]; [exact IH|].
  destruct (memb m l) eqn:E2; cbn [negb]; rewrite IH; reflexivity.
Qed.
Lemma fold_delete l : forall st,
  let st' := fold_left (fun st n => log (set_plans st (filter (fun m => negb (Nat.eqb m n)) (e_plans st))
                                              (e_deleted st)) (EvDelete n)) l st in
  e_trace st' = rev (map EvDelete l) ++ e_trace st /\ e_nodes st' = e_nodes st /\ e_fin st' = e_fin st /\
  e_asg st' = e_asg st /\ e_ret st' = e_ret st /\ e_cmd st' = e_cmd st /\ e_abt st' = e_abt st /\ e_upd st' = e_upd st /\
  e_plans st' = filter (fun m => negb (memb m l)) (e_plans st).
Proof.
  induction l as [|a l IH]; cbn; intro st.
  - repeat split; auto. induction (e_plans st) as [|b l' IH]; cbn; [reflexivity|now rewrite <- IH].
  - match goal with |- context[fold_left ?f l ?s] => destruct (IH s) as (A & B & C & D & E & F & G & H & K); set (s1 := fold_left f l s) in * end.
    cbn zeta in *. clearbody s1. rewrite A, B, C, D, E, F, G, H, K. cbn. rewrite <- app_assoc. repeat split; auto.
    apply filter_two.
Qed.

Lemma deleteFinished_obs st :
  let st' := deleteFinished st in
  e_trace st' = rev (map EvDelete (e_fin st)) ++ e_trace st /\ (forall n, core st' n = core st n) /\ e_fin st' = [] /\
  e_asg st' = e_asg st /\ e_ret st' = e_ret st /\ e_cmd st' = e_cmd st /\ e_abt st' = e_abt st /\ e_upd st' = e_upd st /\
  e_plans st' = filter (fun m => negb (memb m (e_fin st))) (e_plans st).
Proof.
  unfold deleteFinished. destruct (fold_delete (e_fin st) st) as (A & B & C & D & E & F & G & H & K).
  cbn zeta in *. set (st1 := fold_left _ (e_fin st) st) in *. clearbody st1. cbn.
  unfold core; cbn. rewrite B. auto 10.
Qed.

(** ---------- trace invariant ---------- *)
Definition legalMove (t : ntype) (m : nstate * nstate) : Prop := In (snd m) (successors t (fst m)).

Record TInv st : Prop := {
  t_path : forall n, leads INACTIVE (moves n (e_trace st)) (state st n);
  t_legal : forall n, Forall (legalMove (p_type P n)) (moves n (e_trace st));
  t_asg : forall n, times (is_assign n) (e_trace st) + occ n (e_asg st)
                    = if isTy (p_type P n) NAssignment then entries n EXECUTING (e_trace st) else 0;
  t_ret : forall n, times (is_retract n) (e_trace st) + occ n (e_ret st)
                    = if isTy (p_type P n) NAssignment then entries n FAILING (e_trace st) else 0;
  t_cmd : forall n, times (is_command n) (e_trace st) + occ n (e_cmd st)
                    = if isTy (p_type P n) NCommand then entries n EXECUTING (e_trace st) else 0;
  t_abt : forall n, times (is_abort n) (e_trace st) + occ n (e_abt st)
                    = if isTy (p_type P n) NCommand then entries n FAILING (e_trace st) else 0;
  t_upd : forall n, times (is_update n) (e_trace st) + occ n (e_upd st)
                    = if isTy (p_type P n) NUpdate then entries n EXECUTING (e_trace st) else 0;
  t_fin : forall n, In n (e_fin st) <-> parent P n = None /\ state st n = FINISHED /\ ~ In (EvDelete n) (e_trace st);
  t_del : forall n, times (is_delete n) (e_trace st) <= 1;
  t_delfin : forall n, In (EvDelete n) (e_trace st) -> parent P n = None /\ state st n = FINISHED }.

Lemma moves_skip n evs tr : (forall e, In e evs -> match e with EvTrans _ _ _ => False | _ => True end) ->
  moves n (evs ++ tr) = moves n tr.
Proof.
  induction evs as [|e evs IH]; intro H; cbn; [reflexivity|].
  pose proof (H e (or_introl eq_refl)). destruct e; cbn; try contradiction; apply IH; intros; apply H; now right.
Qed.

Lemma is_delete_In n tr : times (is_delete n) tr = 0 <-> ~ In (EvDelete n) tr.
Proof.
  unfold times. induction tr as [|e tr IH]; cbn; [tauto|].
  destruct (is_delete n e) eqn:E.
  - destruct e; try discriminate. apply Nat.eqb_eq in E; subst. cbn. split; [discriminate|tauto].
  - assert (e <> EvDelete n). { intros ->. cbn in E. rewrite Nat.eqb_refl in E. discriminate. }
    rewrite IH. intuition congruence.
Qed.

Lemma obs_TInv st st' : Inv P st -> TInv st -> obs st st' -> TInv st'.
Proof.
  intros [HQ HC] T [s1 Q|s1 x nxt Hn Hs Hx Hne M|s1 HCo HF (evs & E1 & E2 & F1 & F2 & F3 & F4 & F5)|].
  - destruct T, Q. constructor; intro n; rewrite ?qt_trace, ?qt_asg, ?qt_ret, ?qt_cmd, ?qt_abt, ?qt_upd, ?qt_fin, ?qt_state; auto.
  - destruct T, M. 
    assert (Hdel : forall n, In (EvDelete n) (EvTrans x (state st x) nxt :: e_trace st) <-> In (EvDelete n) (e_trace st)).
    { intro n; cbn. intuition congruence. }
    assert (Hnf : ~ (parent P x = None /\ state st x = FINISHED)).
    { intros Hf. apply (c_del _ _ _ (HC x)) in Hf. apply (q_chg _ _ HQ) in Hx. unfold isTransQ in Hx. intuition congruence. }
    constructor; intro n.
    + rewrite mv_trace, mv_state. cbn. rewrite (Nat.eqb_sym x n). destruct (Nat.eqb_spec n x) as [->|Hnx].
      * eapply leads_snoc; [apply t_path0|reflexivity].
      * rewrite app_nil_r. apply t_path0.
    + rewrite mv_trace. cbn. apply Forall_app. split; [apply t_legal0|].
      destruct (Nat.eqb_spec x n) as [<-|_]; constructor; [exact Hs|constructor].
    + rewrite mv_trace, mv_asg, entries_trans, occ_enq. change (times (is_assign n) (EvTrans x (state st x) nxt :: e_trace st)) with (times (is_assign n) (e_trace st)).
      rewrite Nat.add_assoc, t_asg0, (Nat.eqb_sym x n). destruct (Nat.eqb_spec n x) as [->|_]; rewrite ?andb_true_r, ?andb_false_r; cbn [andb].
      * destruct (nstate_eqb nxt EXECUTING), (nstate_eqb nxt FAILING); cbn [andb]; match goal with |- context[isTy ?a ?b] => destruct (isTy a b) end; lia.
      * destruct (isTy (p_type P n) _); lia.
    + rewrite mv_trace, mv_ret, entries_trans, occ_enq. change (times (is_retract n) (EvTrans x (state st x) nxt :: e_trace st)) with (times (is_retract n) (e_trace st)).
      rewrite Nat.add_assoc, t_ret0, (Nat.eqb_sym x n). destruct (Nat.eqb_spec n x) as [->|_]; rewrite ?andb_true_r, ?andb_false_r; cbn [andb].
      * destruct (nstate_eqb nxt EXECUTING), (nstate_eqb nxt FAILING); cbn [andb]; match goal with |- context[isTy ?a ?b] => destruct (isTy a b) end; lia.
      * destruct (isTy (p_type P n) _); lia.
    + rewrite mv_trace, mv_cmd, entries_trans, occ_enq. change (times (is_command n) (EvTrans x (state st x) nxt :: e_trace st)) with (times (is_command n) (e_trace st)).
      rewrite Nat.add_assoc, t_cmd0, (Nat.eqb_sym x n). destruct (Nat.eqb_spec n x) as [->|_]; rewrite ?andb_true_r, ?andb_false_r; cbn [andb].
      * destruct (nstate_eqb nxt EXECUTING), (nstate_eqb nxt FAILING); cbn [andb]; match goal with |- context[isTy ?a ?b] => destruct (isTy a b) end; lia.
      * destruct (isTy (p_type P n) _); lia.
    + rewrite mv_trace, mv_abt, entries_trans, occ_enq. change (times (is_abort n) (EvTrans x (state st x) nxt :: e_trace st)) with (times (is_abort n) (e_trace st)).
      rewrite Nat.add_assoc, t_abt0, (Nat.eqb_sym x n). destruct (Nat.eqb_spec n x) as [->|_]; rewrite ?andb_true_r, ?andb_false_r; cbn [andb].
      * destruct (nstate_eqb nxt EXECUTING), (nstate_eqb nxt FAILING); cbn [andb]; match goal with |- context[isTy ?a ?b] => destruct (isTy a b) end; lia.
      * destruct (isTy (p_type P n) _); lia.
    + rewrite mv_trace, mv_upd, entries_trans, occ_enq. change (times (is_update n) (EvTrans x (state st x) nxt :: e_trace st)) with (times (is_update n) (e_trace st)).
      rewrite Nat.add_assoc, t_upd0, (Nat.eqb_sym x n). destruct (Nat.eqb_spec n x) as [->|_]; rewrite ?andb_true_r, ?andb_false_r; cbn [andb].
      * destruct (nstate_eqb nxt EXECUTING), (nstate_eqb nxt FAILING); cbn [andb]; match goal with |- context[isTy ?a ?b] => destruct (isTy a b) end; lia.
      * destruct (isTy (p_type P n) _); lia.
    + rewrite mv_trace, Hdel, mv_state, mv_fin. unfold enq.
      destruct (Nat.eqb_spec n x) as [->|Hnx].
      * destruct (parent P x) eqn:Ep.
        { rewrite t_fin0, Ep. intuition congruence. }
        destruct (nstate_eqb nxt FINISHED) eqn:En.
        -- apply nstate_eqb_eq in En. rewrite in_snoc. split; [|auto]. intros _. repeat split; auto.
           intro Hd. apply t_delfin0 in Hd. tauto.
        -- rewrite t_fin0. split; [tauto|]. intros (_ & -> & _). discriminate.
      * destruct (match parent P x with None => _ | Some _ => _ end); [rewrite in_snoc|]; rewrite t_fin0; intuition congruence.
    + rewrite mv_trace. apply (t_del0 n).
    + rewrite mv_trace, Hdel, mv_state. intro Hd. destruct (t_delfin0 _ Hd) as [A B].
      destruct (Nat.eqb_spec n x) as [->|]; [tauto|auto].
  - destruct T.
    assert (Hst : forall n, state s1 n = state st n) by (intro n; unfold state; now rewrite HCo).
    assert (Hm : forall n, moves n (e_trace s1) = moves n (e_trace st)).
    { intro n. rewrite E1. apply moves_skip. intros e He. specialize (E2 e He). destruct e; auto. }
    assert (Hd : forall n, In (EvDelete n) (e_trace s1) <-> In (EvDelete n) (e_trace st)).
    { intro n. rewrite E1, in_app_iff. split; [|auto]. intros [He|He]; [|auto]. specialize (E2 _ He). contradiction. }
    assert (He : forall n s, entries n s (e_trace s1) = entries n s (e_trace st)) by (intros; unfold entries; now rewrite Hm).
    constructor; intro n; rewrite ?Hm, ?Hst, ?He, ?HF, ?Hd; auto.
    + rewrite E1, times_app, <- t_asg0, <- F1. lia.
    + rewrite E1, times_app, <- t_ret0, <- F2. lia.
    + rewrite E1, times_app, <- t_cmd0, <- F3. lia.
    + rewrite E1, times_app, <- t_abt0, <- F4. lia.
    + rewrite E1, times_app, <- t_upd0, <- F5. lia.
    + rewrite E1, times_app. rewrite (times_none _ evs); [apply t_del0|].
      intros e Hi. specialize (E2 _ Hi). destruct e; auto; contradiction.
  - destruct T. destruct (deleteFinished_obs st) as (A & B & C & D & E & F & G & H & _). cbn zeta in *.
    set (s1 := deleteFinished st) in *. clearbody s1.
    assert (Hst : forall n, state s1 n = state st n) by (intro n; unfold state; now rewrite B).
    assert (Hm : forall n, moves n (e_trace s1) = moves n (e_trace st)).
    { intro n. rewrite A. apply moves_skip. intros e He. rewrite <- in_rev, in_map_iff in He. destruct He as (m & <- & _). exact I. }
    assert (Hd : forall n, In (EvDelete n) (e_trace s1) <-> In n (e_fin st) \/ In (EvDelete n) (e_trace st)).
    { intro n. rewrite A, in_app_iff, <- in_rev, in_map_iff. split.
      - intros [(m & He & Hi)|Hi]; [inversion He; subst|]; auto.
      - intros [Hi|Hi]; eauto. }
    assert (He : forall n s, entries n s (e_trace s1) = entries n s (e_trace st)) by (intros; unfold entries; now rewrite Hm).
    constructor; intro n; rewrite ?Hm, ?Hst, ?He, ?Hd; auto;
      try (rewrite A, times_app, times_rev, times_map0 by reflexivity; rewrite ?D, ?E, ?F, ?G, ?H; cbn; auto; fail).
    + rewrite C. cbn. rewrite t_fin0. split; [tauto|]. intros (X & Y & Z). apply Z. destruct (In_dec Nat.eq_dec n (e_fin st)) as [Hi|Hi]; [apply t_fin0 in Hi; auto|].
      rewrite t_fin0 in Hi. left; auto. repeat split; auto.
    + rewrite A, times_app, times_rev, (times_map (is_delete n) EvDelete n) by reflexivity.
      destruct (in_dec Nat.eq_dec n (e_fin st)) as [Hi|Hi].
      * pose proof (proj1 (t_fin0 n) Hi) as (_ & _ & Hnd). apply is_delete_In in Hnd. rewrite Hnd.
        assert (occ n (e_fin st) <= 1); [|lia].
        pose proof (q_ndf _ _ HQ) as Hnf. clear - Hnf. unfold occ. induction Hnf as [|y l Hy Hl IH]; cbn; [lia|].
        destruct (Nat.eqb_spec n y) as [->|]; [|exact IH]. cbn.
        replace (filter (Nat.eqb y) l) with (@nil nat); [cbn; lia|].
        symmetry. clear - Hy. induction l as [|z l IH]; cbn; [reflexivity|]. destruct (Nat.eqb_spec y z); [subst; cbn in Hy; tauto|].
        apply IH. cbn in Hy; tauto.
      * assert (occ n (e_fin st) = 0) as ->.
        { clear - Hi. unfold occ. induction (e_fin st) as [|z l IH]; cbn; [reflexivity|]. destruct (Nat.eqb_spec n z); [subst; cbn in Hi; tauto|].
          apply IH. cbn in Hi; tauto. }
        apply t_del0.
    + intros [Hi|Hi]; [apply t_fin0 in Hi; tauto|now apply t_delfin0].
Qed.

Lemma e0_TInv w : TInv (e0 w).
Proof.
  constructor; intro n; cbn; unfold times, occ, entries; cbn; try tauto; try constructor;
  try (destruct (p_type P n); reflexivity); try lia.
  intros (_ & H & _). discriminate.
Qed.

Lemma run_TInv_from l : forall st, Inv P st -> TInv st -> Inv P (run env P l st) /\ TInv (run env P l st).
Proof.
  induction l as [|a l IH]; cbn; intros st HI HT; [auto|].
  apply IH; [now apply act_Inv|]. eapply obs_TInv; eauto. now apply act_obs.
Qed.
Lemma run_TInv l w : TInv (run env P l (e0 w)).
Proof. apply (run_TInv_from l (e0 w) (e0_Inv P env w) (e0_TInv w)). Qed.

End Trace.
