(** C26: theorems about lookups and the state cache. *)
From Coq Require Import String.
From Verif Require Import ValueModel RealModel RealProofs CacheModel CacheSpec OrderProps CacheProofs CacheProofs2 CacheFresh CacheProofs3 CacheProofs4 CacheProofs5 CacheProofs6 CacheProofs7.
Open Scope Z_scope.
Local Opaque current gotSince.

(** A legal history from freshly built lookups. *)
Record history (ps : nat -> lkspec) (os : list op) (w : world) : Prop := {
  h_specs : forall l, okSpec (ps l);
  h_ops : Forall okOp os;
  h_run : run os (init ps) = Some w }.
Lemma history_step ps os o w w' : history ps os w -> okOp o -> step o w = Some w' -> history ps (os ++ [o]) w'.
Proof.
  intros [A B C] O S. constructor; auto.
  - apply Forall_app; auto.
  - rewrite run_app, C. cbn. rewrite S. reflexivity.
Qed.

Section Facts.
Variables (ps : nat -> lkspec) (os : list op) (w : world).
Hypothesis H : history ps os w.
Lemma h_INV : INV w. Proof. destruct H. eapply run_INV; eauto. Qed.
Lemma h_onch l : l_onch (w_lk w l) = ls_onch (ps l). Proof. destruct H. destruct (run_fields _ _ _ l h_run0). tauto. Qed.
Lemma h_env l : l_env (w_lk w l) = stateOf ps os l. Proof. destruct H. destruct (run_fields _ _ _ l h_run0). tauto. Qed.
Lemma h_cnt l : Z.of_nat (l_cnt (w_lk w l)) = activeOf os l. Proof. destruct H. destruct (run_fields _ _ _ l h_run0). tauto. Qed.
Lemma h_pos l : 0 < activeOf os l -> (0 < l_cnt (w_lk w l))%nat. Proof. rewrite <- h_cnt. lia. Qed.
Lemma h_act l : 0 < activeOf os l -> lkActive (w_lk w l) = true. Proof. intros A. apply Nat.ltb_lt. now apply h_pos. Qed.
Lemma h_inact l : ~ 0 < activeOf os l -> lkActive (w_lk w l) = false. Proof. rewrite <- h_cnt. intros A. apply Nat.ltb_ge. lia. Qed.
Lemma h_okst l s : stateOf ps os l = Some s -> okLkState s.
Proof. intros E. destruct h_INV as [_ R]. destruct (R l) as [O _]. rewrite h_env, E in O. exact O. Qed.
Lemma h_state l s : 0 < activeOf os l -> stateOf ps os l = Some s ->
  exists e, l_ent (w_lk w l) = Some e /\ findKey s (w_map w) = Some e /\ l_st (w_lk w l) = s /\ l_reg (w_lk w l) = true.
Proof.
  intros A E. destruct h_INV as [_ R]. destruct (R l) as (_ & _ & D & F & _). specialize (F (h_pos l A)). rewrite h_env, E in F.
  destruct F as [F1 [F2 [e [F3 F4]]]]. exists e. split; auto. split; auto. split; auto. apply D. split; [now apply h_pos|]. rewrite h_env, E. discriminate.
Qed.
Lemma h_nostate l : 0 < activeOf os l -> stateOf ps os l = None -> l_ent (w_lk w l) = None.
Proof. intros A E. destruct h_INV as [_ R]. destruct (R l) as (_ & _ & D & F & _). specialize (F (h_pos l A)). rewrite h_env, E in F. tauto. Qed.
(** The value read is that of the entry. *)
Lemma h_read l : 0 < activeOf os l -> ls_onch (ps l) = false -> lkRead w l = Some (rd w l).
Proof.
  intros A P. unfold lkRead, rd. rewrite h_act by auto. destruct (stateOf ps os l) as [s|] eqn:E.
  - destruct (h_state l s A E) as [e [E1 [E2 _]]]. rewrite E1. unfold getE. rewrite (findKey_live _ _ _ E2). cbn [obind].
    rewrite h_onch, P. unfold entV. destruct (e_val (w_ent w e)); reflexivity.
  - rewrite (h_nostate l A E). reflexivity.
Qed.
End Facts.

(** An active lookup whose state is known reads the value last delivered for that state
    (converted to the state's type; updates of another type are ignored). *)
Theorem C26_reads_current ps os w l s : history ps os w -> ls_onch (ps l) = false ->
  0 < activeOf os l -> stateOf ps os l = Some s ->
  exists v, lkRead w l = Some v /\ vsim v (current s (w_tr w)).
Proof.
  intros H P A E. exists (rd w l). split; [eapply h_read; eauto|].
  destruct (h_state _ _ _ H l s A E) as [e [E1 [E2 _]]]. unfold rd. rewrite E1.
  eapply inv_current; eauto. apply (h_INV _ _ _ H). apply (h_okst _ _ _ H l s E).
Qed.
(** A lookup which is inactive, or whose name or parameters are unknown, is unknown. *)
Theorem C26_otherwise_unknown ps os w l : history ps os w ->
  ~ 0 < activeOf os l \/ stateOf ps os l = None ->
  lkRead w l = Some (VUnk UNKNOWN_TYPE) /\ lkKnown w l = Some false.
Proof.
  intros H C. unfold lkRead, lkKnown. destruct (Z_lt_dec 0 (activeOf os l)) as [A|A].
  - destruct C as [C|C]; [tauto|]. rewrite (h_act _ _ _ H l A), (h_nostate _ _ _ H l A C). auto.
  - rewrite (h_inact _ _ _ H l A). auto.
Qed.
(** isKnown agrees with the value read. *)
Theorem C26_known_agrees ps os w l v : history ps os w -> ls_onch (ps l) = false -> lkRead w l = Some v -> lkKnown w l = Some (vknown v).
Proof.
  intros H P R. destruct (Z_lt_dec 0 (activeOf os l)) as [A|A].
  - rewrite (h_read _ _ _ H l A P) in R. inversion R; subst. unfold lkKnown. rewrite (h_act _ _ _ H l A).
    destruct (stateOf ps os l) as [s|] eqn:E.
    + destruct (h_state _ _ _ H l s A E) as [e [E1 [E2 _]]]. unfold rd. rewrite E1. unfold getE. rewrite (findKey_live _ _ _ E2). cbn [obind].
      unfold entKnown, entV. destruct (e_val (w_ent w e)); auto.
    + unfold rd. rewrite (h_nostate _ _ _ H l A E). auto.
  - destruct (C26_otherwise_unknown ps os w l H (or_introl A)) as [X Y]. rewrite X in R. inversion R; subst. auto.
Qed.

(** Never a silent change: when an operation changes the value read by a lookup that is active
    before and after it, the lookup notified its listeners during the operation. *)
Theorem C26_no_silent_change ps os o w w' l v v' : history ps os w -> okOp o -> step o w = Some w' ->
  ls_onch (ps l) = false -> 0 < activeOf os l -> 0 < activeOf (os ++ [o]) l ->
  lkRead w l = Some v -> lkRead w' l = Some v' -> ~ vsim v v' -> vknown v = true \/ vknown v' = true ->
  exists d, w_tr w' = w_tr w ++ d /\ (1 <= pubs l d)%nat.
Proof.
  intros H O S P A A' R R' N K. pose proof (history_step _ _ _ _ _ H O S) as H'.
  rewrite (h_read _ _ _ H l A P) in R. rewrite (h_read _ _ _ H' l A' P) in R'. inversion R; inversion R'; subst; clear R R'.
  destruct (step_notif o w w' l (h_INV _ _ _ H) O S) as [d [D1 D2]].
  - rewrite (h_onch _ _ _ H). auto.
  - apply (h_pos _ _ _ H); auto.
  - apply (h_pos _ _ _ H'); auto.
  - exists d. split; auto. destruct (pubs l d) eqn:PB; [|lia]. exfalso. destruct (D2 eq_refl) as [[X Y]|X]; auto. destruct K; congruence.
Qed.

(** An update of a state notifies each active lookup of that state exactly once if its value
    changed, and nobody else.  (Excluded: an untyped unknown given to a state which never had a
    typed value, and a current value NaN; see C26_blank_notifies_refuted.) *)
Theorem C26_update_notifies ps os w w' l s u : history ps os w -> okState s -> step (OUpd s u) w = Some w' ->
  ls_onch (ps l) = false -> ~ (vtype (current s (w_tr w)) = UNKNOWN_TYPE /\ u = UVal (VUnk UNKNOWN_TYPE)) ->
  (vknown (current s (w_tr w)) = true -> veq (current s (w_tr w)) (current s (w_tr w)) = true) ->
  exists d, w_tr w' = w_tr w ++ Got s u :: d /\
    pubs l d = (if (0 <? activeOf os l)%Z && (match stateOf ps os l with Some s' => same_key s' s | None => false end)
                   && changed (current s (w_tr w)) (valueAfter (current s (w_tr w)) u) then 1 else 0)%nat.
Proof.
  intros H Hs S P B NN. pose proof (h_INV _ _ _ H) as [V R]. cbn [step] in S.
  destruct (ensureE_spec (regs w) w s V Hs) as [P1 [P2 [P3 [P4 [P5 [P6 P7]]]]]].
  set (wE := fst (ensureE w s)) in *. set (e := snd (ensureE w s)) in *.
  destruct (entUpdate_spec _ _ _ _ _ _ P1 Hs P3 S) as [_ [_ [n [N1 [_ N3]]]]].
  rewrite P5 in N1. specialize (N1 B).
  assert (PE : l_onch (w_lk wE l) = false) by (rewrite P4, (h_onch _ _ _ H); auto).
  destruct (N3 l PE) as [d [D1 D2]]. rewrite P5 in D1. exists d. split; auto. rewrite D2, P4.
  assert (n = changed (current s (w_tr w)) (valueAfter (current s (w_tr w)) u)) as ->.
  { destruct N1 as [->|[-> ->]]; auto. unfold changed. destruct (vknown _) eqn:K; cbn; auto. now rewrite NN. }
  rewrite (i_occ _ _ P1) by (eapply findKey_live; eauto). rewrite P4.
  destruct (Z.ltb_spec 0 (activeOf os l)) as [A|A].
  - rewrite (h_act _ _ _ H l A). destruct (stateOf ps os l) as [s'|] eqn:E.
    + destruct (h_state _ _ _ H l s' A E) as [e' [E1 [E2 [E3 E4]]]]. pose proof (h_okst _ _ _ H l s' E) as [O1 _].
      unfold regs. rewrite E4. cbn [andb]. rewrite andb_true_r.
      assert (at_ent (w_lk w l) e = same_key s' s) as ->.
      { apply (g_find _ _ P2) in E2. unfold at_ent. rewrite E1. destruct (same_key s' s) eqn:SK.
        - apply Nat.eqb_eq. rewrite (inv_find_cong _ _ s' s P1) in E2 by auto. congruence.
        - apply Nat.eqb_neq. intros ->. assert (same_key s' s = true); [|congruence].
          destruct (findKey_in _ _ _ E2) as [k [I1 I2]]. pose proof (key_same _ _ s e k P1 Hs P3 I1) as I3.
          apply (same_key_trans s' k s); auto. eapply i_keys; eauto. now rewrite same_key_sym. now rewrite same_key_sym. }
      destruct changed, (same_key s' s); reflexivity.
    + assert (RF : l_reg (w_lk w l) = false).
      { destruct (l_reg (w_lk w l)) eqn:RG; auto. destruct (R l) as (_ & _ & D & _). destruct (proj1 D RG) as [_ X]. rewrite (h_env _ _ _ H) in X. congruence. }
      unfold regs. rewrite RF. cbn. destruct changed; reflexivity.
  - rewrite (h_inact _ _ _ H l) by lia. rewrite andb_false_r. reflexivity.
Qed.

(** The cache asks the external system again when an inactive lookup is activated in a macro
    step in which no value of its state has been delivered yet. *)
Theorem C26_activation_asks ps os w w' l s ans : history ps os w -> step (OAct l ans) w = Some w' ->
  activeOf os l = 0 -> stateOf ps os l = Some s -> gotSince s (w_tr w) = false ->
  exists d, w_tr w' = w_tr w ++ Ask s :: d.
Proof.
  intros H S A E G. assert (F : FR w) by (destruct H; eapply run_FR; eauto).
  destruct (opActivate_FR w l ans w' (h_INV _ _ _ H) S F) as [_ X]. apply X; auto.
  - pose proof (h_cnt _ _ _ H l). lia.
  - now rewrite (h_env _ _ _ H).
Qed.

(** Registration: an active lookup whose state is known is registered exactly once, with the
    cache entry of that state; every other lookup is registered nowhere. *)
Theorem C26_registered ps os w l k e : history ps os w -> In (k, e) (w_map w) ->
  count_occ Nat.eq_dec (e_lk (w_ent w e)) l =
  if (0 <? activeOf os l) && (match stateOf ps os l with Some s => same_key s k | None => false end) then 1%nat else 0%nat.
Proof.
  intros H I. pose proof (h_INV _ _ _ H) as [V R]. pose proof (i_keys _ _ V k e I) as Hk.
  assert (F : findKey k (w_map w) = Some e) by (eapply inv_find; eauto using same_key_refl).
  fold (occ (e_lk (w_ent w e)) l). rewrite (i_occ _ _ V) by (eapply findKey_live; eauto). unfold regs.
  destruct (R l) as (_ & _ & D & _). rewrite (h_env _ _ _ H) in D.
  destruct (Z.ltb_spec 0 (activeOf os l)) as [A|A].
  - destruct (stateOf ps os l) as [s|] eqn:E.
    + destruct (h_state _ _ _ H l s A E) as [e' [E1 [E2 [E3 E4]]]]. pose proof (h_okst _ _ _ H l s E) as [O1 _]. rewrite E4. cbn [andb].
      unfold at_ent. rewrite E1. destruct (same_key s k) eqn:SK.
      * rewrite (inv_find_cong _ _ s k V) in E2 by auto. assert (e' = e) by congruence. subst. now rewrite Nat.eqb_refl.
      * destruct (Nat.eqb_spec e' e) as [->|]; auto. exfalso. pose proof (key_same _ _ s e k V O1 E2 I). congruence.
    + destruct (l_reg (w_lk w l)) eqn:RG; auto. destruct (proj1 D eq_refl). congruence.
  - destruct (l_reg (w_lk w l)) eqn:RG; auto. destruct (proj1 D eq_refl) as [X _]. pose proof (h_cnt _ _ _ H l). lia.
Qed.
(** One entry per state. *)
Theorem C26_one_entry ps os w k k' e e' : history ps os w -> In (k, e) (w_map w) -> In (k', e') (w_map w) ->
  (same_key k k' = true <-> e = e').
Proof.
  intros H I I'. pose proof (h_INV _ _ _ H) as [V _]. split; [eapply i_uniq; eauto|]. intros <-.
  pose proof (i_keys _ _ V k e I) as Hk. apply (key_same (regs w) w k e k'); auto. apply (inv_find _ _ V k k e); auto. now apply same_key_refl.
Qed.
(** A value of the wrong type is ignored: readings stay and nobody is notified. *)
Theorem C26_mismatch_ignored ps os w w' s v : history ps os w -> okState s -> step (OUpd s (UVal v)) w = Some w' ->
  vtype (current s (w_tr w)) <> UNKNOWN_TYPE -> vknown v = true -> vtype v <> vtype (current s (w_tr w)) ->
  ~ (vtype v = INTEGER_TYPE /\ vtype (current s (w_tr w)) = REAL_TYPE) ->
  current s (w_tr w') = current s (w_tr w) /\ forall l, ls_onch (ps l) = false -> (vknown (current s (w_tr w)) = true -> veq (current s (w_tr w)) (current s (w_tr w)) = true) ->
     exists d, w_tr w' = w_tr w ++ d /\ pubs l d = 0%nat.
Proof.
  intros H Hs S T K D NI. set (cur := current s (w_tr w)) in *.
  assert (VA : valueAfter cur (UVal v) = cur).
  { unfold valueAfter. rewrite (proj2 (Z.eqb_neq _ _) T). destruct v; cbn [vtype vknown] in *; try discriminate; rewrite ?(proj2 (Z.eqb_neq _ _) D); auto.
    rewrite (proj2 (Z.eqb_neq _ _) (not_eq_sym D)). destruct (Z.eqb_spec (vtype cur) REAL_TYPE); auto. tauto. }
  split.
  - pose proof (h_INV _ _ _ H) as [V R]. cbn [step] in S.
    destruct (ensureE_spec (regs w) w s V Hs) as [P1 [P2 [P3 [P4 [P5 [P6 P7]]]]]].
    destruct (entUpdate_spec _ _ _ _ _ _ P1 Hs P3 S) as [_ [_ [n [_ [[d [D1 D2]] _]]]]].
    rewrite D1, P5. change (Got s (UVal v) :: d) with ([Got s (UVal v)] ++ d). rewrite app_assoc, current_soft by auto.
    rewrite current_got, same_key_refl by auto. exact VA.
  - intros l P NN. destruct (C26_update_notifies ps os w w' l s (UVal v) H Hs S P) as [d [D1 D2]]; auto.
    { fold cur. tauto. }
    exists (Got s (UVal v) :: d). split; auto. fold cur in D2. rewrite VA in D2.
    assert (changed cur cur = false) as X. { unfold changed. destruct (vknown cur) eqn:KC; cbn; auto. now rewrite NN. }
    rewrite X, andb_false_r in D2. exact D2.
Qed.

Local Transparent current gotSince.
(** ** Concrete cases *)
Definition sA : state := mkState [97] [].
Definition sB : state := mkState [98] [VInt 1].
(** 0: constant state a; 1, 2: state from an expression, initially b(1) and unknown. *)
Definition exPs (l : nat) : lkspec :=
  match l with
  | 0%nat => mkSpec false true true (Some sA) (VUnk UNKNOWN_TYPE)
  | 1%nat => mkSpec false false true (Some sB) (VUnk UNKNOWN_TYPE)
  | _ => mkSpec false false true None (VUnk UNKNOWN_TYPE)
  end.
Definition exOs : list op :=
  [OUpd sA (UVal (VInt 3)); OAct 0 [UVal (VInt 4)]; OAct 1 [UVal (VReal 0)]; OAct 2 []; OCycle;
   OUpd sB (UVal (VInt 1)); OEnv 2 (Some sB) []; OUpd sB (UVal (VStr [120]))].
Lemma ex_sB : okLkState sB.
Proof. split; unfold okState; repeat constructor; cbn; auto. Qed.
Lemma exPs_ok l : okSpec (exPs l).
Proof.
  destruct l as [|[|l]]; cbn; split; cbn; auto; try discriminate.
  - split; unfold okState; constructor.
  - apply ex_sB.
Qed.
Lemma exOs_ok : Forall okOp exOs.
Proof. repeat constructor; cbn; auto. Qed.
Definition exW : world := match run exOs (init exPs) with Some w => w | None => init exPs end.
Example C26_history_ex : history exPs exOs exW.
Proof. constructor; [apply exPs_ok|apply exOs_ok|vm_compute; reflexivity]. Qed.
Example C26_reads_current_ex :
  0 < activeOf exOs 1 /\ stateOf exPs exOs 2 = Some sB /\ lkRead exW 0 = Some (VInt 3) /\
  lkRead exW 2 = Some (VReal (intBits 1)) /\ current sB (w_tr exW) = VReal (intBits 1).
Proof. vm_compute. repeat split; auto. Qed.
Example C26_update_notifies_ex : exists w', step (OUpd sB (UVal (VInt 2))) exW = Some w' /\
  exists d, w_tr w' = w_tr exW ++ Got sB (UVal (VInt 2)) :: d /\ pubs 1 d = 1%nat /\ pubs 2 d = 1%nat /\ pubs 0 d = 0%nat.
Proof. eexists. split; [vm_compute; reflexivity|]. exists [Pub 1; Pub 2]. vm_compute. repeat split; auto. Qed.
Example C26_no_silent_change_ex : exists w', step (OEnv 1 (Some sA) []) exW = Some w' /\ okOp (OEnv 1 (Some sA) []) /\
  lkRead exW 1 = Some (VReal (intBits 1)) /\ lkRead w' 1 = Some (VInt 3) /\ ~ vsim (VReal (intBits 1)) (VInt 3).
Proof.
  eexists. split; [vm_compute; reflexivity|]. split; [split; unfold okState; constructor|].
  split; [vm_compute; reflexivity|]. split; [vm_compute; reflexivity|].
  intros [E|[E _]]; vm_compute in E; discriminate.
Qed.
Example C26_activation_asks_ex : exists w w', run [OUpd sA (UVal (VInt 3)); OCycle] (init exPs) = Some w /\
  gotSince sA (w_tr w) = false /\ step (OAct 0 [UVal (VInt 5)]) w = Some w' /\
  w_tr w' = w_tr w ++ [Ask sA; Got sA (UVal (VInt 5)); Pub 0].
Proof. do 2 eexists. split; [vm_compute; reflexivity|]. split; [reflexivity|]. split; vm_compute; reflexivity. Qed.
Example C26_registered_ex : exists e, In (sB, e) (w_map exW) /\ e_lk (w_ent exW e) = [1; 2]%nat.
Proof. exists 1%nat. vm_compute. auto. Qed.

(** ** Defects
    An untyped unknown value delivered for a state that never had a typed value notifies
    although nothing changed: VoidCachedValue::update returns true (CachedValueImpl.cc 81-90). *)
Theorem C26_blank_notifies_refuted : exists ps os w w' s u l, history ps os w /\ step (OUpd s u) w = Some w' /\
  0 < activeOf os l /\ stateOf ps os l = Some s /\ lkRead w l = lkRead w' l /\
  exists d, w_tr w' = w_tr w ++ d /\ pubs l d = 1%nat.
Proof.
  exists exPs, [OAct 0 []]. eexists. eexists. exists sA, (UVal (VUnk UNKNOWN_TYPE)), 0%nat.
  split. { constructor; [apply exPs_ok|repeat constructor|vm_compute; reflexivity]. }
  split; [vm_compute; reflexivity|]. split; [reflexivity|]. split; [reflexivity|]. split; [vm_compute; reflexivity|].
  exists [Got sA (UVal (VUnk UNKNOWN_TYPE)); Pub 0]. vm_compute. auto.
Qed.
(** Deleting the cache entry of a state leaves a dangling pointer in an inactive lookup whose
    state is constant (Lookup.cc 388-403 keeps m_entry); activating it again uses freed memory. *)
Theorem C26_deleted_entry_refuted : exists ps os w, history ps os w /\ (forall l, activeOf os l = 0) /\
  step (OAct 0 []) w = None.
Proof.
  exists exPs, [OAct 0 [UVal (VInt 3)]; ODeact 0; ODel sA]. eexists.
  split. { constructor; [apply exPs_ok|repeat constructor|vm_compute; reflexivity]. }
  split; [|vm_compute; reflexivity]. intros [|l]; reflexivity.
Qed.
(** A delivered value equal to the cached one does not refresh the timestamp
    (CachedValueImpl.cc 517-568): the next activation in the same macro step asks again. *)
Theorem C26_asks_though_fresh_refuted : exists ps os w w' s l, history ps os w /\ activeOf os l = 0 /\ stateOf ps os l = Some s /\
  gotSince s (w_tr w) = true /\ step (OAct l []) w = Some w' /\ In (Ask s) (skipn (length (w_tr w)) (w_tr w')).
Proof.
  exists exPs, [OUpd sA (UVal (VInt 3)); OCycle; OUpd sA (UVal (VInt 3))]. eexists. eexists. exists sA, 0%nat.
  split. { constructor; [apply exPs_ok|repeat constructor|vm_compute; reflexivity]. }
  split; [reflexivity|]. split; [reflexivity|]. split; [reflexivity|]. split; [vm_compute; reflexivity|]. vm_compute. auto.
Qed.

(** Assumptions *)
Print Assumptions C26_reads_current.
Print Assumptions C26_otherwise_unknown.
Print Assumptions C26_known_agrees.
Print Assumptions C26_no_silent_change.
Print Assumptions C26_update_notifies.
Print Assumptions C26_activation_asks.
Print Assumptions C26_registered.
Print Assumptions C26_one_entry.
Print Assumptions C26_mismatch_ignored.
Print Assumptions C26_blank_notifies_refuted.
Print Assumptions C26_deleted_entry_refuted.
Print Assumptions C26_asks_though_fresh_refuted.
