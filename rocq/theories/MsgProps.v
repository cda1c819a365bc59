(** C47: messaging. *)
From Coq Require Import String.
From Verif Require Import ValueModel RealModel CacheModel CacheSpec OrderProps CacheProofs CacheProps MsgModel MsgSpec MsgProofs MsgProofs2 MsgProofs3.
Open Scope Z_scope.
Local Opaque current.

(** Lookup l (not a LookupOnChange with a tolerance) is active and denotes state s. *)
Definition watching (ps : nat -> lkspec) (os : list op) (l : nat) (s : state) : Prop :=
  ls_onch (ps l) = false /\ 0 < activeOf os l /\ stateOf ps os l = Some s.

Lemma vsim_str a x : vsim a (VStr x) -> a = VStr x.
Proof. intros [E|[T E]]; auto. destruct a; try discriminate; cbn in E; try discriminate. f_equal. clear T. revert x E. induction s; intros [|y x]; cbn; try discriminate; auto. rewrite andb_true_iff. intros [A B]. apply Z.eqb_eq in A. f_equal; auto. Qed.
Lemma vsim_bool a x : vsim a (VBool x) -> a = VBool x.
Proof. intros [E|[T E]]; auto. destruct a; try discriminate; cbn in E; try discriminate. apply Bool.eqb_prop in E. now subst. Qed.
Lemma vsim_int a x : vsim a (VInt x) -> a = VInt x.
Proof. intros [E|[T E]]; auto. destruct a; try discriminate; cbn in E; try discriminate. apply Z.eqb_eq in E. now subst. Qed.
Lemma vsim_unknown a b : vsim a b -> vknown b = false -> unknown a.
Proof. intros S K. unfold unknown. now rewrite (vsim_known _ _ S). Qed.

(** HaveMessage, PeekAtMessage and PeekAtMessageSender always show the head of the inbox, as
    last reported by the message interface. *)
Theorem C47_inbox ps ms os w l s : mhistory ps ms os w -> watching ps os l s ->
  exists v, lkRead w l = Some v /\
    (s = sHave -> haveIs (inboxOf ms) v) /\ (s = sPeek -> peekIs (inboxOf ms) v) /\ (s = sPeekSender -> peekSenderIs (inboxOf ms) v).
Proof.
  intros H [A [B C]]. destruct (mhistory_MI _ _ _ _ H) as [HH M]. destruct (C26_reads_current ps os w l s HH A B C) as [v [R S]].
  exists v. split; auto. destruct M as [_ [F1 _] [F2 _] [F3 _]]. split; [|split]; intros ->.
  - destruct (inboxOf ms); cbn in *; [eapply vsim_unknown; eauto| |]; rewrite F1 in S; now apply vsim_bool.
  - destruct (inboxOf ms); cbn in *; [eapply vsim_unknown; eauto| eapply vsim_unknown; eauto|]; rewrite F2 in S; now apply vsim_str.
  - destruct (inboxOf ms); cbn in *; [eapply vsim_unknown; eauto| eapply vsim_unknown; eauto|]; rewrite F3 in S; now apply vsim_str.
Qed.
(** The lookups of a handle show the data of the message held under it: text, sender, arrival
    time, number of parameters, and each parameter; without one, they are unknown. *)
Theorem C47_handle ps ms os w l s h : mhistory ps ms os w -> watching ps os l s ->
  exists v, lkRead w l = Some v /\
    (s = sText h -> textIs (heldBy ms h) v) /\ (s = sSender h -> senderIs (heldBy ms h) v) /\
    (s = sArrived h -> arrivedIs (heldBy ms h) v) /\ (s = sCount h -> countIs (heldBy ms h) v) /\
    (forall i, s = sParam h i -> paramIs (heldBy ms h) i v).
Proof.
  intros H [A [B C]]. destruct (mhistory_MI _ _ _ _ H) as [HH M]. destruct (C26_reads_current ps os w l s HH A B C) as [v [R S]].
  exists v. split; auto. pose proof (fun f => mi_f _ _ M h f) as F.
  split; [|split; [|split; [|split]]]; [intros -> ..|intros i ->].
  - specialize (F FText). cbn [st] in F. rewrite F in S. destruct (heldBy ms h); cbn in *; [now apply vsim_str|eapply vsim_unknown; eauto].
  - specialize (F FSender). cbn [st] in F. rewrite F in S. destruct (heldBy ms h); cbn in *; [now apply vsim_str|eapply vsim_unknown; eauto].
  - specialize (F FArrived). cbn [st] in F. rewrite F in S. destruct (heldBy ms h); cbn in *; [auto|eapply vsim_unknown; eauto].
  - specialize (F FCount). cbn [st] in F. rewrite F in S. destruct (heldBy ms h); cbn in *; [now apply vsim_int|eapply vsim_unknown; eauto].
  - specialize (F (FParam i)). cbn [st] in F. rewrite F in S. destruct (heldBy ms h); cbn [exp paramIs] in *; [|eapply vsim_unknown; eauto].
    destruct (if i <? 0 then None else _) as [p|]; [|eapply vsim_unknown; eauto].
    destruct (vknown p) eqn:K; [|eapply vsim_unknown; eauto; destruct p; try discriminate; reflexivity].
    destruct p; try discriminate; exact S.
Qed.
(** Releasing a handle properly always succeeds. *)
Theorem C47_release_safe ps ms os w h : mhistory ps ms os w -> proper ps ms os (MRelease h) ->
  exists d w', mops (MRelease h) w = Some d /\ run d w = Some w'.
Proof.
  intros H [HB U]. destruct (mhistory_MI _ _ _ _ H) as [HH M]. destruct (heldBy ms h) as [m|] eqn:E; [|congruence].
  exists (delAll h (List.length (s_params (m_body m)))).
  destruct (run_del (delAll h (List.length (s_params (m_body m))))) with (w := w) as [w' R].
  { intros o I. destruct (delAll_del _ _ _ I) as [f ->]. eauto. }
  exists w'. split; auto. cbn [mops]. eapply release_calls; eauto. eapply not_about; eauto.
Qed.

(** ** A concrete history *)
Local Transparent current.
Definition h1 : str := lit "h1".
Definition msg1 : message := mkMsg (mkState (lit "go") [VInt 7; VStr (lit "x")]) (lit "bob") (intBits 3).
Definition msg2 : message := mkMsg (mkState (lit "halt") []) (lit "eve") (intBits 4).
Definition mPs (l : nat) : lkspec :=
  match l with
  | 0%nat => mkSpec false true true (Some sPeek) (VUnk UNKNOWN_TYPE)
  | 1%nat => mkSpec false false true (Some (sParam h1 1)) (VUnk UNKNOWN_TYPE)
  | 2%nat => mkSpec false false true (Some (sCount h1)) (VUnk UNKNOWN_TYPE)
  | _ => mkSpec false true true (Some sHave) (VUnk UNKNOWN_TYPE)
  end.
Lemma mPs_ok l : okSpec (mPs l).
Proof. destruct l as [|[|[|l]]]; cbn; split; cbn; try discriminate; split; unfold okState; repeat constructor. Qed.
Ltac mchain := first [apply mh_nil; apply mPs_ok
  | eapply mh_snoc; [mchain|cbn; try tauto|cbn; try tauto|vm_compute; reflexivity|vm_compute; reflexivity]].
Definition mMs : list mop := [MReceived msg1; MCache (OAct 0 []); MCache (OAct 3 []); MAssign msg1 h1; MReceived msg2; MCache (OAct 1 [])].
Definition mOs : list op := receivedOps msg1 ++ [OAct 0 []; OAct 3 []] ++ assignOps msg1 h1 ++ receivedOps msg2 ++ [OAct 1 []].
Definition mW : world := match run mOs (init mPs) with Some w => w | None => init mPs end.
Example C47_ex : mhistory mPs mMs mOs mW /\ watching mPs mOs 0 sPeek /\ watching mPs mOs 1 (sParam h1 1) /\
  lkRead mW 0 = Some (VStr (lit "halt")) /\ lkRead mW 1 = Some (VStr (lit "x")) /\ lkRead mW 3 = Some (VBool true).
Proof.
  split.
  { assert (A : mhistory mPs mMs ((((((([] ++ receivedOps msg1) ++ [OAct 0 []]) ++ [OAct 3 []]) ++ assignOps msg1 h1) ++ receivedOps msg2) ++ [OAct 1 []])) mW).
    { unfold mMs. change [MReceived msg1; MCache (OAct 0 []); MCache (OAct 3 []); MAssign msg1 h1; MReceived msg2; MCache (OAct 1 [])]
        with (((((([] ++ [MReceived msg1]) ++ [MCache (OAct 0 [])]) ++ [MCache (OAct 3 [])]) ++ [MAssign msg1 h1]) ++ [MReceived msg2]) ++ [MCache (OAct 1 [])]).
      mchain. }
    exact A. }
  repeat split; vm_compute; reflexivity.
Qed.
Example C47_release_ex : exists os w, mhistory mPs (mMs ++ [MCache (ODeact 1)]) os w /\ proper mPs (mMs ++ [MCache (ODeact 1)]) os (MRelease h1) /\
  exists d w', mops (MRelease h1) w = Some d /\ d <> [] /\ run d w = Some w' /\ exists w2, step (OAct 1 []) w' = Some w2 /\ lkRead w2 1 = Some (VUnk UNKNOWN_TYPE).
Proof.
  destruct C47_ex as [A _]. eexists. eexists. split.
  { eapply mh_snoc; [exact A|exact I|exact I|reflexivity|vm_compute; reflexivity]. }
  split. { split; [discriminate|]. intros [|[|[|l]]] s; try (vm_compute; discriminate); intros _ E; vm_compute in E; inversion E; subst s;
           intros [X _]; vm_compute in X; repeat (destruct X as [X|X]; [discriminate|]); tauto. }
  do 2 eexists. split; [vm_compute; reflexivity|]. split; [discriminate|]. split; [vm_compute; reflexivity|]. eexists. split; vm_compute; reflexivity.
Qed.

(** ** Defects
    Releasing a handle nobody holds dereferences a null pointer when a lookup of its parameter
    count was ever active (StateCache.cc 189: cachedValue() is null). *)
Theorem C47_release_unheld_refuted : exists ms os w h, mhistory mPs ms os w /\ (forall l, activeOf os l = 0) /\ mops (MRelease h) w = None.
Proof.
  exists [MCache (OAct 2 []); MCache (ODeact 2)]. eexists. eexists. exists h1. split.
  { change [MCache (OAct 2 []); MCache (ODeact 2)] with (([] ++ [MCache (OAct 2 [])]) ++ [MCache (ODeact 2)]). mchain. }
  split; [|vm_compute; reflexivity]. intros [|[|[|l]]]; reflexivity.
Qed.
(** A release while a lookup watches the parameter count is silently ignored: the handle stays
    readable (StateCache.cc 195-199). *)
Theorem C47_release_ignored_refuted : exists os w d w', mhistory mPs [MAssign msg1 h1; MCache (OAct 2 []); MCache (OAct 1 [])] os w /\
  mops (MRelease h1) w = Some d /\ run d w = Some w' /\ lkRead w' 1 = Some (VStr (lit "x")) /\ lkRead w' 2 = Some (VInt 2).
Proof.
  do 4 eexists. split.
  { change [MAssign msg1 h1; MCache (OAct 2 []); MCache (OAct 1 [])] with ((([] ++ [MAssign msg1 h1]) ++ [MCache (OAct 2 [])]) ++ [MCache (OAct 1 [])]).
    mchain. }
  split; [vm_compute; reflexivity|]. split; [vm_compute; reflexivity|]. split; vm_compute; reflexivity.
Qed.
(** A release while a lookup watches one parameter leaves that parameter readable. *)
Theorem C47_release_leaves_refuted : exists os w d w', mhistory mPs [MAssign msg1 h1; MCache (OAct 1 [])] os w /\
  mops (MRelease h1) w = Some d /\ run d w = Some w' /\ lkRead w' 1 = Some (VStr (lit "x")) /\ current (sCount h1) (w_tr w') = VUnk UNKNOWN_TYPE.
Proof.
  do 4 eexists. split.
  { change [MAssign msg1 h1; MCache (OAct 1 [])] with (([] ++ [MAssign msg1 h1]) ++ [MCache (OAct 1 [])]). mchain. }
  split; [vm_compute; reflexivity|]. split; [vm_compute; reflexivity|]. split; vm_compute; reflexivity.
Qed.
(** Giving a held handle to a second message leaves stale data: a parameter of another type is
    ignored, and the first message's extra parameters remain. *)
Definition msg3 : message := mkMsg (mkState (lit "go") [VStr (lit "y")]) (lit "bob") (intBits 3).
Theorem C47_reassign_refuted : exists os w d w', mhistory mPs [MAssign msg1 h1; MCache (OAct 1 [])] os w /\
  mops (MAssign msg3 h1) w = Some d /\ run d w = Some w' /\
  lkRead w' 1 = Some (VStr (lit "x")) /\ current (sParam h1 0) (w_tr w') = VInt 7 /\ current (sCount h1) (w_tr w') = VInt 1.
Proof.
  do 4 eexists. split.
  { change [MAssign msg1 h1; MCache (OAct 1 [])] with (([] ++ [MAssign msg1 h1]) ++ [MCache (OAct 1 [])]). mchain. }
  split; [vm_compute; reflexivity|]. split; [vm_compute; reflexivity|]. split; [vm_compute; reflexivity|]. split; vm_compute; reflexivity.
Qed.

(** ** MessageAdapter *)
Inductive acall := AMsg (m : message) | AAccept.
Definition adStep (q : list message) (c : acall) : list message * list icall := match c with AMsg m => adEnqueue q m | AAccept => adAccept q end.
Fixpoint adRun (q : list message) (cs : list acall) : list message * list icall :=
  match cs with [] => (q, []) | c :: r => let p := adStep q c in let p' := adRun (fst p) r in (fst p', snd p ++ snd p') end.
(** Messages leave the adapter in the order they arrived. *)
Definition arrivals (cs : list acall) : list message := flat_map (fun c => match c with AMsg m => [m] | _ => [] end) cs.
Definition accepted (is : list icall) : list message := flat_map (fun c => match c with IAccepted m _ => [m] | _ => [] end) is.
Lemma accepted_app a b : accepted (a ++ b) = accepted a ++ accepted b. Proof. apply flat_map_app. Qed.
Theorem C47_adapter_fifo cs : let p := adRun [] cs in accepted (snd p) ++ fst p = arrivals cs.
Proof.
  cut (forall q, let p := adRun q cs in accepted (snd p) ++ fst p = q ++ arrivals cs). { intros H. apply (H []). }
  induction cs as [|c cs IH]; intros q; cbn [adRun fst snd arrivals flat_map]. { cbn. now rewrite app_nil_r. }
  rewrite accepted_app, <- app_assoc, IH. clear IH. destruct c as [m|]; cbn [adStep].
  - destruct q; cbn; rewrite <- ?app_assoc; reflexivity.
  - destruct q as [|m q]; cbn [adAccept fst snd]; auto. destruct q as [|m' q]; reflexivity.
Qed.
(** What the executive was last told about the inbox is the state of the adapter's queue. *)
Definition told (is : list icall) : option (option message) :=
  fold_left (fun acc c => match c with IReceived m => Some (Some m) | IEmpty => Some None | _ => acc end) is None.
Theorem C47_adapter_inbox cs : let p := adRun [] cs in
  match fst p with m :: _ => told (snd p) = Some (Some m) | [] => told (snd p) = Some None \/ arrivals cs = [] end.
Proof.
  set (f := fun (acc : option (option message)) c => match c with IReceived m => Some (Some m) | IEmpty => Some None | _ => acc end).
  assert (G : forall cs q t, (match q with m :: _ => t = Some (Some m) | [] => True end) ->
    let p := adRun q cs in
    match fst p with m :: _ => fold_left f (snd p) t = Some (Some m)
    | [] => fold_left f (snd p) t = Some None \/ (fold_left f (snd p) t = t /\ q = [] /\ arrivals cs = []) end).
  { clear cs. induction cs as [|c cs IH]; intros q t Q; cbn [adRun fst snd].
    - destruct q; cbn; auto.
    - rewrite fold_left_app. destruct c as [m|]; cbn [adStep].
      + destruct q as [|m0 q]; cbn [adEnqueue fst snd].
        * specialize (IH [m] (Some (Some m)) eq_refl). cbn [fold_left f]. cbn [app]. cbn zeta in IH. destruct (fst (adRun [m] cs)); auto.
          destruct IH as [IH|[_ [X _]]]; [auto|discriminate].
        * specialize (IH ((m0 :: q) ++ [m]) t Q). cbn zeta in IH. cbn [fold_left]. destruct (fst _); auto. destruct IH as [IH|[_ [X _]]]; [auto|discriminate].
      + destruct q as [|m0 q]; cbn [adAccept fst snd].
        * cbn [fold_left f]. exact (IH [] t I).
        * destruct q as [|m1 q]; cbn [app fold_left f].
          -- specialize (IH [] (Some None) I). cbn zeta in IH. destruct (fst _); auto. destruct IH as [IH|[IH _]]; auto.
          -- specialize (IH (m1 :: q) (Some (Some m1)) eq_refl). cbn zeta in IH. destruct (fst _); auto. destruct IH as [IH|[_ [X _]]]; [auto|discriminate]. }
  pose proof (G cs [] None I) as X. cbn zeta in *. unfold told. fold f. destruct (fst _); auto. tauto.
Qed.
Example C47_adapter_ex : let p := adRun [] [AMsg msg1; AMsg msg2; AAccept] in
  fst p = [msg2] /\ accepted (snd p) = [msg1] /\ told (snd p) = Some (Some msg2).
Proof. repeat split. Qed.
(** The handle is always the empty string (MessageAdapter.cc 131-133), which the interface
    manager refuses (InterfaceManager.cc 316-319): an accepted message never becomes readable. *)
Theorem C47_adapter_handle_refuted : forall cs c, In c (snd (adRun [] cs)) -> forall m h, c = IAccepted m h -> h = [] /\ queued c = [].
Proof.
  intros cs c I m h ->. assert (h = []); [|subst; auto]. revert I. generalize (@nil message). induction cs as [|x cs IH]; intros q; cbn [adRun snd]; [intros []|].
  rewrite in_app_iff. intros [I|I]; [|eauto]. destruct x; cbn [adStep] in I.
  - destruct q; cbn in I; repeat (destruct I as [I|I]; try discriminate); tauto.
  - destruct q as [|a [|b q]]; cbn in I; repeat (destruct I as [I|I]; try discriminate; try (inversion I; subst; auto; fail)); tauto.
Qed.
(** The command handlers do not return after reporting an error: a ReleaseMessageHandle command
    without parameter is acknowledged as failed twice and twice as succeeded. *)
Theorem C47_adapter_acks_refuted : forall toStr, (List.length (filter (fun c => match c with IAck _ => true | _ => false end) (adRelease toStr [])) > 1)%nat /\
  In (IAck false) (adRelease toStr []) /\ In (IAck true) (adRelease toStr []) /\
  forall v, vtype v <> STRING_TYPE -> In (IAck false) (adRelease toStr [v]) /\ In (IReleased (toStr v)) (adRelease toStr [v]) /\ In (IAck true) (adRelease toStr [v]).
Proof.
  intros toStr. unfold adRelease. cbn. split; [lia|]. split; [tauto|]. split; [tauto|]. intros v N. rewrite (proj2 (Z.eqb_neq _ _) N).
  destruct (vknown v); cbn; tauto.
Qed.

(** Assumptions *)
Print Assumptions C47_inbox.
Print Assumptions C47_handle.
Print Assumptions C47_release_safe.
Print Assumptions C47_release_unheld_refuted.
Print Assumptions C47_release_ignored_refuted.
Print Assumptions C47_release_leaves_refuted.
Print Assumptions C47_reassign_refuted.
Print Assumptions C47_adapter_fifo.
Print Assumptions C47_adapter_inbox.
Print Assumptions C47_adapter_handle_refuted.
Print Assumptions C47_adapter_acks_refuted.
