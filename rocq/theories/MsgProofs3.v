(** C47: the invariant over message histories. *)
From Verif Require Import ValueModel RealModel CacheModel CacheSpec OrderProps CacheProofs CacheProofs2 CacheProofs3 CacheProps MsgModel MsgSpec MsgProofs MsgProofs2.
Open Scope Z_scope.
Local Opaque current.

Definition exp (o : option message) (f : fld) : val :=
  match o with
  | None => VUnk UNKNOWN_TYPE
  | Some m =>
      match f with
      | FText => VStr (s_name (m_body m))
      | FSender => VStr (m_sender m)
      | FArrived => VReal (m_time m)
      | FCount => VInt (Z.of_nat (length (s_params (m_body m))))
      | FParam i => match (if i <? 0 then None else nth_error (s_params (m_body m)) (Z.to_nat i)) with
                    | Some p => valueAfter (VUnk UNKNOWN_TYPE) (UVal p)
                    | None => VUnk UNKNOWN_TYPE
                    end
      end
  end.
Definition typed (t : Z) (v : val) : Prop := vtype v = UNKNOWN_TYPE \/ vtype v = t.
Record MI (ms : list mop) (w : world) : Prop := {
  mi_f : forall h f, current (st h f) (w_tr w) = exp (heldBy ms h) f;
  mi_have : haveIs (inboxOf ms) (current sHave (w_tr w)) /\ typed BOOLEAN_TYPE (current sHave (w_tr w));
  mi_peek : peekIs (inboxOf ms) (current sPeek (w_tr w)) /\ typed STRING_TYPE (current sPeek (w_tr w));
  mi_send : peekSenderIs (inboxOf ms) (current sPeekSender (w_tr w)) /\ typed STRING_TYPE (current sPeekSender (w_tr w)) }.
Lemma held_snoc ms x h : heldBy (ms ++ [x]) h =
  match x with MAssign m k => if str_dec k h then Some m else heldBy ms h | MRelease k => if str_dec k h then None else heldBy ms h | _ => heldBy ms h end.
Proof. unfold heldBy. rewrite fold_left_app. reflexivity. Qed.
Lemma inbox_snoc ms x : inboxOf (ms ++ [x]) = match x with MReceived m => Mail m | MEmpty => NoMail | _ => inboxOf ms end.
Proof. unfold inboxOf. rewrite fold_left_app. reflexivity. Qed.
Lemma MI_same ms ms' w w' : (forall t, okState t -> isMsg t -> current t (w_tr w') = current t (w_tr w)) ->
  (forall h, heldBy ms' h = heldBy ms h) -> inboxOf ms' = inboxOf ms -> MI ms w -> MI ms' w'.
Proof.
  intros C A B [F1 F2 F3 F4].
  assert (K : forall k, In k [sHave; sPeek; sPeekSender] -> current k (w_tr w') = current k (w_tr w)).
  { intros k I. apply C; destruct I as [<-|[<-|[<-|[]]]]; try constructor; unfold isMsg, msgNames; cbn [map In]; tauto. }
  constructor.
  - intros h f. rewrite C, A; auto. apply st_ok. apply st_msg.
  - rewrite K, B; cbn; auto.
  - rewrite K, B; cbn; auto.
  - rewrite K, B; cbn; auto.
Qed.
Lemma after_bool v b : typed BOOLEAN_TYPE v -> valueAfter v (UVal (VBool b)) = VBool b.
Proof. intros [T|T]; unfold valueAfter; rewrite T; reflexivity. Qed.
Lemma after_str v s : typed STRING_TYPE v -> valueAfter v (UVal (VStr s)) = VStr s.
Proof. intros [T|T]; unfold valueAfter; rewrite T; reflexivity. Qed.
Lemma after_unk t v : typed t v -> typed t (valueAfter v UUnk) /\ vknown (valueAfter v UUnk) = false.
Proof. intros [T|T]; cbn; split; auto; [left|right]; auto. Qed.

Lemma fixed_key a b : In a [sHave; sPeek; sPeekSender] -> In b [sHave; sPeek; sPeekSender] -> same_key a b = if str_dec (s_name a) (s_name b) then true else false.
Proof. intros A B. destruct A as [<-|[<-|[<-|[]]]], B as [<-|[<-|[<-|[]]]]; vm_compute; reflexivity. Qed.
Lemma eff_have ops v : (forall o, In o ops -> match o with OUpd s _ | ODel s => same_key s sHave = false | _ => True end) -> fold_left (eff sHave) ops v = v.
Proof.
  revert v. induction ops as [|o ops IH]; intros v H; cbn [fold_left]; auto. rewrite IH by (intros; apply H; now right).
  specialize (H o (or_introl eq_refl)). destruct o; cbn; auto; now rewrite H.
Qed.
Definition fixedStates := [sHave; sPeek; sPeekSender].
Lemma fixed_ok k : In k fixedStates -> okState k. Proof. intros [<-|[<-|[<-|[]]]]; constructor. Qed.
Lemma fold_app3 {A B} (f : A -> B -> A) a b c v : fold_left f (a ++ b ++ c) v = fold_left f c (fold_left f b (fold_left f a v)).
Proof. now rewrite !fold_left_app. Qed.

Lemma received_updDel m : Forall updDel (receivedOps m). Proof. repeat constructor. Qed.
Lemma empty_updDel : Forall updDel emptyOps. Proof. repeat constructor. Qed.
Lemma assign_updDel m h : Forall updDel (assignOps m h).
Proof.
  unfold assignOps. constructor; [apply (st_ok h FText)|]. constructor; [apply (st_ok h FCount)|]. apply Forall_app. split; [apply params_updDel|].
  constructor; [apply (st_ok h FSender)|]. constructor; [apply (st_ok h FArrived)|constructor].
Qed.
Definition delAll (h : str) (n : nat) : list op := ODel (sCount h) :: unparamOps h 0 n ++ [ODel (sText h); ODel (sSender h); ODel (sArrived h)].
Lemma delAll_updDel h n : Forall updDel (delAll h n).
Proof.
  unfold delAll. constructor; [apply (st_ok h FCount)|]. apply Forall_app. split; [apply unparams_updDel|].
  constructor; [apply (st_ok h FText)|]. constructor; [apply (st_ok h FSender)|]. constructor; [apply (st_ok h FArrived)|constructor].
Qed.
Lemma assign_unused ps os m h : Forall (unused ps os) (assignOps m h).
Proof.
  unfold assignOps. constructor; [exact I|]. constructor; [exact I|]. apply Forall_app. split; [|repeat constructor].
  generalize 0. induction (s_params (m_body m)); intros; cbn [paramOps]; constructor; auto. exact I.
Qed.
Lemma delAll_del h n o : In o (delAll h n) -> exists f, o = ODel (st h f).
Proof.
  assert (P : forall i, In o (unparamOps h i n) -> exists f, o = ODel (st h f)).
  { induction n; intros i; cbn [unparamOps In]; [tauto|]. intros [<-|X]; eauto. now exists (FParam i). }
  unfold delAll. cbn [In]. rewrite in_app_iff. cbn [In]. intros [<-|[X|[<-|[<-|[<-|[]]]]]]; eauto; [exists FCount|exists FText|exists FSender|exists FArrived]; reflexivity.
Qed.
Lemma st_about h f s : okLkState s -> same_key s (st h f) = true -> about h s.
Proof.
  intros [_ O] K. pose proof (key_name _ _ K) as N. destruct (key_params _ _ K) as [L [P1 P2]]. split.
  - rewrite N. destruct f; cbn [map In st]; tauto.
  - destruct (s_params s) as [|v r] eqn:E; [destruct f; discriminate L|]. inversion O as [|? ? KV _]; subst.
    exists r. f_equal.
    assert (X : vlt v (VStr h) = false /\ vlt (VStr h) v = false).
    { destruct f; cbn [st sText sSender sArrived sCount sParam s_params params_lt] in P1, P2; destruct (vlt v (VStr h)), (vlt (VStr h) v); auto; discriminate. }
    clear - X KV. destruct X as [X Y]. destruct v; cbn in X, Y, KV; try discriminate. f_equal. now apply sltb_anti.
Qed.
Lemma not_about ps os w h : history ps os w -> (forall l s, 0 < activeOf os l -> stateOf ps os l = Some s -> about h s -> False) ->
  forall f l s', 0 < activeOf os l -> stateOf ps os l = Some s' -> same_key s' (st h f) = false.
Proof.
  intros H U f l s' A E. destruct same_key eqn:K; auto. exfalso. apply (U l s' A E). eapply st_about; eauto. eapply h_okst; eauto.
Qed.

Lemma MI_assign ps ms os w w' m h : history ps os w -> MI ms w -> heldBy ms h = None -> run (assignOps m h) w = Some w' -> MI (ms ++ [MAssign m h]) w'.
Proof.
  intros H M HB R. pose proof (run_eff ps (assignOps m h) os w w') as E.
  assert (E' : forall t, okState t -> current t (w_tr w') = fold_left (eff t) (assignOps m h) (current t (w_tr w))).
  { intros t Ht. destruct (E t H Ht (assign_updDel m h) (assign_unused ps os m h) R) as [_ X]. exact X. }
  clear E. destruct M as [F1 F2 F3 F4].
  assert (KK : forall k, In k fixedStates -> current k (w_tr w') = current k (w_tr w)).
  { intros k K. rewrite E' by now apply fixed_ok. unfold assignOps. cbn [fold_left eff]. rewrite fold_left_app. cbn [fold_left eff].
    change (sText h) with (st h FText). change (sCount h) with (st h FCount). change (sSender h) with (st h FSender). change (sArrived h) with (st h FArrived).
    rewrite !(proj1 (key_fixed h _ k K)). now apply eff_params_fixed. }
  constructor; try (rewrite inbox_snoc, KK by (unfold fixedStates; cbn; tauto); auto).
  intros h' f. rewrite E' by apply st_ok. rewrite F1, held_snoc. unfold assignOps. cbn [fold_left eff]. rewrite fold_left_app. cbn [fold_left eff].
  change (sText h) with (st h FText). change (sCount h) with (st h FCount). change (sSender h) with (st h FSender). change (sArrived h) with (st h FArrived).
  rewrite eff_params, !st_keyb. destruct (str_dec h h') as [->|N].
  - rewrite HB. cbn [exp]. destruct f; repeat (destruct (fld_dec _ _) as [?|?]; try congruence); try reflexivity.
    rewrite Z.sub_0_r. destruct (if i <? 0 then None else _) as [p|]; reflexivity.
  - destruct f; reflexivity.
Qed.

Lemma release_calls ps ms os w h m : history ps os w -> MI ms w -> heldBy ms h = Some m ->
  (forall f l s', 0 < activeOf os l -> stateOf ps os l = Some s' -> same_key s' (st h f) = false) ->
  releaseOps w h = Some (delAll h (length (s_params (m_body m)))).
Proof.
  intros H M HB U. pose proof (mi_f _ _ M h FCount) as C. rewrite HB in C. cbn [exp] in C.
  pose proof (h_INV _ _ _ H) as [V _]. unfold releaseOps.
  destruct (findKey (sCount h) (w_map w)) as [e|] eqn:F.
  2:{ rewrite (i_nokey _ _ V) in C by (auto; apply (st_ok h FCount)). discriminate. }
  pose proof (inv_current _ w (sCount h) e V (st_ok h FCount) F) as S. change (sCount h) with (st h FCount) in S. rewrite C in S.
  assert (X : exists c, e_val (w_ent w e) = Some c /\ cv_v c = VInt (Z.of_nat (length (s_params (m_body m))))).
  { unfold entV in S. destruct (e_val (w_ent w e)) as [c|].
    - exists c. split; auto. destruct S as [S|[S1 S2]]; auto. destruct (cv_v c); try (cbn in S1, S2; discriminate).
      cbn in S2. now apply Z.eqb_eq in S2 as ->.
    - destruct S as [S|[_ S]]; discriminate. }
  destruct X as [c [-> X]]. rewrite X, Nat2Z.id.
  rewrite (unreg_nil ps os w (sCount h) e H (st_ok h FCount) (U FCount) F). reflexivity.
Qed.
Lemma MI_release ps ms os w w' h m : history ps os w -> MI ms w -> heldBy ms h = Some m ->
  (forall f l s', 0 < activeOf os l -> stateOf ps os l = Some s' -> same_key s' (st h f) = false) ->
  run (delAll h (length (s_params (m_body m)))) w = Some w' -> MI (ms ++ [MRelease h]) w'.
Proof.
  intros H M HB U R.
  assert (UN : Forall (unused ps os) (delAll h (length (s_params (m_body m))))).
  { apply Forall_forall. intros o I. destruct (delAll_del _ _ _ I) as [f ->]. cbn. apply U. }
  assert (E' : forall t, okState t -> current t (w_tr w') = fold_left (eff t) (delAll h (length (s_params (m_body m)))) (current t (w_tr w))).
  { intros t Ht. destruct (run_eff ps _ os w w' t H Ht (delAll_updDel h _) UN R) as [_ X]. exact X. }
  destruct M as [F1 F2 F3 F4].
  assert (KK : forall k, In k fixedStates -> current k (w_tr w') = current k (w_tr w)).
  { intros k K. rewrite E' by now apply fixed_ok. unfold delAll. cbn [fold_left eff]. rewrite fold_left_app. cbn [fold_left eff].
    change (sText h) with (st h FText). change (sCount h) with (st h FCount). change (sSender h) with (st h FSender). change (sArrived h) with (st h FArrived).
    rewrite !(proj1 (key_fixed h _ k K)). now apply eff_unparams_fixed. }
  constructor; try (rewrite inbox_snoc, KK by (unfold fixedStates; cbn; tauto); auto).
  intros h' f. rewrite E' by apply st_ok. rewrite F1, held_snoc. unfold delAll. cbn [fold_left eff]. rewrite fold_left_app. cbn [fold_left eff].
  change (sText h) with (st h FText). change (sCount h) with (st h FCount). change (sSender h) with (st h FSender). change (sArrived h) with (st h FArrived).
  rewrite eff_unparams, !st_keyb. destruct (str_dec h h') as [<-|N].
  - rewrite HB. cbn [exp]. destruct f; repeat (destruct (fld_dec _ _) as [?|?]; try congruence); try reflexivity.
    destruct (Z.leb_spec 0 i), (Z.ltb_spec i (0 + Z.of_nat (length (s_params (m_body m))))); cbn [andb]; auto.
    + destruct (Z.ltb_spec i 0); [lia|]. rewrite (proj2 (nth_error_None _ _)); auto. lia.
    + destruct (Z.ltb_spec i 0); [auto|lia].
    + destruct (Z.ltb_spec i 0); [auto|lia].
  - destruct f; reflexivity.
Qed.

Lemma fixed_eff k ops v : In k fixedStates -> fold_left (eff k) ops v = fold_left (fun v o => match o with
  | OUpd s u => if same_key s k then valueAfter v u else v | ODel s => if same_key s k then VUnk UNKNOWN_TYPE else v | _ => v end) ops v.
Proof. reflexivity. Qed.
Lemma key_fixed2 h f k : In k fixedStates -> same_key k (st h f) = false.
Proof. intros K. now apply key_fixed. Qed.
Lemma MI_received ps ms os w w' m : history ps os w -> MI ms w -> run (receivedOps m) w = Some w' -> MI (ms ++ [MReceived m]) w'.
Proof.
  intros H M R.
  assert (UN : Forall (unused ps os) (receivedOps m)) by (repeat constructor).
  assert (E' : forall t, okState t -> current t (w_tr w') = fold_left (eff t) (receivedOps m) (current t (w_tr w))).
  { intros t Ht. destruct (run_eff ps _ os w w' t H Ht (received_updDel m) UN R) as [_ X]. exact X. }
  destruct M as [F1 [F2 F2'] [F3 F3'] [F4 F4']]. unfold receivedOps in E'. cbn [fold_left eff] in E'.
  constructor; rewrite ?inbox_snoc.
  - intros h f. rewrite E' by apply st_ok. rewrite !key_fixed2 by (cbn; tauto). rewrite F1, held_snoc. reflexivity.
  - rewrite E' by constructor. rewrite !fixed_key by (cbn; tauto). cbn [sHave sPeek sPeekSender s_name].
    repeat (destruct (str_dec _ _) as [X|X]; try (vm_compute in X; discriminate); try congruence). rewrite after_bool by auto. split; [reflexivity|right; reflexivity].
  - rewrite E' by constructor. rewrite !fixed_key by (cbn; tauto). cbn [sHave sPeek sPeekSender s_name].
    repeat (destruct (str_dec _ _) as [X|X]; try (vm_compute in X; discriminate); try congruence). rewrite after_str by auto. split; [reflexivity|right; reflexivity].
  - rewrite E' by constructor. rewrite !fixed_key by (cbn; tauto). cbn [sHave sPeek sPeekSender s_name].
    repeat (destruct (str_dec _ _) as [X|X]; try (vm_compute in X; discriminate); try congruence). rewrite after_str by auto. split; [reflexivity|right; reflexivity].
Qed.
Lemma MI_empty ps ms os w w' : history ps os w -> MI ms w -> run emptyOps w = Some w' -> MI (ms ++ [MEmpty]) w'.
Proof.
  intros H M R.
  assert (UN : Forall (unused ps os) emptyOps) by (repeat constructor).
  assert (E' : forall t, okState t -> current t (w_tr w') = fold_left (eff t) emptyOps (current t (w_tr w))).
  { intros t Ht. destruct (run_eff ps _ os w w' t H Ht empty_updDel UN R) as [_ X]. exact X. }
  destruct M as [F1 [F2 F2'] [F3 F3'] [F4 F4']]. unfold emptyOps in E'. cbn [fold_left eff] in E'.
  constructor; rewrite ?inbox_snoc.
  - intros h f. rewrite E' by apply st_ok. rewrite !key_fixed2 by (cbn; tauto). rewrite F1, held_snoc. reflexivity.
  - rewrite E' by constructor. rewrite !fixed_key by (cbn; tauto). cbn [sHave sPeek sPeekSender s_name].
    repeat (destruct (str_dec _ _) as [X|X]; try (vm_compute in X; discriminate); try congruence). rewrite after_bool by auto. split; [reflexivity|right; reflexivity].
  - rewrite E' by constructor. rewrite !fixed_key by (cbn; tauto). cbn [sHave sPeek sPeekSender s_name].
    repeat (destruct (str_dec _ _) as [X|X]; try (vm_compute in X; discriminate); try congruence). destruct (after_unk _ _ F3'). split; auto.
  - rewrite E' by constructor. rewrite !fixed_key by (cbn; tauto). cbn [sHave sPeek sPeekSender s_name].
    repeat (destruct (str_dec _ _) as [X|X]; try (vm_compute in X; discriminate); try congruence). destruct (after_unk _ _ F4'). split; auto.
Qed.
Lemma stateOf_snoc ps os o l : stateOf ps (os ++ [o]) l = match o with OEnv m s _ => if Nat.eqb m l then s else stateOf ps os l | _ => stateOf ps os l end.
Proof. unfold stateOf. rewrite fold_left_app. reflexivity. Qed.
Lemma MI_cache ps ms os w w' o : history ps os w -> MI ms w -> okOp o -> proper ps ms os (MCache o) -> step o w = Some w' -> MI (ms ++ [MCache o]) w'.
Proof.
  intros H M O P S. pose proof (history_step _ _ _ _ _ H O S) as H'.
  apply (MI_same ms _ w); auto; try (intros; rewrite ?held_snoc, ?inbox_snoc; reflexivity).
  intros t Ht It.
  assert (REG : forall l, l_reg (w_lk w' l) = true -> stateOf ps (os ++ [o]) l = Some (l_st (w_lk w' l))).
  { intros l R. pose proof (h_INV _ _ _ H') as [_ RL]. destruct (RL l) as (_ & _ & D & F & _). destruct (proj1 D R) as [C E].
    specialize (F C). rewrite (h_env _ _ _ H') in *. destruct (stateOf ps (os ++ [o]) l) as [s|]; [|tauto]. destruct F as [_ [F _]]. now rewrite F. }
  destruct o; try (eapply touch_current; [apply step_touch; [exact S|discriminate]|]; cbn [may]; try tauto).
  - intros k [A [-> B]]. apply REG in B. rewrite stateOf_snoc in B. cbn [proper] in P. apply msg_other; auto. intros X. apply A. eapply P; eauto.
  - intros k [A [-> B]]. apply REG in B. rewrite stateOf_snoc, Nat.eqb_refl in B. subst s. cbn [proper] in P. apply msg_other; auto.
  - intros k ->. cbn [proper] in P. now apply msg_other.
  - cbn [proper] in P. cbn [step] in S. destruct (findKey s (w_map w)) as [e|]; [|now inversion S]. destruct (e_lk _); inversion S; subst; auto.
    cbn [w_tr emit]. rewrite current_del, msg_other; auto.
Qed.
Theorem mhistory_MI ps ms os w : mhistory ps ms os w -> history ps os w /\ MI ms w.
Proof.
  induction 1 as [OK|ms os w x d w' H [IH1 IH2] P O D R].
  - split.
    + constructor; auto. 
    + constructor; cbn; try (split; [reflexivity|left; reflexivity]). intros h f. reflexivity.
  - destruct x as [o|m| |m h|h]; cbn [mops] in D.
    + inversion D; subst. cbn [run] in R. ob R. inversion R; subst. split; [eapply history_step; eauto|eapply MI_cache; eauto].
    + inversion D; subst. split; [|eapply MI_received; eauto].
      eapply (run_eff ps _ os w w' sHave); eauto using received_updDel. constructor. repeat constructor.
    + inversion D; subst. split; [|eapply MI_empty; eauto].
      eapply (run_eff ps _ os w w' sHave); eauto using empty_updDel. constructor. repeat constructor.
    + inversion D; subst. split; [|eapply MI_assign; eauto].
      eapply (run_eff ps _ os w w' sHave); eauto using assign_updDel, assign_unused. constructor.
    + destruct P as [HB U]. destruct (heldBy ms h) as [m|] eqn:E; [|congruence].
      pose proof (not_about ps os w h IH1 U) as U'. pose proof (release_calls ps ms os w h m IH1 IH2 E U') as C. rewrite C in D. inversion D; subst.
      split; [|eapply MI_release; eauto].
      eapply (run_eff ps _ os w w' sHave); eauto using delAll_updDel. constructor.
      apply Forall_forall. intros o I. destruct (delAll_del _ _ _ I) as [f ->]. cbn. apply U'.
Qed.
