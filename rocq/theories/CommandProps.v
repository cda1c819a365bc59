(** C15: command acknowledgements, return values and requests. *)
From Coq Require Import List ZArith Bool Lia.
From Verif Require Import VarModel VarProps CommandModel.
Import ListNotations.

Section S.
Context {N V R T : Type} (teq : T -> T -> bool).
Notation cop := (cop N V R T).
Notation cmd := (cmd N V R T).

(** ** Specification: what a history of events means (newest first). *)

Fixpoint isOn (h : list cop) : bool :=
  match h with
  | [] => false
  | CAct _ _ :: _ => true
  | CDeact :: _ => false
  | _ :: r => isOn r
  end.

(** The last handle received in the current (or, after it ended, the last) run of the command. *)
Fixpoint handleOf (h : list cop) : option Z :=
  match h with
  | [] => None
  | CAct _ _ :: _ => None
  | CHandle v :: r => if isOn r then Some v else handleOf r
  | _ :: r => handleOf r
  end.

(** Whether the abort of the current run has been acknowledged. *)
Fixpoint abortOf (h : list cop) : bool :=
  match h with
  | [] => false
  | CAct _ _ :: _ => false
  | CAckAbort b :: r => if isOn r then b else abortOf r
  | _ :: r => abortOf r
  end.

(** How many expressions outside the command hold the handle variable, the abort-complete condition. *)
Fixpoint ackUses (h : list cop) : nat :=
  match h with
  | [] => 0 | CUseAck :: r => S (ackUses r) | CUnuseAck :: r => pred (ackUses r) | _ :: r => ackUses r end.
Fixpoint abortUses (h : list cop) : nat :=
  match h with
  | [] => 0 | CUseAbort :: r => S (abortUses r) | CUnuseAbort :: r => pred (abortUses r) | _ :: r => abortUses r end.

(** Conditions deactivate only what they activated; the abort-complete condition
    is used only during a run (CommandNode.cc: activated on entering FAILING,
    deactivated before the command is). *)
Fixpoint tidy (h : list cop) : Prop :=
  match h with
  | [] => True
  | CAct _ _ :: r | CDeact :: r => abortUses r = 0 /\ tidy r
  | CUseAbort :: r => isOn r = true /\ tidy r
  | CUnuseAbort :: r => 0 < abortUses r /\ tidy r
  | CUnuseAck :: r => 0 < ackUses r /\ tidy r
  | _ :: r => tidy r
  end.

(** What happens to the return variable. *)
Fixpoint destHist (h : list cop) : list (vop T) :=
  match h with
  | [] => []
  | CAct _ iv :: r => VAct iv :: destHist r
  | CDeact :: r => VDeact :: destHist r
  | CReturn x :: r => if isOn r then VSet x :: destHist r else destHist r
  | CDest o :: r => o :: destHist r
  | _ :: r => destHist r
  end.

(** The history without the messages that arrive while the command is not running. *)
Fixpoint honoured (h : list cop) : list cop :=
  match h with
  | [] => []
  | o :: r =>
    match o with
    | CHandle _ | CReturn _ | CAckAbort _ => if isOn r then o :: honoured r else honoured r
    | _ => o :: honoured r
    end
  end.

(** ** Invariant *)
Definition CI (h : list cop) (c : cmd) : Prop :=
  c_active c = isOn h
  /\ c_handle c = match handleOf h with Some v => v | None => NO_HANDLE end
  /\ (forall v, handleOf h = Some v -> (NO_HANDLE < v < HANDLE_MAX)%Z)
  /\ c_ackCnt c = ackUses h + (if isOn h then 1 else 0)
  /\ sb_count (c_abort c) = abortUses h + (if isOn h then 1 else 0)
  /\ sb_val (c_abort c) = abortOf h
  /\ (abortUses h = 0 \/ isOn h = true).

Ltac inv_ok H := repeat match type of H with
  | bind ?r _ = Ok _ => let E := fresh "E" in destruct r eqn:E; cbn [bind] in H; try discriminate H
  end.

Lemma fixName_frame f (e : cenv N V R) (c : cmd) : c_active (fixName f e c) = c_active c /\ c_handle (fixName f e c) = c_handle c
  /\ c_ackCnt (fixName f e c) = c_ackCnt c /\ c_abort (fixName f e c) = c_abort c /\ c_dest (fixName f e c) = c_dest c
  /\ c_checked (fixName f e c) = c_checked c
  /\ c_argsFixed (fixName f e c) = c_argsFixed c /\ c_args (fixName f e c) = c_args c
  /\ c_resFixed (fixName f e c) = c_resFixed c /\ c_res (fixName f e c) = c_res c.
Proof. unfold fixName. destruct (match cf_name f with Some _ => _ | None => _ end); cbn; repeat split. Qed.
Lemma fixRes_frame f (e : cenv N V R) (c c' : cmd) : fixRes f e c = Ok c' -> c_active c' = c_active c /\ c_handle c' = c_handle c
  /\ c_ackCnt c' = c_ackCnt c /\ c_abort c' = c_abort c /\ c_dest c' = c_dest c /\ c_checked c' = c_checked c
  /\ c_nameFixed c' = c_nameFixed c /\ c_name c' = c_name c /\ c_argsFixed c' = c_argsFixed c /\ c_args c' = c_args c
  /\ c_resFixed c' = true.
Proof.
  unfold fixRes. destruct (match cf_res f with Some _ => _ | None => _ end); [|discriminate].
  intros H; injection H as <-. cbn. repeat split.
Qed.
Lemma checkConstant_frame f (e : cenv N V R) (c c' : cmd) : checkConstant f e c = Ok c' -> c_active c' = c_active c /\ c_handle c' = c_handle c
  /\ c_ackCnt c' = c_ackCnt c /\ c_abort c' = c_abort c /\ c_dest c' = c_dest c.
Proof.
  unfold checkConstant. intros H.
  pose proof (fixName_frame f e c) as F1.
  set (c1 := if isSome (cf_name f) then fixName f e c else c) in *.
  assert (G1 : c_active c1 = c_active c /\ c_handle c1 = c_handle c /\ c_ackCnt c1 = c_ackCnt c /\ c_abort c1 = c_abort c /\ c_dest c1 = c_dest c)
   by (unfold c1; destruct (isSome (cf_name f)); intuition).
  clearbody c1. clear F1.
  set (c2 := if isSome (cf_args f) then fixArgs f e c1 else c1) in *.
  assert (G2 : c_active c2 = c_active c /\ c_handle c2 = c_handle c /\ c_ackCnt c2 = c_ackCnt c /\ c_abort c2 = c_abort c /\ c_dest c2 = c_dest c)
   by (unfold c2; destruct (isSome (cf_args f)); intuition).
  clearbody c2. clear G1.
  destruct (isSome (cf_res f)).
  - destruct (fixRes f e c2) as [c3| |] eqn:E3; try discriminate. cbn in H. injection H as <-. cbn.
    apply fixRes_frame in E3. intuition congruence.
  - cbn in H. injection H as <-. cbn. auto.
Qed.
Lemma cmdFix_frame f (e : cenv N V R) (c c' : cmd) : cmdFix f e c = Ok c' -> c_active c = true /\ c_active c' = c_active c /\ c_handle c' = c_handle c
  /\ c_ackCnt c' = c_ackCnt c /\ c_abort c' = c_abort c /\ c_dest c' = c_dest c.
Proof.
  unfold cmdFix. destruct (c_active c) eqn:Ea; [|discriminate]. intros H.
  pose proof (fixName_frame f e c) as F1.
  set (c1 := if c_nameFixed c then c else fixName f e c) in *.
  assert (G1 : c_active c1 = true /\ c_handle c1 = c_handle c /\ c_ackCnt c1 = c_ackCnt c /\ c_abort c1 = c_abort c /\ c_dest c1 = c_dest c)
   by (unfold c1; destruct (c_nameFixed c); intuition congruence).
  clearbody c1. clear F1.
  set (c2 := if c_argsFixed c1 then c1 else fixArgs f e c1) in *.
  assert (G2 : c_active c2 = true /\ c_handle c2 = c_handle c /\ c_ackCnt c2 = c_ackCnt c /\ c_abort c2 = c_abort c /\ c_dest c2 = c_dest c)
   by (unfold c2; destruct (c_argsFixed c1); intuition).
  clearbody c2. clear G1.
  destruct (c_resFixed c2).
  - injection H as <-. intuition congruence.
  - apply fixRes_frame in H. intuition congruence.
Qed.
Lemma cmdActivate_frame f (e : cenv N V R) iv (c c' : cmd) : cmdActivate f e iv c = Ok c' ->
  c_active c = false /\ c_active c' = true /\ c_handle c' = NO_HANDLE /\ c_ackCnt c' = S (c_ackCnt c)
  /\ c_abort c' = sbActivate (c_abort c)
  /\ c_dest c' = match c_dest c with Some v => Some (fst (uvActivate iv v)) | None => None end.
Proof.
  unfold cmdActivate. destruct (c_active c); [discriminate|]. intros H.
  match type of H with context [bind (if ?b then Ok ?x else ?y) _] => set (c0 := x) in * end.
  destruct (c_checked c0) eqn:Ec; cbn [bind] in H.
  - injection H as <-. cbn. repeat split.
  - destruct (checkConstant f e c0) as [c1| |] eqn:E1; try discriminate. cbn [bind] in H. injection H as <-. cbn.
    apply checkConstant_frame in E1. destruct E1 as [_ [-> [-> [-> ->]]]]. cbn. repeat split.
Qed.

Ltac fin := repeat match goal with |- _ /\ _ => split | |- forall _, handleOf _ = _ -> _ => assumption end; auto; try congruence.

Lemma CI_step f h c o c' p : CI h c -> tidy (o :: h) -> cstep teq f o c = Ok (c', p) -> CI (o :: h) c'.
Proof.
  intros (Ha & Hh & Hv & Hk & Hc & Hb & Hz) Ht Hs. unfold CI.
  destruct o as [e iv|e|v|x|b| |o| | | |]; cbn [cstep] in Hs.
  - destruct (cmdActivate f e iv c) as [c1| |] eqn:E; try discriminate. cbn in Hs. injection Hs as <- <-.
    apply cmdActivate_frame in E. destruct E as (E0 & E1 & E2 & E3 & E4 & E5).
    cbn [isOn handleOf ackUses abortUses abortOf tidy] in *. destruct Ht as [Ht _].
    rewrite E0 in Ha. rewrite <- Ha in *. rewrite E1, E2, E3, E4, Hk. unfold sbActivate. cbn. rewrite Hc, Ht. cbn.
    repeat split; auto; try discriminate; lia.
  - destruct (cmdFix f e c) as [c1| |] eqn:E; try discriminate. cbn in Hs. injection Hs as <- <-.
    apply cmdFix_frame in E. destruct E as (E0 & E1 & E2 & E3 & E4 & E5).
    cbn [isOn handleOf ackUses abortUses abortOf]. rewrite E1, E2, E3, E4. fin.
  - unfold cmdSetHandle in Hs. cbn [isOn handleOf ackUses abortUses abortOf]. rewrite Ha in Hs.
    destruct (isOn h) eqn:Eo.
    + destruct (Z.ltb_spec NO_HANDLE v); [|discriminate]. destruct (Z.ltb_spec v HANDLE_MAX); [|discriminate].
      cbn in Hs. injection Hs as <- <-. cbn. repeat split; auto; try congruence; intros; congruence.
    + injection Hs as <- <-. fin.
  - cbn [bind] in Hs. injection Hs as <- <-. unfold cmdReturn. cbn [isOn handleOf ackUses abortUses abortOf].
    destruct (c_active c) eqn:Eact; [|cbn; fin]. destruct (c_dest c) as [d|]; [|cbn; fin].
    destruct (uvSet teq x d). cbn. fin.
  - cbn [bind] in Hs. injection Hs as <- <-. unfold cmdAckAbort. cbn [isOn handleOf ackUses abortUses abortOf].
    rewrite Ha. destruct (isOn h) eqn:Eo; [|fin].
    cbn. unfold sbSet. rewrite Hc, Hk. replace (abortUses h + 1) with (S (abortUses h)) by lia. cbn. fin; lia.
  - unfold cmdDeactivate in Hs. rewrite Ha in Hs. destruct (isOn h) eqn:Eo; [|discriminate].
    unfold sbDeact in Hs. rewrite Hc, Hk in Hs. rewrite !Nat.add_1_r in Hs. cbn [bind] in Hs.
    destruct Ht as [Ht _].
    destruct (c_dest c) as [d|].
    + destruct (uvDeactivate d) as [[d' q]| |]; try discriminate. cbn in Hs. injection Hs as <- <-. cbn.
      rewrite Ht. repeat split; auto; apply Hv; auto.
    + cbn in Hs. injection Hs as <- <-. cbn. rewrite Ht. repeat split; auto; apply Hv; auto.
  - cbn [isOn handleOf ackUses abortUses abortOf]. destruct (c_dest c) as [d|].
    + destruct (uvStep teq o d) as [[d' q]| |]; try discriminate. cbn in Hs. injection Hs as <- <-. cbn. fin.
    + cbn in Hs. injection Hs as <- <-. fin.
  - cbn in Hs. injection Hs as <- <-. cbn. rewrite Hk. fin.
  - cbn [isOn handleOf ackUses abortUses abortOf]. destruct Ht as [Ht _]. rewrite Hk in Hs.
    destruct (ackUses h) as [|n]; [lia|]. cbn in Hs. injection Hs as <- <-. cbn. fin.
  - cbn in Hs. injection Hs as <- <-. destruct Ht as [Ht _]. cbn. rewrite Hc, Hk, Ht.
    replace (abortUses h + 1) with (S (abortUses h)) by lia. cbn. fin; lia.
  - cbn [isOn handleOf ackUses abortUses abortOf]. destruct Ht as [Ht _]. unfold sbDeact in Hs. rewrite Hc in Hs.
    destruct (abortUses h) as [|n]; [lia|]. cbn in Hs. injection Hs as <- <-. cbn.
    destruct Hz as [Hz|Hz]; [lia|]. fin.
Qed.

Lemma CI_run f d h c : tidy h -> crun teq f h (newCmd d) = Ok c -> CI h c.
Proof.
  revert c. induction h as [|o h IH]; intros c Ht E.
  - cbn in E. injection E as <-. unfold CI. cbn. repeat split; auto; discriminate.
  - cbn [crun] in E. destruct (crun teq f h (newCmd d)) as [c0| |]; try discriminate. cbn [bind] in E.
    destruct (cstep teq f o c0) as [[c1 q]| |] eqn:Es; try discriminate. cbn in E. injection E as <-.
    eapply CI_step; eauto. apply IH; auto. destruct o; cbn in Ht; tauto.
Qed.

(** ** Theorems *)

(** Whatever the order of events, the handle read by plan expressions is the last
    one received during the current run (unknown before the first, and unless
    somebody keeps the variable active), and the abort status is the last
    acknowledgement received during the current run. *)
Theorem C15_history f d h c : tidy h -> crun teq f h (newCmd d) = Ok c ->
  c_active c = isOn h
  /\ ackRead c = (if isOn h || negb (Nat.eqb (ackUses h) 0) then handleOf h else None)
  /\ abortRead c = abortOf h.
Proof.
  intros Ht E. destruct (CI_run f d h c Ht E) as (Ha & Hh & Hv & Hk & Hc & Hb & Hz).
  split; auto. split; auto. unfold ackRead. rewrite Hk, Hh.
  assert (Hno : match handleOf h with Some v => Z.eqb v NO_HANDLE = false | None => True end).
  { destruct (handleOf h) as [v|]; auto. specialize (Hv v eq_refl). apply Z.eqb_neq. lia. }
  destruct (isOn h); cbn [orb].
  - rewrite Nat.add_1_r. cbn [Nat.eqb]. destruct (handleOf h); [rewrite Hno; auto|rewrite Z.eqb_refl; auto].
  - rewrite Nat.add_0_r. destruct (Nat.eqb (ackUses h) 0); cbn [negb]; auto.
    destruct (handleOf h); [rewrite Hno; auto|rewrite Z.eqb_refl; auto].
Qed.

(** Messages that arrive while the command is not running change nothing: the
    command and everything readable is as if they had not been sent. *)
Theorem C15_late_messages_ignored f d h c : tidy h -> crun teq f h (newCmd d) = Ok c ->
  crun teq f (honoured h) (newCmd d) = Ok c.
Proof.
  revert c. induction h as [|o h IH]; intros c Ht E; auto.
  assert (Hth : tidy h) by (destruct o; cbn in Ht; tauto).
  cbn [crun] in E. destruct (crun teq f h (newCmd d)) as [c0| |] eqn:E0; try discriminate. cbn [bind] in E.
  specialize (IH c0 Hth eq_refl).
  destruct (CI_run f d h c0 Hth E0) as (Ha & _).
  destruct o as [e iv|e|v|x|b| |o| | | |]; cbn [honoured]; try (cbn [crun]; rewrite IH; exact E).
  - destruct (isOn h) eqn:Eo; [cbn [crun]; rewrite IH; exact E|].
    cbn [cstep] in E. unfold cmdSetHandle in E. rewrite Ha in E. cbn in E. injection E as <-. auto.
  - destruct (isOn h) eqn:Eo; [cbn [crun]; rewrite IH; exact E|].
    cbn [cstep] in E. unfold cmdReturn in E. rewrite Ha in E. cbn in E. injection E as <-. auto.
  - destruct (isOn h) eqn:Eo; [cbn [crun]; rewrite IH; exact E|].
    cbn [cstep] in E. unfold cmdAckAbort in E. rewrite Ha in E. cbn in E. injection E as <-. auto.
Qed.

(** The return variable sees exactly the activations and the values returned
    during a run, in order, among whatever else the plan does with it. *)
Theorem C15_return_value f v0 h c : tidy h -> crun teq f h (newCmd (Some v0)) = Ok c ->
  exists v, c_dest c = Some v /\ runv teq (destHist h) v0 = Ok v.
Proof.
  revert c. induction h as [|o h IH]; intros c Ht E.
  - cbn in E. injection E as <-. exists v0. auto.
  - assert (Hth : tidy h) by (destruct o; cbn in Ht; tauto).
    cbn [crun] in E. destruct (crun teq f h (newCmd (Some v0))) as [c0| |] eqn:E0; try discriminate. cbn [bind] in E.
    destruct (IH c0 Hth eq_refl) as [v [Ev Er]].
    destruct (CI_run f (Some v0) h c0 Hth E0) as (Ha & _).
    destruct (cstep teq f o c0) as [[c1 q]| |] eqn:Es; try discriminate. cbn in E. injection E as <-.
    destruct o as [e iv|e|vv|x|b| |o| | | |]; cbn [destHist cstep] in *.
    + destruct (cmdActivate f e iv c0) as [c2| |] eqn:E; try discriminate. cbn in Es. injection Es as <- <-.
      apply cmdActivate_frame in E. destruct E as (_ & _ & _ & _ & _ & E). rewrite Ev in E.
      eexists. split; [exact E|]. cbn [runv]. rewrite Er. cbn. reflexivity.
    + destruct (cmdFix f e c0) as [c2| |] eqn:E; try discriminate. cbn in Es. injection Es as <- <-.
      apply cmdFix_frame in E. destruct E as (_ & _ & _ & _ & _ & E). exists v. rewrite E. auto.
    + unfold cmdSetHandle in Es. destruct (c_active c0); [|injection Es as <- <-; eauto].
      destruct (_ && _); [|discriminate]. injection Es as <- <-. exists v. auto.
    + unfold cmdReturn in Es. rewrite Ha, Ev in Es. destruct (isOn h).
      * cbn [bind] in Es. cbn [runv]. rewrite Er. cbn [bind uvStep]. destruct (uvSet teq x v) as [v' p'] eqn:Eu. cbn in Es.
        injection Es as <- <-. exists v'. auto.
      * cbn in Es. injection Es as <- <-. exists v; auto.
    + unfold cmdAckAbort in Es. destruct (c_active c0); cbn in Es; injection Es as <- <-; exists v; auto.
    + unfold cmdDeactivate in Es. destruct (c_active c0); [|discriminate].
      destruct (sbDeact (c_abort c0)); try discriminate. cbn [bind] in Es.
      destruct (c_ackCnt c0); [discriminate|]. rewrite Ev in Es.
      destruct (uvDeactivate v) as [[v' p']| |] eqn:Ed; try discriminate. cbn in Es. injection Es as <- <-.
      exists v'. split; auto. cbn [runv]. rewrite Er. cbn [bind uvStep]. rewrite Ed. reflexivity.
    + rewrite Ev in Es. destruct (uvStep teq o v) as [[v' p']| |] eqn:Ed; try discriminate. cbn in Es.
      injection Es as <- <-. exists v'. split; auto. cbn [runv]. rewrite Er. cbn [bind]. rewrite Ed. reflexivity.
    + cbn in Es. injection Es as <- <-. exists v; auto.
    + destruct (c_ackCnt c0); [discriminate|]. cbn in Es. injection Es as <- <-. exists v; auto.
    + cbn in Es. injection Es as <- <-. exists v; auto.
    + destruct (sbDeact (c_abort c0)); try discriminate. cbn in Es. injection Es as <- <-. exists v; auto.
Qed.

(** In particular a value returned while the command runs is what the variable
    then reads, if the variable is active. *)
Theorem C15_returned_value_read f v0 h c x v : tidy h ->
  crun teq f (CReturn x :: h) (newCmd (Some v0)) = Ok c -> isOn h = true ->
  c_dest c = Some v -> 0 < uv_count v -> destRead c = Some x.
Proof.
  intros Ht E Ho Hd Hc. cbn [crun] in E.
  destruct (crun teq f h (newCmd (Some v0))) as [c0| |] eqn:E0; try discriminate. cbn [bind cstep] in E.
  destruct (CI_run f (Some v0) h c0 Ht E0) as (Ha & _).
  destruct (C15_return_value f v0 h c0 Ht E0) as [w [Ew _]].
  unfold cmdReturn in E. rewrite Ha, Ho, Ew in E. destruct (uvSet teq x w) as [w' p] eqn:Eu.
  cbn in E. injection E as <-. cbn in Hd. injection Hd as <-. unfold destRead. cbn.
  unfold uvRead, uvActive. destruct (uv_count w') as [|n] eqn:Ecn; [lia|]. cbn.
  destruct x as [y|]; cbn in Eu; injection Eu as <- _; cbn; auto.
Qed.

(** The request sent is a snapshot: between fixing the values at the start of a
    run and the end of that run, name, arguments and resources are those the
    expressions had when the run started, whatever happens to the expressions
    and in earlier runs. *)
Definition cName (f : cconf N V R) (e : cenv N V R) := match cf_name f with Some n => Some n | None => en_name e end.
Definition cArgs (f : cconf N V R) (e : cenv N V R) := match cf_args f with Some a => a | None => en_args e end.
Definition cRes (f : cconf N V R) (e : cenv N V R) := match cf_res f with Some r => Some r | None => en_res e end.
Definition between (h : list cop) : Prop :=
  forall o, In o h -> match o with CDeact | CFix _ | CAct _ _ => False | _ => True end.

(** Constants are fixed once and for all. *)
Definition FI (f : cconf N V R) (c : cmd) : Prop :=
  (forall n, cf_name f = Some n -> c_checked c = true -> c_nameFixed c = true /\ c_name c = Some n)
  /\ (forall a, cf_args f = Some a -> c_checked c = true -> c_argsFixed c = true /\ c_args c = a)
  /\ (forall r, cf_res f = Some r -> c_checked c = true -> c_resFixed c = true /\ c_res c = r).

Definition reqEq (c c' : cmd) : Prop :=
  c_checked c' = c_checked c /\ c_nameFixed c' = c_nameFixed c /\ c_name c' = c_name c /\ c_argsFixed c' = c_argsFixed c
  /\ c_args c' = c_args c /\ c_resFixed c' = c_resFixed c /\ c_res c' = c_res c.

Lemma cstep_req f o c c' q : cstep teq f o c = Ok (c', q) ->
  match o with CDeact | CFix _ | CAct _ _ => False | _ => True end -> reqEq c c'.
Proof.
  intros Es Ho. destruct o as [e iv|e|vv|x|b| |o| | | |]; try contradiction; cbn [cstep] in Es.
  - unfold cmdSetHandle in Es. destruct (c_active c).
    + destruct (_ && _); [|discriminate]. injection Es as <- <-. repeat split.
    + injection Es as <- <-. repeat split.
  - unfold cmdReturn in Es. destruct (c_active c); [|cbn in Es; injection Es as <- <-; repeat split].
    destruct (c_dest c) as [d|]; [|cbn in Es; injection Es as <- <-; repeat split].
    destruct (uvSet teq x d). cbn in Es. injection Es as <- <-. repeat split.
  - unfold cmdAckAbort in Es. destruct (c_active c); cbn in Es; injection Es as <- <-; repeat split.
  - destruct (c_dest c) as [d|].
    + destruct (uvStep teq o d) as [[d' r]| |]; try discriminate. cbn in Es. injection Es as <- <-. repeat split.
    + cbn in Es. injection Es as <- <-. repeat split.
  - cbn in Es. injection Es as <- <-. repeat split.
  - destruct (c_ackCnt c); [discriminate|]. cbn in Es. injection Es as <- <-. repeat split.
  - cbn in Es. injection Es as <- <-. repeat split.
  - destruct (sbDeact (c_abort c)); try discriminate. cbn in Es. injection Es as <- <-. repeat split.
Qed.

Lemma FI_req f c c' : reqEq c c' -> FI f c -> FI f c'.
Proof. intros (R1 & R2 & R3 & R4 & R5 & R6 & R7) F. unfold FI. rewrite R1, R2, R3, R4, R5, R6, R7. exact F. Qed.

(** After activation: constants fixed, the rest not. *)
Definition fresh (f : cconf N V R) (c : cmd) : Prop :=
  c_checked c = true /\ FI f c
  /\ (cf_name f = None -> c_nameFixed c = false) /\ (cf_args f = None -> c_argsFixed c = false)
  /\ (cf_res f = None -> c_resFixed c = false).

Lemma activate_fresh f (e : cenv N V R) iv (c c' : cmd) : FI f c -> cmdActivate f e iv c = Ok c' -> fresh f c'.
Proof.
  intros F. unfold cmdActivate. destruct (c_active c); [discriminate|].
  match goal with |- context [bind (if ?b then Ok ?x else ?y) _] => set (c0 := x) in * end.
  assert (F0 : FI f c0) by exact F.
  destruct (c_checked c0) eqn:Ec; cbn [bind].
  - intros H; injection H as <-. change (c_checked c = true) in Ec. clear c0 F0. unfold fresh, FI. cbn. destruct F as (F1 & F2 & F3).
    split; auto. split; [split; [|split]|split; [|split]].
    + intros n E _. destruct (F1 n E Ec) as [-> ->]. rewrite E. auto.
    + intros a E _. destruct (F2 a E Ec) as [-> ->]. rewrite E. auto.
    + intros r E _. destruct (F3 r E Ec) as [-> ->]. rewrite E. auto.
    + intros ->; auto.
    + intros ->; auto.
    + intros ->; auto.
  - clearbody c0. unfold checkConstant. intros H.
    unfold fixName, fixArgs, fixRes, fresh, FI in *.
    destruct (cf_name f) as [n|]; destruct (cf_args f) as [a|]; destruct (cf_res f) as [r|]; cbn in H;
      injection H as <-; cbn; repeat split; intros; congruence.
Qed.

Lemma FI_step f c o c' q : FI f c -> cstep teq f o c = Ok (c', q) -> FI f c'.
Proof.
  intros F Es. destruct o as [e iv|e|vv|x|b| |o| | | |];
    try (eapply FI_req; [eapply cstep_req; [exact Es|exact I]|exact F]); cbn [cstep] in Es.
  - destruct (cmdActivate f e iv c) as [c1| |] eqn:E; try discriminate. cbn in Es. injection Es as <- <-.
    apply activate_fresh in E; auto. apply E.
  - destruct (cmdFix f e c) as [c1| |] eqn:E; try discriminate. cbn in Es. injection Es as <- <-.
    unfold cmdFix in E. destruct (c_active c); [|discriminate].
    unfold FI, fixName, fixArgs, fixRes in *. destruct F as (F1 & F2 & F3).
    destruct (cf_name f) as [n|]; destruct (cf_args f) as [a|]; destruct (cf_res f) as [r|];
      destruct (c_nameFixed c) eqn:X1; destruct (c_argsFixed c) eqn:X2; destruct (c_resFixed c) eqn:X3;
      repeat (cbn in E; match type of E with
        | context [en_name e] => destruct (en_name e)
        | context [en_res e] => destruct (en_res e)
        | context [c_argsFixed c] => rewrite X2 in E
        | context [c_resFixed c] => rewrite X3 in E
        end); cbn in E; try discriminate;
      injection E as <-; cbn; (split; [|split]); intros y Hy Hc;
      try discriminate; try (injection Hy as <-); split; auto;
      try (apply (F1 _ eq_refl Hc)); try (apply (F2 _ eq_refl Hc)); try (apply (F3 _ eq_refl Hc)).
  - destruct (cmdDeactivate f c) as [[c1 rr]| |] eqn:E; try discriminate. cbn in Es. injection Es as <- <-.
    unfold cmdDeactivate in E. destruct (c_active c); [|discriminate].
    destruct (sbDeact (c_abort c)); try discriminate. cbn [bind] in E. destruct (c_ackCnt c); [discriminate|].
    destruct (match c_dest c with Some _ => _ | None => _ end); try discriminate. cbn in E. injection E as <- <-.
    unfold FI in *. cbn. destruct F as (F1 & F2 & F3). split; [|split]; intros y Hy Hc.
    + rewrite Hy. apply F1; auto.
    + rewrite Hy. apply F2; auto.
    + rewrite Hy. apply F3; auto.
Qed.
Lemma FI_run f d h c : crun teq f h (newCmd d) = Ok c -> FI f c.
Proof.
  revert c. induction h as [|o h IH]; intros c E.
  - cbn in E. injection E as <-. unfold FI. cbn. repeat split; discriminate.
  - cbn [crun] in E. destruct (crun teq f h (newCmd d)) as [c0| |]; try discriminate. cbn [bind] in E.
    destruct (cstep teq f o c0) as [[c1 q]| |] eqn:Es; try discriminate. cbn in E. injection E as <-.
    eapply FI_step; eauto.
Qed.

Lemma crun_app f (h1 h2 : list cop) (c : cmd) : crun teq f (h1 ++ h2) c = bind (crun teq f h2 c) (fun c' => crun teq f h1 c').
Proof.
  induction h1 as [|o h1 IH]; cbn [app crun]; [destruct (crun teq f h2 c); auto|].
  rewrite IH. destruct (crun teq f h2 c); auto.
Qed.
Lemma between_req f h c c' : between h -> crun teq f h c = Ok c' -> reqEq c c'.
Proof.
  revert c'. induction h as [|o h IH]; intros c' B E.
  - cbn in E. injection E as <-. repeat split.
  - cbn [crun] in E. destruct (crun teq f h c) as [c0| |]; try discriminate. cbn [bind] in E.
    destruct (cstep teq f o c0) as [[c1 q]| |] eqn:Es; try discriminate. cbn in E. injection E as <-.
    apply cstep_req in Es; [|apply B; left; auto].
    destruct (IH c0 (fun o Ho => B o (or_intror Ho)) eq_refl) as (A1 & A2 & A3 & A4 & A5 & A6 & A7).
    destruct Es as (B1 & B2 & B3 & B4 & B5 & B6 & B7). unfold reqEq. intuition congruence.
Qed.

Theorem C15_request_snapshot f d h0 h1 h2 e0 iv e c :
  between h1 -> between h2 ->
  crun teq f (h2 ++ CFix e :: h1 ++ CAct e0 iv :: h0) (newCmd d) = Ok c ->
  getCommand c = match cName f e with Some n => Ok (Some n, cArgs f e) | None => Crash end
  /\ exists r, cRes f e = Some r /\ getResources c = Ok r.
Proof.
  intros B1 B2 E. rewrite crun_app in E. cbn [crun] in E. rewrite crun_app in E. cbn [crun] in E.
  destruct (crun teq f h0 (newCmd d)) as [c0| |] eqn:E0; try discriminate. cbn [bind cstep] in E.
  destruct (cmdActivate f e0 iv c0) as [c1| |] eqn:E1; try discriminate. cbn [bind fst] in E.
  destruct (crun teq f h1 c1) as [c2| |] eqn:E2; try discriminate. cbn [bind fst] in E.
  destruct (cmdFix f e c2) as [c3| |] eqn:E3; try discriminate. cbn [bind fst] in E.
  apply activate_fresh in E1; [|eapply FI_run; eauto].
  apply between_req in E2; auto. apply between_req in E; auto.
  destruct E as (D1 & D2 & D3 & D4 & D5 & D6 & D7).
  assert (F2 : fresh f c2).
  { destruct E2 as (A1 & A2 & A3 & A4 & A5 & A6 & A7). destruct E1 as (G1 & G2 & G3 & G4 & G5).
    split; [congruence|]. split; [eapply FI_req; eauto; repeat split; auto|].
    rewrite A2, A4, A6. auto. }
  clear E1 E2 c1. destruct F2 as (G1 & (F1 & F2 & F3) & G3 & G4 & G5).
  unfold getCommand, getResources. rewrite D2, D3, D4, D5, D6, D7.
  unfold cmdFix in E3. destruct (c_active c2); [|discriminate].
  unfold cName, cArgs, cRes, fixName, fixArgs, fixRes in *.
  assert (X1 : match cf_name f with Some n => c_nameFixed c2 = true /\ c_name c2 = Some n | None => c_nameFixed c2 = false end)
    by (destruct (cf_name f); auto).
  assert (X2 : match cf_args f with Some n => c_argsFixed c2 = true /\ c_args c2 = n | None => c_argsFixed c2 = false end)
    by (destruct (cf_args f); auto).
  assert (X3 : match cf_res f with Some n => c_resFixed c2 = true /\ c_res c2 = n | None => c_resFixed c2 = false end)
    by (destruct (cf_res f); auto).
  clear F1 F2 F3 G3 G4 G5.
  destruct (cf_name f) as [n|]; [destruct X1 as [X1 Y1]|];
    (destruct (cf_args f) as [a|]; [destruct X2 as [X2 Y2]|]);
    (destruct (cf_res f) as [r|]; [destruct X3 as [X3 Y3]|]);
    rewrite X1 in E3;
    repeat (cbn in E3; match type of E3 with
        | context [en_name e] => destruct (en_name e)
        | context [en_res e] => destruct (en_res e) eqn:?
        | context [c_argsFixed c2] => rewrite X2 in E3
        | context [c_resFixed c2] => rewrite X3 in E3
        end); cbn in E3; try discriminate; injection E3 as <-; cbn;
    rewrite ?X1, ?X2, ?X3, ?Y1, ?Y2, ?Y3; cbn; split; eauto.
Qed.

(** Deactivation asks the arbiter to release the command's resources exactly if
    the last handle of the run was not "denied". *)
Theorem C15_release f d h c c' r : tidy h -> crun teq f h (newCmd d) = Ok c ->
  cmdDeactivate f c = Ok (c', r) -> (r = false <-> handleOf h = Some H_DENIED).
Proof.
  intros Ht E Ed. destruct (CI_run f d h c Ht E) as (Ha & Hh & Hv & _).
  unfold cmdDeactivate in Ed. destruct (c_active c); [|discriminate].
  destruct (sbDeact (c_abort c)); try discriminate. cbn [bind] in Ed. destruct (c_ackCnt c); [discriminate|].
  destruct (match c_dest c with Some _ => _ | None => _ end); try discriminate. cbn in Ed.
  assert (Er : r = negb (Z.eqb (c_handle c) H_DENIED)) by (inversion Ed; auto).
  rewrite Er, Hh. destruct (handleOf h) as [v|].
  - rewrite negb_false_iff, Z.eqb_eq. split; congruence.
  - split; [intros H; cbv in H; discriminate|discriminate].
Qed.

(** Every change of the handle caused by a message is announced to its listeners. *)
Theorem C15_handle_change_announced_partial f d h c o c' q : tidy (o :: h) -> crun teq f h (newCmd d) = Ok c ->
  cstep teq f o c = Ok (c', q) -> ackRead c' <> ackRead c ->
  match o with CAct _ _ | CDeact | CUseAck | CUnuseAck => True | _ => q = true end.
Proof.
  intros Ht E Es Hne.
  assert (Hth : tidy h) by (destruct o; cbn in Ht; tauto).
  assert (Hsame : forall cc : cmd, c_handle cc = c_handle c -> c_ackCnt cc = c_ackCnt c -> ackRead cc = ackRead c).
  { intros cc H1 H2. unfold ackRead. rewrite H1, H2. reflexivity. }
  destruct o as [e iv|e|v|x|b| |o| | | |]; auto; cbn [cstep] in Es.
  - destruct (cmdFix f e c) as [c1| |] eqn:Ef; try discriminate. cbn in Es. injection Es as <- <-.
    apply cmdFix_frame in Ef. destruct Hne. apply Hsame; tauto.
  - unfold cmdSetHandle in Es. destruct (c_active c) eqn:Ea; [|injection Es as <- <-; congruence].
    destruct (_ && _); [|discriminate]. injection Es as <- <-.
    destruct (CI_run f d h c Hth E) as (Ha & _ & _ & Hk & _).
    rewrite Hk, <- Ha, Ea, Nat.add_1_r. reflexivity.
  - cbn [bind] in Es. injection Es as <- <-. destruct Hne. unfold cmdReturn.
    destruct (c_active c); auto. destruct (c_dest c) as [dd|]; auto. destruct (uvSet teq x dd). apply Hsame; auto.
  - cbn [bind] in Es. injection Es as <- <-. destruct Hne. unfold cmdAckAbort.
    destruct (c_active c); auto.
  - destruct (c_dest c) as [dd|].
    + destruct (uvStep teq o dd) as [[d' r]| |]; try discriminate. cbn in Es. injection Es as <- <-. destruct Hne. apply Hsame; auto.
    + cbn in Es. injection Es as <- <-. congruence.
  - cbn in Es. injection Es as <- <-. destruct Hne. apply Hsame; auto.
  - destruct (sbDeact (c_abort c)); try discriminate. cbn in Es. injection Es as <- <-. destruct Hne. apply Hsame; auto.
Qed.
End S.

(** ** Non-vacuity and limits, on a concrete command with numeric names, values and resources. *)
Definition xF : cconf nat nat nat := {| cf_name := None; cf_args := Some [1; 2]; cf_res := Some [] |}.
Definition xE (n : option nat) : cenv nat nat nat := {| en_name := n; en_args := []; en_res := Some [] |}.
Definition xV : uvar nat := newVar false 0 0.
Definition xrun := crun (N := nat) (V := nat) (R := nat) Nat.eqb xF.
Definition xget (h : list (cop nat nat nat nat)) :=
  bind (xrun h (newCmd (Some xV))) (fun c => Ok (ackRead c, abortRead c, destRead c, getCommand c)).
Definition hist1 : list (cop nat nat nat nat) :=
  [CAckAbort true; CReturn (Some 7); CHandle 50; CFix (xE (Some 3)); CUseAbort; CAct (xE (Some 9)) None; CReturn (Some 5); CHandle 52].
Example C15_demo : tidy hist1 /\ xget hist1 = Ok (Some 50%Z, true, Some (Some 7), Ok (Some 3, [1; 2])).
Proof. split; [cbn; auto|vm_compute; reflexivity]. Qed.
Example C15_demo_late : honoured hist1 = [CAckAbort true; CReturn (Some 7); CHandle 50; CFix (xE (Some 3)); CUseAbort; CAct (xE (Some 9)) None].
Proof. vm_compute. reflexivity. Qed.
(** A second run does not see anything of the first. *)
Example C15_demo_second : xget ([CFix (xE (Some 4)); CAct (xE None) None; CDeact; CUnuseAbort] ++ hist1)
   = Ok (None, false, Some None, Ok (Some 4, [1; 2])).
Proof. vm_compute. reflexivity. Qed.
Example C15_demo_snapshot : exists c,
  xrun ([CHandle 50; CReturn None] ++ CFix (xE (Some 3)) :: [CUseAck] ++ CAct (xE (Some 8)) None :: [CDeact; CAct (xE (Some 2)) None]) (newCmd None) = Ok c
  /\ getCommand c = Ok (Some 3, [1; 2]).
Proof. eexists. split; vm_compute; reflexivity. Qed.
Example C15_demo_release : exists c c', xrun [CHandle 53; CAct (xE None) None] (newCmd None) = Ok c
  /\ cmdDeactivate xF c = Ok (c', false).
Proof. eexists. eexists. split; vm_compute; reflexivity. Qed.

(** An unknown command name is not refused when the values are fixed: reading the
    request afterwards fails the assertion in getCommand. *)
Theorem C15_unknown_name_refuted : exists c,
  xrun [CFix (xE None); CAct (xE None) None] (newCmd (Some xV)) = Ok c /\ getCommand c = Crash.
Proof. eexists. split; vm_compute; reflexivity. Qed.

(** After the run has ended the handle variable answers isKnown() with true but
    has no value. *)
Theorem C15_ack_known_refuted : exists c,
  xrun [CDeact; CHandle 50; CAct (xE None) None] (newCmd (Some xV)) = Ok c
  /\ ackKnown c = true /\ ackRead c = None.
Proof. eexists. split; [vm_compute; reflexivity|]. split; vm_compute; reflexivity. Qed.

(** A second run resets the handle without telling the other nodes that are
    watching it. *)
Theorem C15_silent_reset_refuted : exists c c',
  xrun [CDeact; CHandle 50; CUseAck; CAct (xE None) None] (newCmd (Some xV)) = Ok c
  /\ cstep Nat.eqb xF (CAct (xE None) None) c = Ok (c', false)
  /\ ackRead c = Some 50%Z /\ ackRead c' = None.
Proof. eexists. eexists. split; [vm_compute; reflexivity|]. split; [vm_compute; reflexivity|]. split; vm_compute; reflexivity. Qed.

(** Assumptions *)
Print Assumptions C15_history.
Print Assumptions C15_late_messages_ignored.
Print Assumptions C15_return_value.
Print Assumptions C15_returned_value_read.
Print Assumptions C15_request_snapshot.
Print Assumptions C15_release.
Print Assumptions C15_handle_change_announced_partial.
Print Assumptions C15_unknown_name_refuted.
Print Assumptions C15_ack_known_refuted.
Print Assumptions C15_silent_reset_refuted.
