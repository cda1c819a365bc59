(** C78: the viewer can tell from what it is sent what happened. *)
From Coq Require Import ZArith List Bool Lia String.
From Verif Require Import ValueModel FloatModel TypeModel UdpQueueModel LitModel LuvModel LuvSpec.
Import ListNotations.
Open Scope Z_scope.

Lemma cut (x : Z) a1 a2 r1 r2 : ~ In x a1 -> ~ In x a2 -> a1 ++ x :: r1 = a2 ++ x :: r2 -> a1 = a2 /\ r1 = r2.
Proof.
  revert a2. induction a1 as [|c a1 IH]; intros [|d a2] N1 N2 E; cbn [app] in E.
  - injection E as E. auto.
  - injection E as -> _. elim N2. now left.
  - injection E as E _. elim N1. now left.
  - injection E as -> E. destruct (IH a2) as [-> ->]; auto; intros I; [apply N1|apply N2]; now right.
Qed.
(** ** Frames *)
Lemma frames_inj ms : forall ms', Forall (fun m => ~ In 4 m) ms -> Forall (fun m => ~ In 4 m) ms' -> flat_map frame ms = flat_map frame ms' -> ms = ms'.
Proof.
  induction ms as [|m ms IH]; intros [|m' ms'] F F' E; cbn [flat_map] in E; unfold frame in E.
  - reflexivity.
  - destruct m'; discriminate E.
  - destruct m; discriminate E.
  - inversion F; subst. inversion F'; subst. rewrite <- !app_assoc in E. cbn [app] in E. apply cut in E as [-> E]; auto. f_equal. now apply IH.
Qed.
(** ** Elements *)
Lemma te_app t x r : textElement t x ++ r = startTag t ++ x ++ 60 :: (47 :: t ++ [62]) ++ r.
Proof. unfold textElement, endTag. rewrite <- !app_assoc. reflexivity. Qed.
Lemma te_inj t x y r1 r2 : clean x -> clean y -> textElement t x ++ r1 = textElement t y ++ r2 -> x = y /\ r1 = r2.
Proof.
  intros [C _] [C' _] E. rewrite !te_app in E. apply app_inv_head in E. apply cut in E as [-> E]; auto. split; [reflexivity|]. now apply app_inv_head in E.
Qed.
Lemma no4_start t : ~ In 4 t -> ~ In 4 (startTag t).
Proof. unfold startTag. intros N [X|X]; [discriminate|]. apply in_app_or in X as [X|[X|[]]]; [auto|discriminate]. Qed.
Lemma no4_end t : ~ In 4 t -> ~ In 4 (endTag t).
Proof. unfold endTag. intros N [X|[X|X]]; try discriminate. apply in_app_or in X as [X|[X|[]]]; [auto|discriminate]. Qed.
Lemma no4_app a b : ~ In 4 a -> ~ In 4 b -> ~ In 4 (a ++ b).
Proof. intros A B X. apply in_app_or in X as [X|X]; auto. Qed.
Lemma no4_te t x : ~ In 4 t -> ~ In 4 x -> ~ In 4 (textElement t x).
Proof. intros. unfold textElement. auto using no4_app, no4_start, no4_end. Qed.
Definition no4b (s : str) : bool := forallb (fun c => negb (c =? 4)) s.
Lemma no4_b s : no4b s = true -> ~ In 4 s.
Proof. unfold no4b. rewrite forallb_forall. intros H I. specialize (H 4 I). discriminate H. Qed.
Ltac lit4 := apply no4_b; reflexivity.
Definition cleanb (s : str) : bool := forallb (fun c => negb (c =? 60) && negb (c =? 4)) s.
Lemma clean_b s : cleanb s = true -> clean s.
Proof. unfold cleanb, clean. rewrite forallb_forall. intros H. split; intros I; specialize (H _ I); discriminate H. Qed.

(** ** Names *)
Definition distinct (names : list string) (n : nat) : bool :=
  forallb (fun i => cleanb (nameOf names i) && forallb (fun j => Nat.eqb i j || negb (streq (nameOf names i) (nameOf names j))) (seq 0 n)) (seq 0 n).
Lemma distinct_inj names n : distinct names n = true -> forall i j, (i < n)%nat -> (j < n)%nat -> nameOf names i = nameOf names j -> i = j.
Proof.
  unfold distinct. rewrite forallb_forall. intros H i j I J E. specialize (H i ltac:(apply in_seq; lia)). apply andb_true_iff in H as [_ H]. rewrite forallb_forall in H.
  specialize (H j ltac:(apply in_seq; lia)). apply orb_true_iff in H as [H|H]; [now apply Nat.eqb_eq|]. rewrite E in H. unfold streq in H. destruct (str_eq_dec _ _); [discriminate H|congruence].
Qed.
Lemma distinct_clean names n : distinct names n = true -> forall i, (i < n)%nat -> clean (nameOf names i).
Proof. unfold distinct. rewrite forallb_forall. intros H i I. specialize (H i ltac:(apply in_seq; lia)). apply andb_true_iff in H as [H _]. now apply clean_b. Qed.
Lemma states_ok : distinct stateNames 8 = true. Proof. vm_compute. reflexivity. Qed.
Lemma outcomes_ok : distinct outcomeNames 5 = true. Proof. vm_compute. reflexivity. Qed.
Lemma failures_ok : distinct failureNames 7 = true. Proof. vm_compute. reflexivity. Qed.

(** ** Conditions and path *)
Definition tagLike (n : str) : Prop := ~ In 62 n /\ ~ In 4 n /\ hd 47 n <> 47.
Definition tagLikeb (n : str) : bool := forallb (fun c => negb (c =? 62) && negb (c =? 4)) n && negb (hd 47 n =? 47).
Lemma tagLike_b n : tagLikeb n = true -> tagLike n.
Proof.
  unfold tagLikeb, tagLike. rewrite andb_true_iff, forallb_forall, negb_true_iff, Z.eqb_neq. intros [H N]. repeat split; auto; intros I; specialize (H _ I); discriminate H.
Qed.
Lemma condNames_ok : Forall tagLike conditionNames /\ NoDup conditionNames.
Proof.
  split; [apply Forall_forall; intros n I; apply tagLike_b; revert n I; apply forallb_forall; vm_compute; reflexivity|].
  assert (H : forall l : list str, (fix f l := match l with [] => true | x :: r => forallb (fun y => negb (streq x y)) r && f r end) l = true -> NoDup l).
  { induction l as [|x l IH]; [constructor|]. rewrite andb_true_iff, forallb_forall. intros [A B]. constructor; [|auto]. intros I. specialize (A x I). unfold streq in A. destruct (str_eq_dec x x); [discriminate A|congruence]. }
  apply H. vm_compute. reflexivity.
Qed.
Lemma conds_start names vs r : exists q, formatConds names vs ++ endTag (chars "Conditions") ++ r = 60 :: q /\ ((exists q', q = 47 :: q') \/ exists n q', In n names /\ q = n ++ 62 :: q').
Proof.
  revert vs. induction names as [|n names IH]; intros vs; [cbn [formatConds app]; eexists; split; [reflexivity|left; eexists; reflexivity]|].
  destruct vs as [|[v|] vs]; cbn [formatConds].
  - cbn [app]. eexists. split; [reflexivity|left; eexists; reflexivity].
  - unfold textElement, startTag. rewrite <- !app_assoc. cbn [app]. eexists. split; [reflexivity|]. right. exists n. eexists. split; [now left|]. rewrite <- !app_assoc. reflexivity.
  - destruct (IH vs) as (q & E & H). exists q. split; [exact E|]. destruct H as [H|(n' & q' & I & H)]; [now left|right; exists n', q'; split; [now right|exact H]].
Qed.
Lemma conds_inj names : Forall tagLike names -> NoDup names -> forall v1 v2 r1 r2, length v1 = length names -> length v2 = length names ->
  (forall v, In (Some v) v1 -> clean v) -> (forall v, In (Some v) v2 -> clean v) ->
  formatConds names v1 ++ endTag (chars "Conditions") ++ r1 = formatConds names v2 ++ endTag (chars "Conditions") ++ r2 -> v1 = v2 /\ r1 = r2.
Proof.
  induction names as [|n names IH]; intros TL ND v1 v2 r1 r2 L1 L2 C1 C2 E.
  - destruct v1; [|discriminate L1]. destruct v2; [|discriminate L2]. cbn [formatConds app] in E. split; [reflexivity|]. now apply app_inv_head in E.
  - inversion TL as [|? ? T TL']; subst. inversion ND as [|? ? NI ND']; subst. destruct v1 as [|x1 v1]; [discriminate L1|]. destruct v2 as [|x2 v2]; [discriminate L2|].
    cbn [length] in L1, L2. injection L1 as L1. injection L2 as L2.
    assert (C1' : forall v, In (Some v) v1 -> clean v) by (intros v I; apply C1; now right). assert (C2' : forall v, In (Some v) v2 -> clean v) by (intros v I; apply C2; now right).
    assert (MIX : forall v w r r', textElement n v ++ r <> formatConds names w ++ endTag (chars "Conditions") ++ r').
    { intros v w r r' X. destruct (conds_start names w r') as (q & E1 & H). rewrite E1 in X. unfold textElement, startTag in X. rewrite <- !app_assoc in X. cbn [app] in X. injection X as X. rewrite <- !app_assoc in X. cbn [app] in X.
      destruct T as (T1 & _ & T2). destruct H as [(q' & ->)|(n' & q' & I & ->)].
      - destruct n as [|c n]; [elim T2; reflexivity|]. injection X as X _. now elim T2.
      - rewrite Forall_forall in TL'. apply cut in X as [-> _]; auto. apply (TL' n' I). }
    destruct x1 as [a1|], x2 as [a2|]; cbn [formatConds] in E.
    + rewrite <- !app_assoc in E. apply te_inj in E as [-> E]; [|apply C1; now left|apply C2; now left]. destruct (IH TL' ND' v1 v2 r1 r2) as [-> ->]; auto.
    + rewrite <- app_assoc in E. elim (MIX _ _ _ _ E).
    + rewrite <- app_assoc in E. symmetry in E. elim (MIX _ _ _ _ E).
    + destruct (IH TL' ND' v1 v2 r1 r2) as [-> ->]; auto.
Qed.
Lemma path_inj p1 : forall p2 r1 r2, (forall n, In n p1 -> clean n) -> (forall n, In n p2 -> clean n) ->
  flat_map (textElement (chars "NodeId")) p1 ++ endTag (chars "NodePath") ++ r1 = flat_map (textElement (chars "NodeId")) p2 ++ endTag (chars "NodePath") ++ r2 -> p1 = p2 /\ r1 = r2.
Proof.
  induction p1 as [|n1 p1 IH]; intros [|n2 p2] r1 r2 C1 C2 E; cbn [flat_map] in E.
  - cbn [app] in E. split; [reflexivity|]. now apply app_inv_head in E.
  - rewrite <- app_assoc in E. discriminate E.
  - rewrite <- app_assoc in E. discriminate E.
  - rewrite <- !app_assoc in E. apply te_inj in E as [-> E]; [|apply C1; now left|apply C2; now left].
    destruct (IH p2 r1 r2) as [-> ->]; auto; intros n I; [apply C1|apply C2]; now right.
Qed.
(** ** Messages *)
Lemma transition_inj t1 t2 : cleanTransition t1 -> cleanTransition t2 -> formatTransition t1 = formatTransition t2 -> t1 = t2.
Proof.
  destruct t1 as [s1 o1 f1 c1 p1], t2 as [s2 o2 f2 c2 p2]. unfold cleanTransition, formatTransition. cbn [t_state t_outcome t_failure t_conds t_path].
  intros (S1 & O1 & F1 & L1 & C1 & P1) (S2 & O2 & F2 & L2 & C2 & P2) E. apply app_inv_head in E.
  apply te_inj in E as [ES E]; [|now apply (distinct_clean _ _ states_ok)|now apply (distinct_clean _ _ states_ok)]. apply (distinct_inj _ _ states_ok) in ES; auto. subst s2.
  assert (T : o1 = o2 /\ f1 = f2 /\ exists r, formatConds conditionNames c1 ++ endTag (chars "Conditions") ++ formatPath p1 ++ r = formatConds conditionNames c2 ++ endTag (chars "Conditions") ++ formatPath p2 ++ r).
  { destruct (Nat.eqb_spec o1 0) as [->|NO1], (Nat.eqb_spec o2 0) as [->|NO2]; cbn [app] in E.
    - destruct (Nat.eqb_spec f1 0) as [->|NF1], (Nat.eqb_spec f2 0) as [->|NF2]; cbn [app] in E.
      + apply app_inv_head in E. eauto.
      + discriminate E.
      + discriminate E.
      + apply te_inj in E as [EF E]; try now apply (distinct_clean _ _ failures_ok). apply (distinct_inj _ _ failures_ok) in EF; auto. apply app_inv_head in E. eauto.
    - destruct (Nat.eqb f1 0); discriminate E.
    - destruct (Nat.eqb f2 0); discriminate E.
    - apply te_inj in E as [EO E]; try now apply (distinct_clean _ _ outcomes_ok). apply (distinct_inj _ _ outcomes_ok) in EO; auto. subst o2. split; [reflexivity|].
      destruct (Nat.eqb_spec f1 0) as [->|NF1], (Nat.eqb_spec f2 0) as [->|NF2]; cbn [app] in E.
      + apply app_inv_head in E. eauto.
      + discriminate E.
      + discriminate E.
      + apply te_inj in E as [EF E]; try now apply (distinct_clean _ _ failures_ok). apply (distinct_inj _ _ failures_ok) in EF; auto. apply app_inv_head in E. eauto. }
  destruct T as (-> & -> & r & T). destruct condNames_ok as [TL ND]. apply conds_inj in T as [-> T]; auto. unfold formatPath in T. rewrite <- !app_assoc in T. apply app_inv_head in T. apply path_inj in T as [-> _]; auto.
Qed.
Lemma assign_inj n1 v1 n2 v2 : clean n1 -> clean v1 -> clean n2 -> clean v2 -> formatAssignment n1 v1 = formatAssignment n2 v2 -> n1 = n2 /\ v1 = v2.
Proof.
  intros N1 V1 N2 V2 E. unfold formatAssignment in E. apply app_inv_head in E. apply app_inv_head in E. apply te_inj in E as [-> E]; auto. apply app_inv_head in E. apply te_inj in E as [-> _]; auto.
Qed.
Lemma no4_conds names vs : Forall tagLike names -> (forall v, In (Some v) vs -> clean v) -> ~ In 4 (formatConds names vs).
Proof.
  intros TL. revert vs. induction TL as [|n names T TL IH]; intros vs C; [intros []|]. destruct vs as [|[v|] vs]; cbn [formatConds]; [intros []| |apply IH; intros v I; apply C; now right].
  apply no4_app; [apply no4_te; [apply T|apply (C v); now left]|apply IH; intros w I; apply C; now right].
Qed.
Lemma no4_path p : (forall n, In n p -> clean n) -> ~ In 4 (flat_map (textElement (chars "NodeId")) p).
Proof. induction p as [|n p IH]; intros C; [intros []|]. cbn [flat_map]. apply no4_app; [apply no4_te; [lit4|apply (C n); now left]|apply IH; intros m I; apply C; now right]. Qed.
Lemma messages_no4 b e : cleanEvent e -> Forall (fun m => ~ In 4 m) (messages b e).
Proof.
  assert (PI : ~ In 4 (formatPlanInfo b)) by (destruct b; lit4). destruct e as [t|n v|s|s]; cbn [cleanEvent messages].
  - intros (S1 & O1 & F1 & L1 & C1 & P1). constructor; [|constructor]. unfold formatTransition.
    apply no4_app; [lit4|]. apply no4_app; [apply no4_te; [lit4|apply (distinct_clean _ _ states_ok); exact S1]|].
    apply no4_app; [destruct (Nat.eqb _ _); [intros []|apply no4_te; [lit4|apply (distinct_clean _ _ outcomes_ok); exact O1]]|].
    apply no4_app; [destruct (Nat.eqb _ _); [intros []|apply no4_te; [lit4|apply (distinct_clean _ _ failures_ok); exact F1]]|].
    apply no4_app; [lit4|]. apply no4_app; [apply no4_conds; [apply condNames_ok|exact C1]|]. apply no4_app; [lit4|]. apply no4_app; [|lit4].
    unfold formatPath. apply no4_app; [lit4|]. apply no4_app; [now apply no4_path|lit4].
  - intros [[_ N] [_ V]]. constructor; [|constructor]. unfold formatAssignment. repeat (apply no4_app; [first [lit4|apply no4_te; [lit4|assumption]]|]). lit4.
  - intros [N _]. constructor; [exact PI|]. constructor; [exact N|constructor].
  - intros N. constructor; [exact PI|]. constructor; [|constructor]. unfold formatLibrary. apply no4_app; [lit4|]. apply no4_app; [exact N|lit4].
Qed.
Definition first (ms : list str) : Z := nth 1 (hd [] ms) 0.
Lemma first_t t r : first (formatTransition t :: r) = 78. Proof. reflexivity. Qed.
Lemma first_a n v r : first (formatAssignment n v :: r) = 65. Proof. reflexivity. Qed.
Lemma first_p b r : first (formatPlanInfo b :: r) = 80. Proof. reflexivity. Qed.
Lemma cons_eq {A} (x y : A) l m : x :: l = y :: m -> x = y /\ l = m.
Proof. intros E. injection E. auto. Qed.
Lemma lib_not_plan r s' : 60 :: chars "PlexilPlan" ++ r <> formatLibrary s'.
Proof. intros E. apply (f_equal (fun l => nth 7 l 0)) in E. vm_compute in E. discriminate E. Qed.
Opaque formatTransition formatAssignment formatPlanInfo formatLibrary first.
Lemma events_inj b es : forall es', Forall cleanEvent es -> Forall cleanEvent es' -> flat_map (messages b) es = flat_map (messages b) es' -> es = es'.
Proof.
  induction es as [|e es IH]; intros [|e' es'] F F' E; cbn [flat_map] in E; [reflexivity|destruct e'; discriminate E|destruct e; discriminate E|].
  inversion F as [|? ? C FR]; subst. inversion F' as [|? ? C' FR']; subst. destruct e as [t|n v|s|s], e' as [t'|n' v'|s'|s']; cbn [messages app cleanEvent] in *;
    try (exfalso; pose proof (f_equal first E) as X; rewrite ?first_t, ?first_a, ?first_p in X; lia); apply cons_eq in E as [EM ER].
  - apply transition_inj in EM; auto. subst t'. f_equal. now apply IH.
  - destruct C, C'. apply assign_inj in EM as [-> ->]; auto. f_equal. now apply IH.
  - apply cons_eq in ER as [-> ER]. f_equal. now apply IH.
  - exfalso. destruct C as [_ (r & ->)]. apply cons_eq in ER as [ER _]. now apply lib_not_plan in ER.
  - exfalso. destruct C' as [_ (r & ->)]. apply cons_eq in ER as [ER _]. symmetry in ER. now apply lib_not_plan in ER.
  - apply cons_eq in ER as [EL ER]. Transparent formatLibrary. unfold formatLibrary in EL. apply app_inv_head in EL. apply app_inv_tail in EL. subst s'. f_equal. now apply IH.
Qed.
Transparent formatTransition formatAssignment formatPlanInfo formatLibrary first.
(** Different histories are sent as different streams: nothing that happened is lost or confused, as long as no name, value or plan has a <
    (values, names) or the end-of-message character in it. *)
Theorem C78_faithful b es es' : Forall cleanEvent es -> Forall cleanEvent es' -> stream b es = stream b es' -> es = es'.
Proof.
  intros F F' E. apply (events_inj b); auto. apply frames_inj; [| |exact E].
  - clear E F'. induction F as [|e es C F IH]; [constructor|]. cbn [flat_map]. apply Forall_app. split; [now apply messages_no4|exact IH].
  - clear E F. induction F' as [|e es' C F IH]; [constructor|]. cbn [flat_map]. apply Forall_app. split; [now apply messages_no4|exact IH].
Qed.
(** One message, or for a plan or library two, ended by the end-of-message character, which is nowhere else. *)
Theorem C78_frames b es : Forall cleanEvent es -> exists ms, stream b es = flat_map frame ms /\ Forall (fun m => ~ In 4 m) ms /\
  length ms = fold_right (fun e n => (match e with LPlan _ | LLibrary _ => 2 | _ => 1 end + n)%nat) 0%nat es.
Proof.
  intros F. exists (flat_map (messages b) es). split; [reflexivity|]. split.
  - induction F as [|e es C F IH]; [constructor|]. cbn [flat_map]. apply Forall_app. split; [now apply messages_no4|exact IH].
  - clear F. induction es as [|e es IH]; [reflexivity|]. cbn [flat_map fold_right]. rewrite app_length, IH. destruct e; reflexivity.
Qed.
(** Blocking: a message is sent only when all before it were acknowledged, and all are sent if they are. *)
Definition acks (chunks : list str) : nat := length (filter (fun c => hd 0 c =? 4) chunks).
Lemma wait_acks chunks : match waitForAck chunks with Some r => acks chunks = S (acks r) | None => acks chunks = 0%nat end.
Proof. unfold acks. induction chunks as [|c r IH]; [reflexivity|]. cbn [waitForAck filter]. destruct (hd 0 c =? 4); [reflexivity|exact IH]. Qed.
Theorem C78_lockstep ms chunks : sendAll ms chunks = (firstn (S (acks chunks)) ms, Nat.leb (length ms) (acks chunks)).
Proof.
  revert chunks. induction ms as [|m ms IH]; intros chunks; [reflexivity|]. cbn [sendAll length]. pose proof (wait_acks chunks) as W. destruct (waitForAck chunks) as [r|]; rewrite W; [|reflexivity].
  rewrite IH. reflexivity.
Qed.
(** Two acknowledgements that arrive together, or one that does not come first in what is read, count for one or for none. *)
Theorem C78_together_refuted m m' : sendAll [m; m'] [[4; 4]] = ([m; m'], false) /\ sendAll [m; m'] [[111; 107; 4]; [111; 107; 4]] = ([m], false).
Proof. split; reflexivity. Qed.
(** Values are not escaped: an assignment can look like another one, or like two messages. *)
Theorem C78_not_escaped_refuted : exists n v1 v2 v, formatAssignment n (v1 ++ chars "</Value></Assignment>" ++ 4 :: chars "<Assignment><Variable><VariableName>y</VariableName></Variable><Value>" ++ v2) = v /\
  stream false [LAssign n (v1 ++ chars "</Value></Assignment>" ++ 4 :: chars "<Assignment><Variable><VariableName>y</VariableName></Variable><Value>" ++ v2)] =
  stream false [LAssign n v1; LAssign (chars "y") v2] /\ clean n /\ clean v1 /\ clean v2.
Proof.
  exists (chars "x"), (chars "1"), (chars "2"). eexists. split; [reflexivity|]. split; [vm_compute; reflexivity|]. repeat split; apply clean_b; reflexivity.
Qed.
(** The texts of the other messages. *)
Theorem C78_texts b n v s : messages b (LPlan s) = [chars "<PlanInfo><ViewerBlocks>" ++ chars (if b then "true" else "false") ++ chars "</ViewerBlocks></PlanInfo>"; s] /\
  messages b (LLibrary s) = [chars "<PlanInfo><ViewerBlocks>" ++ chars (if b then "true" else "false") ++ chars "</ViewerBlocks></PlanInfo>"; chars "<PlexilLibrary>" ++ s ++ chars "</PlexilLibrary>"] /\
  messages b (LAssign n v) = [chars "<Assignment><Variable><VariableName>" ++ n ++ chars "</VariableName></Variable><Value>" ++ v ++ chars "</Value></Assignment>"].
Proof.
  split; [destruct b; reflexivity|]. split; [destruct b; reflexivity|]. cbn [messages]. unfold formatAssignment, textElement. rewrite <- !app_assoc. reflexivity.
Qed.
Definition exT : transition := {| t_state := 5; t_outcome := 1; t_failure := 0; t_conds := [None; None; None; Some (chars "false"); Some (chars "true"); None; None; None; Some (chars "UNKNOWN"); None; None; None; None]; t_path := [chars "Root"; chars "Kid"] |}.
Theorem C78_example : Forall cleanEvent [LTransition exT; LAssign (chars "x") (chars "3")] /\
  stream true [LTransition exT] = chars "<NodeStateUpdate><NodeState>FINISHED</NodeState><NodeOutcome>SUCCESS</NodeOutcome><Conditions><SkipCondition>false</SkipCondition><StartCondition>true</StartCondition><EndCondition>UNKNOWN</EndCondition></Conditions><NodePath><NodeId>Root</NodeId><NodeId>Kid</NodeId></NodePath></NodeStateUpdate>" ++ [4].
Proof.
  split; [|vm_compute; reflexivity]. constructor; [|constructor; [split; apply clean_b; reflexivity|constructor]]. cbn [cleanEvent]. unfold cleanTransition, exT. cbn [t_state t_outcome t_failure t_conds t_path].
  split; [lia|]. split; [lia|]. split; [lia|]. split; [reflexivity|]. split.
  - intros v I. cbn [In] in I. repeat destruct I as [I|I]; try discriminate I; try (injection I as <-; apply clean_b; reflexivity); destruct I.
  - intros n [<-|[<-|[]]]; apply clean_b; reflexivity.
Qed.

(** Assumptions *)
Print Assumptions C78_faithful.
Print Assumptions C78_frames.
Print Assumptions C78_lockstep.
Print Assumptions C78_together_refuted.
Print Assumptions C78_not_escaped_refuted.
Print Assumptions C78_example.
Print Assumptions C78_texts.
