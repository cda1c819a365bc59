(** C81: the check of a Node element accepts exactly the well-formed ones, and each condition element gives the condition of its name. *)
From Coq Require Import String Ascii List Arith Bool Lia.
From Verif Require Import ElemModel ElemSpec.
Import ListNotations.
Open Scope string_scope.
Open Scope list_scope.
(** ** Names *)
Ltac byNames t l := match l with
  | [] => idtac
  | ?x :: ?r => destruct (String.eqb_spec t x) as [?EQ|?NE]; [subst t|byNames t r] end.
Section Proofs.
Variable exp : Type.
Implicit Types e : elt exp.
Lemma isSet_in x s : isSet x s = true <-> In x s.
Proof. unfold isSet. rewrite existsb_exists. split; [intros (y & I & E); apply String.eqb_eq in E; now subst|]. intros I. exists x. split; [exact I|apply String.eqb_refl]. Qed.
Definition allNames := remarks ++ singles.
Lemma step_unknown ty e s : ~ In (tag e) allNames -> checkElement ty e s = None.
Proof.
  intros N. assert (NE : forall x, In x allNames -> (tag e =? x) = false) by (intros x I; apply String.eqb_neq; intros E; apply N; now rewrite E). clear N. unfold checkElement.
  repeat match goal with |- context [tag e =? ?x] => rewrite (NE x) by (cbn; tauto) end.
  repeat match goal with |- context [if ?b then _ else _] => destruct b end; reflexivity.
Qed.
Lemma step_known ty e s : In (tag e) allNames ->
  checkElement ty e s = if existsb (String.eqb (tag e)) remarks then Some s else if (tag e =? "Priority") && negb (Nat.eqb ty 3) then None else once (tag e) s (good e).
Proof.
  intros I. unfold checkElement. cbn in I. repeat destruct I as [<-|I]; try (destruct I); try reflexivity. cbn -[once Nat.eqb]. change NodeType_Assignment with 3. now destruct (Nat.eqb ty 3).
Qed.
Lemma remark_not_single x : In x remarks -> ~ In x singles.
Proof. intros I J. cbn in I, J. repeat destruct I as [<-|I]; try (destruct I); repeat destruct J as [J|J]; try discriminate; destruct J. Qed.
Lemma in_remarks x : existsb (String.eqb x) remarks = true <-> In x remarks.
Proof. exact (isSet_in x remarks). Qed.
(** What the loop needs of the elements still to come when those of the slots have been seen *)
Definition fits (ty : nat) (es : list (elt exp)) (s : slots) : Prop :=
  (forall e, In e es -> In (tag e) allNames) /\ (forall name, In name singles -> atMostOne es name /\ (In name s -> ~ has es name)) /\
  (forall e, In e es -> In (tag e) singles -> good e = true) /\ (has es "Priority" -> ty = 3).
Lemma atMostOne_cons e es name : atMostOne (e :: es) name <-> atMostOne es name /\ (tag e = name -> ~ has es name).
Proof.
  split.
  - intros H. split.
    + intros a x b y c E. apply (H (e :: a) x b y c). now rewrite E.
    + intros T (y & I & TY). apply in_split in I. destruct I as (b & c & E). refine (H [] e b y c _ T TY). cbn. now rewrite E.
  - intros (H & F) a x b y c E TX TY. destruct a as [|a0 a].
    + injection E as -> E. apply (F TX). exists y. split; [rewrite E; apply in_or_app; right; now left|exact TY].
    + injection E as -> E. exact (H a x b y c E TX TY).
Qed.
Lemma has_cons e es name : has (e :: es) name <-> tag e = name \/ has es name.
Proof. split; [intros (x & [->|I] & T); [now left|right; now exists x]|]. intros [T|(x & I & T)]; [exists e; split; [now left|exact T]|exists x; split; [now right|exact T]]. Qed.
Lemma loop ty : forall es s, (fits ty es s <-> exists s', checkElements ty es s = Some s') /\
  (forall s', checkElements ty es s = Some s' -> forall name, In name singles -> (In name s' <-> In name s \/ has es name)).
Proof.
  induction es as [|e es IH]; intros s; cbn [checkElements].
  - split; [split; [intros _; now exists s|intros _]|intros s' [= <-] name _; split; [now left|intros [I|(x & [] & _)]; exact I]].
    split; [intros x []|]. split; [intros name _; split; [intros a x b y c E; destruct a; discriminate|intros _ (x & [] & _)]|]. split; [intros x []|intros (x & [] & _)].
  - destruct (in_dec string_dec (tag e) allNames) as [K|K].
    2: { rewrite (step_unknown ty e s K). split; [split; [intros (F & _); elim K; apply F; now left|intros (s' & [=])]|intros s' [=]]. }
    rewrite (step_known ty e s K). destruct (existsb (String.eqb (tag e)) remarks) eqn:R.
    + apply in_remarks in R. destruct (IH s) as (A & B). split.
      * rewrite <- A. unfold fits. split.
        -- intros (F1 & F2 & F3 & F4). split; [intros x I; apply F1; now right|]. split; [intros name I; destruct (F2 name I) as (G & H); split; [now apply atMostOne_cons in G|intros J HA; apply (H J), has_cons; now right]|].
           split; [intros x I; apply F3; now right|intros HA; apply F4, has_cons; now right].
        -- intros (F1 & F2 & F3 & F4). assert (NS : forall name, In name singles -> tag e <> name) by (intros name I <-; exact (remark_not_single _ R I)).
           split; [intros x [<-|I]; [exact K|now apply F1]|]. split.
           { intros name I. destruct (F2 name I) as (G & H). split; [apply atMostOne_cons; split; [exact G|intros T; elim (NS name I T)]|]. intros J HA. apply has_cons in HA. destruct HA as [T|HA]; [elim (NS name I T)|exact (H J HA)]. }
           split; [intros x [<-|I] J; [elim (NS _ J eq_refl)|now apply F3]|]. intros HA. apply has_cons in HA. destruct HA as [T|HA]; [elim (NS "Priority" ltac:(cbn; tauto) T)|now apply F4].
      * intros s' E name I. rewrite (B s' E name I), has_cons. split; [intros [J|J]; auto|]. intros [J|[T|J]]; auto. elim (remark_not_single _ R). rewrite T. exact I.
    + assert (SG : In (tag e) singles). { apply in_app_or in K. destruct K as [K|K]; [apply in_remarks in K; congruence|exact K]. }
      destruct ((tag e =? "Priority") && negb (Nat.eqb ty 3)) eqn:P.
      { apply andb_prop in P. destruct P as (P1 & P2). apply String.eqb_eq in P1. apply negb_true_iff, Nat.eqb_neq in P2. split; [split; [intros (_ & _ & _ & F); elim P2; apply F; exists e; split; [now left|exact P1]|intros (s' & [=])]|intros s' [=]]. }
      assert (PR : tag e = "Priority" -> ty = 3). { intros T. rewrite T, String.eqb_refl in P. cbn in P. apply negb_false_iff in P. now apply Nat.eqb_eq. }
      unfold once. destruct (isSet (tag e) s) eqn:D; cbn [negb andb].
      { apply isSet_in in D. split; [split; [intros (_ & F & _); elim (proj2 (F (tag e) SG) D); exists e; split; [now left|reflexivity]|intros (s' & [=])]|intros s' [=]]. }
      assert (ND : ~ In (tag e) s) by (rewrite <- isSet_in; congruence). clear D. destruct (good e) eqn:G.
      2: { split; [split; [intros (_ & _ & F & _); rewrite (F e (or_introl eq_refl) SG) in G; discriminate|intros (s' & [=])]|intros s' [=]]. }
      destruct (IH (tag e :: s)) as (A & B). split.
      * rewrite <- A. unfold fits. split.
        -- intros (F1 & F2 & F3 & F4). split; [intros x I; apply F1; now right|]. split.
           { intros name I. destruct (F2 name I) as (Q & H). apply atMostOne_cons in Q. destruct Q as (Q & Q'). split; [exact Q|]. intros [T|J] HA; [exact (Q' T HA)|]. apply (H J), has_cons. now right. }
           split; [intros x I; apply F3; now right|intros HA; apply F4, has_cons; now right].
        -- intros (F1 & F2 & F3 & F4). split; [intros x [<-|I]; [exact K|now apply F1]|]. split.
           { intros name I. destruct (F2 name I) as (Q & H). split; [apply atMostOne_cons; split; [exact Q|intros T; apply H; now left]|]. intros J HA. apply has_cons in HA. destruct HA as [T|HA]; [apply ND; now rewrite T|apply H; [now right|exact HA]]. }
           split; [intros x [<-|I] J; [exact G|now apply F3]|]. intros HA. apply has_cons in HA. destruct HA as [T|HA]; [now apply PR|now apply F4].
      * intros s' E name I. rewrite (B s' E name I), has_cons. cbn [In]. tauto.
Qed.
Theorem C81_accepts ty (es : list (elt exp)) conflict : checkNode ty es conflict = true <-> conforms ty es conflict.
Proof.
  unfold checkNode. destruct (loop ty es []) as (A & B). destruct (checkElements ty es []) as [s|] eqn:E.
  - assert (F : fits ty es []) by (apply A; now exists s). destruct F as (F1 & F2 & F3 & F4). assert (IS : forall name, In name singles -> (isSet name s = true <-> has es name)).
    { intros name I. rewrite isSet_in, (B s eq_refl name I). cbn [In]. tauto. }
    pose proof (IS "NodeId" ltac:(cbn; tauto)) as I1. pose proof (IS "NodeBody" ltac:(cbn; tauto)) as I2. pose proof (IS "VariableDeclarations" ltac:(cbn; tauto)) as I3. pose proof (IS "Interface" ltac:(cbn; tauto)) as I4.
    change NodeType_Empty with 5. split.
    + intros H. apply andb_prop in H. destruct H as (H & HB). apply andb_prop in H. destruct H as (H1 & HC). constructor; try assumption.
      * intros name I. apply (F2 name I).
      * now apply I1.
      * rewrite <- I2. destruct (Nat.eqb_spec ty 5); [apply negb_true_iff in HB; rewrite HB; split; [discriminate|now intros]|]. rewrite HB. split; [congruence|intros N; now elim N].
      * intros ->. rewrite andb_true_r in HC. apply negb_true_iff, orb_false_iff in HC. destruct HC as (C1 & C2). rewrite <- I3, <- I4, C1, C2. split; discriminate.
    + intros [knownX singleX contentX priorityX idX bodyX namesX]. apply I1 in idX. rewrite idX. cbn [andb]. apply andb_true_intro. split.
      * apply negb_true_iff. destruct conflict; [|apply andb_false_r]. rewrite andb_true_r. destruct (namesX eq_refl) as (C1 & C2). apply orb_false_iff. rewrite <- I3 in C1. rewrite <- I4 in C2. split; now apply not_true_iff_false.
      * rewrite <- I2 in bodyX. destruct (Nat.eqb_spec ty 5) as [T|T]; [apply negb_true_iff, not_true_iff_false; now apply bodyX|]. destruct (isSet "NodeBody" s); [reflexivity|]. elim T. apply bodyX. discriminate.
  - split; [discriminate|]. intros C. exfalso. assert (F : fits ty es []).
    { destruct C as [knownX singleX contentX priorityX idX bodyX namesX]. split; [exact knownX|]. split; [intros name I; split; [now apply singleX|intros []]|]. split; assumption. }
    apply A in F. destruct F as (s & [=]).
Qed.
(** ** Conditions *)
Theorem C81_index name : name <> "ActionCompleteCondition" ->
  (forall i, i < 13 -> (getConditionIndex name = i <-> nth_error ALL_CONDITIONS i = Some name)) /\ (getConditionIndex name = 13 <-> ~ In name ALL_CONDITIONS).
Proof.
  intros NA. destruct (in_dec string_dec name ALL_CONDITIONS) as [I|N].
  - cbn in I. repeat destruct I as [<-|I]; try (destruct I); try congruence; (split; [|split; [discriminate|intros N; elim N; cbn; tauto]]); intros i L; do 13 (destruct i as [|i]; [cbn; split; congruence|]); lia.
  - assert (G : getConditionIndex name = 13).
    { unfold getConditionIndex. destruct (guessCondition name) as [i|] eqn:E; [|reflexivity]. destruct (String.eqb_spec name (getConditionName i)) as [EQ|]; [|reflexivity]. elim N. rewrite EQ. unfold getConditionName. apply nth_In. cbn [List.length ALL_CONDITIONS].
      clear -E. unfold guessCondition in E. repeat match type of E with context [if ?b then _ else _] => destruct b end; first [discriminate E | injection E as <-; lia]. }
    rewrite G. split; [|tauto]. intros i L. split; [intros <-; lia|]. intros H. apply nth_error_In in H. now elim N.
Qed.
(** The place of a condition in a node: the eight come one after the other, from 3 *)
Definition isCondition (i : nat) (name : string) : Prop := 3 <= i /\ nth_error conditionNames (i - 3) = Some name.
Lemma condition_tag name : In name allNames -> (testSuffix "Condition" name = true <-> In name conditionNames).
Proof. intros I. cbn in I. repeat destruct I as [<-|I]; try (destruct I); (split; [intros H; first [discriminate H | cbn; tauto]|intros H; first [reflexivity | cbn in H; repeat destruct H as [H|H]; try discriminate H; destruct H]]). Qed.
Lemma condition_index name : In name conditionNames -> 3 <= getConditionIndex name <= 10 /\ forall i, isCondition i name <-> i = getConditionIndex name.
Proof.
  intros I. cbn in I. unfold isCondition. repeat destruct I as [<-|I]; try (destruct I); (split; [cbn; lia|]); intros i; (split; [intros (L & H)|intros ->; split; [cbn; lia|reflexivity]]);
    (do 3 (destruct i as [|i]; [lia|])); cbn [Nat.sub] in H; rewrite ?Nat.sub_0_r in H; (do 8 (destruct i as [|i]; [first [reflexivity | discriminate H]|])); cbn in H; destruct i; discriminate H.
Qed.
Lemma create_ok : forall (es : list (elt exp)) cs, (forall e, In e es -> In (tag e) allNames) -> (forall e, In e es -> In (tag e) conditionNames -> boolean e = true) ->
  exists cs', createConditions es cs = Some cs' /\ forall i, (exists e, In e es /\ In (tag e) conditionNames /\ isCondition i (tag e) /\ cs' i = Some (expr e)) \/ ((forall e, In e es -> In (tag e) conditionNames -> ~ isCondition i (tag e)) /\ cs' i = cs i).
Proof.
  induction es as [|e es IH]; intros cs K B; cbn [createConditions].
  - exists cs. split; [reflexivity|]. intros i. right. split; [intros e []|reflexivity].
  - pose proof (condition_tag (tag e) (K e (or_introl eq_refl))) as CT. assert (K' : forall x, In x es -> In (tag x) allNames) by (intros x I; apply K; now right).
    assert (B' : forall x, In x es -> In (tag x) conditionNames -> boolean x = true) by (intros x I; apply B; now right). destruct (testSuffix "Condition" (tag e)) eqn:T.
    + assert (C : In (tag e) conditionNames) by now apply CT. rewrite (B e (or_introl eq_refl) C). destruct (condition_index _ C) as (R & CI). unfold addUserCondition.
      replace (Nat.leb 3 (getConditionIndex (tag e)) && Nat.leb (getConditionIndex (tag e)) 10) with true by (symmetry; apply andb_true_intro; split; apply Nat.leb_le; lia).
      destruct (IH (fun i => if Nat.eqb i (getConditionIndex (tag e)) then Some (expr e) else cs i) K' B') as (cs' & E & H). exists cs'. split; [exact E|]. intros i. destruct (H i) as [(x & I & X)|(N & X)].
      * left. exists x. split; [now right|exact X].
      * destruct (Nat.eqb_spec i (getConditionIndex (tag e))) as [EI|NI].
        -- left. exists e. split; [now left|]. split; [exact C|]. split; [now apply CI|exact X].
        -- right. split; [|exact X]. intros x [<-|I] CX; [intros Q; apply CI in Q; contradiction|now apply N].
    + destruct (IH cs K' B') as (cs' & E & H). exists cs'. split; [exact E|]. intros i. destruct (H i) as [(x & I & X)|(N & X)]; [left; exists x; split; [now right|exact X]|].
      right. split; [|exact X]. intros x [<-|I] CX; [apply CT in CX; discriminate|now apply N].
Qed.
Lemma only_one (es : list (elt exp)) name x y : atMostOne es name -> In x es -> In y es -> tag x = name -> tag y = name -> x = y.
Proof.
  intros A I J TX TY. apply in_split in I. destruct I as (a & b & ->). apply in_app_or in J. destruct J as [J|[J|J]]; [|exact J|].
  - apply in_split in J. destruct J as (c & d & ->). elim (A c y d x b); [now rewrite <- app_assoc|exact TY|exact TX].
  - apply in_split in J. destruct J as (c & d & ->). elim (A a x c y d eq_refl TX TY).
Qed.
Theorem C81_conditions ty (es : list (elt exp)) conflict : conforms ty es conflict -> (forall e, In e es -> In (tag e) conditionNames -> boolean e = true) ->
  exists cs, createConditions es noConditions = Some cs /\ forall i x, cs i = Some x <-> exists e, In e es /\ isCondition i (tag e) /\ expr e = x.
Proof.
  intros C B. destruct (create_ok es noConditions (known _ _ _ _ C) B) as (cs & E & H). exists cs. split; [exact E|]. intros i x.
  assert (IC : forall e, isCondition i (tag e) -> In (tag e) conditionNames) by (intros e (_ & Q); now apply nth_error_In in Q). destruct (H i) as [(e & I & CN & Q & ->)|(N & ->)].
  - split; [intros [= <-]; now exists e|]. intros (f & J & QF & <-). f_equal. f_equal. apply (only_one es (tag e)); try assumption; try reflexivity.
    + apply (single _ _ _ _ C). apply in_or_app. now right.
    + destruct Q as (_ & Q), QF as (_ & QF). congruence.
  - split; [discriminate|]. intros (e & I & Q & _). elim (N e I (IC e Q) Q).
Qed.
Theorem C81_not_boolean ty (es : list (elt exp)) conflict e : conforms ty es conflict -> In e es -> In (tag e) conditionNames -> boolean e = false -> createConditions es noConditions = None.
Proof.
  intros C I CN B. pose proof (known _ _ _ _ C) as K. clear C. generalize (@noConditions exp). induction es as [|x es IH]; intros cs; [destruct I|]. cbn [createConditions]. pose proof (condition_tag (tag x) (K x (or_introl eq_refl))) as CT. destruct I as [->|I].
  - apply CT in CN. now rewrite CN, B.
  - assert (IH' : forall cs, createConditions es cs = None) by (intros cs'; apply IH; [exact I|intros y J; apply K; now right]). destruct (testSuffix _ _); [|apply IH']. destruct (boolean x); [|reflexivity]. destruct (addUserCondition _ _ _); [apply IH'|reflexivity].
Qed.
End Proofs.
(** The condition index of one name is not found: the table has the index of another condition for it (NodeImpl.cc 98-100), so that the name does not match.  No plan can give that name. *)
Theorem C81_action_complete_refuted : nth_error ALL_CONDITIONS 11 = Some "ActionCompleteCondition" /\ getConditionIndex "ActionCompleteCondition" = 13.
Proof. split; reflexivity. Qed.
Definition el (t : string) (g : bool) (x : nat) : elt nat := mkElt t g x true.
Theorem C81_example :
  let es := [el "Comment" true 0; el "NodeId" true 1; el "SkipCondition" true 2; el "EndCondition" true 3; el "Comment" true 4; el "NodeBody" true 5] in
  conforms 2 es false /\ checkNode 2 es false = true /\ checkNode 5 es false = false /\ checkNode 2 (es ++ [el "EndCondition" true 6]) false = false /\ checkNode 2 (es ++ [el "StopCondition" true 6]) false = false /\
  checkNode 2 (el "StartCondition" false 6 :: es) false = false /\ (exists cs, createConditions es noConditions = Some cs /\ map cs (seq 0 13) = [None; None; None; Some 2; None; None; None; None; Some 3; None; None; None; None]).
Proof. cbv zeta. split; [apply C81_accepts; reflexivity|]. do 5 (split; [reflexivity|]). eexists. split; reflexivity. Qed.
Print Assumptions C81_accepts.

(** Assumptions *)
Print Assumptions C81_index.
Print Assumptions C81_conditions.
Print Assumptions C81_not_boolean.
Print Assumptions C81_action_complete_refuted.
Print Assumptions C81_example.
