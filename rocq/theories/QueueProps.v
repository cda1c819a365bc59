(** C24 (and the pointer-level half of C12): theorems about LinkedQueue / PriorityQueue. *)
From Coq Require Import ZArith Sorted.
From Verif Require Import QueueProofs.

(** The lists after a history, starting from all queues empty. *)
Definition arun (lt : nat -> nat -> bool) (os : list qop) : nat -> list nat := fold_left (aop lt) os (fun _ => []).
(** Every operation of the history respects the discipline (only unqueued items are queued). *)
Fixpoint disciplined_from (lt : nat -> nat -> bool) (ls : nat -> list nat) (os : list qop) : Prop :=
  match os with [] => True | o :: os' => allowed ls o /\ disciplined_from lt (aop lt ls o) os' end.
Definition disciplined lt os := disciplined_from lt (fun _ => []) os.

Lemma QI0 : QI (fun _ => None) (fun _ => q0) (fun _ => []).
Proof. constructor; simpl; intros; try contradiction; try reflexivity; constructor; reflexivity. Qed.

Lemma crun_refines lt os : forall h qs ls, QI h qs ls -> disciplined_from lt ls os ->
  exists h' qs', crun lt h qs os = Ok (h', qs') /\ QI h' qs' (fold_left (aop lt) os ls).
Proof.
  induction os as [|o os IH]; intros h qs ls Q D; simpl.
  - eauto.
  - destruct D as [A D]. destruct (cop_refines lt h qs ls o Q A) as (h' & qs' & -> & Q'). eauto.
Qed.

(** Any history of operations runs to completion without failed assertion, null dereference or
    endless loop, and afterwards everything observable of every queue is what the list says. *)
Theorem C24_queue_behaves_as_list : forall lt os, disciplined lt os ->
  exists h qs, crun lt (fun _ => None) (fun _ => q0) os = Ok (h, qs) /\
    (forall i, let l := arun lt os i in
       repr h (qs i) l /\
       front (qs i) = hd_error l /\ size (qs i) = length l /\ (isEmpty (qs i) = true <-> l = []) /\
       iterate (size (qs i)) h (q_head (qs i)) = Ok l /\
       (forall p, find_if (size (qs i)) h (qs i) p = Ok (find p l))) /\
    (forall x, (forall i, ~ In x (arun lt os i)) -> h x = None).
Proof.
  intros lt os D. destruct (crun_refines lt os _ _ _ QI0 D) as (h & qs & E & Q).
  exists h, qs. split; auto. split; [|apply Q].
  intros i l. pose proof (qi_r _ _ _ Q i) as R. change (QR h (qs i) l) in R.
  assert (L : length l <= size (qs i)) by (unfold size; rewrite (qr_count _ _ _ R); lia).
  repeat split.
  - apply chain_seg, R.
  - apply R.
  - apply R.
  - unfold front. pose proof (qr_seg _ _ _ R) as S. destruct l; simpl in S; [auto|apply S].
  - apply (qr_count _ _ _ R).
  - unfold isEmpty. pose proof (qr_seg _ _ _ R) as S. destruct l; simpl in S; auto. destruct S as [-> _]. discriminate.
  - intros Z. rewrite Z in R. pose proof (qr_seg _ _ _ R) as S. simpl in S. unfold isEmpty. now rewrite S.
  - apply iterate_spec; auto. apply R.
  - intros p. apply find_if_spec; auto.
Qed.

(** remove_if reports the item it removed: the first one that satisfies the predicate. *)
Theorem C24_remove_if_reports : forall lt os i p, disciplined lt os ->
  exists h qs h' q' , crun lt (fun _ => None) (fun _ => q0) os = Ok (h, qs) /\
    remove_if (size (qs i)) h (qs i) p = Ok (h', q', find p (arun lt os i)).
Proof.
  intros lt os i p D. destruct (crun_refines lt os _ _ _ QI0 D) as (h & qs & E & Q).
  destruct (QI_removeIf h qs _ i p Q) as (h' & q' & r & K & _ & ->). eauto 6.
Qed.

(** No item is ever in two queues or twice in one. *)
Theorem C24_items_in_one_place : forall lt os, disciplined lt os ->
  (forall i, NoDup (arun lt os i)) /\ (forall i j x, In x (arun lt os i) -> In x (arun lt os j) -> i = j).
Proof.
  intros lt os D. destruct (crun_refines lt os _ _ _ QI0 D) as (h & qs & E & Q). split; [apply Q|apply Q].
Qed.

(** FIFO: in any history where queue [i] is only pushed and popped, what was pushed is what was
    popped followed by what is still there. *)
Definition pushes i (os : list qop) : list nat := flat_map (fun o => match o with OPush j x => if Nat.eqb j i then [x] else [] | _ => [] end) os.
Fixpoint popped lt (ls : nat -> list nat) i (os : list qop) : list nat :=
  match os with
  | [] => []
  | o :: os' => (match o with OPop j => if Nat.eqb j i then firstn 1 (ls i) else [] | _ => [] end) ++ popped lt (aop lt ls o) i os'
  end.
Definition fifo_only i (os : list qop) := forall o, In o os ->
  match o with OPush _ _ | OPop _ => True | OInsert j _ | ORemove j _ | ORemoveIf j _ | OClear j => j <> i end.
Theorem C24_fifo : forall lt i os, fifo_only i os ->
  pushes i os = popped lt (fun _ => []) i os ++ arun lt os i.
Proof.
  intros lt i os. unfold arun.
  assert (G : forall ls, fifo_only i os -> ls i ++ pushes i os = popped lt ls i os ++ fold_left (aop lt) os ls i).
  { induction os as [|o os IH]; intros ls F; simpl. now rewrite app_nil_r.
    assert (F' : fifo_only i os) by (intros x X; apply F; now right).
    pose proof (F o (or_introl eq_refl)) as Fo. pose proof (IH (aop lt ls o) F') as H.
    rewrite <- app_assoc, <- H.
    destruct o as [j x|j x|j|j x|j p|j]; simpl in *; unfold lset in *; destruct (Nat.eqb_spec i j), (Nat.eqb_spec j i); try congruence; subst; simpl; rewrite <- ?app_assoc; auto.
    destruct (ls j); simpl; auto. }
  intros F. exact (G (fun _ => []) F).
Qed.

(** ** Priority insertion *)
Section Prio.
Variable prio : nat -> Z.
Definition ltP (a b : nat) : bool := (prio a <? prio b)%Z.
Definition sorted (l : list nat) := StronglySorted (fun a b => (prio a <= prio b)%Z) l.

Lemma ins_sorted x l : sorted l -> sorted (ins ltP x l).
Proof.
  intros S. induction S as [|a l S IH F]; simpl.
  - constructor; constructor.
  - unfold ltP at 1. destruct (Z.ltb_spec (prio x) (prio a)).
    + constructor. constructor; auto. constructor. lia.
      eapply Forall_impl; [|apply F]. simpl. intros; lia.
    + constructor; auto. apply Forall_forall. intros y Y. apply in_ins in Y as [->|Y]; auto.
      rewrite Forall_forall in F. auto.
Qed.
Lemma sorted_drop1 p l : sorted l -> sorted (drop1 p l).
Proof.
  intros S; induction S as [|a l S IH F]; simpl; [constructor|]. destruct (p a); auto.
  constructor; auto. rewrite Forall_forall in *. intros y Y. apply F. eapply in_drop1; eauto.
Qed.

(** C12: a queue fed only through insert is ordered by priority at all times. *)
Theorem C12_pointer_queue_sorted : forall i os,
  (forall o, In o os -> match o with OPush j _ => j <> i | _ => True end) -> sorted (arun ltP os i).
Proof.
  intros i os. unfold arun.
  assert (G : forall ls, sorted (ls i) ->
     (forall o, In o os -> match o with OPush j _ => j <> i | _ => True end) -> sorted (fold_left (aop ltP) os ls i)).
  { induction os as [|o os IH]; intros ls S F; simpl; auto. apply IH; [|intros; apply F; now right].
    specialize (F o (or_introl eq_refl)).
    destruct o as [j x|j x|j|j x|j p|j]; simpl; unfold lset; destruct (Nat.eqb_spec i j); auto; try subst j.
    - congruence.
    - now apply ins_sorted.
    - destruct (ls i); simpl; auto. now inversion S.
    - now apply sorted_drop1.
    - now apply sorted_drop1.
    - constructor. }
  apply G. constructor.
Qed.
(** C12: an inserted item goes behind everything of its own or a lower number and in front of all the rest. *)
Theorem C12_pointer_insert_stable : forall x l, sorted l ->
  exists l1 l2, l = l1 ++ l2 /\ ins ltP x l = l1 ++ x :: l2 /\
    (forall y, In y l1 -> prio y <= prio x)%Z /\ (forall y, In y l2 -> prio x < prio y)%Z.
Proof.
  intros x l S. induction S as [|a l S IH F]; simpl.
  - exists [], []. repeat split; auto; intros ? [].
  - unfold ltP at 1. destruct (Z.ltb_spec (prio x) (prio a)).
    + exists [], (a :: l). repeat split; auto. intros ? []. intros y [<-|Y]; auto.
      rewrite Forall_forall in F. specialize (F y Y). simpl in F. lia.
    + destruct IH as (l1 & l2 & -> & -> & A & B). exists (a :: l1), l2. repeat split; auto. intros y [<-|Y]; auto.
Qed.

(** front_count is the number of items with the same priority as the front one. *)
Lemma countLoop_spec l : forall fuel h x r, seg h (Some x) (x :: l) None -> length l <= fuel -> sorted (x :: l) ->
  countLoop ltP fuel h x r = Ok (r + length (filter (fun y => prio y =? prio x)%Z l)).
Proof.
  induction l as [|y l IH]; intros fuel h x r [_ S] L SO.
  - simpl in S. destruct fuel; simpl; rewrite S; f_equal; lia.
  - destruct S as [S0 S]. destruct fuel as [|f]; [simpl in L; lia|]. simpl. rewrite S0.
    inversion_clear SO. inversion_clear H0.
    unfold ltP at 1. destruct (Z.ltb_spec (prio x) (prio y)).
    + destruct (Z.eqb_spec (prio y) (prio x)); [lia|].
      assert (E : filter (fun z => prio z =? prio x)%Z l = []).
      { inversion_clear H. clear - H0 H4. induction l; simpl; auto. inversion_clear H4.
        destruct (Z.eqb_spec (prio a) (prio x)); [lia|]. auto. }
      rewrite E. simpl. f_equal. lia.
    + destruct (Z.eqb_spec (prio y) (prio x)); [|lia]. simpl.
      rewrite IH; auto. rewrite e. f_equal. lia. split; auto. simpl in L; lia.
Qed.
Theorem C12_front_count : forall h q l, repr h q l -> sorted l ->
  front_count ltP (size q) h q = Ok match l with [] => 0 | x :: _ => length (filter (fun y => prio y =? prio x)%Z l) end.
Proof.
  intros h q l R S. apply QR_repr in R. destruct R as [G T C]. unfold front_count. rewrite C.
  destruct l as [|x [|y l]].
  - auto.
  - simpl. now rewrite Z.eqb_refl.
  - change (length (x :: y :: l) <=? 1) with false. cbv iota.
    assert (H : q_head q = Some x) by apply G. rewrite H.
    rewrite (countLoop_spec (y :: l)); auto.
    + cbn [filter]. rewrite Z.eqb_refl. reflexivity.
    + rewrite <- H. exact G.
    + unfold size. rewrite C. simpl. lia.
Qed.
End Prio.

(** ** Non-vacuity: a history with two queues, priority insertion, removal of the tail and re-use. *)
Definition exPrio (n : nat) : Z := if Nat.eqb n 2 then 3%Z else if Nat.eqb n 4 then 0%Z else 5%Z.
Definition exOps : list qop :=
  [OInsert 0 1; OInsert 0 2; OInsert 0 3; OPush 1 4; OPush 1 5; ORemove 0 3; OPop 1; OPush 1 3; OInsert 0 4; OClear 1; OPush 1 5].
Example exOps_disciplined : disciplined (ltP exPrio) exOps.
Proof.
  unfold disciplined, exOps. simpl. unfold lset.
  repeat split; intros j; destruct j as [|[|j]]; simpl; lia.
Qed.
Example exOps_result : arun (ltP exPrio) exOps 0 = [4; 2; 1] /\ arun (ltP exPrio) exOps 1 = [5].
Proof. split; reflexivity. Qed.
Example exOps_concrete :
  match crun (ltP exPrio) (fun _ => None) (fun _ => q0) exOps with
  | Ok (h, qs) => iterate 9 h (q_head (qs 0)) = Ok [4; 2; 1] /\ front_count (ltP exPrio) 9 h (qs 0) = Ok 1
  | _ => False end.
Proof. vm_compute. auto. Qed.
Example ex_fifo : fifo_only 1 [OPush 1 4; OInsert 0 1; OPush 1 5; OPop 1].
Proof. intros o [<-|[<-|[<-|[<-|[]]]]]; auto. Qed.

(** ** The discipline is needed, and insert_after does not keep the structure intact.
    The assertion in push only looks at the link of the new item, which is null for the last
    item of a queue: pushing the last item again is not caught and makes a cycle. *)
Theorem C24_double_push_refuted :
  exists h qs, crun (ltP exPrio) (fun _ => None) (fun _ => q0) [OPush 0 1; OPush 0 1] = Ok (h, qs) /\
    (forall fuel, iterate fuel h (q_head (qs 0)) = OutOfFuel).
Proof.
  eexists _, _. split; [reflexivity|].
  induction fuel; simpl; auto. simpl in IHfuel. rewrite hset_same, IHfuel. auto.
Qed.
(** insert_after behind the last item sets the tail pointer to null instead of the new item
    (it stores the saved next pointer): the following push dereferences null. *)
Theorem C24_insert_after_tail_refuted : forall a b c : nat, a <> b -> a <> c -> b <> c ->
  exists h1 q1 h2 q2, push (fun _ => None) q0 a = Ok (h1, q1) /\ insert_after h1 q1 (Some a) b = Ok (h2, q2) /\
    q_tail q2 = None /\ push h2 q2 c = NullDeref.
Proof.
  intros a b c AB AC BC. unfold push at 1. simpl. eexists _, _, _, _.
  split; [reflexivity|]. split; [reflexivity|]. split.
  - simpl. rewrite hset_same. auto.
  - unfold push. simpl. rewrite hset_other, hset_other, hset_other by auto. rewrite hset_same. auto.
Qed.

Print Assumptions C24_queue_behaves_as_list.
Print Assumptions C12_front_count.

(** Assumptions *)
Print Assumptions C24_remove_if_reports.
Print Assumptions C24_items_in_one_place.
Print Assumptions C24_fifo.
Print Assumptions C12_pointer_queue_sorted.
Print Assumptions C12_pointer_insert_stable.
Print Assumptions C24_double_push_refuted.
Print Assumptions C24_insert_after_tail_refuted.
