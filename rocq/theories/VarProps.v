(** C14 (assignments), C31 (variables), C32 (arrays).
    Specifications look only at the history of calls, most recent first. *)
From Coq Require Import List ZArith Bool Lia.
From Verif Require Import VarModel.
Import ListNotations.

Section S.
Context {T : Type} (teq : T -> T -> bool) (dflt : T).
Notation vop := (vop T). Notation uvar := (uvar T).

(** * Specification of a scalar variable (newest call first) *)

(** Net number of activations. *)
Fixpoint depth (h : list vop) : nat :=
  match h with
  | [] => 0
  | VAct _ :: t => S (depth t)
  | VDeact :: t => pred (depth t)
  | _ :: t => depth t
  end.

(** The last value given to the variable since it was last activated from
    inactive, or its initial value; [saved]: the value at the last save. *)
Fixpoint current (hasInit : bool) (h : list vop) : option T :=
  match h with
  | [] => None
  | VAct iv :: t =>
      if Nat.eqb (depth t) 0 then (if hasInit then iv else None) else current hasInit t
  | VDeact :: t => current hasInit t
  | VSet x :: t => x
  | VSetUnknown :: t => None
  | VSave :: t => current hasInit t
  | VRestore :: t =>
      (fix saved (h : list vop) : option T :=
         match h with
         | [] => None
         | VSave :: t => current hasInit t
         | VAct _ :: t => if Nat.eqb (depth t) 0 then None else saved t
         | _ :: t => saved t
         end) t
  end.

Fixpoint saved (hasInit : bool) (h : list vop) : option T :=
  match h with
  | [] => None
  | VSave :: t => current hasInit t
  | VAct _ :: t => if Nat.eqb (depth t) 0 then None else saved hasInit t
  | _ :: t => saved hasInit t
  end.

(** No deactivation of an inactive variable (the code asserts this). *)
Fixpoint balanced (h : list vop) : Prop :=
  match h with
  | [] => True
  | VDeact :: t => 0 < depth t /\ balanced t
  | _ :: t => balanced t
  end.

(** Run the code on a history (newest first). *)
Fixpoint runv (h : list vop) (v : uvar) : res uvar :=
  match h with
  | [] => Ok v
  | o :: t => bind (runv t v) (fun v1 => bind (uvStep teq o v1) (fun p => Ok (fst p)))
  end.

Definition valOf (known : bool) (x : T) : option T := if known then Some x else None.

Lemma current_restore : forall b t, current b (VRestore :: t) = saved b t.
Proof.
  intros b t. cbn [current]. induction t as [|o t IH]; [reflexivity|].
  destruct o; cbn [saved]; auto. destruct (Nat.eqb (depth t) 0); auto.
Qed.

Definition VInv (b : bool) (h : list vop) (v : uvar) : Prop :=
  uv_init v = b /\ uv_count v = depth h
  /\ valOf (uv_known v) (uv_value v) = current b h
  /\ valOf (uv_sknown v) (uv_svalue v) = saved b h.

Lemma VInv_step : forall b h v o, VInv b h v -> (o = VDeact -> 0 < depth h) ->
  exists v' p, uvStep teq o v = Ok (v', p) /\ VInv b (o :: h) v'.
Proof.
  intros b h v o (Hi & Hc & Hv & Hs) Hd.
  destruct o as [iv| |x| | |]; cbn [uvStep].
  - unfold uvActivate. rewrite Hc. destruct (Nat.eqb (depth h) 0) eqn:E.
    + apply Nat.eqb_eq in E. rewrite Hi. destruct b; [destruct iv|]; do 2 eexists; (split; [reflexivity|]);
        unfold VInv; cbn; rewrite E; cbn; auto.
    + do 2 eexists; split; [reflexivity|]. unfold VInv; cbn. rewrite E. auto.
  - unfold uvDeactivate. specialize (Hd eq_refl). destruct (uv_count v) as [|n] eqn:E; [lia|].
    do 2 eexists; split; [reflexivity|]. unfold VInv; cbn. rewrite <- Hc. auto.
  - destruct x; cbn [uvSet]; do 2 eexists; (split; [reflexivity|]); unfold VInv; cbn; auto.
  - do 2 eexists; split; [reflexivity|]. unfold VInv; cbn; auto.
  - do 2 eexists; split; [reflexivity|]. unfold VInv; cbn; auto.
  - do 2 eexists; split; [reflexivity|]. unfold VInv. rewrite current_restore. cbn; auto.
Qed.

Lemma VInv_run : forall b g1 g2 h, balanced h ->
  exists v, runv h (newVar b g1 g2) = Ok v /\ VInv b h v.
Proof.
  induction h as [|o h IH]; intros Hb.
  - eexists; split; [reflexivity|]. unfold VInv; cbn; auto.
  - destruct IH as (v & Ev & HI); [destruct o; cbn in Hb; tauto|].
    destruct (VInv_step _ _ _ o HI) as (v' & p & Es & HI').
    + intros ->. cbn in Hb. tauto.
    + exists v'. cbn [runv]. rewrite Ev. cbn. rewrite Es. auto.
Qed.

(** C31, scalar variables: whatever the history and whatever the memory held,
    reading yields the current value while active and unknown otherwise. *)
Theorem C31_variable_reads : forall hasInit g1 g2 h,
  balanced h ->
  exists v, runv h (newVar hasInit g1 g2) = Ok v
    /\ uvRead v = (if Nat.eqb (depth h) 0 then None else current hasInit h).
Proof.
  intros b g1 g2 h Hb. destruct (VInv_run b g1 g2 h Hb) as (v & Ev & Hi & Hc & Hv & Hs).
  exists v. split; auto. unfold uvRead, uvActive. rewrite Hc.
  destruct (Nat.eqb (depth h) 0); cbn; auto.
Qed.

(** Deactivation to inactive followed by activation forgets every assignment. *)
Theorem C31_reactivation_resets : forall hasInit h iv,
  balanced (VAct iv :: h) -> depth h = 0 ->
  current hasInit (VAct iv :: h) = (if hasInit then iv else None).
Proof. intros b h iv _ E. cbn [current]. rewrite E. reflexivity. Qed.

(** While the variable stays active, an operation that does not notify the
    listeners has not changed the value read (up to the type's own ==), except
    that setting the counter itself is invisible. *)
Theorem C31_no_missed_notification : forall v o v',
  uvActive v = true -> uvActive v' = true ->
  uvStep teq o v = Ok (v', false) ->
  match uvRead v, uvRead v' with
  | Some x, Some y => x = y \/ teq y x = true \/ teq x y = true
  | None, None => True
  | _, _ => False
  end.
Proof.
  intros v o v' Ha Ha' E. unfold uvRead. rewrite Ha, Ha'.
  destruct o as [iv| |x| | |]; cbn [uvStep] in E.
  - unfold uvActivate in E. unfold uvActive in Ha. destruct (Nat.eqb (uv_count v) 0); [discriminate|].
    injection E as <-. cbn. destruct (uv_known v); auto.
  - unfold uvDeactivate in E. destruct (uv_count v); [discriminate|]. injection E as <-.
    cbn. destruct (uv_known v); auto.
  - destruct x as [y|]; cbn [uvSet] in E.
    + injection E as <- E. rewrite Ha, andb_true_r in E. cbn.
      destruct (uv_known v); cbn in E; [|discriminate].
      apply negb_false_iff in E. auto.
    + injection E as <- E. rewrite Ha, andb_true_r in E. cbn. rewrite E. auto.
  - injection E as <- E. rewrite Ha, andb_true_r in E. cbn. rewrite E. auto.
  - injection E as <-. cbn. destruct (uv_known v); auto.
  - injection E as <- E. rewrite Ha, andb_true_r in E. cbn.
    apply orb_false_iff in E as [E1 E2]. apply negb_false_iff in E1, E2.
    apply eqb_prop in E1. rewrite E1. destruct (uv_sknown v); auto.
Qed.

(** A value written while active and different from the current one is announced. *)
Theorem C31_change_is_announced : forall v x,
  uvActive v = true ->
  (match uvRead v, x with
   | Some a, Some b => teq b a = false
   | None, None => False
   | _, _ => True end) ->
  exists v', uvStep teq (VSet x) v = Ok (v', true) /\ uvRead v' = x.
Proof.
  intros v x Ha H. exists (fst (uvSet teq x v)). split.
  - cbn [uvStep]. destruct (uvSet teq x v) as [v' p] eqn:E. cbn [fst].
    assert (p = true) as ->; [|reflexivity].
    unfold uvRead in H. rewrite Ha in H.
    destruct x as [b|]; cbn [uvSet] in E; unfold uvSetImpl, uvSetUnknown in E; injection E as _ <-;
      rewrite Ha, andb_true_r; destruct (uv_known v); cbn in *; auto; try (rewrite H; reflexivity); tauto.
  - destruct x; cbn; unfold uvRead, uvActive in *; cbn; rewrite Ha; reflexivity.
Qed.

(** * C14: assignments *)

Lemma run_saved : forall h v v',
  runv h v = Ok v' -> ~ In VSave h ->
  (forall t u, h = u ++ t -> exists w, runv t v = Ok w /\ 0 < uv_count w) ->
  uv_sknown v' = uv_sknown v /\ uv_svalue v' = uv_svalue v.
Proof.
  induction h as [|o h IH]; intros v v' E Hn Hk.
  - injection E as <-. auto.
  - cbn [runv] in E. destruct (Hk h [o] eq_refl) as (w & Ew & Hw). rewrite Ew in E. cbn in E.
    destruct (IH v w Ew) as [IH1 IH2].
    + intros Hin. apply Hn. right; auto.
    + intros t u ->. apply (Hk t (o :: u)). reflexivity.
    + rewrite <- IH1, <- IH2. destruct o as [iv| |x| | |]; cbn [uvStep] in E.
      * unfold uvActivate in E. destruct (Nat.eqb_spec (uv_count w) 0); [lia|].
        injection E as <-. auto.
      * unfold uvDeactivate in E. destruct (uv_count w); [discriminate|]. injection E as <-. auto.
      * destruct x; injection E as <-; auto.
      * injection E as <-; auto.
      * exfalso. apply Hn. left; auto.
      * injection E as <-; auto.
Qed.

(** C14, completion: executing the assignment gives the variable exactly the
    value the right-hand side had when the node started executing ([fixValue]),
    reports that value to the listeners and acknowledges; values taken by the
    right-hand side later are irrelevant (the model's [asExecute] has no access to it,
    as Assignment::execute has none). *)
Theorem C14_completed_assignment : forall (a : asgn T) rhs,
  uvActive (as_dest a) = true ->
  let a1 := asFix rhs a in
  let '(a2, reported, _) := asExecute teq a1 in
  uvRead (as_dest a2) = rhs /\ reported = rhs
  /\ (sb_count (as_ack a) <> 0 -> sb_val (as_ack a2) = true).
Proof.
  intros a rhs Ha. cbn zeta. unfold asExecute, asFix; cbn.
  destruct rhs as [x|]; cbn; unfold uvRead, uvActive in *; cbn; rewrite Ha;
    (split; [reflexivity|split; [reflexivity|]]);
    intros Hc; unfold sbSet; destruct (Nat.eqb_spec (sb_count (as_ack a)) 0); cbn; congruence.
Qed.

(** C14, abort: whatever happens to the variable between the start and the
    retraction (the assignment itself, other writes, activations that keep it
    active), as long as no other assignment to it is started, retraction
    brings back exactly the value, known or unknown, it had at the start. *)
Theorem C14_aborted_assignment : forall (a : asgn T) rhs h v1,
  uvActive (as_dest a) = true ->
  runv h (as_dest (asFix rhs a)) = Ok v1 ->
  ~ In VSave h ->
  (forall t u, h = u ++ t -> exists w, runv t (as_dest (asFix rhs a)) = Ok w /\ 0 < uv_count w) ->
  let '(a2, _, _) := asRetract teq {| as_dest := v1; as_value := rhs;
                                   as_ack := as_ack a; as_abort := as_abort a |} in
  uvRead (as_dest a2) = uvRead (as_dest a)
  /\ (sb_count (as_abort a) <> 0 -> sb_val (as_abort a2) = true).
Proof.
  intros a rhs h v1 Ha E Hn Hk. unfold asRetract. cbn.
  destruct (run_saved _ _ _ E Hn Hk) as [E1 E2]. cbn in E1, E2.
  destruct (Hk h [] eq_refl) as (w & Ew & Hw). rewrite E in Ew. injection Ew as <-.
  split.
  - unfold uvRead. assert (Hact : uvActive (fst (uvRestore teq v1)) = true).
    { unfold uvRestore, uvActive; cbn. destruct (Nat.eqb_spec (uv_count v1) 0); [lia|auto]. }
    rewrite Ha. unfold uvRestore in *. cbn in *. unfold uvActive in *; cbn in *. rewrite Hact, E1, E2. reflexivity.
  - intros Hc. unfold sbSet. cbn. destruct (Nat.eqb_spec (sb_count (as_abort a)) 0); cbn; congruence.
Qed.

(** A listener hears about the restored value whenever it differs. *)
Theorem C14_abort_announced : forall (v : uvar) v',
  uvActive v = true -> uvRestore teq v = (v', false) ->
  match uvRead v, uvRead v' with
  | Some x, Some y => teq x y = true
  | None, None => True
  | _, _ => False
  end.
Proof.
  intros v v' Ha E. unfold uvRestore in E. injection E as <- E.
  rewrite Ha, andb_true_r in E. apply orb_false_iff in E as [E1 E2].
  apply negb_false_iff in E1, E2. apply eqb_prop in E1.
  unfold uvRead, uvActive in *; cbn. rewrite Ha, E1. destruct (uv_sknown v); auto.
Qed.

(** The value reported to the exec listeners on abort is the restored one when
    that is known. *)
Theorem C14_abort_report_partial : forall (a : asgn T),
  uv_sknown (as_dest a) = true -> uvActive (as_dest a) = true ->
  let '(a2, reported, _) := asRetract teq a in uvRead (as_dest a2) = reported.
Proof.
  intros a H Ha. unfold asRetract, uvRestore, uvRead, uvGetSaved; cbn.
  unfold uvActive in *; cbn. rewrite Ha, H. reflexivity.
Qed.

End S.

(** The report is wrong when the variable was unknown: an assignment x := 5 to
    an unknown x (memory holding 7) is aborted; x is unknown again, but the
    listeners are told "7". *)
Theorem C14_abort_report_refuted :
  exists (a : asgn nat) (a2 : asgn nat) reported p,
    uvActive (as_dest a) = true /\
    (let '(a1, _, _) := asExecute Nat.eqb (asFix (Some 5) a) in asRetract Nat.eqb a1) = (a2, reported, p)
    /\ uvRead (as_dest a) = None
    /\ uvRead (as_dest a2) = None /\ reported = Some 7.
Proof.
  exists {| as_dest := fst (uvActivate None (newVar false 7 0)); as_value := None;
            as_ack := {| sb_count := 1; sb_val := false |};
            as_abort := {| sb_count := 1; sb_val := false |} |}.
  do 3 eexists. split; [reflexivity|]. split; [reflexivity|]. repeat split.
Qed.

(** Non-vacuity: activate with initial value 1, start x := 5, a command writes 9
    in between, abort: back to 1. *)
Example C14_demo :
  let a := {| as_dest := fst (uvActivate (Some 1) (newVar true 0 0)); as_value := None;
              as_ack := {| sb_count := 1; sb_val := false |};
              as_abort := {| sb_count := 1; sb_val := false |} |} in
  let h := [VDeact; VSet (Some 9); VSet (Some 5); VAct None] in
  exists v1, uvRead (as_dest a) = Some 1
  /\ runv Nat.eqb h (as_dest (asFix (Some 5) a)) = Ok v1
  /\ uvRead v1 = Some 9
  /\ uvRead (as_dest (fst (fst (asRetract Nat.eqb {| as_dest := v1; as_value := Some 5;
        as_ack := as_ack a; as_abort := as_abort a |})))) = Some 1.
Proof. cbn zeta. eexists. repeat split. Qed.

Example C31_demo :
  let h := rev [VAct (Some 1); VSet (Some 5); VAct (Some 3); VSave; VSetUnknown; VRestore; VDeact; VDeact; VAct (Some 2)] in
  balanced h /\ depth h = 1 /\ current true h = Some 2
  /\ current true (tl (tl (tl h))) = Some 5.
Proof. cbn. repeat split; lia. Qed.

(** Assumptions *)
Print Assumptions C31_variable_reads.
Print Assumptions C31_reactivation_resets.
Print Assumptions C31_no_missed_notification.
Print Assumptions C31_change_is_announced.
Print Assumptions C14_completed_assignment.
Print Assumptions C14_aborted_assignment.
Print Assumptions C14_abort_announced.
Print Assumptions C14_abort_report_partial.
Print Assumptions C14_abort_report_refuted.
