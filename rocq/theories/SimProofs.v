(** Proofs about the stand-alone simulator (C66). *)
From Coq Require Import ZArith List Bool String Lia Permutation.
From Verif Require Import SimModel SimSpec.
Import ListNotations.
Open Scope Z_scope.

(** ** Lists *)
Lemma insert_perm t m l : Permutation (insert t m l) ((t, m) :: l).
Proof.
  induction l as [|[u n] l IH]; cbn [insert]; [reflexivity|].
  destruct (u <? t); [|reflexivity].
  rewrite IH. apply perm_swap.
Qed.
Definition sorted (l : list (Z * msg)) : Prop := nonDecreasing (map fst l).
Lemma nd_insert t m l : sorted l -> sorted (insert t m l).
Proof.
  unfold sorted. induction l as [|[u n] l IH]; intros H; cbn [insert].
  - constructor; [intros b []|constructor].
  - inversion H as [|? ? H1 H2]; subst. destruct (Z.ltb_spec u t).
    + cbn. constructor; [|apply IH; exact H2].
      intros b Hb. apply in_map_iff in Hb. destruct Hb as [[x y] [<- Hb]].
      apply (Permutation_in _ (insert_perm t m l)) in Hb. destruct Hb as [E|Hb].
      * injection E as <- <-. cbn. lia.
      * apply H1. apply in_map_iff. exists (x, y). auto.
    + cbn. constructor; [|exact H].
      intros b [<-|Hb]; [lia|]. apply H1 in Hb. cbn in Hb. lia.
Qed.
Lemma nd_shift d l : sorted l -> sorted (shift d l).
Proof.
  unfold sorted, shift. rewrite map_map. cbn. induction l as [|[u n] l IH]; intros H; [constructor|].
  cbn in *. inversion H as [|? ? H1 H2]; subst. constructor; [|apply IH; exact H2].
  intros b Hb. apply in_map_iff in Hb. destruct Hb as [[x y] [<- Hb]]. cbn.
  specialize (H1 x). rewrite in_map_iff in H1. specialize (H1 (ex_intro _ (x, y) (conj eq_refl Hb))). lia.
Qed.
Lemma sorted_head t m l x : sorted ((t, m) :: l) -> In x ((t, m) :: l) -> t <= fst x.
Proof.
  intros H [<-|Hx]; [cbn; lia|]. inversion H as [|? ? H1 H2]; subst. apply H1. apply in_map. exact Hx.
Qed.
Lemma sorted_tl e l : sorted (e :: l) -> sorted l.
Proof. intros H. inversion H; assumption. Qed.

(** ** Every history: the agenda is sorted, nothing is lost or sent twice *)
Ltac tcases :=
  repeat match goal with
  | |- context [match ?x with _ => _ end] => destruct x eqn:?; cbn [fst snd]
  end.
Lemma tstep_sorted p s : sorted (agenda s) -> sorted (agenda (snd (tstep p s))).
Proof.
  intros H. destruct p; cbn [tstep]; tcases; cbn; try assumption; try (rewrite Heql; assumption).
  - apply nd_shift; assumption.
  - apply nd_insert; assumption.
  - apply sorted_tl in H. exact H.
Qed.
Lemma tick_eq d s : exists t b, tick d s = setTimerAlarm t b (setClock (clock s + d) s).
Proof.
  unfold tick. destruct s as [ag va ti al cl mg re tr cr]; cbn. destruct ti as [e|].
  - destruct (e <=? cl + d); eauto. eexists (Some e), al. reflexivity.
  - eexists None, al. reflexivity.
Qed.
Lemma reach_sorted w0 w : sorted (agenda (sh w0)) -> reach w0 w -> sorted (agenda (sh w)).
Proof.
  intros H R. induction R as [|w a R IH]; [exact H|]. unfold stepw. destruct (crashed (sh w)); [exact IH|].
  destruct a as [d| | |c i|n].
  - destruct (0 <=? d); [|exact IH]. cbn. destruct (tick_eq d (sh w)) as [t [b ->]]. exact IH.
  - pose proof (tstep_sorted (main w) (sh w) IH) as T.
    destruct (main w); try (destruct (tstep _ _) as [p' s']; exact T). destruct (alarm (sh w)); exact IH.
  - pose proof (tstep_sorted (ipc w) (sh w) IH) as T. destruct (tstep _ _); exact T.
  - destruct (ipc w); exact IH.
  - destruct (ipc w); exact IH.
Qed.

(** What a thread's step does to the trace, the message in its hand and the agenda. *)
Definition held (p : pc) (s : shared) : list msg := map snd (sent (trace s) ++ inHand p ++ agenda s).
Ltac permsolve :=
  repeat rewrite map_app; cbn;
  repeat first [ reflexivity | apply Permutation_app_head ];
  try (symmetry; apply Permutation_middle).
Lemma tstep_once p s : exists d, responses (trace (snd (tstep p s))) = d ++ responses (trace s) /\
  Permutation (held (fst (tstep p s)) (snd (tstep p s))) (d ++ held p s).
Proof.
  unfold held. destruct p; cbn [tstep]; tcases; cbn;
    try (exists []; split; [reflexivity|]; cbn; rewrite ?Heql; reflexivity).
  - exists []. split; [reflexivity|]. unfold shift. rewrite !map_app, map_map. cbn. reflexivity.
  - exists [m]. split; [reflexivity|]. rewrite !map_app. cbn.
    rewrite (Permutation_map snd (insert_perm t m (agenda s))). cbn. apply Permutation_sym, Permutation_middle.
  - exists []. split; [reflexivity|]. rewrite !map_app. cbn. apply Permutation_middle.
Qed.


Lemma reach_once ag ms now w : reach (boot ag ms now) w ->
  Permutation (map snd ag ++ responses (trace (sh w)))
              (map snd (sent (trace (sh w)) ++ inHand (main w) ++ inHand (ipc w) ++ agenda (sh w))).
Proof.
  intros R. induction R as [|w a R IH].
  - cbn. rewrite app_nil_r. reflexivity.
  - unfold stepw. destruct (crashed (sh w)); [exact IH|].
    destruct a as [d| | |c i|n].
    + destruct (0 <=? d); [|exact IH]. cbn. destruct (tick_eq d (sh w)) as [t [b ->]]. exact IH.
    + destruct (tstep_once (main w) (sh w)) as [d [E P]].
      assert (X : let x := tstep (main w) (sh w) in
         Permutation (map snd ag ++ responses (trace (snd x)))
                     (map snd (sent (trace (snd x)) ++ inHand (fst x) ++ inHand (ipc w) ++ agenda (snd x)))).
      { cbn. rewrite E. unfold held in P. rewrite !map_app in *.
        assert (Y : forall (a b c e f : list msg), Permutation (b ++ c ++ f) e -> Permutation (b ++ c ++ a ++ f) (a ++ e)).
        { intros a b c e f H. rewrite <- H. rewrite !app_assoc.
          apply Permutation_app_tail. rewrite <- !app_assoc. rewrite (app_assoc b c a). apply Permutation_app_comm. }
        rewrite (Y _ _ _ _ _ P). rewrite (Permutation_app_comm (map snd ag)), <- app_assoc.
        assert (Z : forall (a d e : list msg), Permutation (d ++ a ++ e) (a ++ d ++ e)).
        { intros. rewrite !app_assoc. apply Permutation_app_tail, Permutation_app_comm. }
        rewrite (Z d). apply Permutation_app_head.
        rewrite (Permutation_app_comm (responses _)), IH.
        rewrite (Z (map snd (inHand (ipc w))) (map snd (inHand (main w)))). apply Z. }
      destruct (main w) eqn:Em; try (destruct (tstep _ _) as [p' s']; exact X).
      destruct (alarm (sh w)); [exact IH|rewrite Em; exact IH].
    + destruct (tstep_once (ipc w) (sh w)) as [d [E P]].
      assert (Z : forall (a d e : list msg), Permutation (d ++ a ++ e) (a ++ d ++ e)).
      { intros. rewrite !app_assoc. apply Permutation_app_tail, Permutation_app_comm. }
      destruct (tstep (ipc w) (sh w)) as [p' s']. cbn in *. rewrite E. unfold held in P. rewrite !map_app in *.
      rewrite (Z (map snd (inHand (main w)))), P, (Z d), (Z d). apply Permutation_app_head.
      rewrite IH. apply Z.
    + destruct (ipc w) eqn:Ei; try (rewrite ?Ei; exact IH).
    + destruct (ipc w) eqn:Ei; try (rewrite ?Ei; exact IH).
Qed.

(** ** Histories in turn: one busy thread *)
Inductive one (s0 : shared) : pc -> shared -> Prop :=
| one0 : one s0 Start s0
| oneTick p s d : one s0 p s -> 0 <= d -> one s0 p (tick d s)
| oneStep p s : one s0 p s -> crashed s = false -> p <> Idle -> one s0 (fst (tstep p s)) (snd (tstep p s))
| oneWake s : one s0 Idle s -> alarm s = true -> one s0 Wake (setTimerAlarm (timer s) false s)
| oneCmd s c i : one s0 Idle s -> one s0 (Cmd c i) s
| oneLookup s n : one s0 Idle s -> one s0 Idle (emit (Lookup n (findS n (values s))) s).
Definition busy (w : world) : pc := match main w with Idle => ipc w | p => p end.
Lemma sreach_one ag ms now w : sreach (boot ag ms now) w ->
  (main w = Idle \/ ipc w = Idle) /\ one (sh (boot ag ms now)) (busy w) (sh w).
Proof.
  intros R. induction R as [|w a R [D O] T].
  - split; [right; reflexivity|constructor].
  - unfold stepw. destruct (crashed (sh w)) eqn:Ec; [split; assumption|].
    destruct a as [d| | |c i|n]; cbn [inTurn] in T.
    + destruct (Z.leb_spec 0 d); [|split; assumption]. split; [exact D|]. apply (oneTick _ (busy w)); assumption.
    + unfold busy in *. rewrite T in *. destruct (main w) eqn:Em.
      1: { destruct (alarm (sh w)) eqn:Ea; [|rewrite Em, T; split; [auto|exact O]].
           split; [right; reflexivity|]. cbn. apply oneWake; assumption. }
      all: assert (X : one (sh (boot ag ms now)) (fst (tstep (main w) (sh w))) (snd (tstep (main w) (sh w))))
          by (rewrite Em; apply oneStep; [exact O|exact Ec|discriminate]);
        rewrite Em in X; destruct (tstep _ _) as [p' s']; split; [right; reflexivity|]; cbn in *; destruct p'; exact X.
    + unfold busy in *. rewrite T in *.
      destruct (ipc w) eqn:Ei.
      1: { cbn. split; [auto|exact O]. }
      all: assert (X : one (sh (boot ag ms now)) (fst (tstep (ipc w) (sh w))) (snd (tstep (ipc w) (sh w))))
          by (rewrite Ei; apply oneStep; [exact O|exact Ec|discriminate]);
        rewrite Ei in X; destruct (tstep _ _) as [p' s']; split; [left; reflexivity|]; exact X.
    + unfold busy in *. rewrite T in *. destruct (ipc w) eqn:Ei; try (rewrite T, Ei; split; [auto|exact O]).
      split; [left; reflexivity|]. apply oneCmd. exact O.
    + unfold busy in *. rewrite T in *. destruct (ipc w) eqn:Ei; try (rewrite T, Ei; split; [auto|exact O]).
      split; [left; reflexivity|]. cbn. apply oneLookup. exact O.
Qed.

(** The trace only grows. *)
Lemma tstep_trace p s : exists d, trace (snd (tstep p s)) = d ++ trace s.
Proof.
  destruct p; cbn [tstep]; tcases; cbn;
    first [exists []; reflexivity | match goal with |- exists d, ?e :: ?t = d ++ ?t => exists [e]; reflexivity end].
Qed.
Lemma entered_app ag a b : entered ag (a ++ b) = entered ag a ++ entered ag b.
Proof. apply flat_map_app. Qed.
Lemma sent_app a b : sent (a ++ b) = sent a ++ sent b.
Proof. apply flat_map_app. Qed.

(** Times, in turn. *)
Definition early (tr : list event) : Prop := forall n t m, In (Sent n t m) tr -> t <= n.
Definition before (c : Z) (l : list (Z * msg)) : Prop := forall x, In x l -> fst x <= c.
Definition inLoop (p : pc) (s : shared) : Prop :=
  match p with
  | LoopEmpty n => n <= clock s
  | LoopHead n => n <= clock s /\ agenda s <> []
  | LoopPop n => n <= clock s /\ agenda s <> [] /\ nextTime (agenda s) <= n
  | LoopRecord n t m | LoopSend n t m => n <= clock s /\ t <= n
  | StartShift n => n <= clock s
  | Cmd _ _ => True
  | CmdChoose _ _ t0 | CmdRead _ _ t0 _ | CmdInsert t0 _ _ => t0 <= clock s
  | _ => True
  end.
Definition prestart (p : pc) : Prop := match p with Start | StartRead | StartShift _ => True | _ => False end.
Definition hasStarted (ag : list (Z * msg)) (p : pc) (s : shared) : Prop :=
  match p with
  | Start | StartRead | StartShift _ => agenda s = ag /\ trace s = [] /\ timer s = None /\ alarm s = false /\ values s = []
  | _ => Permutation (entered ag (trace s)) (sent (trace s) ++ inHand p ++ agenda s)
  end.
Record inv (ag : list (Z * msg)) (p : pc) (s : shared) : Prop := {
  i_sorted : sorted (agenda s);
  i_timer : forall e, timer s = Some e -> clock s < e;
  i_ready : p <> Start -> ready s = true;
  i_early : early (trace s);
  i_loop : inLoop p s;
  i_once : hasStarted ag p s
}.
Ltac use_inv H := destruct H as [Hso Hti Hre Hea Hlo Hon].
Lemma inv_tick ag p s d : 0 <= d -> inv ag p s -> inv ag p (tick d s).
Proof.
  intros Hd H. use_inv H. unfold tick. destruct s as [g va ti al cl mg re tr cr]; cbn in *.
  assert (Hl : forall t b, inLoop p (setTimerAlarm t b (setClock (cl + d) (Shared g va ti al cl mg re tr cr)))).
  { intros t b. destruct p; cbn in *; intuition lia. }
  destruct ti as [e|].
  - destruct (Z.leb_spec e (cl + d)).
    + constructor; cbn; auto; try discriminate; try apply Hl.
      destruct p; cbn in *; try exact Hon; destruct Hon as (_ & _ & ? & _); discriminate.
    + constructor; cbn; auto.
      * intros e' E. injection E as <-. assumption.
      * apply (Hl (Some e) al).
  - constructor; cbn; auto; [discriminate|]. apply (Hl None al).
Qed.
Lemma inv_step ag p s : inv ag p s -> crashed s = false -> p <> Idle -> inv ag (fst (tstep p s)) (snd (tstep p s)).
Proof.
  intros H Hc Hp. use_inv H.
  assert (Hso' := tstep_sorted p s Hso).
  destruct s as [g va ti al cl mg re tr cr].
  constructor; [exact Hso'| | | | |].
  - clear Hso'. destruct p; cbn [tstep]; tcases; cbn in *; auto; try discriminate; try (intros e E; apply Hti; congruence).
    intros e E. injection E as <-. apply Z.ltb_ge in Heqb0. apply Z.eqb_neq in Heqb1. lia.
  - clear Hso'. destruct p; cbn [tstep]; tcases; cbn in *; auto; try (intros _; rewrite ?Heqb; apply Hre; discriminate).
  - clear Hso'. destruct p; cbn [tstep]; tcases; cbn in *; auto; try (intros n' t' m' [E|E]; [discriminate|]; eapply Hea; exact E).
    intros n' t' m' [E|E]; [injection E as <- <- <-; lia|]. eapply Hea; exact E.
  - clear Hso'. destruct p; cbn [tstep]; tcases; cbn in *; subst; auto; try lia; try (intuition (try discriminate; try lia); fail).
  - clear Hso'. destruct p; cbn [tstep]; tcases; cbn in *; subst; auto; try contradiction.
    all: try (destruct Hon as (-> & -> & -> & -> & ->); cbn; rewrite ?app_nil_r; auto; fail).
    + rewrite Hon. etransitivity; [|apply Permutation_app_head; symmetry; apply insert_perm].
      apply Permutation_middle.
    + rewrite Hon. apply Permutation_sym, Permutation_middle.
Qed.
Lemma inv_wake ag s : inv ag Idle s -> inv ag Wake (setTimerAlarm (timer s) false s).
Proof. intros H. use_inv H. constructor; cbn in *; auto. intros _. apply Hre. discriminate. Qed.
Lemma inv_cmd ag c i s : inv ag Idle s -> inv ag (Cmd c i) s.
Proof. intros H. use_inv H. constructor; cbn in *; auto. intros _. apply Hre. discriminate. Qed.
Lemma inv_lookup ag n v s : inv ag Idle s -> inv ag Idle (emit (Lookup n v) s).
Proof. intros H. use_inv H. constructor; cbn in *; auto. intros n' t' m' [E|E]; [discriminate|]. eapply Hea; exact E. Qed.
Lemma one_inv ag ms now p s : sorted ag -> one (sh (boot ag ms now)) p s -> inv ag p s.
Proof.
  intros Hs O. induction O.
  - constructor; cbn; auto; try discriminate; try contradiction. intros ? ? ? [].
  - apply inv_tick; assumption.
  - apply inv_step; assumption.
  - apply inv_wake; assumption.
  - apply inv_cmd; assumption.
  - apply inv_lookup; assumption.
Qed.

(** ** In order *)
Definition delayOk (m : mgr) : Prop := forall r, (dflt m = Some r \/ exists k, In (k, r) (indexed m)) -> 0 <= rDelay r.
Definition patient (ms : list (string * mgr)) : Prop := forall c m, In (c, m) ms -> delayOk m.
Lemma findS_in {A} c (l : list (string * A)) a : findS c l = Some a -> exists c', In (c', a) l.
Proof.
  induction l as [|[j b] l IH]; cbn; [discriminate|]. destruct (String.eqb c j).
  - intros E. injection E as <-. eauto.
  - intros E. destruct (IH E) as [c' H]. eauto.
Qed.
Lemma findZ_in {A} k (l : list (Z * A)) a : findZ k l = Some a -> exists k', In (k', a) l.
Proof.
  induction l as [|[j b] l IH]; cbn; [discriminate|]. destruct (k =? j).
  - intros E. injection E as <-. eauto.
  - intros E. destruct (IH E) as [c' H]. eauto.
Qed.
Lemma setS_in {A} c a (l : list (string * A)) x y : In (x, y) (setS c a l) -> y = a \/ In (x, y) l.
Proof.
  induction l as [|[j b] l IH]; cbn.
  - intros [E|[]]. injection E as <- <-. auto.
  - destruct (String.eqb c j).
    + intros [E|E]; [injection E as <- <-; auto|auto].
    + intros [E|E]; [auto|]. destruct (IH E); auto.
Qed.
Lemma findS_setS {A} c d (a : A) l : findS d (setS c a l) = if String.eqb d c then Some a else findS d l.
Proof.
  induction l as [|[j b] l IH]; cbn; [reflexivity|].
  destruct (String.eqb_spec c j) as [->|N]; cbn.
  - destruct (String.eqb d j); reflexivity.
  - destruct (String.eqb_spec d j) as [->|N']; [|exact IH].
    destruct (String.eqb_spec j c) as [->|]; [contradiction|reflexivity].
Qed.
Lemma patient_next c m ms : patient ms -> findS c ms = Some m -> patient (setS c (snd (nextResponse m)) ms) /\ (forall r, fst (nextResponse m) = Some r -> 0 <= rDelay r).
Proof.
  intros P E. destruct (findS_in _ _ _ E) as [c' Hm]. specialize (P _ _ Hm) as Pm. split.
  - intros x y Hy. destruct (setS_in _ _ _ _ _ Hy) as [->|Hy']; [|exact (P _ _ Hy')].
    exact Pm.
  - intros r Er. apply Pm. cbn in Er. destruct (findZ _ _) eqn:Ef; [|left; exact Er].
    injection Er as ->. right. exact (findZ_in _ _ _ Ef).
Qed.
Lemma nd_snoc l a : nonDecreasing l -> (forall b, In b l -> b <= a) -> nonDecreasing (l ++ [a]).
Proof.
  induction 1 as [|x l Hx Hl IH]; intros H; cbn.
  - constructor; [intros ? []|constructor].
  - constructor.
    + intros b Hb. apply in_app_or in Hb. destruct Hb as [Hb|[<-|[]]]; [auto|apply H; left; reflexivity].
    + apply IH. intros b Hb. apply H. right. exact Hb.
Qed.
Record ordered (p : pc) (s : shared) : Prop := {
  o_nd : nonDecreasing (rev (map fst (sent (trace s))));
  o_clock : before (clock s) (sent (trace s));
  o_agenda : forall x y, In x (sent (trace s)) -> In y (inHand p ++ agenda s) -> fst x <= fst y;
  o_hand : forall x y, In x (inHand p) -> In y (agenda s) -> fst x <= fst y;
  o_cmd : match p with
          | CmdInsert _ t _ => before t (sent (trace s))
          | CmdRead _ _ _ r => 0 <= rDelay r
          | _ => True
          end;
  o_pat : patient (mgrs s)
}.
Lemma ordered_tick p s d : 0 <= d -> ordered p s -> ordered p (tick d s).
Proof.
  intros Hd [H1 H2 H3 H4 H5 H6]. destruct (tick_eq d s) as [t [b ->]]. constructor; cbn; auto.
  - intros x Hx. specialize (H2 x Hx). lia.
Qed.
Lemma ordered_step ag p s : inv ag p s -> ordered p s -> p <> Idle -> ordered (fst (tstep p s)) (snd (tstep p s)).
Proof.
  intros I O Hp. use_inv I. destruct O as [H1 H2 H3 H4 H5 H6].
  destruct s as [g va ti al cl mg re tr cr]. cbn [agenda values timer alarm clock mgrs ready trace crashed] in *.
  destruct p; cbn [tstep]; tcases; cbn [agenda values timer alarm clock mgrs ready trace crashed fst snd] in *; subst;
    try (constructor; cbn in *; auto; fail).
  - (* StartShift *) cbn in Hon; destruct Hon as (-> & -> & _). constructor; cbn in *; auto; intros ? ? [].
  - (* CmdChoose *)
    destruct (patient_next _ _ _ H6 Heqo) as [P1 P2]. rewrite Heqp in P1, P2. constructor; cbn in *; auto.
  - destruct (patient_next _ _ _ H6 Heqo) as [P1 P2]. rewrite Heqp in P1, P2. constructor; cbn in *; auto.
  - destruct (patient_next _ _ _ H6 Heqo) as [P1 P2]. rewrite Heqp in P1, P2. constructor; cbn in *; auto.
  - (* CmdRead *) constructor; cbn in *; auto. intros x Hx. specialize (H2 x Hx). lia.
  - (* CmdInsert *) constructor; cbn in *; auto; [|intros ? ? []].
    intros x y Hx Hy. apply (Permutation_in _ (insert_perm _ _ _)) in Hy. destruct Hy as [<-|Hy]; [exact (H5 x Hx)|exact (H3 x y Hx Hy)].
  - (* LoopPop *) constructor; cbn in *; auto. intros x y [<-|[]] Hy. apply (sorted_head z m l y Hso). right. exact Hy.
  - (* LoopSend *) constructor; cbn in *; auto.
    + apply nd_snoc; [exact H1|]. intros b Hb. rewrite <- in_rev in Hb. apply in_map_iff in Hb. destruct Hb as [x [<- Hx]].
      apply (H3 x (t, m) Hx). left. reflexivity.
    + intros x [<-|Hx]; [cbn; lia|exact (H2 x Hx)].
    + intros x y [<-|Hx] Hy; [exact (H4 (t, m) y (or_introl eq_refl) Hy)|]. apply H3; [exact Hx|right; exact Hy].
Qed.
Lemma one_ordered ag ms now p s : sorted ag -> patient ms -> one (sh (boot ag ms now)) p s -> ordered p s.
Proof.
  intros Hs Hm O. induction O.
  - constructor; cbn; auto; [constructor|intros ? []|intros ? ? []|intros ? ? []].
  - apply ordered_tick; assumption.
  - apply (ordered_step ag); [exact (one_inv _ _ _ _ _ Hs O)|assumption|assumption].
  - destruct IHO. constructor; cbn in *; auto.
  - destruct IHO. constructor; cbn in *; auto.
  - destruct IHO. constructor; cbn in *; auto.
Qed.

(** ** LookupNow *)
Definition valuesOk (p : pc) (s : shared) : Prop :=
  (forall n, findS n (values s) = lastSent n (match p with LoopSend _ _ m => Sent 0 0 m :: trace s | _ => trace s end)) /\
  (forall pre n v post, trace s = pre ++ Lookup n v :: post -> v = lastSent n post).
Lemma one_values ag ms now p s : one (sh (boot ag ms now)) p s -> valuesOk p s.
Proof.
  intros O. induction O as [|p s d O IH Hd|p s O IH Hc Hp|s O IH Ha|s c i O IH|s n O IH].
  - split; cbn; [reflexivity|]. intros [|? ?] ? ? ?; discriminate.
  - destruct (tick_eq d s) as [t [b ->]]. exact IH.
  - destruct IH as [H1 H2].
    assert (Hnew : forall e, (forall n v, e <> Lookup n v) -> forall pre n v post, e :: trace s = pre ++ Lookup n v :: post -> v = lastSent n post).
    { intros e He [|x pre] n v post E; cbn in E.
      - injection E as E1 E2. elim (He _ _ E1).
      - injection E as <- E. exact (H2 _ _ _ _ E). }
    destruct p; cbn [tstep]; tcases; split; cbn in *; auto; try (apply Hnew; discriminate).
    + intros k. rewrite Heqk, findS_setS. destruct (String.eqb k (mName m)); [reflexivity|apply H1].
    + intros k. rewrite Heqk. apply H1.
  - exact IH.
  - exact IH.
  - destruct IH as [H1 H2]. split; [exact H1|]. cbn. intros [|x pre] k v post E; cbn in E.
    + injection E as <- <- <-. apply H1.
    + injection E as <- E. exact (H2 _ _ _ _ E).
Qed.

(** ** The answers to commands: every history *)
Definition cmdCode (p : pc) : Prop := match p with Cmd _ _ | CmdChoose _ _ _ | CmdRead _ _ _ _ | CmdInsert _ _ _ => True | _ => False end.
Definition answersOk (c : string) (m : mgr) (s : shared) : Prop :=
  findS c (mgrs s) = Some (Mgr (indexed m) (dflt m) (1 + Z.of_nat (List.length (answers c (trace s))))) /\
  rev (answers c (trace s)) = map (fun k => prescribed m (Z.of_nat k)) (seq 1 (List.length (answers c (trace s)))).
Lemma answers_cons c n d id o tr : answers c (Answered n d id o :: tr) = (if String.eqb c d then [o] else []) ++ answers c tr.
Proof. reflexivity. Qed.
Lemma tstep_answers c m p s : answersOk c m s -> answersOk c m (snd (tstep p s)).
Proof.
  intros [H1 H2].
  assert (X : forall d id t0, (let r := tstep (CmdChoose d id t0) s in answersOk c m (snd r))).
  { intros d id t0. cbn [tstep]. destruct (findS d (mgrs s)) as [md|] eqn:Ed; [|split; assumption].
    destruct (nextResponse md) as [o md'] eqn:En.
    assert (Y : answersOk c m (emit (Answered (clock s) d id o) (setMgrs (setS d md' (mgrs s)) s))).
    { unfold nextResponse in En. injection En as <- <-. unfold answersOk. cbn [mgrs trace emit setMgrs]. rewrite answers_cons, findS_setS.
      destruct (String.eqb_spec c d) as [<-|N]; [|split; assumption].
      rewrite H1 in Ed. assert (Em : md = Mgr (indexed m) (dflt m) (1 + Z.of_nat (List.length (answers c (trace s))))) by congruence.
      subst md. cbn [indexed dflt counter app]. split.
      - f_equal. f_equal. cbn [List.length]. lia.
      - cbn [List.length]. rewrite seq_S, map_app, <- H2. cbn [rev map]. f_equal. f_equal.
        unfold prescribed. rewrite Nat2Z.inj_add. reflexivity. }
    destruct o as [r|]; [|exact Y]. destruct (0 <? rCount r)%nat; exact Y. }
  destruct p; try exact (X c0 id t0); cbn [tstep]; tcases; try (split; assumption).
Qed.
Lemma reach_answers ag ms now c m w : findS c ms = Some m -> counter m = 1 -> reach (boot ag ms now) w -> answersOk c m (sh w).
Proof.
  intros Hm Hc R. induction R as [|w a R IH].
  - split; cbn; [|reflexivity]. rewrite Hm. destruct m; cbn in *. subst. reflexivity.
  - unfold stepw. destruct (crashed (sh w)); [exact IH|].
    destruct a as [d| | |d i|n].
    + destruct (0 <=? d); [|exact IH]. cbn. destruct (tick_eq d (sh w)) as [t [b ->]]. exact IH.
    + pose proof (tstep_answers c m (main w) (sh w) IH) as T.
      destruct (main w); try (destruct (tstep _ _) as [p' s']; exact T). destruct (alarm (sh w)); exact IH.
    + pose proof (tstep_answers c m (ipc w) (sh w) IH) as T. destruct (tstep _ _); exact T.
    + destruct (ipc w); exact IH.
    + destruct (ipc w); exact IH.
Qed.

(** Each answer that calls for a message gets it scheduled, in the order of the commands. *)
Definition kept (x : Z * Z * msg) (y : Z * msg) : Prop := snd x = snd y /\ fst (fst x) + snd (fst x) <= fst y.
Definition pending (p : pc) (c : Z) (l : list (Z * Z * msg)) : Prop :=
  match p with
  | CmdRead n id t0 r => exists k, l = [(k, rDelay r, Msg CommandReturn n (rVal r) id)] /\ k <= c
  | CmdInsert t0 t m => exists k d, l = [(k, d, m)] /\ k + d <= t
  | _ => l = []
  end.
Definition promisesOk (p : pc) (s : shared) : Prop :=
  exists l, pending p (clock s) l /\ exists k, promised (trace s) = l ++ k /\ Forall2 kept k (scheduledAt (trace s)).
Lemma promised_cons n c id r tr : promised (Answered n c id (Some r) :: tr) =
  (if (0 <? rCount r)%nat then [(n, rDelay r, Msg CommandReturn c (rVal r) id)] else []) ++ promised tr.
Proof. reflexivity. Qed.
Lemma tstep_promises p s : promisesOk p s -> promisesOk (fst (tstep p s)) (snd (tstep p s)).
Proof.
  intros (l & H1 & k & H2 & H3). destruct p; cbn [tstep]; tcases; cbn [pending] in H1;
    try (exists l; split; [exact H1|]; exists k; split; assumption).
  - subst. exists [(clock s, rDelay r, Msg CommandReturn c (rVal r) id)]. split; [exists (clock s); split; [reflexivity|cbn; lia]|].
    exists k. cbn [trace emit setMgrs]. rewrite promised_cons, Heqb. split; [cbn in H2; rewrite <- H2; reflexivity|exact H3].
  - subst. exists []. split; [reflexivity|]. exists k. cbn [trace emit setMgrs]. rewrite promised_cons, Heqb. split; [cbn in H2; rewrite <- H2; reflexivity|exact H3].
  - destruct H1 as (n & -> & Hn). exists [(n, rDelay r, Msg CommandReturn c (rVal r) id)]. split; [exists n, (rDelay r); split; [reflexivity|lia]|].
    exists k. split; assumption.
  - destruct H1 as (n & d & -> & Hn). exists []. split; [reflexivity|]. exists ((n, d, m) :: k). split; [exact H2|].
    cbn. constructor; [split; [reflexivity|exact Hn]|exact H3].
Qed.
Lemma tick_promises d p s : 0 <= d -> promisesOk p s -> promisesOk p (tick d s).
Proof.
  intros Hd (l & H1 & H). destruct (tick_eq d s) as [t [b ->]]. exists l. split; [|exact H].
  destruct p; cbn in *; auto. destruct H1 as (n & -> & Hn). exists n. split; [reflexivity|lia].
Qed.
Lemma tstep_main p s : ~ cmdCode p -> ~ cmdCode (fst (tstep p s)) /\ promised (trace (snd (tstep p s))) = promised (trace s) /\
  scheduledAt (trace (snd (tstep p s))) = scheduledAt (trace s).
Proof. intros H. destruct p; cbn [tstep]; tcases; cbn in *; auto; tauto. Qed.
Lemma tstep_clock p s : clock (snd (tstep p s)) = clock s.
Proof. destruct p; cbn [tstep]; tcases; reflexivity. Qed.
Lemma reach_promises ag ms now w : reach (boot ag ms now) w -> ~ cmdCode (main w) /\ promisesOk (ipc w) (sh w).
Proof.
  intros R. induction R as [|w a R [IH1 IH2]].
  - split; [intros []|]. exists []. split; [reflexivity|]. exists []. split; [reflexivity|constructor].
  - unfold stepw. destruct (crashed (sh w)); [split; assumption|].
    destruct a as [d| | |c i|n].
    + destruct (Z.leb_spec 0 d); [|split; assumption]. split; [exact IH1|]. apply tick_promises; assumption.
    + destruct (tstep_main (main w) (sh w) IH1) as (A & B & C). pose proof (tstep_clock (main w) (sh w)) as D.
      assert (X : promisesOk (ipc w) (snd (tstep (main w) (sh w)))).
      { destruct IH2 as (l & L1 & k & L2 & L3). exists l. rewrite D. split; [exact L1|]. exists k. rewrite B, C. split; assumption. }
      destruct (main w) eqn:Em; try (destruct (tstep _ _) as [p' s']; split; [exact A|exact X]).
      destruct (alarm (sh w)); [|split; [rewrite Em; exact IH1|exact IH2]]. split; [intros []|exact IH2].
    + pose proof (tstep_promises _ _ IH2) as X. destruct (tstep (ipc w) (sh w)); split; [exact IH1|exact X].
    + destruct (ipc w) eqn:Ei; try (rewrite Ei; split; assumption). split; [exact IH1|exact IH2].
    + destruct (ipc w) eqn:Ei; try (rewrite Ei; split; assumption). rewrite <- Ei. split; [exact IH1|]. rewrite Ei. exact IH2.
Qed.

(** ** Wake-ups are not lost *)
Definition covered (s : shared) : Prop :=
  agenda s = [] \/ alarm s = true \/ exists e, timer s = Some e /\ e <= nextTime (agenda s).
Definition wanted (t : Z) (s : shared) : Prop := t <= clock s \/ (agenda s <> [] /\ t <= nextTime (agenda s)).
Definition coverP (p : pc) (s : shared) : Prop :=
  match p with
  | Idle => covered s
  | Cmd _ _ | CmdChoose _ _ _ | CmdRead _ _ _ _ | CmdInsert _ _ _ => covered s
  | GetTimer t | SetTimer t => wanted t s
  | GetNow t rem => 0 < rem /\ wanted t s /\ (alarm s = true \/ exists e, timer s = Some e /\ e <= clock s + rem)
  | _ => True
  end.
Definition goodTimes (ag : list (Z * msg)) (tr : list event) : Prop := neverDisarmed tr /\ forall x, In x (entered ag tr) -> fractional (fst x).
Lemma goodTimes_app ag d tr : goodTimes ag (d ++ tr) -> goodTimes ag tr.
Proof.
  intros [H1 H2]. split.
  - intros t Ht. apply (H1 t). apply in_or_app. auto.
  - intros x Hx. apply H2. rewrite entered_app. apply in_or_app. auto.
Qed.
Lemma cover_tick p s d : 0 <= d -> coverP p s -> coverP p (tick d s).
Proof.
  intros Hd H.
  assert (C : covered s -> covered (tick d s)).
  { unfold covered, tick. intros [A|[A|(e & A & B)]].
    - left. destruct (timer s); [destruct (_ <=? _)|]; exact A.
    - right; left. destruct (timer s); [destruct (_ <=? _)|]; cbn; auto.
    - rewrite A. destruct (e <=? _); cbn; [auto|]. right; right. exists e. auto. }
  assert (W : forall t, wanted t s -> wanted t (tick d s)).
  { intros t. destruct (tick_eq d s) as [t' [b ->]]. unfold wanted. cbn. intuition lia. }
  destruct p; cbn [coverP] in *; auto.
  destruct H as (H1 & H2 & H3). split; [exact H1|]. split; [exact (W _ H2)|].
  unfold tick. destruct H3 as [A|(e & A & B)].
  - left. destruct (timer s); [destruct (_ <=? _)|]; cbn; auto.
  - rewrite A. destruct (e <=? _); cbn; [auto|]. right. exists e. split; [exact A|lia].
Qed.
Lemma frac_head ag p s x l : inv ag p s -> ~ prestart p -> (forall x, In x (entered ag (trace s)) -> fractional (fst x)) ->
  agenda s = x :: l -> fractional (fst x).
Proof.
  intros I Hp F E. use_inv I. apply F.
  assert (Q : Permutation (entered ag (trace s)) (sent (trace s) ++ inHand p ++ agenda s)) by (destruct p; cbn in Hp; auto; elim Hp; exact Logic.I).
  apply (Permutation_in _ (Permutation_sym Q)). rewrite E. apply in_or_app. right. apply in_or_app. right. left. reflexivity.
Qed.
Lemma cover_step ag p s : inv ag p s -> (prestart p \/ goodTimes ag (trace s) -> coverP p s) -> p <> Idle ->
  goodTimes ag (trace (snd (tstep p s))) -> coverP (fst (tstep p s)) (snd (tstep p s)).
Proof.
  intros I H Hp G.
  assert (G0 : goodTimes ag (trace s)).
  { destruct (tstep_trace p s) as [d E]. rewrite E in G. exact (goodTimes_app _ _ _ G). }
  specialize (H (or_intror G0)).
  assert (FH : forall x l, ~ prestart p -> agenda s = x :: l -> fractional (fst x)).
  { intros x l Hq E. exact (frac_head _ _ _ _ _ I Hq (proj2 G0) E). }
  use_inv I. destruct p; cbn [tstep] in *; cbn [coverP fst snd] in *; auto.
  - (* StartFirst *) destruct (agenda s) as [|[t m] r] eqn:Ea; cbn [fst snd coverP]; [left; exact Ea|].
    destruct ((sec t =? 0) && (usec t =? 0)) eqn:Ez; cbn [fst snd coverP].
    + destruct (FH _ _ (fun x => x) eq_refl) as [F1 F2]. cbn in F1, F2. apply andb_prop in Ez. destruct Ez as [_ Ez]. apply Z.eqb_eq in Ez. contradiction.
    + right. rewrite Ea. split; [discriminate|cbn; lia].
  - (* CmdChoose *) destruct (findS c (mgrs s)) as [m|]; [|exact H]. destruct (nextResponse m) as [o m'].
    destruct o as [r|]; [|exact H]. destruct (0 <? rCount r)%nat; exact H.
  - (* CmdInsert *) left. cbn. exact Hlo.
  - (* GetTimer *) destruct (timer s) as [e|] eqn:Et; cbn [fst snd coverP]; [|exact H].
    pose proof (Hti e eq_refl). split; [lia|]. split; [exact H|]. right. exists e. split; [exact Et|lia].
  - (* GetNow *) destruct H as (H1 & H2 & H3). destruct (Z.ltb_spec t (clock s + rem)); cbn [fst snd coverP]; [exact H2|].
    destruct H3 as [A|(e & A & B)]; [right; left; exact A|]. right; right. exists e. split; [exact A|].
    destruct H2 as [H2|[_ H2]]; lia.
  - (* SetTimer *) rewrite (Hre ltac:(discriminate)) in *. destruct (Z.ltb_spec (t - clock s) 0); cbn [fst snd coverP]; [exact Logic.I|].
    destruct (Z.eqb_spec (t - clock s) 0); cbn [fst snd coverP] in *.
    + destruct G as [G _]. elim (G t). left. reflexivity.
    + right; right. exists t. split; [reflexivity|]. cbn. destruct H as [H|[_ H]]; lia.
  - (* LoopEmpty *) destruct (agenda s); exact Logic.I.
  - (* LoopHead *) destruct (_ <? _); exact Logic.I.
  - (* LoopPop *) destruct Hlo as (_ & Hne & _). destruct (agenda s) as [|[t m] r]; [contradiction|exact Logic.I].
  - (* Next *) destruct (agenda s) as [|[t m] r] eqn:Ea; cbn [nextTime] in *.
    + cbn. left. exact Ea.
    + destruct (FH _ _ (fun x => x) eq_refl) as [F1 F2]. cbn in F1, F2.
      assert (S0 : sec t <> 0) by (unfold sec; pose proof (Z.div_le_mono million t million eq_refl F1); rewrite Z.div_same in *; [lia|discriminate]).
      assert (U0 : usec t <> 0) by exact F2.
      apply Z.eqb_neq in S0, U0. rewrite S0, U0. cbn [negb andb fst snd coverP]. right. rewrite Ea. split; [discriminate|cbn; lia].
Qed.
Lemma one_cover ag ms now p s : sorted ag -> one (sh (boot ag ms now)) p s -> goodTimes ag (trace s) -> coverP p s.
Proof.
  intros Hs O. induction O as [|p s d O IH Hd|p s O IH Hc Hp|s O IH Ha|s c i O IH|s n O IH]; intros G.
  - exact I.
  - apply cover_tick; [exact Hd|]. apply IH. destruct (tick_eq d s) as [t [b E]]. rewrite E in G. exact G.
  - apply (cover_step ag); [exact (one_inv _ _ _ _ _ Hs O)| |exact Hp|exact G].
    intros [P|G']; [destruct p; try contradiction; exact I|exact (IH G')].
  - exact I.
  - exact (IH G).
  - exact (IH (goodTimes_app _ [_] _ G)).
Qed.

(** ** A wake-up sends what is due, and ends *)
Definition dueAt (n : Z) (s : shared) : bool := match agenda s with [] => false | (t, _) :: _ => t <=? n end.
Definition weight (p : pc) (s : shared) : nat :=
  let l := (20 * List.length (agenda s))%nat in
  match p with
  | Wake => l + (if dueAt (clock s) s then 3 else 30)
  | LoopEmpty n => l + (if dueAt n s then 2 else 10)
  | LoopHead n => l + (if dueAt n s then 1 else 9)
  | LoopPop _ => l
  | LoopRecord _ _ _ => l + 16
  | LoopSend _ _ _ => l + 15
  | Next => l + 8
  | GetTimer _ => l + 7
  | GetNow _ _ => l + 6
  | SetTimer _ => l + 5
  | _ => 0
  end%nat.
(** Inside handleWakeUp, entered at or after [c0]. *)
Definition waking (c0 : Z) (p : pc) (s : shared) : Prop :=
  match p with
  | Wake => c0 <= clock s
  | LoopEmpty n | LoopHead n | LoopPop n | LoopRecord n _ _ | LoopSend n _ _ => c0 <= n
  | Next => forall x, In x (agenda s) -> c0 < fst x
  | GetTimer t | SetTimer t => (forall x, In x (agenda s) -> c0 < fst x) /\ agenda s <> [] /\ nextTime (agenda s) = t
  | GetNow t _ => (forall x, In x (agenda s) -> c0 < fst x) /\ agenda s <> [] /\ nextTime (agenda s) = t
  | Idle => forall x, In x (agenda s) -> c0 < fst x
  | _ => False
  end.
Lemma weight_tick p s d : 0 <= d -> (weight p (tick d s) <= weight p s)%nat.
Proof.
  intros Hd. destruct (tick_eq d s) as [t [b ->]]. destruct p; cbn [weight setTimerAlarm setClock agenda clock]; unfold dueAt; cbn; try lia.
  destruct (agenda s) as [|[u m] r]; [lia|]. destruct (Z.leb_spec u (clock s)), (Z.leb_spec u (clock s + d)); lia.
Qed.
Lemma waking_tick c0 p s d : 0 <= d -> waking c0 p s -> waking c0 p (tick d s).
Proof. intros Hd. destruct (tick_eq d s) as [t [b ->]]. destruct p; cbn; intuition lia. Qed.
Lemma waking_step ag c0 p s : inv ag p s -> waking c0 p s -> p <> Idle -> crashed s = false ->
  waking c0 (fst (tstep p s)) (snd (tstep p s)) /\ (weight (fst (tstep p s)) (snd (tstep p s)) < weight p s)%nat /\
  crashed (snd (tstep p s)) = false /\ entered ag (trace (snd (tstep p s))) = entered ag (trace s).
Proof.
  intros I W Hp Hc. use_inv I.
  assert (HS : forall t m r x, agenda s = (t, m) :: r -> In x (agenda s) -> t <= fst x).
  { intros t m r x E Hx. rewrite E in *. exact (sorted_head _ _ _ _ Hso Hx). }
  destruct p; cbn [tstep waking] in *; try contradiction.
  - (* GetTimer *) destruct (timer s); cbn [fst snd waking weight]; repeat split; try tauto; lia.
  - (* GetNow *) destruct (t <? clock s + rem); cbn [fst snd waking weight]; repeat split; try tauto; lia.
  - (* SetTimer *) rewrite (Hre ltac:(discriminate)). destruct W as (W1 & W2 & W3).
    destruct (Z.ltb_spec (t - clock s) 0); [|destruct (t - clock s =? 0)]; cbn [fst snd waking weight emit setTimerAlarm agenda clock crashed trace].
    + destruct (agenda s) as [|[u m] r] eqn:Ea; [contradiction|]. cbn in W3. subst u.
      pose proof (W1 (t, m) (or_introl eq_refl)) as W4. cbn in W4.
      split; [lia|]. split; [|split; [exact Hc|reflexivity]]. unfold dueAt. rewrite Ea. destruct (Z.leb_spec t (clock s)); lia.
    + repeat split; try tauto; lia.
    + repeat split; try tauto; lia.
  - (* Wake *) cbn [fst snd waking weight]. repeat split; try assumption. destruct (dueAt _ _); lia.
  - (* LoopEmpty *) destruct (agenda s) as [|[u m] r] eqn:Ea; cbn [fst snd waking weight]; unfold dueAt; rewrite !Ea.
    + repeat split; try assumption; [intros ? []|cbn; lia].
    + repeat split; try assumption. destruct (u <=? now); lia.
  - (* LoopHead *) destruct Hlo as [_ Hne]. destruct (agenda s) as [|[u m] r] eqn:Ea; [contradiction|]. cbn [nextTime].
    destruct (Z.ltb_spec now u); cbn [fst snd waking weight]; unfold dueAt; rewrite !Ea.
    + split; [intros x Hx; pose proof (HS u m r x eq_refl Hx); lia|]. split; [destruct (Z.leb_spec u now); lia|]. auto.
    + split; [assumption|]. split; [destruct (Z.leb_spec u now); lia|]. auto.
  - (* LoopPop *) destruct Hlo as (_ & Hne & _). destruct (agenda s) as [|[u m] r] eqn:Ea; [contradiction|].
    cbn [fst snd waking weight setAgenda agenda crashed trace]. split; [assumption|]. split; [rewrite Ea; cbn [List.length]; lia|]. auto.
  - (* LoopRecord *) destruct (mKind m); cbn [fst snd waking weight setValues agenda crashed trace]; repeat split; try assumption; lia.
  - (* LoopSend *) cbn [fst snd waking weight emit agenda crashed trace]. split; [assumption|]. split; [destruct (dueAt _ _); lia|]. auto.
  - (* Next *) destruct (agenda s) as [|[u m] r] eqn:Ea; cbn [nextTime].
    + cbn. rewrite Ea. repeat split; try assumption. lia.
    + destruct (negb _ && negb _); cbn [fst snd waking weight]; rewrite Ea; (split; [|split; [lia|auto]]); auto.
      split; [exact W|]. split; [discriminate|reflexivity].
Qed.
Lemma tick_same d s : crashed (tick d s) = crashed s /\ trace (tick d s) = trace s.
Proof. destruct (tick_eq d s) as [t [b ->]]. split; reflexivity. Qed.
(** From inside handleWakeUp of the main thread, with the IPC thread idle. *)
Lemma wake_ends ag c0 (f : nat -> Z) : (forall i, 0 <= f i) -> forall k w w0 i, (weight (main w) (sh w) < k)%nat ->
  w = mainAlone f i w0 -> ipc w = Idle -> crashed (sh w) = false -> inv ag (main w) (sh w) -> waking c0 (main w) (sh w) ->
  exists j, quiet (mainAlone f j w0) /\ inv ag Idle (sh (mainAlone f j w0)) /\ waking c0 Idle (sh (mainAlone f j w0)) /\
    entered ag (trace (sh (mainAlone f j w0))) = entered ag (trace (sh w)).
Proof.
  intros Hf. induction k as [|k IH]; intros w w0 i Hw Ew Hi Hc HI HW; [lia|].
  assert (Dec : main w = Idle \/ main w <> Idle) by (destruct (main w); auto; right; discriminate).
  destruct Dec as [E|E].
  - exists i. rewrite <- Ew. rewrite E in HI, HW. split; [split; [exact E|split; [exact Hi|exact Hc]]|]. auto.
  - pose proof (waking_tick c0 (main w) (sh w) (f i) (Hf i) HW) as HW1.
    pose proof (weight_tick (main w) (sh w) (f i) (Hf i)) as HL.
    pose proof (inv_tick ag (main w) (sh w) (f i) (Hf i) HI) as HI1.
    destruct (tick_same (f i) (sh w)) as [T1 T2]. rewrite Hc in T1.
    destruct (waking_step ag c0 _ _ HI1 HW1 E T1) as (A & B & C & D).
    pose proof (inv_step ag _ _ HI1 T1 E) as HI2.
    assert (Es : mainAlone f (S i) w0 = World (fst (tstep (main w) (tick (f i) (sh w)))) Idle (snd (tstep (main w) (tick (f i) (sh w))))).
    { cbn [mainAlone]. rewrite <- Ew. unfold stepw at 2. rewrite Hc. destruct (Z.leb_spec 0 (f i)) as [_|Hn]; [|specialize (Hf i); lia].
      unfold stepw. cbn [sh main ipc]. rewrite T1, Hi. destruct (main w) eqn:Em; [contradiction|..]; destruct (tstep _ _) as [p' s']; reflexivity. }
    destruct (IH (mainAlone f (S i) w0) w0 (S i)) as (j & J1 & J2 & J3 & J4); try (rewrite Es; cbn [main ipc sh]; assumption || reflexivity).
    + rewrite Es. cbn [main sh]. lia.
    + exists j. split; [exact J1|]. split; [exact J2|]. split; [exact J3|]. rewrite J4, Es. cbn [sh]. rewrite D, T2. reflexivity.
Qed.

(** ** The scripts *)
Lemma script_agenda l : sorted (scriptAgenda l) /\ Permutation (scriptAgenda l) (telemetry l).
Proof.
  unfold scriptAgenda, telemetry. induction l as [|e l IH] using rev_ind; [split; [constructor|reflexivity]|].
  rewrite fold_left_app, map_app. cbn. destruct IH as [IH1 IH2]. split; [apply nd_insert; exact IH1|].
  rewrite insert_perm, IH2. apply Permutation_cons_append.
Qed.
Lemma entered_perm a b tr : Permutation a b -> Permutation (entered a tr) (entered b tr).
Proof.
  intros P. unfold entered. induction tr as [|e tr IH]; cbn; [reflexivity|]. apply Permutation_app; [|exact IH].
  destruct e; try reflexivity. apply Permutation_map. exact P.
Qed.
Definition builtOk (c : string) (l : list (string * Z * resp)) (o : option mgr) : Prop :=
  match o with
  | None => forall i r, ~ In (c, i, r) l
  | Some m => counter m = 1 /\ mentioned c l /\ dflt m = firstEntry c 0 (rev l) /\
      findZ 0 (indexed m) = None /\ forall k, k <> 0 -> findZ k (indexed m) = firstEntry c k l
  end.
Lemma firstEntry_app c k a b : firstEntry c k (a ++ b) = match firstEntry c k a with Some r => Some r | None => firstEntry c k b end.
Proof.
  induction a as [|[[d i] r] a IH]; cbn; [reflexivity|]. destruct (String.eqb c d && (k =? i)); [reflexivity|exact IH].
Qed.
Lemma firstEntry_none c k l : (forall i r, ~ In (c, i, r) l) -> firstEntry c k l = None.
Proof.
  induction l as [|[[d i] r] l IH]; intros H; cbn; [reflexivity|]. destruct (String.eqb_spec c d) as [->|N]; cbn.
  - elim (H i r). left. reflexivity.
  - apply IH. intros j q Hq. apply (H j q). right. exact Hq.
Qed.
Lemma findZ_app {A} k (a b : list (Z * A)) : findZ k (a ++ b) = match findZ k a with Some r => Some r | None => findZ k b end.
Proof. induction a as [|[j x] a IH]; cbn; [reflexivity|]. destruct (k =? j); [reflexivity|exact IH]. Qed.
Lemma script_mgrs c l : builtOk c l (findS c (scriptMgrs l)).
Proof.
  unfold scriptMgrs. induction l as [|[[d i] r] l IH] using rev_ind; [intros ? ? []|].
  rewrite fold_left_app. cbn [fold_left]. set (ms := fold_left _ l []) in *. rewrite findS_setS.
  destruct (String.eqb_spec c d) as [<-|N].
  2: { unfold builtOk in *. destruct (findS c ms) as [m|].
       - destruct IH as (H1 & (j & q & H2) & H3 & H4 & H5). split; [exact H1|]. split; [exists j, q; apply in_or_app; auto|].
         split; [rewrite rev_app_distr; cbn; destruct (String.eqb_spec c d); [contradiction|exact H3]|]. split; [exact H4|].
         intros k Hk. rewrite firstEntry_app, (H5 k Hk). cbn. destruct (String.eqb_spec c d); [contradiction|]. cbn. destruct (firstEntry c k l); reflexivity.
       - intros j q Hq. apply in_app_or in Hq. destruct Hq as [Hq|[Hq|[]]]; [exact (IH j q Hq)|congruence]. }
  set (m0 := match findS c ms with Some m => m | None => newMgr end).
  assert (B : counter m0 = 1 /\ dflt m0 = firstEntry c 0 (rev l) /\ findZ 0 (indexed m0) = None /\ forall k, k <> 0 -> findZ k (indexed m0) = firstEntry c k l).
  { unfold m0. unfold builtOk in IH. destruct (findS c ms) as [m|]; [tauto|]. cbn. split; [reflexivity|].
    rewrite firstEntry_none; [|intros j q Hq; apply in_rev in Hq; exact (IH j q Hq)]. repeat split; auto.
    intros k _. rewrite firstEntry_none; auto. }
  clearbody m0. clear IH. destruct B as (B1 & B2 & B3 & B4).
  unfold builtOk, addResponse.
  assert (M : mentioned c (l ++ [(c, i, r)])) by (exists i, r; apply in_or_app; right; left; reflexivity).
  assert (F0 : firstEntry c 0 (rev (l ++ [(c, i, r)])) = if 0 =? i then Some r else firstEntry c 0 (rev l)).
  { rewrite rev_app_distr. cbn [rev app firstEntry]. rewrite String.eqb_refl. reflexivity. }
  assert (F1 : forall k, firstEntry c k (l ++ [(c, i, r)]) = match firstEntry c k l with Some q => Some q | None => if k =? i then Some r else None end).
  { intros k. rewrite firstEntry_app. cbn. rewrite String.eqb_refl. reflexivity. }
  destruct (Z.eqb_spec i 0) as [->|Hi].
  - rewrite B3. cbn [counter dflt indexed]. rewrite F0. cbn. repeat split; auto. intros k Hk. rewrite F1, (B4 k Hk).
    destruct (Z.eqb_spec k 0); [contradiction|]. destruct (firstEntry c k l); reflexivity.
  - rewrite F0. destruct (Z.eqb_spec 0 i); [congruence|].
    destruct (findZ i (indexed m0)) as [q|] eqn:Ef; cbn [counter dflt indexed].
    + repeat split; auto. intros k Hk. rewrite F1, (B4 k Hk). destruct (firstEntry c k l) eqn:Ek; [reflexivity|].
      destruct (Z.eqb_spec k i) as [->|]; [|reflexivity]. rewrite (B4 i Hi) in Ef. congruence.
    + rewrite findZ_app, B3. cbn [findZ]. destruct (Z.eqb_spec 0 i); [congruence|]. repeat split; auto.
      intros k Hk. rewrite findZ_app, F1, (B4 k Hk). destruct (firstEntry c k l); [reflexivity|]. cbn. destruct (k =? i); reflexivity.
Qed.
Lemma findZ_some {A} k (l : list (Z * A)) a : In (k, a) l -> exists b, findZ k l = Some b.
Proof.
  induction l as [|[j b] l IH]; cbn; [intros []|]. destruct (Z.eqb_spec k j) as [->|N]; [eauto|].
  intros [E|E]; [congruence|auto].
Qed.
Lemma script_patient l : (forall c i r, In (c, i, r) l -> 0 <= rDelay r) -> patient (scriptMgrs l).
Proof.
  unfold scriptMgrs. induction l as [|[[d i] r] l IH] using rev_ind; intros H; [intros ? ? []|].
  rewrite fold_left_app. cbn [fold_left]. set (ms := fold_left _ l []) in *.
  assert (IH' : patient ms) by (apply IH; intros c j q Hq; apply (H c j q); apply in_or_app; auto).
  assert (Hr : 0 <= rDelay r) by (apply (H d i r); apply in_or_app; right; left; reflexivity).
  intros x y Hy. destruct (setS_in _ _ _ _ _ Hy) as [->|Hy']; [|exact (IH' _ _ Hy')].
  assert (M : delayOk (match findS d ms with Some m => m | None => newMgr end)).
  { destruct (findS d ms) as [m|] eqn:E; [destruct (findS_in _ _ _ E) as [c' Hm]; exact (IH' _ _ Hm)|].
    intros q [E'|[k []]]. discriminate. }
  unfold addResponse. set (m := match findS d ms with Some m => m | None => newMgr end) in *. clearbody m.
  destruct (findZ i (indexed m)); [exact M|]. destruct (i =? 0); intros q [E|[k E]]; cbn in E.
  - injection E as <-. exact Hr.
  - apply M. right. exists k. exact E.
  - apply M. left. exact E.
  - apply in_app_or in E. destruct E as [E|[E|[]]]; [apply M; right; exists k; exact E|]. injection E as _ <-. exact Hr.
Qed.

Lemma tstep_unknown c p s : findS c (mgrs s) = None -> answers c (trace s) = [] ->
  findS c (mgrs (snd (tstep p s))) = None /\ answers c (trace (snd (tstep p s))) = [].
Proof.
  intros H1 H2.
  assert (X : forall d id t0, (let r := tstep (CmdChoose d id t0) s in findS c (mgrs (snd r)) = None /\ answers c (trace (snd r)) = [])).
  { intros d id t0. cbn [tstep]. destruct (findS d (mgrs s)) as [md|] eqn:Ed; [|split; assumption].
    destruct (nextResponse md) as [o md'].
    assert (Y : let s' := emit (Answered (clock s) d id o) (setMgrs (setS d md' (mgrs s)) s) in
                findS c (mgrs s') = None /\ answers c (trace s') = []).
    { cbn [mgrs trace emit setMgrs]. rewrite findS_setS, answers_cons. destruct (String.eqb_spec c d) as [<-|N]; [congruence|]. split; assumption. }
    destruct o as [r|]; [|exact Y]. destruct (0 <? rCount r)%nat; exact Y. }
  destruct p; try exact (X c0 id t0); cbn [tstep]; tcases; split; assumption.
Qed.
Lemma reach_unknown ag ms now c w : findS c ms = None -> reach (boot ag ms now) w -> findS c (mgrs (sh w)) = None /\ answers c (trace (sh w)) = [].
Proof.
  intros Hm R. induction R as [|w a R [IH1 IH2]].
  - split; [exact Hm|reflexivity].
  - unfold stepw. destruct (crashed (sh w)); [split; assumption|].
    destruct a as [d| | |d i|n].
    + destruct (0 <=? d); [|split; assumption]. cbn. destruct (tick_eq d (sh w)) as [t [b ->]]. split; assumption.
    + pose proof (tstep_unknown c (main w) (sh w) IH1 IH2) as T.
      destruct (main w); try (destruct (tstep _ _) as [p' s']; exact T). destruct (alarm (sh w)); split; assumption.
    + pose proof (tstep_unknown c (ipc w) (sh w) IH1 IH2) as T. destruct (tstep _ _); exact T.
    + destruct (ipc w); split; assumption.
    + destruct (ipc w); split; assumption.
Qed.
Lemma answers_app c a b : answers c (a ++ b) = answers c a ++ answers c b.
Proof. apply flat_map_app. Qed.
Lemma promised_app a b : promised (a ++ b) = promised a ++ promised b.
Proof. apply flat_map_app. Qed.
Lemma promised_name x tr : In x (promised tr) -> answers (mName (snd x)) tr <> [].
Proof.
  induction tr as [|e tr IH]; [intros []|]. intros H. change (e :: tr) with ([e] ++ tr) in *.
  rewrite promised_app in H. rewrite answers_app. intros E. apply app_eq_nil in E. destruct E as [E1 E2].
  apply in_app_or in H. destruct H as [H|H]; [|exact (IH H E2)].
  destruct e as [| | |n c id [r|]| |]; try contradiction. rewrite promised_cons, app_nil_r in H. destruct (0 <? rCount r)%nat; [|contradiction].
  destruct H as [<-|[]]. cbn in E1. rewrite String.eqb_refl in E1. discriminate.
Qed.
Lemma response_in_scheduled m tr : In m (responses tr) -> exists t, In (t, m) (scheduledAt tr).
Proof.
  induction tr as [|e tr IH]; [intros []|]. unfold responses, scheduledAt in *. cbn. intros H. apply in_app_or in H.
  destruct H as [H|H]; [|destruct (IH H) as [t Ht]; exists t; apply in_or_app; auto].
  destruct e; cbn in H; try contradiction. destruct H as [->|[]]. eexists. left. reflexivity.
Qed.
