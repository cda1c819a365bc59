(** C49, C50, C51: wall-clock alarms. *)
From Coq Require Import ZArith Reals List Bool Lia Lra.
From Flocq Require Import Core BinarySingleNaN.
From Verif Require Import FloatModel FloatSpec FloatProofs AlarmModel AlarmSpec AlarmProofs AlarmProofs2.
Import ListNotations.
Open Scope Z_scope.

(** ** C49: an alarm is not lost.
    Whatever happened before, if the executive asks for a wake-up at [d] and makes no later request,
    and no callback re-arms the timer while that request is executing, then once the clock is past
    [d] and nothing is left to run the executive has been notified, after its request, at an instant
    when the clock it reads is at least [d]. *)
Theorem C49_alarm_not_lost c0 h1 d h2 a1 a2 :
  0 <= c0 -> good d ->
  aruns (h1 ++ [LAsk d]) (alarm0 c0) = Some a1 -> aruns h2 a1 = Some a2 ->
  (forall l, In l h2 -> isAsk l = false) -> raceFreeAlong h2 a1 ->
  quiet a2 -> (1000000000 * B2R d + 1 <= IZR (a_clk a2))%R -> a_clk a2 < 2 ^ 53 * billion ->
  exists new c, a_notes a2 = new ++ a_notes a1 /\ In c new /\ (B2R d <= B2R (getTime c))%R.
Proof.
  intros C0 G E1 E2 NA RF [Q1 [Q2 Q3]] Cd Cb. destruct (good_ready d G) as (t & T & R).
  rewrite aruns_app in E1. destruct (aruns h1 (alarm0 c0)) as [a0|] eqn:E0; [|discriminate]. cbn [aruns] in E1. destruct (arun (LAsk d) a0) as [a1'|] eqn:Ea; inversion E1; subst a1'. clear E1.
  assert (I1 : inv d t T (a_notes a1) a1).
  { eapply inv_ask; [exact R| | |exact Ea|apply (RF [] h2); reflexivity]; [apply clk_runs in E0; cbn in E0; lia|eapply shapes_runs; [|exact E0]; constructor]. }
  pose proof (inv_runs _ _ _ _ _ _ _ R I1 NA RF E2) as I2.
  assert (LT : T <= a_clk a2). { pose proof (r_near _ _ _ R). apply le_IZR. lra. }
  assert (Mono : forall h b b', aruns h b = Some b' -> (forall n, In n (a_notes b) -> n <= a_clk b) -> forall n, In n (a_notes b') -> n <= a_clk b').
  { induction h as [|l r IH]; cbn [aruns]; intros b b' E H; [inversion E; subst; exact H|]. destruct (arun l b) as [b1|] eqn:Eb; [|discriminate].
    eapply IH; [exact E|]. pose proof (clk_run _ _ _ Eb) as Ck. clear IH E.
    assert (Fs : forall f k t' x, fstep f k b = Some (t', x) -> forall n, In n (a_notes x) -> n <= a_clk x).
    { intros f k t' x Fx n Hn. destruct f; cbn [fstep] in Fx; try (destruct (d2ts billion d0); [|discriminate]); inversion Fx; subst; cbn in *; try (apply H; exact Hn).
      destruct Hn as [<-|Hn]; [lia|auto]. }
    destruct l; cbn [arun] in Eb.
    - destruct (a_clk b <=? c); inversion Eb; subst. cbn in *. intros n Hn. specialize (H n Hn). lia.
    - destruct (a_timer b); [|discriminate]. destruct (z <=? a_clk b); inversion Eb; subst. exact H.
    - destruct (a_exec b); inversion Eb; subst. exact H.
    - destruct (a_exec b) as [|f k]; [discriminate|]. destruct (fstep f k b) as [[t' x]|] eqn:Fx; inversion Eb; subst. cbn. eapply Fs; exact Fx.
    - destruct (nth_error (a_cbs b) i) as [[|f k]|]; try discriminate. destruct (fstep f k b) as [[t' x]|] eqn:Fx; inversion Eb; subst. cbn. eapply Fs; exact Fx. }
  destruct I2 as [_ _ _ _ P]. unfold phase in P. rewrite Q1 in P. destruct P as [[(new & c & N & Hc & Tc)|[P|[_ (st & S1 & S2)]]] _].
  - exists new, c. split; [exact N|]. split; [exact Hc|]. apply (r_late _ _ _ R). split; [exact Tc|].
    assert (c <= a_clk a2); [|lia]. eapply (Mono (h1 ++ [LAsk d] ++ h2) (alarm0 c0)).
    + rewrite aruns_app, E0. change (match arun (LAsk d) a0 with Some b => aruns h2 b | None => None end = Some a2). rewrite Ea. exact E2.
    + intros n [].
    + rewrite N. apply in_or_app. left. exact Hc.
  - specialize (Q3 _ P). lia.
  - exfalso. apply S2, Q2, S1.
Qed.
(** ... and it does come to rest: after the deadline only a bounded number of steps other than the
    passing of time can happen, and while it is not at rest some step can be taken. *)
Theorem C49_alarm_settles c0 h1 d h2 a1 a2 :
  0 <= c0 -> good d ->
  aruns (h1 ++ [LAsk d]) (alarm0 c0) = Some a1 -> aruns h2 a1 = Some a2 ->
  (forall l, In l h2 -> isAsk l = false) -> raceFreeAlong h2 a1 ->
  (1000000000 * B2R d + 1 <= IZR (a_clk a2))%R ->
  (quiet a2 \/ exists l a', isAsk l = false /\ isTick l = false /\ arun l a2 = Some a') /\
  exists N, forall h a3, aruns h a2 = Some a3 -> a_clk a3 < 2 ^ 53 * billion -> (forall l, In l h -> isAsk l = false) -> raceFreeAlong h a2 ->
    (length (filter (fun l => negb (isTick l)) h) <= N)%nat.
Proof.
  intros C0 G E1 E2 NA RF Cd. destruct (good_ready d G) as (t & T & R).
  rewrite aruns_app in E1. destruct (aruns h1 (alarm0 c0)) as [a0|] eqn:E0; [|discriminate]. cbn [aruns] in E1. destruct (arun (LAsk d) a0) as [a1'|] eqn:Ea; inversion E1; subst a1'. clear E1.
  assert (I1 : inv d t T (a_notes a1) a1).
  { eapply inv_ask; [exact R| | |exact Ea|apply (RF [] h2); reflexivity]; [apply clk_runs in E0; cbn in E0; lia|eapply shapes_runs; [|exact E0]; constructor]. }
  pose proof (inv_runs _ _ _ _ _ _ _ R I1 NA RF E2) as I2.
  assert (LT : T <= a_clk a2). { pose proof (r_near _ _ _ R). apply le_IZR. lra. }
  split; [apply (not_stuck d t T (a_notes a1)); try (apply R); exact I2|]. exists (mu d a2). intros h a3 E3 B3 NA3 RF3.
  pose proof (mu_runs _ _ _ _ _ _ _ R I2 LT B3 NA3 RF3 E3). lia.
Qed.

(** A concrete history meeting the hypotheses: asked at 2^24 s for one second later; the timer
    expires one second later and the callback notifies the executive. *)
Definition secs (z : Z) : fl := fofZ z.
Definition A0 : Z := 16777216.
Definition hOK : list alabel := [LExec; LExec; LExec; LTick ((A0 + 2) * billion); LFire; LCb 0; LCb 0; LCb 0].
Definition view (a : alarm) := (a_clk a, a_timer a, match a_exec a with [] => true | _ => false end, forallb (fun st : list frame => match st with [] => true | _ => false end) (a_cbs a), a_notes a).
Lemma seen c h1 d h2 v : option_map view (aruns ((h1 ++ [LAsk d]) ++ h2) (alarm0 c)) = Some v ->
  exists a1 a2, aruns (h1 ++ [LAsk d]) (alarm0 c) = Some a1 /\ aruns h2 a1 = Some a2 /\ view a2 = v.
Proof.
  rewrite aruns_app. destruct (aruns (h1 ++ [LAsk d]) (alarm0 c)) as [a1|]; [|discriminate]. destruct (aruns h2 a1) as [a2|] eqn:E; [|discriminate].
  intros H. injection H as H. exists a1, a2. auto.
Qed.
Lemma view_quiet a c t n : view a = (c, t, true, true, n) -> (forall z, t = Some z -> c < z) -> quiet a /\ a_clk a = c /\ a_timer a = t /\ a_notes a = n.
Proof.
  unfold view. intros H Z. injection H as H1 H2 H3 H4 H5. split; [|auto]. split; [destruct (a_exec a); [reflexivity|discriminate]|]. split.
  - intros st I. apply (proj1 (forallb_forall _ _) H4) in I. destruct st; [reflexivity|discriminate].
  - intros z E. rewrite H1. apply Z. congruence.
Qed.
(** No executive call of setTimer overlaps a callback in [hOK]: it returns before the timer expires. *)
Fixpoint rfb (h : list alabel) (a : alarm) : bool :=
  match a_exec a with [] => true | _ => forallb (forallb (fun f => negb (isSet f))) (a_cbs a) end &&
  match h with [] => true | l :: r => match arun l a with Some b => rfb r b | None => true end end.
Lemma rfb_ok h : forall a, rfb h a = true -> raceFreeAlong h a.
Proof.
  assert (One : forall a, match a_exec a with [] => true | _ => forallb (forallb (fun f => negb (isSet f))) (a_cbs a) end = true -> raceFree a).
  { intros a H. destruct (a_exec a) eqn:E; [left; exact E|right]. intros st g I J. apply (proj1 (forallb_forall _ _) H) in I. apply (proj1 (forallb_forall _ _) I) in J. destruct (isSet g); [discriminate|reflexivity]. }
  induction h as [|l r IH]; intros a H p q b Ep R; cbn [rfb] in H; apply andb_prop in H as [H1 H2].
  - destruct p; [|discriminate]. inversion R; subst. auto.
  - destruct p as [|l' p]; cbn in Ep; [inversion R; subst; auto|]. inversion Ep; subst. cbn [aruns] in R. destruct (arun l' a) as [x|]; [|discriminate]. eapply IH; [exact H2|reflexivity|exact R].
Qed.
Example C49_concrete : exists a1 a2, aruns ([] ++ [LAsk (secs (A0 + 1))]) (alarm0 (A0 * billion)) = Some a1 /\ aruns hOK a1 = Some a2 /\
  (forall l, In l hOK -> isAsk l = false) /\ raceFreeAlong hOK a1 /\ quiet a2 /\ a_clk a2 = (A0 + 2) * billion /\ a_notes a2 = [(A0 + 2) * billion].
Proof.
  destruct (seen (A0 * billion) [] (secs (A0 + 1)) hOK ((A0 + 2) * billion, None, true, true, [(A0 + 2) * billion])) as (a1 & a2 & E1 & E2 & V); [vm_compute; reflexivity|].
  exists a1, a2. apply view_quiet in V as (Q & C & _ & N); [|discriminate]. split; [exact E1|]. split; [exact E2|]. split.
  - intros l I. assert (H : forallb (fun l => negb (isAsk l)) hOK = true) by reflexivity. apply (proj1 (forallb_forall _ _) H) in I. destruct (isAsk l); [discriminate|reflexivity].
  - split; [|auto]. apply rfb_ok. assert (X : match aruns ([] ++ [LAsk (secs (A0 + 1))]) (alarm0 (A0 * billion)) with Some a => rfb hOK a | None => false end = true) by (vm_compute; reflexivity).
    rewrite E1 in X. exact X.
Qed.
Lemma secs_good z : (2 ^ 24 <= z < 2 ^ 53)%Z -> good (secs z).
Proof.
  intros H. destruct (fofZ_exact z) as [F E]; [lia|]. split; [exact F|]. unfold secs. rewrite E.
  change (bpow radix2 24) with (IZR (2 ^ 24)). change (bpow radix2 53) with (IZR (2 ^ 53)). split; [apply IZR_le|apply IZR_lt]; lia.
Qed.

(** Without that proviso an alarm is lost: a callback for an earlier request re-arms the timer with
    the wake-up time it read, after the executive has requested an earlier one.  The executive's
    request is for A0+15 s; at A0+16 s all is at rest and the only notification came before. *)
Definition hRace : list alabel :=
  [LAsk (secs (A0 + 10)); LExec; LExec; LExec; LTick ((A0 + 10) * billion); LFire; LCb 0 (* reads the time *);
   LAsk (secs (A0 + 20)); LExec; LExec; LExec; LCb 0 (* reads A0+20: re-arm *); LCb 0 (* compares *)].
Definition hRace2 : list alabel :=
  [LExec; LExec; LExec; LCb 0 (* timer_settime(A0+20) *); LCb 0; LCb 0; LTick ((A0 + 16) * billion)].
Theorem C49_alarm_lost_in_race_refuted : exists a1 a2,
  aruns (hRace ++ [LAsk (secs (A0 + 15))]) (alarm0 (A0 * billion)) = Some a1 /\ aruns hRace2 a1 = Some a2 /\
  quiet a2 /\ a_clk a2 = (A0 + 16) * billion /\ a_timer a2 = Some ((A0 + 20) * billion) /\ a_notes a2 = [(A0 + 10) * billion].
Proof.
  destruct (seen (A0 * billion) hRace (secs (A0 + 15)) hRace2 ((A0 + 16) * billion, Some ((A0 + 20) * billion), true, true, [(A0 + 10) * billion])) as (a1 & a2 & E1 & E2 & V); [vm_compute; reflexivity|].
  exists a1, a2. apply view_quiet in V; [auto|]. intros z H. inversion H. reflexivity.
Qed.

(** The interval-timer implementation: the timer is armed for the requested time truncated to a
    microsecond, counted from the microsecond in which the request is made. *)
Theorem C49_itimer_armed d c z t : itimerSet d c = IArm (Some z) -> d2ts million d = Some t -> 0 <= c -> normal million t ->
  z = total million t * 1000 + c mod 1000.
Proof.
  unfold itimerSet. intros E D C N. rewrite D in E. destruct (tsLt t (clockTv c)); [discriminate|]. destruct (tsEq _ _); [discriminate|]. inversion E; subst z. clear E.
  assert (Cn : normal million (clockTv c)).
  { unfold normal, clockTv. cbn [fst snd]. pose proof (Z.mod_pos_bound c billion ltac:(reflexivity)). pose proof (Z.div_pos c billion C ltac:(reflexivity)).
    assert (0 <= c mod billion / 1000 < million). { split; [apply Z.div_pos; lia|apply Z.div_lt_upper_bound; [reflexivity|exact (proj2 H)]]. } lia. }
  unfold tsSub. destruct (normalize_ok million (fst t - fst (clockTv c), snd t - snd (clockTv c))) as [_ ->]; [reflexivity|cbn [snd]; destruct N, Cn; lia|].
  assert (Ct : total million (clockTv c) = c / 1000).
  { unfold total, clockTv. cbn [fst snd]. apply (Z.div_unique c 1000 _ ((c mod billion) mod 1000)).
    - left. apply Z.mod_pos_bound. reflexivity.
    - pose proof (Z.div_mod c billion ltac:(discriminate)). pose proof (Z.div_mod (c mod billion) 1000 ltac:(discriminate)). unfold million, billion in *. lia. }
  unfold total in *. cbn [fst snd]. pose proof (Z.div_mod c 1000 ltac:(discriminate)). unfold million in *. nia.
Qed.
(** A request for the current microsecond disarms the timer and makes no call: the alarm is lost. *)
Theorem C49_itimer_now_lost_refuted : itimerSet (secs (A0 + 1)) ((A0 + 1) * billion) = IArm None /\ itimerSet (secs (A0 + 1)) ((A0 + 1) * billion + 999) = IArm None.
Proof. split; vm_compute; reflexivity. Qed.
(** The wake-up can come before the requested time: 2^24 s plus 2^-28 s is truncated to 2^24 s. *)
Theorem C49_itimer_early_refuted : exists d z, good d /\ itimerSet d (A0 * billion - 5000) = IArm (Some z) /\ (B2R (getTime z) < B2R d)%R.
Proof.
  set (e := @B754_finite 53 1024 false 4503599627370497 (-28) eq_refl).
  assert (Fe : is_finite e = true) by (vm_compute; reflexivity).
  assert (Be : (B2R e = IZR (2 ^ 52 + 1) * bpow radix2 (-28))%R).
  { unfold e. rewrite fin_R. reflexivity. }
  assert (b28 : (bpow radix2 (-28) = / 268435456)%R) by reflexivity.
  exists e, (A0 * billion). split; [|split].
  - split; [exact Fe|]. rewrite Be, b28. change (IZR (2 ^ 52 + 1)) with 4503599627370497%R. change (bpow radix2 24) with 16777216%R. change (bpow radix2 53) with 9007199254740992%R. lra.
  - vm_compute. reflexivity.
  - assert (E : getTime (A0 * billion) = fofZ A0) by (apply B2SF_inj; vm_compute; reflexivity). rewrite E. destruct (fofZ_exact A0) as [_ ->]; [vm_compute; discriminate|].
    rewrite Be, b28. change (IZR (2 ^ 52 + 1)) with 4503599627370497%R. change (IZR A0) with 16777216%R. lra.
Qed.

(** ** C50: time arithmetic. *)
Theorem C50_add unit a b : 1 < unit -> normal unit a -> normal unit b ->
  normal unit (tsAdd unit a b) /\ total unit (tsAdd unit a b) = total unit a + total unit b.
Proof.
  intros U [A _] [B _]. unfold tsAdd. destruct (normalize_ok unit (fst a + fst b, snd a + snd b)) as [N ->]; [exact U|cbn [snd]; lia|].
  split; [exact N|]. unfold total. cbn [fst snd]. ring.
Qed.
Theorem C50_sub unit a b : 1 < unit -> normal unit a -> normal unit b ->
  normal unit (tsSub unit a b) /\ total unit (tsSub unit a b) = total unit a - total unit b.
Proof.
  intros U [A _] [B _]. unfold tsSub. destruct (normalize_ok unit (fst a - fst b, snd a - snd b)) as [N ->]; [exact U|cbn [snd]; lia|].
  split; [exact N|]. unfold total. cbn [fst snd]. ring.
Qed.
Theorem C50_compare unit a b : normal unit a -> normal unit b ->
  (tsLt a b = true <-> total unit a < total unit b) /\ (tsGt a b = true <-> total unit a > total unit b) /\ (tsEq a b = true <-> total unit a = total unit b).
Proof.
  intros A B. rewrite tsGt_Lt, !(tsLt_ok unit), (tsEq_ok unit) by assumption. rewrite !Z.ltb_lt, Z.eqb_eq. split; [tauto|split; [lia|tauto]].
Qed.
Example C50_concrete : normal billion (3, 999999999) /\ normal billion (-1, -5) /\ tsAdd billion (3, 999999999) (3, 2) = (7, 1) /\ tsSub billion (3, 0) (1, 5) = (1, 999999995).
Proof. unfold normal, billion. cbn. repeat split; lia. Qed.
(** A requested time converted to the timer's form and back is unchanged, and the timer's form is
    within 2 ns below and 1 ns above it; the converse conversion never decreases as the clock advances. *)
Theorem C50_round_trip d : good d -> exists t, d2ts billion d = Some t /\ ts2d billion t = d /\ normal billion t /\
  (1000000000 * B2R d - 2 < IZR (total billion t) < 1000000000 * B2R d + 1)%R.
Proof. intros G. destruct (good_ready d G) as (t & T & [D -> N _ R _ Nr]). exists t. auto. Qed.
Theorem C50_clock_monotone c c' : 0 <= c <= c' -> c' < 2 ^ 53 * billion -> (B2R (getTime c) <= B2R (getTime c'))%R.
Proof. apply getTime_mono. Qed.
(** At or after the instant the timer was set for, the clock read as a double is at least the requested time. *)
Theorem C50_not_early d t c : good d -> d2ts billion d = Some t -> total billion t <= c < 2 ^ 53 * billion -> (B2R d <= B2R (getTime c))%R.
Proof. intros G D H. destruct (good_ready d G) as (t' & T & R). pose proof (r_d2 _ _ _ R) as D'. rewrite D in D'. inversion D'; subst t'. apply R. rewrite (r_T _ _ _ R). exact H. Qed.
(** With microsecond timers the round trip fails at present dates; with nanosecond timers, near the epoch. *)
Definition dNow : fl := binary_normalize 53 1024 _ _ mode_NE (1700000000 * 2 ^ 22 + 1) (-22) false.
Theorem C50_timeval_round_trip_refuted : is_finite dNow = true /\ option_map (fun t => Beqb (ts2d million t) dNow) (d2ts million dNow) = Some false /\
  option_map (fun t => Beqb (ts2d billion t) dNow) (d2ts billion dNow) = Some true.
Proof. split; [|split]; vm_compute; reflexivity. Qed.
Theorem C50_small_round_trip_refuted : let d := binary_normalize 53 1024 _ _ mode_NE 1 (-40) false in
  option_map (fun t => Beqb (ts2d billion t) d) (d2ts billion d) = Some false.
Proof. vm_compute. reflexivity. Qed.

(** ** C51: tick mode, start and stop. *)
Theorem C51_posix_tick usec : 0 <= usec < 2 ^ 32 -> (posixTick usec = 1000 * usec <-> usec <= 4294967).
Proof.
  intros H. assert (E : posixTick usec = (1000 * usec) mod 2 ^ 32).
  { unfold posixTick. cbv zeta. pose proof (Z.div_mod ((1000 * usec) mod 2 ^ 32) billion ltac:(discriminate)). lia. }
  rewrite E. pose proof (Z.mod_pos_bound (1000 * usec) (2 ^ 32) ltac:(reflexivity)). split; intros X; [lia|]. apply Z.mod_small. lia.
Qed.
Theorem C51_posix_long_tick_refuted : posixTick 5000000 = 705032704 /\ posixTick 536870912 = 0.
Proof. split; reflexivity. Qed.
Theorem C51_itimer_tick usec : itimerTick usec = usec.
Proof. unfold itimerTick. pose proof (Z.div_mod usec million ltac:(discriminate)). lia. Qed.
Theorem C51_start b : tb_started b = false -> tb_timer (tbStart b) = true.
Proof. unfold tbStart. intros ->. reflexivity. Qed.
Theorem C51_stop b : tb_started b = true -> tb_timer (tbStop b) = false.
Proof. unfold tbStop. intros ->. reflexivity. Qed.
Theorem C51_restart_refuted : exists b, tb_timer (tbStart b) = true /\ tb_timer (tbStart (tbStop (tbStart b))) = false.
Proof. exists (mkTb false false). split; reflexivity. Qed.

(** Assumptions *)
Print Assumptions C49_alarm_not_lost.
Print Assumptions C49_alarm_settles.
Print Assumptions C49_alarm_lost_in_race_refuted.
Print Assumptions C49_itimer_armed.
Print Assumptions C49_itimer_now_lost_refuted.
Print Assumptions C49_itimer_early_refuted.
Print Assumptions C50_add.
Print Assumptions C50_sub.
Print Assumptions C50_compare.
Print Assumptions C50_round_trip.
Print Assumptions C50_clock_monotone.
Print Assumptions C50_not_early.
Print Assumptions C50_timeval_round_trip_refuted.
Print Assumptions C50_small_round_trip_refuted.
Print Assumptions C51_posix_tick.
Print Assumptions C51_posix_long_tick_refuted.
Print Assumptions C51_itimer_tick.
Print Assumptions C51_start.
Print Assumptions C51_stop.
Print Assumptions C51_restart_refuted.
