(** C48: Real arithmetic is correctly rounded IEEE arithmetic. *)
From Coq Require Import ZArith Reals List Lia Lra.
From Flocq Require Import Core BinarySingleNaN Bits.
From Verif Require Import ValueModel OpModel RealModel FloatModel FloatSpec FloatProofs FloatBridge.
Import ListNotations.
Open Scope R_scope.

(** The rounding used by the specification: the representable number nearest to x. *)
Theorem C48_rounded_is_nearest : forall x, representable (rounded x) /\
  forall r, representable r -> Rabs (rounded x - x) <= Rabs (r - x).
Proof. exact rounded_nearest. Qed.

(** Two finite operands, not a zero divisor: the exact result, rounded once (an infinity beyond the range). *)
Theorem C48_two_operands : forall op f x y, In (op, f) [(FAdd, EAdd); (FSub, ESub); (FMul, EMul); (FDiv, EDiv); (FMod, EMod)] ->
  is_finite x = true -> is_finite y = true -> (In op [FDiv; FMod] -> B2R y <> 0) ->
  exists d, realApply op [Some x; Some y] = RKnown d /\ rounds_to (exactly f (B2R x) (B2R y)) d.
Proof.
  intros op f x y I Fx Fy Ny. assert (Hf : funOf op = Some f).
  { cbn [In] in I. repeat (destruct I as [I|I]; [inversion I; subst; reflexivity|]). destruct I. }
  assert (E : realApply op [Some x; Some y] = realMach op x y) by (destruct op; try discriminate Hf; reflexivity).
  rewrite E. assert (Z : In op [FDiv; FMod] -> fis0 y = false).
  { intros O. destruct (fis0 y) eqn:C; [|reflexivity]. apply fis0_true in C as [_ C]. destruct (Ny O C). }
  assert (K : exists d, realMach op x y = RKnown d).
  { destruct op; try discriminate Hf; cbn [realMach]; eauto; rewrite Z by (cbn; auto); eauto. }
  destruct K as [d K]. exists d. split; [exact K|]. eapply mach_ok; eassumption.
Qed.
(** The remainder is exact, smaller than the divisor and has the sign of the dividend. *)
Theorem C48_modulo_exact : forall x y d, is_finite x = true -> is_finite y = true -> realApply FMod [Some x; Some y] = RKnown d ->
  is_finite d = true /\ B2R d = exactly EMod (B2R x) (B2R y) /\ Rabs (B2R d) < Rabs (B2R y) /\ 0 <= B2R d * B2R x.
Proof.
  intros x y d Fx Fy H. cbn [realApply realMach] in H. destruct (fis0 y) eqn:C; inversion H; subst d.
  pose proof (fis0_R y Fy C) as Ny. destruct (fmod_ok x y Fx Fy Ny) as [A B]. split; [exact A|]. split; [exact B|]. rewrite B. cbn [exactly].
  set (a := B2R x) in *. set (b := B2R y) in *. clearbody a b. clear - Ny.
  assert (D : forall q, 0 <= q -> 0 <= q - IZR (Ztrunc q) < 1).
  { intros q Hq. rewrite Ztrunc_floor by auto. pose proof (Zfloor_lb q). pose proof (Zfloor_ub q). lra. }
  set (q := a / b). assert (Q : a = q * b) by (unfold q; field; exact Ny). clearbody q. subst a.
  assert (T : Rabs (q - IZR (Ztrunc q)) < 1 /\ 0 <= (q - IZR (Ztrunc q)) * q).
  { destruct (Rle_lt_dec 0 q) as [P|P].
    - specialize (D q P). split; [rewrite Rabs_pos_eq; lra|nra].
    - specialize (D (- q) ltac:(lra)). rewrite Ztrunc_opp, opp_IZR in D. split; [rewrite Rabs_left1; lra|nra]. }
  destruct T as [T1 T2]. replace (q * b - IZR (Ztrunc q) * b) with ((q - IZR (Ztrunc q)) * b) by ring. rewrite Rabs_mult. split.
  - assert (0 < Rabs b) by (apply Rabs_pos_lt; exact Ny). nra.
  - replace ((q - IZR (Ztrunc q)) * b * (q * b)) with ((q - IZR (Ztrunc q)) * q * (b * b)) by ring. apply Rmult_le_pos; [exact T2|]. nra.
Qed.
(** Three or more finite operands and a finite result: left to right, each step rounded once. *)
Theorem C48_many_operands : forall op f a l d, In (op, f) [(FAdd, EAdd); (FSub, ESub); (FMul, EMul)] ->
  Forall (fun x => is_finite x = true) (a :: l) -> (2 <= length l)%nat -> realApply op (map Some (a :: l)) = RKnown d -> is_finite d = true ->
  rounded_steps f a l d.
Proof.
  intros op f a l d I F L H Fd. inversion F as [|? ? Fa Fl]; subst. destruct l as [|b [|c l]]; cbn in L; try lia.
  cbn [In] in I. destruct I as [I|[I|[I|[]]]]; inversion I; subst; clear I.
  - cbn [map realApply] in H.
    change (realLoop (realMach FAdd) (fadd fzero a) (map Some (b :: c :: l)) = RKnown d) in H.
    assert (Z : rounded_steps EAdd (fadd fzero a) (b :: c :: l) d).
    { apply (loop_ok FAdd); auto. destruct (add_ok fzero a eq_refl Fa) as [A _]. cbn [fzero B2R] in A. rewrite Rplus_0_l, rounded_B2R in A. apply A, B2R_lt_max. }
    destruct (add_ok fzero a eq_refl Fa) as [A _]. cbn [fzero B2R] in A. rewrite Rplus_0_l, rounded_B2R in A. destruct (A (B2R_lt_max a)) as [_ E].
    inversion Z as [|? ? acc' ? ? Z1 Z2 Z3 Z4]; subst. econstructor; [exact Fa|exact Z2| |exact Z4]. rewrite <- E. exact Z3.
  - apply (loop_ok FSub); auto.
  - apply (loop_ok FMul); auto.
Qed.
(** Error of a sum of n finite doubles, whatever the cancellation. *)
Theorem C48_sum_error : forall l d, Forall (fun x => is_finite x = true) l -> (2 <= length l)%nat -> realApply FAdd (map Some l) = RKnown d -> is_finite d = true ->
  Rabs (B2R d - sumR (map B2R l)) <= ((1 + bpow radix2 (-53)) ^ (length l - 1) - 1) * sumAbs (map B2R l).
Proof.
  intros l d F L H Fd. destruct l as [|a l]; [cbn in L; lia|]. cbn [length]. replace (S (length l) - 1)%nat with (length l) by lia.
  apply (sum_err a l d); [|exact Fd]. destruct l as [|b [|c l]]; [cbn in L; lia| |].
  - inversion F as [|? ? Fa F']; subst. inversion F' as [|? ? Fb _]; subst. cbn in H. inversion H; subst.
    econstructor; [exact Fa|exact Fb|apply add_ok; auto|constructor].
  - apply (C48_many_operands FAdd); auto; cbn; [auto|lia].
Qed.
(** Unary minus, absolute value, square root. *)
Theorem C48_unary : forall x, is_finite x = true ->
  (exists d, realApply FSub [Some x] = RKnown d /\ is_finite d = true /\ B2R d = - B2R x) /\
  (exists d, realApply FAbs [Some x] = RKnown d /\ is_finite d = true /\ B2R d = Rabs (B2R x)) /\
  (0 <= B2R x -> exists d, realApply FSqrt [Some x] = RKnown d /\ is_finite d = true /\ B2R d = rounded (sqrt (B2R x))) /\
  (B2R x < 0 -> realApply FSqrt [Some x] = RUnknown).
Proof.
  intros x F. split; [|split; [|split]].
  - eexists. split; [reflexivity|]. unfold fneg. rewrite is_finite_Bopp, B2R_Bopp. auto.
  - cbn [realApply]. rewrite Rlt_bool_0 by exact F. case Rlt_bool_spec; intros L; eexists; (split; [reflexivity|]); unfold fneg; rewrite ?is_finite_Bopp, ?B2R_Bopp; split; auto.
    + rewrite Rabs_left; auto. + rewrite Rabs_pos_eq; auto.
  - intros P. cbn [realApply]. rewrite Rlt_bool_0, Rlt_bool_false by auto. eexists. split; [reflexivity|]. apply sqrt_ok; auto.
  - intros N. cbn [realApply]. rewrite Rlt_bool_0, Rlt_bool_true by auto. reflexivity.
Qed.
(** Minimum and maximum of any number of operands other than NaN. *)
Theorem C48_min : forall l, Forall (fun x => is_nan x = false) l -> l <> [] ->
  exists d, realApply FMin (map Some l) = RKnown d /\ In d l /\ forall x, In x l -> leD d x.
Proof. intros l N E. exact (minmax_ok FMin l (or_introl eq_refl) N E). Qed.
Theorem C48_max : forall l, Forall (fun x => is_nan x = false) l -> l <> [] ->
  exists d, realApply FMax (map Some l) = RKnown d /\ In d l /\ forall x, In x l -> leD x d.
Proof. intros l N E. exact (minmax_ok FMax l (or_intror eq_refl) N E). Qed.
(** With any operands, NaN included: the result is an operand and no operand is strictly below (above) it. *)
Lemma flt_trans (a b c : fl) : flt a b = true -> flt b c = true -> flt a c = true.
Proof.
  rewrite !key_lt. destruct (key a) as [[|x|]|], (key b) as [[|y|]|], (key c) as [[|z|]|]; cbn; intros; try discriminate; auto.
  apply Z.ltb_lt in H, H0. apply Z.ltb_lt. lia.
Qed.
Lemma flt_irrefl (a : fl) : flt a a = false.
Proof. rewrite key_lt. destruct (key a) as [[|x|]|]; cbn; auto. apply Z.ltb_irrefl. Qed.
Lemma flt_asym (a b : fl) : flt a b = true -> flt b a = false.
Proof. intros H. destruct (flt b a) eqn:E; [|reflexivity]. pose proof (flt_trans _ _ _ H E) as C. rewrite flt_irrefl in C. discriminate. Qed.
Definition beats (op : realOp) (x d : fl) : bool := match op with FMin => flt x d | _ => flt d x end.
Lemma anyLoop op l : op = FMin \/ op = FMax -> forall acc, exists d,
  realLoop (realStep op) acc (map Some l) = RKnown d /\ In d (acc :: l) /\ beats op acc d = false /\ (forall x, beats op x acc = false -> beats op x d = false) /\ forall x, In x l -> beats op x d = false.
Proof.
  intros O. induction l as [|x l IH]; intros acc; cbn [map realLoop].
  - exists acc. split; [reflexivity|]. split; [left; reflexivity|]. split; [destruct O as [->| ->]; apply flt_irrefl|]. split; [auto|intros ? []].
  - set (c := if beats op x acc then x else acc). assert (E : realStep op acc x = RKnown c) by (destruct O as [->| ->]; reflexivity).
    rewrite E. cbn [rbind]. destruct (IH c) as (d & D & I & B & T & L). exists d. split; [exact D|].
    assert (K : forall y, beats op y acc = false -> beats op y c = false).
    { intros y Hy. unfold c. destruct (beats op x acc) eqn:X; [|exact Hy]. destruct (beats op y x) eqn:Y; [|reflexivity].
      rewrite <- Hy. destruct O as [->| ->]; cbn [beats] in *; symmetry; eapply flt_trans; eassumption. }
    assert (Kx : beats op x c = false). { unfold c. destruct (beats op x acc) eqn:X; [destruct O as [->| ->]; apply flt_irrefl|exact X]. }
    assert (Ka : beats op acc c = false). { apply K. destruct O as [->| ->]; apply flt_irrefl. }
    split; [destruct I as [<-|I]; [unfold c; destruct (beats op x acc); cbn; auto|cbn; auto]|]. split; [apply T, Ka|]. split; [intros y Hy; apply T, K, Hy|].
    intros y [<-|Iy]; [apply T, Kx|apply L, Iy].
Qed.
Lemma minmax_any op l : op = FMin \/ op = FMax -> l <> [] ->
  exists d, realApply op (map Some l) = RKnown d /\ In d l /\ forall x, In x l -> beats op x d = false.
Proof.
  intros O NE. destruct l as [|a [|b [|c l]]]; [congruence| | |].
  - exists a. split; [destruct O as [->| ->]; reflexivity|]. split; [left; reflexivity|]. intros x [<-|[]]. destruct O as [->| ->]; apply flt_irrefl.
  - destruct O as [->| ->]; cbn [map realApply realMach].
    + exists (if flt a b then a else b). split; [reflexivity|]. destruct (flt a b) eqn:E; (split; [cbn; auto|]); intros x [<-|[<-|[]]]; cbn [beats]; auto using flt_irrefl, flt_asym.
    + exists (if flt b a then a else b). split; [reflexivity|]. destruct (flt b a) eqn:E; (split; [cbn; auto|]); intros x [<-|[<-|[]]]; cbn [beats]; auto using flt_irrefl, flt_asym.
  - destruct (anyLoop op (b :: c :: l) O a) as (d & D & I & B & _ & L). exists d. split; [rewrite <- D; destruct O as [->| ->]; reflexivity|]. split; [exact I|].
    intros x [<-|Ix]; [exact B|apply L, Ix].
Qed.
Theorem C48_min_max_any : forall l, l <> [] ->
  (exists d, realApply FMin (map Some l) = RKnown d /\ In d l /\ forall x, In x l -> Bltb x d = false) /\
  (exists d, realApply FMax (map Some l) = RKnown d /\ In d l /\ forall x, In x l -> Bltb d x = false).
Proof. intros l N. split; [exact (minmax_any FMin l (or_introl eq_refl) N)|exact (minmax_any FMax l (or_intror eq_refl) N)]. Qed.
(** A result is unknown exactly when an operand is, the divisor is zero, or the root is imaginary;
    it is never an error. *)
Theorem C48_unknown_iff : forall op args, realArgCountOk op (length args) = true ->
  (realApply op args = RUnknown <->
   In None args \/
   (In op [FDiv; FMod] /\ exists x y, args = [x; Some y] /\ is_finite y = true /\ B2R y = 0) \/
   (op = FSqrt /\ exists x, args = [Some x] /\ (x = B754_infinity true \/ (is_finite x = true /\ B2R x < 0)))) /\
  (realApply op args = RUnknown \/ exists d, realApply op args = RKnown d).
Proof.
  intros op args C. destruct (apply_total op args C) as [P Q].
  assert (L : forall x, flt x fzero = true <-> x = B754_infinity true \/ (is_finite x = true /\ B2R x < 0)).
  { intros x. destruct (is_finite x) eqn:F.
    - rewrite Rlt_bool_0 by exact F. case Rlt_bool_spec; intros L; split; intros H; auto; try discriminate.
      destruct H as [->|[_ H]]; [discriminate|lra].
    - destruct x as [s|[]| |s m e H]; try discriminate; split; cbn; intros H; auto; try discriminate; destruct H as [H|[H _]]; discriminate. }
  assert (NV : noValue op args <-> In None args \/
   (In op [FDiv; FMod] /\ exists x y, args = [x; Some y] /\ is_finite y = true /\ B2R y = 0) \/
   (op = FSqrt /\ exists x, args = [Some x] /\ (x = B754_infinity true \/ (is_finite x = true /\ B2R x < 0)))).
  { unfold noValue. cbn [In]. setoid_rewrite L. intuition congruence. }
  rewrite <- NV. destruct (realApply op args) eqn:E.
  - split; [|right; eauto]. split; [discriminate|]. intros N. specialize (P N). discriminate.
  - split; [|left; reflexivity]. split; [|auto]. intros _. 
    destruct (noValue_dec op args) as [N|N]; [exact N|]. destruct (Q N) as [d D]. discriminate.
  - exfalso. destruct (noValue_dec op args) as [N|N]; [specialize (P N); discriminate|]. destruct (Q N) as [d D]. discriminate.
  - exfalso. destruct (noValue_dec op args) as [N|N]; [specialize (P N); discriminate|]. destruct (Q N) as [d D]. discriminate.
Qed.
(** Addition and multiplication of two operands commute, infinities and NaN included. *)
Theorem C48_commutative : forall op x y, op = FAdd \/ op = FMul -> realApply op [Some x; Some y] = realApply op [Some y; Some x].
Proof.
  intros op x y [->| ->]; cbn [realApply realMach]; f_equal.
  - apply fadd_comm.
  - apply fmul_comm.
Qed.

(** ** What fails *)
(** "A known result is a number" is false: an overflow is a known infinity and the difference of two
    infinities a known NaN. *)
Definition num (s : bool) (m : positive) (e : Z) (H : SpecFloat.bounded 53 1024 m e = true) : fl := B754_finite s m e H.
Lemma known_eq (r : opres fl) (d : fl) : match r with RKnown c => B2SF c = B2SF d | _ => False end -> r = RKnown d.
Proof. destruct r; try contradiction. intros H. apply B2SF_inj in H. congruence. Qed.
Definition big : fl := num false 9007199254740991 971 eq_refl.
Definition one : fl := num false 4503599627370496 (-52) eq_refl.
Theorem C48_overflow_known_refuted :
  realApply FAdd [Some big; Some big] = RKnown (B754_infinity false) /\
  realApply FSub [Some (B754_infinity false); Some (B754_infinity false)] = RKnown B754_nan /\
  realApply FMod [Some (B754_infinity false); Some one] = RKnown B754_nan.
Proof. split; [|split]; apply known_eq; vm_compute; reflexivity. Qed.
(** MIN and MAX depend on the order of the operands as soon as a NaN is involved. *)
Theorem C48_min_nan_refuted :
  realApply FMin [Some B754_nan; Some one] <> realApply FMin [Some one; Some B754_nan] /\
  realApply FMax [Some B754_nan; Some one] <> realApply FMax [Some one; Some B754_nan].
Proof. split; vm_compute; discriminate. Qed.
(** A sum of three depends on the order of the operands. *)
Theorem C48_sum_order_refuted :
  exists a b c, realApply FAdd [Some a; Some b; Some c] = RKnown one /\ realApply FAdd [Some b; Some c; Some a] = RKnown fzero.
Proof. exists big, (fneg big), one. split; apply known_eq; vm_compute; reflexivity. Qed.

(** ** The integer encoding of doubles used by the other models is the IEEE one *)
Theorem C48_encoding : forall a b : fl,
  flt a b = oext_lt (key a) (key b) /\ key (fadd a b) = radd (key a) (key b) /\
  key (fsub a b) = rsub (key a) (key b) /\ key (fneg a) = rneg (key a) /\ key (Babs a) = rabs (key a).
Proof. intros a b. exact (conj (key_lt a b) (conj (key_add a b) (conj (key_sub a b) (conj (key_neg a) (key_abs a))))). Qed.
Definition c13 : fl := num false 7922816251426434 (-96) eq_refl.
Theorem C48_encoding_1e13 : forall a : fl, key (fmul a c13) = rmulc (key a) c13M c13p /\
  Rabs (B2R c13 - 1 / IZR (10 ^ 13)) <= bpow radix2 (-97).
Proof.
  intros a. split.
  - apply key_mulc; [reflexivity|discriminate|reflexivity|]. unfold c13, num. rewrite fin_R. reflexivity.
  - unfold c13, num. rewrite fin_R. unfold szm.
    replace (bpow radix2 (-96)) with (/ IZR (2 ^ 96)) by reflexivity. replace (bpow radix2 (-97)) with (/ IZR (2 ^ 97)) by reflexivity.
    assert (P : 0 < IZR (2 ^ 97)) by (apply IZR_lt; reflexivity).
    assert (P' : 0 < IZR (2 ^ 96)) by (apply IZR_lt; reflexivity).
    assert (T : 0 < IZR (10 ^ 13)) by (apply IZR_lt; reflexivity).
    replace (7922816251426434 * / IZR (2 ^ 96) - 1 / IZR (10 ^ 13)) with (IZR (7922816251426434 * 10 ^ 13 - 2 ^ 96) * / IZR (2 ^ 96 * 10 ^ 13)).
    2:{ rewrite minus_IZR, !mult_IZR. field. split; lra. }
    rewrite Rabs_mult, <- abs_IZR, Rabs_pos_eq by (left; apply Rinv_0_lt_compat, IZR_lt; reflexivity).
    apply Rmult_le_reg_r with (IZR (2 ^ 97 * 10 ^ 13)); [apply IZR_lt; reflexivity|].
    replace (IZR (Z.abs (7922816251426434 * 10 ^ 13 - 2 ^ 96)) * / IZR (2 ^ 96 * 10 ^ 13) * IZR (2 ^ 97 * 10 ^ 13)) with (IZR (2 * Z.abs (7922816251426434 * 10 ^ 13 - 2 ^ 96))).
    2:{ change (2 ^ 97)%Z with (2 * 2 ^ 96)%Z. rewrite !mult_IZR. field. split; lra. }
    replace (/ IZR (2 ^ 97) * IZR (2 ^ 97 * 10 ^ 13)) with (IZR (10 ^ 13)) by (rewrite mult_IZR; field; lra).
    apply IZR_le. vm_compute. discriminate.
Qed.
Theorem C48_encoding_bits : forall b, (0 <= b < 2 ^ 64)%Z -> key (ofBits b) = rkey b.
Proof. exact rkey_ofBits. Qed.

(** Non-vacuity. *)
Example C48_ex_div : realApply FDiv [Some one; Some (fadd one (fadd one one))] = RKnown (num false 6004799503160661 (-54) eq_refl).
Proof. apply known_eq. vm_compute. reflexivity. Qed.
Example C48_ex_mod : realApply FMod [Some (fneg (ofBits 0x401E000000000000)); Some (ofBits 0x4000000000000000)] = RKnown (fneg (ofBits 0x3FF8000000000000)). (* -7.5 mod 2 = -1.5 *)
Proof. apply known_eq. vm_compute. reflexivity. Qed.
Example C48_ex_sum : exists d, realApply FAdd (map Some [ofBits 0x3FB999999999999A; ofBits 0x3FC999999999999A; ofBits 0x3FD3333333333333]) = RKnown d /\ is_finite d = true.
Proof. exists (num false 5404319552844596 (-53) eq_refl). split; [apply known_eq; vm_compute; reflexivity|reflexivity]. Qed.
Example C48_ex_min : realApply FMin (map Some [one; B754_infinity true; fzero]) = RKnown (B754_infinity true).
Proof. apply known_eq. vm_compute. reflexivity. Qed.

(** Assumptions *)
Print Assumptions C48_rounded_is_nearest.
Print Assumptions C48_two_operands.
Print Assumptions C48_modulo_exact.
Print Assumptions C48_many_operands.
Print Assumptions C48_sum_error.
Print Assumptions C48_unary.
Print Assumptions C48_min.
Print Assumptions C48_max.
Print Assumptions C48_unknown_iff.
Print Assumptions C48_commutative.
Print Assumptions C48_overflow_known_refuted.
Print Assumptions C48_min_nan_refuted.
Print Assumptions C48_sum_order_refuted.
Print Assumptions C48_encoding.
Print Assumptions C48_encoding_1e13.
Print Assumptions C48_encoding_bits.
Print Assumptions C48_min_max_any.
