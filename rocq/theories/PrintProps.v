(** C63, printing of Reals. *)
From Coq Require Import ZArith Reals Lra List Bool String Lia.
From Flocq Require Import Core Relative BinarySingleNaN.
From Verif Require Import ValueModel FloatModel TypeModel UdpQueueModel LitModel LitSpec LitProofs LitProps PrintModel PrintProofs.
Import ListNotations.
Open Scope Z_scope.

Lemma finite_value s m e H : B2R (B754_finite s m e H : fl) = (if s then - (IZR (Zpos m) * bpow radix2 e) else IZR (Zpos m) * bpow radix2 e)%R.
Proof. cbn [B2R]. unfold F2R. cbn [Fnum Fexp]. destruct s; cbn [cond_Zopp]; [|reflexivity]. rewrite opp_IZR. ring. Qed.
Lemma finite_abs s m e H : Rabs (B2R (B754_finite s m e H : fl)) = (IZR (Zpos m) * bpow radix2 e)%R.
Proof.
  rewrite finite_value. assert (0 < IZR (Zpos m) * bpow radix2 e)%R by (apply Rmult_lt_0_compat; [apply (IZR_lt 0); lia|apply bpow_gt_0]).
  destruct s; [rewrite Rabs_Ropp|]; apply Rabs_pos_eq; lra.
Qed.
Lemma sign_text (s : bool) body r : realBody body r -> realText ((if s then [45] else []) ++ body) s r.
Proof.
  intros B. exists [], (if s then [45] else []), body. split; [constructor|]. split; [destruct s; constructor|]. split; [exact B|reflexivity].
Qed.
(** The text written is a Real with 15 digits, and of the numbers with 15 digits one that is closest to x: 10^k <= |x| < 10^(k+1), and
    the number written is n * 10^(k-14) and at most half of 10^(k-14) away, and if there are two it is the one with even n. *)
Theorem C63_print_real (x : fl) : is_finite x = true -> B2R x <> 0%R ->
  exists n k, realText (printReal x) (Bsign x) (IZR n * powerRZ 10 (k - 14)) /\ (powerRZ 10 k <= Rabs (B2R x) < powerRZ 10 (k + 1))%R
  /\ 10 ^ 14 <= n <= 10 ^ 15 /\ (Rabs (IZR n * powerRZ 10 (k - 14) - Rabs (B2R x)) <= / 2 * powerRZ 10 (k - 14))%R
  /\ ((Rabs (IZR n * powerRZ 10 (k - 14) - Rabs (B2R x)) = / 2 * powerRZ 10 (k - 14))%R -> Z.even n = true).
Proof.
  intros F NZ. destruct x as [s|s| |s m e H]; try discriminate F; [elim NZ; reflexivity|]. rewrite finite_abs.
  destruct (decimal15_spec (Zpos m) e ltac:(lia)) as (n0 & k0 & K & N & E & TE & D & V). exists n0, k0. split; [|auto]. rewrite <- V. cbn [printReal Bsign].
  destruct (decimal15 (Zpos m) e) as [n k]. cbn [fst snd] in *. apply sign_text. now apply printG_text.
Qed.
Theorem C63_print_zero s : exists x, printReal (B754_zero s) = (if s then [45] else []) ++ [48] /\ parseReal (printReal (B754_zero s)) = Known x /\ B2R x = 0%R /\ Bsign x = s.
Proof.
  exists (B754_zero s). split; [reflexivity|]. split; [|split; reflexivity]. destruct s; vm_compute; reflexivity.
Qed.
Lemma nearest_opp r : nearest (- r) = (- nearest r)%R.
Proof. unfold nearest. rewrite round_NE_opp. reflexivity. Qed.
Lemma nearest_abs r : nearest (Rabs r) = Rabs (nearest r).
Proof. unfold nearest. rewrite <- round_NE_abs by (apply FLT_exp_valid; red; lia). reflexivity. Qed.
Lemma nearest_close d : (bpow radix2 (-1022) <= Rabs d)%R -> (Rabs (nearest d - d) <= bpow radix2 (-53) * Rabs d)%R.
Proof.
  intros L. unfold nearest. pose proof (relative_error_N_FLT radix2 (-1074) 53 ltac:(reflexivity) (fun n => negb (Z.even n)) d) as H.
  replace (/ 2 * bpow radix2 (- (53) + 1))%R with (bpow radix2 (-53)) in H; [apply H; exact L|].
  change (-53) with (-1 + (-53 + 1)). rewrite bpow_plus. f_equal.
Qed.
(** Decimal numbers with at most 15 digits that are close together are equal: the number written is the one that was read. *)
Lemma same_decimal v N j n0 k0 : 0 < N < 10 ^ 15 -> let d := (IZR N * powerRZ 10 j)%R in
  (Rabs (v - d) <= bpow radix2 (-53) * d)%R -> (powerRZ 10 k0 <= v < powerRZ 10 (k0 + 1))%R ->
  (Rabs (IZR n0 * powerRZ 10 (k0 - 14) - v) <= / 2 * powerRZ 10 (k0 - 14))%R -> (IZR n0 * powerRZ 10 (k0 - 14) = d)%R.
Proof.
  intros NN d C [K1 K2] E. set (u := powerRZ 10 (k0 - 14)) in *. assert (U : (0 < u)%R) by apply powerRZ10_pos.
  assert (B53 : (bpow radix2 (-53) = / 9007199254740992)%R) by reflexivity. rewrite B53 in C.
  assert (K2' : (v < 1000000000000000 * u)%R).
  { replace (1000000000000000 * u)%R with (powerRZ 10 (k0 + 1)); [exact K2|]. unfold u. replace (k0 + 1) with (15 + (k0 - 14)) by lia. rewrite powerRZ10_add, powerRZ10_Z by lia. f_equal. }
  assert (D0 : (0 < d)%R) by (apply Rmult_lt_0_compat; [apply (IZR_lt 0); lia|apply powerRZ10_pos]).
  apply Rabs_le_inv in C. apply Rabs_le_inv in E. destruct (Z.le_gt_cases (k0 - 14) j) as [J|J].
  - set (D := N * 10 ^ (j - (k0 - 14))). assert (DE : d = (IZR D * u)%R).
    { unfold d, D, u. rewrite mult_IZR, <- powerRZ10_Z by lia. rewrite Rmult_assoc, <- powerRZ10_add. do 2 f_equal. lia. }
    clearbody D d. rewrite DE in *. clear DE. f_equal. f_equal. set (f := (v / u)%R). assert (VF : v = (f * u)%R) by (unfold f; field; lra). clearbody f. subst v.
    assert (F1 : (- / 9007199254740992 * IZR D <= f - IZR D <= / 9007199254740992 * IZR D)%R) by (split; apply Rmult_le_reg_r with u; try exact U; nra).
    assert (F2 : (f < 1000000000000000)%R) by (apply Rmult_lt_reg_r with u; [exact U|exact K2']).
    assert (F3 : (- / 2 <= IZR n0 - f <= / 2)%R) by (split; apply Rmult_le_reg_r with u; try exact U; nra).
    assert (n0 - D < 1) by (apply lt_IZR; rewrite minus_IZR; lra). assert (-1 < n0 - D) by (apply lt_IZR; rewrite minus_IZR; lra). lia.
  - exfalso. set (w := powerRZ 10 j) in *. assert (W : (0 < w)%R) by apply powerRZ10_pos.
    assert (K1' : (1000000000000000 * w <= v)%R).
    { apply Rle_trans with (powerRZ 10 k0); [|exact K1]. replace (1000000000000000)%R with (powerRZ 10 15) by (rewrite powerRZ10_Z by lia; reflexivity). unfold w. rewrite <- powerRZ10_add.
      replace k0 with ((15 + j) + (k0 - 15 - j)) by lia. rewrite (powerRZ10_add (15 + j)). rewrite <- (Rmult_1_r (powerRZ 10 (15 + j))) at 1.
      apply Rmult_le_compat_l; [left; apply powerRZ10_pos|]. rewrite powerRZ10_Z by lia. apply IZR_le. assert (0 < 10 ^ (k0 - 15 - j)) by (apply Z.pow_pos_nonneg; lia). lia. }
    assert (NU : (IZR N <= 999999999999999)%R) by (apply IZR_le; lia). unfold d in *. nra.
Qed.
(** A Real that came from a number with at most 15 digits (and not too small) is written as that number, and read back unchanged. *)
Theorem C63_print_real_round_trip (x : fl) N j : is_finite x = true -> 0 < Z.abs N < 10 ^ 15 -> B2R x = nearest (IZR N * powerRZ 10 j) ->
  (bpow radix2 (-1022) <= Rabs (IZR N * powerRZ 10 j))%R ->
  realText (printReal x) (N <? 0) (Rabs (IZR N * powerRZ 10 j)) /\
  exists y, parseReal (printReal x) = Known y /\ B2R y = B2R x /\ Bsign y = Bsign x /\ is_finite y = true.
Proof.
  intros F NN B L. set (d := (IZR (Z.abs N) * powerRZ 10 j)%R).
  assert (AD : Rabs (IZR N * powerRZ 10 j) = d) by (unfold d; rewrite Rabs_mult, abs_IZR, (Rabs_pos_eq (powerRZ 10 j)); [reflexivity|left; apply powerRZ10_pos]).
  assert (XA : Rabs (B2R x) = nearest d) by (rewrite B, <- AD, nearest_abs; reflexivity).
  assert (D0 : (0 < d)%R) by (apply Rmult_lt_0_compat; [apply (IZR_lt 0); lia|apply powerRZ10_pos]).
  rewrite AD in L. assert (C : (Rabs (nearest d - d) <= bpow radix2 (-53) * d)%R) by (pose proof (nearest_close d) as H; rewrite (Rabs_pos_eq d) in H by lra; apply H; exact L).
  assert (ND : (0 < nearest d)%R).
  { assert (B53 : (bpow radix2 (-53) = / 9007199254740992)%R) by reflexivity. rewrite B53 in C. apply Rabs_le_inv in C. nra. }
  assert (XN : B2R x <> 0%R) by (intros Z0; rewrite Z0, Rabs_R0 in XA; lra).
  destruct (C63_print_real x F XN) as (n & k & T & K & NB & E & _). rewrite XA in K, E. pose proof (same_decimal (nearest d) (Z.abs N) j n k NN C K E) as V. fold d in V. rewrite V in T.
  assert (SG : Bsign x = (N <? 0)).
  { assert (SN : (Bsign x = true -> B2R x < 0)%R /\ (Bsign x = false -> 0 < B2R x)%R).
    { destruct x as [s|s| |s m e H]; try discriminate F; [elim XN; reflexivity|]. rewrite finite_value. cbn [Bsign].
      assert (0 < IZR (Zpos m) * bpow radix2 e)%R by (apply Rmult_lt_0_compat; [apply (IZR_lt 0); lia|apply bpow_gt_0]). destruct s; split; intros; try discriminate; lra. }
    assert (XV : B2R x = if N <? 0 then (- nearest d)%R else nearest d).
    { rewrite B. unfold d. destruct (Z.ltb_spec N 0) as [G|G].
      - rewrite <- nearest_opp. f_equal. rewrite Z.abs_neq, opp_IZR by lia. ring.
      - rewrite Z.abs_eq by lia. reflexivity. }
    destruct SN as [S1 S2]. destruct (Bsign x), (N <? 0); try reflexivity; [specialize (S1 eq_refl)|specialize (S2 eq_refl)]; rewrite XV in *; lra. }
  rewrite AD. split; [rewrite <- SG; exact T|]. pose proof (C63_real _ _ _ T) as R. rewrite <- XA, Rabs_Rabsolu in R.
  assert (LT : Rlt_bool (Rabs (B2R x)) (bpow radix2 1024) = true) by (apply Rlt_bool_true; apply (abs_B2R_lt_emax 53 1024)).
  rewrite LT in R. destruct R as (y & P & YV & YF & YS). exists y. split; [exact P|]. split; [|split; assumption]. rewrite YV.
  destruct x as [s|s| |s m e H]; try discriminate F; [elim XN; reflexivity|]. rewrite finite_abs, finite_value. cbn [Bsign]. reflexivity.
Qed.
Lemma parse_SF t sf : match parseReal t with Known y => B2SF y = sf | _ => False end -> exists y, parseReal t = Known y /\ B2SF y = sf.
Proof. destruct (parseReal t) as [y| |]; intros H; try contradiction. exists y. auto. Qed.
(** In general 15 digits are not enough: 2^53 is read back as another number. *)
Theorem C63_print_real_refuted : exists x y : fl, is_finite x = true /\ B2R x = 9007199254740992%R /\ printReal x = chars "9.00719925474099e+15"
  /\ parseReal (printReal x) = Known y /\ B2R y <> B2R x.
Proof.
  pose (x := @B754_finite 53 1024 false 4503599627370496 1 eq_refl : fl).
  assert (Y : exists y, parseReal (printReal x) = Known y /\ B2SF y = SpecFloat.S754_finite false 9007199254740990 0) by (apply parse_SF; vm_compute; reflexivity).
  assert (B1 : bpow radix2 1 = 2%R) by reflexivity. assert (B0 : bpow radix2 0 = 1%R) by reflexivity.
  assert (BX : B2R x = 9007199254740992%R) by (unfold x; rewrite finite_value, B1; lra). assert (FX : is_finite x = true) by reflexivity.
  assert (PX : printReal x = chars "9.00719925474099e+15") by (vm_compute; reflexivity). clearbody x. destruct Y as (y & PY & SY).
  exists x, y. split; [exact FX|]. split; [exact BX|]. split; [exact PX|]. split; [exact PY|]. rewrite BX.
  rewrite <- SF2R_B2SF, SY. cbn [SF2R]. unfold F2R. cbn [Fnum Fexp cond_Zopp]. rewrite B0. lra.
Qed.
(** The largest Reals are written as numbers that are refused, and so is an infinite one. *)
Theorem C63_print_large_refuted : (exists x : fl, is_finite x = true /\ parseReal (printReal x) = Refused) /\ forall s, parseReal (printReal (B754_infinity s)) = Refused.
Proof.
  split; [|intros []; vm_compute; reflexivity]. exists (@B754_finite 53 1024 false 9007199254740991 971 eq_refl). split; [reflexivity|]. vm_compute. reflexivity.
Qed.
Theorem C63_print_example : map (fun s => match parseReal (chars s) with Known x => printReal x | _ => [] end) ["0.1"; "-123.456"; "1e22"; "0.00001"; "1000000"]%string
  = map chars ["0.1"; "-123.456"; "1e+22"; "1e-05"; "1000000"]%string.
Proof. vm_compute. reflexivity. Qed.

(** Assumptions *)
Print Assumptions C63_print_real.
Print Assumptions C63_print_zero.
Print Assumptions C63_print_real_round_trip.
Print Assumptions C63_print_real_refuted.
Print Assumptions C63_print_large_refuted.
Print Assumptions C63_print_example.
