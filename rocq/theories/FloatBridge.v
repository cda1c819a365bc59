(** The integer encoding of doubles used by ValueModel and RealModel (values of the form k * 2^-1074)
    agrees with Flocq's IEEE binary64: comparison, addition, subtraction, absolute value,
    multiplication, and the value of a bit pattern. *)
From Coq Require Import ZArith Reals List Lia Lra Psatz.
From Flocq Require Import Core BinarySingleNaN Binary Bits.
From Verif Require Import ValueModel RealModel RealProofs FloatModel FloatSpec FloatProofs.
Open Scope R_scope.

(** The encoding of a double. *)
Definition key (d : fl) : option ext :=
  match d with
  | BinarySingleNaN.B754_zero _ => Some (Fin 0)
  | BinarySingleNaN.B754_infinity s => Some (if s then NInf else PInf)
  | BinarySingleNaN.B754_nan => None
  | BinarySingleNaN.B754_finite s m e _ => Some (Fin (szm s m * 2 ^ (e + 1074)))
  end.
Local Notation B2R := BinarySingleNaN.B2R.
Local Notation is_finite := BinarySingleNaN.is_finite.
Definition ulp0 : R := bpow radix2 (-1074).
Lemma key_fin (d : fl) : is_finite d = true -> exists k, key d = Some (Fin k) /\ B2R d = IZR k * ulp0.
Proof.
  destruct d as [s|s| |s m e H]; intros F; try discriminate.
  - exists 0%Z. split; [reflexivity|]. cbn. ring.
  - eexists; split; [reflexivity|]. rewrite fin_R. destruct (bnd_lt _ _ H) as [_ E]. unfold ulp0.
    rewrite mult_IZR, (IZR_Zpower radix2) by lia. rewrite Rmult_assoc, <- bpow_plus. do 2 f_equal. lia.
Qed.
Lemma ulp0_pos : 0 < ulp0.
Proof. apply bpow_gt_0. Qed.
Lemma ulp0_inj a b : IZR a * ulp0 = IZR b * ulp0 -> a = b.
Proof. intros H. apply eq_IZR. apply Rmult_eq_reg_r with ulp0; [exact H|]. pose proof ulp0_pos. lra. Qed.
Lemma key_of (d : fl) k : is_finite d = true -> B2R d = IZR k * ulp0 -> key d = Some (Fin k).
Proof. intros F E. destruct (key_fin d F) as (k' & K & E'). rewrite K. do 2 f_equal. apply ulp0_inj. congruence. Qed.

(** Comparison. *)
Lemma key_lt (a b : fl) : flt a b = oext_lt (key a) (key b).
Proof.
  destruct (is_finite a) eqn:Fa, (is_finite b) eqn:Fb.
  - destruct (key_fin a Fa) as (x & -> & Ea). destruct (key_fin b Fb) as (y & -> & Eb). unfold flt. rewrite BinarySingleNaN.Bltb_correct by auto.
    rewrite Ea, Eb. cbn. pose proof ulp0_pos. case Rlt_bool_spec; intros L; symmetry; [apply Z.ltb_lt|apply Z.ltb_ge].
    + apply lt_IZR. apply Rmult_lt_reg_r with ulp0; auto.
    + apply le_IZR. apply Rmult_le_reg_r with ulp0; auto.
  - destruct b as [t|[]| |t n f Hb]; try discriminate; destruct a as [s|s| |[] m e Ha]; try discriminate; reflexivity.
  - destruct a as [t|[]| |t n f Hb]; try discriminate; destruct b as [s|s| |[] m e Ha]; try discriminate; reflexivity.
  - destruct a as [t|[]| |t n f Hb]; try discriminate; destruct b as [s|[]| |s m e Ha]; try discriminate; reflexivity.
Qed.

(** Rounding. *)
Lemma rne_ok m sh : (0 <= m)%Z -> (0 <= sh)%Z -> ZnearestE (IZR m / IZR (2 ^ sh)) = rne m sh.
Proof.
  intros Hm Hs. assert (P : (0 < 2 ^ sh)%Z) by (apply Z.pow_pos_nonneg; lia). assert (P' : 0 < IZR (2 ^ sh)) by (apply IZR_lt; exact P).
  unfold rne. set (d := (2 ^ sh)%Z) in *. set (q := (m / d)%Z). set (r := (m mod d)%Z).
  assert (D : (m = d * q + r)%Z) by (apply Z.div_mod; lia). assert (Rr : (0 <= r < d)%Z) by (apply Z.mod_pos_bound; lia).
  assert (F : Zfloor (IZR m / IZR d) = q) by (apply Zfloor_div; lia).
  assert (X : IZR m / IZR d - IZR q = IZR r / IZR d). { rewrite D, plus_IZR, mult_IZR. field. lra. }
  unfold Znearest. rewrite F, X.
  assert (C : Zceil (IZR m / IZR d) = if (r =? 0)%Z then q else (q + 1)%Z).
  { destruct (Z.eqb_spec r 0) as [E|E].
    - replace (IZR m / IZR d) with (IZR q); [apply Zceil_IZR|]. rewrite D, E, plus_IZR, mult_IZR. field. lra.
    - rewrite Zceil_floor_neq; [rewrite F; reflexivity|]. rewrite F. intros Q. assert (IZR r / IZR d = 0) by lra.
      apply (f_equal (fun t => t * IZR d)) in H. unfold Rdiv in H. rewrite Rmult_assoc, Rinv_l, Rmult_0_l, Rmult_1_r in H by lra. apply eq_IZR in H. congruence. }
  rewrite C.
  assert (G : Rcompare (IZR r / IZR d) (/ 2) = Z.compare (2 * r) d).
  { rewrite <- (Rcompare_mult_r (2 * IZR d)) by lra. replace (IZR r / IZR d * (2 * IZR d)) with (IZR (2 * r)) by (rewrite mult_IZR; field; lra).
    replace (/ 2 * (2 * IZR d)) with (IZR d) by field. apply Rcompare_IZR. }
  rewrite G. destruct (Z.compare_spec (2 * r) d) as [E|L|L].
  - destruct (Z.ltb_spec (2 * r) d); [lia|]. destruct (Z.ltb_spec d (2 * r)); [lia|]. destruct (Z.eqb_spec r 0); [lia|]. destruct (Z.even q); reflexivity.
  - destruct (Z.ltb_spec (2 * r) d); [reflexivity|lia].
  - destruct (Z.ltb_spec (2 * r) d); [lia|]. destruct (Z.ltb_spec d (2 * r)); [|lia]. destruct (Z.eqb_spec r 0); [lia|reflexivity].
Qed.
(** The value m * 2^-s units. *)
Lemma rndMag_ok m s : (0 <= m)%Z -> (0 <= s)%Z -> rounded (IZR m * bpow radix2 (-1074 - s)) = IZR (rndMag m s) * ulp0.
Proof.
  intros Hm Hs. destruct (Z.eq_dec m 0) as [->|Nz].
  - rewrite Rmult_0_l. unfold rounded. rewrite round_0 by typeclasses eauto. unfold rndMag, rne.
    set (sh := Z.max s _). assert (P : (0 < 2 ^ sh)%Z) by (apply Z.pow_pos_nonneg; lia).
    rewrite Z.div_0_l, Z.mod_0_l by lia. destruct (Z.ltb_spec (2 * 0) (2 ^ sh)); [|lia]. rewrite Z.mul_0_l. ring.
  - unfold rounded, round, F2R, scaled_mantissa. cbn [Fnum Fexp].
    assert (Mg : mag radix2 (IZR m * bpow radix2 (-1074 - s)) = (Z.log2 m + 1 - 1074 - s)%Z :> Z).
    { rewrite mag_mult_bpow by (apply not_0_IZR; exact Nz).
      assert (mag radix2 (IZR m) = (Z.log2 m + 1)%Z :> Z) as ->; [|lia].
      apply mag_unique. rewrite <- abs_IZR, Z.abs_eq by lia. destruct (Z.log2_spec m) as [A B]; [lia|]. pose proof (Z.log2_nonneg m).
      rewrite <- !(IZR_Zpower radix2) by lia. replace (Z.log2 m + 1 - 1)%Z with (Z.log2 m) by lia. split; [apply IZR_le; exact A|apply IZR_lt].
      rewrite Z.add_1_r. exact B. }
    unfold cexp. rewrite Mg. unfold FLT_exp. set (sh := Z.max s (Z.log2 m - 52)).
    replace (Z.max (Z.log2 m + 1 - 1074 - s - 53) (-1074)) with (sh - s - 1074)%Z by (unfold sh; lia).
    assert (Q : IZR m * bpow radix2 (-1074 - s) * bpow radix2 (- (sh - s - 1074)) = IZR m / IZR (2 ^ sh)).
    { rewrite Rmult_assoc, <- bpow_plus. replace (-1074 - s + - (sh - s - 1074))%Z with (- sh)%Z by lia. rewrite bpow_opp, <- (IZR_Zpower radix2) by (unfold sh; lia). reflexivity. }
    rewrite Q, rne_ok by (unfold sh; lia). unfold rndMag. fold sh.
    rewrite mult_IZR, (IZR_Zpower radix2) by (unfold sh; lia). rewrite Rmult_assoc. unfold ulp0. rewrite <- bpow_plus. do 2 f_equal.
Qed.
Lemma pow2098 : bpow radix2 1024 = IZR (2 ^ 2098) * ulp0.
Proof. rewrite (IZR_Zpower radix2) by lia. unfold ulp0. rewrite <- bpow_plus. reflexivity. Qed.
Lemma rounded_opp x : rounded (- x) = - rounded x.
Proof. unfold rounded. rewrite round_NE_opp. reflexivity. Qed.
Lemma rnd_key n s (d : fl) : (0 <= s)%Z -> rounds_to (IZR n * bpow radix2 (-1074 - s)) d -> key d = Some (rnd n s).
Proof.
  intros Hs [A B]. set (v := IZR n * bpow radix2 (-1074 - s)) in *. unfold rnd. set (r := rndMag (Z.abs n) s).
  assert (R0 : rounded v = IZR (if (n <? 0)%Z then - r else r) * ulp0 /\ Rabs (rounded v) = IZR r * ulp0).
  { assert (E : rounded (IZR (Z.abs n) * bpow radix2 (-1074 - s)) = IZR r * ulp0) by (apply rndMag_ok; lia).
    assert (NN : (0 <= r)%Z) by (apply rndMag_nonneg; lia). assert (P : 0 <= IZR r * ulp0) by (pose proof ulp0_pos; apply IZR_le in NN; nra).
    destruct (Z.ltb_spec n 0).
    - assert (V : v = - (IZR (Z.abs n) * bpow radix2 (-1074 - s))). { unfold v. rewrite Z.abs_neq, opp_IZR by lia. ring. }
      rewrite V, rounded_opp, E. split; [rewrite opp_IZR; ring|]. rewrite Rabs_Ropp, Rabs_pos_eq; auto.
    - assert (V : v = IZR (Z.abs n) * bpow radix2 (-1074 - s)). { unfold v. rewrite Z.abs_eq by lia. reflexivity. }
      rewrite V, E. split; [reflexivity|]. rewrite Rabs_pos_eq; auto. }
  destruct R0 as [E1 E2]. rewrite E2, pow2098 in A, B. pose proof ulp0_pos as U.
  destruct (Z.leb_spec (2 ^ 2098) r) as [L|L].
  - rewrite B by (apply Rmult_le_compat_r; [lra|apply IZR_le; exact L]). cbn [key].
    assert (S : Rlt_bool v 0 = (n <? 0)%Z).
    { unfold v. pose proof (bpow_gt_0 radix2 (-1074 - s)). destruct (Z.ltb_spec n 0); [apply Rlt_bool_true|apply Rlt_bool_false].
      - apply IZR_lt in H0. nra.
      - apply IZR_le in H0. nra. }
    rewrite S. destruct (n <? 0)%Z; reflexivity.
  - destruct A as [F E]; [apply Rmult_lt_compat_r; [lra|apply IZR_lt; exact L]|]. apply key_of; [exact F|]. rewrite E. exact E1.
Qed.
Lemma key_add (a b : fl) : key (fadd a b) = radd (key a) (key b).
Proof.
  destruct (is_finite a) eqn:Fa, (is_finite b) eqn:Fb.
  - destruct (key_fin a Fa) as (x & Ka & Ea). destruct (key_fin b Fb) as (y & Kb & Eb). rewrite Ka, Kb. cbn [radd].
    apply rnd_key; [lia|]. pose proof (add_ok a b Fa Fb) as R. rewrite Ea, Eb in R. rewrite plus_IZR.
    replace ((IZR x + IZR y) * bpow radix2 (-1074 - 0)) with (IZR x * ulp0 + IZR y * ulp0) by (unfold ulp0; change (-1074 - 0)%Z with (-1074)%Z; ring). exact R.
  - destruct b as [t|[]| |t n f Hb]; try discriminate; destruct a as [s|s| |[] m e Ha]; try discriminate; reflexivity.
  - destruct a as [t|[]| |t n f Hb]; try discriminate; destruct b as [s|s| |[] m e Ha]; try discriminate; reflexivity.
  - destruct a as [t|[]| |t n f Hb]; try discriminate; destruct b as [s|[]| |s m e Ha]; try discriminate; reflexivity.
Qed.
Lemma key_neg (a : fl) : key (fneg a) = rneg (key a).
Proof. destruct a as [s|[]| |[] m e H]; try reflexivity; unfold key, fneg, BinarySingleNaN.Bopp, rneg, szm; cbn [negb]; do 2 f_equal; lia. Qed.
Lemma key_sub (a b : fl) : key (fsub a b) = rsub (key a) (key b).
Proof. rewrite fsub_fadd, key_add, key_neg. reflexivity. Qed.
Lemma key_abs (a : fl) : key (BinarySingleNaN.Babs a) = rabs (key a).
Proof.
  destruct a as [s|[]| |[] m e H]; try reflexivity; unfold key, BinarySingleNaN.Babs, rabs, szm; do 2 f_equal; rewrite Z.abs_mul, (Z.abs_eq (2 ^ _)) by (apply Z.pow_nonneg; lia); reflexivity.
Qed.
(** Multiplication by a constant c = M * 2^-p. *)
Lemma key_mulc (a c : fl) M p : (0 < M)%Z -> (0 <= p)%Z -> is_finite c = true -> B2R c = IZR M * bpow radix2 (- p) ->
  key (fmul a c) = rmulc (key a) M p.
Proof.
  intros HM Hp Fc Ec. destruct (is_finite a) eqn:Fa.
  - destruct (key_fin a Fa) as (x & Ka & Ea). rewrite Ka. cbn [rmulc]. apply rnd_key; [exact Hp|].
    pose proof (mul_ok a c Fa Fc) as R. rewrite Ea, Ec in R. rewrite mult_IZR.
    replace (IZR x * IZR M * bpow radix2 (-1074 - p)) with (IZR x * ulp0 * (IZR M * bpow radix2 (- p))); [exact R|].
    unfold ulp0, Z.sub. rewrite bpow_plus. ring.
  - assert (Sc : c <> BinarySingleNaN.B754_zero true /\ c <> BinarySingleNaN.B754_zero false /\ BinarySingleNaN.Bsign c = false).
    { assert (0 < B2R c). { rewrite Ec. apply Rmult_lt_0_compat; [apply IZR_lt; exact HM|apply bpow_gt_0]. }
      split; [intros ->; cbn in H; lra|]. split; [intros ->; cbn in H; lra|]. rewrite Bsign_R by (auto; lra). apply Rlt_bool_false. lra. }
    destruct Sc as (S1 & S2 & S3). destruct c as [[]|s| |s m e H]; try discriminate; try congruence. cbn in S3. subst s.
    destruct a as [t|[]| |t n f Hb]; try discriminate; reflexivity.
Qed.

(** The double with a given 64-bit pattern. *)
Definition ofBits (b : Z) : fl := B2BSN 53 1024 (b64_of_bits b).
Definition keyFF (f : full_float) : option ext :=
  match f with
  | F754_zero _ => Some (Fin 0)
  | F754_infinity s => Some (if s then NInf else PInf)
  | F754_nan _ _ => None
  | F754_finite s m e => Some (Fin (szm s m * 2 ^ (e + 1074)))
  end.
Lemma key_FF f H : key (B2BSN 53 1024 (FF2B 53 1024 f H)) = keyFF f.
Proof. destruct f; reflexivity. Qed.
Lemma rkey_ofBits b : (0 <= b < 2 ^ 64)%Z -> key (ofBits b) = rkey b.
Proof.
  intros Hb. unfold ofBits, b64_of_bits, binary_float_of_bits. rewrite key_FF. unfold binary_float_of_bits_aux, split_bits, rkey.
  change (2 ^ 52 * 2 ^ 11)%Z with (2 ^ 63)%Z. set (neg := (2 ^ 63 <=? b)%Z).
  assert (M : (b mod 2 ^ 63 = (b / 2 ^ 52) mod 2 ^ 11 * 2 ^ 52 + b mod 2 ^ 52)%Z).
  { change (2 ^ 63)%Z with (2 ^ 52 * 2 ^ 11)%Z. rewrite Z.rem_mul_r by lia. ring. }
  set (e := ((b / 2 ^ 52) mod 2 ^ 11)%Z) in *. set (f := (b mod 2 ^ 52)%Z) in *.
  assert (Hf : (0 <= f < 2 ^ 52)%Z) by (apply Z.mod_pos_bound; lia). assert (He : (0 <= e < 2 ^ 11)%Z) by (apply Z.mod_pos_bound; lia).
  assert (D : (b mod 2 ^ 63 / 2 ^ 52 = e)%Z). { rewrite M. rewrite Z.div_add_l by lia. rewrite Z.div_small by lia. lia. }
  assert (D' : (b mod 2 ^ 63 mod 2 ^ 52 = f)%Z). { rewrite M. rewrite Z.add_comm, Z.mod_add by lia. apply Z.mod_small. lia. }
  rewrite D, D'. change (2 ^ 11 - 1)%Z with 2047%Z. clearbody e f neg. clear - He Hf.
  case Zeq_bool_spec; intros E0.
  - subst e. cbn [Z.eqb]. destruct f as [|p|p]; [destruct neg; reflexivity| |lia]. unfold keyFF.
    change (SpecFloat.emin (52 + 1) (2 ^ (11 - 1)) + 1074)%Z with 0%Z. change (2 ^ 0)%Z with 1%Z. rewrite Z.mul_1_r. destruct neg; reflexivity.
  - case Zeq_bool_spec; intros E1.
    + subst e. rewrite Z.eqb_refl. destruct f as [|p|p]; [destruct neg; reflexivity|reflexivity|lia].
    + destruct (Z.eqb_spec e 2047); [lia|]. destruct (Z.eqb_spec e 0); [lia|]. set (w := (f + 2 ^ 52)%Z).
      assert (W : (0 < w)%Z) by (unfold w; lia). replace (2 ^ 52 + f)%Z with w by (unfold w; ring). clearbody w.
      destruct w as [|p|p]; try lia. unfold keyFF. replace (e + SpecFloat.emin (52 + 1) (2 ^ (11 - 1)) - 1 + 1074)%Z with (e - 1)%Z by (change (SpecFloat.emin (52 + 1) (2 ^ (11 - 1))) with (-1074)%Z; ring).
      destruct neg; unfold szm; do 2 f_equal; lia.
Qed.
