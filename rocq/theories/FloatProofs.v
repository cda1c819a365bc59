From Coq Require Import ZArith Reals List Lia Lra Psatz.
From Flocq Require Import Core BinarySingleNaN Plus_error Relative.
From Verif Require Import ValueModel OpModel FloatModel FloatSpec.
Open Scope R_scope.

Lemma fexp_eq : SpecFloat.fexp 53 1024 = FLT_exp (-1074) 53.
Proof. reflexivity. Qed.
Lemma B2SF_inf (d : fl) s : B2SF d = SpecFloat.S754_infinity s -> d = B754_infinity s.
Proof. destruct d; cbn; intros H; inversion H; reflexivity. Qed.
Lemma ovf s : binary_overflow 53 1024 mode_NE s = SpecFloat.S754_infinity s.
Proof. reflexivity. Qed.

Lemma representable_iff r : representable r <-> generic_format radix2 (FLT_exp (-1074) 53) r.
Proof.
  split.
  - intros (m & e & -> & Hm & He). apply generic_format_FLT. exists (Float radix2 m e); [reflexivity| |]; assumption.
  - intros H. apply FLT_format_generic in H; [|reflexivity]. destruct H as [f -> Hm He]. exists (Fnum f), (Fexp f). split; [reflexivity|split; assumption].
Qed.
Lemma rounded_nearest x : representable (rounded x) /\ forall r, representable r -> Rabs (rounded x - x) <= Rabs (r - x).
Proof.
  split.
  - apply representable_iff. apply generic_format_round; typeclasses eauto.
  - intros r Hr. apply representable_iff in Hr. destruct (round_N_pt radix2 (FLT_exp (-1074) 53) (fun x => negb (Z.even x)) x) as [_ H]. apply H, Hr.
Qed.

Lemma inf_sign_round x : bpow radix2 1024 <= Rabs (rounded x) -> forall y, 0 <= x * y -> y <> 0 -> Rlt_bool x 0 = Rlt_bool y 0.
Proof.
  intros H y P N. assert (x <> 0).
  { intros ->. unfold rounded in H. rewrite round_0, Rabs_R0 in H by typeclasses eauto. pose proof (bpow_gt_0 radix2 1024). lra. }
  destruct (Rlt_bool_spec x 0), (Rlt_bool_spec y 0); auto; exfalso; nra.
Qed.
Lemma Bsign_R (d : fl) : is_finite d = true -> B2R d <> 0 -> Bsign d = Rlt_bool (B2R d) 0.
Proof.
  destruct d as [s|s| |s m e H]; intros F N; try discriminate; [cbn in N; lra|]. cbn [Bsign].
  destruct s; symmetry.
  - apply Rlt_bool_true. apply F2R_lt_0. reflexivity.
  - apply Rlt_bool_false. apply Rlt_le, F2R_gt_0. reflexivity.
Qed.

Lemma add_ok (x y : fl) : is_finite x = true -> is_finite y = true -> rounds_to (B2R x + B2R y) (fadd x y).
Proof.
  intros Fx Fy. generalize (Bplus_correct 53 1024 _ _ mode_NE x y Fx Fy). change (SpecFloat.fexp 53 1024) with (FLT_exp (-1074) 53).
  cbn [round_mode]. fold (rounded (B2R x + B2R y)). case Rlt_bool_spec; intros C H.
  - split; [intros _|lra]. destruct H as (A & B & _). auto.
  - split; [lra|intros _]. destruct H as (A & B). rewrite ovf in A. apply B2SF_inf in A. unfold fadd. rewrite A. f_equal.
    assert (N : B2R x + B2R y <> 0).
    { intros E. rewrite E in C. unfold rounded in C. rewrite round_0, Rabs_R0 in C by typeclasses eauto. pose proof (bpow_gt_0 radix2 1024). lra. }
    destruct (Req_dec (B2R x) 0) as [Zx|Nx].
    + assert (Ny : B2R y <> 0) by lra. rewrite B, (Bsign_R y Fy Ny). f_equal. lra.
    + rewrite (Bsign_R x Fx Nx). destruct (Req_dec (B2R y) 0) as [Zy|Ny]; [f_equal; lra|].
      pose proof (Bsign_R x Fx Nx) as Sx. pose proof (Bsign_R y Fy Ny) as Sy. rewrite B, Sy in Sx. 
      destruct (Rlt_bool_spec (B2R x) 0), (Rlt_bool_spec (B2R y) 0); try discriminate; symmetry; [apply Rlt_bool_true|apply Rlt_bool_false]; lra.
Qed.
Lemma fsub_fadd (x y : fl) : fsub x y = fadd x (fneg y).
Proof. destruct x as [s|s| |s m e H], y as [t|t| |t n f K]; cbn; try reflexivity; try (destruct s, t; reflexivity). Qed.
Lemma sub_ok (x y : fl) : is_finite x = true -> is_finite y = true -> rounds_to (B2R x - B2R y) (fsub x y).
Proof.
  intros Fx Fy. rewrite fsub_fadd. replace (B2R x - B2R y) with (B2R x + B2R (fneg y)) by (unfold fneg; rewrite B2R_Bopp; reflexivity).
  apply add_ok; auto. unfold fneg. rewrite is_finite_Bopp. exact Fy.
Qed.
Lemma xor_sign (x y : fl) (p : R) : is_finite x = true -> is_finite y = true -> B2R x <> 0 -> B2R y <> 0 ->
  0 < p * (B2R x * B2R y) -> xorb (Bsign x) (Bsign y) = Rlt_bool p 0.
Proof.
  intros Fx Fy Nx Ny P. rewrite (Bsign_R x Fx Nx), (Bsign_R y Fy Ny).
  destruct (Rlt_bool_spec (B2R x) 0), (Rlt_bool_spec (B2R y) 0); cbn; symmetry; [apply Rlt_bool_false|apply Rlt_bool_true|apply Rlt_bool_true|apply Rlt_bool_false].
  - assert (0 < B2R x * B2R y) by nra. nra.
  - assert (0 < B2R y) by lra. assert (B2R x * B2R y < 0) by nra. nra.
  - assert (0 < B2R x) by lra. assert (B2R x * B2R y < 0) by nra. nra.
  - assert (0 < B2R x) by lra. assert (0 < B2R y) by lra. assert (0 < B2R x * B2R y) by nra. nra.
Qed.
Lemma round_zero_lt : Rabs (rounded 0) < bpow radix2 1024.
Proof. unfold rounded. rewrite round_0, Rabs_R0 by typeclasses eauto. apply bpow_gt_0. Qed.
Lemma mul_ok (x y : fl) : is_finite x = true -> is_finite y = true -> rounds_to (B2R x * B2R y) (fmul x y).
Proof.
  intros Fx Fy. generalize (Bmult_correct 53 1024 _ _ mode_NE x y). change (SpecFloat.fexp 53 1024) with (FLT_exp (-1074) 53).
  cbn [round_mode]. fold (rounded (B2R x * B2R y)). case Rlt_bool_spec; intros C H.
  - split; [intros _|lra]. destruct H as (A & B & _). rewrite Fx, Fy in B. auto.
  - split; [lra|intros _]. rewrite ovf in H. apply B2SF_inf in H. unfold fmul. rewrite H. f_equal.
    assert (N : B2R x * B2R y <> 0) by (intros E; rewrite E in C; pose proof round_zero_lt; lra).
    apply xor_sign; auto; try (intros E; apply N; rewrite E; ring). 
    destruct (Rtotal_order (B2R x * B2R y) 0) as [|[|]]; nra.
Qed.
Lemma div_ok (x y : fl) : is_finite x = true -> is_finite y = true -> B2R y <> 0 -> rounds_to (B2R x / B2R y) (fdiv x y).
Proof.
  intros Fx Fy Ny. generalize (Bdiv_correct 53 1024 _ _ mode_NE x y Ny). change (SpecFloat.fexp 53 1024) with (FLT_exp (-1074) 53).
  cbn [round_mode]. fold (rounded (B2R x / B2R y)). case Rlt_bool_spec; intros C H.
  - split; [intros _|lra]. destruct H as (A & B & _). rewrite Fx in B. auto.
  - split; [lra|intros _]. rewrite ovf in H. apply B2SF_inf in H. unfold fdiv. rewrite H. f_equal.
    assert (N : B2R x / B2R y <> 0) by (intros E; rewrite E in C; pose proof round_zero_lt; lra).
    assert (Nx : B2R x <> 0) by (intros E; apply N; rewrite E; unfold Rdiv; ring).
    apply xor_sign; auto. replace (B2R x / B2R y * (B2R x * B2R y)) with (B2R x * B2R x) by (field; exact Ny).
    destruct (Rtotal_order (B2R x) 0) as [|[|]]; nra.
Qed.
Lemma Rlt_bool_0 (x : fl) : is_finite x = true -> flt x fzero = Rlt_bool (B2R x) 0.
Proof. intros F. unfold flt, fzero. rewrite Bltb_correct by auto. reflexivity. Qed.
Lemma B2R_lt_max (x : fl) : Rabs (B2R x) < bpow radix2 1024.
Proof. apply abs_B2R_lt_emax. Qed.
Lemma rounded_B2R (x : fl) : rounded (B2R x) = B2R x.
Proof. unfold rounded. apply round_generic; [typeclasses eauto|]. apply (generic_format_B2R 53 1024). Qed.
Lemma sqrt_ok (x : fl) : is_finite x = true -> 0 <= B2R x -> is_finite (fsqrt x) = true /\ B2R (fsqrt x) = rounded (sqrt (B2R x)).
Proof.
  intros Fx P. destruct (Bsqrt_correct 53 1024 _ _ mode_NE x) as (A & B & _). unfold fsqrt. split; [|exact A]. rewrite B.
  destruct x as [s|s| |s m e H]; try discriminate; [reflexivity|]. destruct s; [|reflexivity].
  exfalso. cbn [B2R] in P. assert (F2R (Float radix2 (cond_Zopp true (Z.pos m)) e) < 0) by (apply F2R_lt_0; reflexivity). lra.
Qed.

(** fmod is exact. *)
Lemma fin_R s m e (H : SpecFloat.bounded 53 1024 m e = true) : B2R (B754_finite s m e H : fl) = IZR (szm s m) * bpow radix2 e.
Proof. cbn [B2R]. unfold F2R. cbn [Fnum Fexp]. destruct s; reflexivity. Qed.
Lemma bnd_lt m e : SpecFloat.bounded 53 1024 m e = true -> (Z.pos m < 2 ^ 53)%Z /\ (-1074 <= e)%Z.
Proof.
  intros H. unfold SpecFloat.bounded in H. apply Bool.andb_true_iff in H as [H _]. unfold SpecFloat.canonical_mantissa in H.
  apply Zeq_bool_eq in H. unfold SpecFloat.fexp, SpecFloat.emin in H.
  rewrite Zpos_digits2_pos in H. assert (B := Zdigits_correct radix2 (Z.pos m)). destruct B as [_ B]. rewrite Z.abs_eq in B by lia.
  split; [|lia]. eapply Z.lt_le_trans; [exact B|]. change (radix2 : Z) with 2%Z. 
  apply Z.pow_le_mono_r; lia.
Qed.
Lemma Ztrunc_quot (a b : Z) : b <> 0%Z -> Ztrunc (IZR a / IZR b) = Z.quot a b.
Proof. intros. apply Ztrunc_div; assumption. Qed.
Lemma fmod_ok (x y : fl) : is_finite x = true -> is_finite y = true -> B2R y <> 0 ->
  is_finite (fmod x y) = true /\ B2R (fmod x y) = exactly EMod (B2R x) (B2R y).
Proof.
  intros Fx Fy Ny. destruct x as [sx|sx| |sx mx ex Hx]; try discriminate; destruct y as [sy|sy| |sy my ey Hy]; try discriminate; try (cbn in Ny; lra).
  - cbn [fmod]. split; [reflexivity|]. cbn [B2R exactly]. unfold Rdiv. rewrite Rmult_0_l. rewrite Ztrunc_IZR. lra.
  - rewrite !fin_R. cbn [fmod]. set (e := Z.min ex ey). set (a := (szm sx mx * 2 ^ (ex - e))%Z). set (b := (Z.pos my * 2 ^ (ey - e))%Z).
    set (b' := (szm sy my * 2 ^ (ey - e))%Z).
    assert (Pe : (0 < 2 ^ (ey - e))%Z) by (apply Z.pow_pos_nonneg; unfold e; lia).
    assert (Pe' : (0 < 2 ^ (ex - e))%Z) by (apply Z.pow_pos_nonneg; unfold e; lia).
    assert (Ea : IZR (szm sx mx) * bpow radix2 ex = IZR a * bpow radix2 e).
    { unfold a. rewrite mult_IZR, (IZR_Zpower radix2) by (unfold e; lia). rewrite Rmult_assoc, <- bpow_plus. do 2 f_equal. ring. }
    assert (Eb : IZR (szm sy my) * bpow radix2 ey = IZR b' * bpow radix2 e).
    { unfold b'. rewrite mult_IZR, (IZR_Zpower radix2) by (unfold e; lia). rewrite Rmult_assoc, <- bpow_plus. do 2 f_equal. ring. }
    assert (Bb : (Z.abs b' = b)%Z). { unfold b, b', szm. destruct sy; lia. }
    assert (Bp : (0 < b)%Z) by (unfold b; nia).
    assert (Rr : Z.rem a b = Z.rem a b').
    { destruct (Z.abs_eq_or_opp b') as [E|E]; rewrite E in Bb; rewrite <- Bb; [reflexivity|]. rewrite Z.rem_opp_r by lia. reflexivity. }
    rewrite Ea, Eb. cbn [exactly].
    assert (Q : IZR a * bpow radix2 e / (IZR b' * bpow radix2 e) = IZR a / IZR b').
    { field. split; [apply not_0_IZR; lia|]. apply Rgt_not_eq, bpow_gt_0. }
    rewrite Q, Ztrunc_quot by lia.
    assert (R0 : IZR a * bpow radix2 e - IZR (Z.quot a b') * (IZR b' * bpow radix2 e) = IZR (Z.rem a b) * bpow radix2 e).
    { rewrite Rr. pose proof (Z.quot_rem' a b') as D. assert (IZR a = IZR b' * IZR (Z.quot a b') + IZR (Z.rem a b')) as -> by (rewrite <- mult_IZR, <- plus_IZR; f_equal; exact D). ring. }
    rewrite R0. destruct (bnd_lt _ _ Hx) as [Lx Ex]. destruct (bnd_lt _ _ Hy) as [Ly Ey].
    assert (Rb : (Z.abs (Z.rem a b) < b)%Z) by (pose proof (Z.rem_bound_abs a b); lia).
    assert (Ra : (Z.abs (Z.rem a b) <= Z.abs a)%Z).
    { rewrite <- Z.rem_abs by lia. apply Z.rem_le; lia. }
    assert (Rep : generic_format radix2 (FLT_exp (-1074) 53) (IZR (Z.rem a b) * bpow radix2 e)).
    { apply representable_iff. exists (Z.rem a b), e. split; [reflexivity|]. split; [|unfold e; lia].
      destruct (Z.le_ge_cases ex ey).
      - assert (a = szm sx mx) as Ea'. { unfold a, e. rewrite Z.min_l, Z.sub_diag by lia. apply Z.mul_1_r. }
        rewrite Ea' in Ra at 2. unfold szm in Ra. destruct sx; lia.
      - assert (b = Z.pos my) as Eb'. { unfold b, e. rewrite Z.min_r, Z.sub_diag by lia. apply Z.mul_1_r. } lia. }
    generalize (binary_normalize_correct 53 1024 _ _ mode_NE (Z.rem a b) e sx). cbv zeta. unfold F2R. cbn [Fnum Fexp round_mode].
    change (SpecFloat.fexp 53 1024) with (FLT_exp (-1074) 53). rewrite round_generic by (auto; typeclasses eauto).
    rewrite Rlt_bool_true; [intros (A & B & _); auto|].
    eapply Rle_lt_trans; [|apply (B2R_lt_max (B754_finite sx mx ex Hx))]. rewrite fin_R, Ea, !Rabs_mult, <- !abs_IZR.
    apply Rmult_le_compat_r; [apply Rabs_pos|]. apply IZR_le. exact Ra.
Qed.

(** ** Two operands and n operands *)
Definition funOf (op : realOp) : option realFun :=
  match op with FAdd => Some EAdd | FSub => Some ESub | FMul => Some EMul | FDiv => Some EDiv | FMod => Some EMod | _ => None end.
Lemma fis0_R (y : fl) : is_finite y = true -> fis0 y = false -> B2R y <> 0.
Proof.
  destruct y as [s|s| |s m e H]; intros F Z; try discriminate. rewrite fin_R. intros E.
  apply Rmult_integral in E as [E|E]; [apply eq_IZR in E; destruct s; discriminate E|]. pose proof (bpow_gt_0 radix2 e). lra.
Qed.
Lemma fis0_true (y : fl) : fis0 y = true <-> is_finite y = true /\ B2R y = 0.
Proof.
  split; [destruct y; try discriminate; cbn; auto|]. intros [F E]. destruct (fis0 y) eqn:C; [reflexivity|]. destruct (fis0_R y F C E).
Qed.
Lemma exact_round (r : R) (d : fl) : is_finite d = true -> B2R d = r -> rounds_to r d.
Proof.
  intros F E. subst r. split; rewrite rounded_B2R; [auto|]. pose proof (B2R_lt_max d). lra.
Qed.
Lemma mach_ok op f x y d : funOf op = Some f -> is_finite x = true -> is_finite y = true -> realMach op x y = RKnown d ->
  rounds_to (exactly f (B2R x) (B2R y)) d.
Proof.
  intros Hf Fx Fy H. destruct op; inversion Hf; subst f; cbn [realMach exactly] in *.
  - inversion H; subst. apply add_ok; auto.
  - inversion H; subst. apply sub_ok; auto.
  - inversion H; subst. apply mul_ok; auto.
  - destruct (fis0 y) eqn:C; inversion H; subst. apply div_ok; auto. apply fis0_R; auto.
  - destruct (fis0 y) eqn:C; inversion H; subst. destruct (fmod_ok x y Fx Fy (fis0_R y Fy C)) as [A B]. apply exact_round; auto.
Qed.
Lemma step_mach op f : funOf op = Some f -> realStep op = realMach op.
Proof. destruct op; intros H; try discriminate; reflexivity. Qed.
(** A non-finite accumulator never becomes finite again. *)
Lemma nonfinite_stays op acc x d : op = FAdd \/ op = FSub \/ op = FMul -> is_finite acc = false -> is_finite x = true ->
  realMach op acc x = RKnown d -> is_finite d = false.
Proof.
  intros O Fa Fx H. destruct O as [->|[->| ->]]; inversion H; subst; clear H;
    destruct acc as [s|s| |s m e Ha]; try discriminate Fa; destruct x as [t|t| |t n f Hx]; try discriminate Fx; try reflexivity.
Qed.
Lemma loop_nonfinite op acc l d : op = FAdd \/ op = FSub \/ op = FMul -> is_finite acc = false -> Forall (fun x => is_finite x = true) l ->
  realLoop (realMach op) acc (map Some l) = RKnown d -> is_finite d = false.
Proof.
  intros O. revert acc; induction l as [|x l IH]; intros acc Fa F H; cbn [map realLoop] in H; [inversion H; subst; exact Fa|].
  inversion F; subst. destruct (realMach op acc x) as [v| | |] eqn:M; try discriminate H; cbn [rbind] in H.
  eapply IH; [|eassumption|exact H]. eapply nonfinite_stays; [exact O|exact Fa| |exact M]; assumption.
Qed.
Lemma loop_ok op f acc l d : funOf op = Some f -> op = FAdd \/ op = FSub \/ op = FMul -> is_finite acc = true ->
  Forall (fun x => is_finite x = true) l -> realLoop (realMach op) acc (map Some l) = RKnown d -> is_finite d = true ->
  rounded_steps f acc l d.
Proof.
  intros Hf O. revert acc; induction l as [|x l IH]; intros acc Fa F H Fd; cbn [map realLoop] in H; [inversion H; subst; constructor|].
  inversion F; subst. destruct (realMach op acc x) as [v| | |] eqn:M; try discriminate H; cbn [rbind] in H.
  pose proof (mach_ok _ _ _ _ _ Hf Fa H2 M) as R. econstructor; [exact Fa|exact H2|exact R|].
  apply IH; auto. destruct (is_finite v) eqn:Fv; [reflexivity|]. rewrite (loop_nonfinite op v l d O Fv H3 H) in Fd. discriminate.
Qed.
Lemma zero_plus (x : fl) : is_finite x = true -> rounds_to (exactly EAdd (B2R fzero) (B2R x)) x.
Proof. intros F. apply exact_round; auto. cbn [exactly fzero B2R]. lra. Qed.

(** ** Error of a sum *)
Definition u53 : R := bpow radix2 (-53).
Lemma add_err (x y : fl) (d : fl) : is_finite x = true -> is_finite y = true -> rounds_to (B2R x + B2R y) d -> is_finite d = true ->
  Rabs (B2R d - (B2R x + B2R y)) <= u53 * Rabs (B2R x + B2R y).
Proof.
  intros Fx Fy [A B] Fd. destruct (Rlt_le_dec (Rabs (rounded (B2R x + B2R y))) (bpow radix2 1024)) as [L|L].
  - destruct (A L) as [_ ->]. 
    destruct (FLT_plus_error_N_ex radix2 (-1074) 53 (fun x => negb (Z.even x)) (B2R x) (B2R y)) as (eps & He & E); try (apply (generic_format_B2R 53 1024)).
    unfold rounded. rewrite E. replace ((B2R x + B2R y) * (1 + eps) - (B2R x + B2R y)) with (eps * (B2R x + B2R y)) by ring.
    rewrite Rabs_mult. apply Rmult_le_compat_r; [apply Rabs_pos|]. eapply Rle_trans; [exact He|].
    assert (P : 0 < u_ro radix2 53) by (apply Rmult_lt_0_compat; [lra|apply bpow_gt_0]).
    assert (E' : u_ro radix2 53 = u53). { unfold u_ro, u53. change (- (53) + 1)%Z with (-53 + 1)%Z. rewrite bpow_plus. cbn. lra. }
    rewrite <- E'. apply Rmult_le_reg_r with (1 + u_ro radix2 53); [lra|]. unfold Rdiv. rewrite Rmult_assoc, Rinv_l by lra. nra.
  - rewrite (B L) in Fd. discriminate.
Qed.
Lemma sum_err acc l d : rounded_steps EAdd acc l d -> is_finite d = true ->
  Rabs (B2R d - (B2R acc + sumR (map B2R l))) <= ((1 + u53) ^ length l - 1) * (Rabs (B2R acc) + sumAbs (map B2R l)).
Proof.
  assert (U : 0 < u53) by apply bpow_gt_0.
  induction 1 as [d|acc x acc' l d Fa Fx R S IH]; intros Fd; cbn [map sumR sumAbs fold_right length pow].
  - replace (B2R d - (B2R d + 0)) with 0 by ring. rewrite Rabs_R0. lra.
  - specialize (IH Fd). fold (sumR (map B2R l)). fold (sumAbs (map B2R l)). cbn [exactly] in R.
    assert (Fa' : is_finite acc' = true). { inversion S; subst; auto. }
    pose proof (add_err _ _ _ Fa Fx R Fa') as E. set (A := Rabs (B2R acc) + Rabs (B2R x)).
    assert (TA : Rabs (B2R acc + B2R x) <= A) by apply Rabs_triang.
    assert (A0 : 0 <= A) by (unfold A; pose proof (Rabs_pos (B2R acc)); pose proof (Rabs_pos (B2R x)); lra).
    assert (S0 : 0 <= sumAbs (map B2R l)). { clear. induction l; cbn [map sumAbs fold_right]; [lra|]. fold (sumAbs (map B2R l)). pose proof (Rabs_pos (B2R a)). lra. }
    assert (E1 : Rabs (B2R acc' - (B2R acc + B2R x)) <= u53 * A) by nra.
    assert (E2 : Rabs (B2R acc') <= (1 + u53) * A).
    { replace (B2R acc') with ((B2R acc' - (B2R acc + B2R x)) + (B2R acc + B2R x)) by ring. eapply Rle_trans; [apply Rabs_triang|]. lra. }
    replace (B2R d - (B2R acc + (B2R x + sumR (map B2R l)))) with ((B2R d - (B2R acc' + sumR (map B2R l))) + (B2R acc' - (B2R acc + B2R x))) by ring.
    eapply Rle_trans; [apply Rabs_triang|]. set (P := (1 + u53) ^ length l) in *. assert (P1 : 1 <= P) by (apply pow_R1_Rle; lra).
    set (T := sumAbs (map B2R l)) in *. replace (Rabs (B2R acc) + (Rabs (B2R x) + T)) with (A + T) by (unfold A; ring). clearbody P T A.
    assert ((P - 1) * (Rabs (B2R acc') + T) <= (P - 1) * ((1 + u53) * A + T)) by (apply Rmult_le_compat_l; lra).
    assert (0 <= u53 * P * T) by (apply Rmult_le_pos; [nra|lra]).
    apply Rle_trans with ((P - 1) * ((1 + u53) * A + T) + u53 * A); [lra|]. 
    assert ((1 + u53) * P * A + (1 + u53) * P * T - A - T - ((P - 1) * ((1 + u53) * A + T) + u53 * A) = u53 * P * T) by ring. lra.
Qed.

(** ** Minimum and maximum *)
Lemma leD_refl (a : fl) : is_nan a = false -> leD a a.
Proof. destruct a as [s|s| |s m e H]; cbn; try destruct s; try discriminate; auto; intros; lra. Qed.
Lemma leD_fin (a b : fl) : is_finite a = true -> is_finite b = true -> (leD a b <-> B2R a <= B2R b).
Proof. destruct a, b; intros; try discriminate; reflexivity. Qed.
Lemma flt_leD (a b : fl) : is_nan a = false -> is_nan b = false -> (flt a b = true -> leD a b) /\ (flt a b = false -> leD b a).
Proof.
  intros Na Nb. destruct (is_finite a) eqn:Fa, (is_finite b) eqn:Fb.
  - rewrite !leD_fin by auto. unfold flt. rewrite Bltb_correct by auto. case Rlt_bool_spec; intros; split; intros; try discriminate; lra.
  - destruct b as [t|[]| |t n f Hb]; try discriminate; destruct a as [s|s| |[] m e Ha]; try discriminate; cbn; split; intros; auto; discriminate.
  - destruct a as [t|[]| |t n f Hb]; try discriminate; destruct b as [s|s| |[] m e Ha]; try discriminate; cbn; split; intros; auto; discriminate.
  - destruct a as [t|[]| |t n f Hb]; try discriminate; destruct b as [s|[]| |s m e Ha]; try discriminate; cbn; split; intros; auto; discriminate.
Qed.
Lemma leD_trans (a b c : fl) : leD a b -> leD b c -> leD a c.
Proof.
  destruct a as [s|[]| |s m e Ha], b as [t|[]| |t n f Hb], c as [r|[]| |r k g Hc]; cbn [leD]; intros; auto; try contradiction; lra.
Qed.
Definition nonan (l : list fl) : Prop := Forall (fun x => is_nan x = false) l.
Definition extreme (op : realOp) (d x : fl) : Prop := match op with FMin => leD d x | _ => leD x d end.
Lemma extreme_trans op (a b c : fl) : extreme op a b -> extreme op b c -> extreme op a c.
Proof. destruct op; cbn; intros; eapply leD_trans; eassumption. Qed.
Lemma minmax_step (op : realOp) acc x d : op = FMin \/ op = FMax -> is_nan acc = false -> is_nan x = false ->
  realStep op acc x = RKnown d -> (d = acc \/ d = x) /\ extreme op d acc /\ extreme op d x.
Proof.
  intros O Na Nx H. destruct (flt_leD acc x Na Nx) as [A B]. destruct (flt_leD x acc Nx Na) as [C D].
  pose proof (leD_refl acc Na). pose proof (leD_refl x Nx).
  destruct O as [->| ->]; cbn [realStep] in H; inversion H; subst d; clear H; cbn [extreme]; [destruct (flt x acc)|destruct (flt acc x)]; auto.
Qed.
Lemma minmax_mach (op : realOp) acc x d : op = FMin \/ op = FMax -> is_nan acc = false -> is_nan x = false ->
  realMach op acc x = RKnown d -> (d = acc \/ d = x) /\ extreme op d acc /\ extreme op d x.
Proof.
  intros O Na Nx H. destruct (flt_leD acc x Na Nx) as [A B]. destruct (flt_leD x acc Nx Na) as [C D].
  pose proof (leD_refl acc Na). pose proof (leD_refl x Nx).
  destruct O as [->| ->]; cbn [realMach] in H; inversion H; subst d; clear H; cbn [extreme]; [destruct (flt acc x)|destruct (flt x acc)]; auto.
Qed.
Lemma minmax_loop (op : realOp) l : op = FMin \/ op = FMax -> nonan l -> forall acc, is_nan acc = false -> exists d,
  realLoop (realStep op) acc (map Some l) = RKnown d /\ In d (acc :: l) /\ forall x, In x (acc :: l) -> extreme op d x.
Proof.
  intros O. induction l as [|x l IH]; intros N acc Na; cbn [map realLoop].
  - exists acc. split; [reflexivity|]. split; [left; reflexivity|]. intros x [->|[]]. destruct O as [->| ->]; apply leD_refl, Na.
  - inversion N as [|? ? Nx Nl]; subst. destruct (realStep op acc x) as [c| | |] eqn:E; try (destruct O as [->| ->]; discriminate E).
    pose proof (minmax_step op acc x c O Na Nx E) as (I & E1 & E2). cbn [rbind].
    destruct (IH Nl c) as (d & Hd & Id & Ed); [destruct I; subst; auto|]. exists d. split; [exact Hd|]. split.
    + destruct Id as [<-|Id]; [destruct I as [->| ->]; cbn; auto|cbn; auto].
    + intros y [<-|[<-|Iy]]; [|..|apply Ed; cbn; auto]; (eapply extreme_trans; [apply Ed; left; reflexivity|assumption]).
Qed.
Lemma minmax_ok (op : realOp) l : op = FMin \/ op = FMax -> nonan l -> l <> [] -> exists d,
  realApply op (map Some l) = RKnown d /\ In d l /\ forall x, In x l -> extreme op d x.
Proof.
  intros O N NE. destruct l as [|a [|b [|c l]]]; [congruence| | |].
  - inversion N as [|? ? Na _]; subst. exists a. split; [destruct O as [->| ->]; reflexivity|]. split; [left; reflexivity|].
    intros x [->|[]]. destruct O as [->| ->]; apply leD_refl, Na.
  - inversion N as [|? ? Na N']; subst. inversion N' as [|? ? Nb _]; subst.
    assert (E : realApply op (map Some [a; b]) = realMach op a b) by (destruct O as [->| ->]; reflexivity). rewrite E.
    destruct (realMach op a b) as [d| | |] eqn:E'; try (destruct O as [->| ->]; discriminate E').
    destruct (minmax_mach op a b d O Na Nb E') as (I & E1 & E2). exists d. split; [reflexivity|]. split; [destruct I as [->| ->]; cbn; auto|].
    intros x [<-|[<-|[]]]; assumption.
  - inversion N as [|? ? Na N']; subst. destruct (minmax_loop op (b :: c :: l) O N' a Na) as (d & Hd & Id & Ed). exists d.
    split; [|split; assumption]. rewrite <- Hd. destruct O as [->| ->]; reflexivity.
Qed.

(** ** Known or unknown *)
Lemma loop_none f acc l : (forall a b, exists d, f a b = RKnown d) -> (In None l -> realLoop f acc l = RUnknown) /\ (~ In None l -> exists d, realLoop f acc l = RKnown d).
Proof.
  intros T. revert acc; induction l as [|[x|] l IH]; intros acc; cbn [realLoop In]; split; intros H; try tauto; eauto.
  - destruct (T acc x) as [d ->]. cbn [rbind]. apply IH. destruct H as [H|H]; [discriminate|exact H].
  - destruct (T acc x) as [d ->]. cbn [rbind]. apply IH. intros I. apply H. right. exact I.
Qed.
Definition noValue (op : realOp) (args : list (option fl)) : Prop :=
  In None args \/
  ((op = FDiv \/ op = FMod) /\ exists x y, args = [x; Some y] /\ is_finite y = true /\ B2R y = 0) \/
  (op = FSqrt /\ exists x, args = [Some x] /\ flt x fzero = true).
Lemma apply_total op args : realArgCountOk op (length args) = true ->
  (noValue op args -> realApply op args = RUnknown) /\ (~ noValue op args -> exists d, realApply op args = RKnown d).
Proof.
  intros C.
  assert (Z : forall a y, fis0 y = true -> op = FDiv \/ op = FMod -> noValue op [a; Some y]).
  { intros a y H O. right; left. split; [exact O|]. exists a, y. split; [reflexivity|]. apply fis0_true, H. }
  assert (Z' : forall a y, fis0 y = false -> (op = FDiv \/ op = FMod) -> noValue op [a; Some y] -> a = None).
  { intros a y H O [I|[[_ (x & y' & E & F)]|[Q _]]]; [destruct I as [I|[I|[]]]; [exact I|discriminate]| |destruct O; congruence].
    inversion E; subst y'. apply fis0_true in F. congruence. }
  assert (G : (op <> FDiv /\ op <> FMod /\ op <> FSqrt) -> (noValue op args <-> In None args)).
  { intros (A & B & D). split; [|left; assumption]. intros [I|[[[O|O] _]|[O _]]]; [exact I|congruence..]. }
  destruct op.
  1, 2, 3, 6, 7: rewrite G by (repeat split; discriminate).
  - destruct args as [|a [|b [|c l]]]; [discriminate C| | |].
    + destruct a; cbn; split; intros H; try (destruct H as [H|[]]; discriminate); eauto. exfalso; auto.
    + destruct a, b; cbn; split; intros H; try (destruct H as [H|[H|[]]]; discriminate); eauto; exfalso; auto.
    + apply loop_none. intros; eexists; reflexivity.
  - destruct args as [|a [|b [|c l]]]; [discriminate C| | |].
    + destruct a; cbn; split; intros H; try (destruct H as [H|[]]; discriminate); eauto. exfalso; auto.
    + destruct a, b; cbn; split; intros H; try (destruct H as [H|[H|[]]]; discriminate); eauto; exfalso; auto.
    + destruct a as [a|]; [|split; [reflexivity|intros H; exfalso; apply H; left; reflexivity]].
      cbn [realApply]. destruct (loop_none (realStep FSub) a (b :: c :: l)) as [P Q]; [intros; eexists; reflexivity|].
      split; intros H; [apply P; destruct H as [H|H]; [discriminate|exact H]|apply Q; intros I; apply H; right; exact I].
  - destruct args as [|a [|b [|c l]]]; [discriminate C| | |].
    + destruct a; cbn; split; intros H; try (destruct H as [H|[]]; discriminate); eauto. exfalso; auto.
    + destruct a, b; cbn; split; intros H; try (destruct H as [H|[H|[]]]; discriminate); eauto; exfalso; auto.
    + destruct a as [a|]; [|split; [reflexivity|intros H; exfalso; apply H; left; reflexivity]].
      cbn [realApply]. destruct (loop_none (realStep FMul) a (b :: c :: l)) as [P Q]; [intros; eexists; reflexivity|].
      split; intros H; [apply P; destruct H as [H|H]; [discriminate|exact H]|apply Q; intros I; apply H; right; exact I].
  - destruct args as [|a [|b [|c l]]]; [discriminate C| | |].
    + destruct a; cbn; split; intros H; try (destruct H as [H|[]]; discriminate); eauto. exfalso; auto.
    + destruct a, b; cbn; split; intros H; try (destruct H as [H|[H|[]]]; discriminate); eauto; exfalso; auto.
    + destruct a as [a|]; [|split; [reflexivity|intros H; exfalso; apply H; left; reflexivity]].
      cbn [realApply]. destruct (loop_none (realStep FMin) a (b :: c :: l)) as [P Q]; [intros; eexists; reflexivity|].
      split; intros H; [apply P; destruct H as [H|H]; [discriminate|exact H]|apply Q; intros I; apply H; right; exact I].
  - destruct args as [|a [|b [|c l]]]; [discriminate C| | |].
    + destruct a; cbn; split; intros H; try (destruct H as [H|[]]; discriminate); eauto. exfalso; auto.
    + destruct a, b; cbn; split; intros H; try (destruct H as [H|[H|[]]]; discriminate); eauto; exfalso; auto.
    + destruct a as [a|]; [|split; [reflexivity|intros H; exfalso; apply H; left; reflexivity]].
      cbn [realApply]. destruct (loop_none (realStep FMax) a (b :: c :: l)) as [P Q]; [intros; eexists; reflexivity|].
      split; intros H; [apply P; destruct H as [H|H]; [discriminate|exact H]|apply Q; intros I; apply H; right; exact I].
  - destruct args as [|a [|b [|c l]]]; try discriminate C. cbn [realApply]. destruct a as [a|], b as [b|].
    + cbn [realMach]. destruct (fis0 b) eqn:E; split; intros H; eauto; [exfalso; apply H; auto|]. specialize (Z' (Some a) b E (or_introl eq_refl) H). discriminate.
    + split; intros H; [reflexivity|]. exfalso; apply H; left; cbn; auto.
    + split; intros H; [reflexivity|]. exfalso; apply H; left; cbn; auto.
    + split; intros H; [reflexivity|]. exfalso; apply H; left; cbn; auto.
  - destruct args as [|a [|b [|c l]]]; try discriminate C. cbn [realApply]. destruct a as [a|], b as [b|].
    + cbn [realMach]. destruct (fis0 b) eqn:E; split; intros H; eauto; [exfalso; apply H; auto|]. specialize (Z' (Some a) b E (or_intror eq_refl) H). discriminate.
    + split; intros H; [reflexivity|]. exfalso; apply H; left; cbn; auto.
    + split; intros H; [reflexivity|]. exfalso; apply H; left; cbn; auto.
    + split; intros H; [reflexivity|]. exfalso; apply H; left; cbn; auto.
  - rewrite G by (repeat split; discriminate). destruct args as [|a [|b l]]; try discriminate C. destruct a as [a|]; cbn [realApply In]; split; intros H; eauto.
    + destruct H as [H|[]]; discriminate.
    + exfalso; auto.
  - destruct args as [|a [|b l]]; try discriminate C. destruct a as [a|]; cbn [realApply].
    + destruct (flt a fzero) eqn:E; split; intros H; eauto.
      * exfalso; apply H. right; right. eauto.
      * destruct H as [[H|[]]|[[[O|O] _]|[_ (x & X & Y)]]]; try discriminate. inversion X; subst; congruence.
    + split; intros H; [reflexivity|]. exfalso; apply H; left; cbn; auto.
Qed.
Lemma noValue_dec op args : noValue op args \/ ~ noValue op args.
Proof.
  destruct (existsb (fun a => match a with None => true | _ => false end) args) eqn:E.
  - left. left. apply existsb_exists in E as ([x|] & I & H); [discriminate|exact I].
  - assert (NI : ~ In None args). { intros I. assert (existsb (fun a : option fl => match a with None => true | _ => false end) args = true) by (apply existsb_exists; exists None; auto). congruence. }
    assert (DD : (exists x y, args = [x; Some y] /\ is_finite y = true /\ B2R y = 0) \/ ~ (exists x y, args = [x; Some y] /\ is_finite y = true /\ B2R y = 0)).
    { destruct args as [|x [|[y|] [|z l]]]; try (right; intros (? & ? & H & _); discriminate H).
      destruct (fis0 y) eqn:C; [left; exists x, y; split; [reflexivity|apply fis0_true, C]|right; intros (x' & y' & H & F)]. inversion H; subst. apply fis0_true in F. congruence. }
    assert (SD : (exists x, args = [Some x] /\ flt x fzero = true) \/ ~ (exists x, args = [Some x] /\ flt x fzero = true)).
    { destruct args as [|[x|] [|z l]]; try (right; intros (? & H & _); discriminate H).
      destruct (flt x fzero) eqn:C; [left; eauto|right; intros (x' & H & F)]. inversion H; subst. congruence. }
    assert (O : (op = FDiv \/ op = FMod) \/ ~ (op = FDiv \/ op = FMod)) by (destruct op; try (right; intros [H|H]; discriminate H); left; auto).
    assert (O' : op = FSqrt \/ op <> FSqrt) by (destruct op; try (right; discriminate); left; auto).
    unfold noValue. tauto.
Qed.
Lemma fadd_comm (x y : fl) : fadd x y = fadd y x.
Proof.
  destruct (is_finite x) eqn:Fx, (is_finite y) eqn:Fy.
  - pose proof (Bplus_correct 53 1024 _ _ mode_NE x y Fx Fy) as A. pose proof (Bplus_correct 53 1024 _ _ mode_NE y x Fy Fx) as B.
    rewrite (Rplus_comm (B2R y)) in B. revert A B. case Rlt_bool_spec; intros L A B.
    + destruct A as (A1 & A2 & A3), B as (B1 & B2 & B3). apply B2R_Bsign_inj; try assumption; [unfold fadd; rewrite A1, B1; reflexivity|]. unfold fadd. rewrite A3, B3. rewrite Bool.andb_comm. reflexivity.
    + destruct A as (A1 & A2), B as (B1 & B2). apply B2SF_inj. unfold fadd. rewrite A1, B1, A2. reflexivity.
  - destruct y as [s|[]| |s m e H]; try discriminate; destruct x as [t|[]| |t n f K]; try discriminate; reflexivity.
  - destruct x as [s|[]| |s m e H]; try discriminate; destruct y as [t|[]| |t n f K]; try discriminate; reflexivity.
  - destruct x as [s|[]| |s m e H]; try discriminate; destruct y as [t|[]| |t n f K]; try discriminate; reflexivity.
Qed.
Lemma fmul_comm (x y : fl) : fmul x y = fmul y x.
Proof.
  pose proof (Bmult_correct 53 1024 _ _ mode_NE x y) as A. pose proof (Bmult_correct 53 1024 _ _ mode_NE y x) as B.
  rewrite (Rmult_comm (B2R y)), (Bool.xorb_comm (Bsign y)), (Bool.andb_comm (is_finite y)) in B. fold (fmul x y) in A. fold (fmul y x) in B.
  destruct (is_finite x) eqn:Fx, (is_finite y) eqn:Fy.
  - revert A B. case Rlt_bool_spec; intros L A B.
    + destruct A as (A1 & A2 & A3), B as (B1 & B2 & B3). 
      assert (NX : is_nan (fmul x y) = false) by (destruct (fmul x y); auto; discriminate). assert (NY : is_nan (fmul y x) = false) by (destruct (fmul y x); auto; discriminate).
      apply B2R_Bsign_inj; try assumption; [congruence|]. rewrite A3, B3 by auto. reflexivity.
    + apply B2SF_inj. rewrite A, B. reflexivity.
  - clear A B. destruct y as [s|[]| |s m e H]; try discriminate; destruct x as [[]|[]| |[] n f K]; try discriminate; reflexivity.
  - clear A B. destruct x as [s|[]| |s m e H]; try discriminate; destruct y as [[]|[]| |[] n f K]; try discriminate; reflexivity.
  - clear A B. destruct x as [s|[]| |s m e H]; try discriminate; destruct y as [[]|[]| |[] n f K]; try discriminate; reflexivity.
Qed.
