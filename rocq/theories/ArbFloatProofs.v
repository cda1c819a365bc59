(** Exact amounts: the doubles compute what the integers compute. *)
From Coq Require Import List ZArith Bool Reals Lia Lra FunctionalExtensionality.
From Flocq Require Import Core BinarySingleNaN.
From Verif Require Import FloatModel LitModel ArbiterModel ArbiterSpec ArbiterProofs ArbiterProps ArbFloatModel ArbFloatSpec.
Import ListNotations.
Local Open Scope nat_scope.

(** ** Structure: no arithmetic *)
Lemma flatC_z e h rel fuel : forall n, flatC fuel (zhier e h) rel n = option_map (map (zq e)) (fflatC fuel h rel n).
Proof.
  induction fuel as [|k IH]; intros n; [reflexivity|]. cbn [flatC fflatC]. unfold zhier at 1. destruct (h n) as [nd|]; [|reflexivity].
  cbn [rn_children]. induction (fn_children nd) as [|[w m] cs IHc]; [reflexivity|]. cbn [map fold_right fst snd]. rewrite IH, IHc.
  destruct (fflatC k h rel m) as [l|]; [|reflexivity]. cbn [option_map].
  match goal with |- match option_map _ ?x with _ => _ end = _ => destruct x as [a|] end; [|reflexivity]. cbn [option_map]. rewrite map_cons, map_app. reflexivity.
Qed.
Lemma sfind_z e n s : sfind n (map (zq e) s) = fsfind n s.
Proof. induction s as [|y s IH]; [reflexivity|]. cbn [map sfind fsfind]. rewrite IH. reflexivity. Qed.
Lemma sinsert_z e x s : sinsert (zq e x) (map (zq e) s) = map (zq e) (fsinsert x s).
Proof.
  induction s as [|y s IH]; [reflexivity|]. cbn [map sinsert fsinsert]. change (q_name (zq e x)) with (fq_name x). change (q_name (zq e y)) with (fq_name y).
  destruct (Nat.ltb _ _); [reflexivity|]. destruct (Nat.eqb _ _); [reflexivity|]. cbn [map]. now rewrite IH.
Qed.
Lemma addNeeds_z e n flat : forall s, addNeeds n (map (zq e) flat) (map (zq e) s) = map (zq e) (faddNeeds n flat s).
Proof.
  unfold addNeeds, faddNeeds. induction flat as [|f flat IH]; intros s; [reflexivity|]. cbn [map fold_left]. rewrite sfind_z, sinsert_z.
  change (q_name (zq e f)) with (fq_name f). destruct (negb _); [apply IH|]. destruct (Nat.eqb _ _); apply IH.
Qed.
Lemma allNeeds_z e fuel h vs : forall s, allNeeds fuel (zhier e h) (map (zv e) vs) (map (zq e) s) = option_map (map (zq e)) (fallNeeds fuel h vs s).
Proof.
  induction vs as [|v vs IH]; intros s; [reflexivity|]. cbn [map allNeeds fallNeeds]. unfold allChild, fallChild. rewrite flatC_z.
  change (v_name (zv e v)) with (fv_name v). change (v_release (zv e v)) with (fv_release v).
  destruct (fflatC _ _ _ _) as [l|]; [|reflexivity]. cbn [option_map].
  change ({| q_name := fv_name v; q_w := v_upper (zv e v); q_rel := fv_release v |} :: map (zq e) l) with (map (zq e) ({| fq_name := fv_name v; fq_w := fv_upper v; fq_rel := fv_release v |} :: l)).
  rewrite addNeeds_z. apply IH.
Qed.
Definition zent e (p : fentry) : pentry := {| p_cmd := fp_cmd p; p_prio := fp_prio p; p_needs := map (zq e) (fp_needs p) |}.
Lemma partition_z e fuel h cs : partition fuel (zhier e h) (map (zc e) cs) = option_map (fun p => (fst p, map (zent e) (snd p))) (fpartition fuel h cs).
Proof.
  induction cs as [|c cs IH]; [reflexivity|]. cbn [map partition fpartition]. rewrite IH. change (k_res (zc e c)) with (map (zv e) (fk_res c)).
  destruct (fk_res c) as [|v vs]; cbn [map].
  - destruct (fpartition fuel h cs) as [[a s]|]; reflexivity.
  - change (zv e v :: map (zv e) vs) with (map (zv e) (v :: vs)). pose proof (allNeeds_z e fuel h (v :: vs) []) as A. cbn [map] in A |- *. rewrite A.
    destruct (fallNeeds fuel h (v :: vs) []) as [n|]; [|reflexivity]. cbn [option_map]. destruct (fpartition fuel h cs) as [[a s]|]; reflexivity.
Qed.
Lemma psort_z e l : psort (map (zent e) l) = map (zent e) (fpsort l).
Proof.
  induction l as [|x l IH]; [reflexivity|]. cbn [map psort fpsort]. rewrite IH. clear IH. induction (fpsort l) as [|y r IH]; [reflexivity|].
  cbn [map pinsert fpinsert]. change (p_prio (zent e y)) with (fp_prio y). change (p_prio (zent e x)) with (fp_prio x). destruct (Z.ltb _ _); [cbn [map]; now rewrite IH|reflexivity].
Qed.
Lemma toZ_zero e s : toZ e (B754_zero s) = 0%Z.
Proof. unfold toZ. cbn [B2R]. rewrite Rmult_0_l. exact (Ztrunc_IZR 0). Qed.
Lemma val_z e al n : val (zal e al n) = toZ e (fget (al n)).
Proof. unfold zal, val. destruct (al n); cbn; [reflexivity|]. symmetry. apply toZ_zero. Qed.
Lemma upd_z e al n o : upd (zal e al) n (option_map (toZ e) o) = zal e (fupd al n o).
Proof. apply functional_extensionality. intros m. unfold upd, zal, fupd. destruct (Nat.eqb m n); reflexivity. Qed.
Definition zest e (est : nat -> fl * fl) : nat -> Z * Z := fun n => (toZ e (fst (est n)), toZ e (snd (est n))).
Lemma updest_z e est n a b : upd (zest e est) n (toZ e a, toZ e b) = zest e (fupd est n (a, b)).
Proof. apply functional_extensionality. intros m. unfold upd, zest, fupd. destruct (Nat.eqb m n); reflexivity. Qed.
Definition zpair e (p : (nat -> option fl) * (nat -> fl * fl)) := (zal e (fst p), zest e (snd p)).
Lemma prepare1_z e p q : prepare1 (zpair e p) (zq e q) = zpair e (fprepare1 p q).
Proof.
  unfold prepare1, fprepare1, zpair. cbn [fst snd]. change (q_name (zq e q)) with (fq_name q). rewrite val_z, updest_z. f_equal.
  unfold ensure, fensure. unfold zal at 1. destruct (fst p (fq_name q)) eqn:E; cbn [option_map]; [reflexivity|]. rewrite <- (toZ_zero e false). exact (upd_z e (fst p) (fq_name q) (Some fzero)).
Qed.
Lemma prepare_z e es al : prepare (map (zent e) es) (zal e al) = zpair e (fprepare es al).
Proof.
  unfold prepare, fprepare. assert (X : (zal e al, fun _ : nat => (0%Z, 0%Z)) = zpair e (al, fun _ => (fzero, fzero))).
  { unfold zpair. cbn [fst snd]. f_equal. apply functional_extensionality. intros m. unfold zest. cbn [fst snd]. unfold fzero. now rewrite toZ_zero. }
  rewrite X. generalize (al, fun _ : nat => (fzero, fzero)) as p. clear X al. induction es as [|x es IH]; intros p; [reflexivity|]. cbn [map fold_left]. rewrite <- IH. f_equal.
  change (p_needs (zent e x)) with (map (zq e) (fp_needs x)). clear. revert p. induction (fp_needs x) as [|q qs IH]; intros p; [reflexivity|]. cbn [map fold_left]. now rewrite prepare1_z, IH.
Qed.

(** ** Arithmetic *)
(** [x] is [z] units. *)
Definition isz (e : Z) (x : fl) (z : Z) : Prop := is_finite x = true /\ B2R x = (IZR z * bpow radix2 e)%R.
Lemma isz_toZ e x z : isz e x z -> toZ e x = z.
Proof. intros [_ E]. unfold toZ. rewrite E, Rmult_assoc, <- bpow_plus. replace (e + - e)%Z with 0%Z by lia. cbn [bpow]. rewrite Rmult_1_r. apply Ztrunc_IZR. Qed.
Lemma fair_isz e x : fair e x -> isz e x (toZ e x) /\ (0 <= toZ e x < 2 ^ 52)%Z.
Proof. intros (F & z & Hz & E). assert (I : isz e x z) by (split; auto). rewrite (isz_toZ _ _ _ I). auto. Qed.
Lemma isz_fair e x z : isz e x z -> (0 <= z < 2 ^ 52)%Z -> fair e x.
Proof. intros [F E] H. split; auto. exists z. auto. Qed.
Lemma format_z e z : (-1074 <= e)%Z -> (Z.abs z <= 2 ^ 53)%Z -> generic_format radix2 (FLT_exp (-1074) 53) (IZR z * bpow radix2 e).
Proof.
  intros He Hz. destruct (Z.eq_dec (Z.abs z) (2 ^ 53)) as [E|E].
  - apply generic_format_abs_inv. rewrite Rabs_mult, <- abs_IZR, E. rewrite (Rabs_pos_eq (bpow _ _)) by apply bpow_ge_0. change (IZR (2 ^ 53)) with (bpow radix2 53). rewrite <- bpow_plus.
    apply generic_format_bpow. unfold FLT_exp. lia.
  - apply generic_format_FLT. exists (Float radix2 z e); [reflexivity| |exact He]. cbn [Fnum]. change (radix2 ^ 53)%Z with (2 ^ 53)%Z. lia.
Qed.
Lemma small_lt e z : (-1074 <= e <= 0)%Z -> (Z.abs z <= 2 ^ 53)%Z -> (Rabs (IZR z * bpow radix2 e) < bpow radix2 1024)%R.
Proof.
  intros He Hz. rewrite Rabs_mult, <- abs_IZR, (Rabs_pos_eq (bpow _ _)) by apply bpow_ge_0. apply Rle_lt_trans with (bpow radix2 53 * bpow radix2 e)%R.
  - apply Rmult_le_compat_r; [apply bpow_ge_0|]. change (bpow radix2 53) with (IZR (2 ^ 53)). now apply IZR_le.
  - rewrite <- bpow_plus. apply bpow_lt. lia.
Qed.
Lemma fadd_z e x y a b : (-1074 <= e <= 0)%Z -> isz e x a -> isz e y b -> (Z.abs (a + b) <= 2 ^ 53)%Z -> isz e (fadd x y) (a + b).
Proof.
  intros He [Fx Ex] [Fy Ey] H. assert (S : (B2R x + B2R y = IZR (a + b) * bpow radix2 e)%R) by (rewrite Ex, Ey, plus_IZR; ring).
  pose proof (Bplus_correct 53 1024 prec53 emax1024 mode_NE x y Fx Fy) as C. cbv zeta in C.
  change (round radix2 (SpecFloat.fexp 53 1024) (round_mode mode_NE) (B2R x + B2R y)) with (round radix2 (FLT_exp (-1074) 53) ZnearestE (B2R x + B2R y)) in C.
  rewrite S, round_generic in C by (auto with typeclass_instances; apply format_z; lia). rewrite Rlt_bool_true in C by now apply small_lt. destruct C as (E & F & _). split; auto.
Qed.
Lemma fsub_z e x y a b : (-1074 <= e <= 0)%Z -> isz e x a -> isz e y b -> (Z.abs (a - b) <= 2 ^ 53)%Z -> isz e (fsub x y) (a - b).
Proof.
  intros He [Fx Ex] [Fy Ey] H. assert (S : (B2R x - B2R y = IZR (a - b) * bpow radix2 e)%R) by (rewrite Ex, Ey, minus_IZR; ring).
  pose proof (Bminus_correct 53 1024 prec53 emax1024 mode_NE x y Fx Fy) as C. cbv zeta in C.
  change (round radix2 (SpecFloat.fexp 53 1024) (round_mode mode_NE) (B2R x - B2R y)) with (round radix2 (FLT_exp (-1074) 53) ZnearestE (B2R x - B2R y)) in C.
  rewrite S, round_generic in C by (auto with typeclass_instances; apply format_z; lia). rewrite Rlt_bool_true in C by now apply small_lt. destruct C as (E & F & _). split; auto.
Qed.
Lemma flt_z e x y a b : isz e x a -> isz e y b -> flt x y = Z.ltb a b.
Proof.
  intros [Fx Ex] [Fy Ey]. unfold flt. rewrite Bltb_correct by auto. rewrite Ex, Ey. pose proof (bpow_gt_0 radix2 e) as P. destruct (Z.ltb_spec a b) as [L|L].
  - apply Rlt_bool_true. apply Rmult_lt_compat_r; auto. now apply IZR_lt.
  - apply Rlt_bool_false. apply Rmult_le_compat_r; [lra|]. now apply IZR_le.
Qed.
Lemma zero_isz e : isz e fzero 0.
Proof. split; [reflexivity|]. cbn [fzero B2R]. now rewrite Rmult_0_l. Qed.
Lemma one_isz e : (-51 <= e <= 0)%Z -> isz e fone (2 ^ (- e)).
Proof.
  intros He. split; [reflexivity|]. assert (B : B2R fone = 1%R).
  { unfold fone. pose proof (binary_normalize_correct 53 1024 eq_refl eq_refl mode_NE 1 0 false) as C. cbv zeta in C. change (F2R _) with (1 * 1)%R in C. rewrite Rmult_1_l in C.
    change (round radix2 (SpecFloat.fexp 53 1024) (round_mode mode_NE) 1) with (round radix2 (FLT_exp (-1074) 53) ZnearestE 1) in C.
    assert (G : generic_format radix2 (FLT_exp (-1074) 53) 1) by (change 1%R with (bpow radix2 0); apply generic_format_bpow; unfold FLT_exp; lia).
    rewrite round_generic in C by auto with typeclass_instances. rewrite Rlt_bool_true in C; [apply C|]. rewrite Rabs_R1. change 1%R with (bpow radix2 0). apply bpow_lt. lia. }
  rewrite B. rewrite <- (bpow_plus radix2 0 0) at 1 || idtac. change 2%Z with (radix_val radix2). rewrite IZR_Zpower by lia. rewrite <- bpow_plus. replace (- e + e)%Z with 0%Z by lia. reflexivity.
Qed.
Lemma fis0_z e x a : isz e x a -> fis0 x = Z.eqb a 0.
Proof.
  intros [F E]. pose proof (bpow_gt_0 radix2 e) as P. destruct x as [s|s| |s m ex p]; try discriminate F; cbn [fis0].
  - cbn [B2R] in E. symmetry. apply Z.eqb_eq. apply eq_IZR. symmetry in E. apply Rmult_integral in E as [E|E]; [exact E|lra].
  - symmetry. apply Z.eqb_neq. intros ->. rewrite Rmult_0_l in E. cbn [B2R] in E. apply eq_0_F2R in E. destruct s; discriminate E.
Qed.

(** ** Decisions *)
Section Unit.
Variables (e : Z) (h : fhier).
Hypothesis (E51 : (-51 <= e <= 0)%Z) (HH : fairHier e h).
Lemma E74 : (-1074 <= e <= 0)%Z. Proof. lia. Qed.
Definition fairQ (qs : list fcreq) : Prop := forall q, In q qs -> fair e (fq_w q).
Definition fairEst (est : nat -> fl * fl) : Prop := forall n, fair e (fst (est n)) /\ fair e (snd (est n)).
Lemma max_z n : isz e (fmaxOf h n) (maxOf (zhier e h) n) /\ (0 <= maxOf (zhier e h) n < 2 ^ 52)%Z.
Proof.
  unfold fmaxOf, maxOf, zhier. destruct (h n) as [nd|] eqn:E; cbn [rn_max].
  - apply fair_isz. now apply (HH n).
  - split; [now apply one_isz|]. split; [apply Z.pow_nonneg; lia|]. apply Z.pow_lt_mono_r; lia.
Qed.
Lemma fair_zero : fair e fzero.
Proof. eapply isz_fair; [apply zero_isz|lia]. Qed.
Lemma tryNeeds_z qs : fairQ qs -> forall est, fairEst est ->
  tryNeeds (zhier e h) (map (zq e) qs) (zest e est) = option_map (zest e) (ftryNeeds h qs est) /\
  forall est', ftryNeeds h qs est = Some est' -> fairEst est'.
Proof.
  intros FQ. induction qs as [|q qs IH]; intros est FE; [split; [reflexivity|intros est' [= <-]; exact FE]|].
  assert (FQ' : fairQ qs) by (intros x Hx; apply FQ; now right). destruct (fair_isz _ _ (FQ q (or_introl eq_refl))) as [IW BW].
  destruct (FE (fq_name q)) as [F1 F2]. destruct (fair_isz _ _ F1) as [I1 B1]. destruct (fair_isz _ _ F2) as [I2 B2]. destruct (max_z (fq_name q)) as [IM BM].
  cbn [map tryNeeds ftryNeeds]. change (q_name (zq e q)) with (fq_name q). change (q_w (zq e q)) with (toZ e (fq_w q)).
  change (zest e est (fq_name q)) with (toZ e (fst (est (fq_name q))), toZ e (snd (est (fq_name q)))).
  destruct (est (fq_name q)) as [ren con] eqn:EE. cbn [fst snd] in *.
  rewrite (flt_z e _ _ _ _ IW (zero_isz e)). destruct (Z.ltb_spec (toZ e (fq_w q)) 0) as [C|_]; [lia|].
  pose proof (fadd_z e _ _ _ _ E74 I2 IW ltac:(lia)) as IA.
  rewrite (flt_z e _ _ _ _ I1 (zero_isz e)), (flt_z e _ _ _ _ IM I1), (flt_z e _ _ _ _ IA (zero_isz e)), (flt_z e _ _ _ _ IM IA).
  destruct ((toZ e ren <? 0)%Z || (maxOf (zhier e h) (fq_name q) <? toZ e ren)%Z || (toZ e con + toZ e (fq_w q) <? 0)%Z || (maxOf (zhier e h) (fq_name q) <? toZ e con + toZ e (fq_w q))%Z) eqn:T;
    [split; [reflexivity|discriminate]|].
  apply orb_false_iff in T as [T T4]. apply orb_false_iff in T as [T T3]. apply Z.ltb_ge in T3, T4.
  rewrite <- (isz_toZ _ _ _ IA), updest_z. apply IH; [exact FQ'|]. intros n. unfold fupd. destruct (Nat.eqb n (fq_name q)); [|apply FE]. cbn [fst snd].
  split; [exact F1|]. eapply isz_fair; [exact IA|lia].
Qed.
Lemma charge_z qs : NoDup (map fq_name qs) -> fairQ qs -> forall al, (forall q, In q qs -> fair e (fget (al (fq_name q)))) ->
  fold_left charge (map (zq e) qs) (zal e al) = zal e (fold_left fcharge qs al).
Proof.
  induction qs as [|q qs IH]; intros ND FQ al FA; [reflexivity|]. cbn [map fold_left]. cbn [map] in ND. inversion ND as [|? ? NI ND']; subst.
  destruct (fair_isz _ _ (FQ q (or_introl eq_refl))) as [IW BW]. destruct (fair_isz _ _ (FA q (or_introl eq_refl))) as [IA BA].
  assert (C : charge (zal e al) (zq e q) = zal e (fcharge al q)).
  { unfold charge, fcharge. change (q_name (zq e q)) with (fq_name q). change (q_w (zq e q)) with (toZ e (fq_w q)). rewrite val_z.
    pose proof (fadd_z e _ _ _ _ E74 IA IW ltac:(lia)) as IS. rewrite <- (isz_toZ _ _ _ IS). exact (upd_z e al (fq_name q) (Some _)). }
  rewrite C. apply IH; [exact ND'|intros x Hx; apply FQ; now right|]. intros x Hx. unfold fcharge, fupd. destruct (Nat.eqb_spec (fq_name x) (fq_name q)) as [EN|_]; [|apply FA; now right].
  exfalso. apply NI. rewrite <- EN. now apply in_map.
Qed.
Lemma unCharge_z qs : NoDup (map fq_name qs) -> fairQ qs -> forall al, (forall q, In q qs -> fair e (fget (al (fq_name q)))) ->
  fold_left unCharge (map (zq e) qs) (zal e al) = zal e (fold_left funCharge qs al).
Proof.
  induction qs as [|q qs IH]; intros ND FQ al FA; [reflexivity|]. cbn [map fold_left]. cbn [map] in ND. inversion ND as [|? ? NI ND']; subst.
  destruct (fair_isz _ _ (FQ q (or_introl eq_refl))) as [IW BW]. destruct (fair_isz _ _ (FA q (or_introl eq_refl))) as [IA BA].
  assert (C : unCharge (zal e al) (zq e q) = zal e (funCharge al q)).
  { unfold unCharge, funCharge. change (q_rel (zq e q)) with (fq_rel q). destruct (fq_rel q); [|reflexivity]. change (q_name (zq e q)) with (fq_name q). change (q_w (zq e q)) with (toZ e (fq_w q)). rewrite val_z.
    pose proof (fsub_z e _ _ _ _ E74 IA IW ltac:(lia)) as IS. cbv zeta. rewrite (fis0_z _ _ _ IS). rewrite <- upd_z. f_equal.
    destruct (Z.eqb _ 0); [reflexivity|]. cbn [option_map]. now rewrite (isz_toZ _ _ _ IS). }
  rewrite C. apply IH; [exact ND'|intros x Hx; apply FQ; now right|]. intros x Hx. unfold funCharge, fupd. destruct (fq_rel q); [|apply FA; now right]. cbv zeta.
  destruct (Nat.eqb_spec (fq_name x) (fq_name q)) as [EN|_]; [|apply FA; now right]. exfalso. apply NI. rewrite <- EN. now apply in_map.
Qed.
End Unit.

(** The running estimate is the recorded allocation: no rounding is involved, for any amounts that are not negative. *)
Definition agrees (es : list fentry) (est : nat -> fl * fl) (al : nat -> option fl) : Prop :=
  forall p q, In p es -> In q (fp_needs p) -> snd (est (fq_name q)) = fget (al (fq_name q)).
Lemma try_charge h qs : NoDup (map fq_name qs) -> (forall q, In q qs -> flt (fq_w q) fzero = false) -> forall est est' al,
  (forall q, In q qs -> snd (est (fq_name q)) = fget (al (fq_name q))) -> ftryNeeds h qs est = Some est' ->
  forall n, (snd (est n) = fget (al n) -> snd (est' n) = fget (fold_left fcharge qs al n)) /\ fst (est' n) = fst (est n) /\
    (~ In n (map fq_name qs) -> fold_left fcharge qs al n = al n) /\
    (forall q, In q qs -> fq_name q = n -> flt (fst (est n)) fzero = false /\ flt (fmaxOf h n) (snd (est' n)) = false /\ fold_left fcharge qs al n = Some (snd (est' n))).
Proof.
  induction qs as [|q qs IH]; intros ND NN est est' al AG E n.
  - cbn [ftryNeeds] in E. injection E as <-. cbn [fold_left]. repeat split; auto; try (intros q []; fail). destruct H. destruct H. destruct H.
  - cbn [map] in ND. inversion ND as [|? ? NI ND']; subst. cbn [ftryNeeds fold_left] in E |- *. destruct (est (fq_name q)) as [ren con] eqn:EE.
    rewrite (NN q (or_introl eq_refl)) in E. destruct (flt ren fzero || _ || _ || _) eqn:T; [discriminate E|].
    apply orb_false_iff in T as [T T4]. apply orb_false_iff in T as [T T3]. apply orb_false_iff in T as [T1 T2].
    assert (SQ : con = fget (al (fq_name q))) by (pose proof (AG q (or_introl eq_refl)) as A; rewrite EE in A; exact A).
    assert (AG' : forall x, In x qs -> snd (fupd est (fq_name q) (ren, fadd con (fq_w q)) (fq_name x)) = fget (fcharge al q (fq_name x))).
    { intros x Hx. unfold fcharge, fupd. destruct (Nat.eqb_spec (fq_name x) (fq_name q)) as [EN|_]; [|apply AG; now right]. cbn [snd fget]. now rewrite SQ. }
    destruct (IH ND' (fun x Hx => NN x (or_intror Hx)) _ _ _ AG' E n) as (A & B & C & D). clear IH. destruct (Nat.eqb_spec n (fq_name q)) as [EN|NE].
    + subst n. specialize (C NI). assert (V : fold_left fcharge qs (fcharge al q) (fq_name q) = Some (fadd con (fq_w q))).
      { rewrite C. unfold fcharge, fupd. rewrite Nat.eqb_refl. now rewrite SQ. }
      assert (S' : snd (est' (fq_name q)) = fadd con (fq_w q)).
      { rewrite A, V; [reflexivity|]. unfold fcharge, fupd. rewrite Nat.eqb_refl. cbn [snd fget]. now rewrite SQ. }
      unfold fupd in B. rewrite Nat.eqb_refl in B. cbn [fst] in B. rewrite EE. cbn [fst snd]. split; [intros _; rewrite V; exact S'|]. split; [exact B|]. split; [intros X; elim X; now left|].
      intros x Hx _. rewrite S'. auto.
    + assert (EQ : fupd est (fq_name q) (ren, fadd con (fq_w q)) n = est n) by (unfold fupd; destruct (Nat.eqb_spec n (fq_name q)); [contradiction|reflexivity]).
      assert (EA : fcharge al q n = al n) by (unfold fcharge, fupd; destruct (Nat.eqb_spec n (fq_name q)); [contradiction|reflexivity]).
      rewrite EQ in A, B, D. rewrite EA in A, C. split; [exact A|]. split; [exact B|]. split; [intros X; apply C; intros Y; apply X; now right|].
      intros x [<-|Hx] Hn; [congruence|]. now apply (D x).
Qed.

(** ** The order of names *)
Fixpoint FSorted (s : list fcreq) : Prop := match s with [] => True | x :: r => (forall y, In y r -> fq_name x < fq_name y) /\ FSorted r end.
Lemma FSorted_NoDup s : FSorted s -> NoDup (map fq_name s).
Proof.
  induction s as [|x s IH]; intros H; [constructor|]. destruct H as [H1 H2]. constructor; [|now apply IH]. intros I. apply in_map_iff in I as (y & E & I). apply H1 in I. lia.
Qed.
Lemma fsinsert_in x s y : In y (fsinsert x s) -> y = x \/ In y s.
Proof.
  induction s as [|z s IH]; cbn [fsinsert]; [intros [<-|[]]; auto|]. destruct (Nat.ltb _ _); [intros [<-|I]; auto|]. destruct (Nat.eqb _ _); [auto|].
  intros [<-|I]; [right; now left|]. destruct (IH I); [auto|right; now right].
Qed.
Lemma fsinsert_sorted x s : FSorted s -> FSorted (fsinsert x s).
Proof.
  induction s as [|z s IH]; cbn [fsinsert]; [intros _; split; [intros y []|exact I]|]. intros [H1 H2]. destruct (Nat.ltb_spec (fq_name x) (fq_name z)).
  - split; [|split; auto]. intros y [<-|I]; [auto|]. specialize (H1 y I). lia.
  - destruct (Nat.eqb_spec (fq_name x) (fq_name z)); [split; auto|]. split; [|auto]. intros y I. apply fsinsert_in in I as [->|I]; [lia|auto].
Qed.
Section Needs.
Variable P : fl -> Prop.
Definition allP (s : list fcreq) : Prop := forall q, In q s -> P (fq_w q).
Lemma faddNeeds_ok n flat : allP flat -> forall s, FSorted s -> allP s -> FSorted (faddNeeds n flat s) /\ allP (faddNeeds n flat s).
Proof.
  unfold faddNeeds. induction flat as [|f flat IH]; intros PF s HS HP; [auto|]. cbn [fold_left].
  assert (I : FSorted (fsinsert f s) /\ allP (fsinsert f s)).
  { split; [now apply fsinsert_sorted|]. intros q Hq. apply fsinsert_in in Hq as [->|Hq]; [apply PF; now left|auto]. }
  assert (PF' : allP flat) by (intros q Hq; apply PF; now right). destruct I as [I1 I2].
  destruct (negb _); [now apply IH|]. destruct (Nat.eqb _ _); now apply IH.
Qed.
Lemma fflatC_ok h rel : (forall n nd w m, h n = Some nd -> In (w, m) (fn_children nd) -> P w) -> forall fuel n l, fflatC fuel h rel n = Some l -> allP l.
Proof.
  intros HP. induction fuel as [|k IH]; intros n l E; [discriminate E|]. cbn [fflatC] in E. destruct (h n) as [nd|] eqn:EH; [|injection E as <-; intros q []].
  assert (HC : forall w m, In (w, m) (fn_children nd) -> P w) by (intros w m; now apply HP with n). clear EH. revert l E HC.
  induction (fn_children nd) as [|[w m] cs IHc]; cbn [fold_right]; intros l E HC; [injection E as <-; intros q []|]. cbn [fst snd] in E.
  destruct (fflatC k h rel m) as [l1|] eqn:E1; [|discriminate E]. match type of E with match ?x with _ => _ end = _ => destruct x as [a|] eqn:EA end; [|discriminate E].
  injection E as <-. intros q [<-|Hq]; [cbn [fq_w]; apply (HC w m); now left|]. apply in_app_or in Hq as [Hq|Hq]; [now apply (IH m l1 E1)|].
  apply (IHc a eq_refl); [|exact Hq]. intros w' m' I. apply (HC w' m'). now right.
Qed.
Lemma fallNeeds_ok h fuel vs : (forall n nd w m, h n = Some nd -> In (w, m) (fn_children nd) -> P w) -> (forall v, In v vs -> P (fv_upper v)) ->
  forall s s', FSorted s -> allP s -> fallNeeds fuel h vs s = Some s' -> FSorted s' /\ allP s'.
Proof.
  intros HP. induction vs as [|v vs IH]; intros PV s s' HS HA E; cbn [fallNeeds] in E; [injection E as <-; auto|].
  destruct (fallChild fuel h v s) as [s1|] eqn:E1; [|discriminate E]. unfold fallChild in E1. destruct (fflatC _ _ _ _) as [l|] eqn:EF; [|discriminate E1]. injection E1 as <-.
  assert (PL : allP ({| fq_name := fv_name v; fq_w := fv_upper v; fq_rel := fv_release v |} :: l)).
  { intros q [<-|Hq]; [apply PV; now left|]. eapply fflatC_ok; eauto. }
  destruct (faddNeeds_ok (fv_name v) _ PL s HS HA) as [A B]. apply (IH (fun v Hv => PV v (or_intror Hv)) _ _ A B E).
Qed.
Definition okEntry (p : fentry) : Prop := FSorted (fp_needs p) /\ allP (fp_needs p).
Lemma fpartition_ok h fuel cs : (forall n nd w m, h n = Some nd -> In (w, m) (fn_children nd) -> P w) -> (forall c v, In c cs -> In v (fk_res c) -> P (fv_upper v)) ->
  forall a es, fpartition fuel h cs = Some (a, es) -> forall p, In p es -> okEntry p.
Proof.
  intros HP. induction cs as [|c cs IH]; intros PC a es E p Hp; cbn [fpartition] in E; [injection E as <- <-; destruct Hp|].
  assert (PC' : forall c v, In c cs -> In v (fk_res c) -> P (fv_upper v)) by (intros c0 v0 I; apply PC; now right). destruct (fk_res c) as [|v vs] eqn:EK.
  - destruct (fpartition fuel h cs) as [[a1 s1]|]; [|discriminate E]. injection E as <- <-. now apply (IH PC' a1 s1).
  - destruct (fallNeeds fuel h (v :: vs) []) as [n|] eqn:EN; [|discriminate E]. destruct (fpartition fuel h cs) as [[a1 s1]|]; [|discriminate E]. injection E as <- <-.
    destruct Hp as [<-|Hp]; [|now apply (IH PC' a1 s1)]. unfold okEntry. cbn [fp_needs]. eapply fallNeeds_ok; [exact HP| | | |exact EN].
    + intros v0 I. apply (PC c); [now left|]. now rewrite EK.
    + exact I.
    + intros q [].
Qed.
Lemma fpinsert_in x l y : In y (fpinsert x l) <-> y = x \/ In y l.
Proof.
  induction l as [|z l IH]; cbn [fpinsert]; [cbn; intuition congruence|]. destruct (Z.ltb _ _); cbn [In]; [rewrite IH|]; intuition congruence.
Qed.
Lemma fpsort_in l y : In y (fpsort l) <-> In y l.
Proof. induction l as [|x l IH]; [reflexivity|]. cbn [fpsort]. rewrite fpinsert_in, IH. cbn [In]. intuition congruence. Qed.
End Needs.
Lemma fprepare_spec es al al' est : fprepare es al = (al', est) -> agrees es est al' /\ (forall n, fget (al' n) = fget (al n)) /\
  (forall n, snd (est n) = fst (est n)) /\ (forall n, fst (est n) = fget (al n) \/ fst (est n) = fzero) /\
  (forall n, al' n = al n \/ al' n = Some fzero) /\
  (forall p q, In p es -> In q (fp_needs p) -> fst (est (fq_name q)) = fget (al (fq_name q))).
Proof.
  unfold fprepare. set (Inv := fun (seen : list fcreq) (p : (nat -> option fl) * (nat -> fl * fl)) =>
    (forall q, In q seen -> fst (snd p (fq_name q)) = fget (al (fq_name q))) /\ (forall n, fget (fst p n) = fget (al n)) /\
    (forall n, snd (snd p n) = fst (snd p n)) /\ (forall n, fst (snd p n) = fget (al n) \/ fst (snd p n) = fzero) /\ (forall n, fst p n = al n \/ fst p n = Some fzero)).
  assert (S1 : forall seen p q, Inv seen p -> Inv (q :: seen) (fprepare1 p q)).
  { intros seen p q (A & B & C & D & F). unfold fprepare1. set (k := fq_name q). unfold Inv. cbn [fst snd].
    assert (EN : forall n, fget (fensure (fst p) k n) = fget (fst p n)).
    { intros n. unfold fensure. destruct (fst p k) eqn:EK; [reflexivity|]. unfold fupd. destruct (Nat.eqb_spec n k) as [->|]; [now rewrite EK|reflexivity]. }
    repeat split.
    - intros x Hx. unfold fupd. destruct (Nat.eqb_spec (fq_name x) k) as [->|NE]; cbn [fst]; [apply B|]. destruct Hx as [<-|Hx]; [now elim NE|now apply A].
    - intros n. rewrite EN. apply B.
    - intros n. unfold fupd. destruct (Nat.eqb n k); [reflexivity|apply C].
    - intros n. unfold fupd. destruct (Nat.eqb_spec n k) as [->|]; cbn [fst]; [left; apply B|apply D].
    - intros n. unfold fensure. destruct (fst p k) eqn:EK; [apply F|]. unfold fupd. destruct (Nat.eqb n k); [now right|apply F]. }
  assert (SL : forall qs seen p, Inv seen p -> exists seen', Inv seen' (fold_left fprepare1 qs p) /\ (forall q, In q qs \/ In q seen -> In q seen')).
  { induction qs as [|q qs IH]; intros seen p H; [exists seen; split; [exact H|intros q [[]|X]; exact X]|]. cbn [fold_left]. destruct (IH _ _ (S1 seen p q H)) as (seen' & H' & I).
    exists seen'. split; [exact H'|]. intros x [[<-|X]|X]; apply I; [right; now left|now left|right; now right]. }
  assert (SE : forall es seen p, Inv seen p -> exists seen', Inv seen' (fold_left (fun p e => fold_left fprepare1 (fp_needs e) p) es p) /\ (forall q, In q seen -> In q seen') /\ (forall x q, In x es -> In q (fp_needs x) -> In q seen')).
  { clear es. induction es as [|x es IH]; intros seen p H; [exists seen; split; [exact H|]; split; [auto|intros x q []]|]. cbn [fold_left]. destruct (SL (fp_needs x) seen p H) as (s1 & H1 & I1).
    destruct (IH s1 _ H1) as (s2 & H2 & I2 & I3). exists s2. split; [exact H2|]. split; [intros q Q; apply I2, I1; now right|]. intros y q [<-|Y] Q; [apply I2, I1; now left|now apply (I3 y)]. }
  intros E. destruct (SE es [] (al, fun _ => (fzero, fzero))) as (seen & H & _ & I).
  { unfold Inv. cbn [fst snd]. repeat split; auto. intros q []. }
  rewrite E in H. destruct H as (A & B & C & D & F). cbn [fst snd] in *. repeat split; auto.
  - intros p q Hp Hq. rewrite C, (A q (I p q Hp Hq)). symmetry. apply B.
  - intros p q Hp Hq. exact (A q (I p q Hp Hq)).
Qed.

Lemma fair_nonneg e x : fair e x -> flt x fzero = false.
Proof. intros F. destruct (fair_isz _ _ F) as [I B]. rewrite (flt_z e _ _ _ _ I (zero_isz e)). apply Z.ltb_ge. lia. Qed.
Section Unit2.
Variables (e : Z) (h : fhier).
Hypothesis (E51 : (-51 <= e <= 0)%Z) (HH : fairHier e h).
Definition fairAl (al : nat -> option fl) : Prop := forall n, fair e (fget (al n)).
Lemma decide_z es : (forall p, In p es -> okEntry (fair e) p) -> forall est s, fairEst e est -> fairAl (f_alloc s) -> agrees es est (f_alloc s) ->
  decide (zhier e h) (map (zent e) es) (zest e est) (zarb e s) = (let '(a, j, s') := fdecide h es est s in (a, j, zarb e s')) /\
  let '(a, j, s') := fdecide h es est s in fairAl (f_alloc s') /\ forall k, f_held s' k = f_held s k \/ exists p, In p es /\ f_held s' k = Some (fp_needs p).
Proof.
  induction es as [|p es IH]; intros OK est s FE FA AG; [split; [reflexivity|]; split; auto|].
  destruct (OK p (or_introl eq_refl)) as [SO FQ]. assert (OK' : forall x, In x es -> okEntry (fair e) x) by (intros x Hx; apply OK; now right).
  cbn [map decide fdecide]. change (p_needs (zent e p)) with (map (zq e) (fp_needs p)). destruct (tryNeeds_z e h E51 HH (fp_needs p) FQ est FE) as [TN TF]. rewrite TN.
  destruct (ftryNeeds h (fp_needs p) est) as [est'|] eqn:ET; cbn [option_map].
  - specialize (TF est' eq_refl). assert (NN : forall q, In q (fp_needs p) -> flt (fq_w q) fzero = false) by (intros q Hq; eapply fair_nonneg, FQ, Hq).
    pose proof (try_charge h (fp_needs p) (FSorted_NoDup _ SO) NN est est' (f_alloc s) (fun q Hq => AG p q (or_introl eq_refl) Hq) ET) as TC.
    set (s1 := {| f_alloc := fold_left fcharge (fp_needs p) (f_alloc s); f_held := fupd (f_held s) (fp_cmd p) (Some (fp_needs p)) |}).
    assert (Z1 : {| a_alloc := fold_left charge (map (zq e) (fp_needs p)) (a_alloc (zarb e s)); a_held := upd (a_held (zarb e s)) (p_cmd (zent e p)) (Some (map (zq e) (fp_needs p))) |} = zarb e s1).
    { unfold zarb, s1. cbn [a_alloc a_held f_alloc f_held]. f_equal.
      - rewrite (charge_z e E51 (fp_needs p) (FSorted_NoDup _ SO) FQ); [reflexivity|]. intros q _. apply FA.
      - apply functional_extensionality. intros k. unfold upd, fupd. change (p_cmd (zent e p)) with (fp_cmd p). destruct (Nat.eqb k (fp_cmd p)); reflexivity. }
    rewrite Z1.
    assert (FA1 : fairAl (f_alloc s1)).
    { intros n. destruct (in_dec Nat.eq_dec n (map fq_name (fp_needs p))) as [I|I].
      - apply in_map_iff in I as (q & EN & Hq). destruct (TC n) as (_ & _ & _ & D). destruct (D q Hq EN) as (_ & _ & V). unfold s1. cbn [f_alloc]. rewrite V. cbn [fget]. apply TF.
      - destruct (TC n) as (_ & _ & C & _). unfold s1. cbn [f_alloc]. rewrite (C I). apply FA. }
    assert (AG1 : agrees es est' (f_alloc s1)).
    { intros x q Hx Hq. destruct (TC (fq_name q)) as (A & _). apply A. apply (AG x q); [now right|exact Hq]. }
    destruct (IH OK' est' s1 TF FA1 AG1) as [D1 D2]. rewrite D1. destruct (fdecide h es est' s1) as [[a j] s'] eqn:ED. split; [reflexivity|]. destruct D2 as [D2 D3]. split; [exact D2|].
    intros k. destruct (D3 k) as [D|(x & Hx & D)]; [|right; exists x; split; [now right|exact D]]. rewrite D. unfold s1. cbn [f_held]. unfold fupd. destruct (Nat.eqb k (fp_cmd p)); [right; exists p; split; [now left|reflexivity]|now left].
  - assert (AG1 : agrees es est (f_alloc s)) by (intros x q Hx; apply (AG x q); now right). destruct (IH OK' est s FE FA AG1) as [D1 D2]. rewrite D1.
    destruct (fdecide h es est s) as [[a j] s'] eqn:ED. split; [reflexivity|]. destruct D2 as [D2 D3]. split; [exact D2|].
    intros k. destruct (D3 k) as [D|(x & Hx & D)]; [now left|right; exists x; split; [now right|exact D]].
Qed.
(** The state of an arbiter that only saw fair amounts. *)
Definition goodArb (s : farb) : Prop := fairAl (f_alloc s) /\ forall k qs, f_held s k = Some qs -> FSorted qs /\ fairQ e qs.
Lemma hier_children : forall n nd w m, h n = Some nd -> In (w, m) (fn_children nd) -> fair e w.
Proof. intros n nd w m E I. now apply (proj2 (HH n nd E) w m). Qed.
Lemma arbitrate_z fuel cs s : Forall (fairCmd e) cs -> goodArb s ->
  arbitrate fuel (zhier e h) (map (zc e) cs) (zarb e s) = option_map (fun r => let '(a, j, s') := r in (a, j, zarb e s')) (farbitrate fuel h cs s) /\
  forall a j s', farbitrate fuel h cs s = Some (a, j, s') -> goodArb s'.
Proof.
  intros FC [FA FH]. unfold arbitrate, farbitrate. rewrite partition_z. destruct (fpartition fuel h cs) as [[a0 es]|] eqn:EP; cbn [option_map fst snd]; [|split; [reflexivity|discriminate]].
  rewrite psort_z. change (a_alloc (zarb e s)) with (zal e (f_alloc s)). rewrite prepare_z. destruct (fprepare (fpsort es) (f_alloc s)) as [al est] eqn:EPR. unfold zpair. cbn [fst snd].
  destruct (fprepare_spec _ _ _ _ EPR) as (AG & BG & CG & DG & _ & _).
  assert (OK : forall p, In p (fpsort es) -> okEntry (fair e) p).
  { intros p Hp. apply (proj1 (fpsort_in es p)) in Hp. eapply fpartition_ok; [exact hier_children| |exact EP|exact Hp]. intros c v Hc Hv. rewrite Forall_forall in FC. exact (FC c Hc v Hv). }
  assert (FE : fairEst e est).
  { intros n. rewrite CG. assert (X : fair e (fst (est n))) by (destruct (DG n) as [-> | ->]; [apply FA|apply fair_zero; auto]). auto. }
  assert (FA1 : fairAl al) by (intros n; rewrite BG; apply FA).
  destruct (decide_z (fpsort es) OK est {| f_alloc := al; f_held := f_held s |} FE FA1 AG) as [D1 D2].
  change {| a_alloc := zal e al; a_held := a_held (zarb e s) |} with (zarb e {| f_alloc := al; f_held := f_held s |}). rewrite D1.
  destruct (fdecide h (fpsort es) est _) as [[a j] s'] eqn:ED. split; [reflexivity|]. intros a1 j1 s1 [= <- <- <-]. destruct D2 as [D2 D3]. split; [exact D2|].
  intros k qs E. destruct (D3 k) as [D|(p & Hp & D)]; rewrite E in D; cbn [f_held] in D; [now apply (FH k)|]. injection D as ->. exact (OK p Hp).
Qed.
End Unit2.
