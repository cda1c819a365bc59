From Coq Require Import ZArith Reals List Lia Lra Psatz Bool.
From Flocq Require Import Core BinarySingleNaN Relative.
From Verif Require Import FloatModel FloatSpec FloatProofs AlarmModel AlarmSpec.
Import ListNotations.
Open Scope Z_scope.

(** ** Integer part *)
Lemma normalize_ok unit t : 1 < unit -> Z.abs (snd t) < 2 * unit - 1 ->
  normal unit (tsNormalize unit t) /\ total unit (tsNormalize unit t) = total unit t.
Proof.
  intros U B. destruct t as [s n]. cbn [snd] in B. unfold tsNormalize, carry, signs, normal, total.
  destruct (Z.leb_spec unit n); [|destruct (Z.leb_spec (n + unit) 0)];
    repeat match goal with |- context [?a <? ?b] => destruct (Z.ltb_spec a b) end; cbn [andb fst snd]; (split; [split|]); nia.
Qed.
Lemma tsLt_ok unit a b : normal unit a -> normal unit b -> tsLt a b = (total unit a <? total unit b).
Proof.
  destruct a as [s n], b as [s' n']. unfold normal, tsLt, total. cbn [fst snd]. intros [A1 A2] [B1 B2].
  destruct (Z.ltb_spec s s'); [|destruct (Z.eqb_spec s s')]; cbn [orb andb].
  - symmetry. apply Z.ltb_lt. nia.
  - subst. destruct (Z.ltb_spec n n'); symmetry; [apply Z.ltb_lt|apply Z.ltb_ge]; nia.
  - symmetry. apply Z.ltb_ge. nia.
Qed.
Lemma tsEq_ok unit a b : normal unit a -> normal unit b -> tsEq a b = (total unit a =? total unit b).
Proof.
  destruct a as [s n], b as [s' n']. unfold normal, tsEq, total. cbn [fst snd]. intros [A1 A2] [B1 B2].
  destruct (Z.eqb_spec s s'); cbn [andb].
  - subst. destruct (Z.eqb_spec n n'); symmetry; [apply Z.eqb_eq|apply Z.eqb_neq]; nia.
  - symmetry. apply Z.eqb_neq. nia.
Qed.
Lemma tsGt_Lt a b : tsGt a b = tsLt b a.
Proof. unfold tsGt, tsLt. rewrite (Z.eqb_sym (fst a)). reflexivity. Qed.
Lemma clockTs_total c : total billion (clockTs c) = c.
Proof. unfold total, clockTs. cbn [fst snd]. pose proof (Z.div_mod c billion). unfold billion in *. lia. Qed.
Lemma clockTs_normal c : 0 <= c -> normal billion (clockTs c).
Proof.
  intros H. unfold normal, clockTs. cbn [fst snd]. pose proof (Z.mod_pos_bound c billion ltac:(reflexivity)). pose proof (Z.div_pos c billion H ltac:(reflexivity)). split; [lia|left; lia].
Qed.

(** ** Conversions *)
Open Scope R_scope.
Lemma ftrunc_ok (d : fl) : is_finite d = true -> ftrunc d = Ztrunc (B2R d).
Proof.
  destruct d as [s|s| |s m e H]; intros F; try discriminate; [cbn; rewrite Ztrunc_IZR; reflexivity|].
  rewrite fin_R. unfold ftrunc. destruct (Z.leb_spec 0 e).
  - rewrite <- (IZR_Zpower radix2) by assumption. rewrite <- mult_IZR, Ztrunc_IZR. reflexivity.
  - replace e with (- (- e))%Z at 2 by ring. rewrite bpow_opp, <- (IZR_Zpower radix2) by lia.
    change (IZR (szm s m) * / IZR (radix2 ^ (- e))) with (IZR (szm s m) / IZR (radix2 ^ (- e))). rewrite Ztrunc_div; [reflexivity|].
    assert (0 < radix2 ^ (- e))%Z by (apply Z.pow_pos_nonneg; [reflexivity|lia]). lia.
Qed.
Lemma fofZ_ok z : (Z.abs z <= 2 ^ 63)%Z -> is_finite (fofZ z) = true /\ B2R (fofZ z) = rounded (IZR z).
Proof.
  intros B. generalize (binary_normalize_correct 53 1024 _ _ mode_NE z 0 false). cbv zeta. unfold F2R. cbn [Fnum Fexp round_mode]. rewrite Rmult_1_r.
  change (SpecFloat.fexp 53 1024) with (FLT_exp (-1074) 53). fold (rounded (IZR z)). rewrite Rlt_bool_true; [intros (A & C & _); auto|].
  apply Rle_lt_trans with (bpow radix2 63); [|apply bpow_lt; reflexivity].
  apply abs_round_le_generic; [typeclasses eauto|typeclasses eauto| |].
  - apply representable_iff. exists 1%Z, 63%Z. split; [ring|]. split; [reflexivity|discriminate].
  - rewrite <- abs_IZR. replace (bpow radix2 63) with (IZR (2 ^ 63)) by reflexivity. apply IZR_le. exact B.
Qed.
Lemma rounded_exactZ z : (Z.abs z <= 2 ^ 53)%Z -> rounded (IZR z) = IZR z.
Proof.
  intros B. destruct (Z.eq_dec (Z.abs z) (2 ^ 53)) as [E|E]; apply round_generic; try typeclasses eauto; apply representable_iff.
  - exists (z / 2)%Z, 1%Z. assert (z = 2 * (z / 2))%Z. { assert (z = 2 ^ 53 \/ z = - 2 ^ 53)%Z as [-> | ->] by lia; reflexivity. }
    split; [rewrite H at 1; rewrite mult_IZR; cbn; ring|]. split; [|discriminate]. assert (z = 2 ^ 53 \/ z = - 2 ^ 53)%Z as [-> | ->] by lia; reflexivity.
  - exists z, 0%Z. split; [cbn; ring|]. split; [lia|discriminate].
Qed.
Lemma fofZ_exact z : (Z.abs z <= 2 ^ 53)%Z -> is_finite (fofZ z) = true /\ B2R (fofZ z) = IZR z.
Proof. intros B. destruct (fofZ_ok z) as [F E]; [lia|]. rewrite rounded_exactZ in E by exact B. auto. Qed.
Lemma rounded_le x y : x <= y -> rounded x <= rounded y.
Proof. intros H. apply round_le; try typeclasses eauto. exact H. Qed.
Lemma rounds_small x d : rounds_to x d -> Rabs x <= bpow radix2 100 -> is_finite d = true /\ B2R d = rounded x.
Proof.
  intros [A _] B. apply A. apply Rle_lt_trans with (bpow radix2 100); [|apply bpow_lt; reflexivity].
  apply abs_round_le_generic; [typeclasses eauto|typeclasses eauto| |exact B].
  apply representable_iff. exists 1%Z, 100%Z. split; [ring|]. split; [reflexivity|discriminate].
Qed.
(** The value of a time as a double. *)
Lemma ts2d_ok s n : (0 <= s < 2 ^ 63)%Z -> (0 <= n < billion)%Z ->
  is_finite (ts2d billion (s, n)) = true /\ B2R (ts2d billion (s, n)) = rounded (rounded (IZR n / IZR billion) + rounded (IZR s)) /\
  0 <= rounded (IZR n / IZR billion) <= 1.
Proof.
  intros Hs Hn. unfold ts2d. cbn [fst snd].
  destruct (fofZ_exact n) as [Fn En]; [unfold billion in *; lia|]. destruct (fofZ_exact billion) as [Fb Eb]; [unfold billion; lia|].
  destruct (fofZ_ok s) as [Fs Es]; [lia|].
  assert (P : 0 < IZR billion) by (apply IZR_lt; reflexivity).
  assert (Q : 0 <= IZR n / IZR billion <= 1).
  { split; [apply Rmult_le_pos; [apply IZR_le; lia|left; apply Rinv_0_lt_compat; exact P]|].
    apply Rmult_le_reg_r with (IZR billion); [exact P|]. unfold Rdiv. rewrite Rmult_assoc, Rinv_l, Rmult_1_l, Rmult_1_r by lra. apply IZR_le. lia. }
  assert (D : rounds_to (IZR n / IZR billion) (fdiv (fofZ n) (fofZ billion))).
  { rewrite <- En, <- Eb. apply div_ok; auto. rewrite Eb. lra. }
  destruct (rounds_small _ _ D) as [Fd Ed].
  { rewrite Rabs_pos_eq by lra. apply Rle_trans with 1; [lra|]. apply (bpow_le radix2 0 100). discriminate. }
  assert (R01 : 0 <= rounded (IZR n / IZR billion) <= 1).
  { split; [rewrite <- (rounded_exactZ 0) by (cbn; lia)|rewrite <- (rounded_exactZ 1) by (cbn; lia)]; apply rounded_le; lra. }
  assert (Rs : 0 <= rounded (IZR s) <= bpow radix2 63).
  { split; [rewrite <- (rounded_exactZ 0) by (cbn; lia); apply rounded_le, IZR_le; lia|].
    assert (E : rounded (bpow radix2 63) = bpow radix2 63). { apply round_generic; [typeclasses eauto|]. apply representable_iff. exists 1%Z, 63%Z. split; [ring|]. split; [reflexivity|discriminate]. }
    rewrite <- E. apply rounded_le. replace (bpow radix2 63) with (IZR (2 ^ 63)) by reflexivity. apply IZR_le. lia. }
  assert (A : rounds_to (rounded (IZR n / IZR billion) + rounded (IZR s)) (fadd (fdiv (fofZ n) (fofZ billion)) (fofZ s))).
  { rewrite <- Ed, <- Es. apply add_ok; auto. }
  destruct (rounds_small _ _ A) as [Fa Ea].
  { rewrite Rabs_pos_eq by lra. apply Rle_trans with (bpow radix2 63 + bpow radix2 63); [pose proof (bpow_le radix2 0 63 ltac:(discriminate)) as X; change (bpow radix2 0) with 1 in X; lra|].
    apply Rle_trans with (bpow radix2 64); [change 64%Z with (63 + 1)%Z; rewrite bpow_plus; change (bpow radix2 1) with 2; lra|]. apply bpow_le. discriminate. }
  auto.
Qed.
Lemma getTime_mono c c' : (0 <= c <= c')%Z -> (c' < 2 ^ 53 * billion)%Z -> B2R (getTime c) <= B2R (getTime c').
Proof.
  intros H B. unfold getTime, clockTs.
  pose proof (Z.mod_pos_bound c billion ltac:(reflexivity)) as M. pose proof (Z.mod_pos_bound c' billion ltac:(reflexivity)) as M'.
  pose proof (Z.div_mod c billion ltac:(discriminate)) as D. pose proof (Z.div_mod c' billion ltac:(discriminate)) as D'.
  set (s := (c / billion)%Z) in *. set (n := (c mod billion)%Z) in *. set (s' := (c' / billion)%Z) in *. set (n' := (c' mod billion)%Z) in *. clearbody s n s' n'.
  assert (Hs : (0 <= s < 2 ^ 63)%Z) by (unfold billion in *; lia). assert (Hs' : (0 <= s' < 2 ^ 63)%Z) by (unfold billion in *; lia).
  destruct (ts2d_ok s n Hs M) as (_ & E & R1). destruct (ts2d_ok s' n' Hs' M') as (_ & E' & R2). rewrite E, E'.
  assert (P : 0 < IZR billion) by (apply IZR_lt; reflexivity).
  destruct (Z.eq_dec s s') as [->|N].
  - apply rounded_le. apply Rplus_le_compat_r. apply rounded_le. apply Rmult_le_compat_r; [left; apply Rinv_0_lt_compat; exact P|]. apply IZR_le. unfold billion in *; lia.
  - assert (L : (s + 1 <= s')%Z) by (unfold billion in *; lia).
    apply Rle_trans with (rounded (1 + rounded (IZR s))); [apply rounded_le; lra|].
    apply Rle_trans with (rounded (rounded (IZR s'))); [|apply rounded_le; lra]. apply rounded_le.
    rewrite (rounded_exactZ s) by (unfold billion in *; lia). rewrite <- plus_IZR. rewrite <- (rounded_exactZ (1 + s)) by (unfold billion in *; lia). apply rounded_le, IZR_le. lia.
Qed.

(** ** Double to time and back *)
Lemma Ztrunc_pos x : 0 <= x -> IZR (Ztrunc x) <= x < IZR (Ztrunc x) + 1.
Proof. intros H. rewrite Ztrunc_floor by exact H. split; [apply Zfloor_lb|apply Zfloor_ub]. Qed.
(** The fractional part of a double is a double. *)
Lemma frac_exact (d : fl) s : is_finite d = true -> 0 <= B2R d -> s = Ztrunc (B2R d) -> (s < 2 ^ 63)%Z ->
  is_finite (fsub d (fofZ s)) = true /\ B2R (fsub d (fofZ s)) = B2R d - IZR s /\ rounded (IZR s) = IZR s.
Proof.
  intros F P S B. pose proof (Ztrunc_pos _ P) as T. rewrite <- S in T.
  assert (S0 : (0 <= s)%Z). { rewrite S. rewrite Ztrunc_floor by exact P. apply Zfloor_lub. exact P. }
  destruct (fofZ_ok s) as [Fs Es]; [lia|].
  assert (D : B2R d - IZR s = 0 \/ (s < 2 ^ 53)%Z).
  { destruct (Z_lt_le_dec s (2 ^ 53)) as [C|C]; [right; exact C|left].
    destruct d as [sg|sg| |sg m e H]; try discriminate; [cbn in *; rewrite Ztrunc_IZR in S; subst; lra|]. rewrite fin_R in *.
    destruct (bnd_lt _ _ H) as [Lm Le]. assert (E0 : (0 <= e)%Z).
    { destruct (Z_lt_le_dec e 0) as [N|]; [exfalso|assumption]. assert (bpow radix2 e < 1) by (apply (bpow_lt radix2 e 0); exact N).
      pose proof (bpow_gt_0 radix2 e). assert (IZR (szm sg m) < IZR (2 ^ 53)) by (apply IZR_lt; destruct sg; unfold szm; lia).
      assert (IZR (2 ^ 53) <= IZR s) by (apply IZR_le; exact C). assert (0 < IZR (2 ^ 53)) by (apply IZR_lt; reflexivity). nra. }
    rewrite <- (IZR_Zpower radix2), <- mult_IZR in * by exact E0. rewrite Ztrunc_IZR in S. rewrite <- S. lra. }
  assert (Es' : rounded (IZR s) = IZR s). { destruct D as [D|D]; [|apply rounded_exactZ; lia]. replace (IZR s) with (B2R d) by lra. apply rounded_B2R. }
  rewrite Es' in Es. pose proof (sub_ok d (fofZ s) F Fs) as R. rewrite Es in R.
  assert (G : rounded (B2R d - IZR s) = B2R d - IZR s).
  { destruct D as [D|D]; [rewrite D; apply (rounded_exactZ 0); cbn; lia|]. apply round_generic; [typeclasses eauto|]. apply representable_iff.
    destruct d as [sg|sg| |sg m e H]; try discriminate.
    - exists (- s)%Z, 0%Z. cbn [B2R bpow]. rewrite opp_IZR. split; [ring|]. split; [lia|discriminate].
    - rewrite fin_R in *. destruct (bnd_lt _ _ H) as [Lm Le]. destruct (Z_lt_le_dec e 0) as [N|N].
      + exists (szm sg m - s * 2 ^ (- e))%Z, e. 
        assert (X : IZR (szm sg m) * bpow radix2 e - IZR s = IZR (szm sg m - s * 2 ^ (- e)) * bpow radix2 e).
        { rewrite minus_IZR, mult_IZR, (IZR_Zpower radix2) by lia. rewrite Rmult_minus_distr_r. rewrite (Rmult_assoc (IZR s)), <- bpow_plus. replace (- e + e)%Z with 0%Z by ring. cbn [bpow]. ring. }
        split; [exact X|]. split; [|exact Le]. rewrite X in T || idtac.
        assert (Y : 0 <= IZR (szm sg m - s * 2 ^ (- e)) * bpow radix2 e) by (rewrite <- X; lra).
        assert (Y0 : (0 <= szm sg m - s * 2 ^ (- e))%Z).
        { apply le_IZR. pose proof (bpow_gt_0 radix2 e). apply Rmult_le_reg_r with (bpow radix2 e); [assumption|]. lra. }
        assert (0 <= s * 2 ^ (- e))%Z by (apply Z.mul_nonneg_nonneg; [exact S0|apply Z.pow_nonneg; lia]). destruct sg; unfold szm in *; lia.
      + exists 0%Z, 0%Z. split; [|split; [reflexivity|discriminate]]. rewrite <- (IZR_Zpower radix2), <- mult_IZR in * by exact N.
        rewrite Ztrunc_IZR in S. subst s. rewrite Rminus_diag_eq by reflexivity. ring. }
  destruct (rounds_small _ _ R) as [A E].
  { rewrite Rabs_pos_eq by lra. apply Rle_trans with 1; [lra|]. apply (bpow_le radix2 0 100). discriminate. }
  split; [exact A|]. split; [rewrite E; exact G|exact Es'].
Qed.
Lemma rel_err x : 0 <= x -> bpow radix2 (-1022) <= x \/ x = 0 -> Rabs (rounded x - x) <= bpow radix2 (-53) * x.
Proof.
  intros P [H|H].
  - pose proof (relative_error_N_FLT radix2 (-1074) 53 ltac:(reflexivity) (fun x => negb (Z.even x)) x) as E.
    rewrite (Rabs_pos_eq x) in E by exact P. specialize (E H). change (- (53) + 1)%Z with (-52)%Z in E.
    replace (bpow radix2 (-53)) with (/ 2 * bpow radix2 (-52)) by (change (-52)%Z with (-53 + 1)%Z; rewrite bpow_plus; change (bpow radix2 1) with 2; lra). exact E.
  - subst x. unfold rounded. rewrite round_0 by typeclasses eauto. rewrite Rminus_diag_eq, Rabs_R0 by reflexivity. lra.
Qed.
Lemma bil : IZR billion = 1000000000. Proof. reflexivity. Qed.
Lemma u53_small : 0 < bpow radix2 (-53) < / 1000000000000000.
Proof. split; [apply bpow_gt_0|]. change (bpow radix2 (-53)) with (/ IZR 9007199254740992). lra. Qed.
Lemma d2ts_good d : good d -> exists s n, d2ts billion d = Some (s, n) /\ (2 ^ 24 <= s < 2 ^ 53)%Z /\ (0 <= n < billion)%Z /\ ts2d billion (s, n) = d /\
  1000000000 * B2R d - 2 < IZR (total billion (s, n)) < 1000000000 * B2R d + 1.
Proof.
  intros [F [L U]]. assert (P : 0 <= B2R d) by (pose proof (bpow_gt_0 radix2 24); lra).
  set (s := Ztrunc (B2R d)). pose proof (Ztrunc_pos _ P) as T. fold s in T.
  assert (Ls : (2 ^ 24 <= s < 2 ^ 53)%Z).
  { split.
    - unfold s. rewrite Ztrunc_floor by exact P. apply Zfloor_lub. change (IZR (2 ^ 24)) with (bpow radix2 24). exact L.
    - apply lt_IZR. change (IZR (2 ^ 53)) with (bpow radix2 53). lra. }
  destruct (frac_exact d s F P eq_refl ltac:(lia)) as (Ff & Ef & Es). set (fr := fsub d (fofZ s)) in *. set (f := B2R fr) in *.
  assert (f01 : 0 <= f < 1) by (rewrite Ef; lra).
  destruct (fofZ_exact billion) as [Fb Eb]; [unfold billion; lia|].
  pose proof (mul_ok (fofZ billion) fr Fb Ff) as R. rewrite Eb in R. fold f in R. rewrite bil in R.
  destruct (rounds_small _ _ R) as [Fx Ex].
  { rewrite Rabs_pos_eq by lra. apply Rle_trans with (bpow radix2 30); [change (bpow radix2 30) with 1073741824; lra|]. apply bpow_le. discriminate. }
  set (x := fmul (fofZ billion) fr) in *. pose proof u53_small as Us. set (u := bpow radix2 (-53)) in *.
  (* the last place of d *)
  assert (Mg : exists e, (25 <= e <= 53)%Z /\ bpow radix2 (e - 1) <= B2R d < bpow radix2 e /\ cexp radix2 (FLT_exp (-1074) 53) (B2R d) = (e - 53)%Z).
  { exists (mag radix2 (B2R d)). assert (25 <= mag radix2 (B2R d) <= 53)%Z as Bm.
    { split; [apply mag_ge_bpow; rewrite Rabs_pos_eq by exact P; exact L|]. apply mag_le_bpow; [pose proof (bpow_gt_0 radix2 24); lra|]. rewrite Rabs_pos_eq by exact P. exact U. }
    split; [exact Bm|]. split.
    - destruct (mag radix2 (B2R d)) as [e He]. cbn [mag_val] in *. rewrite Rabs_pos_eq in He by exact P. apply He. pose proof (bpow_gt_0 radix2 24). lra.
    - unfold cexp, FLT_exp. lia. }
  destruct Mg as (e & He & Be & Ce).
  assert (HM : exists M, B2R d = IZR M * bpow radix2 (e - 53)).
  { pose proof (generic_format_B2R 53 1024 d) as G. change (SpecFloat.fexp 53 1024) with (FLT_exp (-1074) 53) in G. unfold generic_format in G. rewrite Ce in G. eexists. exact G. }
  destruct HM as [M HM].
  assert (HK : exists K, f = IZR K * bpow radix2 (e - 53)).
  { exists (M - s * 2 ^ (53 - e))%Z. rewrite Ef, HM, minus_IZR, mult_IZR, (IZR_Zpower radix2) by lia. rewrite Rmult_minus_distr_r, (Rmult_assoc (IZR s)), <- bpow_plus.
    replace (53 - e + (e - 53))%Z with 0%Z by ring. cbn [bpow]. ring. }
  destruct HK as [K HK].
  assert (W : bpow radix2 (-28) <= bpow radix2 (e - 53)) by (apply bpow_le; lia). set (w := bpow radix2 (e - 53)) in *.
  assert (W28 : bpow radix2 (-28) = / 268435456) by reflexivity. rewrite W28 in W.
  assert (w1 : w * IZR (2 ^ (53 - e)) = 1). { rewrite (IZR_Zpower radix2) by lia. unfold w. rewrite <- bpow_plus. replace (e - 53 + (53 - e))%Z with 0%Z by ring. reflexivity. }
  assert (fcase : f = 0 \/ (w <= f <= 1 - w)).
  { destruct (Z_le_gt_dec K 0) as [C|C]; [left; apply IZR_le in C; rewrite HK in f01 |- *; assert (0 < w) by lra; nra|right].
    assert (1 <= IZR K) by (apply IZR_le; lia). split; [rewrite HK; nra|].
    assert (K < 2 ^ (53 - e))%Z. { apply lt_IZR. apply Rmult_lt_reg_r with w; [lra|]. rewrite (Rmult_comm (IZR (2 ^ (53 - e)))), w1, <- HK. lra. }
    assert (IZR K <= IZR (2 ^ (53 - e)) - 1) by (rewrite <- minus_IZR; apply IZR_le; lia). rewrite HK. nra. }
  assert (x0 : 0 <= B2R x < 1000000000 /\ Rabs (B2R x - 1000000000 * f) <= u * (1000000000 * f)).
  { rewrite Ex. destruct fcase as [Z|[C1 C2]].
    - rewrite Z, Rmult_0_r. rewrite (rounded_exactZ 0) by (cbn; lia). split; [lra|]. rewrite Rminus_diag_eq, Rabs_R0 by reflexivity. lra.
    - assert (B22 : bpow radix2 (-1022) <= 1000000000 * f) by (apply Rle_trans with (bpow radix2 0); [apply bpow_le; discriminate|change (bpow radix2 0) with 1; lra]).
      assert (E : Rabs (rounded (1000000000 * f) - 1000000000 * f) <= u * (1000000000 * f)) by (apply rel_err; [lra|left; exact B22]). clear B22.
      split; [|exact E]. apply Rabs_le_inv in E. split; [nra|]. nra. }
  destruct x0 as [x01 xe]. pose proof (Ztrunc_pos (B2R x) ltac:(lra)) as Tn. set (n := Ztrunc (B2R x)) in *.
  assert (Hn : (0 <= n < billion)%Z).
  { split; [unfold n; rewrite Ztrunc_floor by lra; apply Zfloor_lub; lra|]. apply lt_IZR. rewrite bil. lra. }
  assert (Tot : 1000000000 * B2R d - 2 < IZR (total billion (s, n)) < 1000000000 * B2R d + 1).
  { unfold total. cbn [fst snd]. rewrite plus_IZR, mult_IZR, bil. apply Rabs_le_inv in xe. assert (uf : u * (1000000000 * f) <= u * 1000000000) by nra. lra. }
  exists s, n. split; [|split; [exact Ls|split; [exact Hn|split; [|exact Tot]]]].
  - unfold d2ts. rewrite F. rewrite ftrunc_ok by exact F. fold s. cbv zeta. destruct (Z.leb_spec (- 2 ^ 63) s); [|lia]. destruct (Z.ltb_spec s (2 ^ 63)); [|lia]. cbn [andb].
    fold fr. fold x. rewrite ftrunc_ok by exact Fx. fold n. f_equal. unfold tsNormalize, carry. destruct (Z.leb_spec billion n); [lia|]. destruct (Z.leb_spec (n + billion) 0); [unfold billion in *; lia|].
    unfold signs. destruct (Z.ltb_spec n 0); [lia|]. rewrite andb_false_r. destruct (Z.ltb_spec s 0); [lia|]. reflexivity.
  - destruct (ts2d_ok s n ltac:(lia) Hn) as (Ft & Et & g01). rewrite Es in Et. rewrite bil in Et, g01. set (g := rounded (IZR n / 1000000000)) in *.
    assert (n1 : 0 <= IZR n <= 999999999). { split; apply IZR_le; unfold billion in *; lia. }
    assert (ge : Rabs (g - IZR n / 1000000000) <= u * (IZR n / 1000000000)).
    { apply rel_err; [lra|]. destruct (Z.eq_dec n 0) as [->|N0]; [right; lra|left]. assert (1 <= IZR n) by (apply IZR_le; lia).
      apply Rle_trans with (bpow radix2 (-30)); [apply bpow_le; discriminate|]. change (bpow radix2 (-30)) with (/ 1073741824). lra. }
    assert (gf : Rabs (g - f) < w / 2 /\ 0 <= g < 1).
    { apply Rabs_le_inv in xe, ge. assert (un : u * (IZR n / 1000000000) <= u) by nra. assert (uf : u * (1000000000 * f) <= u * 1000000000) by nra.
      split; [|split; [lra|]].
      - destruct fcase as [Z|C]; [|apply Rabs_lt; split; lra].
        assert (X0 : B2R x = 0) by (rewrite Z in xe; lra). assert (n = 0%Z) by (unfold n; rewrite X0; apply Ztrunc_IZR). 
        assert (g = 0). { unfold g. rewrite H. unfold Rdiv. rewrite Rmult_0_l. apply (rounded_exactZ 0). cbn; lia. } rewrite H0, Z, Rminus_diag_eq, Rabs_R0 by reflexivity. lra.
      - assert (IZR n / 1000000000 <= 1 - / 1000000000) by lra. lra. }
    destruct gf as [gf g1].
    assert (X : rounded (g + IZR s) = B2R d).
    { assert (Ms : bpow radix2 (e - 1) <= IZR s /\ IZR s + 1 <= bpow radix2 e).
      { split.
        - rewrite <- (IZR_Zpower radix2) by lia. apply IZR_le. unfold s. rewrite Ztrunc_floor by exact P. apply Zfloor_lub. rewrite (IZR_Zpower radix2) by lia. apply Be.
        - rewrite <- (IZR_Zpower radix2) by lia. rewrite <- plus_IZR. apply IZR_le. assert (s < radix2 ^ e)%Z; [|lia]. apply lt_IZR. rewrite (IZR_Zpower radix2) by lia. lra. }
      assert (Mx : mag radix2 (g + IZR s) = e :> Z). { apply mag_unique. rewrite Rabs_pos_eq by (destruct Ms; pose proof (bpow_gt_0 radix2 (e - 1)); lra). lra. }
      unfold rounded, round, scaled_mantissa, F2R. cbn [Fnum Fexp]. assert (Cx : cexp radix2 (FLT_exp (-1074) 53) (g + IZR s) = (e - 53)%Z) by (unfold cexp, FLT_exp; rewrite Mx; lia).
      rewrite Cx. fold w. rewrite HM. f_equal. f_equal.
      apply Znearest_imp. assert (Wp : 0 < w) by lra. assert (Wi : bpow radix2 (- (e - 53)) = / w) by (unfold w; apply bpow_opp). rewrite Wi.
      replace ((g + IZR s) * / w - IZR M) with ((g - f) * / w). 2:{ rewrite Ef, HM. field. lra. }
      rewrite Rabs_mult, (Rabs_pos_eq (/ w)) by (left; apply Rinv_0_lt_compat; exact Wp).
      apply Rmult_lt_reg_r with w; [exact Wp|]. rewrite Rmult_assoc, Rinv_l by lra. lra. }
    assert (NZ : forall z : fl, is_finite z = true -> B2R z <> 0 -> is_finite_strict z = true).
    { intros z Fz Nz. destruct z; try discriminate; [cbn in Nz; lra|reflexivity]. }
    assert (D0 : B2R d <> 0) by (pose proof (bpow_gt_0 radix2 24); lra).
    apply B2R_inj; [apply NZ; [exact Ft|rewrite Et, X; exact D0]|apply NZ; assumption|]. rewrite Et. exact X.
Qed.
