(** Properties of the binary64 rounding model: monotone, exact on doubles; conversions. *)
From Verif Require Import ValueModel RealModel.
Open Scope Z_scope.

Definition ele (a b : ext) : Prop :=
  match a, b with
  | NInf, _ => True | _, PInf => True
  | Fin x, Fin y => x <= y
  | _, _ => False
  end.
Lemma ele_lt a b : ele a b <-> ext_lt b a = false.
Proof.
  destruct a, b; cbn; try (split; intros; try tauto; congruence).
  rewrite Z.ltb_ge. reflexivity.
Qed.
Lemma ele_refl a : ele a a. Proof. destruct a; cbn; auto. lia. Qed.
Lemma ele_trans a b c : ele a b -> ele b c -> ele a c.
Proof. destruct a, b, c; cbn; intros; try tauto; lia. Qed.

(** A representable number of units: at most 53 significant bits, below overflow. *)
Definition repr (k : Z) : Prop :=
  Z.abs k < 2 ^ 2098 /\ exists m e, 0 <= e /\ Z.abs m < 2 ^ 53 /\ k = m * 2 ^ e.

Lemma rne_bounds m sh : 0 <= m -> 0 <= sh -> m / 2 ^ sh <= rne m sh <= m / 2 ^ sh + 1.
Proof. intros. unfold rne. repeat match goal with |- context [if ?b then _ else _] => destruct b end; lia. Qed.
Lemma rne_exact q sh : 0 <= sh -> rne (q * 2 ^ sh) sh = q.
Proof.
  intros. unfold rne. assert (0 < 2 ^ sh) by (apply Z.pow_pos_nonneg; lia).
  rewrite Z.div_mul, Z.mod_mul by lia.
  destruct (Z.ltb_spec (2 * 0) (2 ^ sh)); lia.
Qed.
Lemma rne_mono m m' sh : 0 <= m -> m <= m' -> 0 <= sh -> rne m sh <= rne m' sh.
Proof.
  intros. assert (P: 0 < 2 ^ sh) by (apply Z.pow_pos_nonneg; lia).
  assert (Q: m / 2 ^ sh <= m' / 2 ^ sh) by (apply Z.div_le_mono; lia).
  destruct (Z.eq_dec (m / 2 ^ sh) (m' / 2 ^ sh)) as [E|N].
  - unfold rne. rewrite E.
    assert (m mod 2 ^ sh <= m' mod 2 ^ sh).
    { rewrite (Z.mod_eq m), (Z.mod_eq m'), E by lia. lia. }
    destruct (Z.ltb_spec (2 * (m mod 2 ^ sh)) (2 ^ sh)); destruct (Z.ltb_spec (2 * (m' mod 2 ^ sh)) (2 ^ sh));
    destruct (Z.ltb_spec (2 ^ sh) (2 * (m mod 2 ^ sh))); destruct (Z.ltb_spec (2 ^ sh) (2 * (m' mod 2 ^ sh)));
    destruct (Z.even (m' / 2 ^ sh)); lia.
  - pose proof (rne_bounds m sh). pose proof (rne_bounds m' sh). lia.
Qed.
Lemma rne_ge m sh q : 0 <= m -> 0 <= sh -> q * 2 ^ sh <= m -> q <= rne m sh.
Proof.
  intros. destruct (rne_bounds m sh); auto. apply Z.le_trans with (m / 2 ^ sh); auto.
  apply Z.div_le_lower_bound; [apply Z.pow_pos_nonneg; lia|lia].
Qed.
Lemma rne_le m sh q : 0 <= m -> 0 <= sh -> m <= q * 2 ^ sh -> rne m sh <= q.
Proof.
  intros. rewrite <- (rne_exact q sh) by auto. apply rne_mono; auto.
Qed.

Lemma rndMag_nonneg m s : 0 <= m -> 0 <= s -> 0 <= rndMag m s.
Proof.
  intros. unfold rndMag. apply Z.mul_nonneg_nonneg; [|apply Z.pow_nonneg; lia].
  apply rne_ge; try lia.
Qed.
Lemma rndMag_mono m m' s : 0 <= m -> m <= m' -> 0 <= s -> rndMag m s <= rndMag m' s.
Proof.
  intros Hm H Hs. unfold rndMag.
  assert (L: Z.log2 m <= Z.log2 m') by (apply Z.log2_le_mono; auto).
  set (sh := Z.max s (Z.log2 m - 52)). set (sh' := Z.max s (Z.log2 m' - 52)).
  assert (S: s <= sh <= sh') by lia.
  destruct (Z.eq_dec sh sh') as [E|N].
  { rewrite E. apply Z.mul_le_mono_nonneg_r. apply Z.pow_nonneg; lia. apply rne_mono; lia. }
  assert (E': sh' = Z.log2 m' - 52) by lia.
  assert (M': 0 < m') by (destruct (Z.eq_dec m' 0) as [->|]; [cbn in E'; lia|lia]).
  destruct (Z.log2_spec m' M') as [B _].
  assert (A: rne m' sh' >= 2 ^ 52).
  { apply Z.le_ge. apply rne_ge; try lia. rewrite <- Z.pow_add_r by lia. replace (52 + sh') with (Z.log2 m') by lia. auto. }
  assert (C: rne m sh <= 2 ^ 53).
  { apply rne_le; try lia. rewrite <- Z.pow_add_r by lia.
    destruct (Z.eq_dec m 0) as [->|]; [apply Z.pow_nonneg; lia|].
    destruct (Z.log2_spec m) as [_ U]; [lia|].
    apply Z.le_trans with (2 ^ Z.succ (Z.log2 m)); [lia|]. apply Z.pow_le_mono_r; lia. }
  apply Z.le_trans with (2 ^ 53 * 2 ^ (sh - s)).
  { apply Z.mul_le_mono_nonneg_r; auto. apply Z.pow_nonneg; lia. }
  apply Z.le_trans with (2 ^ 52 * 2 ^ (sh' - s)).
  { rewrite <- !Z.pow_add_r by lia. apply Z.pow_le_mono_r; lia. }
  apply Z.mul_le_mono_nonneg_r; [|lia]. apply Z.pow_nonneg; lia.
Qed.
Lemma rndMag_exact m e s : 0 <= m < 2 ^ 53 -> 0 <= e -> 0 <= s -> rndMag (m * 2 ^ (e + s)) s = m * 2 ^ e.
Proof.
  intros Hm He Hs. unfold rndMag.
  destruct (Z.eq_dec m 0) as [->|N].
  { rewrite Z.mul_0_l. change (Z.log2 0) with 0. replace (Z.max s (0 - 52)) with s by lia. unfold rne. rewrite Z.div_0_l, Z.mod_0_l by (apply Z.pow_nonzero; lia).
    destruct (Z.ltb_spec (2 * 0) (2 ^ s)); [lia|]. assert (0 < 2 ^ s) by (apply Z.pow_pos_nonneg; lia). lia. }
  assert (Lm: Z.log2 m <= 52). { assert (Z.log2 m < 53); [|lia]. apply Z.log2_lt_pow2; lia. }
  assert (0 <= Z.log2 m) by apply Z.log2_nonneg.
  rewrite Z.log2_mul_pow2 by lia.
  set (sh := Z.max s (e + s + Z.log2 m - 52)).
  assert (S: s <= sh <= e + s) by lia.
  replace (m * 2 ^ (e + s)) with (m * 2 ^ (e + s - sh) * 2 ^ sh).
  2:{ rewrite <- Z.mul_assoc, <- Z.pow_add_r by lia. do 2 f_equal. lia. }
  rewrite rne_exact by lia. rewrite <- Z.mul_assoc, <- Z.pow_add_r by lia. do 2 f_equal. lia.
Qed.

Theorem rnd_mono n n' s : n <= n' -> 0 <= s -> ele (rnd n s) (rnd n' s).
Proof.
  intros H Hs. unfold rnd.
  pose proof (rndMag_nonneg (Z.abs n) s). pose proof (rndMag_nonneg (Z.abs n') s).
  assert (P: 0 < 2 ^ 2098) by (apply Z.pow_pos_nonneg; lia).
  destruct (Z.ltb_spec n 0), (Z.ltb_spec n' 0); try lia.
  - assert (rndMag (Z.abs n') s <= rndMag (Z.abs n) s) by (apply rndMag_mono; lia).
    destruct (Z.leb_spec (2 ^ 2098) (rndMag (Z.abs n) s)), (Z.leb_spec (2 ^ 2098) (rndMag (Z.abs n') s)); cbn [ele]; auto; lia.
  - destruct (Z.leb_spec (2 ^ 2098) (rndMag (Z.abs n) s)), (Z.leb_spec (2 ^ 2098) (rndMag (Z.abs n') s)); cbn [ele]; auto; lia.
  - assert (rndMag (Z.abs n) s <= rndMag (Z.abs n') s) by (apply rndMag_mono; lia).
    destruct (Z.leb_spec (2 ^ 2098) (rndMag (Z.abs n) s)), (Z.leb_spec (2 ^ 2098) (rndMag (Z.abs n') s)); cbn [ele]; auto; lia.
Qed.
Theorem rnd_repr k : repr k -> rnd k 0 = Fin k.
Proof.
  intros [B [m [e [He [Hm E]]]]]. unfold rnd.
  assert (A: rndMag (Z.abs k) 0 = Z.abs k).
  { rewrite E, Z.abs_mul, (Z.abs_eq (2 ^ e)) by (apply Z.pow_nonneg; lia).
    replace (Z.abs m * 2 ^ e) with (Z.abs m * 2 ^ (e + 0)) at 1 by (f_equal; f_equal; lia).
    apply rndMag_exact; lia. }
  rewrite A. destruct (Z.leb_spec (2 ^ 2098) (Z.abs k)); [lia|].
  f_equal. destruct (Z.ltb_spec k 0); lia.
Qed.
(** The value of a double bit pattern is representable. *)
Theorem rkey_repr b k : rkey b = Some (Fin k) -> repr k.
Proof.
  unfold rkey. set (m := b mod 2 ^ 63). set (e := m / 2 ^ 52). set (f := m mod 2 ^ 52).
  assert (M: 0 <= m < 2 ^ 63) by (apply Z.mod_pos_bound; lia).
  assert (F: 0 <= f < 2 ^ 52) by (apply Z.mod_pos_bound; lia).
  assert (E: 0 <= e < 2048).
  { split. apply Z.div_pos; lia. apply Z.div_lt_upper_bound; lia. }
  clearbody f e. clear m M.
  destruct (Z.eqb_spec e 2047). { destruct (f =? 0); [destruct (2 ^ 63 <=? b)|]; intros; discriminate. }
  set (neg := 2 ^ 63 <=? b). clearbody neg.
  assert (exists q, 0 <= q < 2 ^ 53 /\ (if e =? 0 then f else (2 ^ 52 + f) * 2 ^ (e - 1)) = q * 2 ^ (Z.max 0 (e - 1))) as [q [Q1 Q2]].
  { destruct (Z.eqb_spec e 0).
    - exists f. subst e. change (Z.max 0 (0-1)) with 0. split; lia.
    - exists (2 ^ 52 + f). split; [lia|]. do 2 f_equal. lia. }
  rewrite Q2. clear Q2. intros H. injection H as <-.
  assert (U: q * 2 ^ Z.max 0 (e - 1) < 2 ^ 2098).
  { apply Z.lt_le_trans with (2 ^ 53 * 2 ^ Z.max 0 (e - 1)).
    - apply Z.mul_lt_mono_pos_r; [apply Z.pow_pos_nonneg; lia|lia].
    - rewrite <- Z.pow_add_r by lia. apply Z.pow_le_mono_r; lia. }
  assert (0 <= q * 2 ^ Z.max 0 (e - 1)) by (apply Z.mul_nonneg_nonneg; [lia|apply Z.pow_nonneg; lia]).
  split. { destruct neg; lia. }
  exists (if neg then - q else q), (Z.max 0 (e - 1)). split; [lia|]. split; destruct neg; lia.
Qed.
Theorem intBits_key n : Z.abs n < 2 ^ 53 -> rkey (intBits n) = Some (ikey n).
Proof.
  intros H. unfold intBits. destruct (Z.eqb_spec n 0) as [->|N]. { vm_compute. reflexivity. }
  set (m := Z.abs n). assert (M: 0 < m < 2 ^ 53) by lia.
  assert (L: 0 <= Z.log2 m <= 52). { split. apply Z.log2_nonneg. assert (Z.log2 m < 53); [|lia]. apply Z.log2_lt_pow2; lia. }
  destruct (Z.log2_spec m) as [A B]; [lia|].
  set (l := Z.log2 m) in *. clearbody l.
  set (f := m * 2 ^ (52 - l) - 2 ^ 52).
  assert (F: 0 <= f < 2 ^ 52).
  { unfold f. split.
    - assert (2 ^ l * 2 ^ (52 - l) <= m * 2 ^ (52 - l)) by (apply Z.mul_le_mono_nonneg_r; [apply Z.pow_nonneg; lia|lia]).
      rewrite <- Z.pow_add_r in H0 by lia. replace (l + (52 - l)) with 52 in H0 by lia. lia.
    - assert (m * 2 ^ (52 - l) < 2 ^ Z.succ l * 2 ^ (52 - l)) by (apply Z.mul_lt_mono_pos_r; [apply Z.pow_pos_nonneg; lia|lia]).
      rewrite <- Z.pow_add_r in H0 by lia. replace (Z.succ l + (52 - l)) with 53 in H0 by lia.
      change (2 ^ 53) with (2 ^ 52 + 2 ^ 52) in H0. lia. }
  set (s := if n <? 0 then 2 ^ 63 else 0).
  assert (S: s = 0 \/ s = 2 ^ 63) by (unfold s; destruct (n <? 0); auto).
  assert (E1: (s + (l + 1023) * 2 ^ 52 + f) mod 2 ^ 63 = (l + 1023) * 2 ^ 52 + f).
  { destruct S as [->| ->].
    - rewrite Z.add_0_l. apply Z.mod_small. lia.
    - replace (2 ^ 63 + (l + 1023) * 2 ^ 52 + f) with (((l + 1023) * 2 ^ 52 + f) + 1 * 2 ^ 63) by lia.
      rewrite Z.mod_add by lia. apply Z.mod_small. lia. }
  assert (E2: ((l + 1023) * 2 ^ 52 + f) / 2 ^ 52 = l + 1023).
  { rewrite Z.add_comm, Z.div_add by lia. rewrite Z.div_small by lia. lia. }
  assert (E3: ((l + 1023) * 2 ^ 52 + f) mod 2 ^ 52 = f).
  { rewrite Z.add_comm, Z.mod_add by lia. apply Z.mod_small; lia. }
  unfold rkey. rewrite E1, E2, E3.
  destruct (Z.eqb_spec (l + 1023) 2047); [lia|]. destruct (Z.eqb_spec (l + 1023) 0); [lia|].
  assert (G: (2 ^ 63 <=? s + (l + 1023) * 2 ^ 52 + f) = (n <? 0)).
  { unfold s. destruct (n <? 0); [apply Z.leb_le|apply Z.leb_gt]; lia. }
  rewrite G. unfold ikey. f_equal. f_equal.
  replace (2 ^ 52 + f) with (m * 2 ^ (52 - l)) by (unfold f; lia).
  rewrite <- Z.mul_assoc, <- Z.pow_add_r by lia. replace (52 - l + (l + 1023 - 1)) with 1074 by lia.
  unfold m. set (P := 2 ^ 1074). clearbody P. destruct (Z.ltb_spec n 0).
  - rewrite Z.abs_neq by lia. lia.
  - rewrite Z.abs_eq by lia. lia.
Qed.
