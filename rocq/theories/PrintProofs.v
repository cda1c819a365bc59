(** Proofs about the printing of Reals (C63). *)
From Coq Require Import ZArith Reals Lra List Bool Lia.
From Flocq Require Import Core BinarySingleNaN.
From Verif Require Import ValueModel FloatModel UdpQueueModel LitModel LitSpec LitProofs PrintModel.
Import ListNotations.
Open Scope Z_scope.

Lemma ilog10_spec f : forall q, 1 <= q -> (Z.to_nat (Z.log2 q) <= f)%nat -> 0 <= ilog10 f q /\ 10 ^ ilog10 f q <= q < 10 ^ (ilog10 f q + 1).
Proof.
  induction f as [|f IH]; intros q Q F.
  - assert (Z.log2 q = 0) by (pose proof (Z.log2_nonneg q); lia). assert (q < 2) by (apply Z.log2_null in H; lia). cbn [ilog10]. split; [lia|]. change (10 ^ 0) with 1. change (10 ^ (0 + 1)) with 10. lia.
  - cbn [ilog10]. destruct (Z.ltb_spec q 10) as [L|L]; [change (10 ^ 0) with 1; change (10 ^ (0 + 1)) with 10; lia|].
    assert (Q' : 1 <= q / 10) by (apply Z.div_le_lower_bound; lia).
    assert (F' : (Z.to_nat (Z.log2 (q / 10)) <= f)%nat).
    { assert (Z.log2 (q / 10) < Z.log2 q); [|pose proof (Z.log2_nonneg (q / 10)); lia].
      apply Z.log2_lt_pow2; [lia|]. apply Z.lt_le_trans with (q / 2 + 1).
      - assert (q / 10 <= q / 2) by (apply Z.div_le_compat_l; lia). lia.
      - destruct (Z.log2_spec q ltac:(lia)) as [_ U]. rewrite Z.pow_succ_r in U by apply Z.log2_nonneg.
        assert (q / 2 < 2 ^ Z.log2 q) by (apply Z.div_lt_upper_bound; lia). lia. }
    destruct (IH (q / 10) Q' F') as (P & A & B). set (k := ilog10 f (q / 10)) in *. split; [lia|]. replace (1 + k) with (Z.succ k) by lia. replace (Z.succ k + 1) with (Z.succ (k + 1)) by lia.
    rewrite !Z.pow_succ_r by lia. pose proof (Z.div_mod q 10 ltac:(lia)) as D. pose proof (Z.mod_pos_bound q 10 ltac:(lia)) as M. nia.
Qed.
Lemma log10_spec q : 1 <= q -> 0 <= log10 q /\ 10 ^ log10 q <= q < 10 ^ (log10 q + 1).
Proof. intros Q. apply ilog10_spec; [exact Q|lia]. Qed.
(** num/den lies between 10^k and 10^(k+1), written without fractions. *)
Definition between10 (num den k : Z) : Prop :=
  den * 10 ^ Z.max k 0 <= num * 10 ^ Z.max (- k) 0 /\ num * 10 ^ Z.max (- (k + 1)) 0 < den * 10 ^ Z.max (k + 1) 0.
Lemma fracLog10_spec num den : 0 < num -> 0 < den -> between10 num den (fracLog10 num den).
Proof.
  intros N D. unfold fracLog10, between10. destruct (Z.leb_spec den num) as [L|L].
  - assert (Q : 1 <= num / den) by (apply Z.div_le_lower_bound; lia). destruct (log10_spec _ Q) as (P & A & B). set (k := log10 (num / den)) in *.
    rewrite (Z.max_l k 0), (Z.max_r (- k) 0), (Z.max_r (- (k + 1)) 0), (Z.max_l (k + 1) 0) by lia. change (10 ^ 0) with 1. rewrite !Z.mul_1_r.
    pose proof (Z.div_mod num den ltac:(lia)) as DM. pose proof (Z.mod_pos_bound num den ltac:(lia)) as M. nia.
  - assert (Q : 1 <= (den - 1) / num) by (apply Z.div_le_lower_bound; lia). destruct (log10_spec _ Q) as (P & A & B). set (j := log10 ((den - 1) / num)) in *.
    replace (- - (1 + j)) with (j + 1) by lia. replace (- (- (1 + j) + 1)) with j by lia. replace (- (1 + j) + 1) with (- j) by lia.
    rewrite (Z.max_r (- (1 + j)) 0), (Z.max_l (j + 1) 0), (Z.max_l j 0), (Z.max_r (- j) 0) by lia. change (10 ^ 0) with 1. rewrite !Z.mul_1_r.
    pose proof (Z.div_mod (den - 1) num ltac:(lia)) as DM. pose proof (Z.mod_pos_bound (den - 1) num ltac:(lia)) as M. nia.
Qed.
Lemma divRound_spec a b : 0 < b -> 2 * Z.abs (divRound a b * b - a) <= b /\ (2 * Z.abs (divRound a b * b - a) = b -> Z.even (divRound a b) = true).
Proof.
  intros B. unfold divRound. pose proof (Z.div_mod a b ltac:(lia)) as D. pose proof (Z.mod_pos_bound a b B) as M.
  destruct (Z.ltb_spec (2 * (a mod b)) b); [split; nia|]. destruct (Z.ltb_spec b (2 * (a mod b))); [split; nia|].
  destruct (Z.even (a / b)) eqn:EV; (split; [nia|]); intros _; [exact EV|]. rewrite Z.even_add, EV. reflexivity.
Qed.
(** Digits. *)
Lemma digitsN_spec w : forall n, exists ds, digitsIn 10 (digitsN w n) ds /\ length ds = w /\ positional 10 ds = n mod 10 ^ Z.of_nat w /\ length (digitsN w n) = w.
Proof.
  induction w as [|w IH]; intros n.
  - exists []. cbn [digitsN length positional Z.of_nat]. rewrite Z.pow_0_r, Z.mod_1_r. repeat split; constructor.
  - destruct (IH (n / 10)) as (ds & A & L & P & L'). exists (ds ++ [n mod 10]). pose proof (Z.mod_pos_bound n 10 ltac:(lia)) as M. split; [|split; [|split]].
    + cbn [digitsN]. apply Forall2_app; [exact A|]. constructor; [|constructor]. split; [left; lia|lia].
    + rewrite app_length, L. cbn. lia.
    + assert (PS : forall (a : list Z) d, positional 10 (a ++ [d]) = positional 10 a * 10 + d).
      { clear. induction a as [|x a IHa]; intros d; [cbn; lia|]. cbn [app positional]. rewrite IHa, app_length. cbn [length]. rewrite Nat2Z.inj_add. change (Z.of_nat 1) with 1. rewrite Z.pow_add_r by lia. lia. }
      rewrite PS, P. replace (Z.of_nat (S w)) with (1 + Z.of_nat w) by lia. rewrite Z.pow_add_r by lia. change (10 ^ 1) with 10. rewrite Z.rem_mul_r by lia. lia.
    + cbn [digitsN]. rewrite app_length, L'. cbn. lia.
Qed.
Lemma positional_app b (x y : list Z) : 0 < b -> positional b (x ++ y) = positional b x * b ^ Z.of_nat (length y) + positional b y.
Proof.
  intros B. induction x as [|d x IH]; [cbn; lia|]. cbn [app positional]. rewrite IH, app_length, Nat2Z.inj_add, Z.pow_add_r by lia. lia.
Qed.
Lemma strip0_spec s : exists j, s = strip0 s ++ zeros j.
Proof.
  induction s as [|c r (j & IH)]; [exists 0%nat; reflexivity|]. cbn [strip0]. destruct (strip0 r) as [|d t] eqn:E.
  - destruct (Z.eqb_spec c 48) as [->|N]; [exists (S j); cbn; f_equal; exact IH|exists j; cbn; f_equal; exact IH].
  - exists j. cbn. f_equal. exact IH.
Qed.
Lemma zeros_digits j ds : digitsIn 10 (zeros j) ds -> positional 10 ds = 0.
Proof.
  revert ds. induction j as [|j IH]; intros ds H; inversion H as [|? d ? ds' [C _] F]; subst; [reflexivity|]. cbn [positional]. rewrite (IH ds' F). destruct C as [[_ C]|[? [C|C]]]; [|lia|lia]. replace d with 0 by lia. lia.
Qed.
Lemma zeros_have j : digitsIn 10 (zeros j) (repeat 0 j).
Proof. induction j; cbn; constructor; [split; [left; lia|lia]|assumption]. Qed.
Lemma repeat0 j : positional 10 (repeat 0 j) = 0.
Proof. induction j; cbn [repeat positional]; lia. Qed.
Lemma F2_length {A B} (P : A -> B -> Prop) l l' : Forall2 P l l' -> length l = length l'.
Proof. intros H. induction H; cbn; congruence. Qed.
(** A text of digits with a point after [a], the zeros at the end left out: as a number, n / 10^(length b). *)
Lemma mantissa_strip a b da db : digitsIn 10 a da -> digitsIn 10 b db -> a <> [] ->
  exists m k, mantissa 10 (a ++ withPoint (strip0 b)) m k /\ 0 <= k <= Z.of_nat (length b) /\ m * 10 ^ (Z.of_nat (length b) - k) = positional 10 (da ++ db).
Proof.
  intros A B NE. destruct (strip0_spec b) as (j & E). set (c := strip0 b) in *. clearbody c. rewrite E in B.
  apply Forall2_app_inv_l in B. destruct B as (dc & dz & C & Z & ->). pose proof (zeros_digits j dz Z) as Z0.
  assert (LZ : length dz = j) by (apply F2_length in Z; unfold zeros in Z; rewrite repeat_length in Z; congruence).
  assert (LC : length c = length dc) by (apply F2_length in C; exact C).
  exists (positional 10 (da ++ dc)), (Z.of_nat (length c)). split; [|split].
  - exists a, c, da, dc. split; [exact A|]. split; [exact C|]. split; [intros X; apply app_eq_nil in X; destruct X as [-> _]; inversion A; congruence|]. split; [|split; reflexivity].
    unfold withPoint. destruct c; [left; split; [now rewrite app_nil_r|reflexivity]|right; reflexivity].
  - rewrite E, app_length. lia.
  - rewrite E, app_length. unfold zeros at 1. rewrite repeat_length. replace (Z.of_nat (length c + j) - Z.of_nat (length c)) with (Z.of_nat j) by lia.
    rewrite app_assoc, (positional_app 10 (da ++ dc) dz) by lia. rewrite Z0, LZ. lia.
Qed.

(** The text and the number it says. *)
Lemma powerRZ10_pos k : (0 < powerRZ 10 k)%R. Proof. apply powerRZ_lt. lra. Qed.
Lemma powerRZ10_Z k : 0 <= k -> powerRZ 10 k = IZR (10 ^ k).
Proof. intros H. rewrite <- (Z2Nat.id k H). rewrite <- pow_powerRZ. rewrite pow_IZR. reflexivity. Qed.
Lemma powerRZ10_add a b : powerRZ 10 (a + b) = (powerRZ 10 a * powerRZ 10 b)%R. Proof. apply powerRZ_add. lra. Qed.
Lemma mantissa_value m k L x : 0 <= k <= L -> m * 10 ^ (L - k) = x -> forall e, (IZR m * powerRZ 10 (e - k) = IZR x * powerRZ 10 (e - L))%R.
Proof.
  intros K E e. rewrite <- E, mult_IZR, <- powerRZ10_Z by lia. rewrite Rmult_assoc, <- powerRZ10_add. do 2 f_equal. lia.
Qed.
Lemma printExp_exponent k : exponent [101; 69] (printExp k) k.
Proof.
  right. unfold printExp. exists 101, [if k <? 0 then 45 else 43], (k <? 0), ((if Z.abs k <? 10 then [48] else []) ++ printNat (Z.abs k)), (Z.abs k).
  split; [left; reflexivity|]. split; [destruct (k <? 0); constructor|]. destruct (printNat_numeral (Z.abs k) (Z.abs_nonneg k)) as ((ds & A & B & C) & _).
  split; [|split; [reflexivity|destruct (Z.ltb_spec k 0); cbn; lia]].
  destruct (Z.abs k <? 10).
  - exists (0 :: ds). split; [constructor; [split; [left; lia|lia]|exact A]|]. split; [discriminate|]. cbn [positional]. lia.
  - exists ds. auto.
Qed.
Lemma printG_text n k : 0 < n < 10 ^ 15 -> realBody (printG n k) (IZR n * powerRZ 10 (k - 14)).
Proof.
  intros N. unfold printG. destruct (digitsN_spec 15 n) as (ds & D & L & P & L'). rewrite Z.mod_small in P by (change (10 ^ Z.of_nat 15) with (10 ^ 15); lia). cbv zeta. set (s := digitsN 15 n) in *. clearbody s.
  assert (SP : forall w, (0 < w <= 15)%nat -> exists m j, mantissa 10 (firstn w s ++ withPoint (strip0 (skipn w s))) m j /\ 0 <= j <= 15 - Z.of_nat w /\ m * 10 ^ (15 - Z.of_nat w - j) = n).
  { intros w W. pose proof D as D'. rewrite <- (firstn_skipn w s) in D'. apply Forall2_app_inv_l in D'. destruct D' as (da & db & A & B & ->).
    destruct (mantissa_strip _ _ _ _ A B) as (m & j & M & J & V).
    - intros X. apply (f_equal (@length Z)) in X. rewrite firstn_length, L' in X. cbn in X. lia.
    - rewrite skipn_length, L' in J, V. exists m, j. split; [exact M|]. split; [lia|]. rewrite <- P, <- V. f_equal. f_equal. lia. }
  destruct (Z.leb_spec (-4) k) as [K1|K1], (Z.ltb_spec k 15) as [K2|K2]; cbn [andb].
  1: destruct (Z.leb_spec 0 k) as [K3|K3].
  - destruct (SP (Z.to_nat k + 1)%nat ltac:(lia)) as (m & j & M & J & V). rewrite <- (app_nil_r (_ ++ withPoint _)).
    replace (IZR n * powerRZ 10 (k - 14))%R with (IZR m * powerRZ 10 (0 - j))%R; [apply RB_dec; [exact M|left; split; reflexivity]|].
    rewrite (mantissa_value m j _ n J V). f_equal. f_equal. lia.
  - set (z := (Z.to_nat (- k) - 1)%nat). rewrite <- (app_nil_r (48 :: _)).
    destruct (mantissa_strip [48] (zeros z ++ s) [0] (repeat 0 z ++ ds)) as (m & j & M & J & V).
    { constructor; [split; [left; lia|lia]|constructor]. } { apply Forall2_app; [apply zeros_have|exact D]. } { discriminate. }
    assert (ST : forall z', strip0 (zeros z' ++ s) = zeros z' ++ strip0 s \/ strip0 (zeros z' ++ s) = [] /\ strip0 s = []).
    { clear. induction z' as [|z' IH]; [left; reflexivity|]. cbn [zeros repeat app strip0]. fold (zeros z'). destruct IH as [E|[E1 E2]].
      - rewrite E. destruct (zeros z' ++ strip0 s) eqn:Q; [right; split; [reflexivity|apply app_eq_nil in Q; tauto]|left; reflexivity].
      - rewrite E1. right. split; [reflexivity|exact E2]. }
    rewrite app_length in J, V. unfold zeros in J, V. rewrite repeat_length, L' in J, V. rewrite app_assoc, (positional_app 10 _ ds), P in V by lia.
    rewrite (positional_app 10 [0] (repeat 0 z)), repeat0 in V by lia. cbn [positional length] in V.
    assert (V' : m * 10 ^ (Z.of_nat (z + 15) - j) = n) by lia. clear V.
    replace (IZR n * powerRZ 10 (k - 14))%R with (IZR m * powerRZ 10 (0 - j))%R.
    2:{ rewrite (mantissa_value m j (Z.of_nat (z + 15)) n J V'). f_equal. f_equal. lia. }
    apply RB_dec; [|left; split; reflexivity]. destruct (ST z) as [E|[E1 E2]].
    + rewrite E in M. exact M.
    + exfalso. destruct (strip0_spec s) as (i & E). rewrite E2 in E. cbn [app] in E. rewrite E in D. apply zeros_digits in D. lia.
  - destruct (SP 1%nat ltac:(lia)) as (m & j & M & J & V). rewrite app_assoc.
    replace (IZR n * powerRZ 10 (k - 14))%R with (IZR m * powerRZ 10 (k - j))%R; [apply RB_dec; [exact M|apply printExp_exponent]|].
    rewrite (mantissa_value m j _ n J V). reflexivity.
  - destruct (SP 1%nat ltac:(lia)) as (m & j & M & J & V). rewrite app_assoc.
    replace (IZR n * powerRZ 10 (k - 14))%R with (IZR m * powerRZ 10 (k - j))%R; [apply RB_dec; [exact M|apply printExp_exponent]|].
    rewrite (mantissa_value m j _ n J V). reflexivity.
  - lia.
Qed.

(** The decimal number. *)
Lemma max_ratio k : (powerRZ 10 k * IZR (10 ^ Z.max (- k) 0) = IZR (10 ^ Z.max k 0))%R.
Proof. rewrite <- !powerRZ10_Z by lia. rewrite <- powerRZ10_add. f_equal. lia. Qed.
Lemma bpow_ratio e : (bpow radix2 e * IZR (2 ^ Z.max (- e) 0) = IZR (2 ^ Z.max e 0))%R.
Proof.
  assert (B : forall z, 0 <= z -> IZR (2 ^ z) = bpow radix2 z) by (intros z H; rewrite <- IZR_Zpower by exact H; reflexivity).
  rewrite !B by lia. rewrite <- bpow_plus. f_equal. lia.
Qed.
Lemma decimal15_spec m e : 0 < m -> let v := (IZR m * bpow radix2 e)%R in
  exists n0 k0, (powerRZ 10 k0 <= v < powerRZ 10 (k0 + 1))%R /\ 10 ^ 14 <= n0 <= 10 ^ 15
  /\ (Rabs (IZR n0 * powerRZ 10 (k0 - 14) - v) <= / 2 * powerRZ 10 (k0 - 14))%R
  /\ ((Rabs (IZR n0 * powerRZ 10 (k0 - 14) - v) = / 2 * powerRZ 10 (k0 - 14))%R -> Z.even n0 = true)
  /\ 0 < fst (decimal15 m e) < 10 ^ 15
  /\ (IZR (fst (decimal15 m e)) * powerRZ 10 (snd (decimal15 m e) - 14) = IZR n0 * powerRZ 10 (k0 - 14))%R.
Proof.
  intros M v. unfold decimal15. cbv zeta. set (num := m * 2 ^ Z.max e 0). set (den := 2 ^ Z.max (- e) 0).
  assert (N0 : 0 < num) by (unfold num; pose proof (Z.pow_pos_nonneg 2 (Z.max e 0) ltac:(lia) ltac:(lia)); nia).
  assert (D0 : 0 < den) by (unfold den; apply Z.pow_pos_nonneg; lia).
  assert (V : (IZR num = v * IZR den)%R) by (unfold num, den, v; rewrite mult_IZR, <- bpow_ratio; ring).
  assert (DR : (0 < IZR den)%R) by (apply (IZR_lt 0); exact D0).
  assert (V0 : (0 < v)%R) by (assert (0 < IZR num)%R by (apply (IZR_lt 0); exact N0); rewrite V in H; nra).
  clearbody num den v. pose proof (fracLog10_spec num den N0 D0) as (B1 & B2). set (k := fracLog10 num den) in *. clearbody k.
  assert (P : forall z, (0 < IZR (10 ^ Z.max z 0))%R) by (intros z; apply (IZR_lt 0); apply Z.pow_pos_nonneg; lia).
  assert (K1 : (powerRZ 10 k <= v)%R).
  { apply IZR_le in B1. rewrite !mult_IZR, V, <- (max_ratio k) in B1. apply Rmult_le_reg_r with (IZR den * IZR (10 ^ Z.max (- k) 0))%R; [apply Rmult_lt_0_compat; auto|]. lra. }
  assert (K2 : (v < powerRZ 10 (k + 1))%R).
  { apply IZR_lt in B2. rewrite !mult_IZR, V, <- (max_ratio (k + 1)) in B2. apply Rmult_lt_reg_r with (IZR den * IZR (10 ^ Z.max (- (k + 1)) 0))%R; [apply Rmult_lt_0_compat; auto|]. lra. }
  set (a := num * 10 ^ Z.max (14 - k) 0). set (b := den * 10 ^ Z.max (k - 14) 0).
  assert (B0 : 0 < b) by (unfold b; pose proof (Z.pow_pos_nonneg 10 (Z.max (k - 14) 0) ltac:(lia) ltac:(lia)); nia).
  pose proof (divRound_spec a b B0) as (R & RT). set (n := divRound a b) in *. clearbody n.
  assert (AB : (IZR a = v * powerRZ 10 (14 - k) * IZR b)%R).
  { unfold a, b. rewrite !mult_IZR, V. rewrite <- (max_ratio (14 - k)). replace (- (14 - k)) with (k - 14) by lia. ring. }
  assert (BR : (0 < IZR b)%R) by (apply (IZR_lt 0); exact B0). clearbody a b.
  assert (NE : (Rabs (IZR n - v * powerRZ 10 (14 - k)) <= / 2)%R).
  { apply IZR_le in R. rewrite mult_IZR, abs_IZR, minus_IZR, mult_IZR, AB in R.
    replace (IZR n * IZR b - v * powerRZ 10 (14 - k) * IZR b)%R with ((IZR n - v * powerRZ 10 (14 - k)) * IZR b)%R in R by ring.
    rewrite Rabs_mult, (Rabs_pos_eq (IZR b)) in R by lra. apply Rmult_le_reg_r with (IZR b); [exact BR|]. lra. }
  assert (NT : (Rabs (IZR n - v * powerRZ 10 (14 - k)) = / 2)%R -> Z.even n = true).
  { intros H. apply RT. apply eq_IZR. rewrite mult_IZR, abs_IZR, minus_IZR, mult_IZR, AB.
    replace (IZR n * IZR b - v * powerRZ 10 (14 - k) * IZR b)%R with ((IZR n - v * powerRZ 10 (14 - k)) * IZR b)%R by ring.
    rewrite Rabs_mult, (Rabs_pos_eq (IZR b)), H by lra. lra. }
  assert (PK : (powerRZ 10 (k - 14) * powerRZ 10 (14 - k) = 1)%R) by (rewrite <- powerRZ10_add; replace (k - 14 + (14 - k)) with 0 by lia; reflexivity).
  pose proof (powerRZ10_pos (14 - k)) as Q1. pose proof (powerRZ10_pos (k - 14)) as Q2.
  assert (L1 : (IZR (10 ^ 14) <= v * powerRZ 10 (14 - k))%R).
  { rewrite <- powerRZ10_Z by lia. replace 14 with (k + (14 - k)) at 1 by lia. rewrite powerRZ10_add. apply Rmult_le_compat_r; lra. }
  assert (L2 : (v * powerRZ 10 (14 - k) < IZR (10 ^ 15))%R).
  { rewrite <- powerRZ10_Z by lia. replace 15 with ((k + 1) + (14 - k)) by lia. rewrite powerRZ10_add. apply Rmult_lt_compat_r; lra. }
  apply Rabs_le_inv in NE.
  assert (NB : 10 ^ 14 <= n <= 10 ^ 15).
  { split.
    - assert (10 ^ 14 - 1 < n); [|lia]. apply lt_IZR. rewrite minus_IZR. lra.
    - assert (n < 10 ^ 15 + 1); [|lia]. apply lt_IZR. rewrite plus_IZR. lra. }
  exists n, k. split; [split; assumption|]. split; [exact NB|]. split.
  { replace (IZR n * powerRZ 10 (k - 14) - v)%R with ((IZR n - v * powerRZ 10 (14 - k)) * powerRZ 10 (k - 14))%R.
    - rewrite Rabs_mult, (Rabs_pos_eq (powerRZ 10 (k - 14))) by lra. apply Rmult_le_compat_r; [lra|]. apply Rabs_le. exact NE.
    - rewrite Rmult_minus_distr_r, Rmult_assoc, (Rmult_comm (powerRZ 10 (14 - k))), PK. ring. }
  split.
  { intros H. apply NT. replace (IZR n * powerRZ 10 (k - 14) - v)%R with ((IZR n - v * powerRZ 10 (14 - k)) * powerRZ 10 (k - 14))%R in H.
    - rewrite Rabs_mult, (Rabs_pos_eq (powerRZ 10 (k - 14))) in H by lra. apply Rmult_eq_reg_r in H; [exact H|lra].
    - rewrite Rmult_minus_distr_r, Rmult_assoc, (Rmult_comm (powerRZ 10 (14 - k))), PK. ring. }
  destruct (Z.eqb_spec n (10 ^ 15)) as [E|E]; cbn [fst snd].
  - split; [lia|]. rewrite E. rewrite <- !powerRZ10_Z by lia. rewrite <- !powerRZ10_add. f_equal. lia.
  - split; [lia|reflexivity].
Qed.
