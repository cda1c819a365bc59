(** Rounding error of the binary64 model, and the tolerance thresholds of Real change lookups. *)
From Verif Require Import ValueModel RealModel RealProofs.
Open Scope Z_scope.

Lemma rne_half m sh : 0 <= m -> 0 <= sh -> 2 * Z.abs (rne m sh * 2 ^ sh - m) <= 2 ^ sh.
Proof.
  intros. assert (P : 0 < 2 ^ sh) by (apply Z.pow_pos_nonneg; lia). unfold rne.
  pose proof (Z.div_mod m (2 ^ sh)). pose proof (Z.mod_pos_bound m (2 ^ sh) P).
  destruct (Z.ltb_spec (2 * (m mod 2 ^ sh)) (2 ^ sh)); [nia|]. destruct (Z.ltb_spec (2 ^ sh) (2 * (m mod 2 ^ sh))); [nia|].
  destruct (Z.even (m / 2 ^ sh)); nia.
Qed.
Lemma rndMag_err m s : 0 <= m -> 0 <= s ->
  2 * Z.abs (rndMag m s * 2 ^ s - m) <= 2 ^ s \/ 2 ^ 53 * Z.abs (rndMag m s * 2 ^ s - m) <= m.
Proof.
  intros Hm Hs. unfold rndMag. set (sh := Z.max s (Z.log2 m - 52)). assert (S : s <= sh) by lia.
  replace (rne m sh * 2 ^ (sh - s) * 2 ^ s) with (rne m sh * 2 ^ sh) by (rewrite <- Z.mul_assoc, <- Z.pow_add_r by lia; do 2 f_equal; lia).
  pose proof (rne_half m sh Hm ltac:(lia)) as E. destruct (Z.eq_dec sh s) as [->|N]; [left; exact E|right].
  assert (L : sh = Z.log2 m - 52) by lia. assert (0 < m). { destruct (Z.eq_dec m 0) as [->|]; [cbn in L|]; lia. }
  destruct (Z.log2_spec m) as [A _]; [lia|]. assert (B : 2 ^ Z.log2 m = 2 ^ 52 * 2 ^ sh). { rewrite <- Z.pow_add_r by lia. f_equal. lia. }
  rewrite B in A. change (2 ^ 53) with (2 * 2 ^ 52). nia.
Qed.
Lemma rndMag_err0 m : 0 <= m -> 2 ^ 53 * Z.abs (rndMag m 0 - m) <= m.
Proof.
  intros H. destruct (rndMag_err m 0 H ltac:(lia)) as [E|E]; change (2 ^ 0) with 1 in E; rewrite Z.mul_1_r in E; [|exact E].
  assert (rndMag m 0 = m) as -> by lia. replace (m - m) with 0 by lia. cbn. lia.
Qed.
Lemma rnd_err0 n k : rnd n 0 = Fin k -> 2 ^ 53 * Z.abs (k - n) <= Z.abs n.
Proof.
  unfold rnd. pose proof (rndMag_err0 (Z.abs n) ltac:(lia)) as E. intros H0. destruct (_ <=? _); [destruct (n <? 0); discriminate|].
  inversion H0; subst; clear H0. set (r := rndMag (Z.abs n) 0) in *. clearbody r. destruct (Z.ltb_spec n 0); lia.
Qed.
(** eps = fl(|y| * 1e-13): below 0.9 * 2^-43 |y| plus half a unit. *)
Lemma eps_bound y : Z.abs y < 2 ^ 2098 -> exists k, rnd (Z.abs y * c13M) c13p = Fin k /\ 0 <= k /\ 20 * 2 ^ 42 * k <= 9 * Z.abs y + 10 * 2 ^ 42.
Proof.
  intros B. unfold rnd. set (m := Z.abs (Z.abs y * c13M)). assert (M : m = Z.abs y * c13M) by (unfold m, c13M in *; lia).
  assert (S : (Z.abs y * c13M <? 0) = false) by (apply Z.ltb_ge; unfold c13M; lia). rewrite S. clearbody m.
  pose proof (rndMag_nonneg m c13p ltac:(unfold c13M in *; lia) ltac:(unfold c13p; lia)) as NN.
  pose proof (rndMag_err m c13p ltac:(unfold c13M in *; lia) ltac:(unfold c13p; lia)) as E. set (r := rndMag m c13p) in *. clearbody r.
  assert (Q : 20 * 2 ^ 42 * r <= 9 * Z.abs y + 10 * 2 ^ 42).
  { unfold c13p, c13M in *. set (a := Z.abs y) in *. assert (0 <= a) by (unfold a; lia). clearbody a. subst m. clear - E NN H.
    destruct E as [E|E].
    - change (2 ^ 96) with 79228162514264337593543950336 in E. change (2 ^ 42) with 4398046511104. lia.
    - change (2 ^ 96) with 79228162514264337593543950336 in E. change (2 ^ 53) with 9007199254740992 in E. change (2 ^ 42) with 4398046511104. lia. }
  destruct (Z.leb_spec (2 ^ 2098) r).
  - exfalso. change (2 ^ 2098) with (2 ^ 2000 * 2 ^ 98) in *. assert (1 <= 2 ^ 2000) by (vm_compute; discriminate). 
    change (2 ^ 42) with 4398046511104 in Q. assert (2 ^ 98 <= 2 ^ 2000 * 2 ^ 98) by nia. set (X := 2 ^ 2000 * 2 ^ 98) in *. clearbody X. 
    change (2 ^ 98) with 316912650057057350374175801344 in *. lia.
  - exists r. auto.
Qed.
Definition eneg (e : ext) : ext := match e with NInf => PInf | PInf => NInf | Fin x => Fin (- x) end.
Lemma rnd_opp n : rnd (- n) 0 = eneg (rnd n 0).
Proof.
  unfold rnd. rewrite Z.abs_opp. destruct (Z.leb_spec (2 ^ 2098) (rndMag (Z.abs n) 0)).
  - assert (n <> 0). { intros ->. assert (rndMag (Z.abs 0) 0 = 0) by reflexivity. rewrite H0 in H. assert (0 < 2 ^ 2098) by (apply Z.pow_pos_nonneg; lia). lia. }
    destruct (Z.ltb_spec (- n) 0), (Z.ltb_spec n 0); cbn; auto; lia.
  - destruct (Z.eq_dec n 0) as [->|N]; [reflexivity|]. destruct (Z.ltb_spec (- n) 0), (Z.ltb_spec n 0); cbn; auto; try lia. now rewrite Z.opp_involutive.
Qed.
Lemma radd_comm a b : radd a b = radd b a.
Proof. destruct a as [[]|], b as [[]|]; cbn; auto. now rewrite Z.add_comm. Qed.
Lemma side n y k : repr y -> 0 < n - y -> Z.abs n + Z.abs y <= 2 ^ 42 * (n - y) -> 20 * 2 ^ 42 * k <= 9 * Z.abs y + 10 * 2 ^ 42 ->
  ext_lt (Fin y) (rnd n 0) = true /\ oext_lt (rsub (Some (rnd n 0)) (Some (Fin y))) (Some (Fin k)) = false.
Proof.
  intros R D B K. pose proof (rnd_mono y n 0 ltac:(lia) ltac:(lia)) as M. rewrite (rnd_repr y R) in M.
  pose proof (rnd_err0 n) as E. destruct (rnd n 0) as [|h|] eqn:RN; cbn in M; try tauto.
  - specialize (E h eq_refl). change (2 ^ 53) with 9007199254740992 in *. change (2 ^ 42) with 4398046511104 in *.
    assert (HY : 0 < h - y) by lia.
    split. { cbn. apply Z.ltb_lt. lia. }
    cbn. change (h + - y) with (h - y). pose proof (rnd_err0 (h - y)) as E2.
    pose proof (rnd_mono 0 (h - y) 0 ltac:(lia) ltac:(lia)) as M2. change (rnd 0 0) with (Fin 0) in M2.
    destruct (rnd (h - y) 0) as [|j|]; cbn in M2; try tauto.
    specialize (E2 j eq_refl). cbn. apply Z.ltb_ge. change (2 ^ 53) with 9007199254740992 in *. lia.
Qed.
(** Distances clearly below the tolerance t are within the thresholds, guard band included. *)
Lemma within_quiet x y t : repr y -> 0 <= t -> 0 < t - Z.abs (y - x) -> Z.abs x + Z.abs y + t <= 2 ^ 42 * (t - Z.abs (y - x)) ->
  let c := Some (Fin y) in let hi := radd (Some (Fin x)) (Some (Fin t)) in let lo := rsub (Some (Fin x)) (Some (Fin t)) in
  let eps := rmulc (rabs c) c13M c13p in
  rge c hi = false /\ rle c lo = false /\ oext_lt (rsub hi c) eps = false /\ oext_lt (rsub c lo) eps = false.
Proof.
  intros R T D B c hi lo eps. destruct (eps_bound y) as [k [K1 [K2 K3]]]; [apply R|].
  assert (EPS : eps = Some (Fin k)). { unfold eps, c. cbn [rabs rmulc]. now rewrite K1. }
  assert (R' : repr (- y)). { destruct R as [R1 [m [e [R2 [R3 R4]]]]]. split; [lia|]. exists (- m), e. split; auto. split; lia. }
  destruct (side (x + t) y k R) as [S1 S2]; auto; [lia| |]. { change (2 ^ 42) with 4398046511104 in *. lia. }
  destruct (side (t - x) (- y) k R') as [S3 S4]; [lia| |rewrite Z.abs_opp; auto|]. { change (2 ^ 42) with 4398046511104 in *. lia. }
  assert (HI : hi = Some (rnd (x + t) 0)) by reflexivity.
  assert (LO : lo = Some (eneg (rnd (t - x) 0))). { unfold lo, rsub. cbn. rewrite <- rnd_opp. do 2 f_equal. lia. }
  rewrite EPS, HI, LO. unfold rge, rle, c.
  assert (Q : forall a b, ext_lt a b = true -> ext_lt b a = false /\ ext_eq a b = false /\ ext_eq b a = false).
  { intros [] []; cbn; try discriminate; auto. intros X. apply Z.ltb_lt in X. rewrite Z.ltb_ge, !Z.eqb_neq. lia. }
  split. { cbn [oext_lt oext_eq]. destruct (Q _ _ S1) as (-> & -> & _). reflexivity. }
  split.
  { cbn [oext_lt oext_eq]. assert (S5 : ext_lt (eneg (rnd (t - x) 0)) (Fin y) = true).
    { destruct (rnd (t - x) 0); cbn in *; auto; try discriminate. apply Z.ltb_lt in S3. apply Z.ltb_lt. lia. }
    destruct (Q _ _ S5) as (-> & _ & ->). reflexivity. }
  split; [exact S2|]. revert S4. unfold rsub. rewrite radd_comm.
  assert (rneg (Some (Fin (- y))) = Some (Fin y)) as -> by (cbn; do 2 f_equal; lia).
  assert (rneg (Some (eneg (rnd (t - x) 0))) = Some (rnd (t - x) 0)) as ->; auto.
  destruct (rnd (t - x) 0); cbn; auto. do 2 f_equal. lia.
Qed.
