From Coq Require Import ZArith Reals List Bool String Lia Lra Psatz.
From Flocq Require Import Core BinarySingleNaN.
From Verif Require Import ValueModel FloatModel TypeModel UdpQueueModel LitModel LitSpec.
Import ListNotations.
Open Scope Z_scope.

Lemma streq_true a b : streq a b = true <-> a = b.
Proof. unfold streq. destruct (str_eq_dec a b); split; auto; discriminate. Qed.
Lemma streq_false a b : streq a b = false <-> a <> b.
Proof. unfold streq. destruct (str_eq_dec a b); split; auto; try discriminate. congruence. Qed.

(** ** Characters *)
Ltac zb := repeat match goal with
  | H : (_ && _)%bool = true |- _ => apply andb_true_iff in H as [? ?]
  | H : (_ || _)%bool = false |- _ => apply orb_false_iff in H as [? ?]
  | |- context [?a =? ?b] => destruct (Z.eqb_spec a b)
  | |- context [?a <=? ?b] => destruct (Z.leb_spec a b)
  | |- context [?a <? ?b] => destruct (Z.ltb_spec a b)
  end.
Lemma digitVal_spec b c : b <= 36 -> (digitVal c <? b) = true <-> (exists d, digitChar c d /\ d < b) /\ digitVal c < b.
Proof.
  intros B. rewrite Z.ltb_lt. split; [|tauto]. intros H. split; [|exact H]. exists (digitVal c). split; [|exact H]. revert H. unfold digitVal, digitChar.
  zb; cbn [andb]; lia.
Qed.
Lemma digitVal_char c d : digitChar c d -> digitVal c = d.
Proof. unfold digitVal, digitChar. intros H. zb; cbn [andb]; lia. Qed.
Lemma digitVal_lt_char b c : b <= 36 -> digitVal c < b -> digitChar c (digitVal c).
Proof.
  intros B H. assert (E : (digitVal c <? b) = true) by (apply Z.ltb_lt; exact H). apply digitVal_spec in E as [[d [D L]] _]; [|exact B].
  rewrite (digitVal_char c d D). exact D.
Qed.
Lemma digitVal_nonneg c : 0 <= digitVal c.
Proof. unfold digitVal. zb; cbn [andb]; lia. Qed.
Definition stops (b : Z) (t : str) : Prop := match t with [] => True | c :: _ => b <= digitVal c end.
Lemma takeDigits_inv b s ds t : b <= 36 -> takeDigits b s = (ds, t) -> exists p, s = p ++ t /\ digitsIn b p ds /\ stops b t.
Proof.
  intros B. revert ds t. induction s as [|c r IH]; intros ds t H; cbn [takeDigits] in H.
  - injection H as <- <-. exists []. split; [reflexivity|]. split; [constructor|exact I].
  - destruct (Z.ltb_spec (digitVal c) b) as [L|L].
    + destruct (takeDigits b r) as [ds' t'] eqn:E. injection H as <- <-. destruct (IH _ _ eq_refl) as (p & -> & D & S).
      exists (c :: p). split; [reflexivity|]. split; [|exact S]. constructor; [|exact D]. split; [|exact L]. eapply digitVal_lt_char; eauto.
    + injection H as <- <-. exists []. split; [reflexivity|]. split; [constructor|]. exact L.
Qed.
Lemma takeDigits_app b p ds t : digitsIn b p ds -> stops b t -> takeDigits b (p ++ t) = (ds, t).
Proof.
  intros D S. induction D as [|c d p ds [C L] D IH]; cbn [app takeDigits].
  - destruct t as [|c r]; [reflexivity|]. cbn in S |- *. destruct (Z.ltb_spec (digitVal c) b); [lia|reflexivity].
  - rewrite (digitVal_char _ _ C). destruct (Z.ltb_spec d b); [|lia]. rewrite IH. reflexivity.
Qed.
Lemma number_positional_acc b ds a : fold_left (fun a d => a * b + d) ds a = a * b ^ Z.of_nat (length ds) + positional b ds.
Proof.
  revert a. induction ds as [|d r IH]; intros a; cbn [fold_left positional length].
  - change (b ^ Z.of_nat 0) with 1. lia.
  - rewrite IH. rewrite Nat2Z.inj_succ, Z.pow_succ_r by lia. nia.
Qed.
Lemma number_positional b ds : number b ds = positional b ds.
Proof. unfold number. rewrite number_positional_acc. lia. Qed.
Lemma digitsIn_len b p ds : digitsIn b p ds -> length p = length ds.
Proof. intros H. induction H; cbn; congruence. Qed.
Lemma positional_nonneg b p ds : 0 <= b -> digitsIn b p ds -> 0 <= positional b ds.
Proof.
  intros B D. induction D as [|c d p ds [C L] D IH]; [cbn; lia|]. cbn [positional]. assert (0 <= d) by (destruct C; lia).
  apply Z.add_nonneg_nonneg; auto. apply Z.mul_nonneg_nonneg; auto. apply Z.pow_nonneg. exact B.
Qed.

(** ** Blanks and signs *)
Lemma isSpace_in c : isSpace c = true <-> In c [9; 10; 11; 12; 13; 32].
Proof. unfold isSpace. cbn [In]. zb; cbn; split; intros; try lia; try reflexivity; discriminate. Qed.
Lemma skipSpace_inv s : exists ws, s = ws ++ skipSpace s /\ blank ws /\ match skipSpace s with [] => True | c :: _ => isSpace c = false end.
Proof.
  induction s as [|c r (ws & E & B & N)]; cbn [skipSpace].
  - exists []. repeat constructor.
  - destruct (isSpace c) eqn:I.
    + exists (c :: ws). split; [cbn; f_equal; exact E|]. split; [|exact N]. constructor; [apply isSpace_in; exact I|exact B].
    + exists []. split; [reflexivity|]. split; [constructor|exact I].
Qed.
Lemma skipSpace_app ws t : blank ws -> match t with [] => True | c :: _ => isSpace c = false end -> skipSpace (ws ++ t) = t.
Proof.
  intros B N. induction B as [|c ws C B IH]; cbn [app skipSpace].
  - destruct t; [reflexivity|]. cbn. rewrite N. reflexivity.
  - apply isSpace_in in C. rewrite C. exact IH.
Qed.
Lemma takeSign_inv s neg r : takeSign s = (neg, r) -> exists sg, sign sg neg /\ s = sg ++ r.
Proof.
  destruct s as [|c t]; cbn [takeSign].
  - intros [= <- <-]. exists []. split; [constructor|reflexivity].
  - destruct (Z.eqb_spec c 45) as [->|N1]; [intros [= <- <-]; exists [45]; split; [constructor|reflexivity]|].
    destruct (Z.eqb_spec c 43) as [->|N2]; [intros [= <- <-]; exists [43]; split; [constructor|reflexivity]|].
    intros [= <- <-]. exists []. split; [constructor|reflexivity].
Qed.
(** The first character is neither a blank nor a sign. *)
Definition starts (t : str) : Prop := match t with [] => True | c :: _ => isSpace c = false /\ c <> 45 /\ c <> 43 end.
Lemma takeSign_app sg neg t : sign sg neg -> starts t -> takeSign (sg ++ t) = (neg, t).
Proof.
  intros S T. destruct S; cbn [app takeSign Z.eqb Pos.eqb]; try reflexivity. destruct t as [|c r]; [reflexivity|]. cbn in T |- *.
  destruct (Z.eqb_spec c 45); [tauto|]. destruct (Z.eqb_spec c 43); [tauto|]. reflexivity.
Qed.
Lemma front_app ws sg neg t : blank ws -> sign sg neg -> starts t -> takeSign (skipSpace (ws ++ sg ++ t)) = (neg, t).
Proof.
  intros B S T. rewrite skipSpace_app; auto.
  - apply takeSign_app; auto.
  - destruct S; cbn; try reflexivity. destruct t; [exact I|]. apply T.
Qed.
Lemma front_inv s neg t : takeSign (skipSpace s) = (neg, t) -> exists ws sg, blank ws /\ sign sg neg /\ s = ws ++ sg ++ t.
Proof.
  intros H. destruct (skipSpace_inv s) as (ws & E & B & N). apply takeSign_inv in H as (sg & S & F).
  exists ws, sg. split; [exact B|]. split; [exact S|]. rewrite <- F. exact E.
Qed.
Lemma digitChar_starts c d r : digitChar c d -> starts (c :: r).
Proof. unfold digitChar, starts, isSpace. intros H. split; [|lia]. zb; cbn; lia || reflexivity. Qed.

(** ** Integers *)
Lemma numeral_cons b s n : numeral b s n -> exists c r d ds, s = c :: r /\ digitChar c d /\ d < b /\ digitsIn b r ds /\ n = positional b (d :: ds).
Proof.
  intros (ds & D & N & ->). destruct D as [|c d p ds [C L] D]; [congruence|]. exists c, p, d, ds. auto.
Qed.
Lemma choose_body s n : intBody s n -> exists b s3 ds, choose s = (b, s3) /\ takeDigits b s3 = (ds, []) /\ ds <> [] /\ number b ds = n.
Proof.
  intros H. destruct H as [s n H N|s n H|x s n X H].
  - pose proof H as H'. destruct H' as (ds & D & NE & ->). destruct (numeral_cons _ _ _ H) as (c & r & d & ds' & -> & _). exists 10, (c :: r), ds. cbn in N.
    split. { cbn. destruct (Z.eqb_spec c 48); [congruence|]. reflexivity. }
    split. { pose proof (takeDigits_app 10 _ _ [] D I) as T. rewrite app_nil_r in T. exact T. } split; [exact NE|]. apply number_positional.
  - destruct H as (ds & D & NE & ->). exists 8, (48 :: s), ds.
    split. { cbn. destruct s as [|x [|h r]]; try reflexivity. destruct (isX x) eqn:IX; [|reflexivity]. exfalso.
      inversion D as [|c0 d0 p0 ds0 _ D' E1 E2]; subst. inversion D' as [|c1 d1 p1 ds1 [C L] _ E3 E4]; subst.
      unfold isX in IX. apply orb_true_iff in IX. unfold digitChar in C. destruct IX as [IX|IX]; apply Z.eqb_eq in IX; lia. }
    split. { pose proof (takeDigits_app 8 _ _ [] D I) as T. rewrite app_nil_r in T. exact T. } split; [exact NE|]. apply number_positional.
  - pose proof H as H'. destruct H' as (ds & D & NE & ->). destruct (numeral_cons _ _ _ H) as (c & r & d & ds' & -> & C & L & _). exists 16, (c :: r), ds.
    split. { cbn. assert (IX : isX x = true) by (unfold isX; destruct X as [-> | ->]; reflexivity). rewrite IX, (digitVal_char _ _ C).
      destruct (Z.ltb_spec d 16); [reflexivity|lia]. }
    split. { pose proof (takeDigits_app 16 _ _ [] D I) as T. rewrite app_nil_r in T. exact T. } split; [exact NE|]. apply number_positional.
Qed.
Lemma body_choose s b s3 ds : choose s = (b, s3) -> takeDigits b s3 = (ds, []) -> ds <> [] -> intBody s (number b ds).
Proof.
  intros C T N. rewrite number_positional. unfold choose in C. destruct s as [|z r].
  - injection C as <- <-. cbn in T. injection T as <-. congruence.
  - destruct (Z.eqb_spec z 48) as [->|NZ].
    + assert (O : forall b' s', (b', s') = (b, s3) -> b' = 8 -> s' = 48 :: r -> intBody (48 :: r) (positional b ds)).
      { intros b' s' [= -> ->] -> ->. apply takeDigits_inv in T as (p & E & D & _); [|lia]. rewrite app_nil_r in E. subst p. apply IB_oct. exists ds. auto. }
      destruct r as [|x [|h r']]; try (eapply O; [exact C|reflexivity|reflexivity]).
      destruct (isX x && (digitVal h <? 16)) eqn:E; [|eapply O; [exact C|reflexivity|reflexivity]].
      injection C as <- <-. apply takeDigits_inv in T as (p & E' & D & _); [|lia]. rewrite app_nil_r in E'. subst p.
      apply andb_true_iff in E as [E _]. unfold isX in E. apply orb_true_iff in E. constructor 3; [rewrite !Z.eqb_eq in E; exact E|]. exists ds. auto.
    + injection C as <- <-. apply takeDigits_inv in T as (p & E' & D & _); [|lia]. rewrite app_nil_r in E'. subst p.
      constructor 1; [exists ds; auto|exact NZ].
Qed.
Lemma intBody_starts s n : intBody s n -> starts s.
Proof.
  intros H. destruct H as [s n H N|s n H|x s n X H]; [|cbn; lia|cbn; lia].
  destruct (numeral_cons _ _ _ H) as (c & r & d & ds & -> & C & _). eapply digitChar_starts; eauto.
Qed.
Lemma strtol_spec s neg m : strtoMag 0 s = Some (neg, m, []) <-> exists ws sg body, blank ws /\ sign sg neg /\ intBody body m /\ s = ws ++ sg ++ body.
Proof.
  unfold strtoMag. change (0 =? 0) with true. cbn iota. split.
  - destruct (takeSign (skipSpace s)) as [ng s2] eqn:F. destruct (choose s2) as [b s3] eqn:C. destruct (takeDigits b s3) as [ds rest] eqn:T.
    destruct ds as [|d ds]; [discriminate|]. intros [= <- <- ->]. apply front_inv in F as (ws & sg & B & S & ->).
    exists ws, sg, s2. split; [exact B|]. split; [exact S|]. split; [|reflexivity]. eapply body_choose; eauto. discriminate.
  - intros (ws & sg & body & B & S & H & ->). rewrite (front_app ws sg neg body B S (intBody_starts _ _ H)).
    destruct (choose_body _ _ H) as (b & s3 & ds & C & T & N & E). rewrite C, T. destruct ds; [congruence|]. rewrite E. reflexivity.
Qed.
Lemma strto10_spec s neg m : strtoMag 10 s = Some (neg, m, []) <-> decimalText s neg m.
Proof.
  unfold strtoMag, decimalText. change (10 =? 0) with false. cbn iota. split.
  - destruct (takeSign (skipSpace s)) as [ng s2] eqn:F. destruct (takeDigits 10 s2) as [ds rest] eqn:T.
    destruct ds as [|d ds]; [discriminate|]. intros [= <- <- ->]. apply front_inv in F as (ws & sg & B & S & ->).
    exists ws, sg, s2. split; [exact B|]. split; [exact S|]. split; [|reflexivity]. apply takeDigits_inv in T as (p & E & D & _); [|lia].
    rewrite app_nil_r in E. subst p. exists (d :: ds). split; [exact D|]. split; [discriminate|]. apply number_positional.
  - intros (ws & sg & body & B & S & H & ->). destruct (numeral_cons _ _ _ H) as (c & r & d & ds & E & C & _).
    assert (ST : starts body) by (subst body; eapply digitChar_starts; eauto).
    rewrite (front_app ws sg neg body B S ST). destruct H as (ds' & D & N & ->).
    pose proof (takeDigits_app 10 _ _ [] D I) as T. rewrite app_nil_r in T. rewrite T. destruct ds'; [congruence|]. rewrite number_positional. reflexivity.
Qed.
Lemma numeral_nonneg b s n : 0 <= b -> numeral b s n -> 0 <= n.
Proof. intros B (ds & D & _ & ->). eapply positional_nonneg; eauto. Qed.
Lemma intBody_nonneg s n : intBody s n -> 0 <= n.
Proof. intros H. destruct H as [s n H N|s n H|x s n X H]; eapply numeral_nonneg; try exact H; lia. Qed.
Lemma longOf_spec neg m v : 0 <= m -> longOf neg m = (v, false) <-> v = withSign neg m /\ - 2 ^ 63 <= v < 2 ^ 63.
Proof.
  intros M. unfold longOf, withSign. set (w := if neg then - m else m). destruct (Z.ltb_spec w (- 2 ^ 63)); [split; [discriminate|lia]|].
  destruct (Z.ltb_spec (2 ^ 63 - 1) w); [split; [discriminate|lia]|]. split; [intros [= <-]; lia|]. intros [-> _]. reflexivity.
Qed.
Theorem parseInteger_spec s z : parseInteger s = Known z <-> s <> chars "UNKNOWN" /\ intText s z /\ - 2 ^ 31 <= z < 2 ^ 31.
Proof.
  unfold parseInteger. destruct (streq s []) eqn:E0.
  { apply streq_true in E0. subst s. cbn [orb]. split; [discriminate|]. intros (_ & (ws & sg & neg & body & n & B & S & H & E & _) & _).
    pose proof H as H'. symmetry in E. apply app_eq_nil in E as [_ E]. apply app_eq_nil in E as [_ ->]. exfalso. destruct (choose_body _ _ H') as (b & s3 & ds & C & T & N & _).
    cbn in C. injection C as <- <-. cbn in T. injection T as <-. congruence. }
  destruct (streq s (chars "UNKNOWN")) eqn:E1.
  { apply streq_true in E1. cbn [orb]. split; [discriminate|tauto]. }
  apply streq_false in E1. cbn [orb]. split.
  - destruct (strtoMag 0 s) as [[[neg m] [|]]|] eqn:T; try discriminate. apply strtol_spec in T as (ws & sg & body & B & S & H & ->).
    destruct (longOf neg m) as [v err] eqn:L. destruct err; [discriminate|]. cbn [negb andb]. apply longOf_spec in L as [-> L]; [|eapply intBody_nonneg; eauto].
    destruct (Z.leb_spec (withSign neg m) (2 ^ 31 - 1)); [|discriminate]. destruct (Z.leb_spec (- 2 ^ 31) (withSign neg m)); [|discriminate].
    intros [= <-]. split; [exact E1|]. split; [|lia]. exists ws, sg, neg, body, m. auto.
  - intros (_ & (ws & sg & neg & body & n & B & S & H & -> & ->) & R).
    assert (T : strtoMag 0 (ws ++ sg ++ body) = Some (neg, n, [])) by (apply strtol_spec; eauto 10). rewrite T.
    assert (L : longOf neg n = (withSign neg n, false)) by (apply longOf_spec; [eapply intBody_nonneg; eauto|lia]). rewrite L. cbn [negb andb].
    destruct (Z.leb_spec (withSign neg n) (2 ^ 31 - 1)); [|lia]. destruct (Z.leb_spec (- 2 ^ 31) (withSign neg n)); [|lia]. reflexivity.
Qed.
(** The text says one number. *)
Lemma intText_fun s y z : intText s y -> intText s z -> y = z.
Proof.
  intros (ws & sg & neg & body & n & B & S & H & E & ->) (ws' & sg' & neg' & body' & n' & B' & S' & H' & E' & ->).
  assert (T : strtoMag 0 s = Some (neg, n, [])) by (apply strtol_spec; eauto 10).
  assert (T' : strtoMag 0 s = Some (neg', n', [])) by (apply strtol_spec; eauto 10). congruence.
Qed.

(** ** Printing integers *)
Lemma digitsRev_spec fuel n : 0 <= n -> (Z.to_nat (Z.log2 n) < fuel)%nat -> exists ds, digitsIn 10 (digitsRev fuel n) ds /\ positional 10 (rev ds) = n
   /\ ds <> [] /\ (0 < n -> last ds 0 <> 0).
Proof.
  revert n. induction fuel as [|f IH]; intros n N F; [lia|]. cbn [digitsRev].
  assert (Q : digitChar (n mod 10 + 48) (n mod 10) /\ n mod 10 < 10).
  { pose proof (Z.mod_pos_bound n 10 ltac:(lia)). split; [|lia]. left. lia. }
  destruct (Z.ltb_spec n 10) as [L|L].
  - exists [n mod 10]. split; [constructor; [exact Q|constructor]|]. rewrite Z.mod_small by lia. split; [cbn; lia|]. split; [discriminate|]. cbn. lia.
  - assert (D : 0 < n / 10) by (apply Z.div_str_pos; lia).
    assert (F' : (Z.to_nat (Z.log2 (n / 10)) < f)%nat).
    { pose proof (Z.log2_nonneg (n / 10)). assert (Z.log2 (n / 10) < Z.log2 n); [|lia].
      assert (Z.log2 (n / 10) <= Z.log2 (n / 2)) by (apply Z.log2_le_mono; apply Z.div_le_compat_l; lia).
      assert (Z.log2 (n / 2) = Z.log2 n - 1); [|lia]. change (n / 2) with (n / 2 ^ 1). rewrite <- Z.shiftr_div_pow2 by lia. rewrite Z.log2_shiftr by lia.
      assert (1 <= Z.log2 n) by (change 1 with (Z.log2 2); apply Z.log2_le_mono; lia). lia. }
    destruct (IH (n / 10) ltac:(lia) F') as (ds & A & B & C & E). exists (n mod 10 :: ds). split; [constructor; [exact Q|exact A]|]. split.
    { cbn [rev]. assert (X : forall l d, positional 10 (l ++ [d]) = positional 10 l * 10 + d).
      { induction l as [|x l IHl]; intros d; cbn [app positional length]; [change (10 ^ Z.of_nat 0) with 1; lia|]. rewrite IHl, app_length. cbn [length].
        replace (Z.of_nat (length l + 1)) with (Z.succ (Z.of_nat (length l))) by lia. rewrite Z.pow_succ_r by lia. nia. }
      rewrite X, B. pose proof (Z.div_mod n 10 ltac:(lia)). lia. }
    split; [discriminate|]. intros _. destruct ds as [|d ds]; [congruence|]. cbn [last] in *. apply E. exact D.
Qed.
Lemma printNat_numeral n : 0 <= n -> numeral 10 (printNat n) n /\ (0 < n -> hd 0 (printNat n) <> 48) /\ (n = 0 -> printNat n = [48]).
Proof.
  intros N. unfold printNat. destruct (digitsRev_spec (S (Z.to_nat (Z.log2 n))) n N ltac:(lia)) as (ds & A & B & C & D).
  assert (R : digitsIn 10 (rev (digitsRev (S (Z.to_nat (Z.log2 n))) n)) (rev ds)).
  { clear - A. unfold digitsIn in *. induction A as [|c d p q H A IH]; cbn [rev]; [constructor|]. apply Forall2_app; [exact IH|]. constructor; [exact H|constructor]. }
  split; [|split].
  - exists (rev ds). split; [exact R|]. split; [|symmetry; exact B]. intros X. apply C. apply (f_equal (@rev Z)) in X. rewrite rev_involutive in X. exact X.
  - intros P X. specialize (D P). revert R X D C. generalize (rev (digitsRev (S (Z.to_nat (Z.log2 n))) n)). intros p R X D C.
    destruct (@exists_last _ ds C) as (l & a & ->). rewrite rev_app_distr in R. cbn [rev app] in R. rewrite last_last in D.
    inversion R as [|c d p' q [CH _] _ E1 E2]; subst. cbn in X. subst c. destruct CH; lia.
  - intros ->. reflexivity.
Qed.
Lemma printInteger_text z : intText (printInteger z) z.
Proof.
  unfold printInteger.
  assert (P : forall n, 0 <= n -> intBody (printNat n) n).
  { intros n N. destruct (printNat_numeral n N) as (A & B & C). destruct (Z.eq_dec n 0) as [->|NZ].
    - rewrite C by reflexivity. constructor 2. exists [0]. split; [constructor; [|constructor]; unfold digitChar; lia|]. split; [discriminate|reflexivity].
    - constructor 1; [exact A|]. apply B. lia. }
  destruct (Z.ltb_spec z 0).
  - exists [], [45], true, (printNat (- z)), (- z). split; [constructor|]. split; [constructor|]. split; [apply P; lia|]. split; [reflexivity|]. cbn. lia.
  - exists [], [], false, (printNat z), z. split; [constructor|]. split; [constructor|]. split; [apply P; lia|]. split; reflexivity.
Qed.
Lemma printInteger_not_unknown z : printInteger z <> chars "UNKNOWN".
Proof.
  intros E. pose proof (printInteger_text z) as (ws & sg & neg & body & n & B & S & H & E' & _). rewrite E in E'.
  pose proof (intBody_starts _ _ H) as ST. pose proof (choose_body _ _ H) as (b & s3 & ds & C & T & N & _).
  destruct B as [|w ws W B]. 2:{ cbn in E'. injection E' as <- _. cbn in W. lia. }
  destruct S; cbn in E'; try discriminate. rewrite <- E' in C. cbn in C. injection C as <- <-. cbn in T. injection T as <- _. congruence.
Qed.

(** ** Rounding *)
Lemma powerRZ_split b e : 0 < b -> (powerRZ (IZR b) e = IZR (b ^ Z.max e 0) / IZR (b ^ Z.max (- e) 0))%R.
Proof.
  intros B. assert (NZ : forall k, 0 <= k -> IZR (b ^ k) <> 0%R) by (intros k K; apply IZR_neq; pose proof (Z.pow_pos_nonneg b k B K); lia).
  assert (P : forall n, powerRZ (IZR b) (Z.of_nat n) = IZR (b ^ Z.of_nat n)) by (intros n; rewrite <- pow_powerRZ, pow_IZR; reflexivity).
  destruct (Z.le_ge_cases 0 e) as [E|E].
  - rewrite Z.max_l, (Z.max_r (- e)) by lia. change (b ^ 0) with 1. rewrite <- (Z2Nat.id e E), P. field.
  - rewrite Z.max_r, (Z.max_l (- e)) by lia. change (b ^ 0) with 1. assert (X : e = - Z.of_nat (Z.to_nat (- e))) by lia.
    rewrite X at 1. rewrite powerRZ_neg', P. replace (Z.of_nat (Z.to_nat (- e))) with (- e) by lia. field. apply NZ. lia.
Qed.
Definition signedR (neg : bool) (r : R) : R := if neg then (- r)%R else r.
Lemma nearest_opp r : nearest (- r) = (- nearest r)%R.
Proof. unfold nearest. apply round_NE_opp. Qed.
Lemma nearest_signed neg r : nearest (signedR neg r) = signedR neg (nearest r).
Proof. destruct neg; [apply nearest_opp|reflexivity]. Qed.
Lemma ratFl_spec neg num den :
  let x := (IZR (Zpos num) / IZR (Zpos den))%R in
  if Rlt_bool (Rabs (nearest x)) (bpow radix2 1024) then
    B2R (ratFl neg num den) = signedR neg (nearest x) /\ is_finite (ratFl neg num den) = true /\ Bsign (ratFl neg num den) = neg
  else ratFl neg num den = B754_infinity neg.
Proof.
  intros x. unfold ratFl. pose proof (Bdiv_correct_aux 53 1024 eq_refl eq_refl mode_NE neg num 0 false den 0) as H. cbv zeta in H.
  match goal with |- context [SF2B _ (proj1 ?P)] => set (Q := P) end. clearbody Q. cbv zeta in Q.
  set (z := let '(mz, ez, lz) := SpecFloat.SFdiv_core_binary 53 1024 (Z.pos num) 0 (Z.pos den) 0 in binary_round_aux 53 1024 mode_NE (xorb neg false) mz ez lz) in *.
  destruct H as [V H].
  assert (EX : (F2R (Float radix2 (cond_Zopp neg (Z.pos num)) 0) / F2R (Float radix2 (cond_Zopp false (Z.pos den)) 0))%R = signedR neg x).
  { unfold F2R, x, signedR. cbn [Fnum Fexp bpow cond_Zopp]. rewrite !Rmult_1_r. destruct neg; cbn [cond_Zopp]; [|reflexivity].
    change (Z.neg num) with (- Z.pos num). rewrite opp_IZR. unfold Rdiv. ring. }
  rewrite EX in H. change (round radix2 (SpecFloat.fexp 53 1024) (round_mode mode_NE) (signedR neg x)) with (nearest (signedR neg x)) in H.
  rewrite nearest_signed in H. assert (EA : Rabs (signedR neg (nearest x)) = Rabs (nearest x)) by (destruct neg; [apply Rabs_Ropp|reflexivity]).
  rewrite EA in H. destruct (Rlt_bool (Rabs (nearest x)) (bpow radix2 1024)).
  - destruct H as (A & B & C). rewrite B2R_SF2B, is_finite_SF2B, Bsign_SF2B. rewrite xorb_false_r in C. auto.
  - apply B2SF_inj. rewrite B2SF_SF2B, H, xorb_false_r. reflexivity.
Qed.
Lemma nearest_0 : nearest 0 = 0%R.
Proof. unfold nearest. apply round_0. typeclasses eauto. Qed.
Lemma scaled_spec neg m b e : 0 <= m -> 0 < b ->
  let x := (IZR m * powerRZ (IZR b) e)%R in
  if Rlt_bool (Rabs (nearest x)) (bpow radix2 1024) then
    B2R (scaled neg m b e) = signedR neg (nearest x) /\ is_finite (scaled neg m b e) = true /\ Bsign (scaled neg m b e) = neg
  else scaled neg m b e = B754_infinity neg.
Proof.
  intros M B x. destruct m as [|p|p]; [| |lia].
  - assert (X : x = 0%R) by (unfold x; ring). rewrite X, nearest_0, Rabs_R0, Rlt_bool_true by apply bpow_gt_0. cbn. destruct neg; cbn; rewrite ?Ropp_0; auto.
  - pose proof (ratFl_spec neg (p * Z.to_pos (b ^ Z.max e 0)) (Z.to_pos (b ^ Z.max (- e) 0))) as H. cbv zeta in H.
    assert (P1 : 0 < b ^ Z.max e 0) by (apply Z.pow_pos_nonneg; lia). assert (P2 : 0 < b ^ Z.max (- e) 0) by (apply Z.pow_pos_nonneg; lia).
    assert (X : (IZR (Z.pos (p * Z.to_pos (b ^ Z.max e 0))) / IZR (Z.pos (Z.to_pos (b ^ Z.max (- e) 0))) = x)%R).
    { unfold x. rewrite (powerRZ_split b e B). rewrite Pos2Z.inj_mul, mult_IZR. rewrite !Z2Pos.id by assumption. unfold Rdiv. ring. }
    rewrite X in H. exact H.
Qed.

(** ** The parts of a Real *)
Lemma digitsIn_app b p q dp dq : digitsIn b p dp -> digitsIn b q dq -> digitsIn b (p ++ q) (dp ++ dq).
Proof. apply Forall2_app. Qed.
Definition stopsM (b : Z) (t : str) : Prop := match t with [] => True | c :: _ => b <= digitVal c /\ c <> 46 end.
Lemma takeMantissa_app b ma m k t : b <= 36 -> mantissa b ma m k -> stopsM b t ->
  exists ds, takeMantissa b (ma ++ t) = (ds, k, t) /\ ds <> [] /\ number b ds = m.
Proof.
  intros BB (a & f & da & df & A & F & NE & SH & -> & ->) ST. exists (da ++ df). split; [|split; [exact NE|apply number_positional]].
  assert (S1 : stops b t) by (destruct t; [exact I|apply ST]). unfold takeMantissa. destruct SH as [[-> ->] | ->].
  - inversion F; subst. rewrite (takeDigits_app b a da t A S1), app_nil_r. destruct t as [|c r]; [reflexivity|]. destruct (Z.eqb_spec c 46); [exfalso; apply ST; assumption|]. reflexivity.
  - rewrite <- app_assoc. cbn [app].
    assert (S2 : stops b (46 :: f ++ t)) by (cbn; lia). rewrite (takeDigits_app b a da _ A S2). change (46 =? 46) with true. cbn iota.
    rewrite (takeDigits_app b f df t F S1). destruct (da ++ df) eqn:E; [congruence|]. rewrite (digitsIn_len _ _ _ F). reflexivity.
Qed.
Lemma takeMantissa_inv b s ds k t : b <= 36 -> takeMantissa b s = (ds, k, t) -> ds <> [] -> exists ma, s = ma ++ t /\ mantissa b ma (number b ds) k.
Proof.
  intros BB H NE. unfold takeMantissa in H. destruct (takeDigits b s) as [a r] eqn:T. apply takeDigits_inv in T as (p & -> & D & ST); [|exact BB].
  assert (Q : a <> [] -> exists ma, p ++ r = ma ++ r /\ mantissa b ma (number b a) 0).
  { intros N. exists p. split; [reflexivity|]. exists p, [], a, []. split; [exact D|]. split; [constructor|]. rewrite app_nil_r. split; [exact N|].
    split; [left; auto|]. split; [apply number_positional|reflexivity]. }
  destruct r as [|c r].
  - injection H as <- <- <-. apply Q. exact NE.
  - destruct (Z.eqb_spec c 46) as [->|NP].
    + destruct (takeDigits b r) as [f u] eqn:T2. apply takeDigits_inv in T2 as (q & -> & D2 & ST2); [|exact BB].
      destruct (a ++ f) eqn:E; [injection H as <- <- <-; congruence|]. injection H as <- <- <-. exists (p ++ 46 :: q).
      split; [rewrite <- app_assoc; reflexivity|]. exists p, q, a, f. rewrite E. split; [exact D|]. split; [exact D2|]. split; [exact NE|].
      split; [right; reflexivity|]. split; [apply number_positional|]. rewrite (digitsIn_len _ _ _ D2). reflexivity.
    + injection H as <- <- <-. apply Q. exact NE.
Qed.
Lemma takeExponent_app mark marks ex e : (forall c, mark c = true <-> In c marks) -> exponent marks ex e -> takeExponent mark ex = (e, []).
Proof.
  intros MK [[-> ->]|(c & sg & neg & body & n & C & S & N & -> & ->)]; [reflexivity|]. cbn [takeExponent]. apply MK in C. rewrite C.
  destruct (numeral_cons _ _ _ N) as (x & r & d & ds & E & X & _).
  assert (ST : starts body) by (subst body; eapply digitChar_starts; eauto). rewrite (takeSign_app sg neg body S ST).
  destruct N as (ds' & D & NE & ->). pose proof (takeDigits_app 10 _ _ [] D I) as T. rewrite app_nil_r in T. rewrite T. destruct ds'; [congruence|].
  rewrite number_positional. reflexivity.
Qed.
Lemma takeExponent_inv mark marks s e : (forall c, mark c = true <-> In c marks) -> takeExponent mark s = (e, []) -> exponent marks s e.
Proof.
  intros MK H. destruct s as [|c r]; cbn [takeExponent] in H.
  - injection H as <-. left. auto.
  - destruct (mark c) eqn:C; [|discriminate]. apply MK in C. destruct (takeSign r) as [neg r1] eqn:F. destruct (takeDigits 10 r1) as [ds t] eqn:T.
    destruct ds as [|d ds]; [discriminate|]. injection H as <- ->. apply takeSign_inv in F as (sg & S & ->). apply takeDigits_inv in T as (p & E & D & _); [|lia].
    rewrite app_nil_r in E. subst p. right. exists c, sg, neg, r1, (positional 10 (d :: ds)). split; [exact C|]. split; [exact S|]. split; [exists (d :: ds); split; [exact D|]; split; [discriminate|reflexivity]|].
    split; [reflexivity|]. rewrite number_positional. reflexivity.
Qed.
Lemma isExp_in c : isExp c = true <-> In c [101; 69].
Proof. unfold isExp. cbn [In]. zb; cbn; split; intros; try lia; try reflexivity; discriminate. Qed.
Lemma isP_in c : isP c = true <-> In c [112; 80].
Proof. unfold isP. cbn [In]. zb; cbn; split; intros; try lia; try reflexivity; discriminate. Qed.
Lemma mantissa_first b ma m k : mantissa b ma m k -> exists c r, ma = c :: r /\ (c = 46 \/ exists d, digitChar c d /\ d < b).
Proof.
  intros (a & f & da & df & A & F & NE & SH & _). destruct A as [|c d a da [C L] A].
  - destruct SH as [[-> ->]|SH]; [inversion F; subst; cbn in NE; congruence|]. exists 46, f. split; [exact SH|]. left. reflexivity.
  - exists c. destruct SH as [[-> ->] | ->]; eexists; (split; [reflexivity|]); right; eauto.
Qed.
Lemma mantissa_nonneg b ma m k : 0 <= b -> mantissa b ma m k -> 0 <= m.
Proof. intros B (a & f & da & df & A & F & NE & SH & -> & _). eapply positional_nonneg; [exact B|]. apply digitsIn_app; eauto. Qed.
Lemma exponent_stops marks ex e b : exponent marks ex e -> (forall c, In c marks -> b <= digitVal c /\ c <> 46) -> stopsM b ex.
Proof. intros [[-> _]|(c & sg & neg & body & n & C & _ & _ & -> & _)] H; [exact I|]. apply H. exact C. Qed.
Lemma takeMantissa_nonneg b s ds k t : b <= 36 -> 0 <= b -> takeMantissa b s = (ds, k, t) -> ds <> [] -> 0 <= number b ds.
Proof. intros B B' H N. destruct (takeMantissa_inv _ _ _ _ _ B H N) as (ma & _ & M). eapply mantissa_nonneg; eauto. Qed.

(** ** strtod *)
Lemma upper_lower x y : upper x = upper y <-> lower x = lower y.
Proof. unfold upper, lower. zb; cbn [andb]; lia. Qed.
Lemma dropWord_spec w s r : dropWord w s = Some r <-> exists p, s = p ++ r /\ sameLetters p w.
Proof.
  revert s r. induction w as [|x w IH]; intros s r; cbn [dropWord].
  - split.
    + intros [= <-]. exists []. split; reflexivity.
    + intros (p & -> & S). destruct p; [reflexivity|discriminate].
  - destruct s as [|c s].
    + split; [discriminate|]. intros (p & E & S). destruct p; [discriminate S|discriminate E].
    + destruct (Z.eqb_spec (upper x) (upper c)) as [E|E].
      * rewrite IH. split.
        -- intros (p & -> & S). exists (c :: p). split; [reflexivity|]. unfold sameLetters in *. cbn. f_equal; [|exact S]. apply upper_lower. auto.
        -- intros (p & P & S). destruct p as [|c' p]; [discriminate S|]. injection P as <- ->. exists p. split; [reflexivity|]. unfold sameLetters in *. cbn in S. injection S. auto.
      * split; [discriminate|]. intros (p & P & S). destruct p as [|c' p]; [discriminate S|]. injection P as <- ->. unfold sameLetters in S. cbn in S. injection S as S _. apply upper_lower in S. congruence.
Qed.
Lemma dropWord_first x w c r : lower c <> lower x -> dropWord (x :: w) (c :: r) = None.
Proof. intros N. cbn. destruct (Z.eqb_spec (upper x) (upper c)) as [E|E]; [|reflexivity]. apply upper_lower in E. congruence. Qed.
Lemma hexStart_dec ma ex m k e : mantissa 10 ma m k -> exponent [101; 69] ex e -> hexStart (ma ++ ex) = None.
Proof.
  intros M E. assert (H : forall c, In c (ma ++ ex) -> isX c = false).
  { intros c IN. apply in_app_or in IN. destruct (isX c) eqn:X; [|reflexivity]. exfalso. assert (XX : c = 120 \/ c = 88) by (unfold isX in X; apply orb_true_iff in X; rewrite !Z.eqb_eq in X; exact X).
    assert (DG : forall p dp, digitsIn 10 p dp -> ~ In c p).
    { intros p dp D. induction D as [|c' d' p dp [C L] D IH]; [auto|]. intros [-> |I]; [unfold digitChar in C; lia|auto]. }
    destruct IN as [I|I].
    - destruct M as (a & f & da & df & A & F & NE & SH & _). destruct SH as [[-> ->] | ->]; [exact (DG _ _ A I)|]. apply in_app_or in I as [I|[I|I]]; [exact (DG _ _ A I)|lia|exact (DG _ _ F I)].
    - destruct E as [[-> _]|(c0 & sg & neg & body & n & C & S & (ds & D & _) & -> & _)]; [destruct I|]. cbn in C. destruct I as [I|I]; [lia|]. apply in_app_or in I as [I|I]; [|exact (DG _ _ D I)].
      destruct S; cbn in I; lia. }
  unfold hexStart. destruct (ma ++ ex) as [|z [|x r]]; try reflexivity. rewrite (H x) by (right; left; reflexivity). rewrite andb_false_r. reflexivity.
Qed.
Lemma realBody_strtod ws sg neg body r : blank ws -> sign sg neg -> realBody body r ->
  exists x, strtod (ws ++ sg ++ body) = Some (x, []) /\
  (0 <= r)%R /\
  if Rlt_bool (Rabs (nearest r)) (bpow radix2 1024) then
    B2R x = signedR neg (nearest r) /\ is_finite x = true /\ Bsign x = neg
  else x = B754_infinity neg.
Proof.
  intros B S H.
  assert (PW : forall b e, 0 < b -> (0 < powerRZ (IZR b) e)%R) by (intros; apply powerRZ_lt; apply IZR_lt; assumption).
  destruct H as [ma ex m k e M E|x ma ex m k e X M E].
  - destruct (mantissa_first _ _ _ _ M) as (c & q & EM & C).
    assert (NN : 0 <= m) by (eapply mantissa_nonneg; [|exact M]; lia).
    assert (ST : starts (ma ++ ex)).
    { rewrite EM. destruct C as [-> |(d & D & _)]; [cbn; lia|]. eapply digitChar_starts; eauto. }
    assert (CB : 46 <= c <= 57) by (destruct C as [-> |(d & D & L)]; [lia|unfold digitChar in D; lia]).
    unfold strtod. rewrite (front_app ws sg neg _ B S ST).
    assert (LW : lower c <> 105 /\ lower c <> 110) by (unfold lower; zb; cbn [andb]; lia).
    assert (W1 : dropWord (chars "inf") (ma ++ ex) = None) by (rewrite EM; apply dropWord_first; exact (proj1 LW)).
    assert (W2 : dropWord (chars "nan") (ma ++ ex) = None) by (rewrite EM; apply dropWord_first; exact (proj2 LW)).
    rewrite W1, W2, (hexStart_dec _ _ _ _ _ M E).
    destruct (takeMantissa_app 10 ma m k ex ltac:(lia) M) as (ds & T & N & NU).
    { eapply exponent_stops; [exact E|]. cbn. intros z [<- | [<- | []]]; cbn; lia. }
    rewrite T. destruct ds as [|d ds]; [congruence|]. rewrite (takeExponent_app isExp _ ex e isExp_in E). rewrite NU. eexists. split; [reflexivity|].
    split; [apply Rmult_le_pos; [apply IZR_le; exact NN|left; apply (PW 10); lia]|]. apply (scaled_spec neg m 10 (e - k)); [exact NN|lia].
  - assert (NN : 0 <= m) by (eapply mantissa_nonneg; [|exact M]; lia).
    unfold strtod. rewrite (front_app ws sg neg _ B S) by (cbn; lia).
    destruct (takeMantissa_app 16 ma m k ex ltac:(lia) M) as (ds & T & N & NU).
    { eapply exponent_stops; [exact E|]. cbn. intros z [<- | [<- | []]]; cbn; lia. }
    assert (HX : hexStart (48 :: x :: ma ++ ex) = Some (ma ++ ex)).
    { unfold hexStart. assert (IX : isX x = true) by (unfold isX; destruct X as [-> | ->]; reflexivity). rewrite IX. cbn [andb Z.eqb Pos.eqb]. rewrite T. cbn [fst]. destruct ds; [congruence|reflexivity]. }
    assert (W1 : dropWord (chars "inf") (48 :: x :: ma ++ ex) = None) by (apply dropWord_first; vm_compute; discriminate).
    assert (W2 : dropWord (chars "nan") (48 :: x :: ma ++ ex) = None) by (apply dropWord_first; vm_compute; discriminate).
    rewrite W1, W2, HX, T. rewrite (takeExponent_app isP _ ex e isP_in E). rewrite NU. eexists. split; [reflexivity|].
    split; [apply Rmult_le_pos; [apply IZR_le; exact NN|left; apply (PW 2); lia]|]. apply (scaled_spec neg m 2 (e - 4 * k)); [exact NN|lia].
Qed.
Lemma alnum_spec c : isAlnum_ c = true <-> (exists d, digitChar c d) \/ c = 95.
Proof.
  unfold isAlnum_. rewrite orb_true_iff, Z.eqb_eq, Z.ltb_lt. split.
  - intros [H|H]; [|auto]. left. exists (digitVal c). eapply digitVal_lt_char; [|exact H]; lia.
  - intros [[d D]|H]; [|auto]. left. rewrite (digitVal_char _ _ D). destruct D; lia.
Qed.
Lemma dropAlnum_inv s : exists p, s = p ++ dropAlnum s /\ Forall (fun c => (exists d, digitChar c d) \/ c = 95) p.
Proof.
  induction s as [|c r (p & E & F)]; [exists []; split; [reflexivity|constructor]|]. cbn [dropAlnum]. destruct (isAlnum_ c) eqn:A.
  - exists (c :: p). split; [cbn; f_equal; exact E|]. constructor; [apply alnum_spec; exact A|exact F].
  - exists []. split; [reflexivity|constructor].
Qed.
Lemma dropAlnum_app p t : Forall (fun c => (exists d, digitChar c d) \/ c = 95) p -> match t with [] => True | c :: _ => isAlnum_ c = false end -> dropAlnum (p ++ t) = t.
Proof.
  intros F T. induction F as [|c p C F IH]; cbn [app dropAlnum].
  - destruct t; [reflexivity|]. cbn. rewrite T. reflexivity.
  - apply alnum_spec in C. rewrite C. exact IH.
Qed.
Definition nanTailText (t : str) : Prop := t = [] \/ exists p, t = 40 :: p ++ [41] /\ Forall (fun c => (exists d, digitChar c d) \/ c = 95) p.
Lemma nanTail_spec t : nanTail t = [] <-> nanTailText t.
Proof.
  unfold nanTail, nanTailText. destruct t as [|c r]; [split; auto|]. destruct (Z.eqb_spec c 40) as [->|N].
  - split.
    + destruct (dropAlnum_inv r) as (p & E & F). destruct (dropAlnum r) as [|d u] eqn:D; [discriminate|]. destruct (Z.eqb_spec d 41) as [->|]; [|discriminate].
      intros ->. right. exists p. split; [rewrite <- E; reflexivity|exact F].
    + intros [H|(p & H & F)]; [discriminate|]. injection H as ->. rewrite dropAlnum_app; [reflexivity|exact F|reflexivity].
  - split; [discriminate|]. intros [H|(p & H & F)]; [discriminate|]. injection H as H _. congruence.
Qed.
Lemma strtod_inv s x : strtod s = Some (x, []) ->
  isInf x = true \/ (x = B754_nan /\ nanText s) \/ exists ws sg neg body r, blank ws /\ sign sg neg /\ realBody body r /\ s = ws ++ sg ++ body.
Proof.
  unfold strtod. destruct (takeSign (skipSpace s)) as [neg t] eqn:F. apply front_inv in F as (ws & sg & B & S & ->).
  destruct (dropWord (chars "inf") t) as [u|]. { intros [= <- _]. left. reflexivity. }
  destruct (dropWord (chars "nan") t) as [u|] eqn:W.
  { intros [= <- H]. right. left. split; [reflexivity|]. apply dropWord_spec in W as (p & -> & L). exists ws, sg, neg, p, u. split; [exact B|]. split; [exact S|]. split; [exact L|]. split; [reflexivity|].
    apply nanTail_spec. exact H. }
  intros H. right. right. exists ws, sg, neg, t. destruct (hexStart t) as [u|] eqn:HX.
  - unfold hexStart in HX. destruct t as [|z [|h r]]; try discriminate. destruct ((z =? 48) && isX h) eqn:Z; [|discriminate]. apply andb_true_iff in Z as [Z X]. apply Z.eqb_eq in Z. subst z.
    destruct (takeMantissa 16 r) as [[ds k] r1] eqn:T. cbn [fst] in HX. destruct ds as [|d ds]; [discriminate|]. injection HX as <-. rewrite T in H.
    destruct (takeExponent isP r1) as [e r2] eqn:E. injection H as <- ->. apply takeMantissa_inv in T as (ma & -> & M); [|lia|discriminate].
    apply (takeExponent_inv _ _ _ _ isP_in) in E. eexists. split; [exact B|]. split; [exact S|]. split; [|reflexivity]. eapply RB_hex; eauto.
    unfold isX in X. apply orb_true_iff in X. rewrite !Z.eqb_eq in X. exact X.
  - destruct (takeMantissa 10 t) as [[ds k] r1] eqn:T. destruct ds as [|d ds]; [discriminate|]. destruct (takeExponent isExp r1) as [e r2] eqn:E. injection H as <- ->.
    apply takeMantissa_inv in T as (ma & -> & M); [|lia|discriminate]. apply (takeExponent_inv _ _ _ _ isExp_in) in E. eexists. split; [exact B|]. split; [exact S|]. split; [|reflexivity]. eapply RB_dec; eauto.
Qed.
Lemma realBody_first body r : realBody body r -> exists c q, body = c :: q /\ 46 <= c <= 57.
Proof.
  intros H. destruct H as [ma ex m k e M E|x ma ex m k e X M E].
  - destruct (mantissa_first _ _ _ _ M) as (c & q & -> & C). exists c, (q ++ ex). split; [reflexivity|]. destruct C as [-> |(d & D & L)]; [lia|unfold digitChar in D; lia].
  - exists 48. eexists. split; [reflexivity|]. lia.
Qed.
Lemma realText_special s neg r : realText s neg r -> s <> [] /\ s <> chars "UNKNOWN".
Proof.
  intros (ws & sg & body & B & S & H & E). destruct (realBody_first _ _ H) as (c & q & -> & C). split; intros ->.
  - symmetry in E. apply app_eq_nil in E as [_ E]. apply app_eq_nil in E as [_ E]. discriminate.
  - destruct B as [|w ws W B]; cbn in E; [|injection E as <- _; cbn in W; lia]. destruct S; cbn in E; try discriminate. injection E as <- _. lia.
Qed.
Lemma nanText_special s : nanText s -> s <> [] /\ s <> chars "UNKNOWN".
Proof.
  intros (ws & sg & neg & w & tl & B & S & L & E & _). split; intros ->.
  - symmetry in E. apply app_eq_nil in E as [_ E]. apply app_eq_nil in E as [_ E]. apply app_eq_nil in E as [-> _]. discriminate L.
  - destruct B as [|x ws W B]; cbn in E; [|injection E as <- _; cbn in W; lia]. destruct S; cbn in E; try discriminate.
    destruct w as [|c w]; [discriminate L|]. cbn in E. injection E as <- _. discriminate L.
Qed.
Lemma parseReal_strtod s : s <> [] -> s <> chars "UNKNOWN" ->
  parseReal s = match strtod s with Some (x, []) => if isInf x then Refused else Known x | _ => Refused end.
Proof.
  intros A B. unfold parseReal. apply streq_false in A. apply streq_false in B. rewrite A, B. reflexivity.
Qed.
Lemma parseReal_text s neg r : realText s neg r ->
  if Rlt_bool (Rabs (nearest r)) (bpow radix2 1024) then
    exists x, parseReal s = Known x /\ B2R x = signedR neg (nearest r) /\ is_finite x = true /\ Bsign x = neg
  else parseReal s = Refused.
Proof.
  intros H. destruct (realText_special _ _ _ H) as [A B]. rewrite (parseReal_strtod s A B). destruct H as (ws & sg & body & BL & S & H & ->).
  destruct (realBody_strtod _ _ _ _ _ BL S H) as (x & -> & _ & X). destruct (Rlt_bool _ _).
  - exists x. destruct X as (X1 & X2 & X3). split; [destruct x; cbn in *; try discriminate; reflexivity|auto].
  - subst x. reflexivity.
Qed.
Lemma parseReal_nan s : nanText s -> parseReal s = Known B754_nan.
Proof.
  intros H. destruct (nanText_special _ H) as [A B]. rewrite (parseReal_strtod s A B). destruct H as (ws & sg & neg & w & tl & BL & S & L & -> & T).
  assert (F : exists c q, w = c :: q /\ lower c = 110). { destruct w as [|c q]; [discriminate L|]. exists c, q. split; [reflexivity|]. unfold sameLetters in L. cbn in L. injection L. auto. }
  destruct F as (c & q & EW & CL). assert (CC : c = 110 \/ c = 78) by (revert CL; unfold lower; zb; cbn [andb]; lia).
  unfold strtod. rewrite (front_app ws sg neg (w ++ tl) BL S).
  2:{ rewrite EW. cbn. destruct CC as [-> | ->]; cbn; lia. }
  assert (W1 : dropWord (chars "inf") (w ++ tl) = None) by (rewrite EW; apply dropWord_first; destruct CC as [-> | ->]; vm_compute; discriminate).
  assert (W2 : dropWord (chars "nan") (w ++ tl) = Some tl) by (apply dropWord_spec; eauto). rewrite W1, W2. apply nanTail_spec in T. rewrite T. reflexivity.
Qed.
Lemma parseReal_known s x : parseReal s = Known x -> (x = B754_nan /\ nanText s) \/ exists neg r, realText s neg r.
Proof.
  unfold parseReal. destruct (streq s [] || streq s (chars "UNKNOWN")); [discriminate|]. destruct (strtod s) as [[y [|]]|] eqn:E; try discriminate.
  destruct (isInf y) eqn:IY; [discriminate|]. intros [= <-]. apply strtod_inv in E as [E|[E|(ws & sg & neg & body & r & B & S & H & E)]]; [congruence|left; exact E|].
  right. exists neg, r, ws, sg, body. auto.
Qed.
