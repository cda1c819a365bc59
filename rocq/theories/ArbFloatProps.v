(** C74: the arbiter computes with doubles. *)
From Coq Require Import List ZArith Bool Reals Lia Lra Permutation FunctionalExtensionality.
From Flocq Require Import Core BinarySingleNaN.
From Verif Require Import FloatModel LitModel ArbiterModel ArbiterSpec ArbiterProofs ArbiterProps ArbFloatModel ArbFloatSpec ArbFloatProofs.
Import ListNotations.
Local Open Scope nat_scope.

(** ** Amounts of a common unit *)
Lemma run_describes fuel h l : forall s, arun fuel h l = Some s -> describes h (needF fuel h) l.
Proof.
  induction l as [|[cs|k] l IH]; intros s E cs0 c HI Hc; [destruct HI| |]; cbn [arun] in E; destruct (arun fuel h l) as [s0|] eqn:E0; try discriminate E.
  - destruct HI as [HI|HI]; [injection HI as ->|now apply (IH s0 eq_refl cs0)]. unfold arbitrate in E. destruct (partition fuel h cs0) as [p|] eqn:EP; [|discriminate E]. eapply partition_needF; eauto.
  - destruct HI as [HI|HI]; [discriminate HI|now apply (IH s0 eq_refl cs0)].
Qed.
Lemma needF_nonneg e fuel h c r : (-51 <= e <= 0)%Z -> fairHier e h -> fairCmd e c -> (0 <= amount (needF fuel (zhier e h) (zc e c) r))%Z.
Proof.
  intros E51 HH FC. unfold needF. change (k_res (zc e c)) with (map (zv e) (fk_res c)). pose proof (allNeeds_z e fuel h (fk_res c) []) as A. cbn [map] in A. rewrite A.
  destruct (fallNeeds fuel h (fk_res c) []) as [n|] eqn:EN; cbn [option_map]; [|cbn; lia]. destruct (sget r (map (zq e) n)) as [q|] eqn:EG; cbn [amount]; [|lia].
  apply sget_name in EG as [_ I]. apply in_map_iff in I as (q0 & <- & I). change (q_w (zq e q0)) with (toZ e (fq_w q0)).
  assert (O : FSorted n /\ allP (fair e) n). { apply (fallNeeds_ok (fair e) h fuel (fk_res c) (hier_children e h HH) FC [] n); [exact Logic.I|intros x []|exact EN]. }
  apply (fair_isz e), O, I.
Qed.
Section Exact.
Variables (e : Z) (fuel : nat) (h : fhier).
Hypothesis (E51 : (-51 <= e <= 0)%Z) (HH : fairHier e h).
Lemma run_z l : Forall (fairOp e) l -> Forall properFop l ->
  arun fuel (zhier e h) (map (zop e) l) = option_map (zarb e) (farun fuel h l) /\ forall s, farun fuel h l = Some s -> goodArb e s.
Proof.
  induction l as [|o l IH]; intros FO PO.
  - split; [reflexivity|]. intros s [= <-]. split; [|discriminate]. intros n. cbn. apply fair_zero; auto.
  - inversion FO; subst. inversion PO; subst. destruct (IH H2 H4) as [R G]. destruct o as [cs|k]; cbn [map zop arun farun].
    + rewrite R. destruct (farun fuel h l) as [s|]; [|split; [reflexivity|discriminate]]. cbn [option_map]. destruct (arbitrate_z e h E51 HH fuel cs s H1 (G s eq_refl)) as [A B]. rewrite A.
      destruct (farbitrate fuel h cs s) as [[[a j] s']|]; cbn [option_map]; [|split; [reflexivity|discriminate]]. split; [reflexivity|]. intros s1 [= <-]. now apply (B a j).
    + assert (R2 : arun fuel (zhier e h) (map (zop e) (FRel k :: l)) = option_map (release k) (option_map (zarb e) (farun fuel h l))).
      { cbn [map zop arun]. rewrite R. destruct (farun fuel h l); reflexivity. }
      rewrite R. destruct (farun fuel h l) as [s|] eqn:ER; [|split; [reflexivity|discriminate]]. cbn [option_map]. destruct (G s eq_refl) as [FA FH].
      assert (RZ : release k (zarb e s) = zarb e (frelease k s)).
      { unfold release, frelease. unfold zarb at 1. cbn [a_held]. destruct (f_held s k) as [qs|] eqn:EH; cbn [option_map]; [|reflexivity]. destruct (FH k qs EH) as [SO FQ].
        unfold zarb. cbn [a_alloc a_held f_alloc f_held]. rewrite (unCharge_z e E51 qs (FSorted_NoDup _ SO) FQ) by (intros q _; apply FA). f_equal.
        apply functional_extensionality. intros m. unfold upd, fupd. destruct (Nat.eqb m k); reflexivity. }
      rewrite RZ. split; [reflexivity|]. intros s1 [= <-]. split.
      * cbn [option_map] in R2. rewrite RZ in R2.
        assert (PZ : Forall properOp (map (zop e) (FRel k :: l))).
        { rewrite Forall_map. eapply Forall_impl; [|exact PO]. intros [cs|j]; cbn; [|auto]. rewrite map_map. auto. }
        assert (NZ : nonneg (needF fuel (zhier e h)) (map (zop e) (FRel k :: l))).
        { intros cs c r HI Hc. apply in_map_iff in HI as ([cs0|j] & E0 & HI); [|discriminate E0]. injection E0 as <-. apply in_map_iff in Hc as (c0 & <- & Hc).
          apply needF_nonneg; auto. rewrite Forall_forall in FO. specialize (FO _ HI). cbn in FO. rewrite Forall_forall in FO. now apply FO. }
        intros n. pose proof (books_nonneg fuel (zhier e h) _ _ _ n PZ (run_describes _ _ _ _ R2) NZ R2) as B0. change (a_alloc (zarb e (frelease k s))) with (zal e (f_alloc (frelease k s))) in B0. rewrite val_z in B0.
        revert B0. unfold frelease. destruct (f_held s k) as [qs|] eqn:EH; [|intros _; apply FA]. destruct (FH k qs EH) as [SO FQ]. cbn [f_alloc].
        assert (U : forall qs al, NoDup (map fq_name qs) -> fairQ e qs -> (forall q, In q qs -> fair e (fget (al (fq_name q)))) -> fair e (fget (al n)) ->
          exists z, isz e (fget (fold_left funCharge qs al n)) z /\ (z < 2 ^ 52)%Z).
        { clear - E51. induction qs as [|q qs IH]; intros al ND FQ FA FN.
          - destruct (fair_isz _ _ FN) as [I B]. exists (toZ e (fget (al n))). cbn [fold_left]. split; [exact I|lia].
          - cbn [fold_left]. cbn [map] in ND. inversion ND as [|? ? NI ND']; subst. assert (FQ' : fairQ e qs) by (intros x Hx; apply FQ; now right).
            assert (OTH : forall m, m <> fq_name q -> funCharge al q m = al m).
            { intros m NE. unfold funCharge. destruct (fq_rel q); [|reflexivity]. cbv zeta. unfold fupd. destruct (Nat.eqb_spec m (fq_name q)); [contradiction|reflexivity]. }
            destruct (Nat.eq_dec n (fq_name q)) as [->|NE].
            + assert (ST : forall qs al, ~ In (fq_name q) (map fq_name qs) -> fold_left funCharge qs al (fq_name q) = al (fq_name q)).
              { clear. induction qs as [|x qs IH]; intros al NI; [reflexivity|]. cbn [fold_left]. cbn [map] in NI. rewrite IH by (intros X; apply NI; now right).
                unfold funCharge. destruct (fq_rel x); [|reflexivity]. cbv zeta. unfold fupd. destruct (Nat.eqb_spec (fq_name q) (fq_name x)) as [EQ|]; [elim NI; left; congruence|reflexivity]. }
              rewrite ST by exact NI. destruct (fair_isz _ _ FN) as [I B]. unfold funCharge. destruct (fq_rel q); [|exists (toZ e (fget (al (fq_name q)))); split; [exact I|lia]].
              cbv zeta. unfold fupd. rewrite Nat.eqb_refl. destruct (fair_isz _ _ (FQ q (or_introl eq_refl))) as [IW BW].
              pose proof (fsub_z e _ _ _ _ (E74 e E51) I IW ltac:(lia)) as IS. rewrite (fis0_z _ _ _ IS).
              destruct (Z.eqb_spec (toZ e (fget (al (fq_name q))) - toZ e (fq_w q)) 0) as [Z0|_]; cbn [fget]; [exists 0%Z; split; [apply zero_isz|lia]|]. eexists. split; [exact IS|lia].
            + apply IH; auto.
              * intros x Hx. rewrite OTH; [apply FA; now right|]. intros EQ. apply NI. rewrite <- EQ. now apply in_map.
              * rewrite OTH; auto. }
        destruct (U qs (f_alloc s) (FSorted_NoDup _ SO) FQ (fun q _ => FA _) (FA n)) as (z & I & L). rewrite (isz_toZ _ _ _ I). intros B0. eapply isz_fair; [exact I|]. split; [exact B0|exact L].
      * intros j qs. unfold frelease. destruct (f_held s k) as [qs0|]; [|apply FH]. cbn [f_held]. unfold fupd. destruct (Nat.eqb j k); [discriminate|apply FH].
Qed.
(** If all amounts are multiples of a common unit, the arbiter decides and keeps its books as if it used exact numbers: its histories,
    and each decision, are those of the exact arbiter of C16. *)
Theorem C74_exact l : Forall (fairOp e) l -> Forall properFop l ->
  arun fuel (zhier e h) (map (zop e) l) = option_map (zarb e) (farun fuel h l) /\
  forall s cs, farun fuel h l = Some s -> fairOp e (FArb cs) ->
    arbitrate fuel (zhier e h) (map (zc e) cs) (zarb e s) = option_map (fun r => let '(a, j, s') := r in (a, j, zarb e s')) (farbitrate fuel h cs s).
Proof.
  intros FO PO. destruct (run_z l FO PO) as [R G]. split; [exact R|]. intros s cs E FC. now apply (arbitrate_z e h E51 HH fuel cs s FC (G s E)).
Qed.
(** What is recorded is what is in use, to the last bit, and never more than there is. *)
Theorem C74_never_exceeds l s r : Forall (fairOp e) l -> Forall properFop l -> farun fuel h l = Some s ->
  let u := inUse (needF fuel (zhier e h)) [] (trace fuel (zhier e h) (map (zop e) l)) r in
  B2R (fget (f_alloc s r)) = (IZR u * bpow radix2 e)%R /\ (0 <= IZR u * bpow radix2 e)%R /\ (u = 0%Z \/ (IZR u * bpow radix2 e <= B2R (fmaxOf h r))%R).
Proof.
  intros FO PO E u. destruct (run_z l FO PO) as [R G]. rewrite E in R. cbn [option_map] in R. destruct (G s E) as [FA _].
  assert (PZ : Forall properOp (map (zop e) l)).
  { rewrite Forall_map. eapply Forall_impl; [|exact PO]. intros [cs|j]; cbn; [|auto]. rewrite map_map. auto. }
  assert (NZ : nonneg (needF fuel (zhier e h)) (map (zop e) l)).
  { intros cs c r0 HI Hc. apply in_map_iff in HI as ([cs0|j] & E0 & HI); [|discriminate E0]. injection E0 as <-. apply in_map_iff in Hc as (c0 & <- & Hc).
    apply needF_nonneg; auto. rewrite Forall_forall in FO. specialize (FO _ HI). cbn in FO. rewrite Forall_forall in FO. now apply FO. }
  pose proof (run_describes _ _ _ _ R) as D. pose proof (C16_books fuel _ _ _ _ r PZ D R) as B. pose proof (C16_never_exceeds fuel _ _ _ _ r PZ D NZ R) as N. cbv zeta in N. fold u in B, N.
  change (a_alloc (zarb e s)) with (zal e (f_alloc s)) in B. rewrite val_z in B. destruct (fair_isz _ _ (FA r)) as [[_ I] _]. pose proof (bpow_gt_0 radix2 e) as P. split; [|split].
  - rewrite I, B. reflexivity.
  - apply Rmult_le_pos; [apply (IZR_le 0), N|lra].
  - destruct N as [_ [N|N]]; [now left|right]. destruct (max_z e h E51 HH r) as [[_ M] _]. rewrite M. apply Rmult_le_compat_r; [lra|]. now apply IZR_le.
Qed.
End Exact.

(** ** Any amounts *)
(** Finite and not negative. *)
Definition plain (x : fl) : Prop := is_finite x = true /\ flt x fzero = false.
Definition plainHier (h : fhier) : Prop :=
  forall n nd, h n = Some nd -> is_finite (fn_max nd) = true /\ forall w m, In (w, m) (fn_children nd) -> plain w.
Definition plainOp (o : fop) : Prop := match o with FArb cs => forall c v, In c cs -> In v (fk_res c) -> plain (fv_upper v) | FRel _ => True end.
Section Bounded.
Variables (fuel : nat) (h : fhier).
Hypothesis HP : plainHier h.
Definition bnd (n : nat) (x : fl) : Prop := x = B754_infinity true \/ (is_finite x = true /\ (B2R x <= Rmax 0 (B2R (fmaxOf h n)))%R).
Lemma max_finite n : is_finite (fmaxOf h n) = true.
Proof. unfold fmaxOf. destruct (h n) as [nd|] eqn:E; [apply (HP n nd E)|reflexivity]. Qed.
Lemma plain_R w : plain w -> (0 <= B2R w)%R.
Proof. intros [F N]. unfold flt in N. rewrite Bltb_correct in N by (auto; reflexivity). cbn [fzero B2R] in N. destruct (Rlt_bool_spec (B2R w) 0); [discriminate|assumption]. Qed.
Lemma bnd_add n a w : bnd n a -> plain w -> flt (fmaxOf h n) (fadd a w) = false -> bnd n (fadd a w).
Proof.
  intros [->|[FA BA]] PW M.
  - left. destruct PW as [FW _]. unfold fadd. destruct w; try discriminate FW; reflexivity.
  - destruct PW as [FW _]. pose proof (max_finite n) as FM. pose proof (Bplus_correct 53 1024 prec53 emax1024 mode_NE a w FA FW) as C. cbv zeta in C. fold (fadd a w) in C.
    destruct (Rlt_bool _ _) in C.
    + destruct C as (E & F & _). right. split; [exact F|]. unfold flt in M. rewrite Bltb_correct in M by auto. destruct (Rlt_bool_spec (B2R (fmaxOf h n)) (B2R (fadd a w))); [discriminate|]. eapply Rle_trans; [eassumption|apply Rmax_r].
    + destruct C as [C _]. destruct (fadd a w) as [s|s| |s m x p] eqn:EQ; cbn in C; destruct (Bsign a); try discriminate C; injection C as ->; [now left|].
      exfalso. unfold flt in M. destruct (fmaxOf h n) as [s|s| |s m x p]; try discriminate FM; destruct s; discriminate M.
Qed.
Lemma bnd_sub n a w : bnd n a -> plain w -> bnd n (fsub a w).
Proof.
  intros [->|[FA BA]] PW.
  - left. destruct PW as [FW _]. unfold fsub. destruct w; try discriminate FW; reflexivity.
  - pose proof (plain_R w PW) as WR. destruct PW as [FW _]. pose proof (Bminus_correct 53 1024 prec53 emax1024 mode_NE a w FA FW) as C. cbv zeta in C. fold (fsub a w) in C.
    assert (LE : (round radix2 (SpecFloat.fexp 53 1024) (round_mode mode_NE) (B2R a - B2R w) <= B2R a)%R).
    { rewrite <- (round_generic radix2 (SpecFloat.fexp 53 1024) (round_mode mode_NE) (B2R a)) at 2 by apply generic_format_B2R. apply round_le; [apply fexp_correct; reflexivity|apply valid_rnd_N|lra]. }
    destruct (Rlt_bool_spec (Rabs (round radix2 (SpecFloat.fexp 53 1024) (round_mode mode_NE) (B2R a - B2R w))) (bpow radix2 1024)) as [L|L].
    + destruct C as (E & F & _). right. split; [exact F|]. rewrite E. eapply Rle_trans; eassumption.
    + destruct C as [C S]. destruct (Bsign a) eqn:SA.
      * left. destruct (fsub a w) as [s|s| |s m x p]; cbn in C; try discriminate C. now injection C as ->.
      * exfalso. assert (B2R w <= 0)%R. { destruct w as [s|s| |s m x p]; try discriminate FW; cbn in S |- *; [lra|]. destruct s; [|discriminate S]. apply F2R_le_0. cbn. lia. }
        assert (EW : B2R w = 0%R) by lra. rewrite EW, Rminus_0_r in L. rewrite round_generic in L by (auto with typeclass_instances; apply generic_format_B2R).
        pose proof (abs_B2R_lt_emax 53 1024 a). lra.
Qed.
Definition bndArb (s : farb) : Prop := (forall n, bnd n (fget (f_alloc s n))) /\ forall k qs, f_held s k = Some qs -> forall q, In q qs -> plain (fq_w q).
Lemma charge_at qs : NoDup (map fq_name qs) -> forall al q, In q qs -> fold_left fcharge qs al (fq_name q) = Some (fadd (fget (al (fq_name q))) (fq_w q)).
Proof.
  assert (ST : forall qs al n, ~ In n (map fq_name qs) -> fold_left fcharge qs al n = al n).
  { clear. induction qs as [|x qs IH]; intros al n NI; [reflexivity|]. cbn [fold_left]. cbn [map] in NI. rewrite IH by (intros X; apply NI; now right).
    unfold fcharge, fupd. destruct (Nat.eqb_spec n (fq_name x)) as [EQ|]; [elim NI; left; congruence|reflexivity]. }
  induction qs as [|x qs IH]; intros ND al q Hq; [destruct Hq|]. cbn [map] in ND. inversion ND as [|? ? NI ND']; subst. cbn [fold_left]. destruct Hq as [->|Hq].
  - rewrite ST by exact NI. unfold fcharge, fupd. now rewrite Nat.eqb_refl.
  - rewrite (IH ND' _ q Hq). unfold fcharge at 1, fupd. destruct (Nat.eqb_spec (fq_name q) (fq_name x)) as [EQ|]; [|reflexivity]. elim NI. rewrite <- EQ. now apply in_map.
Qed.
Lemma bnd_decide es : (forall p, In p es -> okEntry plain p) -> forall est s, bndArb s -> agrees es est (f_alloc s) -> bndArb (snd (fdecide h es est s)).
Proof.
  induction es as [|p es IH]; intros OK est s B AG; [exact B|]. destruct (OK p (or_introl eq_refl)) as [SO PQ]. assert (OK' : forall x, In x es -> okEntry plain x) by (intros x Hx; apply OK; now right).
  cbn [fdecide]. destruct (ftryNeeds h (fp_needs p) est) as [est'|] eqn:ET.
  - pose proof (try_charge h (fp_needs p) (FSorted_NoDup _ SO) (fun q Hq => proj2 (PQ q Hq)) est est' (f_alloc s) (fun q Hq => AG p q (or_introl eq_refl) Hq) ET) as TC. destruct B as [B1 B2].
    match goal with |- context [fdecide h es est' ?x] => set (s1 := x) end. assert (BS : bndArb s1).
    { split.
      - intros n. unfold s1. cbn [f_alloc]. destruct (in_dec Nat.eq_dec n (map fq_name (fp_needs p))) as [I|I].
        + apply in_map_iff in I as (q & <- & Hq). destruct (TC (fq_name q)) as (_ & _ & _ & D). destruct (D q Hq eq_refl) as (_ & M & V). pose proof (charge_at _ (FSorted_NoDup _ SO) (f_alloc s) q Hq) as CA.
          rewrite CA in V. injection V as V. rewrite <- V in M. rewrite CA. cbn [fget]. apply bnd_add; auto.
        + destruct (TC n) as (_ & _ & C & _). rewrite (C I). apply B1.
      - intros k qs. unfold s1. cbn [f_held]. unfold fupd. destruct (Nat.eqb k (fp_cmd p)); [intros [= <-]; exact PQ|apply B2]. }
    assert (AG1 : agrees es est' (f_alloc s1)) by (intros x q Hx Hq; destruct (TC (fq_name q)) as (A & _); apply A; apply (AG x q); [now right|exact Hq]).
    specialize (IH OK' est' s1 BS AG1). destruct (fdecide h es est' s1) as [[a j] s']. exact IH.
  - specialize (IH OK' est s B (fun x q Hx => AG x q (or_intror Hx))). destruct (fdecide h es est s) as [[a j] s']. exact IH.
Qed.
Lemma bnd_run l : Forall plainOp l -> forall s, farun fuel h l = Some s -> bndArb s.
Proof.
  induction l as [|[cs|k] l IH]; intros FO s E; cbn [farun] in E.
  - injection E as <-. split; [|discriminate]. intros n. right. split; [reflexivity|]. cbn. apply Rmax_l.
  - inversion FO as [|? ? PO FO']; subst. destruct (farun fuel h l) as [s0|]; [|discriminate E]. destruct (IH FO' s0 eq_refl) as [B1 B2]. unfold farbitrate in E.
    destruct (fpartition fuel h cs) as [[a0 es]|] eqn:EP; [|discriminate E]. destruct (fprepare (fpsort es) (f_alloc s0)) as [al est] eqn:EPR. destruct (fprepare_spec _ _ _ _ EPR) as (AG & BG & _).
    pose proof (bnd_decide (fpsort es)) as D. specialize (D ltac:(intros p Hp; apply (proj1 (fpsort_in es p)) in Hp; exact (fpartition_ok plain h fuel cs (fun n nd w m EQ => proj2 (HP n nd EQ) w m) PO a0 es EP p Hp)) est {| f_alloc := al; f_held := f_held s0 |}).
    specialize (D ltac:(split; [intros n; cbn [f_alloc]; rewrite BG; apply B1|exact B2]) AG). destruct (fdecide h (fpsort es) est _) as [[a j] s']. injection E as <-. exact D.
  - inversion FO as [|? ? PO FO']; subst. destruct (farun fuel h l) as [s0|]; [|discriminate E]. injection E as <-. destruct (IH FO' s0 eq_refl) as [B1 B2]. unfold frelease. destruct (f_held s0 k) as [qs|] eqn:EH; [|split; auto].
    split; cbn [f_alloc f_held].
    + specialize (B2 k qs EH). clear EH. revert B1 B2. generalize (f_alloc s0). induction qs as [|q qs IHq]; intros al B1 B2; [exact B1|]. cbn [fold_left]. apply IHq; [|intros x Hx; apply B2; now right].
      intros n. unfold funCharge. destruct (fq_rel q); [|apply B1]. cbv zeta. unfold fupd. destruct (Nat.eqb_spec n (fq_name q)) as [->|]; [|apply B1].
      pose proof (bnd_sub (fq_name q) _ _ (B1 (fq_name q)) (B2 q (or_introl eq_refl))) as BS. destruct (fis0 _); [|exact BS]. right. split; [reflexivity|]. cbn. apply Rmax_l.
    + intros j qs1. unfold fupd. destruct (Nat.eqb j k); [discriminate|apply B2].
Qed.
(** Whatever the (finite, non-negative) amounts, the amount recorded for a resource is a number, and is never more than there is. *)
Theorem C74_recorded_bounded l s r : Forall plainOp l -> farun fuel h l = Some s ->
  is_nan (fget (f_alloc s r)) = false /\ (Bleb (fget (f_alloc s r)) (fmaxOf h r) = true \/ Bleb (fget (f_alloc s r)) fzero = true).
Proof.
  intros FO E. destruct (bnd_run l FO s E) as [B _]. specialize (B r). pose proof (max_finite r) as FM. destruct B as [->|[F L]].
  - split; [reflexivity|]. left. destruct (fmaxOf h r) as [t|t| |t m x p]; try discriminate FM; destruct t; reflexivity.
  - split; [destruct (fget (f_alloc s r)); try discriminate F; reflexivity|]. rewrite !Bleb_correct by (auto; reflexivity). cbn [fzero B2R]. unfold Rmax in L. destruct (Rle_dec 0 (B2R (fmaxOf h r))); [left|right]; now apply Rle_bool_true.
Qed.
End Bounded.

(** ** Where rounding matters *)
Definition pt1 : fl := @B754_finite 53 1024 false 7205759403792794 (-56) eq_refl.     (* 0.1 *)
Definition pt7 : fl := @B754_finite 53 1024 false 6305039478318694 (-53) eq_refl.     (* 0.7 *)
Definition one : fl := @B754_finite 53 1024 false 4503599627370496 (-52) eq_refl.
Definition half : fl := @B754_finite 53 1024 false 4503599627370496 (-53) eq_refl.
Definition big : fl := @B754_finite 53 1024 false 4503599627370496 1 eq_refl.          (* 2^53 *)
Definition hOf (m : fl) : fhier := fun n => match n with 1 => Some {| fn_max := m; fn_children := [] |} | _ => None end.
Definition cmdOf (k : nat) (w : fl) : fcmd := {| fk_id := k; fk_res := [{| fv_name := 1; fv_prio := 10; fv_upper := w; fv_release := true |}] |}.
Definition onlyOf (w : fl) : list fcreq := [{| fq_name := 1; fq_w := w; fq_rel := true |}].
Lemma hOf_plain m : is_finite m = true -> plainHier (hOf m).
Proof. intros F n nd E. unfold hOf in E. destruct n as [|[|n]]; try discriminate E. injection E as <-. split; [exact F|intros w k []]. Qed.

(** A command that requests resource r needs it. *)
Lemma fsinsert_keeps n x s : In n (map fq_name s) -> In n (map fq_name (fsinsert x s)).
Proof.
  induction s as [|y s IH]; cbn [fsinsert map]; [intros []|]. destruct (Nat.ltb _ _); [cbn [map]; intros H; right; exact H|]. destruct (Nat.eqb _ _); [auto|]. cbn [map]. intros [H|H]; [now left|right; auto].
Qed.
Lemma fsinsert_has x s : In (fq_name x) (map fq_name (fsinsert x s)).
Proof.
  induction s as [|y s IH]; cbn [fsinsert]; [now left|]. destruct (Nat.ltb _ _); [now left|]. destruct (Nat.eqb_spec (fq_name x) (fq_name y)) as [EQ|]; [left; now symmetry|right; exact IH].
Qed.
Lemma faddNeeds_keeps n m flat : forall s, In n (map fq_name s) -> In n (map fq_name (faddNeeds m flat s)).
Proof.
  unfold faddNeeds. induction flat as [|f flat IH]; intros s H; [exact H|]. cbn [fold_left]. apply IH. destruct (negb _); [now apply fsinsert_keeps|]. destruct (Nat.eqb _ _); [now apply fsinsert_keeps|exact H].
Qed.
Lemma fallNeeds_has h fuel vs : forall s s', fallNeeds fuel h vs s = Some s' ->
  (forall n, In n (map fq_name s) -> In n (map fq_name s')) /\ (forall v, In v vs -> In (fv_name v) (map fq_name s')).
Proof.
  induction vs as [|v vs IH]; intros s s' E; cbn [fallNeeds] in E; [injection E as <-; split; [auto|intros v []]|]. destruct (fallChild fuel h v s) as [s1|] eqn:E1; [|discriminate E].
  destruct (IH s1 s' E) as [A B]. unfold fallChild in E1. destruct (fflatC _ _ _ _) as [l|]; [|discriminate E1]. injection E1 as <-. split.
  - intros n H. exact (A n (faddNeeds_keeps n (fv_name v) ({| fq_name := fv_name v; fq_w := fv_upper v; fq_rel := fv_release v |} :: l) s H)).
  - intros x [<-|Hx]; [|now apply B]. apply A. unfold faddNeeds. cbn [fold_left fq_name]. apply (faddNeeds_keeps (fv_name v) (fv_name v) l).
    destruct (negb (fsfind (fv_name v) s)) eqn:F; [apply (fsinsert_has {| fq_name := fv_name v; fq_w := fv_upper v; fq_rel := fv_release v |})|]. rewrite Nat.eqb_refl.
    apply (fsinsert_has {| fq_name := fv_name v; fq_w := fv_upper v; fq_rel := fv_release v |}).
Qed.
Section Stuck.
Variables (fuel : nat) (h : fhier) (r : nat).
Hypothesis HP : plainHier h.
Definition stuckArb (s : farb) : Prop := flt (fget (f_alloc s r)) fzero = true /\
  (forall k qs, f_held s k = Some qs -> ~ In r (map fq_name qs)).
Lemma try_stuck qs : (forall q, In q qs -> flt (fq_w q) fzero = false) -> forall est, (In r (map fq_name qs) -> flt (fst (est r)) fzero = true -> ftryNeeds h qs est = None) /\
  (forall est', ftryNeeds h qs est = Some est' -> ~ In r (map fq_name qs) -> est' r = est r).
Proof.
  induction qs as [|q qs IH]; intros NN est; [split; [intros []|intros est' [= <-]; auto]|]. cbn [ftryNeeds map]. destruct (est (fq_name q)) as [ren con] eqn:EE. rewrite (NN q (or_introl eq_refl)).
  specialize (IH (fun x Hx => NN x (or_intror Hx)) (fupd est (fq_name q) (ren, fadd con (fq_w q)))). destruct IH as [A B]. split.
  - intros I L. destruct (Nat.eq_dec (fq_name q) r) as [EQ|NE].
    + rewrite <- EQ, EE in L. cbn [fst] in L. rewrite L. reflexivity.
    + destruct (flt ren fzero || _ || _ || _); [reflexivity|]. apply A; [destruct I; [contradiction|assumption]|]. unfold fupd. destruct (Nat.eqb_spec r (fq_name q)); [congruence|exact L].
  - intros est' E NI. destruct (flt ren fzero || _ || _ || _); [discriminate E|]. rewrite (B est' E) by (intros X; apply NI; now right). unfold fupd. destruct (Nat.eqb_spec r (fq_name q)) as [EQ|]; [elim NI; now left|reflexivity].
Qed.
Lemma charge_other qs : ~ In r (map fq_name qs) -> forall al, fold_left fcharge qs al r = al r.
Proof.
  induction qs as [|x qs IH]; intros NI al; [reflexivity|]. cbn [fold_left]. cbn [map] in NI. rewrite IH by (intros X; apply NI; now right). unfold fcharge, fupd. destruct (Nat.eqb_spec r (fq_name x)) as [EQ|]; [elim NI; now left|reflexivity].
Qed.
Lemma decide_stuck es : (forall p, In p es -> okEntry plain p) -> forall est s, stuckArb s -> (forall p, In p es -> In r (map fq_name (fp_needs p)) -> flt (fst (est r)) fzero = true) ->
  let '(a, j, s') := fdecide h es est s in stuckArb s' /\ forall p, In p es -> In r (map fq_name (fp_needs p)) -> In (fp_cmd p) j.
Proof.
  induction es as [|p es IH]; intros OK est s ST NG; [split; [exact ST|intros p []]|]. destruct (OK p (or_introl eq_refl)) as [SO PQ]. assert (OK' : forall x, In x es -> okEntry plain x) by (intros x Hx; apply OK; now right).
  cbn [fdecide]. destruct (try_stuck (fp_needs p) (fun q Hq => proj2 (PQ q Hq)) est) as [T1 T2]. destruct (in_dec Nat.eq_dec r (map fq_name (fp_needs p))) as [I|NI].
  - rewrite (T1 I (NG p (or_introl eq_refl) I)). specialize (IH OK' est s ST (fun x Hx => NG x (or_intror Hx))). destruct (fdecide h es est s) as [[a j] s']. destruct IH as [A B]. split; [exact A|].
    intros x [<-|Hx] Ix; [now left|right; now apply B].
  - destruct (ftryNeeds h (fp_needs p) est) as [est'|].
    + match goal with |- context [fdecide h es est' ?x] => set (s1 := x) end.
      assert (S1 : stuckArb s1).
      { destruct ST as [ST1 ST2]. split; [unfold s1; cbn [f_alloc]; now rewrite charge_other|]. intros k qs. unfold s1. cbn [f_held]. unfold fupd. destruct (Nat.eqb k (fp_cmd p)); [intros [= <-]; exact NI|apply ST2]. }
      assert (N1 : forall x, In x es -> In r (map fq_name (fp_needs x)) -> flt (fst (est' r)) fzero = true) by (intros x Hx Ix; rewrite (T2 est' eq_refl NI); apply (NG x (or_intror Hx) Ix)).
      specialize (IH OK' est' s1 S1 N1). destruct (fdecide h es est' s1) as [[a j] s']. destruct IH as [A B]. split; [exact A|]. intros x [<-|Hx] Ix; [contradiction|now apply B].
    + specialize (IH OK' est s ST (fun x Hx => NG x (or_intror Hx))). destruct (fdecide h es est s) as [[a j] s']. destruct IH as [A B]. split; [exact A|]. intros x [<-|Hx] Ix; [contradiction|right; now apply B].
Qed.
Lemma arb_stuck cs s : plainOp (FArb cs) -> stuckArb s -> forall a j s', farbitrate fuel h cs s = Some (a, j, s') -> stuckArb s' /\
  forall c v, In c cs -> In v (fk_res c) -> fv_name v = r -> In (fk_id c) j.
Proof.
  intros PO ST a j s' E. unfold farbitrate in E. destruct (fpartition fuel h cs) as [[a0 es]|] eqn:EP; [|discriminate E]. destruct (fprepare (fpsort es) (f_alloc s)) as [al est] eqn:EPR.
  destruct (fprepare_spec _ _ _ _ EPR) as (_ & BG & _ & _ & _ & FG).
  pose proof (decide_stuck (fpsort es)) as D.
  specialize (D ltac:(intros p Hp; apply (proj1 (fpsort_in es p)) in Hp; exact (fpartition_ok plain h fuel cs (fun n nd w m EQ => proj2 (HP n nd EQ) w m) PO a0 es EP p Hp)) est {| f_alloc := al; f_held := f_held s |}).
  destruct ST as [S1 S2]. specialize (D ltac:(split; [cbn [f_alloc]; now rewrite BG|exact S2])).
  specialize (D ltac:(intros p Hp Ip; apply in_map_iff in Ip as (q & EN & Hq); rewrite <- EN, (FG p q Hp Hq), EN; exact S1)).
  destruct (fdecide h (fpsort es) est _) as [[a1 j1] s1]. injection E as _ <- <-. destruct D as [D1 D2]. split; [exact D1|]. intros c v Hc Hv EV.
  assert (X : exists p, In p es /\ fp_cmd p = fk_id c /\ In r (map fq_name (fp_needs p))).
  { clear - EP Hc Hv EV. revert a0 es EP. induction cs as [|c0 cs IH]; intros a0 es EP; [destruct Hc|]. cbn [fpartition] in EP. destruct Hc as [->|Hc].
    - destruct (fk_res c) as [|v0 vs]; [destruct Hv|]. destruct (fallNeeds fuel h (v0 :: vs) []) as [n|] eqn:EN; [|discriminate EP]. destruct (fpartition fuel h cs) as [[a2 s2]|]; [|discriminate EP]. injection EP as <- <-.
      eexists. split; [now left|]. cbn [fp_cmd fp_needs]. split; [reflexivity|]. rewrite <- EV. destruct (fallNeeds_has h fuel (v0 :: vs) [] n EN) as [_ B]. now apply B.
    - specialize (IH Hc). destruct (fk_res c0) as [|v0 vs].
      + destruct (fpartition fuel h cs) as [[a2 s2]|]; [|discriminate EP]. injection EP as <- <-. eapply IH; reflexivity.
      + destruct (fallNeeds fuel h (v0 :: vs) []) as [n|]; [|discriminate EP]. destruct (fpartition fuel h cs) as [[a2 s2]|]; [|discriminate EP]. injection EP as <- <-.
        destruct (IH _ _ eq_refl) as (p & Hp & X). exists p. split; [now right|exact X]. }
  destruct X as (p & Hp & <- & Ip). apply D2; [now apply fpsort_in|exact Ip].
Qed.
Lemma rel_stuck k s : stuckArb s -> stuckArb (frelease k s).
Proof.
  intros [S1 S2]. unfold frelease. destruct (f_held s k) as [qs|] eqn:EH; [|split; auto]. specialize (S2 k qs EH) as NI. split; cbn [f_alloc f_held].
  - assert (U : forall qs al, ~ In r (map fq_name qs) -> fold_left funCharge qs al r = al r).
    { clear. induction qs as [|x qs IH]; intros al NI; [reflexivity|]. cbn [fold_left]. cbn [map] in NI. rewrite IH by (intros X; apply NI; now right). unfold funCharge. destruct (fq_rel x); [|reflexivity].
      cbv zeta. unfold fupd. destruct (Nat.eqb_spec r (fq_name x)) as [EQ|]; [elim NI; now left|reflexivity]. }
    now rewrite U.
  - intros j qs1. unfold fupd. destruct (Nat.eqb j k); [discriminate|apply S2].
Qed.
Lemma run_stuck l0 s0 : farun fuel h l0 = Some s0 -> stuckArb s0 -> forall l, Forall plainOp l -> forall s, farun fuel h (l ++ l0) = Some s -> stuckArb s.
Proof.
  intros E0 ST. induction l as [|[cs|k] l IH]; intros FO s E; cbn [app farun] in E.
  - rewrite E0 in E. injection E as <-. exact ST.
  - inversion FO; subst. destruct (farun fuel h (l ++ l0)) as [s1|]; [|discriminate E]. destruct (farbitrate fuel h cs s1) as [[[a j] s2]|] eqn:EA; [|discriminate E]. injection E as <-. now apply (arb_stuck cs s1 H1 (IH H2 s1 eq_refl) a j).
  - inversion FO; subst. destruct (farun fuel h (l ++ l0)) as [s1|]; [|discriminate E]. injection E as <-. apply rel_stuck. now apply IH.
Qed.
End Stuck.
Definition lStuck : list fop := [FRel 1; FRel 2; FArb [cmdOf 1 pt1; cmdOf 2 pt7]].
(** Two commands take 0.1 and 0.7 of a resource of which there is 1, and give them back.  What is recorded is then less than nothing, and
    although no command holds anything every command that ever asks for the resource again is refused. *)
Definition residue : fl := fsub (fsub (fadd (fadd fzero pt1) pt7) pt7) pt1.
Lemma residue_neg : flt residue fzero = true /\ fis0 residue = false /\ fis0 (fsub (fadd (fadd fzero pt1) pt7) pt7) = false.
Proof. vm_compute. auto. Qed.
Lemma chk : flt (fadd fzero pt1) fzero = false /\ flt one (fadd fzero pt1) = false /\ flt (fadd (fadd fzero pt1) pt7) fzero = false /\ flt one (fadd (fadd fzero pt1) pt7) = false /\ flt pt1 fzero = false /\ flt pt7 fzero = false /\ flt fzero fzero = false /\ flt one fzero = false.
Proof. vm_compute. auto 10. Qed.
Lemma stuck_state : exists s, farun 2 (hOf one) lStuck = Some s /\ fget (f_alloc s 1) = residue /\ forall k, f_held s k = None.
Proof.
  destruct chk as (C1 & C2 & C3 & C4 & C5 & C6 & C7 & C8). destruct residue_neg as (_ & R1 & R2). unfold residue in R1.
  unfold lStuck, farun, farbitrate. cbn -[fadd fsub flt fis0 pt1 pt7 one fzero]. rewrite C5. cbn -[fadd fsub flt fis0 pt1 pt7 one fzero].
rewrite C7, C8, C1, C2. cbn -[fadd fsub flt fis0 pt1 pt7 one fzero]. rewrite C6. cbn -[fadd fsub flt fis0 pt1 pt7 one fzero].
rewrite C7, C8, C3, C4. cbn -[fadd fsub flt fis0 pt1 pt7 one fzero].
  eexists. split; [reflexivity|]. split.
  - cbn -[fadd fsub flt fis0 pt1 pt7 one fzero residue]. rewrite R2. cbn -[fadd fsub flt fis0 pt1 pt7 one fzero hOf residue]. rewrite R1. reflexivity.
  - intros k. cbn -[fadd fsub flt fis0 pt1 pt7 one fzero residue]. unfold fupd. destruct k as [|[|[|k]]]; reflexivity.
Qed.
(** Two commands take 0.1 and 0.7 of a resource of which there is 1, and give them back.  What is recorded is then less than nothing, and
    although no command holds anything every command that ever asks for the resource again is refused. *)
Theorem C74_stuck_refuted : exists s, farun 2 (hOf one) lStuck = Some s /\ Forall plainOp lStuck /\ Forall properFop lStuck /\ (forall k, f_held s k = None) /\
  forall l s1 cs a j s2, Forall plainOp l -> plainOp (FArb cs) -> farun 2 (hOf one) (l ++ lStuck) = Some s1 -> farbitrate 2 (hOf one) cs s1 = Some (a, j, s2) ->
    forall c v, In c cs -> In v (fk_res c) -> fv_name v = 1 -> In (fk_id c) j.
Proof.
  destruct stuck_state as (s & E & R & H). exists s. split; [exact E|]. destruct chk as (_ & _ & _ & _ & C5 & C6 & _).
  split; [constructor; [exact Logic.I|constructor; [exact Logic.I|constructor; [|constructor]]]; intros c v Hc Hv; cbn in Hc; destruct Hc as [<-|[<-|[]]]; destruct Hv as [<-|[]]; split; auto|].
  split; [repeat constructor; cbn; intuition discriminate|]. split; [exact H|]. intros l s1 cs a j s2 FO PO E1 E2. assert (ST : stuckArb 1 s).
  { split; [rewrite R; apply residue_neg|intros k qs X; rewrite H in X; discriminate X]. }
  pose proof (run_stuck 2 (hOf one) 1 (hOf_plain one eq_refl) lStuck s E ST l FO s1 E1) as ST1. apply (arb_stuck 2 (hOf one) 1 (hOf_plain one eq_refl) cs s1 PO ST1 a j s2 E2).
Qed.

(** One step of a batch with one command that asks for resource 1 only. *)
Lemma arb_one m k w s : flt w fzero = false -> let a := fget (f_alloc s 1) in
  flt a fzero = false -> flt m a = false -> flt (fadd a w) fzero = false -> flt m (fadd a w) = false ->
  exists s', farbitrate 2 (hOf m) [cmdOf k w] s = Some ([k], [], s') /\ f_alloc s' 1 = Some (fadd a w) /\ f_held s' k = Some (onlyOf w) /\ forall j, j <> k -> f_held s' j = f_held s j.
Proof.
  intros W a A1 A2 A3 A4. unfold farbitrate. cbn -[fadd flt fzero]. rewrite W. cbn -[fadd flt fzero]. unfold fupd at 1 2 3. cbn -[fadd flt fzero].
  change (fget (f_alloc s 1)) with a. rewrite A1, A2, A3, A4. cbn -[fadd flt fzero]. eexists. split; [reflexivity|]. cbn -[fadd flt fzero]. split.
  - unfold fcharge, fupd, fensure. cbn -[fadd flt fzero]. unfold fupd. destruct (f_alloc s 1) as [x|] eqn:E; cbn -[fadd flt fzero]; unfold a; try rewrite E; reflexivity.
  - unfold fupd. split; [now rewrite Nat.eqb_refl|]. intros j NE. destruct (Nat.eqb_spec j k); [contradiction|reflexivity].
Qed.
Lemma big_facts : B2SF (fadd big one) = B2SF big /\ B2SF (fadd fzero big) = B2SF big /\ flt one fzero = false /\ flt big fzero = false /\ flt big big = false /\ flt big fzero = false /\ flt fzero fzero = false.
Proof. vm_compute. auto 10. Qed.
Definition lBig (n : nat) : list fop := map (fun k => FArb [cmdOf k one]) (rev (seq 1 n)) ++ [FArb [cmdOf 0 big]].
(** Of a resource of which there is 2^53 one command takes all; after that any number of commands take 1 each. *)
Theorem C74_absorbed_refuted : forall n, exists s, farun 2 (hOf big) (lBig n) = Some s /\ Forall plainOp (lBig n) /\
  f_held s 0 = Some (onlyOf big) /\ forall k, 1 <= k <= n -> f_held s k = Some (onlyOf one).
Proof.
  destruct big_facts as (B1 & B2 & B3 & B4 & B5 & _ & B7). apply B2SF_inj in B1, B2.
  assert (P : forall n, Forall plainOp (lBig n)).
  { intros n. apply Forall_app. split; [apply Forall_map, Forall_forall; intros k _ c v [<-|[]] [<-|[]]; split; [reflexivity|exact B3]|].
    constructor; [|constructor]. intros c v [<-|[]] [<-|[]]; split; [reflexivity|exact B4]. }
  enough (X : forall n, exists s, farun 2 (hOf big) (lBig n) = Some s /\ f_alloc s 1 = Some big /\ f_held s 0 = Some (onlyOf big) /\ forall k, 1 <= k <= n -> f_held s k = Some (onlyOf one)).
  { intros n. destruct (X n) as (s & A & _ & C & D). exists s. auto. }
  induction n as [|n (s & A & B & C & D)].
  - pose proof (arb_one big 0 big fnewArb B4) as O. cbv zeta in O. change (fget (f_alloc fnewArb 1)) with fzero in O. rewrite B2 in O. destruct (O B7 B4 B4 B5) as (s & E & F & G & _). clear O.
    exists s. unfold lBig. cbn [seq rev map app farun]. rewrite E. repeat split; auto. intros k K. lia.
  - destruct (arb_one big (S n) one s B3) as (s' & E & F & G & H); rewrite ?B; cbn [fget]; rewrite ?B1; auto.
    rewrite B in F. cbn [fget] in F. rewrite B1 in F. exists s'. unfold lBig. rewrite seq_S, rev_app_distr. cbn [rev app map farun Nat.add]. unfold lBig in A. rewrite A, E.
    repeat split; auto.
    + rewrite H by lia. exact C.
    + intros k K. destruct (Nat.eq_dec k (S n)) as [->|NE]; [exact G|]. rewrite H by lia. apply D. lia.
Qed.
(** A demand that is not a number (which a plan can write, C63) is granted, and from then on the resource has no limit. *)
Theorem C74_nan_refuted : forall m, flt m fzero = false -> exists s, farbitrate 2 (hOf m) [cmdOf 0 B754_nan] fnewArb = Some ([0], [], s) /\
  forall n w, (forall k, flt (w k) fzero = false) -> exists s', farun 2 (hOf m) (map (fun k => FArb [cmdOf k (w k)]) (rev (seq 1 n)) ++ [FArb [cmdOf 0 B754_nan]]) = Some s' /\
    forall k, 1 <= k <= n -> f_held s' k = Some (onlyOf (w k)).
Proof.
  intros m M. assert (N1 : forall x, flt B754_nan x = false) by (intros x; reflexivity). assert (N2 : forall x, flt x B754_nan = false) by (intros [ | | | ]; reflexivity).
  assert (NA : forall x, fadd B754_nan x = B754_nan) by (intros [ | | | ]; reflexivity).
  pose proof (arb_one m 0 B754_nan fnewArb (N1 _)) as O. cbv zeta in O. change (fget (f_alloc fnewArb 1)) with fzero in O. assert (NZ : fadd fzero B754_nan = B754_nan) by reflexivity. rewrite NZ in O.
  destruct (O eq_refl M (N1 _) (N2 _)) as (s & E & F & G & _). clear O. exists s. split; [exact E|]. intros n w W.
  enough (X : exists s', farun 2 (hOf m) (map (fun k => FArb [cmdOf k (w k)]) (rev (seq 1 n)) ++ [FArb [cmdOf 0 B754_nan]]) = Some s' /\ f_alloc s' 1 = Some B754_nan /\ forall k, 1 <= k <= n -> f_held s' k = Some (onlyOf (w k)))
    by (destruct X as (s' & A & _ & B); exists s'; auto).
  induction n as [|n (s1 & A & B & D)].
  - exists s. cbn [seq rev map app farun]. rewrite E. split; [reflexivity|]. split; [exact F|]. intros k K. lia.
  - destruct (arb_one m (S n) (w (S n)) s1 (W _)) as (s' & E1 & F1 & G1 & H1); rewrite ?B; cbn [fget]; rewrite ?NA; auto.
    rewrite B in F1. cbn [fget] in F1. rewrite NA in F1. exists s'. rewrite seq_S, rev_app_distr. cbn [rev app map farun Nat.add]. rewrite A, E1. split; [reflexivity|]. split; [exact F1|].
    intros k K. destruct (Nat.eq_dec k (S n)) as [->|NE]; [exact G1|]. rewrite H1 by lia. apply D. lia.
Qed.

(** ** Every command is decided, once; whatever the amounts *)
Lemma fpsort_perm l : Permutation (fpsort l) l.
Proof.
  induction l as [|x l IH]; [constructor|]. cbn [fpsort]. transitivity (x :: fpsort l); [|now constructor]. generalize (fpsort l). clear. intros l. induction l as [|y l IH]; [reflexivity|]. cbn [fpinsert].
  destruct (Z.ltb _ _); [|reflexivity]. rewrite IH. constructor.
Qed.
Lemma fdecide_perm h es : forall est s, let '(a, j, _) := fdecide h es est s in Permutation (a ++ j) (map fp_cmd es).
Proof.
  induction es as [|p es IH]; intros est s; [constructor|]. cbn [fdecide map]. destruct (ftryNeeds h (fp_needs p) est) as [est'|].
  - match goal with |- context [fdecide h es est' ?x] => specialize (IH est' x); destruct (fdecide h es est' x) as [[a j] s'] end. cbn [app]. now constructor.
  - specialize (IH est s). destruct (fdecide h es est s) as [[a j] s']. rewrite <- IH. symmetry. apply Permutation_middle.
Qed.
Theorem C74_partition : forall fuel h cs s a j s', farbitrate fuel h cs s = Some (a, j, s') ->
  Permutation (a ++ j) (map fk_id cs) /\ forall c, In c cs -> fk_res c = [] -> In (fk_id c) a.
Proof.
  intros fuel h cs s a j s' E. unfold farbitrate in E. destruct (fpartition fuel h cs) as [[a0 es]|] eqn:EP; [|discriminate E]. destruct (fprepare (fpsort es) (f_alloc s)) as [al est].
  pose proof (fdecide_perm h (fpsort es) est {| f_alloc := al; f_held := f_held s |}) as D. destruct (fdecide h (fpsort es) est _) as [[a1 j1] s1]. injection E as <- <- <-.
  assert (P : Permutation (a0 ++ map fp_cmd es) (map fk_id cs) /\ forall c, In c cs -> fk_res c = [] -> In (fk_id c) a0).
  { clear - EP. revert a0 es EP. induction cs as [|c cs IH]; intros a0 es EP; cbn [fpartition] in EP; [injection EP as <- <-; split; [constructor|intros c []]|]. destruct (fk_res c) as [|v vs] eqn:EK.
    - destruct (fpartition fuel h cs) as [[a2 s2]|]; [|discriminate EP]. injection EP as <- <-. destruct (IH _ _ eq_refl) as [A B]. split; [cbn [app map]; now constructor|]. intros x [<-|Hx] R; [now left|right; now apply B].
    - destruct (fallNeeds fuel h (v :: vs) []) as [n|]; [|discriminate EP]. destruct (fpartition fuel h cs) as [[a2 s2]|]; [|discriminate EP]. injection EP as <- <-. destruct (IH _ _ eq_refl) as [A B]. split.
      + cbn [map]. rewrite <- A. symmetry. apply Permutation_middle.
      + intros x [<-|Hx] R; [congruence|now apply B]. }
  destruct P as [P1 P2]. split.
  - rewrite <- app_assoc, D, (Permutation_map fp_cmd (fpsort_perm es)). exact P1.
  - intros c Hc R. apply in_or_app. left. now apply P2.
Qed.
(** Half units: three commands want 1/2, 1 and 1/2 of what there is 1 of, and of the part of it that 1/2 is needed of.  *)
Definition hHalf : fhier := fun n => match n with 1 => Some {| fn_max := one; fn_children := [(half, 2)] |} | _ => None end.
Lemma fair_half : fair (-1) half /\ fair (-1) one.
Proof.
  split; (split; [reflexivity|]); [exists 1%Z|exists 2%Z]; (split; [lia|]); unfold half, one, B2R, F2R; cbn [Fnum Fexp cond_Zopp].
  - change (IZR 4503599627370496) with (bpow radix2 52). rewrite <- bpow_plus. rewrite Rmult_1_l. reflexivity.
  - change (IZR 4503599627370496) with (bpow radix2 52). change 2%R with (bpow radix2 1). rewrite <- !bpow_plus. reflexivity.
Qed.
Theorem C74_demo : fairHier (-1) hHalf /\ fairOp (-1) (FArb [cmdOf 1 half; cmdOf 2 one; cmdOf 3 half]) /\
  match farbitrate 3 hHalf [cmdOf 1 half; cmdOf 2 one; cmdOf 3 half] fnewArb with Some (a, j, _) => a = [1; 3] /\ j = [2] | None => False end.
Proof.
  destruct fair_half as [F1 F2]. split; [|split].
  - intros n nd E. destruct n as [|[|n]]; try discriminate E. injection E as <-. split; [exact F2|]. intros w m [[= <- <-]|[]]. exact F1.
  - apply Forall_forall. intros c Hc v Hv. cbn in Hc. destruct Hc as [<-|[<-|[<-|[]]]]; destruct Hv as [<-|[]]; assumption.
  - assert (K : arbitrate 3 (zhier (-1) hHalf) (map (zc (-1)) [cmdOf 1 half; cmdOf 2 one; cmdOf 3 half]) (zarb (-1) fnewArb) = option_map (fun r => let '(a, j, s') := r in (a, j, zarb (-1) s')) (farbitrate 3 hHalf [cmdOf 1 half; cmdOf 2 one; cmdOf 3 half] fnewArb)).
    { assert (HH : fairHier (-1) hHalf) by (intros n nd E; destruct n as [|[|n]]; try discriminate E; injection E as <-; split; [exact F2|intros w m [[= <- <-]|[]]; exact F1]).
      assert (LE : (-51 <= -1 <= 0)%Z) by lia. destruct (C74_exact (-1) 3 hHalf LE HH [] (Forall_nil _) (Forall_nil _)) as [_ K]. apply K; [reflexivity|].
      apply Forall_forall. intros c Hc v Hv. cbn in Hc. destruct Hc as [<-|[<-|[<-|[]]]]; destruct Hv as [<-|[]]; assumption. }
    assert (T : forall x z, isz (-1) x z -> toZ (-1) x = z) by (intros; now apply isz_toZ). assert (TH : toZ (-1) half = 1%Z).
    { apply T. split; [reflexivity|]. unfold half, B2R, F2R; cbn [Fnum Fexp cond_Zopp]. change (IZR 4503599627370496) with (bpow radix2 52). rewrite <- bpow_plus. rewrite Rmult_1_l. reflexivity. }
    assert (TO : toZ (-1) one = 2%Z).
    { apply T. split; [reflexivity|]. unfold one, B2R, F2R; cbn [Fnum Fexp cond_Zopp]. change (IZR 4503599627370496) with (bpow radix2 52). change 2%R with (bpow radix2 1). rewrite <- !bpow_plus. reflexivity. }
    destruct (farbitrate 3 hHalf _ fnewArb) as [[[a j] s']|]; cbn [option_map] in K; unfold arbitrate in K; cbn -[toZ] in K; rewrite ?TH, ?TO in K; cbn -[toZ] in K; [|discriminate K].
    rewrite ?TH, ?TO in K. cbn -[toZ] in K. injection K as <- <- _. auto.
Qed.

(** Assumptions *)
Print Assumptions C74_exact.
Print Assumptions C74_never_exceeds.
Print Assumptions C74_recorded_bounded.
Print Assumptions C74_stuck_refuted.
Print Assumptions C74_absorbed_refuted.
Print Assumptions C74_nan_refuted.
Print Assumptions C74_partition.
