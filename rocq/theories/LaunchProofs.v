From Coq Require Import ZArith Reals Lra Lia List Bool String.
From Flocq Require Import Core BinarySingleNaN.
From Verif Require Import ValueModel FloatModel TypeModel UdpQueueModel LitModel LitSpec LitProofs LitProps PrintModel PrintProofs PrintProps LaunchModel LaunchSpec.
Import ListNotations.
Open Scope Z_scope.

(** ** Names *)
Lemma cstr_noNul s : noNul s -> cstr s = s.
Proof.
  induction s as [|c r IH]; intros N; [reflexivity|]. cbn [cstr]. destruct (Z.eqb_spec c 0) as [->|_]; [elim N; now left|]. rewrite IH; [reflexivity|]. intros I. apply N. now right.
Qed.
Lemma cstr_clean s : noNul (cstr s).
Proof.
  unfold noNul. induction s as [|c r IH]; [exact (fun H => H)|]. cbn [cstr]. destruct (Z.eqb_spec c 0); [exact (fun H => H)|]. intros [E|I]; [congruence|auto].
Qed.
Lemma printNat_digits n : 0 <= n -> Forall (fun c => 48 <= c <= 57) (printNat n).
Proof.
  intros N. destruct (printNat_numeral n N) as ((ds & D & _) & _). revert D. generalize (printNat n). intros s D. induction D as [|c d p q [[[H ->]|[H _]] L] D IH]; constructor; auto; lia.
Qed.
Lemma printNat_nonempty n : 0 <= n -> printNat n <> [].
Proof. intros N. destruct (printNat_numeral n N) as ((ds & D & NE & _) & _). intros E. rewrite E in D. inversion D. congruence. Qed.
Lemma printNat_inj a b : 0 <= a -> 0 <= b -> printNat a = printNat b -> a = b.
Proof.
  intros A B E. pose proof (printInteger_text a) as TA. pose proof (printInteger_text b) as TB. unfold printInteger in *.
  destruct (Z.ltb_spec a 0); [lia|]. destruct (Z.ltb_spec b 0); [lia|]. rewrite E in TA. exact (intText_fun _ _ _ TA TB).
Qed.
Lemma split_last (a b x y : str) : ~ In 95 x -> ~ In 95 y -> a ++ 95 :: x = b ++ 95 :: y -> a = b /\ x = y.
Proof.
  revert b. induction a as [|c a IH]; intros [|d b] NX NY E; cbn in E.
  - injection E as E. auto.
  - injection E as <- E. elim NX. rewrite E. apply in_or_app. right. now left.
  - injection E as -> E. elim NY. rewrite <- E. apply in_or_app. right. now left.
  - injection E as -> E. destruct (IH b NX NY E) as [-> ->]. auto.
Qed.
Lemma callerName_inj a m b n : 0 <= m -> 0 <= n -> callerName a m = callerName b n -> a = b /\ m = n.
Proof.
  intros M N E. assert (D : forall k, 0 <= k -> ~ In 95 (printNat k)).
  { intros k K I. pose proof (printNat_digits k K) as F. rewrite Forall_forall in F. specialize (F _ I). lia. }
  destruct (split_last _ _ _ _ (D m M) (D n N) E) as [-> P]. split; [reflexivity|]. now apply printNat_inj.
Qed.
Lemma callerName_noNul a n : 0 <= n -> noNul a -> noNul (callerName a n).
Proof.
  intros N A I. unfold callerName in I. apply in_app_or in I as [I|[I|I]]; [exact (A I)|lia|].
  pose proof (printNat_digits n N) as F. rewrite Forall_forall in F. specialize (F _ I). lia.
Qed.
Lemma nextSerial_range n : 0 <= nextSerial n < 2 ^ 32.
Proof. apply Z.mod_pos_bound. lia. Qed.

(** ** Literals *)
Lemma cstr_printBoolean b : cstr (printBoolean b) = printBoolean b.
Proof. destruct b; reflexivity. Qed.
Lemma printInteger_clean z : noNul (printInteger z).
Proof.
  unfold printInteger. assert (G : forall n, 0 <= n -> noNul (printNat n)) by (intros n N I; pose proof (printNat_digits n N) as F; rewrite Forall_forall in F; specialize (F _ I); lia).
  destruct (Z.ltb_spec z 0); [|apply G; lia]. intros [E|I]; [discriminate|]. apply (G (- z)); [lia|exact I].
Qed.
Lemma name_clean k i : noNul (nameText k i).
Proof.
  unfold nameText. destruct ((0 <? i)%nat && (i <? length (namesOf k))%nat) eqn:E; [|vm_compute; intuition discriminate].
  apply andb_prop in E as [E1 E2]. apply Nat.ltb_lt in E1. apply Nat.ltb_lt in E2.
  destruct k; cbn [namesOf length stateNames outcomeNames failureNames handleNames] in E2; do 10 (destruct i as [|i]; [vm_compute; intuition discriminate|]); lia.
Qed.
Lemma createLiteral_scalar v : createLiteral (textEl (tagOfLit (litOf v)) (cstr (scalarText v)))
  = option_map (fun o => match o with Some w => LvS w | None => LvUnk (typeOfLit (litOf v)) end) (allocLit (litOf v) (cstr (scalarText v))).
Proof. destruct v; reflexivity. Qed.
Lemma createLiteral_name k i : createLiteral (textEl (tagOfKind k) (nameText k i)) = kindConstant k (nameText k i).
Proof. destruct k; reflexivity. Qed.
(** The Type attribute is not the name of a type. *)
Lemma createLiteral_array t l : createLiteral (valueXml (LvA t l)) = None.
Proof. destruct t; reflexivity. Qed.
(** ** Texts without NUL *)
Lemma digitsIn_clean b s ds : digitsIn b s ds -> noNul s.
Proof. intros D I. unfold digitsIn in D. induction D as [|c d p q [H _] D IH]; [exact I|]. destruct I as [->|I]; [|auto]. destruct H as [[H E]|[H [E|E]]]; lia. Qed.
Lemma noNul_app a b : noNul a -> noNul b -> noNul (a ++ b).
Proof. intros A B I. apply in_app_or in I as [I|I]; auto. Qed.
Lemma noNul_cons c a : c <> 0 -> noNul a -> noNul (c :: a).
Proof. intros C A [E|I]; auto. Qed.
Lemma sign_clean sg n : sign sg n -> noNul sg.
Proof. intros []; cbn; intros H; try contradiction; destruct H as [H|[]]; discriminate. Qed.
Lemma mantissa_clean b s m k : mantissa b s m k -> noNul s.
Proof.
  intros (x & y & da & db & DA & DB & _ & [[-> _]| ->] & _); [exact (digitsIn_clean _ _ _ DA)|]. apply noNul_app; [exact (digitsIn_clean _ _ _ DA)|].
  apply noNul_cons; [lia|exact (digitsIn_clean _ _ _ DB)].
Qed.
Lemma exponent_clean marks s e : ~ In 0 marks -> exponent marks s e -> noNul s.
Proof.
  intros M [[-> _]|(c & sg & neg & body & n & C & S1 & (ds & D & _) & -> & _)]; [exact (fun H => H)|]. apply noNul_cons; [intros ->; exact (M C)|].
  apply noNul_app; [exact (sign_clean _ _ S1)|exact (digitsIn_clean _ _ _ D)].
Qed.
Lemma realText_clean s neg r : realText s neg r -> noNul s.
Proof.
  intros (ws & sg & body & B & S1 & RB & ->). apply noNul_app.
  { intros I. unfold blank in B. rewrite Forall_forall in B. specialize (B _ I). cbn in B. intuition lia. }
  apply noNul_app; [exact (sign_clean _ _ S1)|]. destruct RB as [ma ex m k e M X|x ma ex m k e HX M X].
  - apply noNul_app; [exact (mantissa_clean _ _ _ _ M)|]. refine (exponent_clean _ _ _ _ X); cbn; intuition lia.
  - apply noNul_cons; [lia|]. apply noNul_cons; [lia|]. apply noNul_app; [exact (mantissa_clean _ _ _ _ M)|]. refine (exponent_clean _ _ _ _ X); cbn; intuition lia.
Qed.
Lemma printReal_clean x : noNul (printReal x).
Proof.
  destruct x as [s|s| |s m e H] eqn:E.
  - destruct s; vm_compute; intuition discriminate.
  - destruct s; vm_compute; intuition discriminate.
  - vm_compute; intuition discriminate.
  - rewrite <- E. assert (NZ : B2R x <> 0%R).
    { intros Z0. assert (P : (0 < IZR (Zpos m) * bpow radix2 e)%R) by (apply Rmult_lt_0_compat; [apply (IZR_lt 0); lia|apply bpow_gt_0]).
      pose proof (finite_abs s m e H) as A. rewrite <- E, Z0, Rabs_R0 in A. lra. }
    destruct (C63_print_real x ltac:(rewrite E; reflexivity) NZ) as (n & k & T & _). exact (realText_clean _ _ _ T).
Qed.
Lemma scalar_clean v : (forall s, v = SS s -> noNul s) -> cstr (scalarText v) = scalarText v.
Proof.
  intros N. apply cstr_noNul. destruct v as [b|z|x|s]; cbn [scalarText]; [destruct b; vm_compute; intuition discriminate|apply printInteger_clean|apply printReal_clean|exact (N s eq_refl)].
Qed.
(** ** Values arrive *)
Lemma name_arrives k i : (0 < i < length (namesOf k))%nat -> (k = KHandle -> (i <= 6)%nat) -> kindConstant k (nameText k i) = Some (LvN k i).
Proof.
  intros [I1 I2] HH. destruct k; cbn [namesOf length stateNames outcomeNames failureNames handleNames] in I2; try specialize (HH eq_refl);
    do 10 (destruct i as [|i]; [first [lia|vm_compute; reflexivity]|]); lia.
Qed.
Lemma real_arrives x : fifteen x -> exists y, allocLit LReal (printReal x) = Some (Some (SR y)) /\ is_finite y = true /\ B2R y = B2R x.
Proof.
  intros [F V]. assert (P : exists y, parseReal (printReal x) = Known y /\ B2R y = B2R x /\ is_finite y = true).
  { destruct V as [Z0|(N & j & NN & B & L)].
    - destruct x as [s|s| |s m e H]; try discriminate F.
      + exists (B754_zero s). split; [destruct s; vm_compute; reflexivity|]. auto.
      + exfalso. pose proof (finite_abs s m e H) as A. rewrite Z0, Rabs_R0 in A. assert (0 < IZR (Zpos m) * bpow radix2 e)%R by (apply Rmult_lt_0_compat; [apply (IZR_lt 0); lia|apply bpow_gt_0]). lra.
    - destruct (C63_print_real_round_trip x N j F NN B L) as (_ & y & P & V & _ & G). eauto. }
  destruct P as (y & P & V' & G). destruct (C63_real_literal _ _ P) as (z & LL & ZV & _ & ZF). exists z. split; [|split; congruence].
  unfold literal in LL. destruct (streq (printReal x) []); [discriminate|]. exact LL.
Qed.
Lemma value_arrives v : passable v -> exists w, createLiteral (valueXml v) = Some w /\ same v w.
Proof.
  destruct v as [t|[b|z|x|s]|k i|t l]; cbn [passable valueXml]; intros P; try contradiction.
  - rewrite createLiteral_scalar, scalar_clean by discriminate. exists (LvS (SB b)). split; [|reflexivity]. destruct b; reflexivity.
  - rewrite createLiteral_scalar, scalar_clean by discriminate. exists (LvS (SI z)). split; [|reflexivity]. cbn [litOf scalarText allocLit parseAs].
    rewrite (C63_print_integer z P). reflexivity.
  - rewrite createLiteral_scalar, scalar_clean by discriminate. destruct (real_arrives x P) as (y & A & F & V). exists (LvS (SR y)). cbn [litOf scalarText]. rewrite A.
    split; [reflexivity|]. split; assumption.
  - rewrite createLiteral_scalar, scalar_clean by (intros s' [= <-]; exact P). exists (LvS (SS s)). split; reflexivity.
  - rewrite createLiteral_name. exists (LvN k i). split; [|reflexivity]. apply name_arrives; tauto.
Qed.
(** ** The plan made *)
Lemma readPlan_wrapper caller callee ps : readPlan (wrapperXml caller callee ps)
  = if negb (streq caller []) && negb (streq callee []) && checkAliases [] (map aliasXml ps)
    then match makeAliases (map aliasXml ps) with Some m => Some (mkLoaded caller (chars "ExitPlan", [caller]) callee m) | None => None end else None.
Proof.
  unfold wrapperXml, readPlan, textEl. cbv iota beta zeta. change (childValue (El "NodeId" [] [Txt callee])) with callee. change (is "NodeId" (El "NodeId" [] [Txt callee])) with true.
  rewrite andb_true_r. match goal with |- context [if ?c && _ && _ && _ then _ else _] => change c with true end. rewrite andb_true_l.
  destruct (negb (streq caller []) && negb (streq callee []) && checkAliases [] (map aliasXml ps)); reflexivity.
Qed.
Definition shown (v : lval) : bool := match v with LvA _ [] => false | _ => true end.
Lemma checkAliases_map ps : forall seen, checkAliases seen (map aliasXml ps) = true <->
  (NoDup (map (fun p => cstr (fst p)) ps) /\ Forall (fun p => cstr (fst p) <> [] /\ ~ In (cstr (fst p)) seen /\ shown (snd p) = true) ps).
Proof.
  induction ps as [|[f v] r IH]; intros seen; cbn [map checkAliases]; [split; [repeat constructor|reflexivity]|].
  change (is "Alias" (aliasXml (f, v))) with true. change (kidsOf (aliasXml (f, v))) with [textEl "NodeParameter" (cstr f); valueXml v]. cbv iota zeta.
  change (is "NodeParameter" (textEl "NodeParameter" (cstr f))) with true. change (childValue (textEl "NodeParameter" (cstr f))) with (cstr f). cbn [andb fst].
  assert (V : match valueXml v with El t _ k => match k with [] => String.eqb t "StringValue" | _ => true end | Txt _ => false end = shown v) by (destruct v as [| [] | |t [|]]; reflexivity).
  rewrite !andb_true_iff, negb_true_iff, negb_true_iff, streq_false, V, IH. clear V.
  assert (X : existsb (streq (cstr f)) seen = false <-> ~ In (cstr f) seen).
  { split.
    - intros E I. assert (T : existsb (streq (cstr f)) seen = true) by (apply existsb_exists; exists (cstr f); split; [exact I|apply streq_true; reflexivity]). congruence.
    - intros N. destruct (existsb _ seen) eqn:E; [|reflexivity]. apply existsb_exists in E as (y & I & T). apply streq_true in T. subst y. contradiction. }
  rewrite X. rewrite NoDup_cons_iff, Forall_cons_iff. cbn [fst snd]. rewrite !Forall_forall. split.
  - intros (((A & B) & C) & D & E). split; [split; [|exact D]|].
    + intros I. apply in_map_iff in I as (p & P1 & P2). destruct (E p P2) as (_ & N & _). apply N. left. symmetry. exact P1.
    + split; [auto|]. intros p I. destruct (E p I) as (E1 & E2 & E3). split; [exact E1|]. split; [|exact E3]. intros J. apply E2. now right.
  - intros ((N & D) & (A & B & C) & E). split; [auto|]. split; [exact D|]. intros p I. destruct (E p I) as (E1 & E2 & E3). split; [exact E1|]. split; [|exact E3].
    intros [J|J]; [|exact (E2 J)]. apply N. rewrite J. apply in_map_iff. exists p. auto.
Qed.
Lemma makeAliases_map ps : makeAliases (map aliasXml ps) = (fix go l := match l with [] => Some [] | p :: r =>
   match createLiteral (valueXml (snd p)), go r with Some v, Some m => Some ((cstr (fst p), v) :: m) | _, _ => None end end) ps.
Proof. induction ps as [|[f v] r IH]; [reflexivity|]. cbn [map makeAliases]. rewrite IH. reflexivity. Qed.
Lemma makeAliases_names ps m : makeAliases (map aliasXml ps) = Some m -> Forall2 (fun p q => fst q = cstr (fst p) /\ createLiteral (valueXml (snd p)) = Some (snd q)) ps m.
Proof.
  rewrite makeAliases_map. revert m. induction ps as [|[f v] r IH]; intros m H; [injection H as <-; constructor|]. cbn [snd fst] in H. destruct (createLiteral (valueXml v)) as [w|] eqn:W; [|discriminate].
  match type of H with match ?g with _ => _ end = _ => destruct g as [m'|] eqn:G; [|discriminate] end. injection H as <-. constructor; [split; [reflexivity|exact W]|]. apply IH. reflexivity.
Qed.
Lemma makeAliases_ok ps : Forall (fun p => passable (snd p)) ps -> exists m, makeAliases (map aliasXml ps) = Some m /\ Forall2 (fun p q => fst q = cstr (fst p) /\ same (snd p) (snd q)) ps m.
Proof.
  rewrite makeAliases_map. induction 1 as [|[f v] r P F (m & M & IH)]; [exists []; split; [reflexivity|constructor]|]. destruct (value_arrives v P) as (w & W & S1).
  cbn [snd fst]. rewrite W, M. exists ((cstr f, w) :: m). split; [reflexivity|]. constructor; [split; [reflexivity|exact S1]|exact IH].
Qed.
Lemma pairs_args ps : Forall (fun p => isKnown (snd p) = true) ps -> pairs (flat_map (fun p => [LvS (SS (fst p)); snd p]) ps) = Some ps.
Proof. induction 1 as [|[f v] r K F IH]; [reflexivity|]. cbn [flat_map app fst snd pairs]. cbn [snd] in K. rewrite K, IH. reflexivity. Qed.
Lemma pairs_inv l ps : pairs l = Some ps -> l = flat_map (fun p => [LvS (SS (fst p)); snd p]) ps /\ Forall (fun p => isKnown (snd p) = true) ps.
Proof.
  assert (G : forall n l ps, (length l <= n)%nat -> pairs l = Some ps -> l = flat_map (fun p => [LvS (SS (fst p)); snd p]) ps /\ Forall (fun p => isKnown (snd p) = true) ps).
  { clear. induction n as [|n IH]; intros l ps L H; destruct l as [|x l]; try (injection H as <-; split; [reflexivity|constructor]); cbn [length] in L; [lia|].
    cbn [pairs] in H. destruct x as [|[| | |s]| |]; try discriminate. destruct l as [|v l]; [discriminate|]. destruct (isKnown v) eqn:K; [|discriminate].
    destruct (pairs l) as [m|] eqn:P; [|discriminate]. injection H as <-. cbn [length] in L. destruct (IH l m ltac:(lia) P) as [-> F]. split; [reflexivity|]. constructor; auto. }
  eauto.
Qed.
