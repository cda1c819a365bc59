(** C73: the values in a TestExec script are those its text denotes. *)
From Coq Require Import ZArith Reals List Bool String Lia Lra.
From Flocq Require Import Core BinarySingleNaN.
From Verif Require Import ValueModel FloatModel TypeModel UdpQueueModel LitModel LitSpec LitProofs LitProps PrintModel PrintProofs PrintProps LaunchModel TestLitModel.
Import ListNotations.
Open Scope Z_scope.

(** ** What the attribute type says *)
Definition named (n : string) (type : str) : Prop := exists rest, type = chars n ++ rest.
Lemma starts_iff p s : starts p s = true <-> exists r, s = p ++ r.
Proof.
  revert s. induction p as [|x p IH]; intros s; cbn [starts].
  - split; [exists s; reflexivity|reflexivity].
  - destruct s as [|y s]; [split; [discriminate|intros (r & E); discriminate]|]. rewrite andb_true_iff, Z.eqb_eq, IH. split.
    + intros (-> & r & ->). exists r. reflexivity.
    + intros (r & E). injection E as -> ->. split; [reflexivity|]. exists r. reflexivity.
Qed.
Lemma type_string type : named "string" type -> starts (chars "string") type = true.
Proof. intros H. now apply starts_iff. Qed.
Ltac nm H := destruct H as (rest & ->); reflexivity.
Lemma type_int type : named "int" type -> starts (chars "string") type = false /\ starts (chars "int") type = true.
Proof. intros H. split; [nm H|now apply starts_iff]. Qed.
Lemma type_real type : named "real" type -> starts (chars "string") type = false /\ starts (chars "int") type = false /\ starts (chars "real") type = true.
Proof. intros H. split; [nm H|]. split; [nm H|now apply starts_iff]. Qed.
Lemma type_bool type : named "bool" type -> starts (chars "string") type = false /\ starts (chars "int") type = false /\ starts (chars "real") type = false /\ starts (chars "bool") type = true.
Proof. intros H. split; [nm H|]. split; [nm H|]. split; [nm H|now apply starts_iff]. Qed.
Lemma unknown_false s : ~ sameLetters s (chars "Plexil_Unknown") -> (stricmp s (chars "Plexil_Unknown") =? 0) = false.
Proof. intros N. apply Z.eqb_neq. intros H. apply N. now apply stricmp_0. Qed.

(** ** Unknown and Strings *)
Theorem C73_unknown type s : parseOneValue type s = Some (RUnk UNKNOWN_TYPE) <-> sameLetters s (chars "Plexil_Unknown").
Proof.
  unfold parseOneValue. destruct (Z.eqb_spec (stricmp s (chars "Plexil_Unknown")) 0) as [E|E].
  - split; auto. intros _. now apply stricmp_0.
  - split; [|intros H; elim E; now apply stricmp_0]. destruct (starts (chars "string") type); [discriminate|].
    destruct (starts (chars "int") type); [destruct (getInt s); discriminate|]. destruct (starts (chars "real") type); [destruct (getReal s); discriminate|].
    destruct (starts (chars "bool") type); [|discriminate]. destruct (stricmp s (chars "true") =? 0); [discriminate|].
    destruct (stricmp s (chars "false") =? 0); [discriminate|]. destruct (getBool s); discriminate.
Qed.
Theorem C73_string type s : named "string" type -> ~ sameLetters s (chars "Plexil_Unknown") -> parseOneValue type s = Some (RVal (SS s)).
Proof. intros T N. unfold parseOneValue. rewrite (unknown_false s N), (type_string type T). reflexivity. Qed.

(** ** Integers *)
(** A decimal number, perhaps followed by something that is no digit: the number, or the nearest that an Integer can be. *)
Definition ends (r : str) : Prop := match r with [] => True | c :: _ => ~ (48 <= c <= 57) end.
Lemma ends_stops r : ends r -> stops 10 r.
Proof. destruct r as [|c r]; cbn [ends stops]; auto. intros N. unfold digitVal. destruct (Z.leb_spec 48 c), (Z.leb_spec c 57); cbn [andb]; try lia; zb; cbn [andb]; lia. Qed.
Lemma front_nonempty ws sg neg body rest ds : blank ws -> sign sg neg -> digitsIn 10 body ds -> ds <> [] ->
  skipSpace (ws ++ sg ++ body ++ rest) = sg ++ body ++ rest /\ takeSign (sg ++ body ++ rest) = (neg, body ++ rest) /\ sg ++ body ++ rest <> [].
Proof.
  intros B SG D N. destruct D as [|c d p ds [C L] D]; [congruence|]. pose proof (digitChar_starts c d (p ++ rest) C) as ST. cbn [app].
  split; [|split].
  - apply skipSpace_app; [exact B|]. destruct SG; cbn [app]; try reflexivity. destruct ST as [X _]. exact X.
  - apply takeSign_app; auto.
  - destruct SG; cbn [app]; discriminate.
Qed.
Lemma getInt_decimal ws sg neg body rest n : blank ws -> sign sg neg -> numeral 10 body n -> ends rest ->
  getInt (ws ++ sg ++ body ++ rest) = Some (clamp (withSign neg n)).
Proof.
  intros B SG (ds & D & N & ->) E. destruct (front_nonempty ws sg neg body rest ds B SG D N) as (SK & TS & NE). unfold getInt. rewrite SK.
  destruct (sg ++ body ++ rest) as [|c t] eqn:X; [congruence|]. rewrite TS. rewrite (takeDigits_app 10 body ds rest D (ends_stops rest E)).
  destruct ds as [|d ds]; [congruence|]. rewrite number_positional. reflexivity.
Qed.
Theorem C73_integer type s rest neg n : named "int" type -> decimalText s neg n -> ends rest ->
  parseOneValue type (s ++ rest) = Some (RVal (SI (clamp (withSign neg n)))).
Proof.
  intros T (ws & sg & body & B & SG & D & ->) E. unfold parseOneValue. rewrite unknown_false.
  - destruct (type_int type T) as [-> ->]. rewrite <- !app_assoc. rewrite (getInt_decimal ws sg neg body rest n); auto.
  - intros H. assert (F : exists c q, ws ++ sg ++ body = c :: q /\ lower c <> 112).
    { destruct D as (ds & D & N & _). destruct D as [|c d p ds [C L] D]; [congruence|]. destruct B as [|c0 ws B0 B].
      - destruct SG; cbn [app]; eexists; eexists; (split; [reflexivity|]); try (vm_compute; discriminate). unfold digitChar in C. unfold lower. zb; cbn [andb]; lia.
      - exists c0, (ws ++ sg ++ c :: p). split; [reflexivity|]. cbn in B0. unfold lower. zb; cbn [andb]; lia. }
    destruct F as (c & q & F & LC). rewrite F in H. unfold sameLetters in H. cbn in H. injection H as H _. contradiction.
Qed.
(** Every decimal text of an Integer is read as that Integer, leading zeros or not. *)
Theorem C73_integer_exact type s neg n : named "int" type -> decimalText s neg n -> - 2 ^ 31 <= withSign neg n < 2 ^ 31 ->
  parseOneValue type s = Some (RVal (SI (withSign neg n))).
Proof.
  intros T D R. pose proof (C73_integer type s [] neg n T D I) as H. rewrite app_nil_r in H. rewrite H. do 3 f_equal. unfold clamp. lia.
Qed.
Theorem C73_integer_printed type z : named "int" type -> - 2 ^ 31 <= z < 2 ^ 31 -> parseOneValue type (printInteger z) = Some (RVal (SI z)).
Proof.
  intros T R. assert (D : exists neg n, decimalText (printInteger z) neg n /\ z = withSign neg n).
  { unfold printInteger. destruct (Z.ltb_spec z 0).
    - exists true, (- z). split; [|cbn; lia]. exists [], [45], (printNat (- z)). split; [constructor|]. split; [constructor|]. split; [apply printNat_numeral; lia|reflexivity].
    - exists false, z. split; [|reflexivity]. exists [], [], (printNat z). split; [constructor|]. split; [constructor|]. split; [apply printNat_numeral; lia|reflexivity]. }
  destruct D as (neg & n & D & ->). now apply C73_integer_exact.
Qed.
(** The plan language reads a decimal text the same way, unless it begins with 0. *)
Theorem C73_same_as_plan type s neg n : named "int" type -> decimalText s neg n -> (exists ws sg body, blank ws /\ sign sg neg /\ numeral 10 body n /\ hd 0 body <> 48 /\ s = ws ++ sg ++ body) ->
  - 2 ^ 31 <= withSign neg n < 2 ^ 31 -> parseOneValue type s = Some (RVal (SI (withSign neg n))) /\ parseInteger s = Known (withSign neg n).
Proof.
  intros T D (ws & sg & body & B & SG & NM & H & E) R. split; [now apply C73_integer_exact|]. apply C63_integer. split; [|split; [|exact R]].
  - intros ->. destruct B as [|c0 ws B0 B]; [|injection E as <- _; cbn in B0; lia]. destruct SG; cbn [app] in E; try discriminate E. destruct NM as (ds & DD & NE & _). rewrite <- E in DD.
    inversion DD as [|c d p q [C L]]; subst. unfold digitChar in C. lia.
  - exists ws, sg, neg, body, n. split; [exact B|]. split; [exact SG|]. split; [now constructor|]. split; [exact E|reflexivity].
Qed.

(** ** Booleans *)
Theorem C73_boolean type s : named "bool" type ->
  (sameLetters s (chars "true") -> parseOneValue type s = Some (RVal (SB true))) /\
  (sameLetters s (chars "false") -> parseOneValue type s = Some (RVal (SB false))) /\
  (forall neg n, decimalText s neg n -> parseOneValue type s = Some (RVal (SB (negb (n =? 0))))).
Proof.
  intros T. destruct (type_bool type T) as (T1 & T2 & T3 & T4). unfold parseOneValue. rewrite T1, T2, T3, T4.
  assert (X : forall a b, sameLetters s a -> sameLetters s b -> sameLetters a b) by (unfold sameLetters; congruence). split; [|split].
  - intros H. rewrite unknown_false by (intros U; pose proof (X _ _ H U) as F; discriminate F). rewrite (proj2 (stricmp_0 _ _) H). reflexivity.
  - intros H. rewrite unknown_false by (intros U; pose proof (X _ _ H U) as F; discriminate F).
    destruct (Z.eqb_spec (stricmp s (chars "true")) 0) as [E|E]; [apply stricmp_0 in E; pose proof (X _ _ H E) as F; discriminate F|]. rewrite (proj2 (stricmp_0 _ _) H). reflexivity.
  - intros neg n (ws & sg & body & B & SG & D & ->).
    assert (F : exists c q, ws ++ sg ++ body = c :: q /\ lower c <> lower 80 /\ lower c <> lower 116 /\ lower c <> lower 102).
    { destruct D as (ds & D & N & _). destruct D as [|c d p ds [C L] D]; [congruence|]. destruct B as [|c0 ws B0 B].
      - destruct SG; cbn [app]; eexists; eexists; (split; [reflexivity|]); try (vm_compute; repeat split; discriminate). change (lower 80) with 112. change (lower 116) with 116. change (lower 102) with 102. unfold digitChar in C. unfold lower. zb; cbn [andb]; lia.
      - exists c0, (ws ++ sg ++ c :: p). split; [reflexivity|]. cbn in B0. change (lower 80) with 112. change (lower 116) with 116. change (lower 102) with 102. unfold lower. zb; cbn [andb]; lia. }
    destruct F as (c & q & F & L1 & L2 & L3).
    assert (NS : forall w x t, w = x :: t -> lower c <> lower x -> stricmp (ws ++ sg ++ body) w <> 0).
    { intros w x t -> L H. apply stricmp_0 in H. rewrite F in H. unfold sameLetters in H. cbn in H. injection H as H _. contradiction. }
    destruct (Z.eqb_spec (stricmp (ws ++ sg ++ body) (chars "Plexil_Unknown")) 0) as [E|_]; [elim (NS (chars "Plexil_Unknown") _ _ eq_refl ltac:(exact L1) E)|].
    destruct (Z.eqb_spec (stricmp (ws ++ sg ++ body) (chars "true")) 0) as [E|_]; [elim (NS (chars "true") _ _ eq_refl ltac:(exact L2) E)|].
    destruct (Z.eqb_spec (stricmp (ws ++ sg ++ body) (chars "false")) 0) as [E|_]; [elim (NS (chars "false") _ _ eq_refl ltac:(exact L3) E)|].
    destruct D as (ds & D & N & ->). destruct (front_nonempty ws sg neg body [] ds B SG D N) as (SK & TS & NE). rewrite app_nil_r in *. unfold getBool. rewrite SK.
    destruct (sg ++ body) as [|c1 t] eqn:E1; [congruence|]. rewrite TS. rewrite <- (app_nil_r body), (takeDigits_app 10 body ds [] D I).
    pose proof (positional_nonneg 10 body ds ltac:(lia) D) as P. destruct ds as [|d ds]; [congruence|]. rewrite number_positional. cbn [orGarbage]. do 3 f_equal. f_equal.
    destruct neg; zb; lia || reflexivity.
Qed.

(** ** Reals *)
(** A decimal number with point and exponent. *)
Definition decimalReal (s : str) (neg : bool) (r : R) : Prop :=
  exists ws sg ma ex m k e, blank ws /\ sign sg neg /\ mantissa 10 ma m k /\ exponent [101; 69] ex e /\ s = ws ++ sg ++ ma ++ ex /\ r = (IZR m * powerRZ 10 (e - k))%R.
Lemma digit_range c d : digitChar c d -> d < 10 -> 48 <= c <= 57.
Proof. unfold digitChar. lia. Qed.
Lemma spanDigits_app p ds t : digitsIn 10 p ds -> ends t -> spanDigits (p ++ t) = (p, t).
Proof.
  intros D E. induction D as [|c d p ds [C L] D IH]; cbn [app spanDigits].
  - destruct t as [|c r]; [reflexivity|]. cbn in E. cbn [spanDigits]. destruct (Z.leb_spec 48 c), (Z.leb_spec c 57); cbn [andb]; try reflexivity. lia.
  - pose proof (digit_range c d C L) as R. destruct (Z.leb_spec 48 c), (Z.leb_spec c 57); try lia. cbn [andb]. rewrite IH. reflexivity.
Qed.
Lemma spanSign_app sg neg t : sign sg neg -> match t with [] => True | c :: _ => c <> 45 /\ c <> 43 end -> spanSign (sg ++ t) = (sg, t).
Proof.
  intros SG H. destruct SG; cbn [app spanSign]; try reflexivity. destruct t as [|c r]; [reflexivity|]. cbn [spanSign].
  destruct H as [H1 H2]. apply Z.eqb_neq in H1, H2. rewrite H1, H2. reflexivity.
Qed.
Lemma exponent_collect ex e : exponent [101; 69] ex e -> ends ex /\ hd 0 ex <> 46 /\
  match ex with c :: r => if isExp c && true then let '(esg, r1) := spanSign r in c :: esg ++ fst (spanDigits r1) else [] | [] => [] end = ex.
Proof.
  intros [[-> _]|(c & sg & neg & body & n & C & SG & (ds & D & NE & _) & -> & _)]; [cbn; repeat split; lia|].
  assert (CC : c = 101 \/ c = 69) by (cbn in C; lia). cbn [ends hd]. split; [lia|]. split; [lia|].
  assert (IE : isExp c = true) by (unfold isExp; destruct CC as [-> | ->]; reflexivity). rewrite IE. cbn [andb].
  rewrite (spanSign_app sg neg body SG).
  - pose proof (spanDigits_app body ds [] D I) as H. rewrite app_nil_r in H. rewrite H. reflexivity.
  - destruct D as [|c' d p ds [C' L] D]; auto. pose proof (digit_range c' d C' L). lia.
Qed.
Lemma collect_decimal sg neg ma ex m k e : sign sg neg -> mantissa 10 ma m k -> exponent [101; 69] ex e -> collect (sg ++ ma ++ ex) = sg ++ ma ++ ex.
Proof.
  intros SG (a & f & da & df & A & F & NE & SH & _) E. destruct (exponent_collect ex e E) as (EE & E46 & EC). unfold collect.
  assert (MN : match ma ++ ex with [] => True | c :: _ => c <> 45 /\ c <> 43 end).
  { destruct SH as [[-> ->]| ->].
    - inversion F; subst. rewrite app_nil_r in NE. destruct A as [|c d p ds [C L] A]; [congruence|]. cbn [app]. pose proof (digit_range c d C L). lia.
    - destruct A as [|c d p ds [C L] A]; cbn [app]; [lia|]. pose proof (digit_range c d C L). lia. }
  rewrite (spanSign_app sg neg (ma ++ ex) SG MN). destruct SH as [[-> ->]| ->].
  - inversion F; subst. rewrite app_nil_r in NE. rewrite (spanDigits_app a da ex A EE).
    assert (X : match ex with c :: r => if c =? 46 then let '(b, t') := spanDigits r in (c :: b, t') else ([], ex) | [] => ([], []) end = (@nil Z, ex)).
    { destruct ex as [|c r]; [reflexivity|]. cbn in E46. destruct (Z.eqb_spec c 46); [congruence|reflexivity]. }
    rewrite X. destruct a as [|c a]; [inversion A; congruence|]. cbn [app]. cbv beta iota. rewrite EC. reflexivity.
  - rewrite <- app_assoc. rewrite (spanDigits_app a da ((46 :: f) ++ ex) A) by (cbn; lia). cbn [app]. change (46 =? 46) with true. cbv beta iota.
    rewrite (spanDigits_app f df ex F EE). cbv beta iota.
    assert (FO : match a, 46 :: f with [], [] => false | [], [_] => false | _, _ => true end = true).
    { destruct a; [|reflexivity]. destruct f; [|reflexivity]. inversion A; subst. inversion F; subst. cbn in NE. congruence. }
    rewrite FO, EC. reflexivity.
Qed.
Lemma maxReal_value neg : Rabs (B2R (maxReal neg)) = (bpow radix2 1024 - bpow radix2 971)%R.
Proof.
  unfold maxReal. rewrite finite_abs. replace 1024 with (53 + 971) by reflexivity. rewrite bpow_plus.
  replace (bpow radix2 53) with 9007199254740992%R by reflexivity. lra.
Qed.
(** The double nearest to the number written, or the largest one. *)
Theorem C73_real type s neg r : named "real" type -> decimalReal s neg r ->
  exists x, parseOneValue type s = Some (RVal (SR x)) /\ is_finite x = true /\ Bsign x = neg /\
    if Rlt_bool (Rabs (nearest r)) (bpow radix2 1024) then B2R x = (if neg then - nearest r else nearest r)%R else Rabs (B2R x) = (bpow radix2 1024 - bpow radix2 971)%R.
Proof.
  intros T (ws & sg & ma & ex & m & k & e & B & SG & M & E & -> & RV). destruct (type_real type T) as (T1 & T2 & T3).
  destruct (realBody_strtod [] sg neg (ma ++ ex) r ltac:(constructor) SG ltac:(rewrite RV; now constructor)) as (x & SD & _ & X). cbn [app] in SD.
  assert (MF : exists c q, ma = c :: q /\ 46 <= c <= 57).
  { destruct M as (a & f & da & df & A & F & NE & SH & _). destruct SH as [[-> ->]| ->].
    - inversion F; subst. rewrite app_nil_r in NE. destruct A as [|c d p ds [C L] A]; [congruence|]. pose proof (digit_range c d C L). exists c, p. split; [reflexivity|lia].
    - destruct A as [|c d p ds [C L] A]; cbn [app]; [exists 46, f; split; [reflexivity|lia]|]. pose proof (digit_range c d C L). exists c, (p ++ 46 :: f). split; [reflexivity|lia]. }
  destruct MF as (c & q & EM & CR).
  assert (G : getReal (ws ++ sg ++ ma ++ ex) = Some (match x with B754_infinity n0 => maxReal n0 | _ => x end)).
  { unfold getReal. rewrite skipSpace_app; [|exact B|].
    - pose proof (collect_decimal sg neg ma ex m k e SG M E) as CD. destruct (sg ++ ma ++ ex) as [|c0 t] eqn:EQ; [rewrite EM in EQ; destruct SG; discriminate EQ|]. rewrite CD, SD. reflexivity.
    - rewrite EM. destruct SG; cbn [app]; try reflexivity. unfold isSpace. zb; cbn; lia || reflexivity. }
  exists (match x with B754_infinity n0 => maxReal n0 | _ => x end). split.
  - unfold parseOneValue. rewrite unknown_false, T1, T2, T3, G; [reflexivity|]. intros H. unfold sameLetters in H. destruct B as [|c0 ws B0 B].
    + destruct SG; cbn [app] in H; try discriminate H. rewrite EM in H. cbn in H. injection H as H _. unfold lower in H. revert H. zb; cbn [andb]; lia.
    + cbn in H. injection H as H _. cbn in B0. unfold lower in H. revert H. zb; cbn [andb]; lia.
  - destruct (Rlt_bool (Rabs (nearest r)) (bpow radix2 1024)).
    + destruct X as (V & FN & SN). destruct x; try discriminate FN; auto.
    + subst x. split; [reflexivity|]. split; [reflexivity|]. apply maxReal_value.
Qed.

(** ** Arrays *)
Lemma from_skip tag pre l : (forall y, In y pre -> is tag y = false) -> from tag (pre ++ l) = from tag l.
Proof. intros N. induction pre as [|y pre IH]; cbn [app from]; auto. rewrite N by (left; auto). apply IH. intros; apply N; right; auto. Qed.
Lemma allRead_known type l vs : Forall2 (fun y v => parseOneValue type (childValue y) = Some (RVal v)) l vs ->
  allRead (map (fun y => parseOneValue type (childValue y)) l) = Some (map RVal vs).
Proof. intros F. induction F as [|y v l vs E F IH]; cbn [map allRead]; auto. rewrite E, IH. reflexivity. Qed.
Lemma eltType_known g t vs : t <> UNKNOWN_TYPE -> Forall (fun v => svalType v = t) vs -> eltType g t (map RVal vs) = Some t.
Proof.
  intros N F. induction F as [|v vs E F IH]; cbn [map eltType rtype]; auto. rewrite E. destruct (Z.eqb_spec t UNKNOWN_TYPE); [congruence|].
  rewrite Z.eqb_refl. cbn [negb]. destruct ((t =? INTEGER_TYPE) && (t =? REAL_TYPE)); exact IH.
Qed.
(** An array of known values of one type: every Value element from the first on is an element, in order. *)
Theorem C73_array x type pre l vs t : attr "type" x = Some type -> contains (chars "array") type = true ->
  kidsOf x = pre ++ l -> (forall y, In y pre -> is "Value" y = false) -> Forall (fun y => is "Value" y = true) l -> l <> [] ->
  Forall2 (fun y v => parseOneValue type (childValue y) = Some (RVal v)) l vs -> Forall (fun v => svalType v = t) vs ->
  parseStateValue x = Some (SArray t (map RVal vs)).
Proof.
  intros A C K N V NE F T. unfold parseStateValue. rewrite A. destruct type as [|c type]; [discriminate C|]. unfold readValues. rewrite K, from_skip by exact N.
  destruct F as [|y v l vs E F]; [congruence|]. inversion V as [|? ? IY VL]; subst. inversion T as [|? ? TV TT]; subst. cbn [from]. rewrite IY, C.
  pose proof (allRead_known (c :: type) (y :: l) (v :: vs) (Forall2_cons _ _ E F)) as R. rewrite R. unfold makeArray. cbn [map eltType rtype].
  assert (ST : svalType v <> UNKNOWN_TYPE) by (destruct v; discriminate). rewrite Z.eqb_refl.
  rewrite (eltType_known _ (svalType v) vs ST TT). destruct (Z.eqb_spec (svalType v) UNKNOWN_TYPE); [congruence|reflexivity].
Qed.
(** A value that is no array is read from the first Value element. *)
Theorem C73_scalar x type pre y rest v : attr "type" x = Some type -> contains (chars "array") type = false -> type <> [] ->
  kidsOf x = pre ++ y :: rest -> (forall z, In z pre -> is "Value" z = false) -> is "Value" y = true ->
  (parseStateValue x = Some (SOne v) <-> parseOneValue type (childValue y) = Some v).
Proof.
  intros A C TN K N V. unfold parseStateValue. rewrite A. destruct type as [|c type]; [congruence|]. unfold readValues. rewrite K, from_skip by exact N. cbn [from]. rewrite V, C.
  destruct (parseOneValue (c :: type) (childValue y)) as [w|]; cbn [option_map]; split; congruence.
Qed.
(** Results are read in the same way from the Result elements; but a Result without content ends the script. *)
Lemma find_first tag pre y rest : (forall z, In z pre -> is tag z = false) -> is tag y = true -> find (is tag) (pre ++ y :: rest) = Some y.
Proof. intros N I. induction pre as [|z pre IH]; cbn [app find]; [now rewrite I|]. rewrite N by (left; auto). apply IH. intros; apply N; right; auto. Qed.
Theorem C73_result x type pre y rest : attr "type" x = Some type ->
  kidsOf x = pre ++ y :: rest -> (forall z, In z pre -> is "Result" z = false) -> is "Result" y = true ->
  (kidsOf y = [] -> parseResult x = None) /\
  (kidsOf y <> [] -> contains (chars "array") type = false -> forall v, parseResult x = Some (SOne v) <-> parseOneValue type (childValue y) = Some v) /\
  (kidsOf y <> [] -> contains (chars "array") type = true -> forall vs t, Forall2 (fun z v => parseOneValue type (childValue z) = Some (RVal v)) (y :: rest) vs -> Forall (fun v => svalType v = t) vs ->
     parseResult x = Some (SArray t (map RVal vs))).
Proof.
  intros A K N V. assert (C0 : child "Result" x = Some y) by (unfold child; rewrite K; now apply find_first). unfold parseResult. rewrite C0, A. split; [|split].
  - intros E. now rewrite E.
  - intros NE C v. destruct (kidsOf y) as [|k ks] eqn:EK; [congruence|]. unfold readValues. rewrite K, from_skip by exact N. cbn [from]. rewrite V, C.
    destruct (parseOneValue type (childValue y)) as [w|]; cbn [option_map]; split; congruence.
  - intros NE C vs t F T. destruct (kidsOf y) as [|k ks] eqn:EK; [congruence|]. unfold readValues. rewrite K, from_skip by exact N. cbn [from]. rewrite V, C.
    inversion F as [|? v ? vs' E F']; subst. inversion T as [|? ? TV TT]; subst. rewrite (allRead_known type (y :: rest) (v :: vs') F). unfold makeArray. cbn [map eltType rtype].
    assert (ST : svalType v <> UNKNOWN_TYPE) by (destruct v; discriminate). rewrite Z.eqb_refl.
    rewrite (eltType_known _ (svalType v) vs' ST TT). destruct (Z.eqb_spec (svalType v) UNKNOWN_TYPE); [congruence|reflexivity].
Qed.
(** ** Parameters *)
(** Numbers are read as the values of states are; a Boolean given as a number too, and strings are taken as they are. *)
Theorem C73_param_same x t : attr "type" x = Some (chars t) -> kidsOf x <> [] -> childValue x <> chars "UNKNOWN" ->
  (In t ["int"; "real"]%string -> ~ sameLetters (childValue x) (chars "Plexil_Unknown") -> parseParam x = parseOneValue (chars t) (childValue x)) /\
  (t = "bool"%string -> ~ sameLetters (childValue x) (chars "Plexil_Unknown") -> ~ sameLetters (childValue x) (chars "true") -> ~ sameLetters (childValue x) (chars "false") ->
     parseParam x = parseOneValue (chars t) (childValue x)) /\
  (t = "string"%string -> parseParam x = Some (RVal (SS (childValue x)))).
Proof.
  intros A K U. unfold parseParam, attrOr. rewrite A. destruct (kidsOf x) as [|k ks]; [congruence|]. destruct (streq (childValue x) (chars "UNKNOWN")) eqn:E; [apply streq_true in E; contradiction|].
  assert (NS : forall w, ~ sameLetters (childValue x) w -> (stricmp (childValue x) w =? 0) = false) by (intros w H; apply Z.eqb_neq; intros X; apply H; now apply stricmp_0).
  split; [|split].
  - intros I N. unfold parseOneValue. rewrite (NS _ N). destruct I as [<-|[<-|[]]]; reflexivity.
  - intros -> N1 N2 N3. unfold parseOneValue. rewrite (NS _ N1), (NS _ N2), (NS _ N3). reflexivity.
  - intros ->. reflexivity.
Qed.
(** Without content only strings can be given: the empty one. *)
Theorem C73_param_empty x : kidsOf x = [] -> parseParam x = match attr "type" x with Some t => if streq t (chars "string") then Some (RVal (SS [])) else None | None => None end.
Proof. intros K. unfold parseParam, attrOr. rewrite K. destruct (attr "type" x); reflexivity. Qed.
Theorem C73_param_integer x neg n : attr "type" x = Some (chars "int") -> decimalText (childValue x) neg n -> - 2 ^ 31 <= withSign neg n < 2 ^ 31 ->
  parseParam x = Some (RVal (SI (withSign neg n))).
Proof.
  intros A D R. unfold parseParam, attrOr. rewrite A. assert (K : exists k ks, kidsOf x = k :: ks).
  { destruct (kidsOf x) as [|k ks] eqn:E; [|eauto]. exfalso. unfold childValue in D. rewrite E in D. destruct D as (ws & sg & body & _ & _ & (ds & D & NE & _) & E2). cbn in E2.
    destruct D; [congruence|]. destruct ws; [destruct sg|]; discriminate E2. }
  destruct K as (k & ks & ->). destruct (streq (childValue x) (chars "UNKNOWN")) eqn:U.
  - exfalso. apply streq_true in U. rewrite U in D. destruct D as (ws & sg & body & B & SG & (ds & D & NE & _) & E2).
    destruct B as [|c0 ws B0 B]; [|injection E2 as <- _; cbn in B0; lia]. destruct SG; cbn [app] in E2; try discriminate E2. destruct D as [|c d p ds [C L] D]; [congruence|].
    injection E2 as <- _. unfold digitChar in C. lia.
  - change (streq (chars "int") (chars "int")) with true. cbv iota. destruct D as (ws & sg & body & B & SG & D & ->).
    pose proof (getInt_decimal ws sg neg body [] n B SG D I) as G. rewrite app_nil_r in G. rewrite G. cbn [orGarbage]. do 3 f_equal. unfold clamp. lia.
Qed.
Theorem C73_param_unknown x t n : In (n, t) [("int", INTEGER_TYPE); ("real", REAL_TYPE); ("bool", BOOLEAN_TYPE); ("string", STRING_TYPE)]%string ->
  attr "type" x = Some (chars n) -> childValue x = chars "UNKNOWN" -> parseParam x = Some (RUnk t).
Proof.
  intros I A C. unfold parseParam, attrOr. rewrite A, C. destruct (kidsOf x) eqn:E; [unfold childValue in C; rewrite E in C; discriminate C|].
  change (streq (chars "UNKNOWN") (chars "UNKNOWN")) with true. cbv iota. cbn in I. destruct I as [I|[I|[I|[I|[]]]]]; injection I as <- <-; reflexivity.
Qed.

(** ** Where the text is not what is read *)
Definition valueEl (s : string) : xml := El "Value" [] [Txt (chars s)].
Definition stateEl (type : string) (kids : list xml) : xml := El "State" [("name"%string, chars "x"); ("type"%string, chars type)] kids.
(** Text that is no number is 0, a hexadecimal number is 0, a number too large is another: nothing is reported.  After 0 the plan language reads octal. *)
Theorem C73_integer_silent_refuted :
  parseOneValue (chars "int") (chars "abc") = Some (RVal (SI 0)) /\ parseOneValue (chars "int") (chars "0x10") = Some (RVal (SI 0)) /\
  parseInteger (chars "0x10") = Known 16 /\ parseOneValue (chars "int") (chars "3000000000") = Some (RVal (SI 2147483647)) /\
  parseOneValue (chars "int") (chars "010") = Some (RVal (SI 10)) /\ parseInteger (chars "010") = Known 8.
Proof. vm_compute. repeat split; reflexivity. Qed.
(** Text that is no number is the Real 0. *)
Theorem C73_real_silent_refuted : parseOneValue (chars "real") (chars "abc") = Some (RVal (SR (B754_zero false))) /\ parseOneValue (chars "real") (chars "-x") = Some (RVal (SR (B754_zero false))).
Proof. split; reflexivity. Qed.
(** A number without text is whatever was in memory. *)
Theorem C73_empty_refuted : forall ws, blank ws -> parseOneValue (chars "int") ws = Some RGarbage /\ parseOneValue (chars "real") ws = Some RGarbage /\ parseOneValue (chars "bool") ws = Some RGarbage.
Proof.
  intros ws B. assert (S : skipSpace ws = []) by (rewrite <- (app_nil_r ws); apply skipSpace_app; [exact B|exact I]).
  assert (L : forall c q, (lower c = 112 \/ lower c = 116 \/ lower c = 102) -> ws <> c :: q).
  { intros c q LC E. subst. inversion B as [|? ? B0]; subst. cbn in B0. unfold lower in LC. revert LC. zb; cbn [andb]; lia. }
  assert (NS : forall w c t, w = c :: t -> lower c = 112 \/ lower c = 116 \/ lower c = 102 -> (stricmp ws w =? 0) = false).
  { intros w c t -> LC. apply Z.eqb_neq. intros H. apply stricmp_0 in H. destruct ws as [|c0 q]; [discriminate H|]. unfold sameLetters in H. cbn in H. injection H as H _. apply (L c0 q); [congruence|reflexivity]. }
  unfold parseOneValue, getInt, getReal, getBool. rewrite S.
  rewrite (NS (chars "Plexil_Unknown") _ _ eq_refl), (NS (chars "true") _ _ eq_refl), (NS (chars "false") _ _ eq_refl); auto.
Qed.
(** A Boolean parameter spelled true is false. *)
Theorem C73_param_true_refuted : parseParam (El "Param" [("type"%string, chars "bool")] [Txt (chars "true")]) = Some (RVal (SB false)) /\
  parseOneValue (chars "bool") (chars "true") = Some (RVal (SB true)).
Proof. vm_compute. split; reflexivity. Qed.
(** An unknown element after a known one, or an array of unknowns, ends the script; so that no array can end with an unknown. *)
Theorem C73_array_unknown_refuted : parseStateValue (stateEl "int-array" [valueEl "1"; valueEl "Plexil_Unknown"]) = None /\
  parseStateValue (stateEl "int-array" [valueEl "Plexil_Unknown"; valueEl "1"]) = Some (SArray INTEGER_TYPE [RUnk UNKNOWN_TYPE; RVal (SI 1)]) /\
  (forall g l, Forall (eq (RUnk UNKNOWN_TYPE)) l -> makeArray g l = None) /\
  forall type s l r, makeArray (garbageType type) (l ++ RVal s :: r ++ [RUnk UNKNOWN_TYPE]) = None.
Proof.
  split; [vm_compute; reflexivity|]. split; [vm_compute; reflexivity|]. split.
  { intros g l F. unfold makeArray. assert (E : eltType g UNKNOWN_TYPE l = Some UNKNOWN_TYPE) by (induction F as [|x l <- F IH]; [reflexivity|exact IH]). now rewrite E. }
  intros type s l r. set (g := garbageType type). unfold makeArray.
  assert (G : g <> UNKNOWN_TYPE) by (unfold g, garbageType; destruct (starts _ _); [discriminate|]; destruct (starts _ _); discriminate).
  assert (A : forall l t, t <> UNKNOWN_TYPE -> eltType g t (l ++ [RUnk UNKNOWN_TYPE]) = None).
  { clear l r s. induction l as [|v l IH]; intros t N; cbn [app eltType rtype].
    - destruct (Z.eqb_spec t UNKNOWN_TYPE); [congruence|]. change (UNKNOWN_TYPE =? REAL_TYPE) with false. rewrite andb_false_r. reflexivity.
    - destruct (Z.eqb_spec t UNKNOWN_TYPE); [congruence|]. destruct ((t =? INTEGER_TYPE) && (rtype g v =? REAL_TYPE)) eqn:E.
      + apply andb_true_iff in E as [_ E]. apply Z.eqb_eq in E. rewrite E. apply IH. discriminate.
      + destruct (negb (t =? rtype g v)); [reflexivity|]. now apply IH. }
  assert (B : forall l t, eltType g t (l ++ RVal s :: r ++ [RUnk UNKNOWN_TYPE]) = None).
  { assert (ST : svalType s <> UNKNOWN_TYPE) by (destruct s; discriminate). induction l0 as [|v l0 IH]; intros t.
    - cbn [app eltType rtype]. destruct (Z.eqb_spec t UNKNOWN_TYPE); [now apply A|]. destruct ((t =? INTEGER_TYPE) && (svalType s =? REAL_TYPE)); [now apply A|].
      destruct (negb (t =? svalType s)); [reflexivity|]. now apply A.
    - cbn [app eltType]. destruct (t =? UNKNOWN_TYPE); [apply IH|]. destruct ((t =? INTEGER_TYPE) && (rtype g v =? REAL_TYPE)); [apply IH|].
      destruct (negb (t =? rtype g v)); [reflexivity|apply IH]. }
  rewrite B. reflexivity.
Qed.
(** What follows the values becomes part of the array, even if it is a parameter; an array cannot be a parameter: its text is a String. *)
Theorem C73_array_parameter_refuted :
  parseStateValue (stateEl "int-array" [valueEl "1"; valueEl "2"; El "Param" [("type"%string, chars "int")] [Txt (chars "7")]]) = Some (SArray INTEGER_TYPE [RVal (SI 1); RVal (SI 2); RVal (SI 7)]) /\
  parseParam (El "Param" [("type"%string, chars "int-array")] [Txt (chars "7")]) = Some (RVal (SS (chars "7"))).
Proof. vm_compute. split; reflexivity. Qed.
(** A String that spells the unknown value cannot be given. *)
Theorem C73_string_refuted : forall type, parseOneValue type (chars "PLEXIL_unknown") = Some (RUnk UNKNOWN_TYPE).
Proof. intros type. apply C73_unknown. reflexivity. Qed.
Lemma reads_real s sf : match parseOneValue (chars "real") s with Some (RVal (SR y)) => B2SF y = sf | _ => False end -> exists y, parseOneValue (chars "real") s = Some (RVal (SR y)) /\ B2SF y = sf.
Proof. destruct (parseOneValue (chars "real") s) as [[|[| |y|]|]|]; intros H; try contradiction. exists y. auto. Qed.
Theorem C73_example :
  parseOneValue (chars "int-array") (chars " -042 m") = Some (RVal (SI (-42))) /\ parseOneValue (chars "bool") (chars "TRUE") = Some (RVal (SB true)) /\
  parseOneValue (chars "bool") (chars "0") = Some (RVal (SB false)) /\
  (exists y, parseOneValue (chars "real") (chars "1.5e1x") = Some (RVal (SR y)) /\ B2SF y = SpecFloat.S754_finite false 8444249301319680 (-49)) /\
  parseStateValue (stateEl "bool-array" [El "Param" [] [Txt (chars "q")]; valueEl "false"; valueEl "1"]) = Some (SArray BOOLEAN_TYPE [RVal (SB false); RVal (SB true)]).
Proof. split; [vm_compute; reflexivity|]. split; [vm_compute; reflexivity|]. split; [vm_compute; reflexivity|]. split; [apply reads_real; vm_compute; reflexivity|vm_compute; reflexivity]. Qed.

(** Assumptions *)
Print Assumptions C73_unknown.
Print Assumptions C73_string.
Print Assumptions C73_integer.
Print Assumptions C73_integer_exact.
Print Assumptions C73_integer_printed.
Print Assumptions C73_same_as_plan.
Print Assumptions C73_boolean.
Print Assumptions C73_real.
Print Assumptions C73_array.
Print Assumptions C73_scalar.
Print Assumptions C73_param_integer.
Print Assumptions C73_param_unknown.
Print Assumptions C73_integer_silent_refuted.
Print Assumptions C73_empty_refuted.
Print Assumptions C73_param_true_refuted.
Print Assumptions C73_array_unknown_refuted.
Print Assumptions C73_array_parameter_refuted.
Print Assumptions C73_string_refuted.
Print Assumptions C73_example.
Print Assumptions C73_result.
Print Assumptions C73_param_same.
Print Assumptions C73_param_empty.
Print Assumptions C73_real_silent_refuted.
