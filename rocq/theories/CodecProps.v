(** C17, C18: serialization theorems. *)
From Verif Require Import CodecProofs.

(** ** Specification: which values the format is meant for *)
Definition int32 (n : Z) := - 2 ^ 31 <= n < 2 ^ 31.
Definition bits64 (r : Z) := 0 <= r < 2 ^ 64.
Definition short {T} (l : list T) := Z.of_nat (length l) <= 16777215.      (* at most 0xFFFFFF *)
Definition array_of {T} (P : T -> Prop) (a : arr T) :=
  length (a_cont a) = length (a_known a) /\ short (a_known a) /\ Forall P (a_cont a).
Definition supported (v : val) : Prop :=
  match v with
  | VUnk _ | VBool _ | VHandle _ => True
  | VInt n => int32 n
  | VReal r => bits64 r
  | VStr s => short s
  | VBoolArr a => array_of (fun _ => True) a
  | VIntArr a => array_of int32 a
  | VRealArr a => array_of bits64 a
  | VStrArr a => array_of (T := str) short a
  | VNodeState _ | VOutcome _ | VFailure _ => False
  end.
(** The number of elements of an array, written in three bytes, has no byte above 0x7F. *)
Definition low_size (n : nat) : Prop :=
  let z := Z.of_nat n in z mod 256 < 128 /\ (z / 256) mod 256 < 128 /\ z / 65536 < 128.
Definition low_sizes (v : val) : Prop :=
  match v with
  | VBoolArr a => low_size (length (a_known a))
  | VIntArr a | VRealArr a => low_size (length (a_known a))
  | VStrArr a => low_size (length (a_known a))
  | _ => True
  end.
Definition is_array (v : val) : Prop := match v with VBoolArr _ | VIntArr _ | VRealArr _ | VStrArr _ => True | _ => False end.
(** What is read back: an unknown value loses its type. *)
Definition readback (v : val) : val := match v with VUnk _ => VUnk UNKNOWN_TYPE | _ => v end.

Lemma low_small n : Z.of_nat n < 2 ^ 24 -> low_size n <-> smallBytes (Z.of_nat n).
Proof.
  intros L. unfold low_size, smallBytes. rewrite !byteAt_eq by lia.
  change (2 ^ 16) with 65536. change (2 ^ 8) with 256. change (2 ^ 0) with 1. rewrite Z.div_1_r.
  rewrite (Z.mod_small (Z.of_nat n / 65536)); [tauto|].
  split; [apply Z.div_pos; lia|apply Z.div_lt_upper_bound; lia].
Qed.

Lemma ints_ok a : Forall int32 a -> exists b, serElts (fun n => Some (serInt4 n)) a = Some b /\ forall rest, desElts desInt4 (length a) (b ++ rest) = DOk a rest.
Proof. intros F. apply (elts_ok int32); auto. intros x X. eexists. split; [reflexivity|]. intros. now apply desInt4_ok. Qed.
Lemma reals_ok a : Forall bits64 a -> exists b, serElts (fun n => Some (serReal8 n)) a = Some b /\ forall rest, desElts desReal8 (length a) (b ++ rest) = DOk a rest.
Proof. intros F. apply (elts_ok bits64); auto. intros x X. eexists. split; [reflexivity|]. intros. now apply desReal8_ok. Qed.
Lemma strs_ok (a : list str) : Forall short a -> exists b, serElts serChars a = Some b /\ forall rest, desElts desChars (length a) (b ++ rest) = DOk a rest.
Proof. intros F. apply (elts_ok short); auto. intros x X. unfold short in X. apply serChars_ok. lia. Qed.

(** Every supported value is written, and reading the bytes back gives the value and leaves
    whatever follows untouched.  Missing: arrays with a size byte >= 0x80 (see the refutation)
    and the type of an unknown. *)
Theorem C17_value_round_trip_partial : forall v, supported v -> low_sizes v ->
  exists b, vser v = Some b /\ forall rest, vdes (b ++ rest) = DOk (readback v) rest.
Proof.
  intros v S L. destruct v as [t|b|n|r|s|n|n|n|h|a|a|a|a]; try contradiction.
  - eexists; split; [reflexivity|]. auto.
  - eexists; split; [reflexivity|]. intros. destruct b; auto.
  - eexists; split; [reflexivity|]. intros.
    change (dmap VInt (desInt4 (serInt4 n ++ rest)) = DOk (VInt n) rest). rewrite desInt4_ok; auto.
  - eexists; split; [reflexivity|]. intros.
    change (dmap VReal (desReal8 (serReal8 r ++ rest)) = DOk (VReal r) rest). rewrite desReal8_ok; auto.
  - unfold supported, short in S. destruct (serChars_ok s) as (b & E & D); [lia|].
    exists (STRING_TYPE :: b). simpl vser. rewrite E. split; auto. intros.
    change (dmap VStr (desChars (b ++ rest)) = DOk (VStr s) rest). rewrite D. auto.
  - eexists; split; [reflexivity|]. auto.
  - destruct S as (LE & SH & F). unfold short in SH. simpl in L. apply low_small in L; [|lia].
    destruct (desArr_ok BOOLEAN_ARRAY_TYPE (fun c => Some (serBools c)) desBools a (serBools (a_cont a))) as (s & E & D); auto; try lia.
    { intros. apply desBools_ok. }
    exists (BOOLEAN_ARRAY_TYPE :: s). split; auto. intros.
    change (dmap VBoolArr (desArr BOOLEAN_ARRAY_TYPE desBools (BOOLEAN_ARRAY_TYPE :: s ++ rest)) = DOk (VBoolArr a) rest). now rewrite D.
  - destruct S as (LE & SH & F). unfold short in SH. simpl in L. apply low_small in L; [|lia].
    destruct (ints_ok _ F) as (b & E1 & D1).
    destruct (desArr_ok INTEGER_ARRAY_TYPE (serElts (fun n => Some (serInt4 n))) (desElts desInt4) a b) as (s & E & D); auto; try lia.
    exists (INTEGER_ARRAY_TYPE :: s). split; auto. intros.
    change (dmap VIntArr (desArr INTEGER_ARRAY_TYPE (desElts desInt4) (INTEGER_ARRAY_TYPE :: s ++ rest)) = DOk (VIntArr a) rest). now rewrite D.
  - destruct S as (LE & SH & F). unfold short in SH. simpl in L. apply low_small in L; [|lia].
    destruct (reals_ok _ F) as (b & E1 & D1).
    destruct (desArr_ok REAL_ARRAY_TYPE (serElts (fun n => Some (serReal8 n))) (desElts desReal8) a b) as (s & E & D); auto; try lia.
    exists (REAL_ARRAY_TYPE :: s). split; auto. intros.
    change (dmap VRealArr (desArr REAL_ARRAY_TYPE (desElts desReal8) (REAL_ARRAY_TYPE :: s ++ rest)) = DOk (VRealArr a) rest). now rewrite D.
  - destruct S as (LE & SH & F). unfold short in SH. simpl in L. apply low_small in L; [|lia].
    destruct (strs_ok _ F) as (b & E1 & D1).
    destruct (desArr_ok STRING_ARRAY_TYPE (serElts serChars) (desElts desChars) a b) as (s & E & D); auto; try lia.
    exists (STRING_ARRAY_TYPE :: s). split; auto. intros.
    change (dmap VStrArr (desArr STRING_ARRAY_TYPE (desElts desChars) (STRING_ARRAY_TYPE :: s ++ rest)) = DOk (VStrArr a) rest). now rewrite D.
Qed.

(** Same for lookup and command states. *)
Theorem C17_state_round_trip_partial : forall s,
  short (s_name s) -> short (s_params s) -> Forall supported (s_params s) -> Forall low_sizes (s_params s) ->
  exists b, sser s = Some (Some b) /\
    forall rest, sdes (b ++ rest) = DOk (mkState (s_name s) (map readback (s_params s))) rest.
Proof.
  intros [nm ps] N P S L. cbn [s_name s_params] in *. unfold short in N, P.
  destruct (serChars_ok nm) as (b & E & D); [lia|].
  assert (K : exists c, serElts vser ps = Some c /\ forall rest, desElts vdes (length ps) (c ++ rest) = DOk (map readback ps) rest).
  { clear - S L. induction ps as [|v ps IH]; simpl. exists []. auto.
    inversion_clear S. inversion_clear L.
    destruct (C17_value_round_trip_partial v) as (b1 & E1 & D1); auto. destruct IH as (c & E2 & D2); auto.
    rewrite E1, E2. eexists. split; [reflexivity|]. intros. rewrite <- app_assoc, D1. cbn [dbind]. rewrite D2. auto. }
  destruct K as (c & E1 & D1).
  unfold sser. cbn [vser s_name s_params]. rewrite E, E1. eexists. split; [reflexivity|]. intros rest.
  unfold sdes, getTag. rewrite <- app_comm_cons, <- !app_assoc. cbn [get1 dbind]. rewrite Z.eqb_refl. cbn [dbind].
  rewrite <- app_comm_cons. cbn [get1 dbind]. rewrite Z.eqb_refl. cbn [dbind].
  rewrite D. cbn [dbind]. rewrite desSize3u_ok by lia. cbn [dbind]. rewrite Nat2Z.id, D1. auto.
Qed.

Lemma serArr_tag {T} tag (serC : list T -> option (list Z)) a b : serArr tag serC a = Some b -> exists s, b = tag :: s.
Proof. unfold serArr. destruct (_ <? _); [discriminate|]. destruct (serC _); [|discriminate]. intros E. injection E as <-. eauto. Qed.
(** C17 is false for arrays with a size byte of 0x80 or more (128..255 elements, 384..511, ...):
    whatever the contents, the array read back, if any, is a different one. *)
Theorem C17_array_size_refuted : forall v b rest w r, supported v -> is_array v -> ~ low_sizes v ->
  vser v = Some b -> vdes (b ++ rest) = DOk w r -> w <> v.
Proof.
  intros v b rest w r S A L E D.
  destruct v as [t|x|n|x|s|n|n|n|h|a|a|a|a]; try contradiction; destruct S as (LE & SH & F); unfold short in SH; cbn [low_sizes] in L;
    rewrite low_small in L by lia; cbn [vser] in E;
    destruct (serArr_tag _ _ _ _ E) as (b' & EB); rewrite EB in *; clear b EB; rename b' into b.
  - change (dmap VBoolArr (desArr BOOLEAN_ARRAY_TYPE desBools ((BOOLEAN_ARRAY_TYPE :: b) ++ rest)) = DOk w r) in D.
    unfold dmap in D. destruct (desArr _ _ _) as [a' r'| | |] eqn:K; try discriminate. cbn [dbind] in D.
    pose proof (desArr_bad _ _ _ a _ rest a' r' L E K) as K2. intros ->. apply K2. congruence.
  - change (dmap VIntArr (desArr INTEGER_ARRAY_TYPE (desElts desInt4) ((INTEGER_ARRAY_TYPE :: b) ++ rest)) = DOk w r) in D.
    unfold dmap in D. destruct (desArr _ _ _) as [a' r'| | |] eqn:K; try discriminate. cbn [dbind] in D.
    pose proof (desArr_bad _ _ _ a _ rest a' r' L E K) as K2. intros ->. apply K2. congruence.
  - change (dmap VRealArr (desArr REAL_ARRAY_TYPE (desElts desReal8) ((REAL_ARRAY_TYPE :: b) ++ rest)) = DOk w r) in D.
    unfold dmap in D. destruct (desArr _ _ _) as [a' r'| | |] eqn:K; try discriminate. cbn [dbind] in D.
    pose proof (desArr_bad _ _ _ a _ rest a' r' L E K) as K2. intros ->. apply K2. congruence.
  - change (dmap VStrArr (desArr STRING_ARRAY_TYPE (desElts desChars) ((STRING_ARRAY_TYPE :: b) ++ rest)) = DOk w r) in D.
    unfold dmap in D. destruct (desArr _ _ _) as [a' r'| | |] eqn:K; try discriminate. cbn [dbind] in D.
    pose proof (desArr_bad _ _ _ a _ rest a' r' L E K) as K2. intros ->. apply K2. congruence.
Qed.
(** An array of 384 elements is silently read back as one of 128; one of 128 elements throws. *)
Example size_384_read_as_128 : misread 384 = 128.
Proof. reflexivity. Qed.
Example C17_128_elements_throw :
  match vser (VIntArr (mkArr (repeat true 128) (repeat 7 128))) with
  | Some b => vdes b = DThrow
  | None => False
  end.
Proof. vm_compute. reflexivity. Qed.
(** An unknown value is read back without its type, and Value::equals tells the two apart. *)
Theorem C17_unknown_type_refuted : forall t, t <> UNKNOWN_TYPE ->
  exists b w, vser (VUnk t) = Some b /\ vdes b = DOk w [] /\ veq (VUnk t) w = false.
Proof.
  intros t T. exists [UNKNOWN_TYPE], (VUnk UNKNOWN_TYPE). repeat split. unfold veq, vtype, vknown, UNKNOWN_TYPE, INTEGER_TYPE, REAL_TYPE in *. simpl.
  destruct (Z.eqb_spec t 2); [subst; reflexivity|]. destruct (Z.eqb_spec t 3); [subst; reflexivity|].
  destruct t; simpl; try congruence.
Qed.
(** A state name longer than 0xFFFFFF: the null result of the name's serialization is written through. *)
Theorem C17_long_name_refuted : forall s, ~ short (s_name s) -> sser s = None.
Proof.
  intros [nm ps] N. unfold short in N. cbn [s_name] in N. unfold sser. cbn [vser s_name]. unfold serChars.
  destruct (Z.ltb_spec 16777215 (Z.of_nat (length nm))); auto. lia.
Qed.
(** More than 0xFFFFFF parameters: serialization reports success but the count is truncated. *)
Theorem C17_many_parameters_refuted : forall nm (n : nat), short nm -> 16777215 < Z.of_nat n ->
  exists b w r, sser (mkState nm (repeat (VBool true) n)) = Some (Some b) /\ sdes b = DOk w r /\ (length (s_params w) < n)%nat.
Proof.
  intros nm n N L. unfold short in N. destruct (serChars_ok nm) as (b & E & D); [lia|].
  assert (K : forall m, serElts vser (repeat (VBool true) m) = Some (concat (repeat [BOOLEAN_TYPE; 1] m))).
  { induction m; simpl; auto. rewrite IHm. auto. }
  set (z := Z.of_nat n mod 2 ^ 24). assert (Z0 : 0 <= z < 2 ^ 24) by (apply Z.mod_pos_bound; lia).
  assert (S3 : serSize3 (Z.of_nat n) = serSize3 z).
  { assert (B : forall k, 0 <= k <= 16 -> byteAt k (Z.of_nat n) = byteAt k z).
    { intros k Hk. rewrite !byteAt_eq by lia. unfold z.
      apply Z.bits_inj'. intros i Hi. destruct (Z_lt_le_dec i 8).
      - change 256 with (2 ^ 8). rewrite !Z.mod_pow2_bits_low by lia. rewrite <- !Z.shiftr_div_pow2 by lia. rewrite !Z.shiftr_spec by lia.
        rewrite Z.mod_pow2_bits_low by lia. auto.
      - change 256 with (2 ^ 8). rewrite !Z.mod_pow2_bits_high by lia. auto. }
    unfold serSize3. rewrite !B by lia. auto. }
  assert (K2 : forall m rest, desElts vdes m (concat (repeat [BOOLEAN_TYPE; 1] m) ++ rest) = DOk (repeat (VBool true) m) rest).
  { induction m; intros; auto. simpl. rewrite IHm. auto. }
  assert (LT : (Z.to_nat z < n)%nat) by lia.
  exists (STATE_TYPE :: (STRING_TYPE :: b) ++ serSize3 (Z.of_nat n) ++ concat (repeat [BOOLEAN_TYPE; 1] n)),
    (mkState nm (repeat (VBool true) (Z.to_nat z))), (concat (repeat [BOOLEAN_TYPE; 1] (n - Z.to_nat z))).
  split; [|split].
  - unfold sser. cbn [vser s_name s_params]. rewrite E, K, repeat_length. auto.
  - unfold sdes, getTag. cbn [get1 dbind]. rewrite Z.eqb_refl. cbn [dbind].
    rewrite <- app_comm_cons. cbn [get1 dbind]. rewrite Z.eqb_refl. cbn [dbind].
    rewrite D. cbn [dbind]. rewrite S3, desSize3u_ok by lia. cbn [dbind].
    replace n with (Z.to_nat z + (n - Z.to_nat z))%nat at 1 by lia.
    rewrite repeat_app, concat_app, K2. auto.
  - cbn [s_params]. rewrite repeat_length. lia.
Qed.

(** ** C18 *)
Lemma ser3_len n : length (serSize3 n) = 3%nat. Proof. reflexivity. Qed.
Lemma elts_len {T} (ser : T -> option (list Z)) (k : Z) l : forall b,
  (forall x c, ser x = Some c -> Z.of_nat (length c) = k) -> serElts ser l = Some b -> Z.of_nat (length b) = Z.of_nat (length l) * k.
Proof.
  induction l; cbn [serElts length]; intros b H E. injection E as <-. auto.
  destruct (ser a) eqn:E1; [|discriminate]. destruct (serElts ser l) eqn:E2; [|discriminate]. injection E as <-.
  rewrite app_length, Nat2Z.inj_add, (H a l0), (IHl l1); auto. rewrite Nat2Z.inj_succ. ring.
Qed.
Lemma strs_len l : forall b z, serElts serChars l = Some b ->
  fold_left (fun r (s : str) => r + (3 + Z.of_nat (length s))) l z = z + Z.of_nat (length b).
Proof.
  induction l; cbn [serElts fold_left]; intros b z E. injection E as <-. simpl. lia.
  destruct (serChars a) eqn:E1; [|discriminate]. destruct (serElts serChars l) eqn:E2; [|discriminate]. injection E as <-.
  rewrite (IHl l1) by auto. rewrite app_length.
  unfold serChars in E1. destruct (_ <? _) in E1; [discriminate|].
  assert (EL : l0 = serSize3 (Z.of_nat (length a)) ++ a) by congruence. rewrite EL, app_length, ser3_len. unfold str. lia.
Qed.
Lemma serArr_len {T} tag (serC : list T -> option (list Z)) a b : serArr tag serC a = Some b ->
  exists c, serC (a_cont a) = Some c /\ Z.of_nat (length b) = 4 + bitVectorSize (Z.of_nat (length (a_known a))) + Z.of_nat (length c).
Proof.
  unfold serArr. intros E. destruct (_ <? _); [discriminate|]. destruct (serC (a_cont a)) as [c|]; [|discriminate].
  exists c. split; auto.
  assert (EL : b = tag :: serSize3 (Z.of_nat (length (a_known a))) ++ serBools (a_known a) ++ c) by congruence. rewrite EL.
  cbn [length]. rewrite !app_length, ser3_len, <- serBools_length. lia.
Qed.

(** The announced size is the number of bytes written. *)
Theorem C18_value_size_exact : forall v b, supported v -> vser v = Some b -> vsize v = Z.of_nat (length b).
Proof.
  intros v b S E. destruct v as [t|x|n|x|s|n|n|n|h|a|a|a|a]; try contradiction; cbn [vser] in E; try (injection E as <-; reflexivity).
  - unfold serChars in E. destruct (_ <? _) in E; [discriminate|].
    assert (EL : b = STRING_TYPE :: serSize3 (Z.of_nat (length s)) ++ s) by congruence. rewrite EL.
    cbn [length vsize]. rewrite app_length, ser3_len. lia.
  - destruct (serArr_len _ _ _ _ E) as (c & C & ->). destruct S as (LE & _ & _). injection C as <-.
    cbn [vsize]. rewrite serBools_length, LE. lia.
  - destruct (serArr_len _ _ _ _ E) as (c & C & ->). destruct S as (LE & _ & _). cbn [vsize].
    apply (elts_len _ 4) in C; [|intros ? ? J; injection J as <-; auto]. rewrite C, LE. lia.
  - destruct (serArr_len _ _ _ _ E) as (c & C & ->). destruct S as (LE & _ & _). cbn [vsize].
    apply (elts_len _ 8) in C; [|intros ? ? J; injection J as <-; auto]. rewrite C, LE. lia.
  - destruct (serArr_len _ _ _ _ E) as (c & C & ->). cbn [vsize]. now apply strs_len.
Qed.
Theorem C18_state_size_exact : forall s b, Forall supported (s_params s) -> sser s = Some (Some b) -> ssize s = Z.of_nat (length b).
Proof.
  intros [nm ps] b F E. unfold sser in E. cbn [s_name s_params] in *.
  destruct (vser (VStr nm)) as [n|] eqn:EN; [|discriminate].
  destruct (serElts vser ps) as [c|] eqn:EP; [|discriminate].
  assert (EL : b = STATE_TYPE :: n ++ serSize3 (Z.of_nat (length ps)) ++ c) by congruence. subst b. clear E.
  assert (L : length n = (4 + length nm)%nat).
  { cbn [vser] in EN. unfold serChars in EN. destruct (_ <? _) in EN; [discriminate|].
    assert (X : n = STRING_TYPE :: serSize3 (Z.of_nat (length nm)) ++ nm) by congruence. rewrite X. cbn [length]. rewrite app_length, ser3_len. lia. }
  assert (G : forall l z c, Forall supported l -> serElts vser l = Some c -> fold_left (fun r v => r + vsize v) l z = z + Z.of_nat (length c)).
  { clear. induction l as [|v l IH]; simpl; intros z c F E. injection E as <-. simpl. lia.
    inversion_clear F. destruct (vser v) as [a|] eqn:E1; [|discriminate]. destruct (serElts vser l) as [d|] eqn:E2; [|discriminate].
    injection E as <-. rewrite (IH _ d); auto. rewrite (C18_value_size_exact v a); auto. rewrite app_length. lia. }
  unfold ssize. cbn [s_params s_name]. rewrite (G ps _ c) by auto. cbn [vsize length]. rewrite !app_length, ser3_len. lia.
Qed.

(** ** Non-vacuity *)
Definition exArr : arr Z := mkArr [true; false; true; true; true; true; true; false; true] [1; 2; -3; 4; 5; 6; 7; 8; -2147483648].
Definition exState : state := mkState [102; 111; 111] [VInt (-5); VUnk INTEGER_TYPE; VIntArr exArr; VStr [0; 255]; VReal 4609434218613702656; VStrArr (mkArr [true; false] [[65]; []])].
Example exState_supported : Forall supported (s_params exState) /\ Forall low_sizes (s_params exState).
Proof.
  split; repeat constructor; unfold low_sizes, low_size, int32, bits64, short; simpl length; try lia; vm_compute; auto; try discriminate;
  try (split; discriminate).
Qed.
Example exState_bytes : match sser exState with Some (Some b) => ssize exState = Z.of_nat (length b) /\ sdes (b ++ [9; 9]) = DOk (mkState [102; 111; 111] (map readback (s_params exState))) [9; 9] | _ => False end.
Proof. vm_compute. auto. Qed.

Print Assumptions C17_state_round_trip_partial.
Print Assumptions C17_array_size_refuted.
Print Assumptions C17_many_parameters_refuted.
Print Assumptions C18_state_size_exact.

(** Assumptions *)
Print Assumptions C17_value_round_trip_partial.
Print Assumptions C17_unknown_type_refuted.
Print Assumptions C17_long_name_refuted.
Print Assumptions C18_value_size_exact.
