(** Serialization round trip and size proofs. *)
From Verif Require Export ValueModel.

(** ** Bytes *)
Lemma byteAt_eq k v : 0 <= k -> byteAt k v = (v / 2 ^ k) mod 256.
Proof.
  intros K. unfold byteAt. rewrite Z.shiftr_div_pow2 by auto. rewrite Z.land_comm.
  change 255 with (Z.ones 8). rewrite Z.land_ones by lia. reflexivity.
Qed.
Lemma byteAt_range k v : 0 <= k -> 0 <= byteAt k v < 256.
Proof. intros. rewrite byteAt_eq by auto. apply Z.mod_pos_bound. lia. Qed.
(** Combining a byte with the next higher part. *)
Lemma byte_step k v : 0 <= k -> v / 2 ^ (k + 8) * 256 + byteAt k v = v / 2 ^ k.
Proof.
  intros K. rewrite byteAt_eq by auto. rewrite Z.pow_add_r by lia.
  rewrite <- Z.div_div by lia. change (2 ^ 8) with 256.
  pose proof (Z.div_mod (v / 2 ^ k) 256). lia.
Qed.

Lemma byte_step' k k' v : 0 <= k -> k' = k + 8 -> v / 2 ^ k' * 256 + byteAt k v = v / 2 ^ k.
Proof. intros K ->. now apply byte_step. Qed.

Lemma desSize3u_ok n rest : 0 <= n < 2 ^ 24 -> desSize3u (serSize3 n ++ rest) = DOk n rest.
Proof.
  intros N. unfold desSize3u, serSize3. simpl app. cbn [dbind get1]. f_equal.
  assert (E : byteAt 16 n = n / 2 ^ 16). { rewrite byteAt_eq by lia. apply Z.mod_small. split. apply Z.div_pos; lia. apply Z.div_lt_upper_bound; lia. }
  rewrite E, (byte_step' 8 16 n), (byte_step' 0 8 n) by lia. apply Z.div_1_r.
Qed.
Definition smallBytes (n : Z) : Prop := byteAt 16 n < 128 /\ byteAt 8 n < 128 /\ byteAt 0 n < 128.
Lemma u64_id z : 0 <= z < 2 ^ 64 -> u64 z = z.
Proof. intros. apply Z.mod_small; auto. Qed.
Lemma u64_mul a : u64 (u64 a * 256) = u64 (a * 256).
Proof. apply Z.mul_mod_idemp_l. lia. Qed.
Lemma u64_add a b : u64 (u64 a + u64 b) = u64 (a + b).
Proof. symmetry. apply Z.add_mod. lia. Qed.
Lemma u64_muladd a b : u64 (u64 a * 256 + u64 b) = u64 (a * 256 + b).
Proof.
  rewrite <- (u64_add (a * 256)), <- (u64_mul a). unfold u64. rewrite Z.add_mod_idemp_l by lia. reflexivity.
Qed.
(** What the signed-char size reader computes. *)
Definition misread (n : Z) : Z :=
  u64 (n - 256 * (if byteAt 0 n <? 128 then 0 else 1) - 65536 * (if byteAt 8 n <? 128 then 0 else 1) - 16777216 * (if byteAt 16 n <? 128 then 0 else 1)).
Lemma desSize3s_val n rest : 0 <= n < 2 ^ 24 -> desSize3s (serSize3 n ++ rest) = DOk (misread n) rest.
Proof.
  intros N. unfold desSize3s, serSize3. simpl app. cbn [dbind get1]. f_equal.
  assert (E : byteAt 16 n = n / 2 ^ 16). { rewrite byteAt_eq by lia. apply Z.mod_small. split. apply Z.div_pos; lia. apply Z.div_lt_upper_bound; lia. }
  pose proof (byte_step 8 n ltac:(lia)) as E8. pose proof (byte_step 0 n ltac:(lia)) as E0.
  change (0 + 8) with 8 in E0. change (2 ^ 0) with 1 in E0. rewrite Z.div_1_r in E0. change (8 + 8) with 16 in E8. rewrite <- E in E8.
  unfold misread.
  assert (F : n = (byteAt 16 n * 256 + byteAt 8 n) * 256 + byteAt 0 n) by lia.
  set (x := byteAt 16 n) in *. set (y := byteAt 8 n) in *. set (z := byteAt 0 n) in *.
  transitivity (u64 ((schar x * 256 + schar y) * 256 + schar z)).
  - rewrite u64_mul, u64_add, u64_muladd. reflexivity.
  - f_equal. unfold schar. destruct (x <? 128), (y <? 128), (z <? 128); lia.
Qed.
Lemma misread_ok n : 0 <= n < 2 ^ 24 -> smallBytes n -> misread n = n.
Proof.
  intros N (A & B & C). unfold misread. apply Z.ltb_lt in A, B, C. rewrite A, B, C. rewrite u64_id; lia.
Qed.
Lemma misread_bad n : 0 <= n < 2 ^ 24 -> ~ smallBytes n -> misread n <> n.
Proof.
  intros N B. unfold misread, smallBytes in *.
  destruct (Z.ltb_spec (byteAt 0 n) 128), (Z.ltb_spec (byteAt 8 n) 128), (Z.ltb_spec (byteAt 16 n) 128);
    try (exfalso; tauto); unfold u64;
    match goal with |- ?e mod _ <> _ => destruct (Z_lt_le_dec e 0);
      [rewrite <- (Z_mod_plus_full e 1); rewrite Z.mod_small by lia; lia | rewrite Z.mod_small by lia; lia] end.
Qed.

Lemma desInt4_ok n rest : - 2 ^ 31 <= n < 2 ^ 31 -> desInt4 (serInt4 n ++ rest) = DOk n rest.
Proof.
  intros N. unfold desInt4, serInt4. simpl app. cbn [dbind get1]. f_equal.
  pose proof (byte_step 16 n ltac:(lia)) as E16. pose proof (byte_step 8 n ltac:(lia)) as E8. pose proof (byte_step 0 n ltac:(lia)) as E0.
  change (0 + 8) with 8 in E0. change (2 ^ 0) with 1 in E0. rewrite Z.div_1_r in E0. change (8 + 8) with 16 in E8. change (16 + 8) with 24 in E16.
  assert (E : byteAt 24 n = if n <? 0 then n / 2 ^ 24 + 256 else n / 2 ^ 24).
  { rewrite byteAt_eq by lia. assert (- 128 <= n / 2 ^ 24 < 128) by (split; [apply Z.div_le_lower_bound; lia|apply Z.div_lt_upper_bound; lia]).
    destruct (Z.ltb_spec n 0).
    - assert (n / 2 ^ 24 < 0) by (apply Z.div_lt_upper_bound; lia).
      rewrite <- (Z_mod_plus_full _ 1). rewrite Z.mod_small; lia.
    - apply Z.mod_small. split; [apply Z.div_pos; lia|lia]. }
  assert (F : ((byteAt 24 n * 256 + byteAt 16 n) * 256 + byteAt 8 n) * 256 + byteAt 0 n = if n <? 0 then n + 2 ^ 32 else n).
  { rewrite E. destruct (n <? 0); lia. }
  rewrite F. unfold toInt32. destruct (Z.ltb_spec n 0).
  - destruct (Z.ltb_spec (n + 2 ^ 32) (2 ^ 31)); lia.
  - destruct (Z.ltb_spec n (2 ^ 31)); lia.
Qed.
Lemma desReal8_ok n rest : 0 <= n < 2 ^ 64 -> desReal8 (serReal8 n ++ rest) = DOk n rest.
Proof.
  intros N. unfold desReal8, serReal8. simpl app. cbn [dbind get1]. f_equal.
  assert (E : byteAt 56 n = n / 2 ^ 56). { rewrite byteAt_eq by lia. apply Z.mod_small. split. apply Z.div_pos; lia. apply Z.div_lt_upper_bound; lia. }
  rewrite E, (byte_step' 48 56 n), (byte_step' 40 48 n), (byte_step' 32 40 n), (byte_step' 24 32 n), (byte_step' 16 24 n),
    (byte_step' 8 16 n), (byte_step' 0 8 n) by lia.
  apply Z.div_1_r.
Qed.

(** ** Strings *)
Lemma getN_ok s rest : getN (Z.of_nat (length s)) (s ++ rest) = DOk s rest.
Proof.
  unfold getN. rewrite app_length. destruct (Z.ltb_spec (Z.of_nat (length s + length rest)) (Z.of_nat (length s))); [lia|].
  rewrite Nat2Z.id, firstn_app, skipn_app, Nat.sub_diag, firstn_all, skipn_all. simpl. now rewrite app_nil_r.
Qed.
Lemma serChars_ok s : Z.of_nat (length s) < 2 ^ 24 -> exists b, serChars s = Some b /\ forall rest, desChars (b ++ rest) = DOk s rest.
Proof.
  intros L. unfold serChars. destruct (Z.ltb_spec 16777215 (Z.of_nat (length s))); [lia|].
  eexists. split; [reflexivity|]. intros rest. unfold desChars. rewrite <- app_assoc, desSize3u_ok by lia. apply getN_ok.
Qed.

(** ** Flag vectors *)
Lemma unmask_ok l : (length l <= 8)%nat -> unmask (length l) 128 (maskBits 128 l) = l.
Proof.
  intros L. destruct l as [|b1 [|b2 [|b3 [|b4 [|b5 [|b6 [|b7 [|b8 [|b9 l]]]]]]]]]; [..|simpl in L; exfalso; lia];
    repeat match goal with b : bool |- _ => destruct b end; reflexivity.
Qed.
Lemma unpack_ok : forall fuel l rest, (length l <= fuel)%nat ->
  unpackBits fuel (length l) (packBits fuel l ++ rest) = DOk l rest.
Proof.
  induction fuel as [|f IH]; intros l rest L.
  - destruct l; [reflexivity|simpl in L; lia].
  - destruct l as [|x l']; [reflexivity|]. set (l := x :: l') in *.
    change (packBits (S f) l) with (maskBits 128 (firstn 8 l) :: packBits f (skipn 8 l)).
    assert (E : unpackBits (S f) (length l) ((maskBits 128 (firstn 8 l) :: packBits f (skipn 8 l)) ++ rest)
      = dbind (unpackBits f (length l - 8)%nat (packBits f (skipn 8 l) ++ rest))
          (fun k r' => DOk (unmask (Nat.min (length l) 8) 128 (maskBits 128 (firstn 8 l)) ++ k) r')) by reflexivity.
    rewrite E. replace (length l - 8)%nat with (length (skipn 8 l)) by apply skipn_length.
    rewrite IH.
    + cbn [dbind]. f_equal. rewrite Nat.min_comm, <- firstn_length.
      rewrite unmask_ok by (rewrite firstn_length; lia). apply firstn_skipn.
    + rewrite skipn_length. simpl in L. unfold l. simpl length. lia.
Qed.
Lemma desBools_ok l rest : desBools (length l) (serBools l ++ rest) = DOk l rest.
Proof. apply unpack_ok. lia. Qed.
Lemma unmask_length n : forall m b, length (unmask n m b) = n.
Proof. induction n; simpl; auto. Qed.
Lemma unpack_length : forall fuel n buf l r, (n <= fuel)%nat -> unpackBits fuel n buf = DOk l r -> length l = n.
Proof.
  induction fuel as [|f IH]; intros n buf l r L E.
  - assert (n = 0)%nat by lia. subst. simpl in E. inversion E. auto.
  - destruct n as [|n]; [inversion E; auto|].
    assert (E' : dbind (get1 buf) (fun b r => dbind (unpackBits f (S n - 8)%nat r) (fun l r' => DOk (unmask (Nat.min (S n) 8) 128 b ++ l) r')) = DOk l r) by exact E.
    clear E. destruct buf; [discriminate|]. cbn [get1 dbind] in E'.
    destruct (unpackBits f (S n - 8) buf) as [k r'| | |] eqn:K; try discriminate. cbn [dbind] in E'.
    remember (Nat.min (S n) 8) as mm. injection E' as E1 _. rewrite <- E1.
    rewrite app_length, unmask_length. apply IH in K; [|lia]. lia.
Qed.
Lemma packBits_length : forall fuel l, (length l <= fuel)%nat -> Z.of_nat (length (packBits fuel l)) = bitVectorSize (Z.of_nat (length l)).
Proof.
  induction fuel as [|f IH]; intros l L.
  - destruct l; [reflexivity|simpl in L; lia].
  - destruct l as [|x l']; [reflexivity|]. set (l := x :: l') in *.
    change (packBits (S f) l) with (maskBits 128 (firstn 8 l) :: packBits f (skipn 8 l)).
    assert (LN : (1 <= length l)%nat) by (unfold l; simpl; lia). assert (LF : (length l <= S f)%nat) by exact L. clearbody l.
    cbn [length]. rewrite Nat2Z.inj_succ, IH.
    + rewrite skipn_length. unfold bitVectorSize.
      destruct (Nat.le_gt_cases (length l) 8).
      * replace (length l - 8)%nat with 0%nat by lia. simpl.
        assert (1 <= Z.of_nat (length l) <= 8) by lia.
        remember (Z.of_nat (length l)) as z. assert (z = 1 \/ z = 2 \/ z = 3 \/ z = 4 \/ z = 5 \/ z = 6 \/ z = 7 \/ z = 8) as C by lia.
        destruct C as [->|[->|[->|[->|[->|[->|[->| ->]]]]]]]; reflexivity.
      * rewrite Nat2Z.inj_sub by lia. change (Z.of_nat 8) with 8.
        replace (Z.of_nat (length l)) with ((Z.of_nat (length l) - 8) + 1 * 8) at 3 4 by lia.
        rewrite Z.div_add, Z.mod_add by lia. lia.
    + rewrite skipn_length. lia.
Qed.
Lemma serBools_length l : Z.of_nat (length (serBools l)) = bitVectorSize (Z.of_nat (length l)).
Proof. apply packBits_length. lia. Qed.

(** ** Elements and arrays *)
Lemma elts_ok {T} (P : T -> Prop) (ser : T -> option (list Z)) (des : list Z -> dres T) :
  (forall x, P x -> exists b, ser x = Some b /\ forall rest, des (b ++ rest) = DOk x rest) ->
  forall l, Forall P l -> exists b, serElts ser l = Some b /\ forall rest, desElts des (length l) (b ++ rest) = DOk l rest.
Proof.
  intros H l F. induction F as [|x l Px F (b & E & D)]; simpl.
  - exists []. auto.
  - destruct (H x Px) as (c & E1 & D1). rewrite E1, E. eexists. split; [reflexivity|].
    intros rest. rewrite <- app_assoc, D1. cbn [dbind]. rewrite D. auto.
Qed.
Lemma desArr_ok {T} tag (serC : list T -> option (list Z)) (desC : nat -> list Z -> dres (list T)) (a : arr T) b :
  length (a_cont a) = length (a_known a) ->
  Z.of_nat (length (a_known a)) < 2 ^ 24 -> smallBytes (Z.of_nat (length (a_known a))) ->
  serC (a_cont a) = Some b -> (forall rest, desC (length (a_cont a)) (b ++ rest) = DOk (a_cont a) rest) ->
  exists s, serArr tag serC a = Some (tag :: s) /\ forall rest, desArr tag desC (tag :: s ++ rest) = DOk a rest.
Proof.
  intros LE L SB E D. unfold serArr. destruct (Z.ltb_spec 16777215 (Z.of_nat (length (a_known a)))); [lia|]. rewrite E.
  eexists. split; [reflexivity|]. intros rest. unfold desArr, getTag. cbn [get1 dbind]. rewrite Z.eqb_refl. cbn [dbind].
  rewrite <- !app_assoc, desSize3s_val by lia. cbn [dbind]. rewrite misread_ok by (auto; lia).
  destruct (Z.ltb_spec (2 ^ 62) (Z.of_nat (length (a_known a)))); [lia|]. rewrite Nat2Z.id, desBools_ok. cbn [dbind].
  rewrite <- LE, D. cbn [dbind]. destruct a; auto.
Qed.
(** A size byte of 0x80 or more is never decoded correctly. *)
Lemma desArr_bad {T} tag (serC : list T -> option (list Z)) (desC : nat -> list Z -> dres (list T)) (a : arr T) s rest a' r' :
  ~ smallBytes (Z.of_nat (length (a_known a))) -> serArr tag serC a = Some s ->
  desArr tag desC (s ++ rest) = DOk a' r' -> length (a_known a') <> length (a_known a).
Proof.
  intros SB E D. unfold serArr in E. destruct (Z.ltb_spec 16777215 (Z.of_nat (length (a_known a)))); [discriminate|].
  destruct (serC (a_cont a)) as [c|]; [|discriminate]. assert (E2 : s = tag :: serSize3 (Z.of_nat (length (a_known a))) ++ serBools (a_known a) ++ c) by congruence. subst s.
  unfold desArr, getTag in D. rewrite <- app_comm_cons in D. cbn [get1 dbind] in D. rewrite Z.eqb_refl in D. cbn [dbind] in D.
  rewrite <- !app_assoc, desSize3s_val in D by lia. cbn [dbind] in D.
  destruct (2 ^ 62 <? misread (Z.of_nat (length (a_known a)))); [discriminate|].
  destruct (desBools _ _) as [k r| | |] eqn:K; try discriminate. cbn [dbind] in D.
  destruct (desC _ _) as [cc r2| | |]; try discriminate. cbn [dbind] in D. injection D as <- _.
  apply unpack_length in K; [|lia]. cbn [a_known]. rewrite K.
  pose proof (misread_bad (Z.of_nat (length (a_known a))) ltac:(lia) SB).
  assert (0 <= misread (Z.of_nat (length (a_known a)))) by (apply Z.mod_pos_bound; lia). lia.
Qed.
