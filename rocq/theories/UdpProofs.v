(** Proofs about UdpModel.v. *)
From Coq Require Import ZArith Reals List Bool Lia Lra.
From Flocq Require Import Core Binary Bits BinarySingleNaN.
From Verif Require Import ValueModel CodecProofs FloatModel FloatSpec FloatProofs TypeModel UdpModel UdpSpec.
Import ListNotations.
Open Scope Z_scope.

(** ** Numbers *)
Lemma desInt4_un a b c d r : desInt4 (a :: b :: c :: d :: r) = DOk (unInt4 (a :: b :: c :: d :: r)) r.
Proof. reflexivity. Qed.
Lemma unInt4_ok z r : - 2 ^ 31 <= z < 2 ^ 31 -> unInt4 (serInt4 z ++ r) = z.
Proof.
  intros H. pose proof (desInt4_ok z r H) as E. unfold serInt4 in *. cbn [app] in *. rewrite desInt4_un in E. congruence.
Qed.
Lemma unInt2_ok z r : - 2 ^ 15 <= z < 2 ^ 15 -> unInt2 (serInt2 z ++ r) = z.
Proof.
  intros H. unfold serInt2, unInt2. cbn [app]. pose proof (byte_step 0 z ltac:(lia)) as E0. change (0 + 8) with 8 in E0. change (2 ^ 0) with 1 in E0.
  rewrite Z.div_1_r in E0.
  assert (E : byteAt 8 z = if z <? 0 then z / 2 ^ 8 + 256 else z / 2 ^ 8).
  { rewrite byteAt_eq by lia. assert (- 128 <= z / 2 ^ 8 < 128) by (split; [apply Z.div_le_lower_bound; lia|apply Z.div_lt_upper_bound; lia]).
    destruct (Z.ltb_spec z 0).
    - assert (z / 2 ^ 8 < 0) by (apply Z.div_lt_upper_bound; lia).
      rewrite <- (Z_mod_plus_full _ 1). rewrite Z.mod_small; lia.
    - apply Z.mod_small. split; [apply Z.div_pos; lia|lia]. }
  rewrite E. unfold toInt16. destruct (Z.ltb_spec z 0).
  - replace ((z / 2 ^ 8 + 256) * 256 + byteAt 0 z) with (z + 2 ^ 16) by lia. destruct (Z.ltb_spec (z + 2 ^ 16) (2 ^ 15)); lia.
  - rewrite E0. destruct (Z.ltb_spec z (2 ^ 15)); lia.
Qed.
Lemma serInt4_mod z : serInt4 (z + 2 ^ 32) = serInt4 z.
Proof.
  assert (X : forall k, 0 <= k <= 24 -> byteAt k (z + 2 ^ 32) = byteAt k z).
  { intros k K. rewrite !byteAt_eq by lia. replace (z + 2 ^ 32) with (z + 2 ^ (32 - k) * 2 ^ k) by (rewrite <- Z.pow_add_r by lia; do 2 f_equal; lia).
    rewrite Z.div_add by (apply Z.pow_nonzero; lia). replace (2 ^ (32 - k)) with (2 ^ (24 - k) * 256) by (change 256 with (2 ^ 8); rewrite <- Z.pow_add_r by lia; f_equal; lia).
    apply Z_mod_plus_full. }
  unfold serInt4. rewrite !X by lia. reflexivity.
Qed.
Lemma f32Bits_range x : 0 <= f32Bits x < 2 ^ 32.
Proof. unfold f32Bits, bits_of_b32. pose proof (bits_of_binary_float_range 23 8 eq_refl eq_refl (BSN2B 24 128 default_nan_pl32 x)). exact H. Qed.
Lemma unF32_ok x r : unF32 (serF32 x ++ r) = x.
Proof.
  unfold unF32, serF32. pose proof (f32Bits_range x) as R.
  assert (E : unInt4 (serInt4 (f32Bits x) ++ r) mod 2 ^ 32 = f32Bits x).
  { destruct (Z_lt_le_dec (f32Bits x) (2 ^ 31)).
    - rewrite unInt4_ok by lia. apply Z.mod_small. lia.
    - replace (f32Bits x) with (f32Bits x - 2 ^ 32 + 2 ^ 32) at 1 by ring. rewrite serInt4_mod, unInt4_ok by lia.
      rewrite <- (Z_mod_plus_full _ 1). rewrite Z.mod_small by lia. lia. }
  rewrite E. unfold bitsF32, f32Bits, b32_of_bits, bits_of_b32.
  rewrite (binary_float_of_bits_of_binary_float 23 8 eq_refl eq_refl eq_refl). apply B2BSN_BSN2B.
Qed.

(** ** Floats *)
Definition maxR : R := (IZR (2 ^ 24 - 1) * bpow radix2 104)%R.
Lemma fltMax_R : B2R fltMax = maxR.
Proof.
  unfold fltMax, maxR. cbn [B2R]. unfold F2R. cbn [Fnum Fexp]. change (cond_Zopp false 9007198717870080) with ((2 ^ 24 - 1) * 2 ^ 29)%Z.
  rewrite mult_IZR, (IZR_Zpower radix2) by lia. rewrite Rmult_assoc, <- bpow_plus. reflexivity.
Qed.
Lemma range_test r : (flt r (fneg fltMax) || flt fltMax r = false) <-> (floatRange r \/ r = B754_nan).
Proof.
  destruct r as [s|s| |s m e H].
  - split; [|destruct s; reflexivity]. intros _. left. split; [reflexivity|]. cbn [B2R]. rewrite Rabs_R0. fold maxR. rewrite <- fltMax_R.
    apply Rlt_le. apply F2R_gt_0. reflexivity.
  - split; [destruct s; discriminate|]. intros [[F _]|X]; discriminate.
  - split; auto.
  - set (r := B754_finite s m e H). assert (F : is_finite r = true) by reflexivity. clearbody r.
    assert (FM : is_finite (fneg fltMax) = true) by reflexivity. assert (FM' : is_finite fltMax = true) by reflexivity.
    assert (RM : B2R (fneg fltMax) = (- maxR)%R) by (unfold fneg; rewrite B2R_Bopp, fltMax_R; reflexivity).
    unfold flt. rewrite !Bltb_correct by auto. rewrite RM, fltMax_R, orb_false_iff. split.
    + intros [A B]. left. split; auto. fold maxR. apply Rabs_le.
      revert A B. case Rlt_bool_spec; [discriminate|]. case Rlt_bool_spec; [discriminate|]. lra.
    + intros [[_ A]|X]; [|subst r; discriminate]. fold maxR in A. apply Rabs_le_inv in A. split; apply Rlt_bool_false; lra.
Qed.
Lemma Bsign_szm s m : (match Rcompare (IZR (szm s m)) 0 with Eq => s | Lt => true | Gt => false end) = s.
Proof.
  change 0%R with (IZR 0). rewrite Rcompare_IZR. destruct s; reflexivity.
Qed.
Lemma compare_F2R s m e : Rcompare (F2R (Float radix2 (szm s m) e)) 0 = Rcompare (IZR (szm s m)) 0.
Proof.
  change 0%R with (IZR 0) at 2. rewrite Rcompare_IZR. destruct s; cbn [szm].
  - apply Rcompare_Lt. apply F2R_lt_0. reflexivity.
  - apply Rcompare_Gt. apply F2R_gt_0. reflexivity.
Qed.
Lemma maxR_lt : (maxR < bpow radix2 128)%R.
Proof.
  unfold maxR. replace 128%Z with (24 + 104)%Z by reflexivity. rewrite bpow_plus. apply Rmult_lt_compat_r; [apply bpow_gt_0|].
  rewrite <- (IZR_Zpower radix2) by lia. apply IZR_lt. reflexivity.
Qed.
Lemma maxR_format : generic_format radix2 (SpecFloat.fexp 24 128) maxR.
Proof.
  unfold maxR. change (IZR (2 ^ 24 - 1) * bpow radix2 104)%R with (F2R (Float radix2 (2 ^ 24 - 1) 104)).
  apply generic_format_F2R. intros _. unfold Generic_fmt.cexp, SpecFloat.fexp. rewrite mag_F2R_Zdigits by discriminate. vm_compute. discriminate.
Qed.
Lemma szm_cond s m : szm s m = cond_Zopp s (Zpos m).
Proof. destruct s; reflexivity. Qed.
Lemma toF32_ok r : floatRange r -> is_finite (toF32 r) = true /\ B2R (toF32 r) = binary32Round (B2R r) /\ Bsign (toF32 r) = Bsign r.
Proof.
  intros [F R]. fold maxR in R. destruct r as [s|s| |s m e H]; try discriminate.
  - cbn. repeat split. unfold binary32Round. rewrite round_0; [reflexivity|apply valid_rnd_N].
  - unfold toF32. pose proof (binary_normalize_correct 24 128 eq_refl eq_refl mode_NE (szm s m) e s) as N. cbv zeta in N.
    assert (ER : B2R (B754_finite s m e H) = F2R (Float radix2 (szm s m) e)) by (cbn [B2R]; rewrite szm_cond; reflexivity).
    rewrite ER in R. rewrite Rlt_bool_true in N.
    + destruct N as (A & B & C). split; [exact B|]. rewrite ER. split; [exact A|]. rewrite C, compare_F2R, Bsign_szm. reflexivity.
    + apply Rle_lt_trans with maxR; [|apply maxR_lt]. apply abs_round_le_generic; [apply (fexp_correct 24 128); reflexivity | apply valid_rnd_round_mode | apply maxR_format | exact R].
Qed.
Lemma toF64_ok f : is_finite f = true -> is_finite (toF64 f) = true /\ B2R (toF64 f) = B2R f /\ Bsign (toF64 f) = Bsign f.
Proof.
  intros F. destruct f as [s|s| |s m e H]; try discriminate; [repeat split|].
  unfold toF64. pose proof (binary_normalize_correct 53 1024 eq_refl eq_refl mode_NE (szm s m) e s) as N. cbv zeta in N.
  assert (ER : B2R (B754_finite s m e H) = F2R (Float radix2 (szm s m) e)) by (cbn [B2R]; rewrite szm_cond; reflexivity).
  assert (G : generic_format radix2 (SpecFloat.fexp 53 1024) (F2R (Float radix2 (szm s m) e))).
  { rewrite <- ER. apply generic_inclusion_mag with (fexp1 := SpecFloat.fexp 24 128); [|apply generic_format_B2R].
    intros _. unfold SpecFloat.fexp, SpecFloat.emin. lia. }
  rewrite (round_generic _ _ (round_mode mode_NE) _ G) in N. rewrite Rlt_bool_true in N.
  - destruct N as (A & B & C). split; [exact B|]. rewrite ER. split; [exact A|]. rewrite C, compare_F2R, Bsign_szm. reflexivity.
  - rewrite <- ER. apply Rlt_le_trans with (bpow radix2 128); [apply abs_B2R_lt_emax|]. apply bpow_le. lia.
Qed.

(** ** What is written *)
Definition img (t : pty) (len : Z) (v : sval) : option (list Z) :=
  match encScalar t len v with Some bs => Some (bs ++ repeat 0 (Z.to_nat len - length bs)) | None => None end.
Lemma enc_len t len v bs : encScalar t len v = Some bs -> Z.of_nat (length bs) <= len.
Proof.
  unfold encScalar. destruct (lenOk t len) eqn:L; [|discriminate]. unfold lenOk in L. destruct t, v; try discriminate.
  - destruct (Z.eqb_spec len 2).
    + destruct ((z <? - 2 ^ 15) || (2 ^ 15 - 1 <? z)); [discriminate|]. injection 1 as <-. cbn. lia.
    + destruct (Z.eqb_spec len 4); [|discriminate]. injection 1 as <-. cbn. lia.
  - apply Z.eqb_eq in L. match goal with |- context [flt ?a ?b || ?c] => destruct (flt a b || c) end; [discriminate|]. injection 1 as <-. subst len. cbn. lia.
  - destruct (Z.eqb_spec len 1); [injection 1 as <-; cbn; lia|]. destruct (Z.eqb_spec len 2); [injection 1 as <-; cbn; lia|].
    destruct (Z.eqb_spec len 4); [|discriminate]. injection 1 as <-. cbn. lia.
  - destruct (Z.ltb_spec len (Z.of_nat (length s))); [discriminate|]. injection 1 as <-. lia.
Qed.
Lemma img_len t len v im : img t len v = Some im -> Z.of_nat (length im) = len.
Proof.
  unfold img. destruct (encScalar t len v) as [bs|] eqn:E; [|discriminate]. injection 1 as <-. apply enc_len in E.
  rewrite app_length, repeat_length. lia.
Qed.
Lemma toInt32_small z : 0 <= z < 2 ^ 31 -> toInt32 (z mod 2 ^ 32) = z.
Proof. intros H. rewrite Z.mod_small by lia. unfold toInt32. destruct (Z.ltb_spec z (2 ^ 31)); lia. Qed.
Lemma skipn_repeat {A} (x : A) n k : skipn n (repeat x k) = repeat x (k - n).
Proof. revert k. induction n; intros [|k]; cbn; auto. Qed.
Lemma overwrite_zeros done k bs : (length bs <= k)%nat ->
  overwrite (done ++ repeat 0 k) (length done) bs = done ++ bs ++ repeat 0 (k - length bs).
Proof.
  intros L. unfold overwrite. rewrite firstn_app, firstn_all, Nat.sub_diag, firstn_O, app_nil_r.
  f_equal. f_equal. rewrite skipn_app, skipn_all2 by lia. cbn [app]. rewrite skipn_repeat. f_equal. lia.
Qed.
Lemma put_img t len v done k : 0 <= len <= Z.of_nat k -> Z.of_nat (length done + k) < 2 ^ 31 ->
  put t len v (done ++ repeat 0 k) (Z.of_nat (length done))
  = match img t len v with
    | Some im => WOk ((done ++ im) ++ repeat 0 (k - Z.to_nat len)) (Z.of_nat (length (done ++ im)))
    | None => WFail
    end.
Proof.
  intros Hl Hb. unfold put, img. destruct (encScalar t len v) as [bs|] eqn:E; [|reflexivity].
  pose proof (enc_len _ _ _ _ E) as L. rewrite toInt32_small by lia.
  assert (I : Z.of_nat (length (done ++ bs ++ repeat 0 (Z.to_nat len - length bs))) = Z.of_nat (length done) + len)
    by (rewrite !app_length, repeat_length; lia).
  rewrite I. destruct bs as [|b bs'].
  - f_equal. cbn [app length]. rewrite Nat.sub_0_r, <- app_assoc, <- repeat_app. do 2 f_equal. lia.
  - destruct (Z.ltb_spec (Z.of_nat (length done)) 0); [lia|]. rewrite app_length, repeat_length.
    destruct (Z.ltb_spec (Z.of_nat (length done + k)) (Z.of_nat (length done) + Z.of_nat (length (b :: bs')))); [lia|]. cbn [orb].
    rewrite Nat2Z.id, overwrite_zeros by lia. f_equal. rewrite <- !app_assoc. do 2 f_equal. rewrite <- repeat_app. f_equal. lia.
Qed.
Fixpoint imgElts (t : pty) (len : Z) (l : list (bool * sval)) : option (list Z) :=
  match l with
  | [] => Some []
  | (k, v) :: r => if k : bool then match img t len v, imgElts t len r with Some a, Some b => Some (a ++ b) | _, _ => None end else None
  end.
Lemma imgElts_len t len l im : imgElts t len l = Some im -> Z.of_nat (length im) = len * Z.of_nat (length l).
Proof.
  revert im. induction l as [|[k v] r IH]; cbn [imgElts]; intros im H.
  - injection H as <-. cbn. lia.
  - destruct k; [|discriminate]. destruct (img t len v) as [a|] eqn:A; [|discriminate]. destruct (imgElts t len r) as [b|]; [|discriminate].
    injection H as <-. apply img_len in A. specialize (IH b eq_refl). rewrite app_length. cbn [length]. lia.
Qed.
Lemma putElts_img t len l : 0 <= len -> forall done k, len * Z.of_nat (length l) <= Z.of_nat k -> Z.of_nat (length done + k) < 2 ^ 31 ->
  putElts t len l (done ++ repeat 0 k) (Z.of_nat (length done))
  = match imgElts t len l with
    | Some im => WOk ((done ++ im) ++ repeat 0 (k - length im)) (Z.of_nat (length (done ++ im)))
    | None => WFail
    end.
Proof.
  intros P. induction l as [|[b v] r IH]; cbn [putElts imgElts length]; intros done k K B.
  - rewrite app_nil_r. cbn [length]. rewrite Nat.sub_0_r. reflexivity.
  - destruct b; [|reflexivity]. rewrite put_img by lia. destruct (img t len v) as [a|] eqn:A; [|reflexivity].
    pose proof (img_len _ _ _ _ A) as La. rewrite IH by (try rewrite app_length; nia).
    destruct (imgElts t len r) as [im|]; [|reflexivity].
    replace (k - Z.to_nat len - length im)%nat with (k - length (a ++ im))%nat by (rewrite app_length; lia). rewrite (app_assoc done a im). reflexivity.
Qed.
Definition imgParam (p : param) (v : option tval) : option (list Z) :=
  match v with
  | Some (TVs s) => if p_arr p then None else img (p_ty p) (p_len p) s
  | Some (TVa elt l) =>
      if p_arr p && (elt =? eltCode (p_ty p)) && lenOk (p_ty p) (p_len p) && (Z.of_nat (length l) =? p_elts p)
      then imgElts (p_ty p) (p_len p) l else None
  | _ => None
  end.
(** Facts about every parameter of an accepted definition. *)
Definition goodParam (p : param) : Prop :=
  0 < p_len p < 2 ^ 32 /\ 0 < p_elts p < 2 ^ 32 /\ (p_arr p = false -> p_elts p = 1)
  /\ match p_ty p with
     | PInt | PFloat => p_len p = 2 \/ p_len p = 4
     | PBool => p_len p = 1 \/ p_len p = 2 \/ p_len p = 4
     | PStr => True
     end.
Lemma imgParam_len p v im : goodParam p -> imgParam p v = Some im -> Z.of_nat (length im) = p_len p * p_elts p.
Proof.
  intros (L & E & S & _). destruct v as [[s|t n|elt l]|]; cbn [imgParam]; try discriminate.
  - destruct (p_arr p) eqn:A; [discriminate|]. rewrite (S eq_refl). intros H. apply img_len in H. lia.
  - destruct (_ && _) eqn:C; [|discriminate]. apply andb_true_iff in C as [_ C]. apply Z.eqb_eq in C. intros H. apply imgElts_len in H. congruence.
Qed.
Lemma putParam_img p v : goodParam p -> forall done k, p_len p * p_elts p <= Z.of_nat k -> Z.of_nat (length done + k) < 2 ^ 31 ->
  putParam p v (done ++ repeat 0 k) (Z.of_nat (length done))
  = match imgParam p v with
    | Some im => WOk ((done ++ im) ++ repeat 0 (k - length im)) (Z.of_nat (length (done ++ im)))
    | None => WFail
    end.
Proof.
  intros G done k K B. pose proof G as (L & E & S & _). destruct v as [[s|t n|elt l]|]; cbn [imgParam putParam]; try reflexivity.
  - destruct (p_arr p) eqn:A; [reflexivity|]. rewrite (S eq_refl) in K. rewrite put_img by lia.
    destruct (img (p_ty p) (p_len p) s) as [im|] eqn:I; [|reflexivity]. apply img_len in I. do 3 f_equal. lia.
  - destruct (_ && _) eqn:C; [|reflexivity]. apply andb_true_iff in C as [_ C]. apply Z.eqb_eq in C.
    rewrite putElts_img by (try rewrite C; lia). reflexivity.
Qed.
Fixpoint imgAll (ps : list param) (args : list (option tval)) : option (list Z) :=
  match ps, args with
  | [], [] => Some []
  | p :: ps', a :: args' => match imgParam p a, imgAll ps' args' with Some x, Some y => Some (x ++ y) | _, _ => None end
  | _, _ => None
  end.
Lemma totalSize_nn ps : Forall goodParam ps -> 0 <= totalSize ps.
Proof. induction 1 as [|p r (A & B & _) _ IH]; cbn [totalSize]; nia. Qed.
Lemma imgAll_len ps : Forall goodParam ps -> forall args im, imgAll ps args = Some im -> Z.of_nat (length im) = totalSize ps.
Proof.
  induction 1 as [|p r G _ IH]; intros [|a args] im; cbn [imgAll totalSize]; try discriminate.
  - injection 1 as <-. reflexivity.
  - destruct (imgParam p a) as [x|] eqn:X; [|discriminate]. destruct (imgAll r args) as [y|] eqn:Y; [|discriminate]. injection 1 as <-.
    apply imgParam_len in X; auto. apply IH in Y. rewrite app_length. lia.
Qed.
Lemma putAll_img ps : Forall goodParam ps -> forall args done k, length args = length ps ->
  totalSize ps <= Z.of_nat k -> Z.of_nat (length done + k) < 2 ^ 31 ->
  putAll ps args (done ++ repeat 0 k) (Z.of_nat (length done))
  = match imgAll ps args with
    | Some im => WOk ((done ++ im) ++ repeat 0 (k - length im)) (Z.of_nat (length (done ++ im)))
    | None => WFail
    end.
Proof.
  induction 1 as [|p r G F IH]; intros [|a args] done k LE K B; cbn [putAll imgAll totalSize length] in *; try discriminate.
  - rewrite app_nil_r, Nat.sub_0_r. reflexivity.
  - pose proof (totalSize_nn r F). rewrite putParam_img by (auto; lia). destruct (imgParam p a) as [x|] eqn:X; [|reflexivity].
    pose proof (imgParam_len _ _ _ G X) as Lx. injection LE as LE.
    rewrite IH by (try rewrite app_length; auto; lia). destruct (imgAll r args) as [y|]; [|reflexivity].
    replace (k - length x - length y)%nat with (k - length (x ++ y))%nat by (rewrite app_length; lia). rewrite (app_assoc done x y). reflexivity.
Qed.
Lemma imgAll_length ps args im : imgAll ps args = Some im -> length args = length ps.
Proof.
  revert args im. induction ps as [|p r IH]; intros [|a args] im; cbn; try discriminate; auto.
  destruct (imgParam p a); [|discriminate]. destruct (imgAll r args) eqn:Y; [|discriminate]. intros _. f_equal. eauto.
Qed.
Lemma build_img m args : Forall goodParam (m_params m) -> totalSize (m_params m) < 2 ^ 31 ->
  buildUdpBuffer m args (repeat 0 (Z.to_nat (totalSize (m_params m))))
  = match imgAll (m_params m) args with Some im => WOk im (totalSize (m_params m)) | None => WFail end.
Proof.
  intros G T. pose proof (totalSize_nn _ G). unfold buildUdpBuffer. destruct (Nat.eqb_spec (length args) (length (m_params m))) as [L|L].
  - pose proof (putAll_img _ G args [] (Z.to_nat (totalSize (m_params m))) L) as P. cbn [app length] in P. change (Z.of_nat 0) with 0 in P. rewrite P by lia.
    destruct (imgAll (m_params m) args) as [im|] eqn:I; [|reflexivity]. apply imgAll_len in I; auto.
    replace (_ - _)%nat with 0%nat by lia. cbn. rewrite app_nil_r. f_equal. exact I.
  - destruct (imgAll (m_params m) args) eqn:I; [|reflexivity]. apply imgAll_length in I. contradiction.
Qed.
(** Accepted definitions. *)
Lemma parseParam_good a p : attrOk a -> parseParam a = Some p -> goodParam p.
Proof.
  intros [B E]. unfold parseParam. destruct (at_type a) as [[t isArr]|]; [|discriminate]. destruct (at_bytes a) as [len|]; [|discriminate].
  specialize (B len eq_refl). destruct (Z.eqb_spec len 0); [discriminate|].
  assert (X : forall q, p_ty q = t -> p_len q = len ->
     match t with PInt | PFloat => negb ((len =? 2) || (len =? 4)) | PBool => negb ((len =? 1) || (len =? 2) || (len =? 4)) | PStr => false end = false ->
     0 < p_elts q < 2 ^ 32 -> (p_arr q = false -> p_elts q = 1) -> goodParam q).
  { intros q <- <- C P S. unfold goodParam. split; [lia|]. split; [exact P|]. split; [exact S|]. destruct (p_ty q); auto;
    apply negb_false_iff in C; rewrite !orb_true_iff, !Z.eqb_eq in C; lia. }
  destruct (match t with PInt | PFloat => _ | PBool => _ | PStr => false end) eqn:C; [discriminate|].
  destruct isArr.
  - destruct (at_elts a) as [n0|]; [|discriminate]. specialize (E n0 eq_refl). destruct (Z.eqb_spec n0 0); [discriminate|]. injection 1 as <-.
    apply X; auto; cbn; [lia|discriminate].
  - destruct (at_elts a); [discriminate|]. injection 1 as <-. apply X; auto; cbn; lia.
Qed.
Lemma parseParams_good l : Forall attrOk l -> forall m m', Forall goodParam (m_params m) -> m_len m = totalSize (m_params m) mod 2 ^ 32 ->
  parseParams l m = Some m' -> Forall goodParam (m_params m') /\ m_len m' = totalSize (m_params m') mod 2 ^ 32.
Proof.
  induction 1 as [|a r A _ IH]; cbn [parseParams]; intros m m' G L H.
  - injection H as <-. auto.
  - destruct (parseParam a) as [p|] eqn:P; [|discriminate]. apply parseParam_good in P; auto. eapply IH; [| |exact H]; cbn [m_params m_len].
    + apply Forall_app. split; auto.
    + assert (T : forall ps, totalSize (ps ++ [p]) = totalSize ps + p_len p * p_elts p).
      { induction ps; cbn [app totalSize]; lia. }
      rewrite T, L. rewrite Zplus_mod_idemp_l. reflexivity.
Qed.
Lemma parseMessage_good l m : Forall attrOk l -> parseMessage l = Some m ->
  Forall goodParam (m_params m) /\ m_len m = totalSize (m_params m) mod 2 ^ 32.
Proof. intros A H. eapply parseParams_good; eauto; cbn; auto. Qed.

(** ** What is read back *)
Lemma readN_at pre im post n : n = Z.of_nat (length im) -> readN (pre ++ im ++ post) (Z.of_nat (length pre)) n = Some im.
Proof.
  intros ->. unfold readN. rewrite !app_length. destruct (Z.ltb_spec (Z.of_nat (length pre)) 0); [lia|].
  destruct (Z.ltb_spec (Z.of_nat (length pre + (length im + length post))) (Z.of_nat (length pre) + Z.of_nat (length im))); [lia|]. cbn [orb].
  rewrite !Nat2Z.id. rewrite skipn_app, skipn_all, Nat.sub_diag. cbn [skipn app]. rewrite firstn_app, firstn_all, Nat.sub_diag, firstn_O, app_nil_r. reflexivity.
Qed.
Lemma untilNul_spec s k : exists rest, (s = untilNul (s ++ repeat 0 k) /\ rest = [] \/ s = untilNul (s ++ repeat 0 k) ++ 0 :: rest)
                                       /\ ~ In 0 (untilNul (s ++ repeat 0 k)).
Proof.
  induction s as [|c s (rest & A & B)].
  - exists []. split; [|destruct k; cbn; auto]. left. destruct k; auto.
  - cbn [app untilNul]. destruct (Z.eqb_spec c 0) as [->|N].
    + exists s. split; [right; reflexivity|]. intros [].
    + exists rest. split; [|intros [X|X]; [congruence|auto]]. destruct A as [[A ->]|A]; [left; split; congruence|right]. cbn [app]. congruence.
Qed.
Lemma plexil_int z : plexilVal (SI z) -> - 2 ^ 31 <= z < 2 ^ 31.
Proof. intros V. inversion V. assumption. Qed.
Lemma Some_inj {A} (x y : A) : Some x = Some y -> x = y.
Proof. congruence. Qed.
Lemma dec_img t len v im pre post : plexilVal v -> img t len v = Some im ->
  exists w, decScalar t len (pre ++ im ++ post) (Z.of_nat (length pre)) = inl w /\ arrives1 v w.
Proof.
  intros V I. pose proof (img_len _ _ _ _ I) as L. pose proof (readN_at pre im post len (eq_sym L)) as R. revert I.
  unfold img, encScalar. destruct (lenOk t len) eqn:K; [|discriminate]. unfold lenOk in K.
  destruct t, v as [b|z|r|s]; try discriminate; unfold decScalar.
  - (* int *) apply plexil_int in V. destruct (Z.eqb_spec len 2) as [->|N2].
    + destruct ((z <? - 2 ^ 15) || (2 ^ 15 - 1 <? z)) eqn:Q; [discriminate|]. intros I; apply Some_inj in I; subst im. rewrite R. exists (SI z). split; [|constructor].
      rewrite unInt2_ok; [reflexivity|]. apply orb_false_iff in Q as [Q1 Q2]. apply Z.ltb_ge in Q1, Q2. lia.
    + destruct (Z.eqb_spec len 4) as [->|N4]; [|discriminate]. intros I; apply Some_inj in I; subst im. rewrite R. exists (SI z). split; [|constructor].
      rewrite unInt4_ok by lia. reflexivity.
  - (* float *) rewrite K. apply Z.eqb_eq in K. rewrite K in L, R |- *. clear K. match goal with |- context [flt ?a ?b || ?c] => destruct (flt a b || c) eqn:Q end; [discriminate|].
    apply range_test in Q. intros I; apply Some_inj in I; subst im. rewrite R. rewrite unF32_ok. eexists. split; [reflexivity|]. destruct Q as [Q| ->]; [|apply A_nan].
    destruct (toF32_ok _ Q) as (A & B & C). destruct (toF64_ok _ A) as (A' & B' & C'). destruct Q as [F _].
    apply A_r; [exact F|exact A'|congruence|congruence].
  - (* bool *) destruct (Z.eqb_spec len 1) as [->|N1].
    + intros I; apply Some_inj in I; subst im. rewrite R. exists (SB b). split; [|constructor]. destruct b; reflexivity.
    + destruct (Z.eqb_spec len 2) as [->|N2].
      * intros I; apply Some_inj in I; subst im. rewrite R. exists (SB b). split; [|constructor]. destruct b; reflexivity.
      * destruct (Z.eqb_spec len 4) as [->|N4]; [|discriminate]. intros I; apply Some_inj in I; subst im. rewrite R. exists (SB b). split; [|constructor]. destruct b; reflexivity.
  - (* string *) destruct (Z.ltb_spec len (Z.of_nat (length s))) as [|Ls]; [discriminate|]. intros I. apply Some_inj in I.
    destruct (Z.ltb_spec (Z.of_nat (length pre)) 0); [lia|]. rewrite Nat2Z.id, skipn_app, skipn_all, Nat.sub_diag. cbn [skipn app].
    destruct (Z.leb_spec len (Z.of_nat (length (im ++ post)))) as [X|X]; [|rewrite app_length in X; lia]. rewrite orb_true_r.
    assert (F : firstn (Z.to_nat len) (im ++ post) = im).
    { rewrite firstn_app. replace (Z.to_nat len) with (length im) by lia. rewrite firstn_all, Nat.sub_diag, firstn_O, app_nil_r. reflexivity. }
    rewrite F. eexists. split; [reflexivity|]. rewrite <- I. destruct (untilNul_spec s (Z.to_nat len - length s)) as (rest & A & B).
    apply A_s with rest; auto.
Qed.
Lemma decElts_img t len l : Forall (fun kv : bool * sval => plexilVal (snd kv)) l -> forall im pre post, imgElts t len l = Some im ->
  exists ws, decElts t len (length l) (pre ++ im ++ post) (Z.of_nat (length pre)) = inl ws
             /\ Forall2 (fun kv w => arrives1 (snd kv) w) l ws.
Proof.
  induction 1 as [|[k v] r V _ IH]; intros im pre post; cbn [imgElts decElts length].
  - injection 1 as <-. exists []. auto.
  - destruct k; [|discriminate]. destruct (img t len v) as [a|] eqn:A; [|discriminate]. destruct (imgElts t len r) as [b|] eqn:B; [|discriminate].
    injection 1 as <-. destruct (dec_img t len v a pre (b ++ post) V A) as (w & D & W). rewrite <- app_assoc, D.
    destruct (IH b (pre ++ a) post eq_refl) as (ws & D' & W'). apply img_len in A. rewrite <- app_assoc in D'.
    rewrite app_length, Nat2Z.inj_add, A in D'. rewrite D'. exists (w :: ws). split; [reflexivity|]. constructor; auto.
Qed.
Lemma decParam_img p v im pre post : goodParam p -> p_len p * p_elts p < 2 ^ 31 -> plexilArg v -> imgParam p v = Some im ->
  exists v0 w, v = Some v0 /\ decParam p (pre ++ im ++ post) (Z.of_nat (length pre)) = inl w /\ arrives v0 w.
Proof.
  intros (L & E & S & _) T V I. unfold decParam.
  assert (G : (2 ^ 31 <=? p_len p) || (2 ^ 31 <=? p_elts p) = false) by (apply orb_false_iff; split; apply Z.leb_gt; nia). rewrite G.
  destruct V as [|s V|t n|elt l V]; cbn [imgParam] in I; try discriminate.
  - destruct (p_arr p); [discriminate|]. destruct (dec_img _ _ _ _ pre post V I) as (w & D & W). rewrite D.
    exists (TVs s), (TVs w). repeat split; auto. constructor; auto.
  - destruct (p_arr p && (elt =? eltCode (p_ty p)) && lenOk (p_ty p) (p_len p) && (Z.of_nat (length l) =? p_elts p)) eqn:C; [|discriminate].
    apply andb_true_iff in C as [C C4]. apply andb_true_iff in C as [C C3]. apply andb_true_iff in C as [C1 C2]. rewrite C1.
    apply Z.eqb_eq in C2, C4. rewrite <- C4, Nat2Z.id.
    destruct (decElts_img (p_ty p) (p_len p) l) with (im := im) (pre := pre) (post := post) as (ws & D & W); auto.
    { eapply Forall_impl; [|exact V]. cbn. tauto. }
    rewrite D. exists (TVa elt l), (TVa (eltCode (p_ty p)) (map (fun v => (true, v)) ws)). split; [reflexivity|]. split; [reflexivity|].
    rewrite <- C2. constructor. clear - W. induction W; cbn [map]; constructor; auto.
Qed.
Lemma decAll_img ps : Forall goodParam ps -> totalSize ps < 2 ^ 31 -> forall args, Forall plexilArg args -> forall im pre post, imgAll ps args = Some im ->
  exists ws, decAll ps (pre ++ im ++ post) (Z.of_nat (length pre)) = (ws, HDone)
             /\ Forall2 (fun a w => exists v, a = Some v /\ arrives v w) args ws.
Proof.
  induction 1 as [|p r G F IH]; intros T args V im pre post I.
  - destruct args; [|discriminate]. injection I as <-. exists []. auto.
  - destruct args as [|a args]; [discriminate|]. cbn [imgAll totalSize] in *. inversion V as [|? ? Va Vr]; subst.
    destruct (imgParam p a) as [x|] eqn:X; [|discriminate]. destruct (imgAll r args) as [y|] eqn:Y; [|discriminate]. injection I as <-.
    pose proof (totalSize_nn r F). pose proof G as (L & E & _).
    destruct (decParam_img p a x pre (y ++ post) G ltac:(lia) Va X) as (v0 & w & Ea & D & W). cbn [decAll]. rewrite <- app_assoc, D.
    destruct (IH ltac:(nia) args Vr y (pre ++ x) post Y) as (ws & D' & W'). apply imgParam_len in X; auto.
    rewrite <- app_assoc, app_length, Nat2Z.inj_add, X in D'. rewrite D'. exists (w :: ws). split; [reflexivity|]. constructor; eauto.
Qed.
(** ** What can be sent *)
Lemma img_sendable t len v : plexilVal v -> (img t len v <> None <-> sendable1 t len v).
Proof.
  intros V. unfold img, encScalar. split.
  - destruct (lenOk t len) eqn:K; [|congruence]. unfold lenOk in K. destruct t, v as [b|z|r|s]; try congruence; intros H.
    + apply plexil_int in V. destruct (Z.eqb_spec len 2) as [->|N2].
      * destruct ((z <? - 2 ^ 15) || (2 ^ 15 - 1 <? z)) eqn:Q; [congruence|]. constructor. apply orb_false_iff in Q as [Q1 Q2]. apply Z.ltb_ge in Q1, Q2. lia.
      * destruct (Z.eqb_spec len 4) as [->|N4]; [|discriminate]. constructor. lia.
    + apply Z.eqb_eq in K. subst. destruct (flt r (fneg fltMax) || flt fltMax r) eqn:Q; [congruence|]. apply range_test in Q. constructor. exact Q.
    + constructor. rewrite !orb_true_iff, !Z.eqb_eq in K. tauto.
    + destruct (Z.ltb_spec len (Z.of_nat (length s))); [congruence|]. constructor. lia.
  - intros H. destruct H as [len b H|z H|z H|r H|len s H].
    + cbn [lenOk]. replace ((len =? 1) || (len =? 2) || (len =? 4)) with true; [discriminate|]. symmetry. rewrite !orb_true_iff, !Z.eqb_eq. tauto.
    + cbn [lenOk]. change (2 =? 2) with true. cbn [orb]. destruct (Z.ltb_spec z (- 2 ^ 15)); [lia|]. destruct (Z.ltb_spec (2 ^ 15 - 1) z); [lia|]. discriminate.
    + cbn. discriminate.
    + cbn [lenOk]. change (4 =? 4) with true. cbv iota. apply range_test in H. rewrite H. discriminate.
    + cbn [lenOk]. destruct (Z.ltb_spec len (Z.of_nat (length s))); [lia|]. discriminate.
Qed.
Lemma sendable1_lenOk t len v : sendable1 t len v -> lenOk t len = true.
Proof. intros H. destruct H; cbn [lenOk]; auto. rewrite !orb_true_iff, !Z.eqb_eq. tauto. Qed.
Lemma imgElts_sendable t len l : Forall (fun kv : bool * sval => plexilVal (snd kv)) l ->
  (imgElts t len l <> None <-> Forall (fun kv => fst kv = true /\ sendable1 t len (snd kv)) l).
Proof.
  induction 1 as [|[k v] r V _ IH]; cbn [imgElts].
  - split; [constructor|discriminate].
  - pose proof (img_sendable t len v V) as S. cbn [snd] in *. split.
    + destruct k; [|congruence]. destruct (img t len v) as [a|] eqn:A; [|congruence]. destruct (imgElts t len r) as [b|]; [|congruence].
      intros _. constructor; [split; [reflexivity|]; apply S; discriminate|apply IH; discriminate].
    + intros H. inversion H as [|? ? [K H1] H2]; subst. cbn in K, H1. subst k. apply S in H1. apply IH in H2.
      destruct (img t len v); [|congruence]. destruct (imgElts t len r); [discriminate|congruence].
Qed.
Lemma imgParam_sendable p v : goodParam p -> plexilArg v -> (imgParam p v <> None <-> sendable p v).
Proof.
  intros (_ & E & _) V. destruct V as [|s V|t n|elt l V]; cbn [imgParam].
  - split; [congruence|]. intros H. inversion H.
  - pose proof (img_sendable (p_ty p) (p_len p) s V) as S. split.
    + destruct (p_arr p) eqn:A; [congruence|]. intros H. constructor; [exact A|tauto].
    + intros H. inversion H as [? ? A B|]; subst. rewrite A. tauto.
  - split; [congruence|]. intros H. inversion H.
  - assert (V' : Forall (fun kv => plexilVal (snd kv)) l) by (eapply Forall_impl; [|exact V]; cbn; tauto).
    pose proof (imgElts_sendable (p_ty p) (p_len p) l V') as S. split.
    + destruct (p_arr p && (elt =? eltCode (p_ty p)) && lenOk (p_ty p) (p_len p) && (Z.of_nat (length l) =? p_elts p)) eqn:C; [|congruence].
      apply andb_true_iff in C as [C C4]. apply andb_true_iff in C as [C C3]. apply andb_true_iff in C as [C1 C2]. apply Z.eqb_eq in C2, C4. subst elt.
      intros H. constructor; [exact C1|exact C4|tauto].
    + intros H. inversion H as [|? ? A B C]; subst. rewrite A, B, !Z.eqb_refl. cbn [andb].
      assert (K : lenOk (p_ty p) (p_len p) = true).
      { destruct l as [|kv r]; [cbn in B; lia|]. inversion C as [|? ? [_ X] _]; subst. eapply sendable1_lenOk; eauto. }
      rewrite K. cbn [andb]. tauto.
Qed.
Lemma imgAll_sendable ps : Forall goodParam ps -> forall args, Forall plexilArg args -> (imgAll ps args <> None <-> Forall2 sendable ps args).
Proof.
  induction 1 as [|p r G _ IH]; intros args V.
  - destruct args; cbn [imgAll]; split; try congruence; [constructor|]. intros H; inversion H.
  - destruct args as [|a args]; cbn [imgAll]; [split; [congruence|]; intros H; inversion H|]. inversion V as [|? ? Va Vr]; subst.
    pose proof (imgParam_sendable p a G Va) as S. specialize (IH args Vr). split.
    + destruct (imgParam p a); [|congruence]. destruct (imgAll r args); [|congruence]. intros _. constructor; [apply S|apply IH]; discriminate.
    + intros H. inversion H as [|? ? ? ? H1 H2]; subst. apply S in H1. apply IH in H2. destruct (imgParam p a); [|congruence].
      destruct (imgAll r args); [discriminate|congruence].
Qed.
(** ** Decoding anything *)
Lemma readN_in buf off n : 0 <= off -> off + n <= Z.of_nat (length buf) -> readN buf off n <> None.
Proof.
  intros A B. unfold readN. destruct (Z.ltb_spec off 0); [lia|]. destruct (Z.ltb_spec (Z.of_nat (length buf)) (off + n)); [lia|]. discriminate.
Qed.
Definition float2 (p : param) : Prop := p_ty p = PFloat /\ p_len p = 2.
Lemma decScalar_any t len buf off :
  match t with PInt => len = 2 \/ len = 4 | PFloat => len = 4 | PBool => len = 1 \/ len = 2 \/ len = 4 | PStr => True end ->
  0 <= off -> off + len <= Z.of_nat (length buf) -> exists v, decScalar t len buf off = inl v /\ svalType v = eltCode t.
Proof.
  intros K A B. destruct t; unfold decScalar.
  - pose proof (readN_in buf off len A B) as R. destruct K as [-> | ->]; (destruct (readN buf off _) as [bs|] eqn:E; [|congruence]).
    + change (2 =? 2) with true. cbv iota. eauto.
    + change (4 =? 2) with false. change (4 =? 4) with true. cbv iota. eauto.
  - pose proof (readN_in buf off len A B) as R. subst len. destruct (readN buf off 4) as [bs|] eqn:E; [|congruence].
    change (4 =? 4) with true. cbv iota. eauto.
  - pose proof (readN_in buf off len A B) as R. destruct K as [-> |[-> | ->]]; (destruct (readN buf off _) as [bs|] eqn:E; [|congruence]).
    + change (1 =? 1) with true. cbv iota. eauto.
    + change (2 =? 1) with false. change (2 =? 2) with true. cbv iota. eauto.
    + change (4 =? 1) with false. change (4 =? 2) with false. change (4 =? 4) with true. cbv iota. eauto.
  - destruct (Z.ltb_spec off 0); [lia|]. rewrite skipn_length. destruct (Z.leb_spec len (Z.of_nat (length buf - Z.to_nat off))); [|lia].
    rewrite orb_true_r. eauto.
Qed.
Lemma decElts_any t len n buf :
  match t with PInt => len = 2 \/ len = 4 | PFloat => len = 4 | PBool => len = 1 \/ len = 2 \/ len = 4 | PStr => True end ->
  0 <= len -> forall off, 0 <= off -> off + len * Z.of_nat n <= Z.of_nat (length buf) ->
  exists l, decElts t len n buf off = inl l /\ length l = n /\ Forall (fun v => svalType v = eltCode t) l.
Proof.
  intros K P. induction n; intros off A B; cbn [decElts]; [exists []; auto|].
  destruct (decScalar_any t len buf off K A ltac:(nia)) as (v & D & V). rewrite D.
  destruct (IHn (off + len) ltac:(lia) ltac:(nia)) as (l & D' & L & F). rewrite D'. exists (v :: l). cbn. auto.
Qed.
Lemma decParam_any p buf off : goodParam p -> ~ float2 p -> p_len p * p_elts p < 2 ^ 31 -> 0 <= off -> off + p_len p * p_elts p <= Z.of_nat (length buf) ->
  exists v, decParam p buf off = inl v /\ hasParamType p v.
Proof.
  intros (L & E & S & K) NF T A B. unfold decParam, hasParamType.
  assert (G : (2 ^ 31 <=? p_len p) || (2 ^ 31 <=? p_elts p) = false) by (apply orb_false_iff; split; apply Z.leb_gt; nia). rewrite G.
  assert (K' : match p_ty p with PInt => p_len p = 2 \/ p_len p = 4 | PFloat => p_len p = 4 | PBool => p_len p = 1 \/ p_len p = 2 \/ p_len p = 4 | PStr => True end).
  { unfold float2 in NF. destruct (p_ty p); auto. destruct K; [|auto]. exfalso. auto. }
  destruct (p_arr p).
  - destruct (decElts_any (p_ty p) (p_len p) (Z.to_nat (p_elts p)) buf K' ltac:(lia) off A) as (l & D & Ll & F); [rewrite Z2Nat.id by lia; lia|].
    rewrite D. eexists. split; [reflexivity|]. eexists. split; [reflexivity|]. rewrite map_length. split; [lia|].
    clear - F. induction F; cbn [map]; constructor; auto.
  - rewrite (S eq_refl) in B. destruct (decScalar_any (p_ty p) (p_len p) buf off K' A ltac:(lia)) as (v & D & V). rewrite D. eauto.
Qed.
Lemma decAll_any ps buf : Forall goodParam ps -> Forall (fun p => ~ float2 p) ps -> totalSize ps < 2 ^ 31 -> forall off, 0 <= off ->
  off + totalSize ps <= Z.of_nat (length buf) -> exists vs, decAll ps buf off = (vs, HDone) /\ Forall2 hasParamType ps vs.
Proof.
  induction 1 as [|p r G F IH]; intros NF T off A B; cbn [decAll totalSize] in *; [exists []; auto|].
  inversion NF as [|? ? N1 N2]; subst. pose proof (totalSize_nn r F). pose proof G as (L & E & _).
  destruct (decParam_any p buf off G N1 ltac:(lia) A ltac:(lia)) as (v & D & V). rewrite D.
  destruct (IH N2 ltac:(nia) (off + p_len p * p_elts p) ltac:(nia) ltac:(nia)) as (vs & D' & W). rewrite D'. exists (v :: vs). auto.
Qed.
(** With 2-byte floats: never outside the buffer. *)
Lemma decScalar_float2 buf off : decScalar PFloat 2 buf off = inr HFail.
Proof. reflexivity. Qed.
Lemma decAll_safe ps buf : Forall goodParam ps -> totalSize ps < 2 ^ 31 -> forall off, 0 <= off ->
  off + totalSize ps <= Z.of_nat (length buf) -> exists vs h, decAll ps buf off = (vs, h) /\ (h = HDone \/ h = HFail).
Proof.
  induction 1 as [|p r G F IH]; intros T off A B; cbn [decAll totalSize] in *; [exists [], HDone; auto|].
  pose proof (totalSize_nn r F). pose proof G as (L & E & S & K).
  assert (D : float2 p \/ ~ float2 p).
  { unfold float2. destruct (p_ty p); try (right; intros [X _]; discriminate). destruct (Z.eq_dec (p_len p) 2); [left|right]; tauto. }
  destruct D as [[P1 P2]|N].
  - assert (G' : (2 ^ 31 <=? p_len p) || (2 ^ 31 <=? p_elts p) = false) by (apply orb_false_iff; split; apply Z.leb_gt; nia).
    unfold decParam. rewrite G', P1, P2. destruct (p_arr p).
    + destruct (Z.to_nat (p_elts p)) eqn:X; [lia|]. cbn [decElts]. rewrite decScalar_float2. exists [], HFail. auto.
    + rewrite decScalar_float2. exists [], HFail. auto.
  - destruct (decParam_any p buf off G N ltac:(lia) A ltac:(lia)) as (v & D & V). rewrite D.
    destruct (IH ltac:(nia) (off + p_len p * p_elts p) ltac:(nia) ltac:(nia)) as (vs & h & D' & W). rewrite D'. exists (v :: vs), h. auto.
Qed.
