(** Proofs for TypeProps.v: typing and loading. *)
From Coq Require Import ZArith List Bool Lia.
From Verif Require Import ValueModel OpModel FloatModel TypeModel TypeSpec.
Import ListNotations.
Open Scope Z_scope.

Section TexpInd.
  Variable P : texp -> Prop.
  Hypothesis Hc : forall t i, P (XConst t i).
  Hypothesis Hv : forall a b c i, P (XVar a b c i).
  Hypothesis Ha : forall t i, P (XArr t i).
  Hypothesis Hl : forall t i, P (XLookup t i).
  Hypothesis He : forall a i, P a -> P i -> P (XElem a i).
  Hypothesis Ho : forall o args, Forall P args -> P (XOp o args).
  Fixpoint texp_ind' (e : texp) : P e :=
    match e with
    | XConst t i => Hc t i
    | XVar a b c i => Hv a b c i
    | XArr t i => Ha t i
    | XLookup t i => Hl t i
    | XElem a i => He a i (texp_ind' a) (texp_ind' i)
    | XOp o args => Ho o args ((fix go l : Forall P l := match l with [] => Forall_nil _ | x :: r => Forall_cons _ (texp_ind' x) (go r) end) args)
    end.
End TexpInd.

Scheme hasType_mut := Induction for hasType Sort Prop with typesOf_mut := Induction for typesOf Sort Prop.
Combined Scheme hasType_typesOf_ind from hasType_mut, typesOf_mut.

Lemma typesOf_F2 args ts : typesOf args ts <-> Forall2 (fun a t => hasType UNKNOWN_TYPE a t) args ts.
Proof. split; induction 1; constructor; auto. Qed.

Ltac tcases H := unfold AnyType, UserType, Numeric, IsArray, IsEnum in H.
Ltac dest_or := repeat match goal with H : _ \/ _ |- _ => destruct H end; subst.

Lemma numeric_spec t : isNumericType t = true <-> Numeric t.
Proof.
  unfold isNumericType, Numeric. rewrite !orb_true_iff, !Z.eqb_eq. tauto.
Qed.
Lemma array_spec t : isArrayType t = true <-> IsArray t.
Proof. unfold isArrayType, IsArray. rewrite !orb_true_iff, !Z.eqb_eq. tauto. Qed.
Lemma enum_spec t : isEnumType t = true <-> IsEnum t.
Proof. unfold isEnumType, IsEnum. rewrite !orb_true_iff, !Z.eqb_eq. tauto. Qed.
Lemma AnyType_nonzero t : AnyType t -> t <> UNKNOWN_TYPE.
Proof. intros H. tcases H. dest_or; discriminate. Qed.
Lemma UserType_nonzero t : UserType t -> t <> UNKNOWN_TYPE.
Proof. intros H. apply AnyType_nonzero. left; auto. Qed.
Lemma Numeric_nonzero t : Numeric t -> t <> UNKNOWN_TYPE.
Proof. intros H. tcases H. dest_or; discriminate. Qed.
Lemma ArrayOf_arrayOf e t : ArrayOf e t -> arrayOf e = t /\ isArrayType t = true /\ elementType t = e.
Proof. destruct 1; repeat split; reflexivity. Qed.
Lemma ArrayOf_inj e t t' : ArrayOf e t -> ArrayOf e t' -> t = t'.
Proof. intros A B. apply ArrayOf_arrayOf in A. apply ArrayOf_arrayOf in B. intuition congruence. Qed.
Lemma ArrayOf_inv e t : ArrayOf e t -> IsArray t.
Proof. intros H. apply array_spec. apply (ArrayOf_arrayOf _ _ H). Qed.
Lemma IsArray_ArrayOf t : IsArray t -> ArrayOf (elementType t) t.
Proof. intros H. unfold IsArray in H. dest_or; vm_compute; constructor. Qed.

(** ** Arithmetic result types. *)
Lemma commonLoop_real ts : Forall Numeric ts -> commonLoop REAL_TYPE ts = REAL_TYPE.
Proof.
  induction 1 as [|t ts N _ IH]; [reflexivity|]. unfold Numeric in N. dest_or; cbn; exact IH.
Qed.
Lemma commonLoop_int ts : Forall (eq INTEGER_TYPE) ts -> commonLoop INTEGER_TYPE ts = INTEGER_TYPE.
Proof. induction 1 as [|t ts N _ IH]; [reflexivity|]. subst. cbn. exact IH. Qed.
Lemma commonLoop_mix ts : Forall Numeric ts -> Exists (fun t => t <> INTEGER_TYPE) ts -> commonLoop INTEGER_TYPE ts = REAL_TYPE.
Proof.
  induction 1 as [|t ts N F IH]; intros X; [inversion X|]. unfold Numeric in N.
  destruct N as [ -> | [ -> | [ -> | -> ]]]; cbn; try (apply commonLoop_real; exact F).
  apply IH. inversion X; subst; [congruence|assumption].
Qed.
Lemma common_int ts d : ts <> [] -> Forall (eq INTEGER_TYPE) ts -> arithmeticCommonType ts d = INTEGER_TYPE.
Proof. intros H F. destruct F as [|t ts E F]; [congruence|]. subst. cbn. apply commonLoop_int; auto. Qed.
Lemma common_real ts d : Forall Numeric ts -> Exists (fun t => t <> INTEGER_TYPE) ts -> arithmeticCommonType ts d = REAL_TYPE.
Proof.
  intros F X. destruct F as [|t ts N F]; [inversion X|]. unfold Numeric in N.
  destruct N as [ -> | [ -> | [ -> | -> ]]]; cbn; try (apply commonLoop_real; exact F).
  apply commonLoop_mix; auto. inversion X; subst; [congruence|assumption].
Qed.
Lemma allInt_dec ts : Forall (eq INTEGER_TYPE) ts \/ Exists (fun t => t <> INTEGER_TYPE) ts.
Proof.
  induction ts as [|t ts IH]; [left; constructor|]. destruct (Z.eq_dec t INTEGER_TYPE) as [->|N].
  - destruct IH; [left; constructor; auto | right; apply Exists_cons_tl; auto].
  - right. apply Exists_cons_hd. exact N.
Qed.

(** ** Well-typed expressions are constructed, with their type. *)
Lemma arity_nonempty a ts : arity a (@length Z ts) -> ts <> [].
Proof. intros H ->. destruct a; cbn in H; congruence. Qed.
Lemma comparisonType_num ta tb : Numeric ta -> Numeric tb ->
  comparisonType ta tb = INTEGER_TYPE \/ comparisonType ta tb = REAL_TYPE.
Proof.
  intros A B. unfold Numeric in *.
  destruct A as [ -> | [ -> | [ -> | -> ]]]; destruct B as [ -> | [ -> | [ -> | -> ]]]; vm_compute; auto.
Qed.
Lemma sig_operator d o ts T : opSig d o ts T -> exists p, getOperator o ts d = Some p /\ operType p = T.
Proof.
  destruct 1 as [|b ts N F|a ts A F|a ts A F X|t N|t N|c t N D|c t N D|n ta tb C|c ta tb C|t|q t Q A|q t Q A|ts F|];
    cbn [getOperator].
  - eauto.
  - eauto.
  - rewrite (common_int ts d (arity_nonempty _ _ A) F). cbn. eauto.
  - rewrite (common_real ts d F X). cbn. eauto.
  - eauto.
  - eauto.
  - replace (conversionReturnType (nth 0 [t] UNKNOWN_TYPE) d) with INTEGER_TYPE; [cbn; eauto|].
    cbn [nth]. unfold conversionReturnType. destruct (Z.eqb_spec d INTEGER_TYPE); auto.
    destruct D as [->|[D ->]]; [congruence|]. destruct (Z.eqb_spec d REAL_TYPE); [congruence|]. reflexivity.
  - replace (conversionReturnType (nth 0 [t] UNKNOWN_TYPE) d) with REAL_TYPE; [cbn; eauto|].
    cbn [nth]. unfold conversionReturnType.
    destruct D as [->|[D ->]]; [reflexivity|]. destruct (Z.eqb_spec d INTEGER_TYPE); [congruence|].
    destruct (Z.eqb_spec d REAL_TYPE); reflexivity.
  - eauto.
  - cbn [nth]. destruct C as [[A B]|[-> ->]]; [|cbn; eauto].
    destruct (comparisonType_num _ _ A B) as [-> | ->]; cbn; eauto.
  - eauto.
  - destruct Q as [-> | ->]; cbn; eauto.
  - destruct Q as [-> | ->]; cbn; eauto.
  - eauto.
  - eauto.
Qed.

Lemma alloc_typed_mut :
  (forall d e T, hasType d e T -> exists c, alloc e d = Made c /\ cType c = T) /\
  (forall args ts, typesOf args ts ->
     exists cs, allMade (map (fun a => alloc a UNKNOWN_TYPE) args) = inl (Some cs) /\ map cType cs = ts).
Proof.
  apply hasType_typesOf_ind.
  - intros d t i A. exists (CLeaf t i). auto.
  - intros d t i A. exists (CLeaf t i). cbn. rewrite Z.eqb_refl. auto.
  - intros d elt t i A. exists (CLeaf (arrayOf elt) i). cbn. split; auto. apply (ArrayOf_arrayOf _ _ A).
  - intros d t i U. exists (CLook t i). cbn. destruct (Z.eqb_spec t UNKNOWN_TYPE); auto.
    apply UserType_nonzero in U. contradiction.
  - intros d a idx elt t AO _ (ca & E1 & T1) _ (ci & E2 & T2). exists (CElem ca ci). cbn [alloc].
    rewrite E1, T1. destruct (ArrayOf_arrayOf _ _ AO) as (_ & IA & EL). rewrite IA. cbn [orb].
    rewrite E2, T2. cbn. rewrite T1. auto.
  - intros d o args ts T _ (cs & E1 & T1) S. destruct (sig_operator _ _ _ _ S) as (p & G & PT).
    exists (CFun p cs). cbn [alloc]. rewrite E1, T1, G. auto.
  - exists []. auto.
  - intros a args t ts _ (c & E1 & T1) _ (cs & E2 & T2). exists (c :: cs). cbn [map allMade]. rewrite E1, E2.
    cbn. rewrite T1, T2. auto.
Qed.
Lemma alloc_typed d e T : hasType d e T -> exists c, alloc e d = Made c /\ cType c = T.
Proof. apply (proj1 alloc_typed_mut). Qed.
Lemma alloc_types args ts : typesOf args ts ->
  exists cs, allMade (map (fun a => alloc a UNKNOWN_TYPE) args) = inl (Some cs) /\ map cType cs = ts.
Proof. apply (proj2 alloc_typed_mut). Qed.
Lemma hasType_unique d e T T' : hasType d e T -> hasType d e T' -> T = T'.
Proof.
  intros A B. apply alloc_typed in A. apply alloc_typed in B. destruct A as (c & E & <-). destruct B as (c' & E' & <-). congruence.
Qed.

(** ** Well-typed expressions pass the check. *)
Definition near (t T : Z) : Prop := t = T \/ t = UNKNOWN_TYPE \/ (Numeric T /\ (t = INTEGER_TYPE \/ t = REAL_TYPE)).
Lemma near_num t T : near t T -> Numeric T -> numOrUnknown t = true.
Proof.
  intros [->|[->|[_ [-> | ->]]]] N; unfold numOrUnknown; try reflexivity. apply numeric_spec in N. rewrite N. reflexivity.
Qed.
Lemma near_same t T : near t T -> ~ Numeric T -> (t =? T) || (t =? UNKNOWN_TYPE) = true.
Proof.
  intros [->|[->|[N _]]] H; [rewrite Z.eqb_refl; reflexivity | rewrite orb_true_r; reflexivity | contradiction].
Qed.
Lemma near_eq ta tb ta' tb' : near ta' ta -> near tb' tb -> ta = tb \/ (Numeric ta /\ Numeric tb) -> canBeEqual ta' tb' = true.
Proof.
  intros A B C. unfold canBeEqual. destruct (Z.eqb_spec ta' tb'); auto.
  destruct (Z.eqb_spec ta' UNKNOWN_TYPE); auto. destruct (Z.eqb_spec tb' UNKNOWN_TYPE); auto. cbn [orb].
  assert (NN : Numeric ta /\ Numeric tb).
  { destruct C as [->|C]; auto. destruct A as [->|[->|[N [-> | ->]]]]; try congruence; auto.
    destruct B as [->|[->|[N [-> | ->]]]]; try congruence; auto. }
  destruct NN as [Na Nb]. apply andb_true_iff.
  apply near_num in A; auto. apply near_num in B; auto. unfold numOrUnknown in *.
  rewrite orb_true_iff in *. rewrite !Z.eqb_eq in *. intuition.
Qed.
Lemma num_not_string : ~ Numeric STRING_TYPE. Proof. intros H. unfold Numeric in H. dest_or; discriminate. Qed.
Lemma num_not_bool : ~ Numeric BOOLEAN_TYPE. Proof. intros H. unfold Numeric in H. dest_or; discriminate. Qed.
Lemma near_cmp ta tb ta' tb' : near ta' ta -> near tb' tb ->
  (Numeric ta /\ Numeric tb) \/ (ta = STRING_TYPE /\ tb = STRING_TYPE) -> canBeCompared ta' tb' = true.
Proof.
  intros A B C. unfold canBeCompared.
  destruct (Z.eqb_spec ta' UNKNOWN_TYPE); auto. destruct (Z.eqb_spec tb' UNKNOWN_TYPE); auto. cbn [orb].
  destruct C as [[Na Nb]|[-> ->]].
  - apply near_num in A; auto. apply near_num in B; auto. unfold numOrUnknown in *.
    rewrite orb_true_iff in *. rewrite !Z.eqb_eq in *. destruct A; [|contradiction]. rewrite H. destruct B; [auto|contradiction].
  - apply near_same in A; [|apply num_not_string]. apply near_same in B; [|apply num_not_string].
    rewrite orb_true_iff in *. rewrite !Z.eqb_eq in *. destruct A; [|contradiction]. destruct B; [|contradiction]. subst. reflexivity.
Qed.
Lemma near_all (T : Z) ts' ts : ~ Numeric T -> Forall2 near ts' ts -> Forall (eq T) ts -> allSameOrUnknown T ts' = true.
Proof.
  intros N F. induction F as [|t' t ts' ts R F IH]; intros G; [reflexivity|]. inversion G; subst.
  cbn. rewrite (near_same _ _ R N). cbn. apply IH. assumption.
Qed.
Lemma near_nums ts' ts : Forall2 near ts' ts -> Forall Numeric ts -> forallb numOrUnknown ts' = true.
Proof.
  intros F. induction F as [|t' t ts' ts R F IH]; intros G; [reflexivity|]. inversion G; subst.
  cbn. rewrite (near_num _ _ R) by assumption. cbn. apply IH. assumption.
Qed.
Lemma commonLoop_num r ts : r = INTEGER_TYPE \/ r = REAL_TYPE -> forallb numOrUnknown ts = true ->
  commonLoop r ts = INTEGER_TYPE \/ commonLoop r ts = REAL_TYPE.
Proof.
  revert r. induction ts as [|t ts IH]; intros r Hr F.
  - destruct Hr as [-> | ->]; cbn; auto.
  - cbn in F. apply andb_true_iff in F as [N F]. unfold numOrUnknown in N. rewrite orb_true_iff, numeric_spec, Z.eqb_eq in N.
    unfold Numeric in N. destruct N as [[ -> | [ -> | [ -> | -> ]]]| ->]; cbn; (apply IH; [|exact F]); auto;
      destruct Hr as [-> | ->]; cbn; auto.
Qed.
Lemma common_num ts d : ts <> [] -> forallb numOrUnknown ts = true ->
  arithmeticCommonType ts d = INTEGER_TYPE \/ arithmeticCommonType ts d = REAL_TYPE.
Proof.
  intros H F. destruct ts as [|t ts]; [congruence|].
  cbn in F. apply andb_true_iff in F as [N F]. unfold numOrUnknown in N. rewrite orb_true_iff, numeric_spec, Z.eqb_eq in N.
  unfold Numeric in N. destruct N as [[ -> | [ -> | [ -> | -> ]]]| ->]; cbn; (apply commonLoop_num; [|exact F]); auto.
  destruct (d =? INTEGER_TYPE); auto.
Qed.
Lemma F2_len {A B} (R : A -> B -> Prop) l l' : Forall2 R l l' -> length l = length l'.
Proof. induction 1; cbn; auto. Qed.

Lemma sig_check d o ts T ts' :
  opSig d o ts T -> Forall2 near ts' ts -> (forall q, o = NArrQ q -> ts' = ts) ->
  countOk o (length ts') = true /\ typesOk o ts' = true /\ near (valueTypeOf o ts' d) T.
Proof.
  intros S F Q. pose proof (F2_len _ _ _ F) as L.
  assert (Z0 : forall x, near x x) by (left; reflexivity).
  destruct S as [|b ts N G|a ts A G|a ts A G X|t N|t N|c t N D|c t N D|n ta tb C|c ta tb C|t|q t QQ A|q t QQ A|ts G|].
  - cbn in L. rewrite L. inversion F as [|x y l1 l2 R F']; subst. inversion F'; subst. cbn.
    rewrite (near_same _ _ R num_not_bool). auto.
  - cbn. repeat split; auto. { destruct b; congruence || reflexivity. } eapply near_all; eauto. apply num_not_bool.
  - assert (NN : Forall Numeric ts) by (eapply Forall_impl; [|exact G]; intros ? <-; left; reflexivity).
    rewrite L. cbn [countOk typesOk valueTypeOf]. repeat split.
    + destruct a; cbn in A |- *; rewrite ?A; auto; destruct (length ts); auto.
    + eapply near_nums; eauto.
    + right. right. split; [left; reflexivity|]. apply common_num; [|eapply near_nums; eauto].
      intros ->. destruct ts; [|cbn in L; congruence]. apply arity_nonempty in A. congruence.
  - rewrite L. cbn [countOk typesOk valueTypeOf]. repeat split.
    + destruct a; cbn in A |- *; rewrite ?A; auto; destruct (length ts); auto.
    + eapply near_nums; eauto.
    + right. right. split; [right; left; reflexivity|]. apply common_num; [|eapply near_nums; eauto].
      intros ->. destruct ts; [|cbn in L; congruence]. apply arity_nonempty in A. congruence.
  - inversion F as [|x y l1 l2 R F']; subst. inversion F'; subst. cbn. rewrite (near_num _ _ R N). auto.
  - inversion F as [|x y l1 l2 R F']; subst. inversion F'; subst. cbn. rewrite (near_num _ _ R N). auto.
  - inversion F as [|x y l1 l2 R F']; subst. inversion F'; subst. cbn. rewrite (near_num _ _ R N). repeat split; auto.
    destruct D as [->|[D ->]]; [left; reflexivity|]. unfold conversionReturnType.
    destruct (Z.eqb_spec d INTEGER_TYPE); [left; reflexivity|]. destruct (Z.eqb_spec d REAL_TYPE); [congruence|].
    destruct R as [->|[->|[_ [-> | ->]]]]; cbn; unfold near; auto; right; right; split; auto; left; reflexivity.
  - inversion F as [|x y l1 l2 R F']; subst. inversion F'; subst. cbn. rewrite (near_num _ _ R N). repeat split; auto.
    destruct D as [->|[D ->]]; [left; reflexivity|]. unfold conversionReturnType.
    destruct (Z.eqb_spec d INTEGER_TYPE); [congruence|]. destruct (Z.eqb_spec d REAL_TYPE); [left; reflexivity|].
    destruct R as [->|[->|[_ [-> | ->]]]]; cbn; unfold near; auto; right; right; split; auto; right; left; reflexivity.
  - inversion F as [|x y l1 l2 R F']; subst. inversion F' as [|x2 y2 l3 l4 R2 F2]; subst. inversion F2; subst. cbn.
    rewrite (near_eq _ _ _ _ R R2 C). auto.
  - inversion F as [|x y l1 l2 R F']; subst. inversion F' as [|x2 y2 l3 l4 R2 F2]; subst. inversion F2; subst. cbn.
    rewrite (near_cmp _ _ _ _ R R2 C). auto.
  - inversion F as [|x y l1 l2 R F']; subst. inversion F'; subst. cbn. auto.
  - specialize (Q q eq_refl). subst ts'. cbn. apply array_spec in A. rewrite A. destruct QQ as [-> | ->]; auto.
  - specialize (Q q eq_refl). subst ts'. cbn. apply array_spec in A. rewrite A. destruct QQ as [-> | ->]; auto.
  - cbn. repeat split; auto. eapply near_all; eauto. apply num_not_string.
  - inversion F as [|x y l1 l2 R F']; subst. inversion F'; subst. cbn. rewrite (near_same _ _ R num_not_string). auto.
Qed.
Definition allP {A} (P : A -> Prop) := fix all (l : list A) : Prop := match l with [] => True | x :: r => P x /\ all r end.
Lemma allP_Forall {A} (P : A -> Prop) l : allP P l <-> Forall P l.
Proof. induction l; cbn; split; intros H; [constructor|exact I| |]. destruct H; constructor; tauto. inversion H; tauto. Qed.
Lemma not_array_sig d o ts T : opSig d o ts T -> ~ IsArray T.
Proof. destruct 1; intros H'; unfold IsArray in H'; dest_or; discriminate. Qed.

Lemma check_typed_mut :
  (forall d e T, hasType d e T -> noQueryOfVariable e ->
     exists t, check e d = Some t /\ near t T /\ (IsArray T -> (forall elt i, e <> XArr elt i) -> t = T)) /\
  (forall args ts, typesOf args ts -> Forall noQueryOfVariable args ->
     exists ts', allSome (map (fun a => check a UNKNOWN_TYPE) args) = Some ts' /\ Forall2 near ts' ts
       /\ (forall a, args = [a] -> (forall elt i, a <> XArr elt i) -> Forall IsArray ts -> ts' = ts)).
Proof.
  assert (Z0 : forall x, near x x) by (left; reflexivity).
  assert (Z1 : forall x, near UNKNOWN_TYPE x) by (right; left; reflexivity).
  apply hasType_typesOf_ind.
  - intros d t i A _. exists t. cbn. auto.
  - intros d t i A _. exists t. cbn. rewrite Z.eqb_refl. auto.
  - intros d elt t i A _. exists UNKNOWN_TYPE. cbn. split; [reflexivity|]. split; [apply Z1|]. intros _ H. exfalso. apply (H elt i). reflexivity.
  - intros d t i U _. exists t. cbn. auto.
  - intros d a idx elt t AO Ha IHa Hi IHi N. cbn in N. destruct N as [Na Ni].
    destruct (IHa Na) as (ta & Ea & _). destruct (IHi Ni) as (ti & Ei & _).
    assert (NA : IsArray elt -> False) by (destruct AO; intros X; unfold IsArray in X; dest_or; discriminate).
    cbn [check]. rewrite Ei. destruct a; try (rewrite Ea; exists UNKNOWN_TYPE; split; [reflexivity|split; [apply Z1|intros X; destruct (NA X)]]).
    inversion Ha; subst. destruct (ArrayOf_arrayOf _ _ AO) as (_ & _ & <-).
    match goal with H : ArrayOf _ _ |- _ => destruct (ArrayOf_arrayOf _ _ H) as (_ & _ & <-) end.
    exists (elementType t). repeat split; auto.
  - intros d o args ts T TS IH S N. cbn in N. destruct N as [NQ N].
    change (allP noQueryOfVariable args) in N. apply allP_Forall in N.
    destruct (IH N) as (ts' & E & F & X). cbn [check]. rewrite E.
    assert (L : length args = length ts').
    { rewrite (F2_len _ _ _ F). apply typesOf_F2 in TS. apply (F2_len _ _ _ TS). }
    destruct (sig_check d o ts T ts' S F) as (C1 & C2 & C3).
    { intros q ->. inversion S; subst; (inversion TS as [|a args' t' ts0 Ha Tr]; subst; inversion Tr; subst);
        (apply (X a); [reflexivity| |constructor; [assumption|constructor]]);
        intros elt i ->; cbn in NQ; exact NQ. }
    rewrite L, C1, C2. exists (valueTypeOf o ts' d). split; [reflexivity|]. split; [exact C3|].
    intros IA. destruct (not_array_sig _ _ _ _ S IA).
  - intros _. exists []. cbn. split; [reflexivity|split; [constructor|auto]].
  - intros a args t ts Ha IHa TS IH N. inversion N as [|x l Na Nr]; subst.
    destruct (IHa Na) as (t' & Et & Nt & X). destruct (IH Nr) as (ts' & E & F & Y).
    exists (t' :: ts'). cbn [map allSome]. rewrite Et, E. split; [reflexivity|]. split; [constructor; auto|].
    intros b Eb NX FA. injection Eb as -> ->. inversion FA; subst. inversion TS; subst. inversion F; subst.
    f_equal. auto.
Qed.
Lemma check_typed d e T : hasType d e T -> noQueryOfVariable e -> exists t, check e d = Some t.
Proof. intros H N. destruct (proj1 check_typed_mut _ _ _ H N) as (t & E & _). eauto. Qed.
Lemma load_typed d e T : hasType d e T -> noQueryOfVariable e -> exists c, load e d = Made c /\ cType c = T.
Proof.
  intros H N. unfold load. destruct (check_typed _ _ _ H N) as (t & ->). apply alloc_typed. exact H.
Qed.

(** ** Accepted expressions are well typed. *)
Lemma allSome_F2 {A} (l : list (option A)) r : allSome l = Some r -> Forall2 (fun o a => o = Some a) l r.
Proof.
  revert r. induction l as [|[a|] l IH]; cbn; intros r H; try discriminate.
  - injection H as <-. constructor.
  - destruct (allSome l) as [r'|]; [|discriminate]. injection H as <-. constructor; auto.
Qed.
Lemma allMade_F2 l r : allMade l = inl (Some r) -> Forall2 (fun m c => m = Made c) l r.
Proof.
  revert r. induction l as [|[c| |] l IH]; cbn; intros r H; try discriminate.
  - injection H as <-. constructor.
  - destruct (allMade l) as [[r'|]|]; try discriminate. injection H as <-. constructor; auto.
Qed.

Lemma allSame_def T ts : allSameOrUnknown T ts = true -> Forall (fun t => t <> UNKNOWN_TYPE) ts -> Forall (eq T) ts.
Proof.
  induction ts as [|t ts IH]; intros A F; [constructor|]. cbn in A. apply andb_true_iff in A as [A B]. inversion F; subst.
  constructor; [|apply IH; auto]. rewrite orb_true_iff, !Z.eqb_eq in A. destruct A; [auto|contradiction].
Qed.
Lemma nums_def ts : forallb numOrUnknown ts = true -> Forall (fun t => t <> UNKNOWN_TYPE) ts -> Forall Numeric ts.
Proof.
  induction ts as [|t ts IH]; intros A F; [constructor|]. cbn in A. apply andb_true_iff in A as [A B]. inversion F; subst.
  constructor; [|apply IH; auto]. unfold numOrUnknown in A. rewrite orb_true_iff, numeric_spec, Z.eqb_eq in A. destruct A; [auto|contradiction].
Qed.
Lemma canBeEqual_def ta tb : ta <> UNKNOWN_TYPE -> tb <> UNKNOWN_TYPE -> canBeEqual ta tb = true -> ta = tb \/ (Numeric ta /\ Numeric tb).
Proof.
  unfold canBeEqual. intros A B. destruct (Z.eqb_spec ta tb); auto.
  destruct (Z.eqb_spec ta UNKNOWN_TYPE); [contradiction|]. destruct (Z.eqb_spec tb UNKNOWN_TYPE); [contradiction|]. cbn [orb].
  rewrite andb_true_iff, !numeric_spec. auto.
Qed.
Lemma canBeCompared_def ta tb : ta <> UNKNOWN_TYPE -> tb <> UNKNOWN_TYPE -> canBeCompared ta tb = true ->
  (Numeric ta /\ Numeric tb) \/ (ta = STRING_TYPE /\ tb = STRING_TYPE).
Proof.
  unfold canBeCompared. intros A B.
  destruct (Z.eqb_spec ta UNKNOWN_TYPE); [contradiction|]. destruct (Z.eqb_spec tb UNKNOWN_TYPE); [contradiction|]. cbn [orb].
  destruct (isNumericType ta) eqn:N. { rewrite numeric_spec in *. auto. }
  destruct (Z.eqb_spec ta STRING_TYPE); [|discriminate]. rewrite Z.eqb_eq. auto.
Qed.
Lemma one_arg {A} (l : list A) : (length l =? 1)%nat = true -> exists a, l = [a].
Proof. rewrite Nat.eqb_eq. destruct l as [|a [|b l]]; cbn; intros; try discriminate. eauto. Qed.
Lemma two_args {A} (l : list A) : (length l =? 2)%nat = true -> exists a b, l = [a; b].
Proof. rewrite Nat.eqb_eq. destruct l as [|a [|b [|c l]]]; cbn; intros; try discriminate. eauto. Qed.
Lemma sig_sound d o ts :
  Forall (fun t => t <> UNKNOWN_TYPE) ts -> countOk o (length ts) = true -> typesOk o ts = true ->
  (match o with NArith IDiv => length ts = 2%nat | _ => True end) ->
  valueTypeOf o ts d <> UNKNOWN_TYPE /\
  forall p, getOperator o ts d = Some p -> operType p = valueTypeOf o ts d /\ opSig d o ts (operType p).
Proof.
  intros F C K D. destruct o as [b|a| | |c|n|c| |q| |]; cbn [countOk typesOk] in *.
  - split; [discriminate|]. intros p G. injection G as <-. split; [reflexivity|].
    pose proof (allSame_def _ _ K F) as S. destruct b; cbn; try (apply Sig_bool; [discriminate|exact S]).
    apply one_arg in C as [x ->]. inversion S; subst. constructor.
  - pose proof (nums_def _ K F) as N.
    assert (AR : arity a (length ts)).
    { destruct a; cbn; try (apply Nat.eqb_eq; exact C); try exact D; intros X; rewrite X in C; discriminate. }
    assert (NE := arity_nonempty _ _ AR).
    destruct (allInt_dec ts) as [I|X].
    + cbn [valueTypeOf]. rewrite (common_int ts d NE I). split; [discriminate|].
      cbn [getOperator]. rewrite (common_int ts d NE I). cbn. intros p G. injection G as <-. split; [reflexivity|].
      apply Sig_int; auto.
    + cbn [valueTypeOf]. rewrite (common_real ts d N X). split; [discriminate|].
      cbn [getOperator]. rewrite (common_real ts d N X). cbn. intros p G. injection G as <-. split; [reflexivity|].
      apply Sig_real; auto.
  - split; [discriminate|]. intros p G. injection G as <-. split; [reflexivity|].
    apply one_arg in C as [x ->]. inversion F; subst. cbn in K. unfold numOrUnknown in K. rewrite orb_true_iff, numeric_spec, Z.eqb_eq in K.
    constructor. destruct K; [auto|contradiction].
  - split; [discriminate|]. intros p G. injection G as <-. split; [reflexivity|].
    apply one_arg in C as [x ->]. inversion F; subst. cbn in K. unfold numOrUnknown in K. rewrite orb_true_iff, numeric_spec, Z.eqb_eq in K.
    constructor. destruct K; [auto|contradiction].
  - apply one_arg in C as [x ->]. inversion F as [|y l NZ _]; subst. cbn in K. unfold numOrUnknown in K. rewrite orb_true_iff, numeric_spec, Z.eqb_eq in K.
    destruct K as [N|]; [|contradiction]. cbn [valueTypeOf getOperator nth]. unfold conversionReturnType.
    destruct (Z.eqb_spec d INTEGER_TYPE) as [->|D1].
    { split; [discriminate|]. cbn. intros p G. injection G as <-. split; [reflexivity|]. apply Sig_conv_int; auto. }
    destruct (Z.eqb_spec d REAL_TYPE) as [->|D2].
    { split; [discriminate|]. cbn. intros p G. injection G as <-. split; [reflexivity|]. apply Sig_conv_real; auto. }
    destruct (Z.eqb_spec x UNKNOWN_TYPE); [contradiction|]. split; [auto|]. intros p G.
    destruct (Z.eqb_spec x INTEGER_TYPE) as [->|]; [|destruct (Z.eqb_spec x REAL_TYPE) as [->|]; [|discriminate]];
      injection G as <-; (split; [reflexivity|]).
    + apply Sig_conv_int; auto.
    + apply Sig_conv_real; auto.
  - split; [discriminate|]. intros p G. injection G as <-. split; [reflexivity|].
    apply two_args in C as (x & y & ->). inversion F as [|? ? N1 F']; subst. inversion F' as [|? ? N2 _]; subst.
    cbn in K. constructor. apply canBeEqual_def; auto.
  - apply two_args in C as (x & y & ->). inversion F as [|? ? N1 F']; subst. inversion F' as [|? ? N2 _]; subst.
    cbn in K. pose proof (canBeCompared_def _ _ N1 N2 K) as CC. split; [discriminate|]. intros p G.
    assert (S : opSig d (NCmp c) [x; y] BOOLEAN_TYPE) by (constructor; exact CC).
    cbn [getOperator] in G.
    repeat match type of G with (if ?b then _ else _) = _ => destruct b end; try discriminate; injection G as <-; split; auto.
  - split; [discriminate|]. intros p G. injection G as <-. split; [reflexivity|]. apply one_arg in C as [x ->]. constructor.
  - apply one_arg in C as [x ->]. cbn in K. apply array_spec in K.
    split; [destruct q; discriminate|]. intros p G. injection G as <-. split; [destruct q; reflexivity|].
    destruct q; cbn; [apply Sig_size|apply Sig_size|apply Sig_all|apply Sig_all]; auto.
  - split; [discriminate|]. intros p G. injection G as <-. split; [reflexivity|]. constructor. apply (allSame_def _ _ K F).
  - split; [discriminate|]. intros p G. injection G as <-. split; [reflexivity|]. apply one_arg in C as [x ->].
    pose proof (allSame_def _ _ K F) as S. inversion S; subst. constructor.
Qed.

Lemma load_sound e : definite e -> divBinary e -> forall d t, check e d = Some t ->
  t <> UNKNOWN_TYPE /\ forall c, alloc e d = Made c -> cType c = t /\ hasType d e t.
Proof.
  induction e as [t i|a b c i|elt i|t i|a idx IHa IHi|o args IH] using texp_ind'; intros D B d t' E.
  - cbn in D, E. injection E as <-. split; [apply AnyType_nonzero; exact D|]. intros c A. injection A as <-.
    split; [reflexivity|constructor; exact D].
  - cbn in D, E. destruct D as [-> D]. destruct (Z.eqb_spec a c); [|discriminate]. injection E as <-. subst.
    split; [apply AnyType_nonzero; exact D|]. cbn. rewrite Z.eqb_refl. intros c' A. injection A as <-.
    split; [reflexivity|constructor; exact D].
  - destruct D.
  - cbn in D, E. injection E as <-. pose proof (UserType_nonzero _ D) as NZ. split; [exact NZ|].
    cbn. destruct (Z.eqb_spec t UNKNOWN_TYPE); [contradiction|]. intros c A. injection A as <-.
    split; [reflexivity|constructor; exact D].
  - cbn [definite] in D. destruct a as [| |elt j| | |]; try contradiction. destruct D as [[t AO] D].
    cbn in B. destruct B as [_ B]. cbn [check] in E. destruct (check idx UNKNOWN_TYPE) as [ti|] eqn:Ei; [|discriminate].
    injection E as <-. destruct (IHi D B _ _ Ei) as [NZ IHc]. split; [destruct AO; discriminate|].
    destruct (ArrayOf_arrayOf _ _ AO) as (A1 & A2 & A3).
    intros c A. cbn in A. rewrite A1, A2 in A. cbn [orb] in A.
    destruct (alloc idx UNKNOWN_TYPE) as [ci| |] eqn:Ai; try discriminate.
    destruct (IHc ci eq_refl) as [T1 H1]. rewrite T1 in A.
    destruct (Z.eqb_spec ti INTEGER_TYPE) as [->|]; [|destruct (Z.eqb_spec ti UNKNOWN_TYPE); [contradiction|discriminate]].
    injection A as <-. cbn. rewrite A3. split; [reflexivity|]. econstructor; [exact AO| |exact H1]. constructor. exact AO.
  - cbn in D, B, E. destruct B as [BD B]. change (allP definite args) in D. change (allP divBinary args) in B.
    apply allP_Forall in D. apply allP_Forall in B.
    destruct (countOk o (length args)) eqn:CO; [|discriminate].
    destruct (allSome (map (fun a => check a UNKNOWN_TYPE) args)) as [ts|] eqn:TS; [|discriminate].
    destruct (typesOk o ts) eqn:OK; [|discriminate]. injection E as <-.
    apply allSome_F2 in TS.
    assert (LT : length args = length ts) by (rewrite <- (F2_len _ _ _ TS), map_length; reflexivity).
    assert (NZ : Forall (fun t => t <> UNKNOWN_TYPE) ts).
    { clear - IH TS D B. revert ts TS. induction IH as [|x l Px _ IHl]; intros ts TS; inversion TS; subst; [constructor|].
      inversion D as [|? ? D1 D2]; subst. inversion B as [|? ? B1 B2]; subst. constructor; [|apply IHl; auto]. apply (Px D1 B1 UNKNOWN_TYPE y). assumption. }
    destruct (sig_sound d o ts NZ) as [V SS].
    { rewrite <- LT. exact CO. }
    { exact OK. }
    { destruct o as [| [] | | | | | | | | | ]; auto. rewrite <- LT. exact BD. }
    split; [exact V|]. intros c A. cbn [alloc] in A.
    destruct (allMade (map (fun a => alloc a UNKNOWN_TYPE) args)) as [[cs|]|] eqn:CS; try discriminate.
    apply allMade_F2 in CS.
    assert (TT : map cType cs = ts /\ typesOf args ts).
    { clear - IH TS D B CS. revert ts cs TS CS. induction IH as [|x l Px _ IHl]; intros ts cs TS CS; inversion TS; subst; inversion CS; subst; [split; constructor|].
      inversion D as [|? ? D1 D2]; subst. inversion B as [|? ? B1 B2]; subst.
      destruct (Px D1 B1 UNKNOWN_TYPE y) as [_ W]; [assumption|]. destruct (W y0) as [W1 W2]; [assumption|].
      destruct (IHl D2 B2 l' l'0) as [I1 I2]; auto. cbn. rewrite W1, I1. split; [reflexivity|constructor; auto]. }
    destruct TT as [TT1 TT2]. rewrite TT1 in A.
    destruct (getOperator o ts d) as [p|] eqn:G; [|destruct (length cs <? 2)%nat; discriminate].
    injection A as <-. destruct (SS p eq_refl) as [S1 S2]. cbn. split; [exact S1|]. econstructor; [exact TT2|]. rewrite <- S1. exact S2.
Qed.
