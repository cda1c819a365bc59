(** Proofs for C69: expressions, commands, plans. *)
From Coq Require Import ZArith List Bool String Lia.
From Verif Require Import ValueModel OpModel TypeModel DeclModel DeclSpec DeclProofs.
Import ListNotations.
Open Scope string_scope.
Open Scope list_scope.
Open Scope Z_scope.

Section Ind.
  Variable P : expr -> Prop.
  Hypothesis Hs : forall s, P (EStr s).
  Hypothesis Ho : forall chk mk c kids, Forall (fun k => P (snd k)) kids -> P (EOp chk mk c kids).
  Hypothesis Hl : forall ch nm tol args, P nm -> (forall e, tol = Some e -> P e) -> (forall l, args = Some l -> Forall P l) -> P (ELookup ch nm tol args).
  Fixpoint expr_ind' (e : expr) : P e :=
    match e with
    | EStr s => Hs s
    | EOp chk mk c kids => Ho chk mk c kids ((fix go l := match l return Forall (fun k => P (snd k)) l with [] => Forall_nil _ | k :: r => Forall_cons k (expr_ind' (snd k)) (go r) end) kids)
    | ELookup ch nm tol args =>
        Hl ch nm tol args (expr_ind' nm)
          (match tol return forall e, tol = Some e -> P e with
           | Some x => fun e H => eq_ind x P (expr_ind' x) e (f_equal (fun o => match o with Some y => y | None => x end) H)
           | None => fun e H => False_ind _ (eq_ind None (fun o => match o with None => True | Some _ => False end) I _ H) end)
          (match args return forall l, args = Some l -> Forall P l with
           | Some x => fun l H => eq_ind x (Forall P) ((fix go l := match l return Forall P l with [] => Forall_nil _ | k :: r => Forall_cons k (expr_ind' k) (go r) end) x) l (f_equal (fun o => match o with Some y => y | None => x end) H)
           | None => fun l H => False_ind _ (eq_ind None (fun o => match o with None => True | Some _ => False end) I _ H) end)
    end.
End Ind.

Lemma allSome_iff {A} (l : list (option A)) ts : allSome l = Some ts <-> Forall2 (fun o t => o = Some t) l ts.
Proof.
  revert ts. induction l as [|o l IH]; intros ts; cbn [allSome].
  - split; [intros [= <-]; constructor|]. intros F; inversion F; reflexivity.
  - split.
    + destruct o as [a|]; [|discriminate]. destruct (allSome l) as [r|] eqn:E; [|discriminate]. intros [= <-]. constructor; [reflexivity|]. now apply IH.
    + intros F. inversion F as [|? t ? r E F']; subst. rewrite (proj2 (IH r) F'). reflexivity.
Qed.
Lemma allSome_map {A B} (f : A -> option B) l ts : allSome (map f l) = Some ts <-> Forall2 (fun a t => f a = Some t) l ts.
Proof.
  rewrite allSome_iff. revert ts. induction l as [|a l IH]; intros ts; cbn [map].
  - split; intros F; inversion F; constructor.
  - split; intros F; inversion F; subst; constructor; auto; now apply IH.
Qed.
Lemma Forall2_iff {A B} (R Q : A -> B -> Prop) l ts : Forall (fun a => forall t, R a t <-> Q a t) l -> Forall2 R l ts <-> Forall2 Q l ts.
Proof.
  intros F. revert ts. induction F as [|a l H F IH]; intros ts; split; intros G; inversion G; subst; constructor; try (now apply H); now apply IH.
Qed.
Lemma stringish_iff t : isStringish t = true <-> stringish t.
Proof. unfold isStringish, stringish, UNKNOWN_TYPE. rewrite orb_true_iff, !Z.eqb_eq. tauto. Qed.
Lemma numericish_iff t : numOrUnknown t = true <-> numericish t.
Proof.
  unfold numOrUnknown, numericish, isNumericType, UNKNOWN_TYPE, INTEGER_TYPE, REAL_TYPE, DATE_TYPE, DURATION_TYPE. cbn [In].
  rewrite !orb_true_iff, !Z.eqb_eq. intuition congruence.
Qed.
Lemma fits_iff p t : areTypesCompatible p t = true <-> fits p t.
Proof.
  unfold areTypesCompatible, UNKNOWN_TYPE. split.
  - destruct (Z.eqb_spec p 0) as [->|]; [constructor|]. destruct (Z.eqb_spec t 0) as [->|]; [constructor|]. destruct (Z.eqb_spec p t) as [->|]; [constructor|].
    destruct ((p =? DATE_TYPE) || (p =? DURATION_TYPE)) eqn:E.
    + rewrite orb_true_iff, !Z.eqb_eq in *. intros H. apply fits_time; cbn [In]; intuition congruence.
    + destruct (Z.eqb_spec p REAL_TYPE) as [->|].
      * rewrite !orb_true_iff, !Z.eqb_eq. intros H. apply fits_real; cbn [In]; intuition congruence.
      * destruct (Z.eqb_spec p ARRAY_TYPE) as [->|]; [|discriminate]. unfold isArrayType. intros H. apply fits_array. cbn [In]. unfold BOOLEAN_ARRAY_TYPE, INTEGER_ARRAY_TYPE, REAL_ARRAY_TYPE, STRING_ARRAY_TYPE, ARRAY_TYPE in *.
        rewrite ?orb_true_iff, ?andb_true_iff, ?Z.eqb_eq, ?Z.ltb_lt, ?Z.leb_le in H. lia.
  - intros H. inversion H; subst.
    + reflexivity.
    + destruct (p =? 0); reflexivity.
    + destruct (t =? 0); [reflexivity|]. now rewrite Z.eqb_refl.
    + cbn [In] in *. destruct H0 as [<-|[<-|[]]], H1 as [<-|[<-|[]]]; reflexivity.
    + cbn [In] in *. destruct H0 as [<-|[<-|[<-|[]]]]; reflexivity.
    + cbn [In] in *. destruct H0 as [<-|[<-|[<-|[<-|[]]]]]; reflexivity.
Qed.
Lemma parsOk_iff ps : forall ts, parsOk ps ts = true <-> forall i p t, nth_error ps i = Some p -> nth_error ts i = Some t -> fits p t.
Proof.
  induction ps as [|p ps IH]; intros ts; [split; [intros _ [|i]; discriminate|reflexivity]|].
  destruct ts as [|t ts]; [split; [intros _ [|i]; discriminate|reflexivity]|]. cbn [parsOk]. rewrite andb_true_iff, fits_iff, IH. split.
  - intros [A B] [|i] q u; cbn [nth_error]; [intros [= <-] [= <-]; exact A|]. apply B.
  - intros H. split; [apply (H O); reflexivity|]. intros i. apply (H (S i)).
Qed.
Lemma argsOk_iff s ts : argsOk s ts = true <-> conformsIf s ts.
Proof.
  unfold argsOk, conformsIf. destruct s as [s|]; [|split; [intros _ ? [=]|reflexivity]].
  unfold countOk. rewrite andb_true_iff, orb_true_iff, andb_true_iff, Nat.eqb_eq, Nat.ltb_lt, parsOk_iff. split.
  - intros H g [= <-]. exact H.
  - intros H. apply (H s eq_refl).
Qed.
Lemma lookSym_eq T n : obind n (lookSym (Some T)) = declaredLookup T n.
Proof. destruct n; reflexivity. Qed.
Lemma cmdSym_eq T n : obind n (cmdSym (Some T)) = declaredCommand T n.
Proof. destruct n; reflexivity. Qed.

Lemma check_iff T e : forall t, checkE (Some T) e = Some t <-> checked T e t.
Proof.
  induction e as [s|chk mk c kids IH|ch nm tol args IHn IHt IHa] using expr_ind'; intros t.
  - cbn [checkE]. split; [intros [= <-]; constructor|intros H; inversion H; reflexivity].
  - cbn [checkE]. assert (K := fun ts => Forall2_iff (fun k t => checkE (Some T) (snd k) = Some t) (fun k => checked T (snd k)) kids ts IH).
    split.
    + destruct (allSome _) as [ts|] eqn:E; [|discriminate]. cbn [obind]. intros M. apply allSome_map in E. econstructor; [apply K, E|exact M].
    + intros H. inversion H; subst. match goal with F : Forall2 _ kids ?ts |- _ => apply K in F; apply (proj2 (allSome_map (fun k => checkE (Some T) (snd k)) kids ts)) in F; rewrite F end. cbn [obind]. assumption.
  - cbn [checkE]. rewrite lookSym_eq. 
    assert (KA : forall l, args = Some l -> forall ts, allSome (map (checkE (Some T)) l) = Some ts <-> Forall2 (checked T) l ts).
    { intros l E ts. rewrite allSome_map. apply Forall2_iff. apply (IHa l E). }
    split.
    + destruct (checkE (Some T) nm) as [tn|] eqn:EN; [|discriminate]. cbn [obind]. destruct (isStringish tn) eqn:ES; [|discriminate].
      match goal with |- obind ?X _ = _ -> _ => destruct X as [[]|] eqn:ET; [|discriminate] end. cbn [obind]. intros H.
      assert (HT : forall e, tol = Some e -> ch = true /\ exists t, checked T e t /\ numericish t).
      { intros e ->. destruct ch; [|discriminate]. split; [reflexivity|]. destruct (checkE (Some T) e) as [u|] eqn:EU; [|discriminate]. cbn [obind] in ET. destruct (numOrUnknown u) eqn:N; [|discriminate].
        exists u. split; [now apply (IHt e eq_refl)|now apply numericish_iff]. }
      assert (HA : t = resultType (declaredLookup T (literal nm)) 0 /\ forall l, args = Some l -> exists ts, Forall2 (checked T) l ts /\ conformsIf (declaredLookup T (literal nm)) ts).
      { destruct args as [l|].
        - destruct (allSome (map (checkE (Some T)) l)) as [ts|] eqn:EA; [|discriminate]. cbn [obind] in H. destruct (argsOk _ ts) eqn:AO; [|discriminate]. assert (t = resultType (declaredLookup T (literal nm)) 0) by (unfold resultType, UNKNOWN_TYPE in *; congruence). split; [assumption|].
          intros l' [= <-]. exists ts. split; [now apply (KA l eq_refl)|now apply argsOk_iff].
        - split; [unfold resultType, UNKNOWN_TYPE in *; congruence|]. intros ? [=]. }
      destruct HA as [-> HA]. econstructor; [now apply IHn|now apply stringish_iff|exact HA|exact HT].
    + intros H. inversion H as [| |? ? tn ? ? Hn Hs HA HT]; subst. apply IHn in Hn. rewrite Hn. cbn [obind]. apply stringish_iff in Hs. rewrite Hs.
      match goal with |- obind ?X _ = _ => assert (X = Some tt) as -> end.
      { destruct tol as [e|]; [|reflexivity]. destruct (HT e eq_refl) as (-> & u & Cu & Nu). apply (IHt e eq_refl) in Cu. rewrite Cu. cbn [obind]. apply numericish_iff in Nu. now rewrite Nu. }
      cbn [obind]. unfold resultType, UNKNOWN_TYPE. destruct args as [l|]; [|reflexivity]. destruct (HA l eq_refl) as (ts & F & C). apply (KA l eq_refl) in F. rewrite F. cbn [obind]. apply argsOk_iff in C. now rewrite C.
Qed.
Lemma make_iff T e : forall d t, makeE (Some T) d e = Some t <-> typed T d e t.
Proof.
  induction e as [s|chk mk c kids IH|ch nm tol args IHn IHt IHa] using expr_ind'; intros d t.
  - cbn [makeE]. split; [intros [= <-]; constructor|intros H; inversion H; reflexivity].
  - cbn [makeE]. assert (K : forall ts, Forall2 (fun k t => makeE (Some T) (fst k) (snd k) = Some t) kids ts <-> Forall2 (fun k => typed T (fst k) (snd k)) kids ts).
    { intros ts. apply Forall2_iff. eapply Forall_impl; [|exact IH]. intros k Hk u. apply Hk. }
    split.
    + destruct (allSome _) as [ts|] eqn:E; [|discriminate]. cbn [obind]. intros M. apply allSome_map in E. econstructor; [apply K, E|exact M].
    + intros H. inversion H; subst. match goal with F : Forall2 _ kids ?ts |- _ => apply K in F; apply (proj2 (allSome_map (fun k => makeE (Some T) (fst k) (snd k)) kids ts)) in F; rewrite F end. cbn [obind]. assumption.
  - cbn [makeE]. rewrite lookSym_eq. 
    assert (KA : forall ts, match args with Some l => allSome (map (makeE (Some T) UNKNOWN_TYPE) l) | None => Some [] end = Some ts
       <-> Forall2 (typed T 0) (match args with Some l => l | None => [] end) ts).
    { intros ts. destruct args as [l|].
      - rewrite allSome_map. apply Forall2_iff. eapply Forall_impl; [|apply (IHa l eq_refl)]. intros a Ha u. apply Ha.
      - split; [intros [= <-]; constructor|intros F; inversion F; reflexivity]. }
    split.
    + destruct (makeE (Some T) UNKNOWN_TYPE nm) as [tn|] eqn:EN; [|discriminate]. cbn [obind]. destruct (isStringish tn) eqn:ES; [|discriminate].
      match goal with |- obind ?X _ = _ -> _ => destruct X as [ts|] eqn:EA; [|discriminate] end. cbn [obind]. destruct (argsOk _ ts) eqn:AO; [|discriminate]. intros H.
      assert (HT : t = resultType (declaredLookup T (constOf nm)) d /\ forall e, tol = Some e -> exists t, typed T 0 e t /\ numericish t).
      { destruct tol as [e|]; [|split; [unfold resultType, UNKNOWN_TYPE in *; congruence|intros ? [=]]].
        destruct (makeE (Some T) UNKNOWN_TYPE e) as [u|] eqn:EU; [|discriminate]. cbn [obind] in H. destruct (numOrUnknown u) eqn:N; [|discriminate].
        split; [unfold resultType, UNKNOWN_TYPE in *; congruence|]. intros e' [= <-]. exists u. split; [now apply (IHt e eq_refl)|now apply numericish_iff]. }
      destruct HT as [-> HT]. econstructor; [apply IHn; exact EN|apply stringish_iff; exact ES|now apply KA|now apply argsOk_iff|exact HT].
    + intros H. inversion H as [| |? ? ? tn ? ? ts Hn Hs HA HC HT]; subst. apply IHn in Hn. unfold UNKNOWN_TYPE in *. rewrite Hn. cbn [obind]. apply stringish_iff in Hs. rewrite Hs.
      apply KA in HA. rewrite HA. cbn [obind]. apply argsOk_iff in HC. rewrite HC. unfold resultType.
      destruct tol as [e|]; [|reflexivity]. destruct (HT e eq_refl) as (u & Cu & Nu). apply (IHt e eq_refl) in Cu. rewrite Cu. cbn [obind]. apply numericish_iff in Nu. now rewrite Nu.
Qed.
Lemma Forall2_has {A B} (R : A -> B -> Prop) l ts a : Forall2 R l ts -> In a l -> exists u, R a u.
Proof. intros F. induction F as [|x b l l' H F IHF]; [intros []|]. intros [<-|I]; eauto. Qed.
Lemma typed_sub T e0 : forall d e t, typed T d e t -> subexpr e0 e -> exists d' t', typed T d' e0 t'.
Proof.
  intros d e. revert d. induction e as [s|chk mk c kids IH|ch nm tol args IHn IHt IHa] using expr_ind'; intros d t H S0.
  - inversion S0; subst. eauto.
  - inversion S0 as [|? k ? ? ? ? I S1| | |]; subst; [eauto|]. inversion H as [|? ? ? ? ? ts ? F M|]; subst.
    destruct (Forall2_has _ _ _ _ F I) as [u Hu]. exact (proj1 (Forall_forall _ _) IH k I _ _ Hu S1).
  - inversion H as [| |? ? ? tn ? ? ts Hn Hs HA HC HT]; subst. inversion S0 as [| |? ? ? ? ? S1|? e' ? ? ? S1|? a l ? ? ? I S1]; subst; [eauto| | |].
    + exact (IHn _ _ Hn S1).
    + destruct (HT e' eq_refl) as (u & Cu & _). exact (IHt e' eq_refl _ _ Cu S1).
    + destruct (Forall2_has _ _ _ _ HA I) as [u Hu]. exact (proj1 (Forall_forall _ _) (IHa l eq_refl) a I _ _ Hu S1).
Qed.
