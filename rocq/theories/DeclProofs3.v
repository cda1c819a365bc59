(** Proofs for C69: commands and plans. *)
From Coq Require Import ZArith List Bool String Lia.
From Verif Require Import ValueModel OpModel TypeModel DeclModel DeclSpec DeclProofs DeclProofs2.
Import ListNotations.
Open Scope string_scope.
Open Scope list_scope.
Open Scope Z_scope.

Definition b2n (b : bool) : nat := if b then 1%nat else 0%nat.
Lemma fields_iff T l : forall n p, checkFields (Some T) (n, p) l = Some (true, true) <->
  (forall f e, In (f, e) l -> exists t, checked T e t /\ fieldChecked f t) /\
  (b2n n + countField FName l = 1)%nat /\ (b2n p + countField FPriority l = 1)%nat.
Proof.
  induction l as [|[f e] l IH]; intros n p.
  - cbn [checkFields]. unfold countField. cbn [filter length]. split.
    + intros [= -> ->]. split; [intros ? ? []|split; reflexivity].
    + intros (_ & A & B). destruct n, p; cbn [b2n] in *; try discriminate; reflexivity.
  - cbn [checkFields]. unfold checkField. cbn [snd fst].
    assert (CF : forall g, countField g ((f, e) :: l) = (b2n (isField g f) + countField g l)%nat).
    { intros g. unfold countField. cbn [filter fst]. destruct (isField g f); reflexivity. }
    rewrite !CF. split.
    + destruct (checkE (Some T) e) as [t|] eqn:E; [|discriminate]. apply check_iff in E. cbn [obind].
      assert (step : forall n' p', checkFields (Some T) (n', p') l = Some (true, true) -> fieldChecked f t ->
         (b2n n + b2n (isField FName f) = b2n n')%nat -> (b2n p + b2n (isField FPriority f) = b2n p')%nat -> 
         (forall f0 e0, In (f0, e0) ((f, e) :: l) -> exists t0, checked T e0 t0 /\ fieldChecked f0 t0) /\
         (b2n n + (b2n (isField FName f) + countField FName l) = 1)%nat /\ (b2n p + (b2n (isField FPriority f) + countField FPriority l) = 1)%nat).
      { intros n' p' H FC N P. apply IH in H. destruct H as (A & B & C). split; [|lia].
        intros f0 e0 [[= <- <-]|I]; [exists t; auto|auto]. }
      destruct f; cbn [isField b2n] in step.
      * destruct (negb n && isStringish t) eqn:K; [|discriminate]. apply andb_prop in K. destruct K as [K1 K2]. destruct n; [discriminate|]. cbn [obind]. intros H.
        apply (step true p H); [now apply stringish_iff|reflexivity|lia].
      * destruct (negb p && numOrUnknown t) eqn:K; [|discriminate]. apply andb_prop in K. destruct K as [K1 K2]. destruct p; [discriminate|]. cbn [obind]. intros H.
        apply (step n true H); [now apply numericish_iff|lia|reflexivity].
      * destruct (numOrUnknown t) eqn:K; [|discriminate]. cbn [obind]. intros H. apply (step n p H); [now apply numericish_iff|lia|lia].
      * destruct (areTypesCompatible BOOLEAN_TYPE t) eqn:K; [|discriminate]. cbn [obind]. intros H. apply (step n p H); [now apply fits_iff|lia|lia].
    + intros (A & B & C). destruct (A f e (or_introl eq_refl)) as (t & Ct & Ft). apply check_iff in Ct. rewrite Ct. cbn [obind].
      assert (A' : forall f0 e0, In (f0, e0) l -> exists t0, checked T e0 t0 /\ fieldChecked f0 t0) by (intros f0 e0 I; apply A; now right).
      destruct f; cbn [isField b2n fieldChecked] in *.
      * apply stringish_iff in Ft. rewrite Ft. destruct n; cbn [b2n] in B; [lia|]. cbn [negb andb obind]. apply IH. split; [exact A'|]. cbn [b2n]. lia.
      * apply numericish_iff in Ft. rewrite Ft. destruct p; cbn [b2n] in C; [lia|]. cbn [negb andb obind]. apply IH. split; [exact A'|]. cbn [b2n]. lia.
      * apply numericish_iff in Ft. rewrite Ft. cbn [obind]. apply IH. split; [exact A'|]. lia.
      * apply fits_iff in Ft. rewrite Ft. cbn [obind]. apply IH. split; [exact A'|]. lia.
Qed.
Lemma resource_iff T l : checkResource (Some T) l = true <->
  (forall f e, In (f, e) l -> exists t, checked T e t /\ fieldChecked f t) /\ countField FName l = 1%nat /\ countField FPriority l = 1%nat.
Proof.
  assert (H := fields_iff T l false false). cbn [b2n] in H. rewrite <- H. unfold checkResource.
  destruct (checkFields (Some T) (false, false) l) as [[[] []]|]; split; congruence.
Qed.
Lemma makeField_iff T f e : makeField (Some T) (f, e) = true <-> exists t, typed T 0 e t /\ fieldTyped f t.
Proof.
  unfold makeField. cbn [fst snd]. split.
  - destruct (makeE (Some T) UNKNOWN_TYPE e) as [t|] eqn:E; [|discriminate]. apply make_iff in E. intros H. exists t. split; [exact E|].
    destruct f; cbn [fieldTyped]; [now apply stringish_iff| |now apply numericish_iff|]; rewrite orb_true_iff, !Z.eqb_eq in H; exact H.
  - intros (t & E & H). apply make_iff in E. unfold UNKNOWN_TYPE in *. rewrite E.
    destruct f; cbn [fieldTyped] in H; [now apply stringish_iff| |now apply numericish_iff|]; rewrite orb_true_iff, !Z.eqb_eq; exact H.
Qed.
Lemma resName_in l n : (countField FName l <= 1)%nat -> resName l = Some n <-> In (FName, EStr n) l.
Proof.
  induction l as [|[f e] l IH]; intros C.
  - cbn [resName In]. split; [discriminate|tauto].
  - unfold countField in *. cbn [filter fst] in C. destruct f; cbn [isField resName] in *.
    + cbn [length] in C. split.
      * intros H. destruct e; try discriminate. cbn [literal] in H. left. congruence.
      * intros [H|H]; [inversion H; subst; reflexivity|]. exfalso.
        assert (I : In (FName, EStr n) (filter (fun x => isField FName (fst x)) l)) by (apply filter_In; split; [exact H|reflexivity]).
        destruct (filter _ l); [destruct I|cbn [length] in C; lia].
    + cbn [In]. rewrite (IH C). intuition congruence.
    + cbn [In]. rewrite (IH C). intuition congruence.
    + cbn [In]. rewrite (IH C). intuition congruence.
Qed.
Lemma distinct_iff rs : Forall (fun l => (countField FName l <= 1)%nat) rs -> resDistinct rs = true <->
  (forall i j x y n, nth_error rs i = Some x -> nth_error rs j = Some y -> In (FName, EStr n) x -> In (FName, EStr n) y -> i = j).
Proof.
  intros F. induction F as [|x rs Hx F IH].
  - split; [intros _ [|i]; discriminate|reflexivity].
  - cbn [resDistinct]. rewrite andb_true_iff, IH. clear IH. rewrite Forall_forall in F. split.
    + intros [A B] i j a b n Hi Hj Ia Ib.
      assert (K : forall m c, nth_error rs m = Some c -> In (FName, EStr n) x -> In (FName, EStr n) c -> False).
      { intros m c Hm I1 I2. apply (resName_in x n Hx) in I1. rewrite I1 in A. apply nth_error_In in Hm.
        apply (resName_in c n (F c Hm)) in I2. rewrite forallb_forall in A. specialize (A c Hm). rewrite I2, String.eqb_refl in A. discriminate. }
      destruct i, j; cbn [nth_error] in *; [reflexivity| | |f_equal; eauto].
      * inversion Hi; subst. exfalso; eauto.
      * inversion Hj; subst. exfalso; eauto.
    + intros H. split.
      * destruct (resName x) as [n|] eqn:E; [|reflexivity]. apply (resName_in x n Hx) in E. apply forallb_forall. intros y Hy.
        destruct (resName y) as [m|] eqn:E'; [|reflexivity]. apply (resName_in y m (F y Hy)) in E'. destruct (String.eqb_spec n m) as [->|]; [|reflexivity].
        destruct (In_nth_error _ _ Hy) as [j Hj]. discriminate (H O (S j) x y m eq_refl Hj E E').
      * intros i j a b n Hi Hj Ia Ib. assert (S i = S j) by (apply (H (S i) (S j) a b n); assumption). lia.
Qed.
Lemma resources_iff T rs : forallb (checkResource (Some T)) rs && resDistinct rs && forallb (forallb (makeField (Some T))) rs = true <-> resourcesOk T rs.
Proof.
  assert (M : forallb (forallb (makeField (Some T))) rs = true <-> forall l, In l rs -> forall f e, In (f, e) l -> exists t, typed T 0 e t /\ fieldTyped f t).
  { rewrite forallb_forall. split.
    - intros H l Hl f e I. specialize (H l Hl). rewrite forallb_forall in H. apply makeField_iff, (H _ I).
    - intros H l Hl. apply forallb_forall. intros [f e] I. apply makeField_iff. exact (H l Hl f e I). }
  rewrite !andb_true_iff, M. unfold resourcesOk. rewrite Forall_forall. split.
  - intros [[A B] C]. assert (A' := A). rewrite forallb_forall in A'. split.
    + intros l Hl. specialize (A' l Hl). apply resource_iff in A'. destruct A' as (A1 & A2 & A3). split; [exact A2|split; [exact A3|]]. intros f e I. split; [exact (A1 f e I)|exact (C l Hl f e I)].
    + apply distinct_iff; [|exact B]. apply Forall_forall. intros l Hl. specialize (A' l Hl). apply resource_iff in A'. lia.
  - intros [A B]. split; [split|].
    + apply forallb_forall. intros l Hl. apply resource_iff. destruct (A l Hl) as (A2 & A3 & A1). split; [|auto]. intros f e I. apply (A1 f e I).
    + apply distinct_iff; [|exact B]. apply Forall_forall. intros l Hl. destruct (A l Hl) as (A2 & _). lia.
    + intros l Hl f e I. destruct (A l Hl) as (A2 & A3 & A1). apply (A1 f e I).
Qed.
Lemma stringCompat_iff t : areTypesCompatible STRING_TYPE t = true <-> stringish t.
Proof.
  rewrite fits_iff. unfold stringish. split.
  - intros H. inversion H; subst; auto; cbn [In] in *; unfold DATE_TYPE, DURATION_TYPE, STRING_TYPE in *; lia.
  - intros [-> | ->]; constructor.
Qed.
Lemma some_iff {A} (o : option A) : (if o then true else false) = true <-> exists a, o = Some a.
Proof. destruct o; split; intros H; try discriminate; [eauto|reflexivity|destruct H; discriminate]. Qed.
Lemma checkArgs_iff T l : forallb (fun e => match checkE (Some T) e with Some _ => true | None => false end) l = true <-> exists ts, Forall2 (checked T) l ts.
Proof.
  rewrite forallb_forall. induction l as [|e l IH].
  - split; [intros _; exists []; constructor|intros _ ? []].
  - split.
    + intros H. destruct (checkE (Some T) e) as [t|] eqn:E; [|specialize (H e (or_introl eq_refl)); rewrite E in H; discriminate].
      apply check_iff in E. destruct (proj1 IH (fun x I => H x (or_intror I))) as [ts F]. exists (t :: ts). constructor; assumption.
    + intros [ts F]. inversion F as [|? t ? r Ht F']; subst. intros x [<-|I]; [apply check_iff in Ht; now rewrite Ht|]. apply (proj2 IH (ex_intro _ r F') x I).
Qed.
Lemma makeArgs_iff T l ts : allSome (map (makeE (Some T) UNKNOWN_TYPE) l) = Some ts <-> Forall2 (typed T 0) l ts.
Proof. rewrite allSome_map. apply Forall2_iff. apply Forall_forall. intros e _ t. apply make_iff. Qed.
Lemma command_iff T c : checkCommand (Some T) c = true /\ makeCommand (Some T) c = true <-> commandOk T c.
Proof.
  destruct c as [rs dest nm args]. unfold checkCommand, makeCommand, commandOk. cbn [c_res c_dest c_name c_args].
  rewrite !cmdSym_eq.
  rewrite !andb_true_iff. split.
  - intros (((((R & D1) & N1) & S1) & A1) & (R2 & D2) & N2).
    destruct (checkE (Some T) nm) as [t1|] eqn:E1; [|discriminate]. apply check_iff in E1. apply stringCompat_iff in N1.
    destruct (makeE (Some T) UNKNOWN_TYPE nm) as [t2|] eqn:E2; [|discriminate]. apply make_iff in E2. apply andb_prop in N2. destruct N2 as [N2 N3]. apply stringish_iff in N2.
    rewrite ?cmdSym_eq in N3. apply andb_prop in N3. destruct N3 as [N3 N4].
    split; [|split; [|split; [|split]]].
    + intros rs' ->. apply resources_iff. rewrite !andb_true_iff. apply andb_prop in R. destruct R as [Ra Rb]. split; [split; [exact Ra|exact Rb]|exact R2].
    + exists t1. auto.
    + intros v ->. destruct v as [[v1|] [v2|]]; try discriminate. exists v1, v2. split; [reflexivity|]. intros s Hs. rewrite Hs in S1. apply fits_iff. exact S1.
    + intros l ->. now apply checkArgs_iff.
    + exists t2. split; [exact E2|]. split; [exact N2|]. cbv zeta. split.
      * intros v1 v2 g -> Hg. rewrite Hg in N3. apply fits_iff. exact N3.
      * intros l ->. destruct (allSome _) as [ts|] eqn:EA; [|discriminate]. apply makeArgs_iff in EA. exists ts. split; [exact EA|]. apply argsOk_iff. exact N4.
  - intros (R & (t1 & E1 & N1) & D & A & t2 & E2 & N2 & S2 & A2). apply check_iff in E1. rewrite E1. apply make_iff in E2. change 0 with UNKNOWN_TYPE in E2. rewrite E2, ?cmdSym_eq.
    apply stringCompat_iff in N1. apply stringish_iff in N2. rewrite N1, N2.
    assert (RR : match rs with Some rs0 => forallb (checkResource (Some T)) rs0 && resDistinct rs0 | None => true end = true /\
                 match rs with Some rs0 => forallb (forallb (makeField (Some T))) rs0 | None => true end = true).
    { destruct rs as [rs|]; [|split; reflexivity]. specialize (R rs eq_refl). apply resources_iff in R. rewrite !andb_true_iff in *. tauto. }
    destruct RR as [R1 R2].
    assert (DD : match dest with Some (None, _) => false | _ => true end = true /\ match dest with Some (_, None) => false | _ => true end = true /\
      match declaredCommand T (literal nm), dest with Some s, Some (Some v, _) => areTypesCompatible v (s_ret s) | _, _ => true end = true).
    { destruct dest as [v|]; [|repeat split; destruct (declaredCommand T (literal nm)); reflexivity]. destruct (D v eq_refl) as (v1 & v2 & -> & F).
      split; [reflexivity|split; [reflexivity|]]. destruct (declaredCommand T (literal nm)); [|reflexivity]. apply fits_iff, F, eq_refl. }
    destruct DD as (D1 & D2 & D3).
    split; [split; [split; [split; [split|]|]|]|split; [split|]]; auto.
    + destruct args as [l|]; [|reflexivity]. apply checkArgs_iff, (A l eq_refl).
    + cbn [andb]. apply andb_true_iff. split.
      * match goal with |- match ?X with _ => _ end = true => destruct X as [g|] eqn:EG end; [|destruct dest as [[? []]|]; reflexivity].
        destruct dest as [[v1 [v2|]]|]; try reflexivity. apply fits_iff, (S2 v1 v2 g eq_refl), eq_refl.
      * destruct args as [l|]; [|reflexivity]. destruct (A2 l eq_refl) as (ts & F & C). apply makeArgs_iff in F. rewrite F. apply argsOk_iff, C.
Qed.
