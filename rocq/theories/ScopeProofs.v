(** Proofs about name resolution. *)
From Coq Require Import Arith List Bool Lia.
From Verif Require Import ScopeModel ScopeSpec.
Import ListNotations.

Lemma sty_eqb_ok : forall a b, sty_eqb a b = true <-> a = b.
Proof. intros [] []; cbn; split; congruence. Qed.
Lemma vty_eqb_ok : forall a b, vty_eqb a b = true <-> a = b.
Proof.
  intros [|a|a] [|b|b]; cbn; try rewrite sty_eqb_ok; split; congruence.
Qed.

(** ** Maps *)
Definition outOf (up : list rlvl) (x : nat) : option ent :=
  match childMap up with Some m => nvmFind m x | None => None end.
Lemma fv_some : forall r up m x, r_map r = Some m ->
  findVariable (r :: up) x = match mget m x with Some e => Some e | None => outOf up x end.
Proof.
  intros r up m x H. unfold findVariable, ownMap, outOf, childMap. cbn [maps].
  destruct (maps up) as [[o c] f]. cbn [fst snd]. rewrite H. cbn [nvmFind].
  destruct (mget m x); [reflexivity|]. destruct c as [l|]; reflexivity.
Qed.
Lemma fv_none : forall r up x, r_map r = None -> findVariable (r :: up) x = outOf up x.
Proof.
  intros r up x H. unfold findVariable, ownMap, outOf, childMap. cbn [maps].
  destruct (maps up) as [[o c] f]. cbn [fst snd]. rewrite H. reflexivity.
Qed.
Lemma fv_head : forall r r' up x, r_map r = r_map r' -> findVariable (r :: up) x = findVariable (r' :: up) x.
Proof.
  intros r r' up x H. destruct (r_map r') as [m|] eqn:E.
  - rewrite (fv_some _ _ m), (fv_some _ _ m) by congruence. reflexivity.
  - rewrite !fv_none by congruence. reflexivity.
Qed.
Lemma out_alias : forall r up a x, r_alias r = Some a -> outOf (r :: up) x = mget a x.
Proof.
  intros r up a x H. unfold outOf, childMap. cbn [maps]. destruct (maps up) as [[o c] f]. cbn [fst snd].
  rewrite H. cbn. destruct (mget a x); reflexivity.
Qed.
Lemma out_map : forall r up m x, r_alias r = None -> r_map r = Some m -> outOf (r :: up) x = findVariable (r :: up) x.
Proof.
  intros r up m x H1 H2. rewrite (fv_some _ _ _ _ H2). unfold outOf, childMap. cbn [maps].
  destruct (maps up) as [[o c] f]. cbn [fst snd].
  rewrite H1, H2. cbn [nvmFind]. destruct (mget m x); [reflexivity|]. destruct c; reflexivity.
Qed.
(** A list without a map gives its children the nearest map above it, which is what a plain list above it gives. *)
Lemma out_skip : forall r p up x, r_alias r = None -> r_map r = None -> r_alias p = None ->
  outOf (r :: p :: up) x = outOf (p :: up) x.
Proof.
  intros r p up x H1 H2 H3. unfold outOf, childMap. cbn [maps].
  destruct (maps up) as [[o c] f]. cbn [fst snd]. rewrite H1, H2, H3. reflexivity.
Qed.
Lemma out_root : forall r x, r_alias r = None -> r_map r = None -> outOf [r] x = None.
Proof. intros r x H1 H2. unfold outOf, childMap. cbn. rewrite H1, H2. reflexivity. Qed.

(** ** One node *)
Lemma nodupb_ok : forall l, nodupb l = true -> NoDup l.
Proof.
  induction l as [|x l IH]; intros H; [constructor|]. cbn [nodupb] in H. apply andb_true_iff in H. destruct H as [H1 H2].
  constructor; [|auto]. intros Hin. apply negb_true_iff in H1.
  assert (C : existsb (Nat.eqb x) l = true) by (apply existsb_exists; exists x; split; [exact Hin|apply Nat.eqb_refl]).
  congruence.
Qed.
Lemma mget_map : forall (f : nat -> vty -> ent) vs x,
  mget (map (fun v => (fst v, f (fst v) (snd v))) vs) x = match mget vs x with Some t => Some (f x t) | None => None end.
Proof.
  intros f vs x. induction vs as [|[y t] vs IH]; [reflexivity|]. cbn [map mget fst snd].
  destruct (x =? y) eqn:E; [apply Nat.eqb_eq in E; subst; reflexivity|exact IH].
Qed.
Lemma mget_not_in : forall A (m : list (nat * A)) x, ~ In x (map fst m) -> mget m x = None.
Proof.
  intros A m x. induction m as [|[y e] m IH]; intros H; [reflexivity|]. cbn [mget map fst In] in *.
  destruct (x =? y) eqn:E; [apply Nat.eqb_eq in E; subst; elim H; auto|]. apply IH. intros C; apply H; auto.
Qed.
Lemma mget_in : forall A (m : list (nat * A)) x e, mget m x = Some e -> In x (map fst m).
Proof.
  intros A m x e. induction m as [|[y e'] m IH]; [discriminate|]. cbn [mget map fst In].
  destruct (x =? y) eqn:E; [apply Nat.eqb_eq in E; subst; auto|]. intros H; right; auto.
Qed.
Definition findParam (is : list idecl) (x : nat) : option idecl := find (fun i => i_name i =? x) is.
Lemma findParam_none : forall is x, ~ In x (map i_name is) -> findParam is x = None.
Proof.
  intros is x. induction is as [|i is IH]; intros H; [reflexivity|]. unfold findParam in *. cbn [find map In] in *.
  destruct (i_name i =? x) eqn:E; [apply Nat.eqb_eq in E; elim H; auto|]. apply IH. intros C; apply H; auto.
Qed.
Lemma findParam_in : forall is i, NoDup (map i_name is) -> In i is -> findParam is (i_name i) = Some i.
Proof.
  intros is i. induction is as [|j is IH]; intros ND HI; [contradiction|]. unfold findParam in *. cbn [find map] in *.
  inversion ND; subst. destruct HI as [->|HI].
  - rewrite Nat.eqb_refl. reflexivity.
  - destruct (i_name j =? i_name i) eqn:E; [|auto]. apply Nat.eqb_eq in E. elim H1. rewrite E. apply in_map. exact HI.
Qed.
(** The entry made for a parameter, given what its name means outside; and when it is accepted. *)
Definition entryFor (d : nat) (o : option ent) (i : idecl) : option ent :=
  match o, i_out i with
  | Some e, false => if assignable e then Some (EView d (i_name i) e) else None
  | None, false => match i_def i with Some t => Some (EDef d (i_name i) t) | None => None end
  | Some _, true => None
  | None, true => Some (EVar d (i_name i) (objTy (i_ty i)))
  end.
Definition paramOk (o : option ent) (i : idecl) : Prop :=
  match o with
  | Some e => i_ty i = entTy e /\ (i_out i = true -> assignable e = true)
  | None => i_def i <> None /\ (i_out i = true -> isAr (i_ty i) = false)
  end.
Lemma linkVar_ok : forall up d r m i r', r_map r = Some m -> mget m (i_name i) = None ->
  linkVar up d r i = Some r' ->
  paramOk (outOf up (i_name i)) i
  /\ r_alias r' = r_alias r
  /\ exists m', r_map r' = Some m' /\ forall x, mget m' x = if x =? i_name i then entryFor d (outOf up (i_name i)) i else mget m x.
Proof.
  intros up d r m i r' HM HN HL. unfold linkVar in HL. rewrite (fv_some _ _ _ _ HM), HN in HL.
  assert (NE : forall x, mget m x = if x =? i_name i then None else mget m x).
  { intros x. destruct (x =? i_name i) eqn:E; [apply Nat.eqb_eq in E; subst; exact HN|reflexivity]. }
  assert (AD : forall e, addLocal r (i_name i) e = Some (mkR (Some ((i_name i, e) :: m)) (r_alias r))).
  { intros e. unfold addLocal. rewrite HM, HN. reflexivity. }
  unfold paramOk, entryFor.
  destruct (outOf up (i_name i)) as [e|] eqn:EO; destruct (i_out i) eqn:EI.
  - destruct (vty_eqb (i_ty i) (entTy e)) eqn:ET; [|discriminate]. apply vty_eqb_ok in ET.
    destruct (assignable e) eqn:EA; [|discriminate]. cbn in HL. injection HL as <-.
    split; [split; auto|]. split; [reflexivity|]. exists m. split; [exact HM|exact NE].
  - destruct (vty_eqb (i_ty i) (entTy e)) eqn:ET; [|discriminate]. apply vty_eqb_ok in ET.
    destruct (assignable e) eqn:EA.
    + rewrite AD in HL. injection HL as <-. split; [split; [exact ET|discriminate]|]. split; [reflexivity|].
      eexists. split; [reflexivity|]. intros x. reflexivity.
    + injection HL as <-. split; [split; [exact ET|discriminate]|]. split; [reflexivity|]. exists m. split; [exact HM|exact NE].
  - destruct (i_def i) as [t|] eqn:ED; [|discriminate]. destruct (isAr (i_ty i)) eqn:EA; [discriminate|].
    rewrite AD in HL. injection HL as <-. split; [split; [discriminate|auto]|]. split; [reflexivity|].
    eexists. split; [reflexivity|]. intros x. reflexivity.
  - destruct (i_def i) as [t|] eqn:ED; [|discriminate]. rewrite AD in HL. injection HL as <-.
    split; [split; [discriminate|discriminate]|]. split; [reflexivity|].
    eexists. split; [reflexivity|]. intros x. reflexivity.
Qed.
Lemma linkVars_ok : forall up d is r m r', r_map r = Some m -> NoDup (map i_name is) ->
  (forall i, In i is -> mget m (i_name i) = None) ->
  linkVars up d r is = Some r' ->
  (forall i, In i is -> paramOk (outOf up (i_name i)) i)
  /\ r_alias r' = r_alias r
  /\ exists m', r_map r' = Some m' /\ forall x, mget m' x = match findParam is x with Some i => entryFor d (outOf up x) i | None => mget m x end.
Proof.
  intros up d is. induction is as [|i is IH]; intros r m r' HM ND HN HL.
  - cbn in HL. injection HL as <-. split; [intros i []|]. split; [reflexivity|]. exists m. split; [exact HM|reflexivity].
  - cbn [linkVars] in HL. destruct (linkVar up d r i) as [r1|] eqn:E1; [|discriminate].
    destruct (linkVar_ok _ _ _ _ _ _ HM (HN i (or_introl eq_refl)) E1) as (P1 & A1 & m1 & M1 & G1).
    cbn [map] in ND. inversion ND; subst.
    assert (HN1 : forall j, In j is -> mget m1 (i_name j) = None).
    { intros j Hj. rewrite G1. destruct (i_name j =? i_name i) eqn:E.
      - apply Nat.eqb_eq in E. elim H1. rewrite <- E. apply in_map. exact Hj.
      - apply HN. right; exact Hj. }
    destruct (IH r1 m1 r' M1 H2 HN1 HL) as (P2 & A2 & m2 & M2 & G2).
    split; [intros j [<-|Hj]; auto|]. split; [congruence|]. exists m2. split; [exact M2|].
    intros x. rewrite G2. unfold findParam. cbn [find].
    destruct (i_name i =? x) eqn:E.
    + apply Nat.eqb_eq in E. subst x. change (find (fun j => i_name j =? i_name i) is) with (findParam is (i_name i)).
      rewrite findParam_none by exact H1. rewrite G1, Nat.eqb_refl. reflexivity.
    + change (find (fun j => i_name j =? x) is) with (findParam is x).
      destruct (findParam is x); [reflexivity|]. rewrite G1. rewrite Nat.eqb_sym, E. reflexivity.
Qed.
Lemma NoDup_app_l : forall A (l l' : list A), NoDup (l ++ l') -> NoDup l /\ NoDup l' /\ forall x, In x l -> ~ In x l'.
Proof.
  intros A l. induction l as [|a l IH]; intros l' H; cbn in *.
  - split; [constructor|]. split; [exact H|]. intros x [].
  - inversion H; subst. destruct (IH l' H3) as (A1 & A2 & A3). split; [|split; [exact A2|]].
    + constructor; [|exact A1]. intros C; apply H2. apply in_or_app; auto.
    + intros x [<-|Hx]; [|auto]. intros C; apply H2. apply in_or_app; auto.
Qed.
Lemma makeAliases_ok : forall rs d al a, makeAliases rs d al = Some a ->
  forall x, mget a x = match mget al x with
                       | Some (AVar y) => findVariable rs y
                       | Some (AOther t) => Some (EArg d x t)
                       | None => None
                       end.
Proof.
  intros rs d al. induction al as [|[z b] al IH]; intros a H x.
  - cbn in H. injection H as <-. reflexivity.
  - cbn [makeAliases] in H.
    destruct (match b with AVar y => findVariable rs y | AOther t => Some (EArg d z t) end) as [e|] eqn:E1; [|discriminate].
    destruct (makeAliases rs d al) as [m|] eqn:E2; [|discriminate]. injection H as <-. cbn [mget].
    destruct (x =? z) eqn:E; [apply Nat.eqb_eq in E; subst|apply IH; reflexivity].
    destruct b; symmetry; exact E1.
Qed.
(** The node as built: what its own map holds, and what it gives its children. *)
Record nodeFacts (up : list rlvl) (d : nat) (n : lvl) (r : rlvl) : Prop := mkNF {
  nf_alias : r_alias r = None <-> l_call n = None;
  nf_map : r_map r = None <-> hasMap n = false;
  nf_names : NoDup (map i_name (l_if n) ++ map fst (l_vars n) ++ l_mtx n);
  nf_params : forall i, In i (l_if n) -> paramOk (outOf up (i_name i)) i;
  nf_defs : forall i t, In i (l_if n) -> i_def i = Some t -> defOk (i_ty i) t = true;
  nf_find : forall x, findVariable (r :: up) x =
    match declaredVar n x, declaredParam n x with
    | Some t, _ => Some (EVar d x (objTy t))
    | None, Some i => match entryFor d (outOf up x) i with Some e => Some e | None => outOf up x end
    | None, None => outOf up x
    end;
  nf_args : forall c x, l_call n = Some c -> outOf (r :: up) x =
    match mget (c_args c) x with
    | Some (AVar y) => findVariable (r :: up) y
    | Some (AOther t) => Some (EArg d x t)
    | None => None
    end
}.
Lemma buildLvl_ok : forall up d n r, buildLvl up d n = Some r -> nodeFacts up d n r.
Proof.
  intros up d n r H. unfold buildLvl in H.
  destruct (namesOk n && argsOk n && defsOk n) eqn:EC; [|discriminate].
  apply andb_true_iff in EC. destruct EC as [EC EC3]. apply andb_true_iff in EC. destruct EC as [EC1 EC2].
  set (locals := map (fun v => (fst v, EVar d (fst v) (objTy (snd v)))) (l_vars n)) in H.
  set (r0 := mkR (if hasMap n then Some locals else None) (match l_call n with Some _ => Some [] | None => None end)) in H.
  destruct (linkVars up d r0 (l_if n)) as [r1|] eqn:EL; [|discriminate].
  apply nodupb_ok in EC1. destruct (NoDup_app_l _ _ _ EC1) as (ND1 & ND2 & ND3).
  assert (GL : forall x, mget locals x = match mget (l_vars n) x with Some t => Some (EVar d x (objTy t)) | None => None end).
  { intros x. unfold locals. apply (mget_map (fun y t => EVar d y (objTy t))). }
  assert (F1 : (forall i, In i (l_if n) -> paramOk (outOf up (i_name i)) i)
    /\ r_alias r1 = r_alias r0
    /\ (r_map r1 = None <-> hasMap n = false)
    /\ forall x, findVariable (r1 :: up) x =
      match declaredVar n x, declaredParam n x with
      | Some t, _ => Some (EVar d x (objTy t))
      | None, Some i => match entryFor d (outOf up x) i with Some e => Some e | None => outOf up x end
      | None, None => outOf up x
      end).
  { destruct (hasMap n) eqn:EM.
    - destruct (linkVars_ok up d (l_if n) r0 locals r1 eq_refl ND1) as (P1 & A1 & m1 & M1 & G1); [|exact EL|].
      { intros i Hi. rewrite GL. rewrite mget_not_in; [reflexivity|]. intros C.
        apply (ND3 (i_name i)); [apply in_map; exact Hi|]. apply in_or_app. left. exact C. }
      split; [exact P1|]. split; [exact A1|]. split; [rewrite M1; split; discriminate|].
      intros x. rewrite (fv_some _ _ _ _ M1). rewrite G1. unfold declaredVar, declaredParam.
      change (find (fun i => i_name i =? x) (l_if n)) with (findParam (l_if n) x).
      destruct (mget (l_vars n) x) as [t|] eqn:EV.
      + rewrite findParam_none.
        * rewrite GL, EV. reflexivity.
        * intros C. apply (ND3 x C). apply in_or_app. left. eapply mget_in; eauto.
      + destruct (findParam (l_if n) x) as [i|] eqn:EP; [reflexivity|]. rewrite GL, EV. reflexivity.
    - unfold hasMap in EM. destruct (l_vars n) as [|v vs] eqn:EV; [|discriminate]. destruct (l_if n) as [|i is] eqn:EI; [|discriminate].
      cbn [linkVars] in EL. injection EL as <-. split; [intros i []|]. split; [reflexivity|].
      assert (RN : r_map r0 = None) by reflexivity.
      split; [rewrite RN; tauto|]. intros x. rewrite fv_none by exact RN.
      unfold declaredVar, declaredParam. rewrite EV, EI. reflexivity. }
  destruct F1 as (P1 & A1 & M1 & G1).
  assert (DF : forall i t, In i (l_if n) -> i_def i = Some t -> defOk (i_ty i) t = true).
  { intros i t Hi Hd. unfold defsOk in EC3. rewrite forallb_forall in EC3. specialize (EC3 i Hi). rewrite Hd in EC3. exact EC3. }
  destruct (l_call n) as [c|] eqn:ECall.
  - destruct (makeAliases (r1 :: up) d (c_args c)) as [a|] eqn:EA; [|discriminate]. injection H as <-.
    assert (HF : forall x, findVariable (mkR (r_map r1) (Some a) :: up) x = findVariable (r1 :: up) x) by (intros x; apply fv_head; reflexivity).
    split; try assumption.
    + split; discriminate || (intros; congruence).
    + intros x. rewrite HF. apply G1.
    + intros c' x E. rewrite ECall in E. injection E as <-. rewrite (out_alias _ _ a) by reflexivity. rewrite (makeAliases_ok _ _ _ _ EA).
      destruct (mget (c_args c) x) as [[y|t]|]; [rewrite HF; reflexivity|reflexivity|reflexivity].
  - injection H as <-. split; try assumption.
    + rewrite A1. split; [intros _; exact ECall|reflexivity].
    + intros c x E. congruence.
Qed.

(** ** Ancestors *)
Lemma build_length : forall ns rs, build ns = Some rs -> length rs = length ns.
Proof.
  induction ns as [|n up IH]; intros rs H; cbn [build] in H; [injection H as <-; reflexivity|].
  destruct (build up) as [rup|] eqn:E; [|discriminate]. destruct (buildLvl rup (length up) n); [|discriminate].
  injection H as <-. cbn. f_equal. auto.
Qed.
Lemma build_cons : forall n up rs, build (n :: up) = Some rs ->
  exists r rup, rs = r :: rup /\ build up = Some rup /\ nodeFacts rup (length up) n r.
Proof.
  intros n up rs H. cbn [build] in H. destruct (build up) as [rup|] eqn:E; [|discriminate].
  destruct (buildLvl rup (length up) n) as [r|] eqn:E2; [|discriminate]. injection H as <-.
  exists r, rup. split; [reflexivity|]. split; [reflexivity|]. apply buildLvl_ok. exact E2.
Qed.
Lemma denote_cons : forall n up x, denote (n :: up) x =
  match declaredVar n x, declaredParam n x with
  | Some t, _ => Some (EVar (length up) x (objTy t))
  | None, Some i =>
    match surrounding up x, i_out i with
    | Some e, true => Some e
    | Some e, false => if assignable e then Some (EView (length up) x e) else Some e
    | None, true => Some (EVar (length up) x (objTy (i_ty i)))
    | None, false => match i_def i with Some t => Some (EDef (length up) x t) | None => None end
    end
  | None, None => surrounding up x
  end.
Proof. intros n up x. reflexivity. Qed.
Lemma declaredParam_name : forall n x i, declaredParam n x = Some i -> i_name i = x /\ In i (l_if n).
Proof.
  intros n x i H. unfold declaredParam in H. apply find_some in H. destruct H as [H1 H2]. apply Nat.eqb_eq in H2. auto.
Qed.
Lemma node_denote : forall n up rup r, nodeFacts rup (length up) n r ->
  (forall x, outOf rup x = surrounding up x) ->
  forall x, findVariable (r :: rup) x = denote (n :: up) x.
Proof.
  intros n up rup r NF HO x. rewrite (nf_find _ _ _ _ NF), denote_cons.
  destruct (declaredVar n x) as [t|]; [reflexivity|].
  destruct (declaredParam n x) as [i|] eqn:EP; [|apply HO].
  destruct (declaredParam_name _ _ _ EP) as [EN HI]. rewrite HO. unfold entryFor. rewrite EN.
  destruct (surrounding up x) as [e|]; destruct (i_out i); try reflexivity.
  - destruct (assignable e); reflexivity.
  - destruct (i_def i); reflexivity.
Qed.
Lemma hasMap_decl : forall n, l_vars n <> [] \/ l_if n <> [] -> hasMap n = true.
Proof.
  intros n H. unfold hasMap. destruct (l_vars n); destruct (l_if n); try reflexivity. destruct H; congruence.
Qed.
Lemma out_surrounding : forall ns rs, build ns = Some rs -> rootsDeclare ns -> forall x, outOf rs x = surrounding ns x.
Proof.
  induction ns as [|n up IH]; intros rs HB HR x.
  - cbn in HB. injection HB as <-. reflexivity.
  - destruct (build_cons _ _ _ HB) as (r & rup & -> & HB' & NF). cbn [rootsDeclare] in HR. destruct HR as [HR1 HR2].
    specialize (IH rup HB' HR2). pose proof (node_denote _ _ _ _ NF IH) as ND.
    unfold surrounding. destruct (l_call n) as [c|] eqn:EC.
    + rewrite (nf_args _ _ _ _ NF c x EC). destruct (mget (c_args c) x) as [[y|t]|]; [apply ND|reflexivity|reflexivity].
    + assert (RA : r_alias r = None) by (apply (nf_alias _ _ _ _ NF); exact EC).
      destruct (r_map r) as [m|] eqn:EM.
      * rewrite (out_map _ _ _ _ RA EM). apply ND.
      * assert (HM : hasMap n = false) by (apply (nf_map _ _ _ _ NF); exact EM).
        assert (DN : denote (n :: up) x = surrounding up x).
        { rewrite denote_cons. unfold hasMap in HM. unfold declaredVar, declaredParam.
          destruct (l_vars n); [|discriminate]. destruct (l_if n); [reflexivity|discriminate]. }
        rewrite DN. destruct up as [|p up'].
        -- cbn in HB'. injection HB' as <-. apply out_root; assumption.
        -- destruct (isCall p) eqn:EP.
           { exfalso. assert (isCall n = false) by (unfold isCall; rewrite EC; reflexivity).
             rewrite (hasMap_decl n (HR1 eq_refl H)) in HM. discriminate. }
           destruct (build_cons _ _ _ HB') as (q & rup' & -> & HB'' & NFq).
           rewrite out_skip; [|exact RA|exact EM|].
           ++ apply IH.
           ++ apply (nf_alias _ _ _ _ NFq). unfold isCall in EP. destruct (l_call p); [discriminate|reflexivity].
Qed.
Lemma scope_ok : forall n up rs, build (n :: up) = Some rs -> rootsDeclare up ->
  forall x, findVariable rs x = denote (n :: up) x.
Proof.
  intros n up rs HB HR x. destruct (build_cons _ _ _ HB) as (r & rup & -> & HB' & NF).
  apply node_denote; [exact NF|]. intros y. apply out_surrounding; assumption.
Qed.
