(** C52-C55, C57: what names mean when a plan is loaded. *)
From Coq Require Import Arith List Bool Lia.
From Verif Require Import ScopeModel ScopeSpec ScopeProofs.
Import ListNotations.

(** ** C52 *)
(** In every plan that is accepted, a name used in a node is resolved by lexical scoping. *)
Theorem C52_lexical_scoping_partial : forall n up rs x,
  build (n :: up) = Some rs -> rootsDeclare up -> findVariable rs x = denote (n :: up) x.
Proof. intros n up rs x HB HR. apply (scope_ok n up rs HB HR). Qed.

(** A library does not see its caller: below a library root, a name that neither the library's nodes on
    the way declare nor the call passes has no meaning, whatever the caller declares. *)
Theorem C52_caller_invisible_partial : forall lib p c up rs x,
  lib <> [] -> Forall (fun n => l_call n = None) lib -> l_call p = Some c ->
  build (lib ++ p :: up) = Some rs -> rootsDeclare (tl (lib ++ p :: up)) ->
  (forall n, In n lib -> declaredVar n x = None /\ declaredParam n x = None) ->
  mget (c_args c) x = None ->
  findVariable rs x = None.
Proof.
  intros lib p c up rs x NE HF HC HB HR HD HA. destruct lib as [|n lib]; [contradiction|].
  cbn [app tl] in *. rewrite (scope_ok _ _ _ HB HR).
  clear NE HB HR rs. revert n HF HD. induction lib as [|n' lib IH]; intros n HF HD.
  - rewrite denote_cons. destruct (HD n (or_introl eq_refl)) as [-> ->]. cbn [app surrounding]. rewrite HC, HA. reflexivity.
  - rewrite denote_cons. destruct (HD n (or_introl eq_refl)) as [-> ->]. cbn [app surrounding].
    inversion HF; subst. inversion H2; subst. rewrite H3. apply (IH n').
    + constructor; assumption.
    + intros m Hm. apply HD. right. exact Hm.
Qed.

Definition plainL (id : nat) (vars : list (nat * vty)) (ifs : list idecl) : lvl := mkL id [id + 1] vars ifs [] None [].
Definition callL (id : nat) (vars : list (nat * vty)) (args : list (nat * aexp)) : lvl :=
  mkL id [id + 1] vars [] [] (Some (mkC (id + 1) args)) [].
Definition tInt : vty := TSc SInt.
(** The root of the plan declares integers 1 and 2; it calls a library passing variable 2 as "1"; the
    library's root is a list, and a node in it declares In parameter 1. *)
Definition goodLib : list lvl :=
  [plainL 3 [] [mkI false 1 tInt None]; plainL 2 [] [mkI true 1 tInt None]; callL 1 [] [(1, AVar 2)]; plainL 0 [(1, tInt); (2, tInt)] []].
Definition bareLib : list lvl :=
  [plainL 3 [] [mkI false 1 tInt None]; plainL 2 [] []; callL 1 [] [(1, AVar 2)]; plainL 0 [(1, tInt); (2, tInt)] []].
Theorem C52_example : exists rs, build goodLib = Some rs /\ rootsDeclare (tl goodLib)
  /\ findVariable rs 1 = Some (EView 3 1 (EVar 0 2 tInt)) /\ findVariable rs 2 = None.
Proof.
  eexists. split; [vm_compute; reflexivity|]. split; [|split; reflexivity].
  cbn. repeat split; intros; try discriminate. right; discriminate.
Qed.
(** Without a declaration in the library's root list, a name below it is looked up in the caller: it
    should mean the argument (variable 2), and means the caller's own variable 1. *)
Theorem C52_bare_root_captures_caller_refuted : exists rs, build bareLib = Some rs
  /\ denote bareLib 1 = Some (EView 3 1 (EVar 0 2 tInt))
  /\ findVariable rs 1 = Some (EView 3 1 (EVar 0 1 tInt)).
Proof. eexists. split; [vm_compute; reflexivity|]. split; reflexivity. Qed.

(** ** C53 *)
Lemma param_found : forall n up rs i, build (n :: up) = Some rs -> In i (l_if n) ->
  exists r rup, rs = r :: rup /\ build up = Some rup /\ nodeFacts rup (length up) n r
  /\ paramOk (outOf rup (i_name i)) i
  /\ findVariable rs (i_name i) = match entryFor (length up) (outOf rup (i_name i)) i with Some e => Some e | None => outOf rup (i_name i) end.
Proof.
  intros n up rs i HB HI. destruct (build_cons _ _ _ HB) as (r & rup & -> & HB' & NF).
  exists r, rup. split; [reflexivity|]. split; [exact HB'|]. split; [exact NF|]. split; [apply (nf_params _ _ _ _ NF); exact HI|].
  rewrite (nf_find _ _ _ _ NF).
  destruct (NoDup_app_l _ _ _ (nf_names _ _ _ _ NF)) as (N1 & N2 & N3).
  unfold declaredVar. rewrite mget_not_in.
  - unfold declaredParam. change (find (fun j => i_name j =? i_name i) (l_if n)) with (findParam (l_if n) (i_name i)).
    rewrite findParam_in; auto.
  - intros C. apply (N3 (i_name i)); [apply in_map; exact HI|apply in_or_app; left; exact C].
Qed.
(** An In parameter: its name is found in the node, is read-only, and cannot be an assignment's variable. *)
Theorem C53_in_read_only : forall n up rs i,
  build (n :: up) = Some rs -> In i (l_if n) -> i_out i = false ->
  (exists e, findVariable rs (i_name i) = Some e /\ assignable e = false)
  /\ assignVar rs (i_name i) = None.
Proof.
  intros n up rs i HB HI HO. destruct (param_found _ _ _ _ HB HI) as (r & rup & -> & HB' & NF & P & F).
  assert (X : exists e, findVariable (r :: rup) (i_name i) = Some e /\ assignable e = false).
  { rewrite F. unfold entryFor, paramOk in *. rewrite HO in *. destruct (outOf rup (i_name i)) as [e|].
    - destruct (assignable e) eqn:EA; [eexists; split; reflexivity|exists e; auto].
    - destruct P as [P _]. destruct (i_def i); [|congruence]. eexists; split; reflexivity. }
  split; [exact X|]. destruct X as (e & E & A). unfold assignVar. rewrite E, A. reflexivity.
Qed.
(** An In parameter is a view of what its name means outside the node, of the declared type. *)
Theorem C53_in_view_partial : forall n up rs i v,
  build (n :: up) = Some rs -> rootsDeclare up -> In i (l_if n) -> i_out i = false ->
  surrounding up (i_name i) = Some v ->
  exists e, findVariable rs (i_name i) = Some e /\ viewOf e v /\ entTy e = i_ty i.
Proof.
  intros n up rs i v HB HR HI HO HS. destruct (param_found _ _ _ _ HB HI) as (r & rup & -> & HB' & NF & P & F).
  rewrite (out_surrounding _ _ HB' HR), HS in P, F. rewrite F. unfold entryFor. rewrite HO. destruct P as [P _].
  destruct (assignable v).
  - eexists. split; [reflexivity|]. split; [apply vo_view, vo_here|]. cbn. congruence.
  - exists v. split; [reflexivity|]. split; [apply vo_here|congruence].
Qed.
(** With nothing of that name outside, it has its default value. *)
Theorem C53_in_default_partial : forall n up rs i,
  build (n :: up) = Some rs -> rootsDeclare up -> In i (l_if n) -> i_out i = false ->
  surrounding up (i_name i) = None ->
  exists t, i_def i = Some t /\ defOk (i_ty i) t = true /\ findVariable rs (i_name i) = Some (EDef (length up) (i_name i) t).
Proof.
  intros n up rs i HB HR HI HO HS. destruct (param_found _ _ _ _ HB HI) as (r & rup & -> & HB' & NF & P & F).
  rewrite (out_surrounding _ _ HB' HR), HS in P, F. rewrite F. unfold entryFor. rewrite HO. destruct P as [P _].
  destruct (i_def i) as [t|] eqn:ED; [|congruence]. exists t. split; [reflexivity|]. split; [|reflexivity].
  apply (nf_defs _ _ _ _ NF i t HI ED).
Qed.
(** An InOut parameter is assignable, of the declared type; it is the very variable its name means outside
    the node, or a variable of the node's own. *)
Theorem C53_inout_partial : forall n up rs i,
  build (n :: up) = Some rs -> rootsDeclare up -> In i (l_if n) -> i_out i = true ->
  exists e, findVariable rs (i_name i) = Some e /\ assignable e = true /\ assignVar rs (i_name i) = Some e
  /\ match surrounding up (i_name i) with
     | Some v => e = v /\ entTy e = i_ty i
     | None => e = EVar (length up) (i_name i) (objTy (i_ty i)) /\ i_def i <> None
     end.
Proof.
  intros n up rs i HB HR HI HO. destruct (param_found _ _ _ _ HB HI) as (r & rup & -> & HB' & NF & P & F).
  rewrite (out_surrounding _ _ HB' HR) in P, F. unfold entryFor, paramOk in *. rewrite HO in *.
  unfold assignVar. destruct (surrounding up (i_name i)) as [v|].
  - destruct P as [P1 P2]. specialize (P2 eq_refl). exists v. rewrite F, P2. repeat split; congruence.
  - destruct P as [P1 P2]. eexists. rewrite F. cbn [assignable]. repeat split; exact P1.
Qed.
(** A node's own variable: found, assignable, its own. *)
Theorem C53_local : forall n up rs x t,
  build (n :: up) = Some rs -> declaredVar n x = Some t ->
  findVariable rs x = Some (EVar (length up) x (objTy t)) /\ assignVar rs x = Some (EVar (length up) x (objTy t)).
Proof.
  intros n up rs x t HB HD. destruct (build_cons _ _ _ HB) as (r & rup & -> & HB' & NF).
  unfold assignVar. rewrite (nf_find _ _ _ _ NF), HD. split; reflexivity.
Qed.
Theorem C53_example : exists rs,
  build [plainL 3 [(9, TAr SInt)] [mkI false 1 tInt None; mkI true 2 tInt None; mkI false 3 tInt (Some tInt)]; plainL 2 [(1, tInt); (2, tInt)] []] = Some rs
  /\ findVariable rs 1 = Some (EView 1 1 (EVar 0 1 tInt)) /\ findVariable rs 2 = Some (EVar 0 2 tInt)
  /\ findVariable rs 3 = Some (EDef 1 3 tInt) /\ assignElement rs 9 = Some (EVar 1 9 (TAr SInt)).
Proof. eexists. split; [vm_compute; reflexivity|]. repeat split. Qed.
(** The elements of an In array can be assigned: they are the elements of the enclosing variable. *)
Theorem C53_in_array_written_refuted : exists rs,
  build [plainL 1 [] [mkI false 7 (TAr SInt) None]; plainL 0 [(7, TAr SInt)] []] = Some rs
  /\ (exists e, findVariable rs 7 = Some e /\ assignable e = false)
  /\ assignVar rs 7 = None
  /\ assignElement rs 7 = Some (EVar 0 7 (TAr SInt)).
Proof. eexists. split; [vm_compute; reflexivity|]. split; [eexists; split; reflexivity|]. split; reflexivity. Qed.
(** ... also through two levels of In parameters. *)
Theorem C53_in_array_written_nested_refuted : exists rs,
  build [plainL 2 [] [mkI false 7 (TAr SInt) None]; plainL 1 [] [mkI false 7 (TAr SInt) None]; plainL 0 [(7, TAr SInt)] []] = Some rs
  /\ assignVar rs 7 = None
  /\ assignElement rs 7 = Some (EVar 0 7 (TAr SInt)).
Proof. eexists. split; [vm_compute; reflexivity|]. split; reflexivity. Qed.
(** In general: whatever the parameters on the way, the element of a visible array variable is written. *)
Theorem C53_in_array_written_general_refuted : forall rs x e, findVariable rs x = Some e -> isAr (entTy e) = true ->
  assignable (baseOf e) = true -> assignElement rs x = Some (baseOf e).
Proof. intros rs x e H1 H2 H3. unfold assignElement. rewrite H1, H2, H3. reflexivity. Qed.
(** A parameter declared Date (or Duration) cannot be matched by a variable declared Date. *)
Theorem C53_date_parameter_refuted : forall s, s = SDate \/ s = SDur -> forall out def,
  build [plainL 1 [] [mkI out 7 (TSc s) def]; plainL 0 [(7, TSc s)] []] = None.
Proof. intros s [->| ->] [] [[]|]; try reflexivity; destruct s; reflexivity. Qed.
(** An In parameter with a default does not always have its declared type: Real 7 := 0 is an Integer,
    and a node below that declares Real 7 again as In is refused. *)
Theorem C53_in_default_type_refuted :
  (exists rs, build [plainL 0 [] [mkI false 7 (TSc SReal) (Some tInt)]] = Some rs
     /\ option_map entTy (findVariable rs 7) = Some tInt)
  /\ build [plainL 1 [] [mkI false 7 (TSc SReal) None]; plainL 0 [] [mkI false 7 (TSc SReal) (Some tInt)]] = None.
Proof. split; [eexists; split; vm_compute; reflexivity|reflexivity]. Qed.
(** An InOut array parameter's default is never used: the plan is refused. *)
Theorem C53_inout_array_default_refuted : forall id x s t,
  build [plainL id [] [mkI true x (TAr s) (Some t)]] = None.
Proof.
  intros id x s t. unfold build, buildLvl. cbn [length]. destruct (namesOk _ && argsOk _ && defsOk _); [|reflexivity].
  reflexivity.
Qed.

(** ** C54 *)
Lemma memb_in : forall x l, memb x l = true <-> In x l.
Proof.
  intros x l. unfold memb. rewrite existsb_exists. split.
  - intros (y & H1 & H2). apply Nat.eqb_eq in H2. subst. exact H1.
  - intros H. exists x. split; [exact H|apply Nat.eqb_refl].
Qed.
Lemma memb_notin : forall x l, memb x l = false <-> ~ In x l.
Proof. intros x l. rewrite <- memb_in. destruct (memb x l); split; congruence. Qed.
(** The check at load time accepts exactly the names that mean something. *)
Theorem C54_check : forall ns m, mutexInScope ns m = true <-> mutexMeaning ns m <> None.
Proof.
  induction ns as [|n up IH]; intros m; cbn [mutexInScope mutexMeaning]; [split; congruence|].
  rewrite orb_true_iff, memb_in. destruct (in_dec Nat.eq_dec m (l_mtx n)) as [H|H]; [split; [discriminate|auto]|].
  destruct (docRoot up).
  - rewrite memb_in. destruct (in_dec Nat.eq_dec m (l_gmtx n)) as [G|G]; split; try tauto; try discriminate; intros; auto.
  - rewrite IH. tauto.
Qed.
(** No node above the library's document declares the mutex m. *)
Fixpoint outerFree (ns : list lvl) (m : nat) : Prop :=
  match ns with
  | [] => True
  | n :: up => if docRoot up then Forall (fun p => ~ In m (l_mtx p)) up else outerFree up m
  end.
(** An accepted mutex name is resolved to what it means, unless it is the library's global mutex and a
    calling node declares one of the same name. *)
Theorem C54_resolution_partial : forall globals ns m r,
  (forall n, In n ns -> incl (l_gmtx n) globals) ->
  mutexMeaning ns m = Some r ->
  (r = MGlobal m -> outerFree ns m) ->
  findMutex globals ns m = Some r.
Proof.
  intros globals ns m r HG. unfold findMutex. induction ns as [|n up IH]; intros HM HO; [discriminate|].
  cbn [mutexMeaning findMutexUp outerFree] in *. destruct (in_dec Nat.eq_dec m (l_mtx n)) as [H|H].
  - rewrite (proj2 (memb_in m (l_mtx n)) H). exact HM.
  - rewrite (proj2 (memb_notin m (l_mtx n)) H). destruct (docRoot up).
    + destruct (in_dec Nat.eq_dec m (l_gmtx n)) as [G|G]; [|discriminate]. injection HM as <-.
      specialize (HO eq_refl).
      assert (F : findMutexUp up m = None).
      { clear -HO. induction up as [|p up IH]; [reflexivity|]. inversion HO; subst. cbn [findMutexUp].
        rewrite (proj2 (memb_notin m (l_mtx p)) H1). auto. }
      rewrite F. rewrite (proj2 (memb_in m globals) (HG n (or_introl eq_refl) m G)). reflexivity.
    + apply IH; auto. intros q Hq. apply HG. right; exact Hq.
Qed.
(** A mutex declared in the document itself is always the one used. *)
Theorem C54_local_mutex : forall globals ns m d,
  mutexMeaning ns m = Some (MLocal d m) -> findMutex globals ns m = Some (MLocal d m).
Proof.
  intros globals ns m d. unfold findMutex. induction ns as [|n up IH]; intros HM; [discriminate|].
  cbn [mutexMeaning findMutexUp] in *. destruct (in_dec Nat.eq_dec m (l_mtx n)) as [H|H].
  - rewrite (proj2 (memb_in m (l_mtx n)) H). exact HM.
  - rewrite (proj2 (memb_notin m (l_mtx n)) H). destruct (docRoot up).
    + destruct (in_dec Nat.eq_dec m (l_gmtx n)); discriminate.
    + apply IH. exact HM.
Qed.
Definition mtxL (id : nat) (mtx g : list nat) (call : bool) : lvl :=
  mkL id [id + 1] [] [] mtx (if call then Some (mkC (id + 1) []) else None) g.
Theorem C54_example : findMutex [5; 6] [mtxL 3 [] [] false; mtxL 2 [] [5] false; mtxL 1 [] [] true; mtxL 0 [4] [6] false] 5 = Some (MGlobal 5)
  /\ findMutex [5; 6] [mtxL 1 [] [] false; mtxL 0 [4] [6] false] 4 = Some (MLocal 0 4).
Proof. split; reflexivity. Qed.
(** The library's global mutex 5 is replaced by a mutex 5 local to a calling node. *)
Theorem C54_caller_mutex_captures_refuted :
  mutexMeaning [mtxL 2 [] [5] false; mtxL 1 [] [] true; mtxL 0 [5] [] false] 5 = Some (MGlobal 5)
  /\ findMutex [5] [mtxL 2 [] [5] false; mtxL 1 [] [] true; mtxL 0 [5] [] false] 5 = Some (MLocal 0 5).
Proof. split; reflexivity. Qed.

(** ** C55 *)
Lemma indexOf_ok : forall x l, match indexOf x l with
  | Some k => nth_error l k = Some x /\ forall j, j < k -> nth_error l j <> Some x
  | None => ~ In x l end.
Proof.
  intros x l. induction l as [|y l IH]; cbn [indexOf]; [intros []|].
  destruct (x =? y) eqn:E.
  - apply Nat.eqb_eq in E. subst. split; [reflexivity|]. intros j Hj; lia.
  - apply Nat.eqb_neq in E. destruct (indexOf x l) as [k|]; cbn [option_map].
    + destruct IH as [I1 I2]. split; [exact I1|]. intros [|j] Hj; cbn; [congruence|]. apply I2. lia.
    + intros [C|C]; [congruence|auto].
Qed.
(** A reference by NodeId is accepted exactly when it refers to a node of the same document, and then
    the node found in the running plan is that one: the nearest. *)
Theorem C55_node_id_partial : forall ns x, Forall callsByName ns ->
  (checkNodeId ns x = true <-> exists t, refersTo ns x t)
  /\ forall t, refersTo ns x t -> parseNodeId ns x = Some t.
Proof.
  intros ns x HF. induction ns as [|n up IH].
  - cbn. split; [split; [discriminate|intros (t & H); inversion H]|intros t H; inversion H].
  - inversion HF as [|? ? HC HF']; subst. specialize (IH HF'). destruct IH as [IH1 IH2].
    assert (XK : xmlKids n = l_kids n).
    { unfold xmlKids. destruct (l_call n) as [c|] eqn:EC; [|reflexivity]. symmetry. apply HC. exact EC. }
    cbn [checkNodeId parseNodeId]. rewrite XK. pose proof (indexOf_ok x (l_kids n)) as IX. split.
    + destruct (x =? l_id n) eqn:E1.
      { apply Nat.eqb_eq in E1. subst. cbn. split; [intros _; eexists; apply rt_self|reflexivity]. }
      apply Nat.eqb_neq in E1. destruct (indexOf x (l_kids n)) as [k|].
      { destruct IX as [I1 I2]. assert (M : memb x (l_kids n) = true) by (apply memb_in; eapply nth_error_In; eauto).
        rewrite M. cbn. split; [intros _; eexists; apply rt_kid; eauto|reflexivity]. }
      rewrite (proj2 (memb_notin _ _) IX). cbn [orb]. destruct up as [|p up].
      { cbn. split; [discriminate|]. intros (t & H). inversion H; subst; [congruence|]. elim IX. eapply nth_error_In; eauto. }
      unfold docRoot, isCall. destruct (l_call p) as [c|] eqn:EP.
      * split; [discriminate|]. intros (t & H). inversion H; subst; [congruence| |congruence]. elim IX. eapply nth_error_In; eauto.
      * rewrite IH1. split; intros (t & H).
        -- exists t. apply rt_up; auto.
        -- inversion H; subst; [congruence| |eauto]. elim IX. eapply nth_error_In; eauto.
    + intros t H. inversion H; subst.
      * rewrite Nat.eqb_refl. reflexivity.
      * apply Nat.eqb_neq in H2. rewrite H2. destruct (indexOf x (l_kids n)) as [k'|].
        -- destruct IX as [I1 I2]. destruct (lt_eq_lt_dec k k') as [[L|L]|L]; [elim (I2 _ L); assumption|subst; reflexivity|elim (H6 _ L); assumption].
        -- elim IX. eapply nth_error_In; eauto.
      * apply Nat.eqb_neq in H2. rewrite H2. destruct (indexOf x (l_kids n)) as [k'|].
        -- destruct IX as [I1 _]. elim H3. eapply nth_error_In; eauto.
        -- apply IH2. assumption.
Qed.
(** The four directional references. *)
Inductive refersDir : list lvl -> dirref -> target -> Prop :=
| rd_self : forall n up, refersDir (n :: up) RSelf (NSelf (length up))
| rd_parent : forall n p up, l_call p = None -> refersDir (n :: p :: up) RParent (NSelf (length up))
| rd_child : forall n up x k, nth_error (l_kids n) k = Some x -> (forall j, j < k -> nth_error (l_kids n) j <> Some x) ->
    refersDir (n :: up) (RChild x) (NKid (length up) k)
| rd_sibling : forall n p up x k, l_call p = None -> nth_error (l_kids p) k = Some x -> (forall j, j < k -> nth_error (l_kids p) j <> Some x) ->
    refersDir (n :: p :: up) (RSibling x) (NKid (length up) k)
| rd_id : forall ns x t, refersTo ns x t -> refersDir ns (RId x) t.
Theorem C55_node_reference_partial : forall ns r, Forall callsByName ns -> checkNodeReference ns r = true ->
  exists t, refersDir ns r t /\ parseNodeReference ns r = Some t.
Proof.
  intros ns r HF HC. destruct ns as [|n up]; [discriminate|].
  assert (XK : forall m, In m (n :: up) -> xmlKids m = l_kids m).
  { intros m Hm. rewrite Forall_forall in HF. specialize (HF m Hm). unfold xmlKids. destruct (l_call m) as [c|] eqn:EC; [|reflexivity]. symmetry. apply HF. exact EC. }
  destruct r as [| |x|x|x]; cbn [checkNodeReference parseNodeReference] in *.
  - eexists. split; [apply rd_self|reflexivity].
  - destruct up as [|p up]; [discriminate|]. unfold docRoot, isCall in HC. destruct (l_call p) eqn:EP; [discriminate|].
    eexists. split; [apply rd_parent; exact EP|reflexivity].
  - rewrite XK in HC by (left; reflexivity). apply memb_in in HC. pose proof (indexOf_ok x (l_kids n)) as IX.
    destruct (indexOf x (l_kids n)) as [k|]; [|contradiction]. destruct IX.
    eexists. split; [apply rd_child; eauto|reflexivity].
  - destruct up as [|p up]; [discriminate|]. unfold docRoot, isCall in HC. destruct (l_call p) eqn:EP; [discriminate|]. cbn [negb andb] in HC.
    rewrite XK in HC by (right; left; reflexivity). apply memb_in in HC. pose proof (indexOf_ok x (l_kids p)) as IX.
    destruct (indexOf x (l_kids p)) as [k|]; [|contradiction]. destruct IX.
    eexists. split; [apply rd_sibling; eauto|reflexivity].
  - destruct (C55_node_id_partial (n :: up) x HF) as [I1 I2]. apply I1 in HC. destruct HC as (t & Ht).
    exists t. split; [apply rd_id; exact Ht|apply I2; exact Ht].
Qed.
(** An accepted reference stays in its document: it never reaches a node of the caller. *)
Fixpoint docDepth (ns : list lvl) : nat :=
  match ns with
  | [] => 0
  | _ :: up => if docRoot up then length up else docDepth up
  end.
Definition targetDepth (t : target) : nat := match t with NSelf d => d | NKid d _ => S d end.
Theorem C55_stays_in_document_partial : forall ns r, Forall callsByName ns -> checkNodeReference ns r = true ->
  exists t, parseNodeReference ns r = Some t /\ docDepth ns <= targetDepth t.
Proof.
  intros ns r HF HC. destruct (C55_node_reference_partial ns r HF HC) as (t & H1 & H2). exists t. split; [exact H2|].
  assert (DL : forall l, docDepth l <= pred (length l)).
  { induction l as [|a l IH]; cbn; [lia|]. destruct (docRoot l); [lia|]. lia. }
  clear HF HC H2. inversion H1; subst.
  - pose proof (DL (n :: up)). cbn [length targetDepth] in *. lia.
  - change (docDepth (n :: p :: up)) with (if docRoot (p :: up) then length (p :: up) else docDepth (p :: up)).
    unfold docRoot, isCall. rewrite H. pose proof (DL (p :: up)). cbn [length targetDepth pred] in *. lia.
  - pose proof (DL (n :: up)). cbn [length targetDepth] in *. lia.
  - change (docDepth (n :: p :: up)) with (if docRoot (p :: up) then length (p :: up) else docDepth (p :: up)).
    unfold docRoot, isCall. rewrite H. pose proof (DL (p :: up)). cbn [length targetDepth pred] in *. lia.
  - clear H1. induction H as [n up|n up x k N NE F|n p up x t N NI EP H IH].
    + pose proof (DL (n :: up)). cbn [length targetDepth] in *. lia.
    + pose proof (DL (n :: up)). cbn [length targetDepth] in *. lia.
    + change (docDepth (n :: p :: up)) with (if docRoot (p :: up) then length (p :: up) else docDepth (p :: up)).
      unfold docRoot, isCall. rewrite EP. exact IH.
Qed.
Definition refL (id : nat) (kids : list nat) (call : option lcall) : lvl := mkL id kids [] [] [] call [].
Theorem C55_example :
  let ns := [refL 4 [] None; refL 3 [4; 5] None; refL 1 [3] (Some (mkC 3 [])); refL 0 [1; 2] None] in
  Forall callsByName ns /\ checkNodeReference ns (RId 5) = true /\ parseNodeReference ns (RId 5) = Some (NKid 2 1)
  /\ checkNodeReference ns (RId 2) = false /\ parseNodeReference ns (RId 2) = Some (NKid 0 1).
Proof.
  split; [|repeat split]. repeat constructor; intros c H; cbn in H; try discriminate. injection H as <-. reflexivity.
Qed.
(** A library called by its file name (7: "lib/Foo.plx", holding node 3: "Foo") can be referred to by that
    name as far as the check is concerned, and is not found; and cannot be referred to by its NodeId. *)
Theorem C55_library_file_name_refuted :
  let ns := [refL 1 [3] (Some (mkC 7 [])); refL 0 [1] None] in
  checkNodeReference ns (RChild 7) = true /\ parseNodeReference ns (RChild 7) = None
  /\ checkNodeReference ns (RId 7) = true /\ parseNodeReference ns (RId 7) = None
  /\ checkNodeReference ns (RId 3) = false.
Proof. repeat split. Qed.
(** A child with its parent's NodeId is accepted, and then cannot be reached by NodeId from its parent. *)
Theorem C55_child_named_as_parent_refuted :
  childIdsOk (refL 1 [1; 2] None) = true
  /\ parseNodeReference [refL 1 [1; 2] None] (RId 1) = Some (NSelf 0).
Proof. split; reflexivity. Qed.

(** ** C57 *)
Section TreeInd.
  Variable P : tree -> Prop.
  Hypothesis HL : forall id, P (Leaf id).
  Hypothesis HT : forall id ts, Forall P ts -> P (Lst id ts).
  Hypothesis HC : forall id ref, P (Call id ref).
  Fixpoint tree_ind' (t : tree) : P t :=
    match t with
    | Leaf id => HL id
    | Lst id ts => HT id ts ((fix go (l : list tree) : Forall P l :=
        match l with [] => Forall_nil P | x :: l' => Forall_cons x (tree_ind' x) (go l') end) ts)
    | Call id ref => HC id ref
    end.
End TreeInd.
Definition expandList (lib : nat -> option tree) (f : nat) (id : nat) : list tree -> list built -> outcome :=
  fix go (ks : list tree) (acc : list built) : outcome :=
    match ks with
    | [] => Built (BLst id (rev acc))
    | k :: ks' => match expand lib f k with Built b => go ks' (b :: acc) | o => o end
    end.
Lemma expand_S_list : forall lib f id ts, expand lib (S f) (Lst id ts) = expandList lib f id ts [].
Proof. reflexivity. Qed.
Lemma expandList_cons : forall lib f id k ks acc,
  expandList lib f id (k :: ks) acc = match expand lib f k with Built b => expandList lib f id ks (b :: acc) | o => o end.
Proof. reflexivity. Qed.
(** The result, if any, is the expansion; more stack does not change it. *)
Lemma expand_sound : forall lib f t b, expand lib f t = Built b -> expandsTo lib t b.
Proof.
  intros lib f. induction f as [|f IH]; intros t b H; [discriminate|].
  destruct t as [id|id ts|id ref].
  - injection H as <-. constructor.
  - rewrite expand_S_list in H.
    assert (G : forall ks acc, expandList lib f id ks acc = Built b -> exists bs, b = BLst id (rev acc ++ bs) /\ Forall2 (expandsTo lib) ks bs).
    { induction ks as [|k ks IK]; intros acc E.
      - cbn in E. injection E as <-. exists []. rewrite app_nil_r. split; [reflexivity|constructor].
      - rewrite expandList_cons in E. destruct (expand lib f k) as [bk| |] eqn:Ek; try discriminate.
        destruct (IK _ E) as (bs & -> & F). exists (bk :: bs). cbn [rev]. rewrite <- app_assoc. split; [reflexivity|].
        constructor; [apply IH; exact Ek|exact F]. }
    destruct (G ts [] H) as (bs & -> & F). cbn. constructor. exact F.
  - cbn [expand] in H. destruct (lib ref) as [t'|] eqn:El; [|discriminate].
    destruct (expand lib f t') as [b'| |] eqn:Ee; try discriminate. injection H as <-. econstructor; eauto.
Qed.
Lemma expand_mono : forall lib f t o, expand lib f t = o -> o <> TooDeep -> expand lib (S f) t = o.
Proof.
  intros lib f. induction f as [|f IH]; intros t o H NT; [cbn in H; congruence|].
  destruct t as [id|id ts|id ref]; [exact H| |].
  - rewrite expand_S_list in H. rewrite expand_S_list.
    assert (G : forall ks acc o', expandList lib f id ks acc = o' -> o' <> TooDeep -> expandList lib (S f) id ks acc = o').
    { induction ks as [|k ks IK]; intros acc o' E N; [exact E|]. rewrite expandList_cons in *.
      destruct (expand lib f k) as [bk| |] eqn:Ek.
      - rewrite (IH k _ Ek) by discriminate. apply IK; assumption.
      - rewrite (IH k _ Ek) by discriminate. exact E.
      - congruence. }
    apply G; assumption.
  - cbn [expand] in H. change (expand lib (S (S f)) (Call id ref)) with
      (match lib ref with None => NotFound | Some t' => match expand lib (S f) t' with Built b => Built (BCall id b) | o0 => o0 end end).
    destruct (lib ref) as [t'|]; [|exact H].
    destruct (expand lib f t') as [b| |] eqn:Ee.
    + rewrite (IH t' _ Ee) by discriminate. exact H.
    + rewrite (IH t' _ Ee) by discriminate. exact H.
    + congruence.
Qed.
Lemma expand_mono_le : forall lib f f' t o, f <= f' -> expand lib f t = o -> o <> TooDeep -> expand lib f' t = o.
Proof.
  intros lib f f' t o L. induction L; intros H N; [exact H|]. apply expand_mono; auto.
Qed.
Lemma callsIn_lst : forall id ts x, In x (callsIn (Lst id ts)) <-> exists t, In t ts /\ In x (callsIn t).
Proof. intros. cbn [callsIn]. apply in_flat_map. Qed.
Lemma expandList_mono : forall lib id ks acc o f f', f <= f' -> expandList lib f id ks acc = o -> o <> TooDeep ->
  expandList lib f' id ks acc = o.
Proof.
  intros lib id. induction ks as [|k ks IK]; intros acc o f f' L E N; [exact E|]. rewrite expandList_cons in *.
  destruct (expand lib f k) as [bk| |] eqn:Ek.
  - rewrite (expand_mono_le lib f f' k _ L Ek) by discriminate. eapply IK; eauto.
  - rewrite (expand_mono_le lib f f' k _ L Ek) by discriminate. exact E.
  - congruence.
Qed.
Lemma expand_halts : forall lib (rank : nat -> nat),
  (forall r t c, lib r = Some t -> In c (callsIn t) -> rank c < rank r) ->
  forall n t, (forall c, In c (callsIn t) -> rank c < n) -> exists f, expand lib f t <> TooDeep.
Proof.
  intros lib rank HR n. induction n as [n IHn] using lt_wf_ind.
  intros t. induction t as [id|id ts IH|id ref] using tree_ind'; intros HC.
  - exists 1. discriminate.
  - assert (G : forall ks, (forall k, In k ks -> exists f, expand lib f k <> TooDeep) ->
      exists f, forall acc, expandList lib f id ks acc <> TooDeep).
    { induction ks as [|k ks IK]; intros HK.
      - exists 0. discriminate.
      - destruct IK as (f1 & F1); [intros k' Hk'; apply HK; right; exact Hk'|].
        destruct (HK k (or_introl eq_refl)) as (f2 & F2).
        exists (max f1 f2). intros acc. rewrite expandList_cons.
        destruct (expand lib f2 k) as [b| |] eqn:Ek; [| |congruence].
        + rewrite (expand_mono_le lib f2 (max f1 f2) k _ ltac:(lia) Ek) by discriminate.
          rewrite (expandList_mono lib id ks (b :: acc) _ f1 (max f1 f2) ltac:(lia) eq_refl (F1 _)). apply F1.
        + rewrite (expand_mono_le lib f2 (max f1 f2) k _ ltac:(lia) Ek) by discriminate. discriminate. }
    destruct (G ts) as (f & F).
    { intros k Hk. rewrite Forall_forall in IH. apply (IH k Hk). intros c Hc. apply HC. apply callsIn_lst. exists k. auto. }
    exists (S f). rewrite expand_S_list. apply F.
  - specialize (HC ref (or_introl eq_refl)). destruct (lib ref) as [t'|] eqn:El.
    + destruct (IHn (rank ref) HC t') as (f & F); [intros c Hc; eapply HR; eauto|].
      exists (S f). cbn [expand]. rewrite El. destruct (expand lib f t'); congruence.
    + exists 1. cbn. rewrite El. discriminate.
Qed.
(** Expanding the library calls of a plan: with libraries that do not call each other in a cycle it ends, in the
    expanded plan or in the report of a missing library; the expansion is the one the plan describes. *)
Theorem C57_expansion_ends_partial : forall lib (rank : nat -> nat) t,
  (forall r t' c, lib r = Some t' -> In c (callsIn t') -> rank c < rank r) ->
  exists f o, (forall f', f <= f' -> expand lib f' t = o)
  /\ match o with Built b => expandsTo lib t b | NotFound => True | TooDeep => False end.
Proof.
  intros lib rank t HR.
  assert (B : exists n, forall c, In c (callsIn t) -> rank c < n).
  { induction (callsIn t) as [|c l IH]; [exists 0; intros c []|]. destruct IH as (n & Hn).
    exists (max n (S (rank c))). intros d [<-|Hd]; [lia|]. specialize (Hn d Hd). lia. }
  destruct B as (n & Hn). destruct (expand_halts lib rank HR n t Hn) as (f & F).
  exists f, (expand lib f t). split.
  - intros f' L. apply (expand_mono_le lib f f' t _ L eq_refl F).
  - destruct (expand lib f t) as [b| |] eqn:E; [|exact I|congruence]. eapply expand_sound; eauto.
Qed.
(** The expansion is complete: every plan that has one gets it. *)
Section EInd.
  Variables (lib : nat -> option tree) (P : tree -> built -> Prop).
  Hypothesis H1 : forall id, P (Leaf id) (BLeaf id).
  Hypothesis H2 : forall id ts bs, Forall2 (expandsTo lib) ts bs -> Forall2 P ts bs -> P (Lst id ts) (BLst id bs).
  Hypothesis H3 : forall id ref t b, lib ref = Some t -> expandsTo lib t b -> P t b -> P (Call id ref) (BCall id b).
  Fixpoint expandsTo_ind' (t : tree) (b : built) (H : expandsTo lib t b) {struct H} : P t b :=
    match H in expandsTo _ t0 b0 return P t0 b0 with
    | ex_leaf _ id => H1 id
    | ex_list _ id ts bs F => H2 id ts bs F
        ((fix go (l : list tree) (m : list built) (G : Forall2 (expandsTo lib) l m) {struct G} : Forall2 P l m :=
          match G in Forall2 _ l0 m0 return Forall2 P l0 m0 with
          | Forall2_nil _ => Forall2_nil P
          | Forall2_cons _ _ g G' => Forall2_cons _ _ (expandsTo_ind' _ _ g) (go _ _ G')
          end) ts bs F)
    | ex_call _ id ref t' b' E X => H3 id ref t' b' E X (expandsTo_ind' t' b' X)
    end.
End EInd.
Theorem C57_expansion_complete : forall lib t b, expandsTo lib t b <-> exists f, forall f', f <= f' -> expand lib f' t = Built b.
Proof.
  intros lib t b. split.
  - intros H. induction H as [id|id ts bs F IH|id ref t b E X IH] using expandsTo_ind'.
    + exists 1. intros [|f'] L; [lia|reflexivity].
    + assert (G : exists f, forall acc, expandList lib f id ts acc = Built (BLst id (rev acc ++ bs))).
      { clear F. induction IH as [|k b ks bs Hk _ IK].
        - exists 0. intros acc. rewrite app_nil_r. reflexivity.
        - destruct IK as (f1 & F1). destruct Hk as (f2 & F2). exists (max f1 f2). intros acc. rewrite expandList_cons.
          rewrite F2 by lia. rewrite (expandList_mono lib id ks (b :: acc) _ f1 (max f1 f2) ltac:(lia) (F1 _)) by discriminate.
          cbn [rev]. rewrite <- app_assoc. reflexivity. }
      destruct G as (f & F'). exists (S f). intros [|f'] L; [lia|]. rewrite expand_S_list.
      rewrite (expandList_mono lib id ts [] _ f f' ltac:(lia) (F' [])) by discriminate. reflexivity.
    + destruct IH as (f & F). exists (S f). intros [|f'] L; [lia|]. cbn [expand]. rewrite E, F by lia. reflexivity.
  - intros (f & F). apply (expand_sound lib f). apply F. lia.
Qed.
(** Libraries that call each other in a cycle (a library that calls itself, for instance) are never
    expanded: no error is reported either, and the depth of recursion has no bound. *)
Theorem C57_recursive_library_never_loads_refuted : forall lib (S : nat -> Prop) t,
  (forall r t' c, lib r = Some t' -> In c (callsIn t') -> lib c <> None) ->
  (forall r, S r -> exists t', lib r = Some t' /\ exists c, In c (callsIn t') /\ S c) ->
  (forall c, In c (callsIn t) -> lib c <> None) ->
  (exists c, In c (callsIn t) /\ S c) ->
  forall f, expand lib f t = TooDeep.
Proof.
  intros lib S t HL HS HT HC f. revert t HT HC.
  assert (NF : forall f t, (forall c, In c (callsIn t) -> lib c <> None) -> expand lib f t <> NotFound).
  { clear - HL. induction f as [|f IH]; intros t HT; [discriminate|]. destruct t as [id|id ts|id ref].
    - discriminate.
    - rewrite expand_S_list. assert (G : forall ks acc, incl ks ts -> expandList lib f id ks acc <> NotFound).
      { induction ks as [|k ks IK]; intros acc HI; [discriminate|]. rewrite expandList_cons.
        assert (N : expand lib f k <> NotFound).
        { apply IH. intros c Hc. apply HT. apply callsIn_lst. exists k. split; [apply HI; left; reflexivity|exact Hc]. }
        destruct (expand lib f k); [apply IK; intros x Hx; apply HI; right; exact Hx|congruence|discriminate]. }
      apply G. apply incl_refl.
    - cbn [expand]. destruct (lib ref) as [t'|] eqn:E.
      + assert (N : expand lib f t' <> NotFound) by (apply IH; intros c Hc; eapply HL; eauto).
        destruct (expand lib f t'); congruence.
      + elim (HT ref (or_introl eq_refl)). exact E. }
  induction f as [|f IH]; intros t HT HC; [reflexivity|]. destruct t as [id|id ts|id ref].
  - destruct HC as (c & [] & _).
  - rewrite expand_S_list. destruct HC as (c & Hc & Sc). apply callsIn_lst in Hc. destruct Hc as (k0 & K1 & K2).
    assert (G : forall ks acc, incl ks ts -> In k0 ks -> expandList lib f id ks acc = TooDeep).
    { induction ks as [|k ks IK]; intros acc HI HK; [contradiction|]. rewrite expandList_cons.
      assert (HTk : forall c', In c' (callsIn k) -> lib c' <> None).
      { intros c' Hc'. apply HT. apply callsIn_lst. exists k. split; [apply HI; left; reflexivity|exact Hc']. }
      destruct HK as [->|HK].
      - rewrite IH; [reflexivity|exact HTk|exists c; auto].
      - pose proof (NF f k HTk) as N. destruct (expand lib f k); [|congruence|reflexivity].
        apply IK; [intros x Hx; apply HI; right; exact Hx|exact HK]. }
    apply G; [apply incl_refl|exact K1].
  - destruct HC as (c & [->|[]] & Sc). cbn [expand]. destruct (HS c Sc) as (t' & E & HC'). rewrite E.
    rewrite IH; [reflexivity| |exact HC']. intros c' Hc'. eapply HL; eauto.
Qed.
(** Examples: libraries 2 (calling 3) and 3 (a leaf); a library 4 that calls itself. *)
Definition exLib (r : nat) : option tree :=
  match r with 2 => Some (Lst 20 [Leaf 21; Call 22 3]) | 3 => Some (Leaf 30) | 4 => Some (Lst 40 [Call 41 4]) | _ => None end.
Theorem C57_example :
  expand exLib 10 (Lst 0 [Call 1 2; Leaf 5]) = Built (BLst 0 [BCall 1 (BLst 20 [BLeaf 21; BCall 22 (BLeaf 30)]); BLeaf 5])
  /\ expand exLib 10 (Call 1 9) = NotFound
  /\ forall f, expand exLib f (Call 1 4) = TooDeep.
Proof.
  split; [reflexivity|]. split; [reflexivity|].
  apply (C57_recursive_library_never_loads_refuted exLib (fun r => r = 4)).
  - intros r t' c. unfold exLib at 1. destruct r as [|[|[|[|[|r]]]]]; try discriminate; intros H; injection H as <-; cbn; intuition (subst; discriminate).
  - intros r ->. eexists. split; [reflexivity|]. exists 4. split; [left; reflexivity|reflexivity].
  - intros c [<-|[]]. discriminate.
  - exists 4. split; [left; reflexivity|reflexivity].
Qed.

(** Assumptions *)
Print Assumptions C52_lexical_scoping_partial.
Print Assumptions C52_caller_invisible_partial.
Print Assumptions C52_example.
Print Assumptions C52_bare_root_captures_caller_refuted.
Print Assumptions C53_in_read_only.
Print Assumptions C53_in_view_partial.
Print Assumptions C53_in_default_partial.
Print Assumptions C53_inout_partial.
Print Assumptions C53_local.
Print Assumptions C53_example.
Print Assumptions C53_in_array_written_refuted.
Print Assumptions C53_in_array_written_general_refuted.
Print Assumptions C53_date_parameter_refuted.
Print Assumptions C53_in_default_type_refuted.
Print Assumptions C53_inout_array_default_refuted.
Print Assumptions C54_check.
Print Assumptions C54_resolution_partial.
Print Assumptions C54_local_mutex.
Print Assumptions C54_example.
Print Assumptions C54_caller_mutex_captures_refuted.
Print Assumptions C55_node_id_partial.
Print Assumptions C55_node_reference_partial.
Print Assumptions C55_stays_in_document_partial.
Print Assumptions C55_example.
Print Assumptions C55_library_file_name_refuted.
Print Assumptions C55_child_named_as_parent_refuted.
Print Assumptions C57_expansion_ends_partial.
Print Assumptions C57_expansion_complete.
Print Assumptions C57_recursive_library_never_loads_refuted.
Print Assumptions C57_example.
Print Assumptions C53_in_array_written_nested_refuted.
