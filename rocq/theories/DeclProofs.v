(** Proofs for C69: declarations. *)
From Coq Require Import ZArith List Bool String Lia.
From Verif Require Import ValueModel UdpQueueModel OpModel TypeModel LitModel DeclModel DeclSpec.
Import ListNotations.
Open Scope string_scope.
Open Scope list_scope.
Open Scope Z_scope.

Ltac inWords H := repeat (destruct H as [H|H]; [inversion H; subst; clear H|]); [..|destruct H].
Lemma word_typ s t : In (s, t) typeWords -> typ s = t /\ empty s = false /\ (Z.eqb t 0 = false \/ s = "Any").
Proof. intros H. unfold typeWords in H. cbn [In] in H. inWords H; (split; [vm_compute; reflexivity|split; [reflexivity|auto]]). Qed.
Lemma word_elt s t : In (s, t) elementWords -> arrayOf (typ s) = t /\ empty s = false /\ Z.eqb t 0 = false /\ Z.eqb (typ s) 0 = false /\ isScalar (typ s) = true.
Proof. intros H. unfold elementWords in H. cbn [In] in H. inWords H; repeat split. Qed.

Lemma value_ok tag v t : means v t -> checkValueDecl (xValue tag v) = true /\ valueDecl (xValue tag v) = t.
Proof.
  destruct v as [nm ty mx]. unfold means. cbn [v_max v_type v_name]. intros H.
  destruct mx as [m|].
  - destruct (word_elt _ _ H) as (A & B & C & D & E).
    destruct nm as [nm|]; (split; [unfold checkValueDecl, xValue; cbn -[typ arrayOf]; rewrite B; unfold UNKNOWN_TYPE; rewrite D, A, C; reflexivity
      | unfold valueDecl, xValue; cbn -[typ arrayOf]; exact A]).
  - destruct (word_typ _ _ H) as (A & B & C).
    assert (CV : checkValueDecl (xValue tag (mkV nm ty None)) = negb (empty ty) && (negb (Z.eqb (typ ty) UNKNOWN_TYPE) || String.eqb ty "Any") && true)
      by (destruct nm; reflexivity).
    assert (VD : valueDecl (xValue tag (mkV nm ty None)) = typ ty) by (destruct nm; reflexivity).
    rewrite CV, VD, B, A. split; [|reflexivity]. unfold UNKNOWN_TYPE.
    destruct C as [C|C]; rewrite C; [reflexivity|]. rewrite String.eqb_refl, orb_true_r. reflexivity.
Qed.
Lemma params_ok ps any : Forall meaningful ps -> checkParams (map (xValue "Parameter") ps ++ xAny any) = Some (xAny any).
Proof.
  intros F. induction F as [|v ps [t H] F IH]; [destruct any; reflexivity|].
  cbn [map app checkParams]. change (is "Parameter" (xValue "Parameter" v)) with true. cbn iota.
  rewrite (proj1 (value_ok "Parameter" v t H)). exact IH.
Qed.
Lemma named_params ps any : named "Parameter" (map (xValue "Parameter") ps ++ xAny any) = map (xValue "Parameter") ps.
Proof.
  induction ps as [|v ps IH]; [destruct any; reflexivity|].
  cbn [map app]. unfold named in *. cbn [filter]. change (is "Parameter" (xValue "Parameter" v)) with true. cbn iota. now rewrite IH.
Qed.
Lemma find_any ps any : find "AnyParameters" (map (xValue "Parameter") ps ++ xAny any) = if any then Some (El "AnyParameters" [], []) else None.
Proof.
  induction ps as [|v ps IH]; [destruct any; reflexivity|].
  cbn [map app find]. change (is "AnyParameters" (xValue "Parameter" v)) with false. exact IH.
Qed.
Lemma find_return ps any : find "Return" (map (xValue "Parameter") ps ++ xAny any) = None.
Proof.
  induction ps as [|v ps IH]; [destruct any; reflexivity|].
  cbn [map app find]. change (is "Return" (xValue "Parameter" v)) with false. exact IH.
Qed.
Lemma params_mean ps : Forall meaningful ps -> Forall2 means ps (map valueDecl (map (xValue "Parameter") ps)).
Proof.
  intros F. induction F as [|v ps [t H] F IH]; [constructor|]. cbn [map]. constructor; [|exact IH].
  now rewrite (proj2 (value_ok "Parameter" v t H)).
Qed.
Lemma empty_ne n : nonempty n -> empty n = false.
Proof. unfold nonempty. destruct n; [congruence|reflexivity]. Qed.

Lemma command_sym n ret ps any : wf (DCommand n ret ps any) ->
  checkDecl (xDecl (DCommand n ret ps any)) = true /\ sigMeans ret ps any (readSym (xDecl (DCommand n ret ps any))).
Proof.
  intros (Hn & Hr & Hp). unfold checkDecl, xDecl. change (is "CommandDeclaration" (El "CommandDeclaration" (text "Name" n :: opt (xValue "Return") ret ++ map (xValue "Parameter") ps ++ xAny any))) with true.
  cbn iota. unfold checkCommandDecl. cbn [kidsOf checkName]. change (is "Name" (text "Name" n)) with true.
  change (childValue (text "Name" n)) with n. rewrite (empty_ne _ Hn). cbn [andb negb].
  assert (PK := params_ok ps any Hp).
  split.
  - destruct ret as [v|].
    + cbn [opt app]. change (is "Return" (xValue "Return" v)) with true. cbn iota.
      destruct (Hr v eq_refl) as [t Ht]. rewrite (proj1 (value_ok "Return" v t Ht)), PK. reflexivity.
    + cbn [opt app]. destruct (map (xValue "Parameter") ps ++ xAny any) as [|y r] eqn:E; [reflexivity|].
      assert (is "Return" y = false) as ->.
      { assert (F := find_return ps any). rewrite E in F. cbn [find] in F. destruct (is "Return" y); [discriminate|reflexivity]. }
      now rewrite PK.
  - assert (A : forall o, option_map fst (find "AnyParameters" (text "Name" n :: opt (xValue "Return") o ++ map (xValue "Parameter") ps ++ xAny any))
        = if any then Some (El "AnyParameters" []) else None).
    { intros o. cbn [find]. change (is "AnyParameters" (text "Name" n)) with false. cbn iota.
      destruct o as [v|]; cbn [opt app find]; [change (is "AnyParameters" (xValue "Return" v)) with false; cbn iota|]; rewrite find_any; destruct any; reflexivity. }
    assert (B : forall o, named "Parameter" (text "Name" n :: opt (xValue "Return") o ++ map (xValue "Parameter") ps ++ xAny any) = map (xValue "Parameter") ps).
    { intros o. unfold named. cbn [filter]. change (is "Parameter" (text "Name" n)) with false. cbn iota.
      destruct o as [v|]; cbn [opt app filter]; [change (is "Parameter" (xValue "Return" v)) with false; cbn iota|]; apply named_params. }
    unfold readSym, child. cbn [kidsOf]. rewrite A, B.
    repeat split; cbn [s_ret s_par s_any].
    + cbn [find]. change (is "Return" (text "Name" n)) with false. cbn iota. destruct ret as [v|]; cbn [opt app find].
      * change (is "Return" (xValue "Return" v)) with true. cbn [option_map fst].
        destruct (Hr v eq_refl) as [t Ht]. rewrite (proj2 (value_ok "Return" v t Ht)). exact Ht.
      * now rewrite find_return.
    + now apply params_mean.
    + destruct any; reflexivity.
Qed.
Lemma state_sym n ret ps any : wf (DState n ret ps any) ->
  checkDecl (xDecl (DState n ret ps any)) = true /\ sigMeans (Some ret) ps any (readSym (xDecl (DState n ret ps any))).
Proof.
  intros (Hn & Hr & Hp).
  assert (W : wf (DCommand n (Some ret) ps any)) by (repeat split; auto; intros v [= <-]; exact Hr).
  destruct (command_sym _ _ _ _ W) as [_ SM]. split; [|exact SM].
  unfold checkDecl, xDecl. change (is "CommandDeclaration" (El "StateDeclaration" (text "Name" n :: xValue "Return" ret :: map (xValue "Parameter") ps ++ xAny any))) with false.
  change (is "StateDeclaration" (El "StateDeclaration" (text "Name" n :: xValue "Return" ret :: map (xValue "Parameter") ps ++ xAny any))) with true.
  cbn iota. unfold checkStateDecl. cbn [kidsOf checkName]. change (is "Name" (text "Name" n)) with true.
  change (childValue (text "Name" n)) with n. rewrite (empty_ne _ Hn). cbn [andb negb].
  change (is "Return" (xValue "Return" ret)) with true. destruct Hr as [t Ht].
  rewrite (proj1 (value_ok "Return" ret t Ht)), (params_ok ps any Hp). destruct any; reflexivity.
Qed.

Lemma var_check w t : nonempty (w_name w) -> varMeans w t ->
  (is "In" (xVar w) || is "InOut" (xVar w)) && checkIfDecls (kidsOf (xVar w)) = true /\
  ifType (w_arr w) (El (if w_arr w then "DeclareArray" else "DeclareVariable") [text "Name" (w_name w); text "Type" (w_type w)]) = t.
Proof.
  destruct w as [io ar n ty]. unfold varMeans. cbn [w_arr w_type w_name]. intros Hn H.
  assert (C : checkIfVar ar (El (if ar then "DeclareArray" else "DeclareVariable") [text "Name" n; text "Type" ty]) = true /\
    ifType ar (El (if ar then "DeclareArray" else "DeclareVariable") [text "Name" n; text "Type" ty]) = t).
  { destruct ar.
    - destruct (word_elt _ _ H) as (A & B & C & D & E). split.
      + unfold checkIfVar. cbn [kidsOf checkName]. change (is "Name" (text "Name" n)) with true. change (childValue (text "Name" n)) with n.
        rewrite (empty_ne _ Hn). cbn [andb negb]. change (is "Type" (text "Type" ty)) with true. change (childValue (text "Type" ty)) with ty.
        rewrite B, E, A. unfold UNKNOWN_TYPE. rewrite C. reflexivity.
      + unfold ifType. cbn -[typ arrayOf]. exact A.
    - destruct H as [H R]. destruct (word_typ _ _ H) as (A & B & _). split.
      + unfold checkIfVar. cbn [kidsOf checkName]. change (is "Name" (text "Name" n)) with true. change (childValue (text "Name" n)) with n.
        rewrite (empty_ne _ Hn). cbn [andb negb]. change (is "Type" (text "Type" ty)) with true. change (childValue (text "Type" ty)) with ty.
        rewrite B, A. cbn [negb andb orb]. unfold isScalar. rewrite andb_true_r. apply andb_true_iff. unfold UNKNOWN_TYPE. split; [apply Z.ltb_lt|apply Z.leb_le]; lia.
      + unfold ifType. cbn -[typ arrayOf]. exact A. }
  destruct C as [C1 C2]. split; [|exact C2].
  unfold xVar. cbn [w_inout w_arr w_name w_type kidsOf].
  destruct io, ar; cbn [is tagOf checkIfDecls forallb]; rewrite andb_true_r; exact C1.
Qed.
Lemma lib_list ws : Forall (fun w => nonempty (w_name w) /\ exists t, varMeans w t) ws ->
  forall l0, NoDup (map (fun v => fst (fst v)) l0 ++ map w_name ws) ->
  exists l, addIfs (map xVar ws) l0 = Some (l0 ++ l) /\ libMeans ws l.
Proof.
  intros F. induction F as [|w ws (Hn & t & Ht) F IH]; intros l0 ND.
  - exists []. split; [now rewrite app_nil_r|constructor].
  - destruct (var_check w t Hn Ht) as [_ TY].
    assert (M : mem (w_name w) (map (fun v => fst (fst v)) l0) = false).
    { destruct (mem _ _) eqn:M; [|reflexivity]. exfalso. unfold mem in M. apply existsb_exists in M. destruct M as (x & Hx & E).
      apply String.eqb_eq in E. subst x. cbn [map] in ND. apply NoDup_remove_2 in ND. apply ND, in_or_app. now left. }
    assert (STEP : addIfs (map xVar (w :: ws)) l0 = addIfs (map xVar ws) (l0 ++ [(w_name w, t, w_inout w)])).
    { destruct w as [io ar n ty]. cbn [w_name w_inout w_arr w_type] in *.
      cbn [map]. cbn [addIfs].
      assert (AV : addIfVar io ar (El (if ar then "DeclareArray" else "DeclareVariable") [text "Name" n; text "Type" ty]) l0 = Some (l0 ++ [(n, t, io)])).
      { unfold addIfVar. assert (valueOfChild "Name" (El (if ar then "DeclareArray" else "DeclareVariable") [text "Name" n; text "Type" ty]) = n) as -> by (destruct ar; reflexivity).
        rewrite M, TY. reflexivity. }
      match goal with |- match ?X with _ => _ end = _ => assert (X = Some (l0 ++ [(n, t, io)])) as ->; [|reflexivity] end.
      rewrite <- AV. destruct io, ar; cbn [is tagOf String.eqb Ascii.eqb Bool.eqb kidsOf addIfDecls xVar w_inout w_arr w_name w_type];
        match goal with |- match ?X with _ => _ end = _ => destruct X; reflexivity end. }
    rewrite STEP.
    destruct (IH (l0 ++ [(w_name w, t, w_inout w)])) as (l & E & LM).
    { rewrite map_app, <- app_assoc. exact ND. }
    exists ((w_name w, t, w_inout w) :: l). split; [rewrite E, <- app_assoc; reflexivity|].
    constructor; [|exact LM]. repeat split. exact Ht.
Qed.
Lemma lib_ok n ws : wf (DLib n ws) -> checkDecl (xDecl (DLib n ws)) = true /\ exists l, readLib (xDecl (DLib n ws)) = Some l /\ libMeans ws l.
Proof.
  intros (Hn & ND & F). split.
  - unfold checkDecl, xDecl. cbn [is tagOf String.eqb Ascii.eqb Bool.eqb].
    unfold checkLibDecl. cbn [kidsOf checkName]. change (is "Name" (text "Name" n)) with true. change (childValue (text "Name" n)) with n.
    rewrite (empty_ne _ Hn). cbn [andb negb]. change (is "Interface" (El "Interface" (map xVar ws))) with true. cbn iota. cbn [kidsOf].
    clear ND. induction F as [|w ws (Hw & t & Ht) F IH]; [reflexivity|]. cbn [map forallb]. rewrite (proj1 (var_check w t Hw Ht)). exact IH.
  - unfold readLib. change (child "Interface" (xDecl (DLib n ws))) with (Some (El "Interface" (map xVar ws))). cbn [kidsOf].
    destruct (lib_list ws F [] ND) as (l & E & LM). exists l. split; [exact E|exact LM].
Qed.
Lemma wf_check d : wf d -> checkDecl (xDecl d) = true.
Proof.
  destruct d; intros H; [apply command_sym, H|apply state_sym, H|apply lib_ok, H|].
  unfold checkDecl. cbn [xDecl is tagOf String.eqb Ascii.eqb Bool.eqb]. unfold checkMutexDecl. cbn [kidsOf checkName].
  change (is "Name" (text "Name" n)) with true. change (childValue (text "Name" n)) with n. rewrite (empty_ne _ H). reflexivity.
Qed.

(** ** The table *)
Definition cmdsOf (ds : list decl) : list (string * sym) :=
  flat_map (fun d => match d with DCommand n _ _ _ => [(n, readSym (xDecl d))] | _ => [] end) ds.
Definition looksOf (ds : list decl) : list (string * sym) :=
  flat_map (fun d => match d with DState n _ _ _ => [(n, readSym (xDecl d))] | _ => [] end) ds.
Definition mutexesOf (ds : list decl) : list string := flat_map (fun d => match d with DMutex n => [n] | _ => [] end) ds.
Definition libsOf (ds : list decl) : list (string * list ifvar) :=
  flat_map (fun d => match d with DLib n _ => [(n, match readLib (xDecl d) with Some l => l | None => [] end)] | _ => [] end) ds.
Lemma has_in {A} (m : list (string * A)) n : has m n = true <-> In n (map fst m).
Proof.
  unfold has. induction m as [|[k v] m IH]; cbn [lookup map fst In].
  - split; [discriminate|tauto].
  - destruct (String.eqb k n) eqn:E; [apply String.eqb_eq in E; subst; tauto|]. apply String.eqb_neq in E. rewrite IH. tauto.
Qed.
Lemma mem_in n l : mem n l = true <-> In n l.
Proof.
  unfold mem. rewrite existsb_exists. split; [intros (x & H & E); apply String.eqb_eq in E; now subst|].
  intros H. exists n. split; [exact H|apply String.eqb_refl].
Qed.
Definition keysT (T : table) : list (kind * string) :=
  map (fun x => (KCommand, fst x)) (t_cmd T) ++ map (fun x => (KState, fst x)) (t_look T) ++
  map (fun x => (KLib, fst x)) (t_lib T) ++ map (pair KMutex) (t_mutex T).
Lemma in_keysT k n T : In (k, n) (keysT T) <->
  match k with KCommand => In n (map fst (t_cmd T)) | KState => In n (map fst (t_look T)) | KLib => In n (map fst (t_lib T)) | KMutex => In n (t_mutex T) end.
Proof.
  unfold keysT. rewrite !in_app_iff, !in_map_iff.
  split.
  - intros [(x & E & H)|[(x & E & H)|[(x & E & H)|(x & E & H)]]]; inversion E; subst; try exact H; apply in_map_iff; exists x; auto.
  - destruct k; rewrite ?in_map_iff; [intros (x & E & H)|intros (x & E & H)|intros (x & E & H)|intros H].
    + left. exists x. subst. auto.
    + right; left. exists x. subst. auto.
    + right; right; left. exists x. subst. auto.
    + right; right; right. exists n. auto.
Qed.
Definition plusT (T : table) (ds : list decl) : table :=
  mkT (t_cmd T ++ cmdsOf ds) (t_look T ++ looksOf ds) (t_mutex T ++ mutexesOf ds) (t_lib T ++ libsOf ds).
Lemma xname d : valueOfChild "Name" (xDecl d) = snd (key d).
Proof. destruct d; reflexivity. Qed.
Lemma parse_one d T g : wf d -> 
  parseDecl (xDecl d) (g, T) =
  (match d with DMutex n => if mem n (t_mutex T) then g else if mem n g then g else g ++ [n] | _ => g end,
   if existsb (fun k => match k, d with
       | (KCommand, n), DCommand m _ _ _ | (KState, n), DState m _ _ _ | (KLib, n), DLib m _ | (KMutex, n), DMutex m => String.eqb n m | _, _ => false end) (keysT T)
   then None else Some (plusT T [d])).
Proof.
  intros W. unfold parseDecl. rewrite xname.
  assert (EX : forall k n (f : kind * string -> bool), (forall x, f x = true <-> x = (k, n)) -> existsb f (keysT T) = true <-> In (k, n) (keysT T)).
  { intros k n f H. rewrite existsb_exists. split; [intros (x & Hx & E); apply H in E; now subst|]. intros H'. exists (k, n). split; [exact H'|]. now apply H. }
  destruct d as [n ret ps any|n ret ps any|n ws|n]; cbn [key snd].
  - change (is "CommandDeclaration" (xDecl (DCommand n ret ps any))) with true. cbn iota. f_equal.
    match goal with |- _ = if existsb ?f _ then _ else _ => assert (H : forall x, f x = true <-> x = (KCommand, n)) end.
    { intros [[] m]; cbn beta iota; rewrite ?String.eqb_eq; split; congruence. }
    specialize (EX KCommand n _ H). rewrite in_keysT, <- has_in in EX. unfold plusT. cbn [cmdsOf looksOf mutexesOf libsOf flat_map app]. rewrite !app_nil_r.
    destruct (has (t_cmd T) n), (existsb _ (keysT T)); try reflexivity; exfalso; destruct EX as [E1 E2]; discriminate (E1 eq_refl) || discriminate (E2 eq_refl).
  - change (is "CommandDeclaration" (xDecl (DState n ret ps any))) with false. change (is "StateDeclaration" (xDecl (DState n ret ps any))) with true. cbn iota. f_equal.
    match goal with |- _ = if existsb ?f _ then _ else _ => assert (H : forall x, f x = true <-> x = (KState, n)) end.
    { intros [[] m]; cbn beta iota; rewrite ?String.eqb_eq; split; congruence. }
    specialize (EX KState n _ H). rewrite in_keysT, <- has_in in EX. unfold plusT. cbn [cmdsOf looksOf mutexesOf libsOf flat_map app]. rewrite !app_nil_r.
    destruct (has (t_look T) n), (existsb _ (keysT T)); try reflexivity; exfalso; destruct EX as [E1 E2]; discriminate (E1 eq_refl) || discriminate (E2 eq_refl).
  - change (is "CommandDeclaration" (xDecl (DLib n ws))) with false. change (is "StateDeclaration" (xDecl (DLib n ws))) with false.
    change (is "LibraryNodeDeclaration" (xDecl (DLib n ws))) with true. cbn iota. f_equal.
    destruct (proj2 (lib_ok n ws W)) as (l & El & _).
    match goal with |- _ = if existsb ?f _ then _ else _ => assert (H : forall x, f x = true <-> x = (KLib, n)) end.
    { intros [[] m]; cbn beta iota; rewrite ?String.eqb_eq; split; congruence. }
    specialize (EX KLib n _ H). rewrite in_keysT, <- has_in in EX. unfold plusT. cbn [cmdsOf looksOf mutexesOf libsOf flat_map app]. rewrite !app_nil_r, El.
    destruct (has (t_lib T) n), (existsb _ (keysT T)); try reflexivity; exfalso; destruct EX as [E1 E2]; discriminate (E1 eq_refl) || discriminate (E2 eq_refl).
  - change (is "CommandDeclaration" (xDecl (DMutex n))) with false. change (is "StateDeclaration" (xDecl (DMutex n))) with false.
    change (is "LibraryNodeDeclaration" (xDecl (DMutex n))) with false. change (is "DeclareMutex" (xDecl (DMutex n))) with true. cbn iota.
    match goal with |- _ = (_, if existsb ?f _ then _ else _) => assert (H : forall x, f x = true <-> x = (KMutex, n)) end.
    { intros [[] m]; cbn beta iota; rewrite ?String.eqb_eq; split; congruence. }
    specialize (EX KMutex n _ H). rewrite in_keysT, <- mem_in in EX. unfold plusT. cbn [cmdsOf looksOf mutexesOf libsOf flat_map app]. rewrite !app_nil_r.
    destruct (mem n (t_mutex T)), (existsb _ (keysT T)); try reflexivity; exfalso; destruct EX as [E1 E2]; discriminate (E1 eq_refl) || discriminate (E2 eq_refl).
Qed.
Lemma one_refused d T : existsb (fun k => match k, d with
       | (KCommand, n), DCommand m _ _ _ | (KState, n), DState m _ _ _ | (KLib, n), DLib m _ | (KMutex, n), DMutex m => String.eqb n m | _, _ => false end) (keysT T) = true
  <-> In (key d) (keysT T).
Proof.
  rewrite existsb_exists. split.
  - intros ([k n] & H & E). destruct k, d; try discriminate; apply String.eqb_eq in E; subst; exact H.
  - intros H. exists (key d). split; [exact H|]. destruct d; cbn [key]; apply String.eqb_refl.
Qed.
Lemma keys_plus T d k : In k (keysT (plusT T [d])) <-> In k (keysT T) \/ k = key d.
Proof.
  destruct k as [k n]. rewrite !in_keysT. unfold plusT. cbn [t_cmd t_look t_lib t_mutex].
  destruct d as [m ? ? ?|m ? ? ?|m ?|m], k; rewrite ?map_app, in_app_iff; cbn [cmdsOf looksOf mutexesOf libsOf flat_map app map fst In key]; intuition congruence.
Qed.
Lemma plus_plus T d ds : plusT (plusT T [d]) ds = plusT T (d :: ds).
Proof.
  unfold plusT. cbn [t_cmd t_look t_lib t_mutex]. f_equal; rewrite <- app_assoc; f_equal; cbn [cmdsOf looksOf mutexesOf libsOf flat_map]; rewrite app_nil_r; reflexivity.
Qed.
Lemma parse_all ds : Forall wf ds -> forall T g, 
  (NoDup (map key ds) /\ (forall d, In d ds -> ~ In (key d) (keysT T)) ->
   exists g', parseDecls (map xDecl ds) (g, T) = (g', Some (plusT T ds)) /\ (forall n, In n g' <-> In n g \/ In (DMutex n) ds)) /\
  (~ (NoDup (map key ds) /\ (forall d, In d ds -> ~ In (key d) (keysT T))) -> snd (parseDecls (map xDecl ds) (g, T)) = None).
Proof.
  intros F. induction F as [|d ds W F IH]; intros T g.
  - split.
    + intros _. exists g. split; [|cbn [In]; tauto]. cbn [map parseDecls fst snd]. f_equal. f_equal. unfold plusT. cbn [cmdsOf looksOf mutexesOf libsOf flat_map]. rewrite !app_nil_r. destruct T; reflexivity.
    + intros H. exfalso. apply H. split; [constructor|]. intros ? [].
  - cbn [map parseDecls]. rewrite (parse_one d T g W).
    set (g1 := match d with DMutex n => _ | _ => g end).
    destruct (existsb _ (keysT T)) eqn:EX.
    + apply one_refused in EX. split; [|reflexivity]. intros [_ H]. exfalso. apply (H d); [now left|exact EX].
    + assert (NI : ~ In (key d) (keysT T)) by (intros H; apply one_refused in H; congruence).
      destruct (IH (plusT T [d]) g1) as [P1 P2].
      assert (EQ : NoDup (map key (d :: ds)) /\ (forall d0, In d0 (d :: ds) -> ~ In (key d0) (keysT T)) <->
                   NoDup (map key ds) /\ (forall d0, In d0 ds -> ~ In (key d0) (keysT (plusT T [d])))).
      { cbn [map]. split.
        - intros [N H]. inversion N as [|? ? N1 N2]; subst. split; [exact N2|]. intros d0 H0 K. apply keys_plus in K. destruct K as [K|K]; [apply (H d0); [now right|exact K]|].
          apply N1. rewrite <- K. apply in_map, H0.
        - intros [N H]. split.
          + constructor; [|exact N]. intros K. apply in_map_iff in K. destruct K as (d0 & E0 & K). apply (H d0 K). apply keys_plus. right. exact E0.
          + intros d0 [<-|H0] K; [exact (NI K)|]. apply (H d0 H0). apply keys_plus. now left. }
      split.
      * intros H. destruct (P1 (proj1 EQ H)) as (g' & E & G). exists g'. split; [rewrite E, plus_plus; reflexivity|].
        intros n. rewrite G. subst g1. cbn [In].
        destruct d as [m r p a|m r p a|m ws|m]; try (intuition congruence).
        assert (NM : mem m (t_mutex T) = false).
        { destruct (mem m (t_mutex T)) eqn:M; [|reflexivity]. exfalso. apply NI. apply in_keysT. cbn [key]. now apply mem_in. }
        rewrite NM. destruct (mem m g) eqn:M.
        -- apply mem_in in M. split; [tauto|]. intros [H1|[H1|H1]]; auto. left. inversion H1; subst. exact M.
        -- rewrite in_app_iff. cbn [In]. intuition congruence.
      * intros H. apply P2. intros H'. apply H, EQ, H'.
Qed.
Lemma lookup_in {A} (m : list (string * A)) n v : lookup m n = Some v -> In (n, v) m.
Proof.
  induction m as [|[k w] m IH]; cbn [lookup]; [discriminate|]. destruct (String.eqb k n) eqn:E; [apply String.eqb_eq in E; subst; intros [= ->]; now left|]. intros H; right; auto.
Qed.
Lemma lookup_none {A} (m : list (string * A)) n : lookup m n = None -> ~ In n (map fst m).
Proof. intros H I. apply has_in in I. unfold has in I. rewrite H in I. discriminate. Qed.
Lemma says_plus ds : Forall wf ds -> says (plusT noTable ds) ds.
Proof.
  intros F. rewrite Forall_forall in F. unfold says, plusT, noTable. cbn [t_cmd t_look t_lib t_mutex app]. split; [|split; [|split]].
  - intros n. destruct (lookup (cmdsOf ds) n) as [s|] eqn:E.
    + apply lookup_in in E. apply in_flat_map in E. destruct E as (d & Hd & E). destruct d as [m r p a| | |]; cbn [In] in E; try tauto.
      destruct E as [E|[]]. inversion E; subst. exists r, p, a. split; [exact Hd|]. apply command_sym, (F _ Hd).
    + intros r p a H. apply lookup_none in E. apply E. apply in_map_iff. exists (n, readSym (xDecl (DCommand n r p a))). split; [reflexivity|].
      apply in_flat_map. exists (DCommand n r p a). split; [exact H|now left].
  - intros n. destruct (lookup (looksOf ds) n) as [s|] eqn:E.
    + apply lookup_in in E. apply in_flat_map in E. destruct E as (d & Hd & E). destruct d as [|m r p a| |]; cbn [In] in E; try tauto.
      destruct E as [E|[]]. inversion E; subst. exists r, p, a. split; [exact Hd|]. apply (proj2 (state_sym _ _ _ _ (F _ Hd))).
    + intros r p a H. apply lookup_none in E. apply E. apply in_map_iff. exists (n, readSym (xDecl (DState n r p a))). split; [reflexivity|].
      apply in_flat_map. exists (DState n r p a). split; [exact H|now left].
  - intros n. destruct (lookup (libsOf ds) n) as [l|] eqn:E.
    + apply lookup_in in E. apply in_flat_map in E. destruct E as (d & Hd & E). destruct d as [| |m ws|]; cbn [In] in E; try tauto.
      destruct E as [E|[]]. inversion E; subst. exists ws. split; [exact Hd|].
      destruct (proj2 (lib_ok _ _ (F _ Hd))) as (l & El & LM). change (libMeans ws (match readLib (xDecl (DLib n ws)) with Some l => l | None => [] end)). rewrite El. exact LM.
    + intros ws H. apply lookup_none in E. apply E. apply in_map_iff. eexists. split; [|apply in_flat_map; exists (DLib n ws); split; [exact H|now left]]. reflexivity.
  - intros n. unfold mutexesOf. rewrite in_flat_map. split.
    + intros (d & Hd & E). destruct d; cbn [In] in E; try tauto. destruct E as [<-|[]]. exact Hd.
    + intros H. exists (DMutex n). split; [exact H|now left].
Qed.
Lemma check_all ds : Forall wf ds -> checkDecls (xDecls ds) = true.
Proof.
  intros F. unfold checkDecls, xDecls. cbn [kidsOf]. induction F as [|d ds W F IH]; [reflexivity|]. cbn [map forallb]. rewrite (wf_check d W). exact IH.
Qed.
Lemma decls_accepted ds g : Forall wf ds -> NoDup (map key ds) ->
  exists g', readDecls (Some (xDecls ds)) g = (g', Some (plusT noTable ds)) /\ (forall n, In n g' <-> In n g \/ In (DMutex n) ds).
Proof.
  intros F N. unfold readDecls. rewrite (check_all ds F). cbn [xDecls kidsOf]. apply (proj1 (parse_all ds F noTable g)). split; [exact N|]. intros d _ [].
Qed.
(** ** Two declarations of one name are refused, whatever the XML *)
Definition keyX (x : xml) : string * string := (tagOf x, valueOfChild "Name" x).
Definition keysX (T : table) : list (string * string) :=
  map (fun x => ("CommandDeclaration", fst x)) (t_cmd T) ++ map (fun x => ("StateDeclaration", fst x)) (t_look T) ++
  map (fun x => ("LibraryNodeDeclaration", fst x)) (t_lib T) ++ map (pair "DeclareMutex") (t_mutex T).
Lemma parse_key d g T g' T' : checkDecl d = true -> parseDecl d (g, T) = (g', Some T') ->
  ~ In (keyX d) (keysX T) /\ (forall k, In k (keysX T') <-> In k (keysX T) \/ k = keyX d).
Proof.
  intros C H. unfold parseDecl in H. unfold checkDecl in C. unfold keyX.
  destruct (is "CommandDeclaration" d) eqn:E1; [|destruct (is "StateDeclaration" d) eqn:E2; [|destruct (is "LibraryNodeDeclaration" d) eqn:E3; [|destruct (is "DeclareMutex" d) eqn:E4]]];
    try discriminate C; unfold is in *.
  - apply String.eqb_eq in E1. rewrite E1. destruct (has (t_cmd T) _) eqn:K; inversion H; subst. 
    assert (~ In (valueOfChild "Name" d) (map fst (t_cmd T))) as K' by (rewrite <- has_in; congruence).
    unfold keysX; cbn [t_cmd t_look t_lib t_mutex]; rewrite ?map_app; cbn [map fst]. split.
    + rewrite !in_app_iff, !in_map_iff. intros [(x & X & I)|[(x & X & I)|[(x & X & I)|(x & X & I)]]]; inversion X; subst. apply K'. apply in_map_iff. eexists; split; [|exact I]; auto.
    + intros k. rewrite !in_app_iff. cbn [In]. intuition congruence.
  - apply String.eqb_eq in E2. rewrite E2. destruct (has (t_look T) _) eqn:K; inversion H; subst. 
    assert (~ In (valueOfChild "Name" d) (map fst (t_look T))) as K' by (rewrite <- has_in; congruence).
    unfold keysX; cbn [t_cmd t_look t_lib t_mutex]; rewrite ?map_app; cbn [map fst]. split.
    + rewrite !in_app_iff, !in_map_iff. intros [(x & X & I)|[(x & X & I)|[(x & X & I)|(x & X & I)]]]; inversion X; subst. apply K'. apply in_map_iff. eexists; split; [|exact I]; auto.
    + intros k. rewrite !in_app_iff. cbn [In]. intuition congruence.
  - apply String.eqb_eq in E3. rewrite E3. destruct (has (t_lib T) _) eqn:K; [inversion H|]. destruct (readLib d) as [l|]; inversion H; subst. 
    assert (~ In (valueOfChild "Name" d) (map fst (t_lib T))) as K' by (rewrite <- has_in; congruence).
    unfold keysX; cbn [t_cmd t_look t_lib t_mutex]; rewrite ?map_app; cbn [map fst]. split.
    + rewrite !in_app_iff, !in_map_iff. intros [(x & X & I)|[(x & X & I)|[(x & X & I)|(x & X & I)]]]; inversion X; subst. apply K'. apply in_map_iff. eexists; split; [|exact I]; auto.
    + intros k. rewrite !in_app_iff. cbn [In]. intuition congruence.
  - apply String.eqb_eq in E4. rewrite E4. destruct (mem _ (t_mutex T)) eqn:K; inversion H; subst. 
    assert (~ In (valueOfChild "Name" d) (t_mutex T)) as K' by (rewrite <- mem_in; congruence).
    unfold keysX; cbn [t_cmd t_look t_lib t_mutex]; rewrite ?map_app; cbn [map fst]. split.
    + rewrite !in_app_iff, !in_map_iff. intros [(x & X & I)|[(x & X & I)|[(x & X & I)|(x & X & I)]]]; inversion X; subst. apply K'. exact I.
    + intros k. rewrite !in_app_iff. cbn [In]. intuition congruence.
Qed.
Lemma parse_nodup ds : forall g T, forallb checkDecl ds = true -> snd (parseDecls ds (g, T)) <> None ->
  NoDup (map keyX ds) /\ (forall d, In d ds -> ~ In (keyX d) (keysX T)).
Proof.
  induction ds as [|d ds IH]; intros g T C H.
  - split; [constructor|]. intros ? [].
  - cbn [forallb] in C. apply andb_prop in C. destruct C as [C1 C2]. cbn [parseDecls] in H.
    destruct (parseDecl d (g, T)) as [g1 [T1|]] eqn:P; [|now cbn in H].
    destruct (parse_key _ _ _ _ _ C1 P) as [K1 K2]. destruct (IH g1 T1 C2 H) as [N1 N2]. cbn [map]. split.
    + constructor; [|exact N1]. intros I. apply in_map_iff in I. destruct I as (d0 & E & I). apply (N2 d0 I). apply K2. right. exact E.
    + intros d0 [<-|I]; [exact K1|]. intros K. apply (N2 d0 I). apply K2. now left.
Qed.
