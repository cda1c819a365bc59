(** C69: declared signatures of commands and lookups are enforced when a plan is loaded. *)
From Coq Require Import ZArith List Bool String Lia.
From Verif Require Import ValueModel OpModel TypeModel DeclModel DeclSpec DeclProofs DeclProofs2 DeclProofs3 DeclProofs4 DeclProofs5.
Import ListNotations.
Open Scope string_scope.
Open Scope list_scope.
Open Scope Z_scope.

(** Well written declarations with different names are accepted, and the table says exactly what they say;
    the mutexes declared become global, in addition to those there are. *)
Theorem C69_declarations ds g : Forall wf ds -> NoDup (map key ds) ->
  exists g' T, readDecls (Some (xDecls ds)) g = (g', Some T) /\ says T ds /\ (forall n, In n g' <-> In n g \/ In (DMutex n) ds).
Proof.
  intros F N. destruct (decls_accepted ds g F N) as (g' & E & G). exists g', (plusT noTable ds). split; [exact E|]. split; [now apply says_plus|exact G].
Qed.
(** Exactly these declarations are accepted, whatever the XML: all well formed, no two of a kind with one name, and no two interface
    variables of a library with one name. *)
Theorem C69_which_declarations x g : snd (readDecls (Some x) g) <> None <->
  (forall d, In d (kidsOf x) -> declWellFormed d) /\ NoDup (map (fun d => (tagOf d, valueOfChild "Name" d)) (kidsOf x)) /\
  (forall d, In d (kidsOf x) -> tagOf d = "LibraryNodeDeclaration" -> NoDup (interfaceNames d)).
Proof. apply read_iff. Qed.
(** Whatever the XML: two declarations of the same kind with the same name are refused. *)
Theorem C69_duplicates x g : snd (readDecls (Some x) g) <> None -> NoDup (map (fun d => (tagOf d, valueOfChild "Name" d)) (kidsOf x)).
Proof.
  unfold readDecls. destruct (checkDecls x) eqn:C; [|intros H; now elim H]. intros H. apply (parse_nodup (kidsOf x) g noTable C H).
Qed.
(** Which plans are accepted: those all of whose documents (the plan and the libraries called, again and again) are
    in order by their own declarations, with library calls nested no deeper than the stack allows, and all libraries there. *)
Theorem C69_accepted files k d s : settled files s ->
  (accepted files k d s <-> shallow files k (snd d) /\ forall d', reaches files d d' -> docOk d' /\ forall lib, calls (snd d') lib -> files lib <> None).
Proof. apply accepted_iff. Qed.
(** Accepted or refused, a load leaves no table behind, and only libraries that are in order. *)
Theorem C69_settled files k d s : settled files s -> settled files (fst (parsePlan files k d s)).
Proof. apply settled_after. Qed.
(** A command whose name is written out and declared: the variable that takes its result fits the declared type, and so do the
    number and the types of the arguments, if there is an Arguments element. *)
Theorem C69_command files k d s d' T es c n g : settled files s -> accepted files k d s -> reaches files d d' -> declares d' T ->
  inside (PCommand es c) (snd d') -> c_name c = EStr n -> lookup (t_cmd T) n = Some g ->
  (forall v, c_dest c = Some v -> exists v1 v2, v = (Some v1, Some v2) /\ fits v1 (s_ret g) /\ fits v2 (s_ret g)) /\
  (forall l, c_args c = Some l -> exists ts, Forall2 (typed T 0) l ts /\ conforms g ts).
Proof.
  intros S0 A R D I N G. apply (C69_accepted files k d s S0) in A. destruct A as [_ A]. destruct (A d' R) as [(T' & D' & O) _].
  rewrite (declares_fun _ _ _ D D') in *. destruct (O _ I) as (_ & OC & _). destruct (OC _ _ eq_refl) as (_ & _ & OD & _ & t & Ht & _ & OD2 & OA).
  rewrite N in *. inversion Ht; subst. rewrite Z.eqb_refl in *. cbn [literal constOf declaredCommand] in *. split.
  - intros v E. destruct (OD v E) as (v1 & v2 & -> & F). exists v1, v2. split; [reflexivity|]. split; [auto|]. eapply OD2; eauto.
  - intros l E. destruct (OA l E) as (ts & F & C). exists ts. split; [exact F|]. apply C, G.
Qed.
(** A lookup, anywhere in an expression, whose name is written out and declared: the number and types of the arguments conform
    (no Arguments element: no arguments), and the value has the declared type. *)
Theorem C69_lookup files k d s d' T n e ch nm tol args g : settled files s -> accepted files k d s -> reaches files d d' -> declares d' T ->
  inside n (snd d') -> exprIn n e -> subexpr (ELookup ch (EStr nm) tol args) e -> lookup (t_look T) nm = Some g ->
  (exists ts, Forall2 (typed T 0) (match args with Some l => l | None => [] end) ts /\ conforms g ts) /\
  (forall d0 t, typed T d0 (ELookup ch (EStr nm) tol args) t -> t = s_ret g).
Proof.
  intros S0 A R D I X SU G. apply (C69_accepted files k d s S0) in A. destruct A as [_ A]. destruct (A d' R) as [(T' & D' & O) _].
  rewrite (declares_fun _ _ _ D D') in *. destruct (O _ I) as (OE & OC & OA).
  assert (TY : exists d0 t, typed T' d0 e t).
  { destruct X as [(d0 & X)|[(es & c & -> & X)|(es & lib & al & -> & X)]].
    - exists d0. apply (OE d0 e X).
    - destruct (OC _ _ eq_refl) as (RS & _ & _ & _ & t & Ht & _ & _ & AR). exists 0. destruct X as [->|[(l & E & Il)|(rs & r & f & E & Ir & If)]].
      + eauto.
      + destruct (AR l E) as (ts & F & _). apply (Forall2_has _ _ _ _ F Il).
      + destruct (RS rs E) as [RO _]. rewrite Forall_forall in RO. destruct (RO r Ir) as (_ & _ & H). destruct (H f e If) as [_ (u & Hu & _)]. eauto.
    - exists 0. exact (OA _ _ _ eq_refl e X). }
  destruct TY as (d0 & t & TY). destruct (typed_sub _ _ _ _ _ TY SU) as (d1 & t1 & T1). split.
  - inversion T1 as [| |? ? ? tn ? ? ts Hn Hs HA HC HT]; subst. exists ts. split; [exact HA|]. apply HC. exact G.
  - intros d2 t2 T2. inversion T2; subst. cbn [constOf declaredLookup]. rewrite G. reflexivity.
Qed.

(** ** Whose declarations *)
Lemma reach_from files d x : reaches files d x -> x = d \/ forall d', snd d' = snd d -> reaches files d' x.
Proof.
  intros R. induction R as [|d1 lib d2 R IH C F]; [now left|]. right. intros d' E. destruct IH as [->|IH].
  - eapply reach_call; [apply reach_self|rewrite E; exact C|exact F].
  - eapply reach_call; [apply (IH d' E)|exact C|exact F].
Qed.
(** The declarations of a plan matter for its own nodes only: with other declarations, under which its own nodes are in order, it is
    accepted again.  (Those of a library are never compared with what the caller declares.) *)
Theorem C69_own_declarations files k D D' n s : settled files s -> accepted files k (D, n) s -> docOk (D', n) -> accepted files k (D', n) s.
Proof.
  intros S0 A O. apply (C69_accepted _ _ _ _ S0) in A. apply (C69_accepted _ _ _ _ S0). destruct A as [SH A]. cbn [snd] in *. split; [exact SH|].
  intros d' R. destruct (reach_from _ _ _ R) as [->|R'].
  - split; [exact O|]. apply (A (D, n) (reach_self _ _)).
  - apply A. apply R'. reflexivity.
Qed.
(** A plan that only calls a library without arguments: whatever it declares. *)
Theorem C69_library_by_itself files k D D' lib s : settled files s -> accepted files k (D, PCall [] lib []) s -> (exists T, declares (D', PCall [] lib []) T) ->
  accepted files k (D', PCall [] lib []) s.
Proof.
  intros S0 A (T & DT). apply (C69_own_declarations files k D D' _ s S0 A). exists T. split; [exact DT|]. intros m I. apply inside_call in I. subst m.
  split; [intros ? ? []|]. split; [discriminate|]. intros ? ? ? [= <- <- <-] ? [].
Qed.
(** ** Where the checks do not reach *)
(** A command node without an Arguments element is accepted whatever parameters are declared. *)
Theorem C69_no_arguments_refuted files k s ds n ret ps any : settled files s -> Forall wf ds -> NoDup (map key ds) -> In (DCommand n ret ps any) ds -> ps <> [] ->
  exists T g, declares (Some (xDecls ds), PCommand [] (mkCmd None None (EStr n) None)) T /\ lookup (t_cmd T) n = Some g /\ ~ conforms g [] /\
  accepted files (S k) (Some (xDecls ds), PCommand [] (mkCmd None None (EStr n) None)) s.
Proof.
  intros S0 F N I NE. set (d := (Some (xDecls ds), PCommand [] (mkCmd None None (EStr n) None))).
  destruct (decls_accepted ds [] F N) as (g' & E & _). assert (D : declares d (plusT noTable ds)) by (unfold declares; cbn [d fst]; rewrite E; reflexivity).
  destruct (says_plus ds F) as (SC & _). specialize (SC n). destruct (lookup (t_cmd (plusT noTable ds)) n) as [g|] eqn:G; [|elim (SC ret ps any I)].
  exists (plusT noTable ds), g. split; [exact D|]. split; [exact G|]. split.
  - destruct SC as (ret' & ps' & any' & I' & _ & P & _).
    assert (DE : DCommand n ret' ps' any' = DCommand n ret ps any).
    { clear - N I I'. induction ds as [|x ds IH]; [destruct I|]. cbn [map] in N. inversion N as [|? ? N1 N2]; subst.
      destruct I as [->|I], I' as [E|I']; [congruence| |subst|auto].
      - elim N1. apply in_map_iff. exists (DCommand n ret' ps' any'). split; [reflexivity|exact I'].
      - elim N1. apply in_map_iff. exists (DCommand n ret ps any). split; [reflexivity|exact I]. }
    injection DE as -> -> ->. intros [[H|[_ H]] _]; cbn [length] in H; [|lia]. assert (LP : length ps = length (s_par g)) by (clear -P; induction P; cbn [length]; congruence). rewrite <- H in LP. destruct ps; [congruence|discriminate].
  - apply (C69_accepted _ _ _ _ S0). split; [intros l x C; elim (calls_command _ _ _ C)|]. intros d' R.
    assert (d' = d) as ->. { induction R as [|d1 lib d2 R IH C]; [reflexivity|]. subst d1. elim (calls_command _ _ _ C). }
    split; [|intros lib C; elim (calls_command _ _ _ C)]. exists (plusT noTable ds). split; [exact D|]. intros m Im. apply inside_command in Im. subst m.
    split; [intros ? ? []|]. split; [|discriminate]. intros es c [= <- <-]. unfold commandOk. cbn [c_res c_dest c_name c_args]. split; [discriminate|].
    split; [exists STRING_TYPE; split; [constructor|left; reflexivity]|]. split; [discriminate|]. split; [discriminate|]. exists STRING_TYPE. split; [constructor|]. split; [left; reflexivity|]. split; discriminate.
Qed.
(** Library declarations have no effect: with and without them the same plans are accepted. *)
Definition isLib (d : decl) : bool := match d with DLib _ _ => true | _ => false end.
Lemma checkE_ext T T' e : t_look T = t_look T' -> checkE (Some T) e = checkE (Some T') e.
Proof.
  intros E. induction e as [s|chk mk c kids IH|ch nm tol args IHn IHt IHa] using expr_ind'; [reflexivity| |].
  - cbn [checkE]. do 2 f_equal. apply map_ext_in. intros k I. rewrite Forall_forall in IH. auto.
  - cbn [checkE]. rewrite IHn. unfold lookSym. rewrite E. destruct (checkE (Some T') nm) as [tn|]; [|reflexivity]. cbn [obind]. destruct (isStringish tn); [|reflexivity].
    assert (TT : match tol with None => Some tt | Some e' => if ch then obind (checkE (Some T) e') (fun t => if numOrUnknown t then Some tt else None) else None end
               = match tol with None => Some tt | Some e' => if ch then obind (checkE (Some T') e') (fun t => if numOrUnknown t then Some tt else None) else None end).
    { destruct tol as [e'|]; [|reflexivity]. rewrite (IHt e' eq_refl). reflexivity. }
    rewrite TT. destruct args as [l|]; [|reflexivity]. assert (map (checkE (Some T)) l = map (checkE (Some T')) l) as ->; [|reflexivity].
    apply map_ext_in. intros a I. specialize (IHa l eq_refl). rewrite Forall_forall in IHa. auto.
Qed.
Lemma makeE_ext T T' e : t_look T = t_look T' -> forall d, makeE (Some T) d e = makeE (Some T') d e.
Proof.
  intros E. induction e as [s|chk mk c kids IH|ch nm tol args IHn IHt IHa] using expr_ind'; intros d; [reflexivity| |].
  - cbn [makeE]. do 2 f_equal. apply map_ext_in. intros k I. rewrite Forall_forall in IH. apply IH, I.
  - cbn [makeE]. rewrite IHn. unfold lookSym. rewrite E. destruct (makeE (Some T') UNKNOWN_TYPE nm) as [tn|]; [|reflexivity]. cbn [obind]. destruct (isStringish tn); [|reflexivity].
    assert (AA : match args with Some l => allSome (map (makeE (Some T) UNKNOWN_TYPE) l) | None => Some [] end = match args with Some l => allSome (map (makeE (Some T') UNKNOWN_TYPE) l) | None => Some [] end).
    { destruct args as [l|]; [|reflexivity]. f_equal. apply map_ext_in. intros a I. specialize (IHa l eq_refl). rewrite Forall_forall in IHa. apply IHa, I. }
    rewrite AA. destruct (match args with Some l => allSome (map (makeE (Some T') UNKNOWN_TYPE) l) | None => Some [] end) as [ts|]; [|reflexivity]. cbn [obind].
    destruct (argsOk _ ts); [|reflexivity]. destruct tol as [e'|]; [|reflexivity]. rewrite (IHt e' eq_refl). reflexivity.
Qed.
Lemma forallb_ext' {A} (f g : A -> bool) l : (forall a, f a = g a) -> forallb f l = forallb g l.
Proof. intros H. induction l as [|a l IH]; [reflexivity|]. cbn [forallb]. now rewrite H, IH. Qed.
Lemma nodeOk_ext T T' n : t_look T = t_look T' -> t_cmd T = t_cmd T' -> nodeOk T n -> nodeOk T' n.
Proof.
  intros E1 E2 (A & B & C).
  assert (CE : forall e t, checked T e t <-> checked T' e t) by (intros e t; rewrite <- !check_iff, (checkE_ext T T' e E1); reflexivity).
  assert (TE : forall d e t, typed T d e t <-> typed T' d e t) by (intros d e t; rewrite <- !make_iff, (makeE_ext T T' e E1); reflexivity).
  split; [|split].
  - intros d e I. destruct (A d e I) as [(t & H) (u & K)]. split; [exists t; now apply CE|exists u; now apply TE].
  - intros es c Ec. specialize (B es c Ec). apply command_iff in B. apply command_iff.
    assert (F1 : forall np f, checkField (Some T) np f = checkField (Some T') np f) by (intros [a b] f; unfold checkField; rewrite (checkE_ext T T' (snd f) E1); reflexivity).
    assert (F2 : forall l np, checkFields (Some T) np l = checkFields (Some T') np l).
    { induction l as [|f l IH]; intros np; [reflexivity|]. cbn [checkFields]. rewrite F1. destruct (checkField (Some T') np f) as [np'|]; [apply IH|reflexivity]. }
    assert (F3 : forall l, checkResource (Some T) l = checkResource (Some T') l) by (intros l; unfold checkResource; rewrite F2; reflexivity).
    assert (F4 : forall f, makeField (Some T) f = makeField (Some T') f) by (intros f; unfold makeField; rewrite (makeE_ext T T' (snd f) E1); reflexivity).
    assert (S1 : cmdSym (Some T) = cmdSym (Some T')) by (unfold cmdSym; rewrite E2; reflexivity).
    assert (CC : checkCommand (Some T) c = checkCommand (Some T') c).
    { unfold checkCommand. rewrite S1, (checkE_ext T T' (c_name c) E1).
      assert (match c_args c with Some l => forallb (fun e => match checkE (Some T) e with Some _ => true | None => false end) l | None => true end =
              match c_args c with Some l => forallb (fun e => match checkE (Some T') e with Some _ => true | None => false end) l | None => true end) as ->
        by (destruct (c_args c); [apply forallb_ext'; intros e; rewrite (checkE_ext T T' e E1); reflexivity|reflexivity]).
      assert (match c_res c with Some rs => forallb (checkResource (Some T)) rs && resDistinct rs | None => true end =
              match c_res c with Some rs => forallb (checkResource (Some T')) rs && resDistinct rs | None => true end) as ->
        by (destruct (c_res c); [rewrite (forallb_ext' _ _ l F3); reflexivity|reflexivity]). reflexivity. }
    assert (MC : makeCommand (Some T) c = makeCommand (Some T') c).
    { unfold makeCommand. rewrite S1, (makeE_ext T T' (c_name c) E1).
      assert (match c_res c with Some rs => forallb (forallb (makeField (Some T))) rs | None => true end =
              match c_res c with Some rs => forallb (forallb (makeField (Some T'))) rs | None => true end) as ->
        by (destruct (c_res c); [apply forallb_ext'; intros r; apply forallb_ext', F4|reflexivity]).
      f_equal. destruct (makeE (Some T') UNKNOWN_TYPE (c_name c)) as [t|]; [|reflexivity]. cbv zeta. f_equal. f_equal. destruct (c_args c) as [l|]; [|reflexivity].
      assert (map (makeE (Some T) UNKNOWN_TYPE) l = map (makeE (Some T') UNKNOWN_TYPE) l) as ->; [|reflexivity]. apply map_ext. intros e. apply (makeE_ext T T' e E1). }
    rewrite <- CC, <- MC. exact B.
  - intros es lib al Ec e I. destruct (C es lib al Ec e I) as [t H]. exists t. now apply TE.
Qed.
Lemma without_libs ds : Forall wf ds -> NoDup (map key ds) -> Forall wf (filter (fun d => negb (isLib d)) ds) /\ NoDup (map key (filter (fun d => negb (isLib d)) ds)) /\
  cmdsOf (filter (fun d => negb (isLib d)) ds) = cmdsOf ds /\ looksOf (filter (fun d => negb (isLib d)) ds) = looksOf ds.
Proof.
  intros F. induction F as [|d ds W F IH]; intros N; [repeat split; constructor|]. cbn [map] in N. inversion N as [|? ? N1 N2]; subst. destruct (IH N2) as (A & B & C & D).
  cbn [filter]. destruct d as [m r p a|m r p a|m ws|m]; cbn [isLib negb].
  all: try (split; [constructor; assumption|]; split; [cbn [map]; constructor; [|exact B]; intros I; apply N1; apply in_map_iff in I; destruct I as (x & Ex & Ix); apply filter_In in Ix; apply in_map_iff; exists x; tauto|];
            unfold cmdsOf, looksOf in *; cbn [flat_map]; rewrite C, D; split; reflexivity).
  split; [exact A|]. split; [exact B|]. unfold cmdsOf, looksOf in *; cbn [flat_map app]. auto.
Qed.
Theorem C69_library_declarations_refuted files k ds n s : settled files s -> Forall wf ds -> NoDup (map key ds) ->
  (accepted files k (Some (xDecls ds), n) s <-> accepted files k (Some (xDecls (filter (fun d => negb (isLib d)) ds)), n) s).
Proof.
  intros S0 F N. set (ds' := filter _ ds). destruct (without_libs ds F N) as (F' & N' & C & L). fold ds' in F', N', C, L.
  destruct (decls_accepted ds [] F N) as (g & E & _). destruct (decls_accepted ds' [] F' N') as (g' & E' & _).
  assert (D : declares (Some (xDecls ds), n) (plusT noTable ds)) by (unfold declares; cbn [fst]; rewrite E; reflexivity).
  assert (D' : declares (Some (xDecls ds'), n) (plusT noTable ds')) by (unfold declares; cbn [fst]; rewrite E'; reflexivity).
  assert (T1 : t_look (plusT noTable ds) = t_look (plusT noTable ds')) by (unfold plusT, noTable; cbn; congruence).
  assert (T2 : t_cmd (plusT noTable ds) = t_cmd (plusT noTable ds')) by (unfold plusT, noTable; cbn; congruence).
  split; intros A.
  - apply (C69_own_declarations _ _ _ _ _ _ S0 A). apply (C69_accepted _ _ _ _ S0) in A. destruct A as [_ A]. destruct (A _ (reach_self _ _)) as [(T & DT & O) _].
    rewrite (declares_fun _ _ _ DT D) in O. exists (plusT noTable ds'). split; [exact D'|]. intros m I. apply (nodeOk_ext _ _ m T1 T2). exact (O m I).
  - apply (C69_own_declarations _ _ _ _ _ _ S0 A). apply (C69_accepted _ _ _ _ S0) in A. destruct A as [_ A]. destruct (A _ (reach_self _ _)) as [(T & DT & O) _].
    rewrite (declares_fun _ _ _ DT D') in O. exists (plusT noTable ds). split; [exact D|]. intros m I. apply (nodeOk_ext _ _ m (eq_sym T1) (eq_sym T2)). exact (O m I).
Qed.
(** A parameter whose MaxSize is written before its Type escapes the first pass: an array of Dates, which there is not, becomes a
    parameter that takes anything. *)
Theorem C69_misplaced_size_refuted g : exists T s,
  readDecls (Some (El "GlobalDeclarations" [El "StateDeclaration" [text "Name" "when"; xValue "Return" (mkV None "Real" None);
     El "Parameter" [text "MaxSize" "3"; text "Type" "Date"]]])) g = (g, Some T) /\ lookup (t_look T) "when" = Some s /\ s_par s = [0].
Proof. eexists _, _. split; [vm_compute; reflexivity|]. split; reflexivity. Qed.
(** Anything may follow the parameters of a command declaration, even a parameter of a type that does not exist. *)
Theorem C69_junk_refuted g : exists T s,
  readDecls (Some (El "GlobalDeclarations" [El "CommandDeclaration" [text "Name" "go"; El "Junk" []; El "Parameter" [text "Type" "Bogus"]]])) g = (g, Some T)
  /\ lookup (t_cmd T) "go" = Some s /\ s_par s = [0] /\ typ "Bogus" = 0.
Proof. eexists _, _. split; [vm_compute; reflexivity|]. split; [reflexivity|]. split; reflexivity. Qed.
(** A second upper bound in a resource goes unnoticed; a second name does not. *)
Definition num : expr := EOp (fun _ => Some INTEGER_TYPE) (fun _ => Some INTEGER_TYPE) None [].
Theorem C69_two_bounds_refuted T : resourceOk T [(FName, EStr "arm"); (FPriority, num); (FUpper, num); (FUpper, num)] /\ ~ resourceOk T [(FName, EStr "arm"); (FName, EStr "leg"); (FPriority, num)].
Proof.
  assert (NC : checked T num INTEGER_TYPE) by (eapply checked_op; [constructor|reflexivity]).
  assert (NT : typed T 0 num INTEGER_TYPE) by (eapply typed_op; [constructor|reflexivity]).
  split; [|intros (H & _); discriminate H].
  split; [reflexivity|]. split; [reflexivity|]. intros f e H. cbn [In] in H. destruct H as [[= <- <-]|[[= <- <-]|[[= <- <-]|[[= <- <-]|[]]]]].
  - split; exists STRING_TYPE; (split; [constructor|left; reflexivity]).
  - split; exists INTEGER_TYPE; (split; [assumption|]); [left; reflexivity|left; reflexivity].
  - split; exists INTEGER_TYPE; (split; [assumption|]); left; reflexivity.
  - split; exists INTEGER_TYPE; (split; [assumption|]); left; reflexivity.
Qed.

(** ** Examples *)
Definition exDecls : list decl :=
  [DCommand "go" (Some (mkV None "Boolean" None)) [mkV (Some "to") "String" None; mkV None "Real" None] false;
   DState "temp" (mkV None "Real" None) [mkV None "Integer" None] true;
   DState "go" (mkV None "Real" (Some "10")) [] false;
   DLib "Lib" [mkVar false false "x" "Integer"; mkVar true true "y" "String"]; DMutex "go"].
Definition exLib : doc := (Some (xDecls [DState "go" (mkV None "String" None) [] false]),
  PList [(0, ELookup false (EStr "go") None None)] [PCommand [] (mkCmd None None (EStr "go") (Some []))]).
Definition exFiles (n : string) : option doc := if String.eqb n "Lib" then Some exLib else None.
Definition exPlan : doc := (Some (xDecls exDecls),
  PList [] [PCommand [] (mkCmd (Some [[(FName, EStr "arm"); (FPriority, num)]]) (Some (Some BOOLEAN_TYPE, Some BOOLEAN_TYPE)) (EStr "go")
              (Some [EStr "home"; ELookup true (EStr "temp") (Some num) (Some [num; EStr "extra"])]));
            PCall [] "Lib" [num]]).
Definition exStart : pstate := mkP None [] [] [].
Theorem C69_example : Forall wf exDecls /\ NoDup (map key exDecls) /\ settled exFiles exStart /\ accepted exFiles 2 exPlan exStart /\ reaches exFiles exPlan exLib.
Proof.
  split; [|split; [|split; [|split]]].
  - repeat constructor; try discriminate; try (intros v [= <-]); try (eexists; cbn; repeat (try (left; reflexivity); right)).
    + cbn. intros [E|[]]. discriminate E.
    + cbn. tauto.
    + split; [cbn; right; right; left; reflexivity|vm_compute; intuition discriminate].
  - cbn. repeat constructor; cbn; intuition discriminate.
  - split; [reflexivity|]. split; [reflexivity|]. intros n l [=].
  - vm_compute. reflexivity.
  - apply (reach_call _ _ _ "Lib" _ (reach_self _ _)); [|reflexivity]. exists [], [num]. eapply in_kid; [right; left; reflexivity|constructor].
Qed.
(** One argument of a wrong type, one too few, a result variable of a wrong type: refused. *)
Definition exCmd (dest : Z) (args : list expr) : doc := (Some (xDecls exDecls), PCommand [] (mkCmd None (Some (Some dest, Some dest)) (EStr "go") (Some args))).
Theorem C69_example_refused :
  parsePlan exFiles 2 (exCmd BOOLEAN_TYPE [EStr "home"; num]) exStart = (mkP None [] [] ["go"], ROk) /\
  snd (parsePlan exFiles 2 (exCmd BOOLEAN_TYPE [num; num]) exStart) = RRefused /\
  snd (parsePlan exFiles 2 (exCmd BOOLEAN_TYPE [EStr "home"]) exStart) = RRefused /\
  snd (parsePlan exFiles 2 (exCmd BOOLEAN_TYPE [EStr "home"; num; num]) exStart) = RRefused /\
  snd (parsePlan exFiles 2 (exCmd STRING_TYPE [EStr "home"; num]) exStart) = RRefused.
Proof. repeat split; vm_compute; reflexivity. Qed.

(** Assumptions *)
Print Assumptions C69_declarations.
Print Assumptions C69_duplicates.
Print Assumptions C69_accepted.
Print Assumptions C69_settled.
Print Assumptions C69_command.
Print Assumptions C69_lookup.
Print Assumptions C69_own_declarations.
Print Assumptions C69_library_by_itself.
Print Assumptions C69_no_arguments_refuted.
Print Assumptions C69_library_declarations_refuted.
Print Assumptions C69_misplaced_size_refuted.
Print Assumptions C69_junk_refuted.
Print Assumptions C69_two_bounds_refuted.
Print Assumptions C69_example.
Print Assumptions C69_example_refused.
Print Assumptions C69_which_declarations.
