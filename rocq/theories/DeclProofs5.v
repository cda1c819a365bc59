(** Proofs for C69: which declarations are accepted. *)
From Coq Require Import ZArith List Bool String Ascii Lia.
From Verif Require Import ValueModel UdpQueueModel OpModel TypeModel LitModel LitProps DeclModel DeclSpec DeclProofs.
Import ListNotations.
Open Scope string_scope.
Open Scope list_scope.
Open Scope Z_scope.

Lemma chars_inj a : forall b, chars a = chars b -> a = b.
Proof.
  induction a as [|x a IH]; intros [|y b] H; [reflexivity|discriminate|discriminate|]. unfold chars in *. cbn [list_ascii_of_string map] in H.
  assert (E1 : Z.of_nat (nat_of_ascii x) = Z.of_nat (nat_of_ascii y)) by congruence.
  assert (E2 : map (fun c => Z.of_nat (nat_of_ascii c)) (list_ascii_of_string a) = map (fun c => Z.of_nat (nat_of_ascii c)) (list_ascii_of_string b)) by congruence.
  apply Nat2Z.inj in E1. assert (x = y) as -> by (rewrite <- (ascii_nat_embedding x), E1, ascii_nat_embedding; reflexivity). f_equal. now apply IH.
Qed.
Lemma typ_word s : typ s <> 0 -> In (s, typ s) typeWords.
Proof.
  intros H. unfold typ in *. set (t := parseValueType (chars s)) in *. destruct (proj1 (C63_types (chars s) t H) eq_refl) as [[E I]|[E I]].
  - clearbody t. cbn [In] in I.
    repeat (destruct I as [<- |I]; [apply (fun n (Q : chars s = chars n) => chars_inj s n Q) in E; subst s; cbn; tauto|]); [..|destruct I].
  - rewrite I. apply chars_inj in E. subst s. cbn. tauto.
Qed.
Lemma typ_any : typ "Any" = 0. Proof. reflexivity. Qed.
Lemma type_ok s : negb (empty s) && (negb (Z.eqb (typ s) UNKNOWN_TYPE) || String.eqb s "Any") = true <-> exists t, In (s, t) typeWords.
Proof.
  split.
  - intros H. apply andb_prop in H. destruct H as [_ H]. apply orb_prop in H. destruct H as [H|H].
    + exists (typ s). apply typ_word. unfold UNKNOWN_TYPE in H. destruct (Z.eqb_spec (typ s) 0); [discriminate|assumption].
    + apply String.eqb_eq in H. subst s. exists 0. left. reflexivity.
  - intros [t H]. destruct (word_typ _ _ H) as (A & B & C). rewrite A, B. unfold UNKNOWN_TYPE. destruct C as [C| ->]; [rewrite C; reflexivity|].
    rewrite String.eqb_refl, orb_true_r. reflexivity.
Qed.
Lemma array_ok s : Z.eqb (arrayOf (typ s)) UNKNOWN_TYPE = false <-> exists t, In (s, t) elementWords.
Proof.
  split.
  - intros H. assert (N : typ s <> 0) by (intros E; rewrite E in H; discriminate). pose proof (typ_word s N) as I. revert H. destruct (word_typ _ _ I) as (_ & _ & _).
    generalize dependent (typ s). intros t _ I. cbn [typeWords In] in I.
    repeat (destruct I as [I|I]; [inversion I; subst; clear I; intros H; first [discriminate H|eexists; cbn; tauto]|]). destruct I.
  - intros [t H]. destruct (word_elt _ _ H) as (A & _ & C & _). rewrite A. exact C.
Qed.
Lemma find_split t l x r : find t l = Some (x, r) <-> exists pre, l = pre ++ x :: r /\ (forall y, In y pre -> tagOf y <> t) /\ tagOf x = t.
Proof.
  revert x r. induction l as [|y l IH]; intros x r; cbn [find].
  - split; [discriminate|]. intros (pre & E & _). destruct pre; discriminate.
  - unfold is in *. destruct (String.eqb_spec (tagOf y) t) as [E|E].
    + split.
      * intros [= <- <-]. exists []. split; [reflexivity|]. split; [intros ? []|exact E].
      * intros ([|z pre] & H & A & B); [injection H as -> ->; reflexivity|]. injection H as <- _. elim (A y); [left; reflexivity|exact E].
    + rewrite IH. split.
      * intros (pre & -> & A & B). exists (y :: pre). split; [reflexivity|]. split; [|exact B]. intros z [<-|I]; auto.
      * intros ([|z pre] & H & A & B); [injection H as -> ->; contradiction|]. injection H as <- ->. exists pre. split; [reflexivity|]. split; [|exact B]. intros w I. apply A. right. exact I.
Qed.
Lemma value_iff x : checkValueDecl x = true <-> valueWellFormed x.
Proof.
  unfold checkValueDecl, valueWellFormed. destruct (find "Type" (kidsOf x)) as [[ty rest]|] eqn:F.
  - assert (K : forall r, match r with [] => true | m :: _ => is "MaxSize" m && negb (Z.eqb (arrayOf (typ (childValue ty))) UNKNOWN_TYPE) end = true ->
        (exists t, In (childValue ty, t) typeWords) -> match r with [] => exists t, In (childValue ty, t) typeWords | m :: _ => tagOf m = "MaxSize" /\ exists t, In (childValue ty, t) elementWords end).
    { intros [|m r] H T; [exact T|]. apply andb_prop in H. destruct H as [H1 H2]. unfold is in H1. apply String.eqb_eq in H1. split; [exact H1|]. apply array_ok.
      destruct (Z.eqb (arrayOf (typ (childValue ty))) UNKNOWN_TYPE); [discriminate|reflexivity]. }
    split.
    + intros H. apply andb_prop in H. destruct H as [H1 H2]. apply type_ok in H1. apply find_split in F. destruct F as (pre & E & A & B). exists pre, ty, rest.
      split; [exact E|]. split; [exact A|]. split; [exact B|]. exact (K rest H2 H1).
    + intros (pre & ty' & rest' & E & A & B & C). assert (F' : find "Type" (kidsOf x) = Some (ty', rest')) by (apply find_split; eauto). rewrite F in F'. injection F' as <- <-.
      destruct rest as [|m r].
      * rewrite andb_true_r. apply type_ok, C.
      * destruct C as [C1 C2]. unfold is. rewrite C1. rewrite String.eqb_refl. rewrite (proj2 (array_ok _) C2). rewrite andb_true_r. apply type_ok.
        destruct C2 as [t C2]. exists (typ (childValue ty)). apply typ_word. destruct (word_elt _ _ C2) as (_ & _ & _ & D & _). destruct (Z.eqb_spec (typ (childValue ty)) 0); [discriminate|assumption].
  - split; [discriminate|]. intros (pre & ty' & rest' & E & A & B & C). assert (F' : find "Type" (kidsOf x) = Some (ty', rest')) by (apply find_split; eauto). congruence.
Qed.
Lemma name_iff l rest : checkName l = Some rest <-> exists n, l = n :: rest /\ tagOf n = "Name" /\ childValue n <> "".
Proof.
  destruct l as [|x r]; cbn [checkName].
  - split; [discriminate|]. intros (n & E & _). discriminate.
  - unfold is. destruct (String.eqb_spec (tagOf x) "Name") as [E|E]; cbn [andb].
    + destruct (childValue x) eqn:C; cbn [empty negb].
      * split; [discriminate|]. intros (n & H & _ & N). injection H as -> ->. congruence.
      * split; [intros [= ->]|intros (n & H & _ & N); injection H as -> ->; reflexivity]. exists x. split; [reflexivity|]. split; [exact E|]. rewrite C. discriminate.
    + split; [discriminate|]. intros (n & H & T & _). injection H as -> ->. contradiction.
Qed.
Lemma params_iff l r : checkParams l = Some r <-> exists ps, l = ps ++ r /\ Forall (tagged "Parameter") ps /\ (forall j q, r = j :: q -> tagOf j <> "Parameter").
Proof.
  revert r. induction l as [|x l IH]; intros r; cbn [checkParams].
  - split; [intros [= <-]; exists []; repeat split; [constructor|discriminate]|]. intros (ps & E & _). destruct ps; [cbn in E; subst; reflexivity|discriminate].
  - unfold is. destruct (String.eqb_spec (tagOf x) "Parameter") as [E|E].
    + destruct (checkValueDecl x) eqn:V.
      * rewrite IH. apply value_iff in V. split.
        -- intros (ps & -> & F & N). exists (x :: ps). split; [reflexivity|]. split; [constructor; [split; assumption|exact F]|exact N].
        -- intros (ps & H & F & N). destruct ps as [|p ps]; [cbn in H; subst r; elim (N _ _ eq_refl E)|]. injection H as <- ->. inversion F; subst. eauto.
      * split; [discriminate|]. intros (ps & H & F & N). destruct ps as [|p ps]; [cbn in H; subst r; elim (N _ _ eq_refl E)|]. injection H as <- ->. inversion F as [|? ? [_ W]]; subst. apply value_iff in W. congruence.
    + split.
      * intros [= <-]. exists []. split; [reflexivity|]. split; [constructor|]. intros j q [= <- <-]. exact E.
      * intros (ps & H & F & N). destruct ps as [|p ps]; [cbn in H; congruence|]. injection H as <- ->. inversion F as [|? ? [W _]]; subst. contradiction.
Qed.
Lemma params_is l : match checkParams l with Some _ => true | None => false end = true <-> exists r, checkParams l = Some r.
Proof. destruct (checkParams l); [split; [eauto|reflexivity]|]. split; [discriminate|]. intros [r [=]]. Qed.
Lemma ifvar_iff arr v : checkIfVar arr v = true <-> exists ty r, namedFirst v (ty :: r) /\ tagOf ty = "Type" /\
   (if arr then exists t, In (childValue ty, t) elementWords else exists t, In (childValue ty, t) typeWords /\ 1 <= t <= DURATION_TYPE).
Proof.
  unfold checkIfVar, namedFirst. destruct (checkName (kidsOf v)) as [[|ty r]|] eqn:N.
  - split; [discriminate|]. intros (ty & r & H & _). apply name_iff in H. congruence.
  - split.
    + intros H. apply andb_prop in H. destruct H as [H D]. apply andb_prop in H. destruct H as [H C]. apply andb_prop in H. destruct H as [A B]. unfold is in A. apply String.eqb_eq in A.
      exists ty, r. split; [now apply name_iff|]. split; [exact A|]. unfold isScalar, UNKNOWN_TYPE in C. apply andb_prop in C. destruct C as [C1 C2].
      destruct arr; cbn [negb orb] in D.
      * apply array_ok. destruct (Z.eqb (arrayOf (typ (childValue ty))) UNKNOWN_TYPE); [discriminate|reflexivity].
      * exists (typ (childValue ty)). split; [apply typ_word; lia|lia].
    + intros (ty' & r' & H & T & K). apply name_iff in H. rewrite N in H. injection H as <- <-. unfold is. rewrite T, String.eqb_refl. destruct arr; cbn [negb orb andb].
      * destruct K as [t K]. destruct (word_elt _ _ K) as (A & B & C & D & E). rewrite B, E, A. unfold UNKNOWN_TYPE. rewrite C. reflexivity.
      * destruct K as (t & K & L). destruct (word_typ _ _ K) as (A & B & _). rewrite B, A. unfold isScalar, UNKNOWN_TYPE. cbn [negb andb]. rewrite andb_true_r.
        destruct (Z.ltb_spec 0 t); [|lia]. destruct (Z.leb_spec t DURATION_TYPE); [reflexivity|lia].
  - split; [discriminate|]. intros (ty & r & H & _). apply name_iff in H. congruence.
Qed.
Lemma interface_iff i : forallb (fun c => (is "In" c || is "InOut" c) && checkIfDecls (kidsOf c)) (kidsOf i) = true <-> interfaceWellFormed i.
Proof.
  unfold interfaceWellFormed. rewrite forallb_forall. split; intros H c I; specialize (H c I).
  - apply andb_prop in H. destruct H as [H1 H2]. split.
    + unfold is in H1. apply orb_prop in H1. cbn [In]. destruct H1 as [E|E]; apply String.eqb_eq in E; auto.
    + intros v J. unfold checkIfDecls in H2. rewrite forallb_forall in H2. specialize (H2 v J). unfold is in H2.
      destruct (String.eqb_spec (tagOf v) "DeclareVariable"); [apply ifvar_iff in H2; destruct H2 as (ty & r & A & B & C); exists ty, r; auto|].
      destruct (String.eqb_spec (tagOf v) "DeclareArray"); [|discriminate]. apply ifvar_iff in H2; destruct H2 as (ty & r & A & B & C); exists ty, r; auto.
  - destruct H as [H1 H2]. apply andb_true_intro. split.
    + unfold is. cbn [In] in H1. destruct H1 as [<-|[<-|[]]]; reflexivity.
    + unfold checkIfDecls. rewrite forallb_forall. intros v J. destruct (H2 v J) as (ty & r & A & B & C). unfold is. destruct C as [[E C]|[E C]]; rewrite E.
      * rewrite String.eqb_refl. apply ifvar_iff. eauto.
      * change (String.eqb "DeclareArray" "DeclareVariable") with false. rewrite String.eqb_refl. apply ifvar_iff. eauto.
Qed.
Lemma command_iff' x : checkCommandDecl x = true <-> exists rest, namedFirst x rest /\ exists ret ps others, rest = ret ++ ps ++ others /\ (ret = [] \/ exists r, ret = [r] /\ tagged "Return" r)
      /\ Forall (tagged "Parameter") ps /\ (forall j r, others = j :: r -> tagOf j <> "Parameter") /\ (forall j r, rest = j :: r -> ret = [] -> tagOf j <> "Return").
Proof.
  unfold checkCommandDecl, namedFirst. destruct (checkName (kidsOf x)) as [[|y r]|] eqn:N.
  - split; [intros _|reflexivity]. exists []. split; [now apply name_iff|]. exists [], [], []. split; [reflexivity|]. split; [now left|]. split; [constructor|]. split; discriminate.
  - unfold is. destruct (String.eqb_spec (tagOf y) "Return") as [E|E].
    + split.
      * intros H. apply andb_prop in H. destruct H as [V P]. apply value_iff in V. apply params_is in P. destruct P as [o P]. apply params_iff in P. destruct P as (ps & -> & F & O).
        exists (y :: ps ++ o). split; [now apply name_iff|]. exists [y], ps, o. split; [reflexivity|]. split; [right; exists y; split; [reflexivity|split; assumption]|]. split; [exact F|]. split; [exact O|]. discriminate.
      * intros (rest & H & ret & ps & o & R & RT & F & O & NR). apply name_iff in H. rewrite N in H. injection H as <-. destruct RT as [->|(q & -> & _ & W)].
        -- elim (NR _ _ eq_refl eq_refl E).
        -- injection R as <- ->. apply value_iff in W. rewrite W. cbn [andb]. apply params_is. exists o. apply params_iff. eauto.
    + rewrite params_is. split.
      * intros [o P]. apply params_iff in P. destruct P as (ps & R & F & O). exists (y :: r). split; [now apply name_iff|]. exists [], ps, o. split; [exact R|]. split; [now left|]. split; [exact F|]. split; [exact O|].
        intros j q [= <- <-] _. exact E.
      * intros (rest & H & ret & ps & o & R & RT & F & O & NR). apply name_iff in H. rewrite N in H. injection H as <-. destruct RT as [->|(q & -> & T & W)].
        -- exists o. apply params_iff. exists ps. auto.
        -- injection R as <- ->. contradiction.
  - split; [discriminate|]. intros (rest & H & _). apply name_iff in H. congruence.
Qed.
Lemma state_iff' x : checkStateDecl x = true <-> exists rest, namedFirst x rest /\ exists r ps any, rest = r :: ps ++ any /\ tagged "Return" r /\ Forall (tagged "Parameter") ps
      /\ (any = [] \/ exists z, any = [z] /\ tagOf z = "AnyParameters").
Proof.
  unfold checkStateDecl, namedFirst. destruct (checkName (kidsOf x)) as [[|y r]|] eqn:N.
  - split; [discriminate|]. intros (rest & H & r & ps & any & -> & _). apply name_iff in H. congruence.
  - split.
    + intros H. apply andb_prop in H. destruct H as [H P]. apply andb_prop in H. destruct H as [T V]. unfold is in T. apply String.eqb_eq in T. apply value_iff in V.
      destruct (checkParams r) as [o|] eqn:C; [|discriminate]. apply params_iff in C. destruct C as (ps & -> & F & O). exists (y :: ps ++ o). split; [now apply name_iff|]. exists y, ps, o.
      split; [reflexivity|]. split; [split; assumption|]. split; [exact F|]. destruct o as [|z [|]]; [now left| |discriminate]. right. exists z. split; [reflexivity|]. unfold is in P. now apply String.eqb_eq in P.
    + intros (rest & H & r' & ps & any & -> & [T V] & F & A). apply name_iff in H. rewrite N in H. injection H as <- ->. unfold is. rewrite T, String.eqb_refl. apply value_iff in V. rewrite V. cbn [andb].
      assert (checkParams (ps ++ any) = Some any) as ->.
      { apply params_iff. exists ps. split; [reflexivity|]. split; [exact F|]. intros j q E. destruct A as [->|(z & -> & Z)]; [discriminate|]. injection E as <- <-. rewrite Z. discriminate. }
      destruct A as [->|(z & -> & Z)]; [reflexivity|]. rewrite Z. reflexivity.
  - split; [discriminate|]. intros (rest & H & _). apply name_iff in H. congruence.
Qed.
Lemma lib_iff' x : checkLibDecl x = true <-> exists rest, namedFirst x rest /\ forall i r, rest = i :: r -> tagOf i = "Interface" -> interfaceWellFormed i.
Proof.
  unfold checkLibDecl, namedFirst. destruct (checkName (kidsOf x)) as [[|y r]|] eqn:N.
  - split; [intros _|reflexivity]. exists []. split; [now apply name_iff|]. discriminate.
  - unfold is at 1. destruct (String.eqb_spec (tagOf y) "Interface") as [E|E].
    + rewrite interface_iff. split.
      * intros H. exists (y :: r). split; [now apply name_iff|]. intros i q [= <- <-] _. exact H.
      * intros (rest & H & K). apply name_iff in H. rewrite N in H. injection H as <-. exact (K _ _ eq_refl E).
    + split; [intros _|reflexivity]. exists (y :: r). split; [now apply name_iff|]. intros i q [= <- <-] T. contradiction.
  - split; [discriminate|]. intros (rest & H & _). apply name_iff in H. congruence.
Qed.
Lemma decl_iff d : checkDecl d = true <-> declWellFormed d.
Proof.
  assert (M : checkMutexDecl d = true <-> exists rest, namedFirst d rest).
  { unfold checkMutexDecl, namedFirst. destruct (checkName (kidsOf d)) as [r|] eqn:N.
    - split; [intros _; exists r; now apply name_iff|reflexivity].
    - split; [discriminate|]. intros (rest & H). apply name_iff in H. congruence. }
  unfold checkDecl, declWellFormed. unfold is.
  destruct (String.eqb_spec (tagOf d) "CommandDeclaration") as [E1|E1]; [rewrite command_iff'|
  destruct (String.eqb_spec (tagOf d) "StateDeclaration") as [E2|E2]; [rewrite state_iff'|
  destruct (String.eqb_spec (tagOf d) "LibraryNodeDeclaration") as [E3|E3]; [rewrite lib_iff'|
  destruct (String.eqb_spec (tagOf d) "DeclareMutex") as [E4|E4]; [rewrite M|]]]].
  - split; intros (rest & A & H); exists rest; (split; [exact A|]); [left; split; [exact E1|exact H]|]. destruct H as [[_ H]|[[T _]|[[T _]|T]]]; [exact H|congruence..].
  - split; intros (rest & A & H); exists rest; (split; [exact A|]); [right; left; split; [exact E2|exact H]|]. destruct H as [[T _]|[[_ H]|[[T _]|T]]]; [congruence|exact H|congruence..].
  - split; intros (rest & A & H); exists rest; (split; [exact A|]); [right; right; left; split; [exact E3|exact H]|]. destruct H as [[T _]|[[T _]|[[_ H]|T]]]; [congruence..|exact H|congruence].
  - split; [intros (rest & A)|intros (rest & A & _)]; exists rest; [split; [exact A|]; auto|exact A].
  - split; [discriminate|]. intros (rest & A & H). destruct H as [[T _]|[[T _]|[[T _]|T]]]; congruence.
Qed.
(** Interface variables. *)
Definition nm (v : ifvar) : string := fst (fst v).
Lemma mem_iff n l : mem n l = true <-> In n l.
Proof. unfold mem. rewrite existsb_exists. split; [intros (x & I & E); apply String.eqb_eq in E; now subst|]. intros I. exists n. split; [exact I|apply String.eqb_refl]. Qed.
Definition newNames (ds : list xml) : list string :=
  map (valueOfChild "Name") (filter (fun v => existsb (String.eqb (tagOf v)) ["DeclareVariable"; "DeclareArray"]) ds).
Lemma nodup_snoc (l : list string) a : NoDup l -> ~ In a l -> NoDup (l ++ [a]).
Proof. intros N H. apply NoDup_rev in N. rewrite <- (rev_involutive (l ++ [a])). apply NoDup_rev. rewrite rev_app_distr. cbn. constructor; [now rewrite <- in_rev|exact N]. Qed.
Lemma nodup_app_l (l r : list string) : NoDup (l ++ r) -> NoDup l.
Proof. induction l as [|a l IH]; intros N; [constructor|]. inversion N; subst. constructor; [intros I; apply H1, in_or_app; now left|auto]. Qed.
Lemma nodup_mid (l r : list string) a : NoDup (l ++ a :: r) -> ~ In a l.
Proof. intros N I. apply NoDup_remove_2 in N. apply N, in_or_app. now left. Qed.
(** A step that adds the names [new], if it can. *)
Definition adds (f : list ifvar -> option (list ifvar)) (new : list string) : Prop :=
  forall l, NoDup (map nm l) -> (match f l with Some l' => map nm l' = map nm l ++ new | None => True end) /\ (f l <> None <-> NoDup (map nm l ++ new)).
Lemma adds_none : adds (fun l => Some l) [].
Proof. intros l N. rewrite app_nil_r. split; [reflexivity|]. split; [intros _; exact N|discriminate]. Qed.
Lemma adds_var io arr x : adds (addIfVar io arr x) [valueOfChild "Name" x].
Proof.
  intros l N. unfold addIfVar. destruct (mem (valueOfChild "Name" x) (map nm l)) eqn:M; change (mem (valueOfChild "Name" x) (map (fun v => fst (fst v)) l)) with (mem (valueOfChild "Name" x) (map nm l)); rewrite M.
  - split; [exact I|]. split; [congruence|]. intros D. apply nodup_mid in D. elim D. apply mem_iff. exact M.
  - rewrite map_app. split; [reflexivity|]. split; [intros _|discriminate]. apply nodup_snoc; [exact N|]. intros I. apply mem_iff in I. congruence.
Qed.
Lemma adds_seq f g a b h : adds f a -> adds g b -> (forall l, h l = match f l with Some l' => g l' | None => None end) -> adds h (a ++ b).
Proof.
  intros F G H l N. rewrite H. destruct (F l N) as [F1 F2]. destruct (f l) as [l'|] eqn:E.
  - assert (N' : NoDup (map nm l')) by (rewrite F1; apply F2; discriminate). destruct (G l' N') as [G1 G2]. rewrite F1 in *. rewrite app_assoc. split; [exact G1|exact G2].
  - split; [exact I|]. split; [congruence|]. intros D. rewrite app_assoc in D. apply nodup_app_l in D. apply F2 in D. congruence.
Qed.
Lemma adds_decls io ds : adds (addIfDecls io ds) (newNames ds).
Proof.
  induction ds as [|d ds IH]; [apply adds_none|]. unfold newNames. cbn [filter]. unfold is in *.
  assert (E : newNames (d :: ds) = (if existsb (String.eqb (tagOf d)) ["DeclareVariable"; "DeclareArray"] then [valueOfChild "Name" d] else []) ++ newNames ds)
    by (unfold newNames; cbn [filter]; destruct (existsb (String.eqb (tagOf d)) ["DeclareVariable"; "DeclareArray"]); reflexivity).
  change (adds (addIfDecls io (d :: ds)) (newNames (d :: ds))). rewrite E.
  apply (adds_seq (fun l => if is "DeclareVariable" d then addIfVar io false d l else if is "DeclareArray" d then addIfVar io true d l else Some l) (addIfDecls io ds)); [|exact IH|reflexivity].
  unfold is. cbn [existsb]. destruct (String.eqb (tagOf d) "DeclareVariable"); [apply adds_var|]. cbn [orb]. destruct (String.eqb (tagOf d) "DeclareArray"); [apply adds_var|apply adds_none].
Qed.
Lemma adds_ifs cs : adds (addIfs cs) (flat_map (fun c => if existsb (String.eqb (tagOf c)) ["In"; "InOut"] then newNames (kidsOf c) else []) cs).
Proof.
  induction cs as [|c cs IH]; [apply adds_none|]. cbn [flat_map].
  apply (adds_seq (fun l => if is "In" c then addIfDecls false (kidsOf c) l else if is "InOut" c then addIfDecls true (kidsOf c) l else Some l) (addIfs cs)); [|exact IH|reflexivity].
  unfold is. cbn [existsb]. destruct (String.eqb (tagOf c) "In"); [apply adds_decls|]. cbn [orb]. destruct (String.eqb (tagOf c) "InOut"); [apply adds_decls|apply adds_none].
Qed.
Lemma readLib_iff d : readLib d <> None <-> NoDup (interfaceNames d).
Proof.
  unfold readLib, interfaceNames. destruct (child "Interface" d) as [i|]; [|split; [constructor|discriminate]].
  destruct (adds_ifs (kidsOf i) [] (NoDup_nil _)) as [_ H]. exact H.
Qed.
(** All declarations. *)
Definition libOk (d : xml) : Prop := tagOf d = "LibraryNodeDeclaration" -> NoDup (interfaceNames d).
Lemma parse_ok d g T : checkDecl d = true -> ~ In (keyX d) (keysX T) -> libOk d -> exists g' T', parseDecl d (g, T) = (g', Some T').
Proof.
  intros C N L. unfold parseDecl. unfold checkDecl in C. unfold keyX in N.
  destruct (is "CommandDeclaration" d) eqn:E1; [|destruct (is "StateDeclaration" d) eqn:E2; [|destruct (is "LibraryNodeDeclaration" d) eqn:E3; [|destruct (is "DeclareMutex" d) eqn:E4; [|discriminate C]]]]; unfold is in *.
  - apply String.eqb_eq in E1. rewrite E1 in N. destruct (has (t_cmd T) _) eqn:K; [|eauto]. apply has_in in K. elim N. unfold keysX. rewrite !in_app_iff. left. apply in_map_iff in K. destruct K as (x & X & I).
    apply in_map_iff. exists x. split; [now rewrite X|exact I].
  - apply String.eqb_eq in E2. rewrite E2 in N. destruct (has (t_look T) _) eqn:K; [|eauto]. apply has_in in K. elim N. unfold keysX. rewrite !in_app_iff. right; left. apply in_map_iff in K. destruct K as (x & X & I).
    apply in_map_iff. exists x. split; [now rewrite X|exact I].
  - apply String.eqb_eq in E3. rewrite E3 in N. specialize (L E3). apply readLib_iff in L. destruct (has (t_lib T) _) eqn:K.
    + apply has_in in K. elim N. unfold keysX. rewrite !in_app_iff. right; right; left. apply in_map_iff in K. destruct K as (x & X & I). apply in_map_iff. exists x. split; [now rewrite X|exact I].
    + destruct (readLib d); [eauto|congruence].
  - apply String.eqb_eq in E4. rewrite E4 in N. destruct (mem _ (t_mutex T)) eqn:K; [|eauto]. apply mem_in in K. elim N. unfold keysX. rewrite !in_app_iff. right; right; right. apply in_map_iff. eauto.
Qed.
Lemma parse_lib d g T g' T' : parseDecl d (g, T) = (g', Some T') -> libOk d.
Proof.
  intros P E. apply readLib_iff. unfold parseDecl, is in P. rewrite E in P. cbn [String.eqb Ascii.eqb Bool.eqb] in P.
  destruct (has (t_lib T) (valueOfChild "Name" d)); [discriminate|]. destruct (readLib d); congruence.
Qed.
Lemma parse_iff ds : forall g T, forallb checkDecl ds = true ->
  (snd (parseDecls ds (g, T)) <> None <-> NoDup (map keyX ds) /\ (forall d, In d ds -> ~ In (keyX d) (keysX T)) /\ Forall libOk ds).
Proof.
  intros g T C. split.
  - intros H. destruct (parse_nodup ds g T C H) as [A B]. split; [exact A|]. split; [exact B|]. clear A B C. revert g T H. induction ds as [|d ds IH]; intros g T H; [constructor|].
    cbn [parseDecls] in H. destruct (parseDecl d (g, T)) as [g1 [T1|]] eqn:P; [|now cbn in H]. constructor; [eapply parse_lib; exact P|eauto].
  - revert g T C. induction ds as [|d ds IH]; intros g T C (N & K & L); [discriminate|]. cbn [forallb] in C. apply andb_prop in C. destruct C as [C1 C2]. cbn [map] in N.
    inversion N as [|? ? N1 N2]; subst. inversion L as [|? ? L1 L2]; subst. cbn [parseDecls]. destruct (parse_ok d g T C1 (K d (or_introl eq_refl)) L1) as (g1 & T1 & P). rewrite P.
    destruct (parse_key _ _ _ _ _ C1 P) as [_ K2]. apply IH; [exact C2|]. split; [exact N2|]. split; [|exact L2]. intros d' I' X. apply K2 in X. destruct X as [X|X]; [exact (K d' (or_intror I') X)|].
    apply N1. rewrite <- X. now apply in_map.
Qed.
Lemma read_iff x g : snd (readDecls (Some x) g) <> None <->
  (forall d, In d (kidsOf x) -> declWellFormed d) /\ NoDup (map keyX (kidsOf x)) /\ (forall d, In d (kidsOf x) -> libOk d).
Proof.
  unfold readDecls, checkDecls. destruct (forallb checkDecl (kidsOf x)) eqn:C.
  - rewrite (parse_iff (kidsOf x) g noTable C), Forall_forall. rewrite forallb_forall in C. split.
    + intros (A & _ & L). split; [intros d I; apply decl_iff, C, I|auto].
    + intros (_ & A & L). split; [exact A|]. split; [intros ? ? []|exact L].
  - cbn [snd]. split; [congruence|]. intros (A & _). exfalso. assert (forallb checkDecl (kidsOf x) = true); [|congruence]. apply forallb_forall. intros d I. apply decl_iff, A, I.
Qed.
