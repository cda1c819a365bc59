(** Proofs for C69: the passes over a plan. *)
From Coq Require Import ZArith List Bool String Lia.
From Verif Require Import ValueModel OpModel TypeModel DeclModel DeclSpec DeclProofs DeclProofs2 DeclProofs3.
Import ListNotations.
Open Scope string_scope.
Open Scope list_scope.
Open Scope Z_scope.

Section Ind.
  Variable P : pnode -> Prop.
  Hypothesis Hs : forall es, P (PSimple es).
  Hypothesis Hc : forall es c, P (PCommand es c).
  Hypothesis Hl : forall es kids, Forall P kids -> P (PList es kids).
  Hypothesis Hk : forall es lib al, P (PCall es lib al).
  Fixpoint pnode_ind' (n : pnode) : P n :=
    match n with
    | PSimple es => Hs es
    | PCommand es c => Hc es c
    | PList es kids => Hl es kids ((fix go l := match l return Forall P l with [] => Forall_nil _ | k :: r => Forall_cons k (pnode_ind' k) (go r) end) kids)
    | PCall es lib al => Hk es lib al
    end.
End Ind.

Definition nodeCheck (T : table) (n : pnode) : Prop :=
  (forall d e, In (d, e) (exprsOf n) -> exists t, checked T e t) /\ (forall es c, n = PCommand es c -> checkCommand (Some T) c = true).
Definition nodeMake (T : table) (n : pnode) : Prop :=
  (forall d e, In (d, e) (exprsOf n) -> exists t, typed T d e t) /\ (forall es c, n = PCommand es c -> makeCommand (Some T) c = true) /\
  (forall es lib al, n = PCall es lib al -> forall e, In e al -> exists t, typed T 0 e t).
Lemma nodeOk_iff T n : nodeOk T n <-> nodeCheck T n /\ nodeMake T n.
Proof.
  unfold nodeOk, nodeCheck, nodeMake. split.
  - intros (A & B & C). assert (B' : forall es c, n = PCommand es c -> checkCommand (Some T) c = true /\ makeCommand (Some T) c = true) by (intros es c E; apply command_iff; eauto).
    split; [split|split; [|split]].
    + intros d e I. apply (A d e I).
    + intros es c E. apply (B' es c E).
    + intros d e I. apply (A d e I).
    + intros es c E. apply (B' es c E).
    + exact C.
  - intros ((A & B) & A' & B' & C). split; [|split].
    + intros d e I. split; [apply (A d e I)|apply (A' d e I)].
    + intros es c E. apply command_iff. split; [apply (B es c E)|apply (B' es c E)].
    + exact C.
Qed.
Lemma checkEs_iff T es : checkEs (Some T) es = true <-> forall d e, In (d, e) es -> exists t, checked T e t.
Proof.
  unfold checkEs. rewrite forallb_forall. split.
  - intros H d e I. specialize (H _ I). cbn [snd] in H. destruct (checkE (Some T) e) as [t|] eqn:E; [|discriminate]. exists t. now apply check_iff.
  - intros H [d e] I. cbn [snd]. destruct (H d e I) as [t Ht]. apply check_iff in Ht. now rewrite Ht.
Qed.
Lemma makeEs_iff T es : makeEs (Some T) es = true <-> forall d e, In (d, e) es -> exists t, typed T d e t.
Proof.
  unfold makeEs. rewrite forallb_forall. split.
  - intros H d e I. specialize (H _ I). cbn [fst snd] in H. destruct (makeE (Some T) d e) as [t|] eqn:E; [|discriminate]. exists t. now apply make_iff.
  - intros H [d e] I. cbn [fst snd]. destruct (H d e I) as [t Ht]. apply make_iff in Ht. now rewrite Ht.
Qed.
Lemma checkN_iff T n : checkN (Some T) n = true <-> forall m, inside m n -> nodeCheck T m.
Proof.
  induction n as [es|es c|es kids IH|es lib al] using pnode_ind'; cbn [checkN].
  - rewrite checkEs_iff. split.
    + intros H m I. inversion I; subst. split; [exact H|discriminate].
    + intros H. apply (H _ (in_self _)).
  - rewrite andb_true_iff, checkEs_iff. split.
    + intros [H1 H2] m I. inversion I; subst. split; [exact H1|]. intros es' c' [= <- <-]. exact H2.
    + intros H. destruct (H _ (in_self _)) as [A B]. split; [exact A|]. eapply B. reflexivity.
  - rewrite andb_true_iff, checkEs_iff, forallb_forall. rewrite Forall_forall in IH. split.
    + intros [H1 H2] m I. inversion I as [|? k ? ? Ik Im]; subst; [split; [exact H1|discriminate]|]. apply (proj1 (IH k Ik) (H2 k Ik) m Im).
    + intros H. split; [apply (H _ (in_self _))|]. intros k Ik. apply IH; [exact Ik|]. intros m Im. apply H. econstructor; eauto.
  - rewrite checkEs_iff. split.
    + intros H m I. inversion I; subst. split; [exact H|discriminate].
    + intros H. apply (H _ (in_self _)).
Qed.

(** ** The stack of tables *)
Definition wfS (s : pstate) : Prop := p_cur s = None -> p_stk s = [].
Lemma pop_push t s : wfS s -> popT (pushT t s) = s.
Proof. destruct s as [cur stk libs g]. unfold wfS, pushT, popT. cbn. destruct cur as [c|]; [reflexivity|]. intros H. rewrite H by reflexivity. reflexivity. Qed.
Lemma wf_push t s : wfS (pushT t s).
Proof. unfold wfS, pushT. cbn. discriminate. Qed.
Definition libsOk (files : string -> option doc) (s : pstate) : Prop :=
  forall n l, lookup (p_libs s) n = Some l -> exists d, files n = Some d /\ snd d = snd l /\ declares d (fst l) /\ checkN (Some (fst l)) (snd l) = true.
(** The table of a document does not depend on the global mutexes. *)
Lemma parseDecl_g d g1 g2 T : snd (parseDecl d (g1, T)) = snd (parseDecl d (g2, T)).
Proof.
  unfold parseDecl. destruct (is "CommandDeclaration" d); [reflexivity|]. destruct (is "StateDeclaration" d); [reflexivity|].
  destruct (is "LibraryNodeDeclaration" d); [reflexivity|]. destruct (is "DeclareMutex" d); [|reflexivity]. destruct (mem _ (t_mutex T)); reflexivity.
Qed.
Lemma parseDecls_g ds : forall g1 g2 T, snd (parseDecls ds (g1, T)) = snd (parseDecls ds (g2, T)).
Proof.
  induction ds as [|d ds IH]; intros g1 g2 T; [reflexivity|]. cbn [parseDecls]. assert (H := parseDecl_g d g1 g2 T).
  destruct (parseDecl d (g1, T)) as [h1 [T1|]], (parseDecl d (g2, T)) as [h2 [T2|]]; cbn [snd] in H; try discriminate; [|reflexivity].
  assert (T2 = T1) by congruence. subst. apply IH.
Qed.
Lemma readDecls_g x g1 g2 : snd (readDecls x g1) = snd (readDecls x g2).
Proof. unfold readDecls. destruct x as [x|]; [|reflexivity]. destruct (checkDecls x); [apply parseDecls_g|reflexivity]. Qed.

(** Same tables, and libraries at least as before. *)
Definition sameT (s s' : pstate) : Prop := p_cur s' = p_cur s /\ p_stk s' = p_stk s.
Definition grows (s s' : pstate) : Prop := forall n l, lookup (p_libs s) n = Some l -> lookup (p_libs s') n = Some l.
Lemma checkPlan_facts d s s' o : wfS s -> checkPlan d s = (s', o) ->
  sameT s s' /\ p_libs s' = p_libs s /\ (forall t, o = Some t <-> declares d t /\ checkN (Some t) (snd d) = true).
Proof.
  intros W. unfold checkPlan, declares. assert (G := readDecls_g (fst d) (p_glob s) []).
  destruct (readDecls (fst d) (p_glob s)) as [g [t|]]; cbn [snd] in G; rewrite <- G.
  - intros [= <- <-]. rewrite pop_push by (unfold wfS in *; exact W). cbn [p_cur p_stk p_libs pushT]. split; [split; reflexivity|]. split; [reflexivity|].
    intros u. destruct (checkN (Some t) (snd d)) eqn:C; split.
    + intros [= <-]. auto.
    + intros [[= <-] _]. reflexivity.
    + discriminate.
    + intros [[= <-] C']. congruence.
  - intros [= <- <-]. split; [split; reflexivity|]. split; [reflexivity|]. intros u. split; [discriminate|]. intros [? _]. discriminate.
Qed.
Lemma lookup_app {A} (m : list (string * A)) n v k : lookup (m ++ [(n, v)]) k = match lookup m k with Some x => Some x | None => if String.eqb n k then Some v else None end.
Proof. induction m as [|[a b] m IH]; cbn [app lookup]; [reflexivity|]. destruct (String.eqb a k); [reflexivity|exact IH]. Qed.
Lemma getLib_facts files n s s' o : wfS s -> libsOk files s -> getLib files n s = (s', o) ->
  sameT s s' /\ libsOk files s' /\ grows s s' /\
  (forall t b, o = Some (t, b) -> lookup (p_libs s') n = Some (t, b)) /\
  ((exists l, o = Some l) <-> exists d T, files n = Some d /\ declares d T /\ checkN (Some T) (snd d) = true).
Proof.
  intros W L. unfold getLib. destruct (lookup (p_libs s) n) as [l|] eqn:E.
  - intros [= <- <-]. split; [split; reflexivity|]. split; [exact L|]. split; [intros ? ?; auto|]. split; [intros t b [= ->]; exact E|].
    split; [intros _|intros _; eauto]. destruct (L _ _ E) as (d & F & S1 & D & C). exists d, (fst l). rewrite S1. auto.
  - destruct (files n) as [d|] eqn:F.
    + destruct (checkPlan d s) as [s1 [t|]] eqn:C; destruct (checkPlan_facts _ _ _ _ W C) as (S1 & S2 & S3).
      * destruct (proj1 (S3 t) eq_refl) as [D K]. intros [= <- <-]. split; [exact S1|]. split.
        { intros k l. cbn [p_libs]. rewrite lookup_app, S2. destruct (lookup (p_libs s) k) as [x|] eqn:Q; [intros [= <-]; apply (L _ _ Q)|].
          destruct (String.eqb_spec n k) as [<-|]; [|discriminate]. intros [= <-]. exists d. cbn [fst snd]. auto. }
        split. { intros k l Q. cbn [p_libs]. rewrite lookup_app, S2, Q. reflexivity. }
        split. { intros t' b [= <- <-]. cbn [p_libs]. rewrite lookup_app, S2, E, String.eqb_refl. reflexivity. }
        split; [intros _; exists d, t; auto|eauto].
      * intros [= <- <-]. split; [exact S1|]. split; [intros k l; rewrite S2; apply L|]. split; [intros k l; rewrite S2; auto|]. split; [discriminate|].
        split; [intros [? [=]]|]. intros (d' & T & [= <-] & D & K). discriminate (proj2 (S3 T) (conj D K)).
    + intros [= <- <-]. split; [split; reflexivity|]. split; [exact L|]. split; [intros ? ?; auto|]. split; [discriminate|]. split; [intros [? [=]]|]. intros (d & T & [=] & _).
Qed.

(** ** Construction *)
Lemma calls_list es kids lib : calls (PList es kids) lib <-> exists k, In k kids /\ calls k lib.
Proof.
  unfold calls. split.
  - intros (e & al & I). inversion I as [|? k ? ? Ik Im]; subst. exists k. split; [exact Ik|eauto].
  - intros (k & Ik & e & al & I). exists e, al. econstructor; eauto.
Qed.
Lemma calls_call es lib al l : calls (PCall es lib al) l <-> l = lib.
Proof. unfold calls. split; [intros (e & a & I); inversion I; reflexivity|intros ->; exists es, al; constructor]. Qed.
Lemma calls_simple es l : ~ calls (PSimple es) l.
Proof. intros (e & a & I). inversion I. Qed.
Lemma calls_command es c l : ~ calls (PCommand es c) l.
Proof. intros (e & a & I). inversion I. Qed.

(** All libraries below a node are loaded, to the depth [k]. *)
Fixpoint built (libs : list (string * (table * pnode))) (k : nat) (n : pnode) : Prop :=
  match k with O => False | S k' => forall lib, calls n lib -> exists t b, lookup libs lib = Some (t, b) /\ built libs k' b end.
Lemma built_grows libs libs' : (forall n l, lookup libs n = Some l -> lookup libs' n = Some l) -> forall k n, built libs k n -> built libs' k n.
Proof. intros G. induction k as [|k IH]; intros n; cbn [built]; [tauto|]. intros H lib C. destruct (H lib C) as (t & b & E & B). exists t, b. split; [auto|auto]. Qed.
(** All libraries that a node will need can be loaded. *)
Fixpoint loadable (files : string -> option doc) (k : nat) (n : pnode) : Prop :=
  match k with O => False | S k' => forall lib, calls n lib -> exists d T, files lib = Some d /\ declares d T /\ checkN (Some T) (snd d) = true /\ loadable files k' (snd d) end.
Lemma grows_refl s : grows s s. Proof. intros ? ?; auto. Qed.
Lemma grows_trans a b c : grows a b -> grows b c -> grows a c. Proof. intros H K n l E. auto. Qed.
Lemma declares_fun d T T' : declares d T -> declares d T' -> T = T'.
Proof. unfold declares. congruence. Qed.
Lemma construct_facts files k : forall n s s' r, wfS s -> libsOk files s -> construct files k n s = (s', r) ->
  sameT s s' /\ libsOk files s' /\ grows s s' /\ (r = ROk <-> loadable files k n) /\ (r = ROk -> built (p_libs s') k n).
Proof.
  induction k as [|k IHk]; intros n.
  { intros s s' r W L [= <- <-]. split; [split; reflexivity|]. split; [exact L|]. split; [apply grows_refl|]. split; [split; [discriminate|intros []]|discriminate]. }
  induction n as [es|es c|es kids IH|es lib al] using pnode_ind'; intros s s' r W L E.
  - cbn in E. injection E as <- <-. split; [split; reflexivity|]. split; [exact L|]. split; [apply grows_refl|]. split; [|intros _ l C; elim (calls_simple _ _ C)].
    split; [intros _ l C; elim (calls_simple _ _ C)|reflexivity].
  - cbn in E. injection E as <- <-. split; [split; reflexivity|]. split; [exact L|]. split; [apply grows_refl|]. split; [|intros _ l C; elim (calls_command _ _ _ C)].
    split; [intros _ l C; elim (calls_command _ _ _ C)|reflexivity].
  - change (each (construct files (S k)) kids s = (s', r)) in E.
    assert (K : sameT s s' /\ libsOk files s' /\ grows s s' /\ (r = ROk <-> forall n, In n kids -> loadable files (S k) n) /\ (r = ROk -> forall n, In n kids -> built (p_libs s') (S k) n)).
    { revert s s' r W L E. induction IH as [|n kids Hn F IHF]; intros s s' r W L E.
      - cbn [each] in E. injection E as <- <-. split; [split; reflexivity|]. split; [exact L|]. split; [apply grows_refl|]. split; [split; [intros _ ? []|reflexivity]|intros _ ? []].
      - cbn [each] in E. fold (each (construct files (S k))) in E. destruct (construct files (S k) n s) as [s1 r1] eqn:E1.
        destruct (Hn s s1 r1 W L E1) as (S1 & L1 & G1 & R1 & B1).
        assert (W1 : wfS s1) by (unfold wfS in *; destruct S1 as [-> ->]; exact W).
        destruct r1.
        + destruct (IHF s1 s' r W1 L1 E) as (S2 & L2 & G2 & R2 & B2). split; [destruct S1, S2; split; congruence|]. split; [exact L2|]. split; [eapply grows_trans; eauto|]. split.
          * rewrite R2. split; [intros H m [<-|I]; [apply R1; reflexivity|auto]|]. intros H m I. apply H. now right.
          * intros HR m [<-|I]; [|auto]. eapply built_grows; [|apply B1; reflexivity]. exact G2.
        + injection E as <- <-. split; [exact S1|]. split; [exact L1|]. split; [exact G1|]. split; [|discriminate]. split; [discriminate|]. intros H. apply R1, H. now left.
        + injection E as <- <-. split; [exact S1|]. split; [exact L1|]. split; [exact G1|]. split; [|discriminate]. split; [discriminate|]. intros H. apply R1, H. now left.
        + injection E as <- <-. split; [exact S1|]. split; [exact L1|]. split; [exact G1|]. split; [|discriminate]. split; [discriminate|]. intros H. apply R1, H. now left. }
    destruct K as (K1 & K2 & K3 & K4 & K5). split; [exact K1|]. split; [exact K2|]. split; [exact K3|]. split.
    + rewrite K4. split.
      * intros H l C. apply calls_list in C. destruct C as (m & Im & C). exact (H m Im l C).
      * intros H m Im l C. apply H. apply calls_list. eauto.
    + intros HR l C. apply calls_list in C. destruct C as (m & Im & C). exact (K5 HR m Im l C).
  - cbn [construct] in E. destruct (getLib files lib s) as [s1 [[t body]|]] eqn:E1; destruct (getLib_facts _ _ _ _ _ W L E1) as (S1 & L1 & G1 & F1 & R1).
    + assert (W1 : wfS s1) by (unfold wfS in *; destruct S1 as [-> ->]; exact W).
      destruct (construct files k body (pushT t s1)) as [s2 r2] eqn:E2. injection E as <- <-.
      destruct (IHk body (pushT t s1) s2 r2 (wf_push t s1) L1 E2) as (S2 & L2 & G2 & R2 & B2).
      assert (LK := F1 t body eq_refl). destruct (L1 _ _ LK) as (d & Fd & Sd & Dd & Cd). cbn [fst snd] in *.
      assert (ST : sameT s1 (popT s2)).
      { unfold sameT, popT in *. destruct S2 as [A B]. cbn [pushT p_cur p_stk] in A, B. rewrite B. destruct (p_cur s1) as [c|] eqn:Q; [split; reflexivity|]. rewrite (W1 Q). split; reflexivity. }
      assert (PL : p_libs (popT s2) = p_libs s2) by (unfold popT; destruct (p_stk s2); reflexivity).
      split; [destruct S1, ST; split; congruence|]. split; [intros n l; rewrite PL; apply L2|]. split; [intros n l Q; rewrite PL; apply G2, G1, Q|]. split.
      * rewrite R2. cbn [loadable]. split.
        -- intros H l C. apply calls_call in C. subst l. exists d, t. rewrite Sd. auto.
        -- intros H. destruct (H lib (proj2 (calls_call _ _ _ _) eq_refl)) as (d' & T' & Fd' & _ & _ & H'). assert (d' = d) by congruence. subst d'. rewrite Sd in H'. exact H'.
      * intros HR l C. apply calls_call in C. subst l. exists t, body. rewrite PL. split; [apply G2, LK|]. apply B2, HR.
    + injection E as <- <-. split; [exact S1|]. split; [exact L1|]. split; [exact G1|]. split; [|discriminate]. split; [discriminate|].
      intros H. destruct (H lib (proj2 (calls_call _ _ _ _) eq_refl)) as (d & T & Fd & Dd & Cd & _). destruct (proj2 R1 (ex_intro _ d (ex_intro _ T (conj Fd (conj Dd Cd))))) as [? [=]].
Qed.

(** ** Finalization *)
Fixpoint madeAll (libs : list (string * (table * pnode))) (k : nat) (T : table) (n : pnode) : Prop :=
  match k with
  | O => False
  | S k' => (forall m, inside m n -> nodeMake T m) /\ forall lib t b, calls n lib -> lookup libs lib = Some (t, b) -> madeAll libs k' t b
  end.
Lemma inside_simple m es : inside m (PSimple es) -> m = PSimple es. Proof. intros I; inversion I; reflexivity. Qed.
Lemma inside_command m es c : inside m (PCommand es c) -> m = PCommand es c. Proof. intros I; inversion I; reflexivity. Qed.
Lemma inside_call m es l al : inside m (PCall es l al) -> m = PCall es l al. Proof. intros I; inversion I; reflexivity. Qed.
Lemma finalize_facts files k : forall n s T, wfS s -> libsOk files s -> p_cur s = Some T -> built (p_libs s) k n ->
  exists r, finalize files k n s = (s, r) /\ (r = ROk <-> madeAll (p_libs s) k T n) /\ (r = ROk \/ r = RRefused).
Proof.
  induction k as [|k IHk]; intros n; [intros s T _ _ _ []|].
  induction n as [es|es c|es kids IH|es lib al] using pnode_ind'; intros s T W L CU B.
  - cbn. rewrite CU. eexists. split; [reflexivity|]. split; [|destruct (makeEs (Some T) es); auto]. destruct (makeEs (Some T) es) eqn:M; cbn [okIf].
    + split; [intros _|reflexivity]. split; [|intros l t b C; elim (calls_simple _ _ C)]. intros m I. apply inside_simple in I. subst m. split; [apply makeEs_iff, M|]. split; discriminate.
    + split; [discriminate|]. intros [H _]. destruct (H _ (in_self _)) as (A & _). apply makeEs_iff in A. cbn [exprsOf] in A. congruence.
  - cbn. rewrite CU. eexists. split; [reflexivity|]. split; [|destruct (makeEs (Some T) es && makeCommand (Some T) c); auto]. destruct (makeEs (Some T) es && makeCommand (Some T) c) eqn:M; cbn [okIf].
    + apply andb_prop in M. destruct M as [M1 M2]. split; [intros _|reflexivity]. split; [|intros l t b C; elim (calls_command _ _ _ C)]. intros m I. apply inside_command in I. subst m.
      split; [apply makeEs_iff, M1|]. split; [intros ? ? [= <- <-]; exact M2|discriminate].
    + split; [discriminate|]. intros [H _]. destruct (H _ (in_self _)) as (A & A' & _). apply makeEs_iff in A. cbn [exprsOf] in A. rewrite A, (A' _ _ eq_refl) in M. discriminate.
  - assert (K : exists r, each (finalize files (S k)) kids s = (s, r) /\ (r = ROk <-> forall n, In n kids -> madeAll (p_libs s) (S k) T n) /\ (r = ROk \/ r = RRefused)).
    { assert (B' : forall n, In n kids -> built (p_libs s) (S k) n) by (intros n I l C; apply B, calls_list; eauto). clear B.
      induction IH as [|n kids Hn F IHF].
      - exists ROk. split; [reflexivity|]. split; [split; [intros _ ? []|reflexivity]|auto].
      - destruct (Hn s T W L CU (B' n (or_introl eq_refl))) as (r1 & E1 & R1 & Q1). cbn [each]. fold (each (finalize files (S k))). rewrite E1.
        destruct (IHF (fun m I => B' m (or_intror I))) as (r2 & E2 & R2 & Q2). destruct Q1 as [-> | ->].
        + exists r2. split; [exact E2|]. split; [|exact Q2]. rewrite R2. split; [intros H m [<-|I]; [apply R1; reflexivity|auto]|]. intros H m I. apply H. now right.
        + exists RRefused. split; [reflexivity|]. split; [|auto]. split; [discriminate|]. intros H. apply R1, H. now left. }
    destruct K as (r & E & R & Q).
    change (exists r, andThen (s, okIf (makeEs (p_cur s) es)) (each (finalize files (S k)) kids) = (s, r) /\ (r = ROk <-> madeAll (p_libs s) (S k) T (PList es kids)) /\ (r = ROk \/ r = RRefused)).
    rewrite CU. destruct (makeEs (Some T) es) eqn:M; cbn [okIf andThen].
    + exists r. split; [exact E|]. split; [|exact Q]. rewrite R. split.
      * intros H. split.
        -- intros m I. inversion I as [|? n ? ? In' Im]; subst; [split; [apply makeEs_iff, M|split; discriminate]|]. apply (H n In'). exact Im.
        -- intros l t b C. apply calls_list in C. destruct C as (n & In' & C). apply (H n In'). exact C.
      * intros [H1 H2] n In'. split; [intros m Im; apply H1; econstructor; eauto|]. intros l t b C. apply H2, calls_list. eauto.
    + exists RRefused. split; [reflexivity|]. split; [|auto]. split; [discriminate|]. intros [H _]. destruct (H _ (in_self _)) as (A & _). apply makeEs_iff in A. cbn [exprsOf] in A. congruence.
  - change (exists r, andThen (s, okIf (makeEs (p_cur s) es && makeEs (p_cur s) (map (fun e => (UNKNOWN_TYPE, e)) al))) (fun s =>
            match getLib files lib s with
            | (s1, None) => (s1, RAbort)
            | (s1, Some (t, body)) => let '(s2, r) := finalize files k body (pushT t s1) in (popT s2, r)
            end) = (s, r) /\ (r = ROk <-> madeAll (p_libs s) (S k) T (PCall es lib al)) /\ (r = ROk \/ r = RRefused)).
    rewrite CU.
    assert (AL : makeEs (Some T) (map (fun e => (UNKNOWN_TYPE, e)) al) = true <-> forall e, In e al -> exists t, typed T 0 e t).
    { rewrite makeEs_iff. split.
      - intros H e I. apply (H UNKNOWN_TYPE e). apply in_map_iff. eauto.
      - intros H d e I. apply in_map_iff in I. destruct I as (e' & [= <- <-] & I). apply (H e' I). }
    destruct (B lib (proj2 (calls_call _ _ _ _) eq_refl)) as (t & body & LK & B').
    destruct (makeEs (Some T) es && makeEs (Some T) (map (fun e => (UNKNOWN_TYPE, e)) al)) eqn:M; cbn [okIf andThen].
    + apply andb_prop in M. destruct M as [M1 M2]. unfold getLib. rewrite LK.
      destruct (IHk body (pushT t s) t (wf_push t s) L eq_refl B') as (r & E & R & Q). rewrite E, pop_push by exact W. exists r. split; [reflexivity|]. split; [|exact Q]. rewrite R. cbn [pushT p_libs]. split.
      * intros H. split.
        -- intros m I. apply inside_call in I. subst m. split; [apply makeEs_iff, M1|]. split; [discriminate|]. intros ? ? ? [= <- <- <-]. apply AL, M2.
        -- intros l t' b' C LK'. apply calls_call in C. subst l. rewrite LK in LK'. injection LK' as <- <-. exact H.
      * intros [_ H]. apply (H lib t body); [apply calls_call; reflexivity|exact LK].
    + exists RRefused. split; [reflexivity|]. split; [|auto]. split; [discriminate|]. intros [H _]. destruct (H _ (in_self _)) as (A & _ & A'). apply makeEs_iff in A. cbn [exprsOf] in A.
      assert (A2 : makeEs (Some T) (map (fun e => (UNKNOWN_TYPE, e)) al) = true) by (apply AL; eapply A'; reflexivity). rewrite A, A2 in M. discriminate.
Qed.

(** ** The whole load *)
Lemma parse_facts files k d s s' r : wfS s -> libsOk files s -> parsePlan files k d s = (s', r) ->
  sameT s s' /\ libsOk files s' /\ grows s s' /\
  (r = ROk <-> exists T, declares d T /\ checkN (Some T) (snd d) = true /\ loadable files k (snd d) /\ madeAll (p_libs s') k T (snd d) /\ built (p_libs s') k (snd d)).
Proof.
  intros W L. unfold parsePlan. destruct (checkPlan d s) as [s1 [T|]] eqn:C; destruct (checkPlan_facts _ _ _ _ W C) as (S1 & P1 & D1).
  - assert (W1 : wfS s1) by (unfold wfS in *; destruct S1 as [-> ->]; exact W).
    assert (L1 : libsOk files s1) by (intros n l; rewrite P1; apply L).
    destruct (proj1 (D1 T) eq_refl) as [DT CT].
    destruct (construct files k (snd d) (pushT T s1)) as [s2 r2] eqn:E2.
    destruct (construct_facts files k (snd d) _ _ _ (wf_push T s1) L1 E2) as (S2 & L2 & G2 & R2 & B2).
    assert (ST : sameT s1 (popT s2)).
    { unfold sameT, popT in *. destruct S2 as [A B]. cbn [pushT p_cur p_stk] in A, B. rewrite B. destruct (p_cur s1) as [c|] eqn:Q; [split; reflexivity|]. rewrite (W1 Q). split; reflexivity. }
    assert (PL : p_libs (popT s2) = p_libs s2) by (unfold popT; destruct (p_stk s2); reflexivity).
    assert (W3 : wfS (popT s2)) by (unfold wfS in *; destruct ST as [-> ->]; exact W1).
    assert (L3 : libsOk files (popT s2)) by (intros n l; rewrite PL; apply L2).
    assert (G3 : grows s (popT s2)) by (intros n l Q; rewrite PL; apply G2; cbn [pushT p_libs]; rewrite P1; exact Q).
    assert (S3 : sameT s (popT s2)) by (destruct S1, ST; split; congruence).
    destruct r2.
    + destruct (finalize_facts files k (snd d) (pushT T (popT s2)) T (wf_push _ _) L3 eq_refl) as (r3 & E3 & R3 & Q3); [cbn [pushT p_libs]; rewrite PL; apply B2; reflexivity|].
      rewrite E3, pop_push by exact W3. intros [= <- <-]. split; [exact S3|]. split; [exact L3|]. split; [exact G3|]. rewrite R3. cbn [pushT p_libs]. split.
      * intros H. exists T. split; [exact DT|]. split; [exact CT|]. split; [apply R2; reflexivity|]. split; [exact H|]. rewrite PL. apply B2. reflexivity.
      * intros (T' & DT' & _ & _ & H & _). now rewrite (declares_fun _ _ _ DT DT').
    + intros [= <- <-]. split; [exact S3|]. split; [exact L3|]. split; [exact G3|]. split; [discriminate|]. intros (T' & _ & _ & H & _). apply R2, H.
    + intros [= <- <-]. split; [exact S3|]. split; [exact L3|]. split; [exact G3|]. split; [discriminate|]. intros (T' & _ & _ & H & _). apply R2, H.
    + intros [= <- <-]. split; [exact S3|]. split; [exact L3|]. split; [exact G3|]. split; [discriminate|]. intros (T' & _ & _ & H & _). apply R2, H.
  - intros [= <- <-]. split; [exact S1|]. split; [intros n l; rewrite P1; apply L|]. split; [intros n l Q; rewrite P1; exact Q|]. split; [discriminate|].
    intros (T & DT & CT & _). discriminate (proj2 (D1 T) (conj DT CT)).
Qed.
Lemma loadable_shallow files k n : loadable files k n -> shallow files k n.
Proof. revert n. induction k as [|k IH]; intros n; cbn [loadable shallow]; [tauto|]. intros H lib d C F. destruct (H lib C) as (d' & T & F' & _ & _ & H'). assert (d' = d) by congruence. subst. auto. Qed.
(** Every document of an accepted plan. *)
Lemma reach_ok files k d T libs : (forall n l, lookup libs n = Some l -> exists d, files n = Some d /\ snd d = snd l /\ declares d (fst l) /\ checkN (Some (fst l)) (snd l) = true) ->
  declares d T -> checkN (Some T) (snd d) = true -> madeAll libs k T (snd d) -> built libs k (snd d) ->
  forall d', reaches files d d' -> exists k' T', declares d' T' /\ checkN (Some T') (snd d') = true /\ madeAll libs k' T' (snd d') /\ built libs k' (snd d').
Proof.
  intros L D C M B d' R. induction R as [|d1 lib d2 R IH CL F].
  - exists k, T. auto.
  - destruct IH as (k1 & T1 & D1 & C1 & M1 & B1). destruct k1 as [|k1]; [destruct B1|].
    destruct (B1 lib CL) as (t & b & LK & B2). destruct M1 as [_ M1]. specialize (M1 lib t b CL LK). destruct (L _ _ LK) as (d3 & F3 & S3 & D3 & C3). assert (d3 = d2) by congruence. subst d3. cbn [fst snd] in *.
    exists k1, t. rewrite S3. auto.
Qed.
Lemma docOk_iff d T : declares d T -> (docOk d <-> checkN (Some T) (snd d) = true /\ forall m, inside m (snd d) -> nodeMake T m).
Proof.
  intros D. unfold docOk. rewrite checkN_iff. split.
  - intros (T' & D' & H). rewrite (declares_fun _ _ _ D D'). split; intros m I; apply nodeOk_iff, (H m I).
  - intros [H1 H2]. exists T. split; [exact D|]. intros m I. apply nodeOk_iff. auto.
Qed.
Lemma accepted_iff files k d s : settled files s ->
  (snd (parsePlan files k d s) = ROk <-> 
   shallow files k (snd d) /\ forall d', reaches files d d' -> docOk d' /\ forall lib, calls (snd d') lib -> files lib <> None).
Proof.
  intros (C0 & K0 & L). assert (W : wfS s) by (intros _; exact K0). destruct (parsePlan files k d s) as [s' r] eqn:E.
  destruct (parse_facts files k d s s' r W L E) as (S1 & L1 & G1 & R). cbn [snd]. rewrite R. split.
  - intros (T & D & C & LD & M & B). split; [now apply loadable_shallow|]. intros d' RE.
    destruct (reach_ok files k d T (p_libs s') L1 D C M B d' RE) as (k' & T' & D' & C' & M' & B'). destruct k' as [|k']; [destruct B'|]. split.
    + apply (docOk_iff d' T' D'). split; [exact C'|]. apply M'.
    + intros lib CL. destruct (B' lib CL) as (t & b & LK & _). destruct (L1 _ _ LK) as (d2 & F2 & _). congruence.
  - intros [SH H].
    assert (LO : forall j d', reaches files d d' -> shallow files j (snd d') -> loadable files j (snd d')).
    { induction j as [|j IH]; intros d' RE S2; [exact S2|]. cbn [loadable]. intros lib CL. destruct (H d' RE) as [_ HF]. destruct (files lib) as [d2|] eqn:F; [|elim (HF lib CL F)].
      assert (R2 : reaches files d d2) by (econstructor; eauto). destruct (H d2 R2) as [(T2 & D2 & N2) _]. exists d2, T2. split; [reflexivity|]. split; [exact D2|]. split.
      - apply checkN_iff. intros m I. apply nodeOk_iff, (N2 m I).
      - apply IH; [exact R2|]. apply (S2 lib d2 CL F). }
    destruct (H d (reach_self _ _)) as [OK _]. assert (OK' := OK). destruct OK' as (T & D & _). apply (docOk_iff d T D) in OK. destruct OK as [CK MK].
    assert (LD := LO k d (reach_self _ _) SH).
    exists T. split; [exact D|]. split; [exact CK|]. split; [exact LD|].
    (* the construction succeeded, so everything is built *)
    assert (BU : built (p_libs s') k (snd d)).
    { clear R. unfold parsePlan in E. destruct (checkPlan d s) as [s1 [T1|]] eqn:C; destruct (checkPlan_facts _ _ _ _ W C) as (S2 & P2 & D2).
      - assert (L2 : libsOk files s1) by (intros n l; rewrite P2; apply L). assert (W1 : wfS s1) by (unfold wfS in *; destruct S2 as [-> ->]; exact W).
        destruct (construct files k (snd d) (pushT T1 s1)) as [s2 r2] eqn:E2. destruct (construct_facts files k (snd d) _ _ _ (wf_push T1 s1) L2 E2) as (S3 & L3 & G3 & R3 & B3).
        assert (r2 = ROk) by (apply R3, LD). subst r2. specialize (B3 eq_refl).
        assert (PL : p_libs (popT s2) = p_libs s2) by (unfold popT; destruct (p_stk s2); reflexivity).
        destruct (finalize_facts files k (snd d) (pushT T1 (popT s2)) T1 (wf_push _ _)) as (r3 & E3 & _ & _); [intros n l; cbn [pushT p_libs]; rewrite PL; apply L3|reflexivity|cbn [pushT p_libs]; rewrite PL; exact B3|].
        rewrite E3 in E. injection E as <- <-. assert (p_libs (popT (pushT T1 (popT s2))) = p_libs s2) as ->; [|exact B3].
        unfold popT at 1. destruct (p_stk (pushT T1 (popT s2))); cbn [p_libs pushT]; exact PL.
      - discriminate (proj2 (D2 T) (conj D CK)). }
    split; [|exact BU].
    assert (GO : forall j d' T', reaches files d d' -> declares d' T' -> built (p_libs s') j (snd d') -> madeAll (p_libs s') j T' (snd d')).
    { induction j as [|j IH]; intros d' T' RE D' B'; [exact B'|]. split.
      - destruct (H d' RE) as [O' _]. apply (docOk_iff d' T' D') in O'. apply O'.
      - intros lib t b CL LK. destruct (B' lib CL) as (t' & b' & LK' & B2). assert (t' = t /\ b' = b) as [-> ->] by (split; congruence). destruct (L1 _ _ LK) as (d2 & F2 & S2 & D2 & _). cbn [fst snd] in *.
        rewrite <- S2. apply IH; [econstructor; eauto|exact D2|rewrite S2; exact B2]. }
    exact (GO k d T (reach_self _ _) D BU).
Qed.
Lemma settled_after files k d s : settled files s -> settled files (fst (parsePlan files k d s)).
Proof.
  intros (C0 & K0 & L). assert (W : wfS s) by (intros _; exact K0). destruct (parsePlan files k d s) as [s' r] eqn:E.
  destruct (parse_facts files k d s s' r W L E) as ((S1 & S2) & L1 & _). cbn [fst]. split; [congruence|]. split; [congruence|exact L1].
Qed.
