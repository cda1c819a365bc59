(** Proofs about UdpLoopModel.v. *)
From Coq Require Import ZArith List Bool Arith Lia.
From Verif Require Import UdpLoopModel UdpLoopSpec.
Import ListNotations.

Section Assoc.
Context {A : Type}.
Implicit Types (m : list (nat * A)) (a : A).
Lemma aget_set m k a k' : aget (aset m k a) k' = if Nat.eq_dec k' k then Some a else aget m k'.
Proof.
  induction m as [|[k0 a0] r IH]; cbn; [destruct (Nat.eq_dec k' k); reflexivity|].
  destruct (Nat.eq_dec k k0) as [->|N]; cbn.
  - destruct (Nat.eq_dec k' k0); reflexivity.
  - rewrite IH. destruct (Nat.eq_dec k' k0), (Nat.eq_dec k' k); congruence.
Qed.
Lemma aget_in m k : aget m k <> None <-> In k (map fst m).
Proof.
  induction m as [|[k0 a0] r IH]; cbn; [tauto|]. destruct (Nat.eq_dec k k0) as [->|N]; [split; auto; discriminate|].
  rewrite IH. split; [auto|]. intros [E|E]; [congruence|auto].
Qed.
Lemma keys_set m k a : NoDup (map fst m) -> NoDup (map fst (aset m k a)).
Proof.
  intros N. induction m as [|[k0 a0] r IH]; cbn; [constructor; [intros []|constructor]|]. inversion N as [|? ? N1 N2]; subst.
  destruct (Nat.eq_dec k k0) as [->|E]; cbn; constructor; auto.
  intros I. apply aget_in in I. rewrite aget_set in I. destruct (Nat.eq_dec k0 k); [congruence|]. apply aget_in in I. auto.
Qed.
Lemma aget_del m k k' : NoDup (map fst m) -> aget (adel m k) k' = if Nat.eq_dec k' k then None else aget m k'.
Proof.
  intros N. induction m as [|[k0 a0] r IH]; cbn; [destruct (Nat.eq_dec k' k); reflexivity|]. inversion N as [|? ? N1 N2]; subst.
  destruct (Nat.eq_dec k k0) as [->|E]; cbn.
  - destruct (Nat.eq_dec k' k0) as [->|]; [|reflexivity]. destruct (aget r k0) eqn:X; auto. exfalso. apply N1. apply aget_in. congruence.
  - rewrite IH by auto. destruct (Nat.eq_dec k' k0), (Nat.eq_dec k' k); congruence.
Qed.
Lemma keys_del m k : NoDup (map fst m) -> NoDup (map fst (adel m k)).
Proof.
  intros N. induction m as [|[k0 a0] r IH]; cbn; auto. inversion N as [|? ? N1 N2]; subst. destruct (Nat.eq_dec k k0); auto.
  cbn. constructor; auto. intros I. apply N1. apply aget_in in I. rewrite aget_del in I by auto. destruct (Nat.eq_dec k0 k); [congruence|].
  apply aget_in in I. auto.
Qed.
End Assoc.
Lemma remove1_in fd l x : NoDup l -> (In x (remove1 fd l) <-> In x l /\ x <> fd).
Proof.
  induction 1 as [|y r N1 N2 IH]; cbn; [tauto|]. destruct (Nat.eq_dec fd y) as [->|E].
  - split; [intros I; split; [auto|intros ->; contradiction]|]. intros [[->|I] X]; [congruence|auto].
  - cbn. rewrite IH. split; [intros [->|[I X]]; [split; [auto|congruence]|tauto]|]. tauto.
Qed.
Lemma remove1_nodup fd l : NoDup l -> NoDup (remove1 fd l).
Proof.
  induction 1 as [|y r N1 N2 IH]; cbn; [constructor|]. destruct (Nat.eq_dec fd y); auto. constructor; auto.
  intros I. apply remove1_in in I; tauto.
Qed.
Lemma NoDup_snoc {A} (l : list A) x : NoDup l -> ~ In x l -> NoDup (l ++ [x]).
Proof.
  induction 1 as [|y r N1 N2 IH]; cbn; intros N; [repeat constructor; auto|]. constructor.
  - intros I. apply in_app_or in I as [I|[->|[]]]; auto.
  - apply IH. auto.
Qed.
(** ** The invariant *)
Record inv (s : loop) (op : list port) : Prop := {
  i_alive : alive s = true;
  i_lm : NoDup (map fst (lm s));
  i_desc : NoDup (map fst (desc s));
  i_socks : NoDup (map fst (socks s));
  i_polls : NoDup (polls s);
  i_todo : NoDup (todo s);
  i_open : forall p, In p op <-> aget (lm s) p <> None;
  i_lis : forall p l, aget (lm s) p = Some l ->
     l_port l = p /\ aget (desc s) (l_fd l) = Some l /\ In (l_fd l) (polls s)
     /\ exists k, aget (socks s) (l_fd l) = Some k /\ s_port k = p;
  i_polled : forall fd, In fd (polls s) -> exists p l, aget (lm s) p = Some l /\ l_fd l = fd;
  i_sock : forall fd k, aget (socks s) fd = Some k -> In fd (polls s);
  i_todo_in : forall fd, In fd (todo s) -> In fd (polls s) /\ exists k d q, aget (socks s) fd = Some k /\ s_queue k = d :: q }.
Lemma inv_init : inv loopInit [].
Proof.
  constructor; cbn; try constructor; auto; try discriminate; try tauto.
Qed.
Lemma inv_fd_port s op p p' l l' : inv s op -> aget (lm s) p = Some l -> aget (lm s) p' = Some l' -> l_fd l = l_fd l' -> p = p'.
Proof.
  intros I A B E. destruct (i_lis s op I _ _ A) as (P & D & _). destruct (i_lis s op I _ _ B) as (P' & D' & _). rewrite E in D. congruence.
Qed.
Definition nextOpen (op : list port) (e : ev) : list port :=
  match e with EOpen p _ _ _ => p :: op | EClose p => remove Nat.eq_dec p op | _ => op end.
Definition okUse (op : list port) (e : ev) : Prop :=
  match e with EOpen p _ _ _ => ~ In p op | EClose p => In p op | _ => True end.
Lemma open_eq s op p mx fn fd : inv s op -> ~ In p op -> todo s = [] -> aget (socks s) fd = None ->
  openListener s p mx fn fd = Next {| lm := aset (lm s) p (mkListener fd p mx fn); desc := aset (desc s) fd (mkListener fd p mx fn); polls := polls s ++ [fd];
    todo := []; alive := true; socks := aset (socks s) fd {| s_port := p; s_queue := [] |} |} [].
Proof.
  intros I N T F. unfold openListener. rewrite (i_alive s op I), T, F. assert (E : aget (lm s) p = None).
  { destruct (aget (lm s) p) eqn:X; auto. exfalso. apply N. apply (i_open s op I). congruence. }
  rewrite E, aget_set. destruct (Nat.eq_dec p p); [reflexivity|congruence].
Qed.
Lemma step_inv s op e : inv s op -> okUse op e ->
  match lstep s e with
  | Next s' _ => inv s' (nextOpen op e)
  | Stuck => e <> EHandle \/ todo s = []
  | Crash | Killed => False
  end.
Proof.
  intros I U. destruct e as [p mx fn fd|p|fd d| |]; cbn [lstep nextOpen okUse] in *.
  - destruct (todo s) as [|x r] eqn:T; [|unfold openListener; rewrite (i_alive s op I), T; left; discriminate].
    destruct (aget (socks s) fd) as [k|] eqn:F; [unfold openListener; rewrite (i_alive s op I), T, F; left; discriminate|].
    rewrite (open_eq s op) by auto. destruct I as [Al L D S P TD O Li Po So TI]. set (l := mkListener fd p mx fn).
    assert (Np : ~ In fd (polls s)).
    { intros X. destruct (Po _ X) as (q & l0 & A & B). destruct (Li _ _ A) as (_ & _ & _ & k & K & _). rewrite B in K. congruence. }
    constructor; cbn [lm desc polls todo alive socks]; auto using keys_set.
    + apply NoDup_snoc; auto.
    + constructor.
    + intros q. rewrite aget_set. cbn [In]. destruct (Nat.eq_dec q p) as [->|E]; [split; [discriminate|auto]|]. rewrite <- O.
      split; [intros [X|X]; [congruence|auto]|auto].
    + intros q l0. rewrite aget_set. destruct (Nat.eq_dec q p) as [->|E].
      * intros X. injection X as <-. split; [reflexivity|]. change (l_fd l) with fd. rewrite aget_set. destruct (Nat.eq_dec fd fd); [|congruence].
        split; [reflexivity|]. split; [apply in_or_app; right; left; reflexivity|]. rewrite aget_set. destruct (Nat.eq_dec fd fd); [|congruence]. eauto.
      * intros X. destruct (Li _ _ X) as (A & B & C & k & K & K'). split; [exact A|]. rewrite !aget_set.
        destruct (Nat.eq_dec (l_fd l0) fd) as [E'|E']; [rewrite E' in C; contradiction|]. split; [exact B|]. split; [apply in_or_app; auto|eauto].
    + intros fd' X. apply in_app_or in X as [X|[<-|[]]].
      * destruct (Po _ X) as (q & l0 & A & B). exists q, l0. rewrite aget_set. destruct (Nat.eq_dec q p) as [->|E]; [|auto].
        exfalso. apply U. apply O. congruence.
      * exists p, l. rewrite aget_set. destruct (Nat.eq_dec p p); [auto|congruence].
    + intros fd' k. rewrite aget_set. destruct (Nat.eq_dec fd' fd) as [->|E]; intros X; apply in_or_app; [right; left; reflexivity|left; eauto].
    + intros fd' [].
  - unfold closeListener. rewrite (i_alive s op I). destruct (todo s) as [|x r] eqn:T; [|left; discriminate].
    apply (i_open s op I) in U. destruct (aget (lm s) p) as [l|] eqn:E; [|congruence]. clear U.
    pose proof (fun q l' A => inv_fd_port s op p q l l' I E A) as FP. destruct I as [Al L D S P TD O Li Po So TI].
    constructor; cbn [lm desc polls todo alive socks]; auto using keys_del, remove1_nodup.
    + constructor.
    + intros q. rewrite aget_del by auto. destruct (Nat.eq_dec q p) as [->|N].
      * split; [intros X; exfalso; eapply remove_In; eauto|congruence].
      * rewrite <- O. split; [intros X; apply in_remove in X; tauto|intros X; apply in_in_remove; auto].
    + intros q l0. rewrite aget_del by auto. destruct (Nat.eq_dec q p) as [->|N]; [discriminate|]. intros X.
      destruct (Li _ _ X) as (A & B & C & k & K & K'). split; [exact A|]. rewrite !aget_del by auto.
      destruct (Nat.eq_dec (l_fd l0) (l_fd l)) as [E'|E']; [exfalso; apply N; symmetry; eapply FP; eauto|].
      split; [exact B|]. rewrite remove1_in by auto. split; [auto|eauto].
    + intros fd X. apply remove1_in in X as [X N]; auto. destruct (Po _ X) as (q & l0 & A & B). exists q, l0. rewrite aget_del by auto.
      destruct (Nat.eq_dec q p) as [->|]; [|auto]. exfalso. congruence.
    + intros fd k. rewrite aget_del by auto. destruct (Nat.eq_dec fd (l_fd l)); [discriminate|]. intros X. apply remove1_in; auto. split; eauto.
    + intros fd [].
  - unfold arrive. destruct (aget (socks s) fd) as [k|] eqn:F; [|left; discriminate]. destruct I as [Al L D S P TD O Li Po So TI].
    constructor; cbn [lm desc polls todo alive socks]; auto using keys_set.
    + intros q l0 X. destruct (Li _ _ X) as (A & B & C & k0 & K & K'). split; [exact A|]. split; [exact B|]. split; [exact C|]. rewrite aget_set.
      destruct (Nat.eq_dec (l_fd l0) fd) as [E|E]; [|eauto]. rewrite E in K. eexists. split; [reflexivity|]. cbn. congruence.
    + intros fd' k0. rewrite aget_set. destruct (Nat.eq_dec fd' fd) as [->|E]; intros X; eauto.
    + intros fd' X. destruct (TI _ X) as (A & k0 & d0 & q & K & Q). split; [exact A|]. rewrite aget_set. destruct (Nat.eq_dec fd' fd) as [->|E]; [|eauto].
      rewrite F in K. injection K as <-. exists {| s_port := s_port k; s_queue := s_queue k ++ [d] |}, d0, (q ++ [d]). cbn. rewrite Q. auto.
  - unfold pollStep. rewrite (i_alive s op I). destruct (todo s) as [|x r] eqn:T; [|left; discriminate]. destruct I as [Al L D S P TD O Li Po So TI].
    constructor; cbn [lm desc polls todo alive socks]; auto.
    + apply NoDup_filter. exact P.
    + intros fd X. apply filter_In in X as [X R]. split; [exact X|]. destruct (Po _ X) as (q & l0 & A & B). destruct (Li _ _ A) as (_ & _ & _ & k & K & _).
      rewrite B in K. unfold ready in R. rewrite K in R. destruct (s_queue k) as [|d0 q0] eqn:Q; [discriminate|]. eauto.
  - unfold handleStep. rewrite (i_alive s op I). destruct (todo s) as [|fd rest] eqn:T; [right; reflexivity|]. pose proof (i_todo_in s op I fd) as TF.
    rewrite T in TF. destruct (TF (or_introl eq_refl)) as (PI & k & d & q & K & Q). clear TF. destruct (i_polled s op I fd PI) as (p & l & LP & <-).
    destruct (i_lis s op I _ _ LP) as (A & B & C & _). rewrite B, K, Q. destruct I as [Al L D S P TD O Li Po So TI].
    rewrite T in TD. inversion TD as [|? ? T1 T2]; subst.
    constructor; cbn [lm desc polls todo alive socks]; auto using keys_set.
    + intros q' l0 X. destruct (Li _ _ X) as (A' & B' & C' & k0 & K0 & K'). split; [exact A'|]. split; [exact B'|]. split; [exact C'|]. rewrite aget_set.
      destruct (Nat.eq_dec (l_fd l0) (l_fd l)) as [E|E]; [|eauto]. rewrite E in K0. eexists. split; [reflexivity|]. cbn. congruence.
    + intros fd' k0. rewrite aget_set. destruct (Nat.eq_dec fd' (l_fd l)) as [->|E]; intros X; eauto.
    + intros fd' X. destruct (TI fd') as (A' & k0 & d0 & q0 & K0 & Q0); [rewrite T; right; exact X|]. split; [exact A'|]. rewrite aget_set.
      destruct (Nat.eq_dec fd' (l_fd l)) as [->|E]; [contradiction|]. eauto.
Qed.
Lemma wellUsed_cons op e r : wellUsed op (e :: r) <-> okUse op e /\ wellUsed (nextOpen op e) r.
Proof. destruct e; cbn; tauto. Qed.
Lemma openPorts_cons op e r : openPorts op (e :: r) = openPorts (nextOpen op e) r.
Proof. destruct e; reflexivity. Qed.
Lemma run_inv h : forall s op, inv s op -> wellUsed op h ->
  match lrun s h with Next s' _ => inv s' (openPorts op h) | Stuck => True | Crash | Killed => False end.
Proof.
  induction h as [|e r IH]; intros s op I W; cbn [lrun]; [exact I|]. apply wellUsed_cons in W as [U W]. rewrite openPorts_cons.
  pose proof (step_inv s op e I U) as X. destruct (lstep s e) as [s1 o1| | |]; auto. specialize (IH s1 _ X W). destruct (lrun s1 r); auto.
Qed.
Lemma lrun_app a : forall s b, lrun s (a ++ b) = match lrun s a with Next s1 o1 => match lrun s1 b with Next s2 o2 => Next s2 (o1 ++ o2) | x => x end | x => x end.
Proof.
  induction a as [|e r IH]; intros s b; cbn [app lrun]; [destruct (lrun s b); reflexivity|]. destruct (lstep s e) as [s1 o1| | |]; auto.
  rewrite IH. destruct (lrun s1 r) as [s2 o2| | |]; auto. destruct (lrun s2 b); auto. rewrite app_assoc. reflexivity.
Qed.
Lemma wellUsed_app a : forall op b, wellUsed op (a ++ b) <-> wellUsed op a /\ wellUsed (openPorts op a) b.
Proof.
  induction a as [|e r IH]; intros op b; cbn [app]; [cbn; tauto|]. rewrite !wellUsed_cons, IH, openPorts_cons. tauto.
Qed.
(** ** Deliveries *)
Lemma callsFor_app p a b : callsFor p (a ++ b) = callsFor p a ++ callsFor p b.
Proof. induction a as [|[[fn p'] d] r IH]; cbn; auto. destruct (Nat.eq_dec p p'); cbn; congruence. Qed.
Lemma calls_app fn mx a b : calls fn mx (a ++ b) = calls fn mx a ++ calls fn mx b.
Proof. unfold calls. rewrite filter_app, map_app. reflexivity. Qed.
Definition queueOf (s : loop) (fd : fdesc) : list dgram := match aget (socks s) fd with Some k => s_queue k | None => [] end.
(** One step of a session. *)
Lemma session_step s op e p l : inv s op -> okUse op e -> aget (lm s) p = Some l -> e <> EClose p ->
  match lstep s e with
  | Next s' o => aget (lm s') p = Some l
      /\ exists dl, queueOf s (l_fd l) ++ arrivals (l_fd l) [e] = dl ++ queueOf s' (l_fd l) /\ callsFor p o = calls (l_fn l) (l_max l) dl
  | _ => True
  end.
Proof.
  intros I U E NC. destruct e as [q mx fn fd|q|fd d| |]; cbn [lstep okUse] in *.
  - destruct (todo s) as [|x r] eqn:T; [|unfold openListener; rewrite (i_alive s op I), T; exact Logic.I].
    destruct (aget (socks s) fd) as [k|] eqn:F; [unfold openListener; rewrite (i_alive s op I), T, F; exact Logic.I|].
    rewrite (open_eq s op) by auto. cbn [lm]. rewrite aget_set. destruct (Nat.eq_dec p q) as [->|N]; [exfalso; apply U; apply (i_open s op I); congruence|].
    split; [exact E|]. exists []. cbn [arrivals callsFor calls filter map]. rewrite app_nil_r. split; [|reflexivity]. unfold queueOf. cbn [socks app].
    rewrite aget_set. destruct (Nat.eq_dec (l_fd l) fd) as [E'|]; [|reflexivity]. destruct (i_lis s op I _ _ E) as (_ & _ & _ & k & K & _). congruence.
  - unfold closeListener. rewrite (i_alive s op I). destruct (todo s); [|exact Logic.I]. destruct (aget (lm s) q) as [l'|] eqn:Q; [|exact Logic.I].
    cbn [lm]. rewrite aget_del by apply (i_lm s op I). destruct (Nat.eq_dec p q) as [->|N]; [congruence|]. split; [exact E|].
    exists []. cbn [arrivals callsFor calls filter map]. rewrite app_nil_r. split; [|reflexivity]. unfold queueOf. cbn [socks app].
    rewrite aget_del by apply (i_socks s op I). destruct (Nat.eq_dec (l_fd l) (l_fd l')) as [E'|]; [|reflexivity].
    exfalso. apply N. eapply inv_fd_port; eauto.
  - unfold arrive. destruct (aget (socks s) fd) as [k|] eqn:F; [|exact Logic.I]. cbn [lm]. split; [exact E|]. exists []. split; [|reflexivity].
    unfold queueOf. cbn [socks app arrivals]. rewrite aget_set. destruct (Nat.eq_dec (l_fd l) fd) as [->|]; [rewrite F; reflexivity|]. rewrite app_nil_r. reflexivity.
  - unfold pollStep. rewrite (i_alive s op I). destruct (todo s); [|exact Logic.I]. cbn [lm]. split; [exact E|]. exists []. cbn [arrivals]. rewrite app_nil_r. split; reflexivity.
  - unfold handleStep. rewrite (i_alive s op I). destruct (todo s) as [|fd rest] eqn:T; [exact Logic.I|]. pose proof (i_todo_in s op I fd) as TF.
    rewrite T in TF. destruct (TF (or_introl eq_refl)) as (PI & k & d & q & K & Q). clear TF. destruct (i_polled s op I fd PI) as (p' & l' & LP & <-).
    destruct (i_lis s op I _ _ LP) as (A & B & C & _). rewrite B, K, Q. cbn [lm]. split; [exact E|]. cbn [arrivals]. rewrite app_nil_r.
    unfold queueOf. cbn [socks]. rewrite aget_set. destruct (Nat.eq_dec (l_fd l) (l_fd l')) as [E'|N].
    + assert (PP : p = p') by (eapply inv_fd_port; eauto). rewrite <- PP in *. assert (EL : l' = l) by congruence. rewrite EL in *. rewrite K, Q. exists [d]. split; [reflexivity|].
      destruct d as [|c d]; [reflexivity|]. cbn [callsFor]. rewrite A. destruct (Nat.eq_dec p p); [reflexivity|congruence].
    + exists []. split; [reflexivity|]. destruct d as [|c d]; [reflexivity|]. cbn [callsFor]. rewrite A. destruct (Nat.eq_dec p p') as [->|]; [|reflexivity].
      exfalso. apply N. congruence.
Qed.
Lemma arrivals_cons fd e r : arrivals fd (e :: r) = arrivals fd [e] ++ arrivals fd r.
Proof. destruct e as [| |fd' d| |]; try reflexivity. cbn. destruct (Nat.eq_dec fd fd'); reflexivity. Qed.
Lemma session_run h p l : ~ In (EClose p) h -> forall s op, inv s op -> wellUsed op h -> aget (lm s) p = Some l ->
  match lrun s h with
  | Next s' o => aget (lm s') p = Some l
      /\ exists dl, queueOf s (l_fd l) ++ arrivals (l_fd l) h = dl ++ queueOf s' (l_fd l) /\ callsFor p o = calls (l_fn l) (l_max l) dl
  | _ => True
  end.
Proof.
  induction h as [|e r IH]; intros NC s op I W E; cbn [lrun].
  - split; [exact E|]. exists []. rewrite app_nil_r. split; reflexivity.
  - apply wellUsed_cons in W as [U W]. pose proof (step_inv s op e I U) as X.
    pose proof (session_step s op e p l I U E ltac:(intros ->; apply NC; left; reflexivity)) as Y.
    destruct (lstep s e) as [s1 o1| | |]; auto. destruct Y as (E1 & dl1 & Q1 & C1).
    specialize (IH ltac:(intros Z; apply NC; right; exact Z) s1 _ X W E1). destruct (lrun s1 r) as [s2 o2| | |]; auto.
    destruct IH as (E2 & dl2 & Q2 & C2). split; [exact E2|]. exists (dl1 ++ dl2). rewrite arrivals_cons, app_assoc, Q1, <- !app_assoc, Q2.
    split; [reflexivity|]. rewrite callsFor_app, calls_app. congruence.
Qed.
(** A closed port is silent. *)
Lemma closed_run h p : (forall mx fn fd, ~ In (EOpen p mx fn fd) h) -> forall s op, inv s op -> wellUsed op h -> ~ In p op ->
  match lrun s h with Next s' o => callsFor p o = [] | _ => True end.
Proof.
  induction h as [|e r IH]; intros NO s op I W NP; cbn [lrun]; [reflexivity|]. apply wellUsed_cons in W as [U W]. pose proof (step_inv s op e I U) as X.
  assert (O : match lstep s e with Next s' o => callsFor p o = [] | _ => True end).
  { destruct e as [q mx fn fd|q|fd d| |]; cbn [lstep okUse] in *.
    - unfold openListener. destruct (alive s), (todo s), (aget (socks s) fd); try exact Logic.I; reflexivity.
    - unfold closeListener. destruct (alive s), (todo s), (aget (lm s) q); try exact Logic.I; reflexivity.
    - unfold arrive. destruct (aget (socks s) fd); [reflexivity|exact Logic.I].
    - unfold pollStep. destruct (alive s), (todo s); try exact Logic.I; reflexivity.
    - unfold handleStep. rewrite (i_alive s op I). destruct (todo s) as [|fd rest] eqn:T; [exact Logic.I|]. pose proof (i_todo_in s op I fd) as TF.
      rewrite T in TF. destruct (TF (or_introl eq_refl)) as (PI & k & d & q & K & Q). destruct (i_polled s op I fd PI) as (p' & l' & LP & <-).
      destruct (i_lis s op I _ _ LP) as (A & B & C & _). rewrite B, K, Q. destruct d; [reflexivity|]. cbn [callsFor]. rewrite A.
      destruct (Nat.eq_dec p p') as [->|]; [|reflexivity]. exfalso. apply NP. apply (i_open s op I). congruence. }
  destruct (lstep s e) as [s1 o1| | |]; auto.
  assert (NP' : ~ In p (nextOpen op e)).
  { destruct e as [q mx fn fd|q| | |]; cbn [nextOpen]; auto.
    - intros [->|Z]; [eapply NO; left; reflexivity|auto].
    - intros Z. apply in_remove in Z. tauto. }
  specialize (IH ltac:(intros mx fn fd Z; eapply NO; right; exact Z) s1 _ X W NP'). destruct (lrun s1 r) as [s2 o2| | |]; auto.
  rewrite callsFor_app, O, IH. reflexivity.
Qed.
(** ** Progress *)
Lemma handle_ok s op fd rest : inv s op -> todo s = fd :: rest ->
  exists p l k d q, aget (lm s) p = Some l /\ l_fd l = fd /\ aget (socks s) fd = Some k /\ s_queue k = d :: q /\
  handleStep s = Next {| lm := lm s; desc := desc s; polls := polls s; todo := rest; alive := true;
                         socks := aset (socks s) fd {| s_port := s_port k; s_queue := q |} |}
                      (match d with [] => [] | _ => [(l_fn l, p, firstn (l_max l) d)] end).
Proof.
  intros I T. unfold handleStep. rewrite (i_alive s op I), T. pose proof (i_todo_in s op I fd) as TF.
  rewrite T in TF. destruct (TF (or_introl eq_refl)) as (PI & k & d & q & K & Q). destruct (i_polled s op I fd PI) as (p' & l' & LP & <-).
  destruct (i_lis s op I _ _ LP) as (A & B & C & _). rewrite B, K, Q. exists p', l', k, d, q. rewrite A. auto 10.
Qed.
Lemma drain n : forall s op, inv s op -> length (todo s) = n ->
  exists s' o, lrun s (repeat EHandle n) = Next s' o /\ todo s' = [] /\ inv s' op /\ lm s' = lm s /\ polls s' = polls s
  /\ (forall p l, aget (lm s) p = Some l -> ~ In (l_fd l) (todo s) -> queueOf s' (l_fd l) = queueOf s (l_fd l))
  /\ (forall p l d q, aget (lm s) p = Some l -> In (l_fd l) (todo s) -> queueOf s (l_fd l) = d :: q -> d <> [] -> In (l_fn l, p, firstn (l_max l) d) o).
Proof.
  induction n as [|n IH]; intros s op I L.
  - destruct (todo s) eqn:T; [|discriminate]. exists s, []. cbn. do 5 (split; [auto|]). split; [reflexivity|]. intros p l d q _ [].
  - destruct (todo s) as [|fd rest] eqn:T; [discriminate|]. injection L as L.
    destruct (handle_ok s op fd rest I T) as (p0 & l0 & k & d0 & q0 & LP & F & K & Q & H).
    pose proof (step_inv s op EHandle I Logic.I) as I1. cbn [lstep] in I1. rewrite H in I1. cbn [nextOpen] in I1.
    destruct (IH _ _ I1 L) as (s' & o & R & T' & I' & LM & PL & SAME & DEL). cbn [repeat lrun lstep]. rewrite H, R.
    exists s'. eexists. split; [reflexivity|]. split; [exact T'|]. split; [exact I'|]. split; [exact LM|]. split; [exact PL|].
    pose proof (i_todo s op I) as ND. rewrite T in ND. apply NoDup_cons_iff in ND as [N1 N2]. subst fd.
    assert (QO : forall fd', fd' <> l_fd l0 -> queueOf {| lm := lm s; desc := desc s; polls := polls s; todo := rest; alive := true;
                         socks := aset (socks s) (l_fd l0) {| s_port := s_port k; s_queue := q0 |} |} fd' = queueOf s fd').
    { intros fd' N. unfold queueOf. cbn [socks]. rewrite aget_set. destruct (Nat.eq_dec fd' (l_fd l0)); [contradiction|reflexivity]. }
    cbn [lm todo] in *. split.
    + intros p l A NI. rewrite (SAME p l A) by (intros X; apply NI; right; exact X). apply QO. intros X. apply NI. left. congruence.
    + intros p l d q A [X|X] B ND'; apply in_or_app.
      * left. assert (PP : p = p0) by exact (inv_fd_port s op p p0 l l0 I A LP (eq_sym X)). rewrite <- PP in *. assert (EL : l = l0) by congruence. rewrite EL in *. clear EL.
        unfold queueOf in B. rewrite K, Q in B. injection B as -> ->. destruct d; [congruence|]. left. reflexivity.
      * right. eapply DEL; eauto. rewrite QO; eauto. intros Y. rewrite Y in X. contradiction.
Qed.
