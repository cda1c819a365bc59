(** Who holds resources, and why pending nodes wait. *)
From Coq Require Import FinFun.
From Verif Require Export ExecProofs4.

Lemma res_eqb_neq a b : a <> b -> res_eqb a b = false.
Proof. intro H. destruct (res_eqb a b) eqn:E; [|reflexivity]. apply res_eqb_eq in E; contradiction. Qed.

Section Hold.
Context {W : Type} (P : plan W).
Implicit Types (st : est W).

(** ---------- acquisition in full detail ---------- *)
Lemma acquireAll_spec2 x rs : forall st,
  QInv P st -> In x (e_pend st) -> (forall r, In r rs -> In r (needs P x)) ->
  let st' := fst (acquireAll P st x rs) in let ok := snd (acquireAll P st x rs) in
  (forall r, ~ In r rs -> holder st' r = holder st r) /\
  (ok = true -> forall r, In r rs -> holder st r = None) /\
  (NoDup rs -> ok = false -> exists r, In r rs /\ holder st r <> None /\ holder st' r = holder st r) /\
  (forall y r, y <> x -> (In y (waiters st' r) <-> In y (waiters st r))).
Proof.
  induction rs as [|r rs IH]; intros st HQ Hx Hrs; cbn [acquireAll].
  - cbn. repeat split; try tauto. discriminate.
  - destruct (acquire_spec P st r x HQ Hx (Hrs r (or_introl eq_refl))) as (A1 & A2 & A3 & A4 & A5 & A6 & A7 & A8).
    destruct (acquire st r x) as [st1 ok]; cbn [fst snd] in *; cbn zeta in *.
    assert (Wt : forall y r', y <> x -> (In y (waiters st1 r') <-> In y (waiters st r'))).
    { intros y r' Hy. rewrite A8. destruct (res_eqb r' r) eqn:Er; [|tauto]. apply res_eqb_eq in Er; subst r'.
      destruct ok; [apply rem1_In_other; congruence|]. destruct (memb x (waiters st r)); [tauto|]. rewrite in_snoc. intuition congruence. }
    destruct ok.
    + destruct (IH st1) as (B1 & B2 & B3 & B4); auto. { now rewrite A4. } { intros; apply Hrs; now right. }
      destruct (acquireAll P st1 x rs) as [st' ok']; cbn [fst snd] in *; cbn zeta in *.
      assert (Hr : holder st r = None) by tauto.
      split; [|split; [|split]].
      * intros r' Hn. cbn in Hn. rewrite B1 by tauto. rewrite A6, res_eqb_neq; [reflexivity|]. intro; subst; tauto.
      * intros -> r' [<-|Hi]; [exact Hr|]. specialize (B2 eq_refl r' Hi). rewrite A6 in B2.
        destruct (res_eqb r' r); [discriminate|exact B2].
      * intros Hnd ->. inversion Hnd as [|? ? Hni Hnd']; subst. destruct (B3 Hnd' eq_refl) as (r' & C1 & C2 & C3).
        assert (r' <> r) by congruence. rewrite A6, res_eqb_neq in C2, C3 by assumption.
        exists r'. cbn; auto.
      * intros y r' Hy. rewrite B4 by assumption. now apply Wt.
    + set (st2 := match r_holder _ with Some _ => _ | None => _ end). cbn [fst snd].
      assert (H2 : (forall r', holder st2 r' = holder st1 r') /\ (forall r', waiters st2 r' = waiters st1 r')).
      { unfold st2. destruct (r_holder (e_res st1 r)) as [h|]; [destruct (memb h (p_anc P x))|]; split; reflexivity. }
      destruct H2 as [H2 H2']. clearbody st2.
      split; [|split; [discriminate|split]].
      * intros r' Hn. rewrite H2, A6. reflexivity.
      * intros _ _. exists r. split; [now left|]. rewrite H2, A6. split; [|reflexivity].
        intro He. apply A7 in He. discriminate.
      * intros y r' Hy. rewrite H2'. now apply Wt.
Qed.

Lemma mutexes_In x r : In r (mutexes P x) <-> exists m, r = RMutex m /\ In m (p_mutex P x).
Proof. unfold mutexes. rewrite in_map_iff. firstorder. Qed.

Lemma needs_cases x r : In r (needs P x) -> In r (mutexes P x) \/ (isAssignment P x = true /\ r = RVar (p_var P x)).
Proof.
  unfold needs. rewrite in_app_iff. destruct (isAssignment P x); cbn; intuition.
Qed.

Lemma tryAcquire_spec2 st x :
  QInv P st -> In x (e_pend st) ->
  let st' := fst (tryAcquire P st x) in let ok := snd (tryAcquire P st x) in
  (forall r, ~ In r (needs P x) -> holder st' r = holder st r) /\
  (ok = true -> forall r, In r (needs P x) -> holder st r = None) /\
  (ok = false -> forall r, In r (mutexes P x) -> holder st' r <> Some x) /\
  (ok = false -> forall r, ~ In r (mutexes P x) -> holder st' r = holder st r) /\
  (ok = false -> forall r, In r (needs P x) -> In x (waiters st' r)) /\
  (NoDup (p_mutex P x) -> ok = false ->
     exists r h, In r (needs P x) /\ holder st r = Some h /\ (h <> x -> holder st' r = Some h)).
Proof.
  intros HQ Hx. unfold tryAcquire.
  assert (Hmn : forall r, In r (mutexes P x) -> In r (needs P x)) by (intros; unfold needs; rewrite in_app_iff; auto).
  assert (Hvm : forall r, In r (mutexes P x) -> r <> RVar (p_var P x)).
  { intros r Hr ->. apply mutexes_In in Hr as (m & H & _). discriminate. }
  assert (Hndm : NoDup (p_mutex P x) -> NoDup (mutexes P x)).
  { intro H. unfold mutexes. apply Injective_map_NoDup; [|exact H]. intros a b E; now inversion E. }
  destruct (acquireAll_spec P x (mutexes P x) st HQ Hx Hmn) as (A1 & A2 & A3 & A4 & A5 & A6 & A7 & A8).
  destruct (acquireAll_spec2 x (mutexes P x) st HQ Hx Hmn) as (B1 & B2 & B3 & B4).
  destruct (acquireAll P st x (mutexes P x)) as [st1 ok1]; cbn [fst snd] in *; cbn zeta in *.
  assert (Hx1 : In x (e_pend st1)) by now rewrite A4.
  set (q := if isAssignment P x then _ else _).
  assert (G : let st2 := fst q in let ok2 := snd q in
     QInv P st2 /\ e_pend st2 = e_pend st1 /\
     (ok2 = true -> ok1 = true) /\
     (ok2 = false -> forall r, holder st2 r = holder st1 r) /\
     (forall r, ~ In r (needs P x) -> holder st2 r = holder st1 r) /\
     (ok2 = true -> isAssignment P x = true -> holder st1 (RVar (p_var P x)) = None) /\
     (ok2 = false -> isAssignment P x = true -> In x (waiters st2 (RVar (p_var P x)))) /\
     (ok2 = false -> ok1 = true -> isAssignment P x = true /\ holder st1 (RVar (p_var P x)) <> None)).
  { unfold q. destruct (isAssignment P x) eqn:Ea.
    - assert (Hrv : In (RVar (p_var P x)) (needs P x)) by (unfold needs; rewrite Ea, in_app_iff; right; now left).
      destruct ok1.
      + destruct (acquire_spec P st1 (RVar (p_var P x)) x A1 Hx1 Hrv) as (C1 & C2 & C3 & C4 & C5 & C6 & C7 & C8).
        destruct (acquire st1 (RVar (p_var P x)) x) as [st2 ok2]; cbn [fst snd] in *; cbn zeta in *.
        split; [exact C1|]. split; [exact C4|]. split; [auto|].
        split; [intros ->; exact C6|].
        split. { intros r Hr. rewrite C6. destruct ok2; [|reflexivity]. rewrite res_eqb_neq; [reflexivity|]. intro; subst; tauto. }
        split; [intros; tauto|].
        split. { intros -> _. rewrite C8, res_eqb_refl. destruct (memb x _) eqn:Em; [now apply memb_In in Em|]. rewrite in_snoc; auto. }
        intros -> _. split; [reflexivity|]. intro He. apply C7 in He. discriminate.
      + destruct (addWaiting_spec P st1 (RVar (p_var P x)) x A1 Hx1 Hrv) as (C1 & C2 & C3 & C4 & C5 & C6 & C7).
        cbn [fst snd] in *; cbn zeta in *.
        split; [exact C1|]. split; [exact C4|]. split; [auto|]. split; [auto|]. split; [auto|].
        split; [discriminate|].
        split; [|discriminate]. intros _ _. rewrite C7, res_eqb_refl. destruct (memb x _) eqn:Em; [now apply memb_In in Em|]. rewrite in_snoc; auto.
    - cbn. split; [exact A1|]. split; [reflexivity|]. split; [auto|]. split; [auto|]. split; [auto|].
      split; [discriminate|]. split; [discriminate|]. intros -> ?. discriminate. }
  destruct q as [st2 ok2]; cbn [fst snd] in G; cbn zeta in G.
  destruct G as (G1 & G2 & G3 & G4 & G5 & G6 & G7 & G8).
  assert (Hx2 : In x (e_pend st2)) by now rewrite G2.
  cbn [fst snd]. destruct ok2; cbn zeta.
  - split; [|split; [|repeat split; discriminate]].
    + intros r Hr. rewrite G5, B1; auto.
    + intros _ r Hr. destruct (needs_cases x r Hr) as [Hm|[Ea ->]]; [auto|].
      specialize (G6 eq_refl Ea). rewrite B1 in G6; auto. intro Hm. now apply Hvm in Hm.
  - destruct (backOff_spec P x (mutexes P x) st2 G1 Hx2 Hmn) as (D1 & D2 & D3 & D4 & D5 & D6 & D7 & D8). cbn zeta in *.
    set (st3 := backOff st2 x (mutexes P x)) in *. clearbody st3.
    assert (Hin : forall r, In r (mutexes P x) -> existsb (res_eqb r) (mutexes P x) = true).
    { intros r Hr. apply existsb_exists. exists r. split; [exact Hr|apply res_eqb_refl]. }
    assert (Hnin : forall r, ~ In r (mutexes P x) -> existsb (res_eqb r) (mutexes P x) = false).
    { intros r Hr. destruct (existsb _ _) eqn:E; [|reflexivity]. apply existsb_exists in E as (r' & H1 & H2).
      apply res_eqb_eq in H2; subst; tauto. }
    split; [|split; [discriminate|split; [|split; [|split]]]].
    + intros r Hr. rewrite D6, Hnin, G5, B1; auto.
    + intros _ r Hr. rewrite D6, Hin by assumption. destruct (holder st2 r) as [h|]; [|discriminate].
      destruct (Nat.eqb_spec h x); congruence.
    + intros _ r Hr. rewrite D6, Hnin by assumption. rewrite G4 by reflexivity. now apply B1.
    + intros _ r Hr. destruct (needs_cases x r Hr) as [Hm|[Ea ->]]; [auto|]. apply D8, G7; auto.
    + intros Hnd _. destruct ok1.
      * destruct (G8 eq_refl eq_refl) as [Ea Hv]. rewrite B1 in Hv by (intro Hm; now apply Hvm in Hm).
        destruct (holder st (RVar (p_var P x))) as [h|] eqn:Eh; [|congruence].
        exists (RVar (p_var P x)), h. split; [unfold needs; rewrite Ea, in_app_iff; right; now left|]. split; [exact Eh|].
        intros _. rewrite D6, Hnin, G4, B1; auto; intro Hm; now apply Hvm in Hm.
      * destruct (B3 (Hndm Hnd) eq_refl) as (r & C1 & C2 & C3).
        destruct (holder st r) as [h|] eqn:Eh; [|congruence].
        exists r, h. split; [auto|]. split; [exact Eh|]. intros Hh. rewrite D6, Hin by assumption. rewrite G4, C3 by reflexivity.
        destruct (Nat.eqb_spec h x); congruence.
Qed.
End Hold.
