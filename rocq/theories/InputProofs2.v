(** Proofs for C28: the ideal queue follows the calls; threads. *)
From Coq Require Import Permutation.
From Verif Require Import InputModel InputSpec InputProofs.

Definition tag (c : nat -> content) (Q : list nat) : list (nat * content) := map (fun p => (p, c p)) Q.
Record core (s : shared) (Q F : list nat) (c : nat -> content) (i : ideal) (O : nat -> Prop) : Prop := {
  k_abs : abs s Q F;
  k_q : i_q i = tag c Q;
  k_blank : forall p, In p F -> c p = blank;
  k_own : forall p, O p <-> In p (i_own i);
  k_sep : forall p, O p -> ~ In p (Q ++ F) /\ p < s_new s }.
Lemma tag_ext c c' Q : (forall p, In p Q -> c' p = c p) -> tag c' Q = tag c Q.
Proof. intros E. apply map_ext_in. intros p Hp. now rewrite E. Qed.
Lemma owns_iff i p : owns i p = true <-> In p (i_own i).
Proof. unfold owns. rewrite existsb_exists. split; [intros (x & A & B)|intros A; exists p]. { apply Nat.eqb_eq in B. now subst. } split; auto. apply Nat.eqb_refl. Qed.
Lemma owns_false i p : owns i p = false <-> ~ In p (i_own i).
Proof. rewrite <- owns_iff. destruct (owns i p); split; congruence. Qed.
Lemma wait_false i p c Q : i_q i = tag c Q -> ~ In p Q -> waiting i p = false.
Proof.
  intros E N. unfold waiting. rewrite E. destruct (existsb _ (tag c Q)) eqn:X; auto. apply existsb_exists in X as (x & A & B).
  apply in_map_iff in A as (q & <- & A). apply Nat.eqb_eq in B. cbn in B. subst. tauto.
Qed.
Lemma in_del p x l : In x (del p l) <-> In x l /\ x <> p.
Proof. unfold del. rewrite filter_In, negb_true_iff, Nat.eqb_neq. reflexivity. Qed.
Lemma ib_in p l : existsb (Nat.eqb p) l = true <-> In p l.
Proof. rewrite existsb_exists. split; [intros (x & A & B)|intros A; exists p]. { apply Nat.eqb_eq in B. now subst. } split; auto. apply Nat.eqb_refl. Qed.

Lemma core_alloc s Q F c i O s' p new : core s Q F c i O -> allocate s = (s', p, new) ->
  let c' := if new then upd c p blank else c in
  ~ O p /\ ~ In p Q /\ p < s_new s' /\ c' p = blank /\ exists F', ~ In p F' /\
  ideal_step i (BAlloc p (c' p)) (mkI (i_q i) (p :: i_own i)) /\ core s' Q F' c' (mkI (i_q i) (p :: i_own i)) (fun x => x = p \/ O x).
Proof.
  intros [A KQ KB KO KS] E. pose proof (abs_alloc _ _ _ A) as H. destruct F as [|f F'].
  - destruct H as [E' A']. rewrite E in E'. inversion E'; subst; clear E'. cbv zeta.
    assert (NO : ~ O (s_new s)). { intros X. apply KS in X. lia. }
    assert (NQ : ~ In (s_new s) Q). { intros X. assert (s_new s < s_new s); [|lia]. apply (b_lt _ _ _ A). now rewrite app_nil_r. }
    split; auto. split; auto. split; [cbn; lia|]. rewrite upd_same. split; auto. exists []. split; auto. split.
    + constructor. { apply owns_false. now rewrite <- KO. } eapply wait_false; eauto.
    + constructor; cbn [i_q i_own]; auto.
      * rewrite KQ. symmetry. apply tag_ext. intros q Hq. apply upd_other. intros ->. auto.
      * intros q [].
      * intros q. cbn. rewrite KO. intuition.
      * intros q [->|Hq]; [rewrite app_nil_r; split; auto; cbn; lia|]. apply KS in Hq as [H1 H2]. split; auto. cbn. lia.
  - destruct H as (s1 & E' & A' & NW). rewrite E in E'. inversion E'; subst; clear E'. cbv zeta.
    pose proof (b_nodup _ _ _ A) as ND. apply NoDup_remove in ND as [ND1 ND2].
    assert (NO : ~ O f). { intros X. apply KS in X as [X _]. apply X, in_app_iff. right. now left. }
    assert (NQ : ~ In f Q). { intros X. apply ND2, in_app_iff. auto. }
    split; auto. split; auto. split; [rewrite NW; apply (b_lt _ _ _ A), in_app_iff; right; now left|]. split; [apply KB; now left|]. exists F'.
    split. { intros X. apply ND2, in_app_iff. auto. } split.
    + rewrite (KB f) by now left. constructor. { apply owns_false. now rewrite <- KO. } eapply wait_false; eauto.
    + constructor; cbn [i_q i_own]; auto.
      * intros q Hq. apply KB. now right.
      * intros q. cbn. rewrite KO. intuition.
      * intros q [->|Hq]; rewrite NW; [split; auto; apply (b_lt _ _ _ A), in_app_iff; right; now left|]. apply KS in Hq as [H1 H2]. split; auto.
        intros X. apply H1. apply in_app_iff in X as [X|X]; apply in_app_iff; cbn; auto.
Qed.
Lemma put_new s p : s_new (put s p) = s_new s.
Proof. unfold put. cbn [s_put setNxt]. destruct (s_put s); cbn [setPut setNxt s_get]; destruct (s_get s); reflexivity. Qed.
Lemma core_put s Q F c i O p : core s Q F c i O -> O p ->
  ideal_step i (BPut p (c p)) (mkI (i_q i ++ [(p, c p)]) (del p (i_own i))) /\
  core (put s p) (Q ++ [p]) F c (mkI (i_q i ++ [(p, c p)]) (del p (i_own i))) (fun x => O x /\ x <> p).
Proof.
  intros [A KQ KB KO KS] Hp. destruct (KS p Hp) as [S1 S2]. split. { constructor. apply owns_iff. now apply KO. }
  constructor; cbn [i_q i_own]; auto.
  - now apply abs_put.
  - rewrite KQ. unfold tag. now rewrite map_app.
  - intros q. rewrite in_del, KO. reflexivity.
  - intros q [Hq N]. destruct (KS q Hq) as [T1 T2]. split; [|rewrite put_new; auto].
    rewrite <- app_assoc. intros X. apply in_app_iff in X as [X|[X|X]]; [apply T1, in_app_iff; auto|congruence|apply T1, in_app_iff; auto].
Qed.
Lemma core_rel s Q F c i O p : core s Q F c i O -> O p ->
  ideal_step i (BRel p) (mkI (i_q i) (del p (i_own i))) /\
  core (release s p) Q (p :: F) (upd c p blank) (mkI (i_q i) (del p (i_own i))) (fun x => O x /\ x <> p).
Proof.
  intros [A KQ KB KO KS] Hp. destruct (KS p Hp) as [S1 S2]. split. { constructor. apply owns_iff. now apply KO. }
  constructor; cbn [i_q i_own]; auto.
  - now apply abs_release.
  - rewrite KQ. symmetry. apply tag_ext. intros q Hq. apply upd_other. intros ->. apply S1, in_app_iff. auto.
  - intros q [<-|Hq]; [apply upd_same|]. unfold upd. destruct (Nat.eqb q p); auto.
  - intros q. rewrite in_del, KO. reflexivity.
  - intros q [Hq N]. destruct (KS q Hq) as [T1 T2]. split; auto.
    intros X. apply in_app_iff in X as [X|[X|X]]; [apply T1, in_app_iff; auto|congruence|apply T1, in_app_iff; auto].
Qed.
Lemma get_new s s' r : get s = Some (s', r) -> s_new s' = s_new s.
Proof.
  unfold get. destruct (s_get s); [|intros H; inversion H; auto]. cbn [setGet s_get]. destruct (s_nxt s n); [intros H; inversion H; auto|].
  destruct oeq; [|discriminate]. intros H. inversion H. reflexivity.
Qed.
Lemma core_get s Q F c i O : core s Q F c i O -> exists s' r, get s = Some (s', r) /\
  match r with
  | None => s' = s /\ Q = [] /\ ideal_step i (BGet None) i
  | Some p => exists Q', Q = p :: Q' /\ ~ O p /\ ideal_step i (BGet (Some (p, c p))) (mkI (tag c Q') (p :: i_own i)) /\
              core s' Q' F c (mkI (tag c Q') (p :: i_own i)) (fun x => x = p \/ O x)
  end.
Proof.
  intros [A KQ KB KO KS]. pose proof (abs_get _ _ _ A) as H. destruct Q as [|p Q'].
  - exists s, None. split; auto. split; auto. split; auto. now constructor.
  - destruct H as (s' & E & A'). exists s', (Some p). split; auto. exists Q'. split; auto.
    assert (NO : ~ O p). { intros X. apply KS in X as [X _]. apply X. now left. }
    split; auto. split. { apply (I_get i p (c p) (tag c Q')); auto. apply owns_false. now rewrite <- KO. }
    pose proof (b_nodup _ _ _ A) as ND. inversion ND; subst. pose proof (get_new _ _ _ E) as NW.
    constructor; cbn [i_q i_own]; auto.
    + intros q. cbn. rewrite KO. intuition.
    + rewrite NW. intros q [->|Hq]. { split; auto. apply (b_lt _ _ _ A). now left. }
      destruct (KS q Hq) as [T1 T2]. split; auto. intros X. apply T1. now right.
Qed.
Lemma core_flush s Q F c i O : core s Q F c i O -> exists s', flush s = (s', Q) /\
  core s' [] (rev Q ++ F) (fun x => if existsb (Nat.eqb x) Q then blank else c x) (mkI [] (i_own i)) O.
Proof.
  intros [A KQ KB KO KS]. destruct (abs_flush _ _ _ A) as (s' & E & A' & NW). exists s'. split; auto.
  constructor; cbn [i_q i_own]; auto.
  - intros p Hp. destruct (existsb (Nat.eqb p) Q) eqn:X; auto. apply in_app_iff in Hp as [Hp|Hp]; auto.
    apply in_rev, ib_in in Hp. congruence.
  - intros p Hp. destruct (KS p Hp) as [T1 T2]. rewrite NW. split; auto. cbn. intros X. apply T1. apply in_app_iff in X as [X|X]; apply in_app_iff; auto.
    left. now apply in_rev.
Qed.
Lemma core_init s Q F c i O p x : core s Q F c i O -> O p -> core s Q F (upd c p x) i O.
Proof.
  intros [A KQ KB KO KS] Hp. destruct (KS p Hp) as [S1 S2]. constructor; auto.
  - rewrite KQ. symmetry. apply tag_ext. intros q Hq. apply upd_other. intros ->. apply S1, in_app_iff. auto.
  - intros q Hq. rewrite upd_other; auto. intros ->. apply S1, in_app_iff. auto.
Qed.
Lemma core_O s Q F c i O O' : (forall x, O x <-> O' x) -> core s Q F c i O -> core s Q F c i O'.
Proof. intros E [A KQ KB KO KS]. constructor; auto. { intros p. now rewrite <- E. } intros p Hp. apply KS. now apply E. Qed.

Lemma ideal_snoc i l j b k : ideal_run i l j -> ideal_step j b k -> ideal_run i (l ++ [b]) k.
Proof. induction 1; cbn; intros S. { econstructor; eauto. constructor. } econstructor; eauto. Qed.

(** ** SimpleInputQueue *)
Inductive shist : list op -> sq -> list obs -> Prop :=
| SH_nil : shist [] sq0 []
| SH_snoc os q bs o q' b : shist os q bs -> allowed q o -> opStep o q = Some (q', b) -> shist (os ++ [o]) q' (bs ++ b).
Definition SI (q : sq) (i : ideal) : Prop := exists Q F, core (q_s q) Q F (q_c q) i (fun x => In x (q_own q)).
Lemma SI_step q i o : SI q i -> allowed q o -> exists q' b, opStep o q = Some (q', b) /\
  exists j, SI q' j /\ match b with [] => j = i | [x] => ideal_step i x j | _ => False end.
Proof.
  intros (Q & F & K) AL. destruct o; cbn [opStep].
  - destruct (allocate (q_s q)) as [[s p] new] eqn:E. destruct (core_alloc _ _ _ _ _ _ _ _ _ K E) as (A1 & A2 & A3 & A4 & F' & A5 & A6 & A7).
    do 2 eexists. split; [reflexivity|]. eexists. split; [|exact A6]. exists Q, F'. cbn [q_s q_c q_own]. eapply core_O; [|exact A7]. cbn. intuition.
  - do 2 eexists. split; [reflexivity|]. exists i. split; auto. exists Q, F. cbn. apply core_init; auto.
  - destruct (core_put _ _ _ _ _ _ p K AL) as [A1 A2]. do 2 eexists. split; [reflexivity|]. eexists. split; [|exact A1]. exists (Q ++ [p]), F. cbn.
    eapply core_O; [|exact A2]. intros x. now rewrite in_del.
  - destruct (core_get _ _ _ _ _ _ K) as (s' & r & E & H). rewrite E. destruct r as [p|].
    + destruct H as (Q' & -> & H1 & H2 & H3). do 2 eexists. split; [reflexivity|]. eexists. split; [|exact H2]. exists Q', F. cbn. eapply core_O; [|exact H3]. cbn. intuition.
    + destruct H as (-> & -> & H). do 2 eexists. split; [reflexivity|]. exists i. split; auto. exists [], F. auto.
  - destruct (core_rel _ _ _ _ _ _ p K AL) as [A1 A2]. do 2 eexists. split; [reflexivity|]. eexists. split; [|exact A1]. exists Q, (p :: F). cbn.
    eapply core_O; [|exact A2]. intros x. now rewrite in_del.
  - destruct (core_flush _ _ _ _ _ _ K) as (s' & E & A). rewrite E. do 2 eexists. split; [reflexivity|]. eexists. split; [|apply I_flush].
    exists [], (rev Q ++ F). exact A.
Qed.
Lemma SI0 : SI sq0 (mkI [] []).
Proof. exists [], []. constructor; cbn; auto; try tauto. apply abs0. Qed.
Lemma shist_SI os q bs : shist os q bs -> exists i, SI q i /\ ideal_run (mkI [] []) bs i.
Proof.
  induction 1. { exists (mkI [] []). split; [apply SI0|constructor]. }
  destruct IHshist as (i & A & B). destruct (SI_step q i o A H0) as (q1 & b1 & E & j & J1 & J2). rewrite E in H1. inversion H1; subst; clear H1.
  exists j. split; auto. destruct b as [|x [|]]; [subst; now rewrite app_nil_r| |tauto]. eapply ideal_snoc; eauto.
Qed.

(** ** SerializedInputQueue *)
Definition inside (p : pc) : bool :=
  match p with Idle | A0 | R0 _ | P0 _ | G0 | E0 | F0 | Dead => false | _ => true end.
(** The argument of a pending put or release. *)
Definition arg (p : pc) : option nat :=
  match p with R0 p | R1 p | R2 p | R3 p | R4 p | P0 p | P1 p | P2 p | P3 p | P4 p | P5 p => Some p | _ => None end.
(** Where the members are relative to their state when the mutex was taken. *)
Definition ceq (c c' : nat -> content) : Prop := forall x, c x = c' x.
Definition mid (p : pc) (s0 : shared) (c0 : nat -> content) (s : shared) (c : nat -> content) : Prop :=
  match p with
  | A1 => s = s0 /\ ceq c c0
  | A2 r => s = s0 /\ ceq c c0 /\ r = s_free s0
  | A3 r => exists new, allocate s0 = (s, r, new) /\ ceq c (if new then upd c0 r blank else c0)
  | R1 p => s = s0 /\ ceq c c0
  | R2 p => s = setNxt s0 p None /\ ceq c (upd c0 p blank)
  | R3 p => s = setNxt (setNxt s0 p None) p (s_free s0) /\ ceq c (upd c0 p blank)
  | R4 p => s = release s0 p /\ ceq c (upd c0 p blank)
  | P1 p => s = s0 /\ ceq c c0
  | P2 p => s = setNxt s0 p None /\ ceq c c0
  | P3 p => s = (match s_put s0 with Some q => setNxt (setNxt s0 p None) q (Some p) | None => setNxt s0 p None end) /\ ceq c c0
  | P4 p => s = setPut (match s_put s0 with Some q => setNxt (setNxt s0 p None) q (Some p) | None => setNxt s0 p None end) (Some p) /\ ceq c c0
  | P5 p => s = put s0 p /\ ceq c c0
  | G1 => s = s0 /\ ceq c c0
  | G2 r => s = s0 /\ ceq c c0 /\ s_get s0 = Some r
  | G3 r => s = setGet s0 (s_nxt s0 r) /\ ceq c c0 /\ s_get s0 = Some r
  | G4 r => s = setGet s0 (s_nxt s0 r) /\ ceq c c0 /\ s_get s0 = Some r /\ s_nxt s0 r = None /\ oeq (s_put s0) (Some r) = true
  | G5 r => get s0 = Some (s, r) /\ ceq c c0
  | E1 | F1 => s = s0 /\ ceq c c0
  | F2 r => s = s0 /\ ceq c c0 /\ s_get s0 = Some r
  | F3 r => s = setGet s0 (s_nxt s0 r) /\ ceq c c0 /\ s_get s0 = Some r
  | F4 => s = s0 /\ ceq c c0 /\ s_get s0 = None
  | _ => False
  end.
Definition owner (y : sys) (x : nat) : Prop := exists t, In x (y_own y t).
Record SY (y : sys) (s0 : shared) (c0 : nat -> content) (Q F : list nat) (i : ideal) : Prop := {
  z_core : core s0 Q F c0 i (owner y);
  z_run : ideal_run (mkI [] []) (map snd (y_tr y)) i;
  z_excl : forall t t' x, In x (y_own y t) -> In x (y_own y t') -> t = t';
  z_arg : forall t x, arg (y_pc y t) = Some x -> In x (y_own y t);
  z_dead : forall t, y_pc y t <> Dead;
  z_lock : match y_lock y with
           | None => y_s y = s0 /\ y_c y = c0 /\ forall t, inside (y_pc y t) = false
           | Some h => mid (y_pc y h) s0 c0 (y_s y) (y_c y) /\ inside (y_pc y h) = true /\ forall t, t <> h -> inside (y_pc y t) = false
           end }.

(** Changing one thread's position to another that is equally outside the mutex. *)
Lemma upd_pc y t p t' : y_pc (at_ y t p) t' = if Nat.eqb t' t then p else y_pc y t'.
Proof. reflexivity. Qed.
Lemma SY_out y s0 c0 Q F i t p : SY y s0 c0 Q F i -> inside (y_pc y t) = false -> inside p = false -> p <> Dead -> (forall x, arg p = Some x -> In x (y_own y t)) ->
  SY (at_ y t p) s0 c0 Q F i.
Proof.
  intros [K R X A D L] I1 I2 ND AR. constructor; auto.
  - intros t' x. rewrite upd_pc. destruct (Nat.eqb_spec t' t) as [->|]; [apply AR|apply A].
  - intros t'. rewrite upd_pc. destruct (Nat.eqb t' t); auto.
  - cbn [y_lock at_ y_s y_c]. destruct (y_lock y) as [h|].
    + destruct L as (L1 & L2 & L3). destruct (Nat.eqb_spec h t) as [->|N]; [congruence|]. rewrite upd_pc, (proj2 (Nat.eqb_neq _ _) N).
      split; auto. split; auto. intros t' N'. rewrite upd_pc. destruct (Nat.eqb t' t); auto.
    + destruct L as (L1 & L2 & L3). split; auto. split; auto. intros t'. rewrite upd_pc. destruct (Nat.eqb t' t); auto.
Qed.
Lemma SY_lock y s0 c0 Q F i t p y' : SY y s0 c0 Q F i -> lock y t p = Some y' -> inside p = true -> (forall x, arg p = Some x -> In x (y_own y t)) ->
  mid p (y_s y) (y_c y) (y_s y) (y_c y) -> SY y' s0 c0 Q F i.
Proof.
  intros [K R X A D L] E I AR M. unfold lock in E. destruct (y_lock y); [discriminate|]. inversion E; subst; clear E. destruct L as (L1 & L2 & L3).
  rewrite L1, L2 in M. constructor; auto.
  - intros t' x. rewrite upd_pc. destruct (Nat.eqb_spec t' t) as [->|]; [apply AR|apply A].
  - intros t'. rewrite upd_pc. cbn [y_pc]. destruct (Nat.eqb t' t); auto. intros ->. discriminate.
  - cbn [y_lock at_ y_s y_c]. rewrite upd_pc, Nat.eqb_refl, L1, L2. split; auto. split; auto. intros t' N'. rewrite upd_pc, (proj2 (Nat.eqb_neq _ _) N'). apply L3.
Qed.
(** A step inside the mutex. *)
Lemma SY_in y s0 c0 Q F i t p s c : SY y s0 c0 Q F i -> inside (y_pc y t) = true -> inside p = true -> (forall x, arg p = Some x -> In x (y_own y t)) ->
  (mid (y_pc y t) s0 c0 (y_s y) (y_c y) -> mid p s0 c0 s c) -> SY (at_ (withC (withS y s) c) t p) s0 c0 Q F i.
Proof.
  intros [K R X A D L] I1 I2 AR M. constructor; auto.
  - intros t' x. rewrite upd_pc. destruct (Nat.eqb_spec t' t) as [->|]; [apply AR|apply A].
  - intros t'. rewrite upd_pc. cbn [y_pc withC withS]. destruct (Nat.eqb t' t); auto. intros ->. discriminate.
  - cbn [y_lock at_ y_s y_c withC withS]. destruct (y_lock y) as [h|].
    + destruct L as (L1 & L2 & L3). destruct (Nat.eq_dec t h) as [->|N]; [|rewrite (L3 t N) in I1; discriminate]. rewrite upd_pc, Nat.eqb_refl.
      split; auto. split; auto. intros t' N'. rewrite upd_pc, (proj2 (Nat.eqb_neq _ _) N'). apply L3; auto.
    + destruct L as (_ & _ & L3). rewrite (L3 t) in I1. discriminate.
Qed.
Lemma SY_held y s0 c0 Q F i t : SY y s0 c0 Q F i -> inside (y_pc y t) = true -> y_lock y = Some t /\ mid (y_pc y t) s0 c0 (y_s y) (y_c y).
Proof.
  intros [K R X A D L] I. destruct (y_lock y) as [h|].
  - destruct L as (L1 & L2 & L3). destruct (Nat.eq_dec t h) as [->|N]; auto. rewrite (L3 t N) in I. discriminate.
  - destruct L as (_ & _ & L3). rewrite (L3 t) in I. discriminate.
Qed.
(** Leaving the mutex. *)
Lemma SY_unlock y s0 c0 Q F i t own b s c Q' F' j : SY y s0 c0 Q F i -> inside (y_pc y t) = true ->
  core s Q' F' c j (fun x => In x own \/ (owner y x /\ ~ In x (y_own y t))) -> ideal_step i b j ->
  (forall x, In x own -> In x (y_own y t) \/ ~ owner y x) ->
  SY (unlock (withC (withS y s) c) t own b) s c Q' F' j.
Proof.
  intros H I K' S OW. destruct (SY_held _ _ _ _ _ _ _ H I) as [LK _]. destruct H as [K R X A D L]. rewrite LK in L. destruct L as (L1 & L2 & L3).
  assert (OE : forall t' x, In x (y_own (unlock (withC (withS y s) c) t own b) t') <-> if Nat.eqb t' t then In x own else In x (y_own y t')).
  { intros t' x. cbn. unfold upd. destruct (Nat.eqb t' t); reflexivity. }
  constructor.
  - eapply core_O; [|exact K']. intros x. split.
    + intros [O|[[t' O] N]]; [exists t|exists t']; rewrite OE; [now rewrite Nat.eqb_refl|]. destruct (Nat.eqb_spec t' t) as [->|]; tauto.
    + intros [t' O]. apply OE in O. destruct (Nat.eqb_spec t' t) as [EQ|N]; [now left|].
      destruct (in_dec Nat.eq_dec x own); auto. right. split; [exists t'; auto|]. intros Z. apply N. eapply X; eauto.
  - cbn. rewrite map_app. cbn. eapply ideal_snoc; eauto.
  - intros t1 t2 x. rewrite !OE. destruct (Nat.eqb_spec t1 t) as [->|N1], (Nat.eqb_spec t2 t) as [->|N2]; auto.
    + intros O1 O2. destruct (OW x O1) as [O3|O3]; [exfalso; apply N2; eapply X; eauto|exfalso; apply O3; exists t2; auto].
    + intros O2 O1. destruct (OW x O1) as [O3|O3]; [exfalso; apply N1; eapply X; eauto|exfalso; apply O3; exists t1; auto].
    + intros. eapply X; eauto.
  - intros t' x. unfold unlock. rewrite upd_pc. cbn [y_pc withC withS y_own at_]. unfold upd. destruct (Nat.eqb_spec t' t) as [->|N]; [discriminate|]. auto.
  - intros t'. unfold unlock. rewrite upd_pc. cbn [y_pc withC withS]. destruct (Nat.eqb t' t); auto. discriminate.
  - cbn [y_lock unlock at_ y_s y_c withC withS]. split; auto. split; auto. intros t'. unfold unlock. rewrite upd_pc. cbn [y_pc withC withS]. destruct (Nat.eqb_spec t' t); auto.
Qed.
Lemma with_id y : withC (withS y (y_s y)) (y_c y) = y. Proof. destruct y; reflexivity. Qed.
Lemma withC_id y s : withC (withS y s) (y_c y) = withS y s. Proof. reflexivity. Qed.
Lemma SY_in1 y s0 c0 Q F i t p : SY y s0 c0 Q F i -> inside (y_pc y t) = true -> inside p = true -> (forall x, arg p = Some x -> In x (y_own y t)) ->
  (mid (y_pc y t) s0 c0 (y_s y) (y_c y) -> mid p s0 c0 (y_s y) (y_c y)) -> SY (at_ y t p) s0 c0 Q F i.
Proof. intros. rewrite <- (with_id y) at 1. apply SY_in; auto. Qed.
Lemma SY_in2 y s0 c0 Q F i t p s : SY y s0 c0 Q F i -> inside (y_pc y t) = true -> inside p = true -> (forall x, arg p = Some x -> In x (y_own y t)) ->
  (mid (y_pc y t) s0 c0 (y_s y) (y_c y) -> mid p s0 c0 s (y_c y)) -> SY (at_ (withS y s) t p) s0 c0 Q F i.
Proof. intros. rewrite <- withC_id. apply SY_in; auto. Qed.
Lemma SY_unlock1 y s0 c0 Q F i t own b Q' F' j : SY y s0 c0 Q F i -> inside (y_pc y t) = true ->
  core (y_s y) Q' F' (y_c y) j (fun x => In x own \/ (owner y x /\ ~ In x (y_own y t))) -> ideal_step i b j ->
  (forall x, In x own -> In x (y_own y t) \/ ~ owner y x) ->
  SY (unlock y t own b) (y_s y) (y_c y) Q' F' j.
Proof. intros. rewrite <- (with_id y) at 1. eapply SY_unlock; eauto. Qed.
Lemma own_add y t (p : nat) : ~ owner y p -> forall x, x = p \/ owner y x <-> In x (p :: y_own y t) \/ (owner y x /\ ~ In x (y_own y t)).
Proof.
  intros N x. cbn. split; [intros [->|H]; auto|intros [[->|H]|[H _]]; auto].
  - destruct (in_dec Nat.eq_dec x (y_own y t)); auto.
  - right. now exists t.
Qed.
Lemma own_same y t : forall x, owner y x <-> In x (y_own y t) \/ (owner y x /\ ~ In x (y_own y t)).
Proof. intros x. split; [|intros [H|[H _]]; auto; now exists t]. intros H. destruct (in_dec Nat.eq_dec x (y_own y t)); auto. Qed.
Lemma own_del y t (p : nat) : (forall t' t'' x, In x (y_own y t') -> In x (y_own y t'') -> t' = t'') -> In p (y_own y t) ->
  forall x, owner y x /\ x <> p <-> In x (del p (y_own y t)) \/ (owner y x /\ ~ In x (y_own y t)).
Proof.
  intros X P x. rewrite in_del. split.
  - intros [O N]. destruct (in_dec Nat.eq_dec x (y_own y t)); auto.
  - intros [[H N]|[O N]]; split; auto; [now exists t|]. intros ->. auto.
Qed.
Lemma core_ceq s Q F c c' i O : core s Q F c i O -> ceq c' c -> core s Q F c' i O.
Proof.
  intros [A KQ KB KO KS] E. constructor; auto. { rewrite KQ. symmetry. apply tag_ext. intros; apply E. } intros p Hp. rewrite E. auto.
Qed.
Lemma ceq_upd c c0 p x : ceq c c0 -> ceq (upd c p x) (upd c0 p x).
Proof. intros E q. unfold upd. destruct (Nat.eqb q p); auto. Qed.
Lemma ceq_swap c c0 p x r b : r <> p -> ceq c (upd c0 r b) -> ceq (upd c p x) (upd (upd c0 p x) r b).
Proof. intros N E q. specialize (E q). unfold upd in *. destruct (Nat.eqb_spec q p), (Nat.eqb_spec q r); auto; congruence. Qed.
Lemma ceq_refl c : ceq c c. Proof. intros x. reflexivity. Qed.
(** Another thread initialises an entry it owns. *)
Lemma mid_init pc0 s0 c0 s c p x : mid pc0 s0 c0 s c -> (forall q, arg pc0 = Some q -> q <> p) ->
  (forall s' r nw, allocate s0 = (s', r, nw) -> r <> p) -> mid pc0 s0 (upd c0 p x) s (upd c p x).
Proof.
  intros M NG NP. destruct pc0; cbn [mid arg] in *; try tauto;
    try (destruct M as [M1 M2]; split; auto; try apply ceq_swap; auto; try (apply ceq_upd; auto; fail); try (destruct M2 as [M2 M3]; split; auto; apply ceq_upd; auto; fail); fail).
  destruct M as (nw & M1 & M2). exists nw. split; auto. destruct nw; [apply ceq_swap|apply ceq_upd]; eauto.
Qed.
Lemma SY_step y s0 c0 Q F i t a y' : SY y s0 c0 Q F i -> mstep y t a = Some y' -> exists s1 c1 Q' F' j, SY y' s1 c1 Q' F' j.
Proof.
  intros H E. unfold mstep in E.
  assert (AR : forall x, arg (y_pc y t) = Some x -> In x (y_own y t)) by apply (z_arg _ _ _ _ _ _ H).
  assert (NA : forall x : nat, None = Some x -> In x (y_own y t)) by discriminate.
  pose proof (SY_held _ _ _ _ _ _ t H) as HD. pose proof (z_core _ _ _ _ _ _ H) as K. pose proof (z_excl _ _ _ _ _ _ H) as X.
  destruct (y_pc y t) eqn:PC; destruct a; try discriminate E.
  (* calls *)
  all: try (inversion E; subst; clear E; exists s0, c0, Q, F, i; apply SY_out; auto; [now rewrite PC|discriminate]).
  all: try (destruct (existsb (Nat.eqb p) (y_own y t)) eqn:B; [|discriminate]; apply ib_in in B;
            inversion E; subst; clear E; exists s0, c0, Q, F, i; apply SY_out; auto; [now rewrite PC|discriminate|intros x0 X0; inversion X0; subst; auto]).
  (* taking the mutex *)
  all: try (exists s0, c0, Q, F, i; eapply SY_lock; eauto; cbn; auto using ceq_refl; fail).
  all: try (specialize (HD eq_refl); destruct HD as [HL HM]; cbn [mid] in HM; cbn [arg] in AR).
  - (* init *)
    destruct (existsb (Nat.eqb p) (y_own y t)) eqn:B; [|discriminate]. apply ib_in in B. inversion E; subst; clear E.
    exists s0, (upd c0 p c), Q, F, i. assert (OP : owner y p) by now exists t.
    destruct H as [_ R _ A D L]. constructor; auto.
    + apply core_init; auto.
    + cbn [y_lock withC y_s y_c y_pc]. destruct (y_lock y) as [h|].
      * destruct L as (L1 & L2 & L3). split; [|auto]. apply mid_init; auto.
        -- intros q Y ->. specialize (A h p Y). assert (h = t) by (eapply X; eauto). subst h. rewrite PC in L2. discriminate.
        -- intros s' r nw E0 ->. destruct (core_alloc _ _ _ _ _ _ _ _ _ K E0) as [NO _]. auto.
      * destruct L as (L1 & L2 & L3). subst. auto.
  - (* A1 *) inversion E; subst y'; clear E. exists s0, c0, Q, F, i. apply SY_in1; auto; [now rewrite PC|]. rewrite PC. cbn. intros [-> ?]. auto.
  - (* A2 *) destruct HM as (M1 & M2 & M3). destruct r as [r|]; inversion E; subst y'; clear E; exists s0, c0, Q, F, i.
    + apply SY_in2; auto; [now rewrite PC|]. intros _. cbn. exists false. unfold allocate. rewrite <- M3. rewrite M1. auto.
    + apply SY_in; auto; [now rewrite PC|]. intros _. cbn. exists true. unfold allocate. rewrite <- M3. rewrite M1. split; auto. now apply ceq_upd.
  - (* A3 *) destruct HM as (nw & M1 & M2). inversion E; subst y'; clear E.
    destruct (core_alloc _ _ _ _ _ _ _ _ _ K M1) as (B1 & B2 & B3 & B4 & F' & B5 & B6 & B7).
    do 5 eexists. eapply SY_unlock1; eauto; [now rewrite PC| | |].
    + eapply core_O; [apply own_add; exact B1|]. eapply core_ceq; [exact B7|exact M2].
    + rewrite M2. exact B6.
    + intros x [<-|Hx]; auto.
  - (* R1 *) inversion E; subst y'; clear E. exists s0, c0, Q, F, i. apply SY_in; auto; [now rewrite PC|]. intros _. cbn. destruct HM as [-> M2]. split; auto. now apply ceq_upd.
  - (* R2 *) inversion E; subst y'; clear E. exists s0, c0, Q, F, i. apply SY_in2; auto; [now rewrite PC|]. intros _. cbn. destruct HM as [-> M2]. split; auto.
  - (* R3 *) inversion E; subst y'; clear E. exists s0, c0, Q, F, i. apply SY_in2; auto; [now rewrite PC|]. intros _. cbn. destruct HM as [-> M2]. split; auto.
  - (* R4 *) inversion E; subst y'; clear E. destruct HM as [M1 M2]. assert (OP : owner y p) by (exists t; auto).
    destruct (core_rel _ _ _ _ _ _ p K OP) as [B1 B2]. do 5 eexists. eapply SY_unlock1; eauto; [now rewrite PC| |].
    + rewrite M1. eapply core_O; [apply own_del; auto|]. eapply core_ceq; [exact B2|exact M2].
    + intros x Hx. apply in_del in Hx as [Hx _]. auto.
  - (* P1 *) inversion E; subst y'; clear E. exists s0, c0, Q, F, i. apply SY_in2; auto; [now rewrite PC|]. intros _. cbn. destruct HM as [-> M2]. split; auto.
  - (* P2 *) inversion E; subst y'; clear E. exists s0, c0, Q, F, i. apply SY_in2; auto; [now rewrite PC|]. intros _. cbn. destruct HM as [-> M2]. split; auto.
  - (* P3 *) inversion E; subst y'; clear E. exists s0, c0, Q, F, i. apply SY_in2; auto; [now rewrite PC|]. intros _. cbn. destruct HM as [-> M2]. split; auto.
  - (* P4 *) inversion E; subst y'; clear E. exists s0, c0, Q, F, i. apply SY_in2; auto; [now rewrite PC|]. intros _. cbn. destruct HM as [-> M2]. split; auto.
  - (* P5 *) inversion E; subst y'; clear E. destruct HM as [M1 M2]. assert (OP : owner y p) by (exists t; auto).
    destruct (core_put _ _ _ _ _ _ p K OP) as [B1 B2]. do 5 eexists. eapply SY_unlock1; eauto; [now rewrite PC| | |].
    + rewrite M1. eapply core_O; [apply own_del; auto|]. eapply core_ceq; [exact B2|exact M2].
    + rewrite M2. exact B1.
    + intros x Hx. apply in_del in Hx as [Hx _]. auto.
  - (* G1 *) inversion E; subst y'; clear E. exists s0, c0, Q, F, i. destruct HM as [M1 M2].
    apply SY_in1; auto; [now rewrite PC| | |]; rewrite M1; destruct (s_get s0) eqn:G; auto; try discriminate; intros _; cbn; auto.
    split; auto. unfold get. now rewrite G.
  - (* G2 *) inversion E; subst y'; clear E. exists s0, c0, Q, F, i. apply SY_in2; auto; [now rewrite PC|]. intros _. cbn. destruct HM as (-> & M2 & M3). split; auto.
  - (* G3 *) inversion E; subst y'; clear E. exists s0, c0, Q, F, i. destruct HM as (M1 & M2 & M3).
    destruct (core_get _ _ _ _ _ _ K) as (s' & r' & GE & _). rewrite M1. cbn [setGet s_get s_put].
    unfold get in GE. rewrite M3 in GE. cbn [setGet s_get s_put s_nxt] in GE.
    destruct (s_nxt s0 r) eqn:NX.
    + apply SY_in1; auto; [now rewrite PC|]. intros _. cbn. rewrite M1. split; auto. unfold get. rewrite M3. cbn. now rewrite NX.
    + destruct (oeq (s_put s0) (Some r)) eqn:OE; [|discriminate GE]. apply SY_in1; auto; [now rewrite PC|]. intros _. cbn. rewrite M1, NX. auto.
  - (* G4 *) inversion E; subst y'; clear E. exists s0, c0, Q, F, i. destruct HM as (M1 & M2 & M3 & M4 & M5).
    apply SY_in2; auto; [now rewrite PC|]. intros _. cbn. split; auto. unfold get. rewrite M3. cbn [setGet s_get s_put s_nxt]. rewrite M4, M5, M1. now rewrite M4.
  - (* G5 *) destruct HM as [M1 M2]. destruct (core_get _ _ _ _ _ _ K) as (s' & r' & GE & GR). rewrite M1 in GE. inversion GE; subst r' s'; clear GE.
    destruct r as [r|]; inversion E; subst y'; clear E.
    + destruct GR as (Q' & -> & B1 & B2 & B3). do 5 eexists. eapply SY_unlock1; eauto; [now rewrite PC| | |].
      * eapply core_O; [apply own_add; exact B1|]. eapply core_ceq; [exact B3|exact M2].
      * rewrite M2. exact B2.
      * intros x [<-|Hx]; auto.
    + destruct GR as (G1' & -> & B1). do 5 eexists. eapply SY_unlock1; eauto; [now rewrite PC|].
      rewrite G1'. eapply core_O; [apply own_same|]. eapply core_ceq; [exact K|exact M2].
  - (* E1 *) inversion E; subst y'; clear E. destruct HM as [M1 M2]. do 5 eexists. eapply SY_unlock1; eauto; [now rewrite PC| |].
    + rewrite M1. eapply core_O; [apply own_same|]. eapply core_ceq; [exact K|exact M2].
    + rewrite M1. replace (isEmpty s0) with (match i_q i with [] => true | _ => false end); [constructor|].
      rewrite (k_q _ _ _ _ _ _ K). pose proof (b_get _ _ _ (k_abs _ _ _ _ _ _ K)) as G. unfold isEmpty. destruct Q; cbn in *; [now rewrite G|]. destruct G as [-> _]. auto.
  - (* F1 *) inversion E; subst y'; clear E. exists s0, c0, Q, F, i. destruct HM as [M1 M2].
    apply SY_in1; auto; [now rewrite PC| | |]; rewrite M1; destruct (s_get s0) eqn:G; auto; try discriminate; intros _; cbn; auto.
  - (* F2 *) inversion E; subst y'; clear E. exists s0, c0, Q, F, i. apply SY_in2; auto; [now rewrite PC|]. intros _. cbn. destruct HM as (-> & M2 & M3). split; auto.
  - (* F3 *) unfold lock in E. rewrite HL in E. discriminate.
  - (* F4 *) inversion E; subst y'; clear E. destruct HM as (M1 & M2 & M3).
    pose proof (k_abs _ _ _ _ _ _ K) as AB. assert (Q = []) as -> by (pose proof (b_get _ _ _ AB) as G; destruct Q; auto; destruct G; congruence).
    exists (setPut (y_s y) None), (y_c y), [], F, (mkI [] (i_own i)).
    rewrite <- (withC_id y). eapply SY_unlock; eauto; [now rewrite PC| |constructor].
    rewrite M1. eapply core_O; [apply own_same|]. eapply core_ceq; [|exact M2].
    destruct K as [[G P R N L] KQ KB KO KS]. constructor; auto. constructor; auto.
Qed.
Lemma SY0 : SY sys0 shared0 (fun _ => blank) [] [] (mkI [] []).
Proof.
  constructor; cbn; auto; try discriminate; try tauto. 2: constructor.
  constructor; cbn; auto; try tauto. apply abs0. all: intros p; unfold owner; cbn; firstorder.
Qed.
Lemma runs_SY h y : runs h y -> exists s0 c0 Q F i, SY y s0 c0 Q F i.
Proof.
  induction 1. { do 5 eexists. apply SY0. } destruct IHruns as (s0 & c0 & Q & F & i & H1). eapply SY_step; eauto.
Qed.
