(** C16: the resource arbiter. *)
From Coq Require Import List ZArith Bool Lia Permutation Sorted.
From Verif Require Import ArbiterModel ArbiterSpec ArbiterProofs.
Import ListNotations.

(** ** Needs computed by the model *)
Definition needF (fuel : nat) (h : hier) (c : acmd) (r : nat) : option creq :=
  match allNeeds fuel h (k_res c) [] with Some s => sget r s | None => None end.
Lemma partition_needF fuel h : forall cs p, partition fuel h cs = Some p -> forall c, In c cs -> NeedOf h c (needF fuel h c).
Proof.
  induction cs as [|c0 cs IH]; intros p E c Hc; [destruct Hc|]. cbn [partition] in E.
  destruct (k_res c0) as [|v vs] eqn:Ek.
  - destruct (partition fuel h cs) as [p1|]; [|discriminate]. destruct Hc as [<-|Hc]; [|eapply IH; eauto].
    exists []. rewrite Ek. split; [constructor|]. intros r. unfold needF. rewrite Ek. reflexivity.
  - destruct (allNeeds fuel h (v :: vs) []) as [n|] eqn:Ea; [|discriminate].
    destruct (partition fuel h cs) as [p1|]; [|discriminate]. destruct Hc as [<-|Hc]; [|eapply IH; eauto].
    pose proof Ea as Eb. apply allNeeds_spec in Ea; [|constructor]. destruct Ea as [_ [L [M HL]]].
    exists L. rewrite Ek. split; auto. intros r. unfold needF. rewrite Ek, Eb, HL. reflexivity.
Qed.

Lemma Forall2_in_r {A B} (R : A -> B -> Prop) l l' : Forall2 R l l' -> forall y, In y l' -> exists x, In x l /\ R x y.
Proof. induction 1; cbn; [tauto|]. intros z [<-|Hz]; [eauto|]. destruct (IHForall2 z Hz) as [u [? ?]]. eauto. Qed.
Lemma Forall2_in_l {A B} (R : A -> B -> Prop) l l' : Forall2 R l l' -> forall x, In x l -> exists y, In y l' /\ R x y.
Proof. induction 1; cbn; [tauto|]. intros z [<-|Hz]; [eauto|]. destruct (IHForall2 z Hz) as [u [? ?]]. eauto. Qed.
Lemma Forall2_ids need cs es : Forall2 (EntryOf need) cs es -> map p_cmd es = map k_id cs.
Proof. induction 1 as [|c e cs es H F IH]; cbn; auto. destruct H as [-> _]. rewrite IH. auto. Qed.
Lemma NoDup_map_filter {A} (f : A -> nat) p l : NoDup (map f l) -> NoDup (map f (filter p l)).
Proof.
  induction l as [|x l IH]; cbn; auto. intros H. inversion H; subst. destruct (p x); cbn; auto.
  constructor; auto. rewrite in_map_iff in *. intros [y [E Hy]]. apply filter_In in Hy. firstorder.
Qed.
Lemma perm_split {A} (f : A -> bool) l : Permutation (filter (fun x => negb (f x)) l ++ filter f l) l.
Proof.
  induction l as [|x l IH]; cbn; auto. destruct (f x); cbn; auto. rewrite <- Permutation_middle. auto.
Qed.

(** What one arbitration does. *)
Lemma arbitrate_inv fuel h need cs s acc rej s' :
  (forall c, In c cs -> NeedOf h c (need c)) -> NoDup (map k_id cs) ->
  arbitrate fuel h cs s = Some (acc, rej, s') ->
  exists es0 a al est,
    acc = map k_id (filter (fun c => negb (contested c)) cs) ++ a
    /\ Forall2 (EntryOf need) (filter contested cs) es0
    /\ prepare (psort es0) (a_alloc s) = (al, est)
    /\ decide h (psort es0) est {| a_alloc := al; a_held := a_held s |} = (a, rej, s')
    /\ NoDup (map p_cmd (psort es0)).
Proof.
  intros Hn Hnd E. unfold arbitrate in E. destruct (partition fuel h cs) as [[a0 es0]|] eqn:Ep; [|discriminate].
  destruct (partition_spec fuel h need cs a0 es0 Hn Ep) as [-> HF].
  destruct (prepare (psort es0) (a_alloc s)) as [al est] eqn:Er.
  destruct (decide h (psort es0) est _) as [[a j] s1] eqn:Ed. injection E as <- <- <-.
  exists es0, a, al, est. repeat (split; auto).
  eapply Permutation_NoDup; [apply Permutation_map; symmetry; apply psort_perm|].
  rewrite (Forall2_ids _ _ _ HF). apply NoDup_map_filter; auto.
Qed.

(** ** Partition *)
(** Every command of the batch is either accepted or rejected, exactly once; commands without
    resource requests are accepted, first and in order. *)
Theorem C16_partition fuel h cs s acc rej s' : NoDup (map k_id cs) -> arbitrate fuel h cs s = Some (acc, rej, s') ->
  Permutation (acc ++ rej) (map k_id cs)
  /\ exists a, acc = map k_id (filter (fun c => negb (contested c)) cs) ++ a.
Proof.
  intros Hnd E.
  assert (Hn : forall c, In c cs -> NeedOf h c (needF fuel h c)).
  { unfold arbitrate in E. destruct (partition fuel h cs) as [p|] eqn:Ep; [|discriminate]. eapply partition_needF; eauto. }
  destruct (arbitrate_inv fuel h _ cs s acc rej s' Hn Hnd E) as (es0 & a & al & est & -> & HF & Ep & Ed & Hd).
  split; [|eauto]. apply decide_books in Ed; auto.
  - destruct Ed as [P _]. rewrite <- app_assoc, P. rewrite psort_perm.
    rewrite (Forall2_ids _ _ _ HF), <- map_app. apply Permutation_map. apply perm_split.
  - intros e He. apply (Permutation_in _ (psort_perm es0)) in He.
    destruct (Forall2_in_r _ _ _ HF e He) as [c [_ Hc]]. apply Hc.
Qed.

(** ** Books *)
Fixpoint heldSpec (tr : list dec) (k : nat) : option acmd :=
  match tr with
  | [] => None
  | DAcc c :: t => if Nat.eqb (k_id c) k then Some c else heldSpec t k
  | DRel j :: t => if Nat.eqb j k then None else heldSpec t k
  end.
Lemma mem_ext_filter k c E : mem k (filter (fun k => negb (Nat.eqb k c)) E) = (mem k E && negb (Nat.eqb k c))%bool.
Proof.
  induction E as [|x E IH]; auto. cbn [filter]. destruct (Nat.eqb_spec x c) as [->|Hn]; cbn [negb].
  - rewrite IH. unfold mem. cbn [existsb]. destruct (Nat.eqb_spec k c); cbn; auto. rewrite !andb_false_r. auto.
  - unfold mem in *. cbn [existsb]. rewrite IH. destruct (Nat.eqb_spec k x) as [->|]; cbn; auto.
    destruct (Nat.eqb_spec x c); [congruence|auto].
Qed.
Lemma inUse_ext need tr r : forall E E', (forall k, mem k E = mem k E') -> inUse need E tr r = inUse need E' tr r.
Proof.
  induction tr as [|[c|j] tr IH]; intros E E' H; cbn [inUse]; auto.
  - rewrite H. f_equal. apply IH. intros k. rewrite !mem_ext_filter, H. auto.
  - apply IH. intros k. unfold mem in *. cbn. rewrite H. auto.
Qed.
Definition relPart (need : acmd -> nat -> option creq) (o : option acmd) (r : nat) : Z :=
  match o with Some c => (amount (need c r) - keptAmount (need c r))%Z | None => 0%Z end.
Lemma inUse_end need tr r : forall k E, inUse need (k :: E) tr r =
  (inUse need E tr r - (if mem k E then 0 else relPart need (heldSpec tr k) r))%Z.
Proof.
  induction tr as [|[c|j] tr IH]; intros k E; cbn [inUse heldSpec].
  - cbn. destruct (mem k E); lia.
  - cbn [filter]. unfold mem at 1. cbn [existsb]. fold (mem (k_id c) E). rewrite (Nat.eqb_sym (k_id c) k).
    destruct (Nat.eqb_spec k (k_id c)) as [->|Hn]; cbn [negb orb].
    + cbn [relPart]. destruct (mem (k_id c) E); lia.
    + rewrite IH, mem_ext_filter. destruct (Nat.eqb_spec k (k_id c)) as [|_]; [congruence|]. rewrite andb_true_r. lia.
  - rewrite (inUse_ext need tr r (j :: k :: E) (k :: j :: E)) by (intros x; unfold mem; cbn; destruct (Nat.eqb x j), (Nat.eqb x k); auto).
    rewrite IH. unfold mem at 1. cbn [existsb]. rewrite (Nat.eqb_sym k j). fold (mem k E).
    destruct (Nat.eqb_spec j k) as [->|Hn]; cbn [orb]; [|auto].
    cbn [relPart]. destruct (mem k E); lia.
Qed.
Lemma inUse_accs need acs tr r : inUse need [] (rev (map DAcc acs) ++ tr) r
  = (sumZ (fun c => amount (need c r)) acs + inUse need [] tr r)%Z.
Proof.
  revert tr. induction acs as [|c acs IH]; intros tr; cbn [map rev app sumZ]; auto.
  rewrite <- app_assoc, IH. cbn. lia.
Qed.
Lemma heldSpec_accs acs tr k : NoDup (map k_id acs) -> heldSpec (rev (map DAcc acs) ++ tr) k
  = match find (fun c => Nat.eqb (k_id c) k) acs with Some c => Some c | None => heldSpec tr k end.
Proof.
  revert tr. induction acs as [|c acs IH]; intros tr H; cbn [map rev app find]; auto.
  cbn in H. inversion H; subst. rewrite <- app_assoc, IH by auto. cbn [app heldSpec].
  destruct (Nat.eqb_spec (k_id c) k) as [E|E]; auto.
  destruct (find _ acs) as [c'|] eqn:F; auto. apply find_some in F. destruct F as [F1 F2]. apply Nat.eqb_eq in F2.
  match goal with X : ~ In _ _ |- _ => destruct X end. rewrite E, <- F2. apply in_map. auto.
Qed.

(** The state matches the decisions taken so far. *)
Definition Matches (need : acmd -> nat -> option creq) (tr : list dec) (s : arb) : Prop :=
  (forall r, val (a_alloc s r) = inUse need [] tr r) /\
  (forall k, match heldSpec tr k with
             | None => a_held s k = None
             | Some c => exists qs, a_held s k = Some qs /\ SortedN qs /\ forall r, sget r qs = need c r
             end).

Lemma mem_app k a b : mem k (a ++ b) = (mem k a || mem k b)%bool.
Proof. unfold mem. apply existsb_app. Qed.
Lemma Matches_arb fuel h need cs tr s acc rej s' : (forall c, In c cs -> NeedOf h c (need c)) -> NoDup (map k_id cs) ->
  Matches need tr s -> arbitrate fuel h cs s = Some (acc, rej, s') ->
  Matches need (rev (map DAcc (filter (fun c => contested c && mem (k_id c) acc) cs)) ++ tr) s'.
Proof.
  intros Hn Hnd [HM1 HM2] E.
  destruct (arbitrate_inv fuel h _ cs s acc rej s' Hn Hnd E) as (es0 & a & al & est & -> & HF & Ep & Ed & Hd).
  set (a0 := map k_id (filter (fun c => negb (contested c)) cs)) in *.
  assert (Hmem : forall c, In c cs -> contested c = true -> mem (k_id c) (a0 ++ a) = mem (k_id c) a).
  { intros c Hc Hk. rewrite mem_app. destruct (mem (k_id c) a0) eqn:M; auto. apply mem_In in M.
    unfold a0 in M. apply in_map_iff in M. destruct M as [c' [E1 E2]]. apply filter_In in E2. destruct E2 as [E2 E3].
    assert (c' = c). { clear -Hnd Hc E2 E1. induction cs as [|x cs IH]; [destruct Hc|]. cbn in Hnd. inversion Hnd; subst.
      destruct Hc as [->|Hc], E2 as [->|E2]; auto; exfalso; match goal with X : ~ In _ _ |- _ => apply X end; apply in_map_iff; eauto. }
    subst. rewrite Hk in E3. discriminate. }
  assert (Hfl : filter (fun c => contested c && mem (k_id c) (a0 ++ a)) cs = filter (fun c => mem (k_id c) a) (filter contested cs)).
  { clearbody a0. clear -Hmem. induction cs as [|c cs IH]; auto. cbn [filter]. destruct (contested c) eqn:Ec; cbn [andb filter].
    - rewrite Hmem by (auto; left; auto). rewrite IH by (intros; apply Hmem; auto; right; auto). auto.
    - apply IH. intros; apply Hmem; auto; right; auto. }
  rewrite Hfl. clear Hfl Hmem.
  apply decide_books in Ed; auto.
  2:{ intros e He. apply (Permutation_in _ (psort_perm es0)) in He. destruct (Forall2_in_r _ _ _ HF e He) as [c [_ Hc]]. apply Hc. }
  destruct Ed as (_ & B2 & B3 & B4). cbn [a_alloc a_held] in *.
  pose proof (prepare_spec (psort es0) (a_alloc s)) as [P1 _]. rewrite Ep in P1. cbn [fst] in P1.
  assert (NDf : NoDup (map k_id (filter (fun c => mem (k_id c) a) (filter contested cs)))) by (do 2 apply NoDup_map_filter; auto).
  split.
  - intros r. rewrite inUse_accs, B2, P1, HM1. unfold accSum. rewrite (sumZ_perm _ _ _ (psort_perm es0)), sumZ_filter.
    enough (X : sumZ (fun x => if mem (p_cmd x) a then dem x r else 0%Z) es0 = sumZ (fun x => if mem (k_id x) a then amount (need x r) else 0%Z) (filter contested cs)) by lia.
    clear -HF. induction HF as [|c e cc ee H F IH]; cbn [sumZ]; auto. destruct H as (H1 & H2 & H3 & H4). rewrite IH. unfold dem. rewrite H1, H4. auto.
  - intros k. rewrite heldSpec_accs by auto.
    destruct (find _ _) as [c|] eqn:Ef.
    + apply find_some in Ef. destruct Ef as [F1 F2]. apply Nat.eqb_eq in F2. apply filter_In in F1. destruct F1 as [F1 F3].
      destruct (Forall2_in_l _ _ _ HF c F1) as [e [He (G1 & G2 & G3 & G4)]].
      exists (p_needs e). split; [|auto]. rewrite <- F2, <- G1. rewrite (B4 e).
      * rewrite G1, F3. auto.
      * apply (Permutation_in _ (Permutation_sym (psort_perm es0))). auto.
    + assert (Hk : a_held s' k = a_held s k).
      { destruct (B3 k) as [X|[e [He X]]]; auto. rewrite <- X. rewrite (B4 e He).
        destruct (mem (p_cmd e) a) eqn:M; auto. exfalso.
        apply (Permutation_in _ (psort_perm es0)) in He. destruct (Forall2_in_r _ _ _ HF e He) as [c [Hc (G1 & _)]].
        eapply find_none in Ef; [|apply filter_In; split; [exact Hc|rewrite <- G1; exact M]].
        cbn beta in Ef. rewrite <- G1, X, Nat.eqb_refl in Ef. discriminate. }
      specialize (HM2 k). rewrite Hk. exact HM2.
Qed.
Lemma Matches_rel need tr s k : Matches need tr s -> Matches need (DRel k :: tr) (release k s).
Proof.
  intros [HM1 HM2]. unfold release. specialize (HM2 k) as Hk. destruct (heldSpec tr k) as [c|] eqn:Eh.
  - destruct Hk as [qs [E [HS Hq]]]. rewrite E. split; cbn [a_alloc a_held].
    + intros r. rewrite unCharge_all by auto. cbn [inUse]. rewrite inUse_end, HM1, Hq, Eh. cbn. lia.
    + intros j. cbn [heldSpec]. unfold upd. rewrite (Nat.eqb_sym j k). destruct (Nat.eqb_spec k j); auto. apply HM2.
  - rewrite Hk. split.
    + intros r. cbn [inUse]. rewrite inUse_end, Eh. cbn. rewrite HM1. lia.
    + intros j. cbn [heldSpec]. destruct (Nat.eqb_spec k j) as [<-|]; auto. apply HM2.
Qed.
Lemma Matches_run fuel h need l s : Forall properOp l -> describes h need l -> arun fuel h l = Some s ->
  Matches need (trace fuel h l) s.
Proof.
  revert s. induction l as [|o l IH]; intros s HP HD E.
  - cbn in E. injection E as <-. split; cbn; auto.
  - inversion HP; subst. assert (HD' : describes h need l) by (intros cs c Hx1 Hx2; apply (HD cs); auto; right; auto).
    destruct o as [cs|k]; cbn [arun trace] in *.
    + destruct (arun fuel h l) as [s0|] eqn:E0; [|discriminate].
      destruct (arbitrate fuel h cs s0) as [[[acc rej] s1]|] eqn:Ea; [|discriminate]. injection E as <-.
      eapply Matches_arb; eauto. intros c Hc. apply (HD cs); auto. left; auto.
    + destruct (arun fuel h l) as [s0|] eqn:E0; [|discriminate]. injection E as <-. apply Matches_rel. auto.
Qed.

(** The arbiter's books are exact: after any history of batches and command ends the amount
    recorded for a resource is the total in use. *)
Theorem C16_books fuel h need l s r : Forall properOp l -> describes h need l -> arun fuel h l = Some s ->
  val (a_alloc s r) = inUse need [] (trace fuel h l) r.
Proof. intros HP HD E. apply (Matches_run fuel h need l s HP HD E). Qed.

(** ** Limits *)
Lemma inUse_nonneg need tr r : (forall c, In (DAcc c) tr -> 0 <= amount (need c r))%Z -> forall E, (0 <= inUse need E tr r)%Z.
Proof.
  induction tr as [|[c|k] tr IH]; intros H E; cbn [inUse]; [lia| |].
  - specialize (H c (or_introl eq_refl)) as Hc. specialize (IH (fun c Hc => H c (or_intror Hc)) (filter (fun k => negb (Nat.eqb k (k_id c))) E)).
    destruct (mem (k_id c) E); [|lia]. unfold amount, keptAmount in *. destruct (need c r) as [q|]; [destruct (q_rel q)|]; lia.
  - apply IH. intros; apply H; right; auto.
Qed.
Lemma trace_in fuel h l c : In (DAcc c) (trace fuel h l) -> exists cs, In (AArb cs) l /\ In c cs.
Proof.
  induction l as [|[cs|k] l IH]; cbn [trace]; [cbn; tauto| |].
  - destruct (arun fuel h l); [|cbn; tauto]. destruct (arbitrate fuel h cs a) as [[[acc rej] s1]|]; [|cbn; tauto].
    rewrite in_app_iff, <- in_rev, in_map_iff. intros [[c' [E H]]|H].
    + injection E as ->. apply filter_In in H. exists cs. split; [left; auto|tauto].
    + destruct (IH H) as [cs' [? ?]]. exists cs'. split; auto. right; auto.
  - intros [E|H]; [discriminate|]. destruct (IH H) as [cs' [? ?]]. exists cs'. split; auto. right; auto.
Qed.
Lemma books_nonneg fuel h need l s r : Forall properOp l -> describes h need l -> nonneg need l -> arun fuel h l = Some s ->
  (0 <= val (a_alloc s r))%Z.
Proof.
  intros HP HD HN E. rewrite (C16_books fuel h need l s r HP HD E). apply inUse_nonneg.
  intros c Hc. apply trace_in in Hc. destruct Hc as [cs [H1 H2]]. eapply HN; eauto.
Qed.

Lemma good_entries need cs es0 : Forall2 (EntryOf need) cs es0 -> (forall c r, In c cs -> 0 <= amount (need c r))%Z ->
  forall e, In e (psort es0) -> goodEntry e.
Proof.
  intros HF HN e He. apply (Permutation_in _ (psort_perm es0)) in He.
  destruct (Forall2_in_r _ _ _ HF e He) as [c [Hc (G1 & G2 & G3 & G4)]]. split; auto.
  intros q Hq. specialize (HN c (q_name q) Hc). rewrite <- G4, (sget_in _ _ G3 Hq) in HN. exact HN.
Qed.

Definition bounded (h : hier) (al : nat -> option Z) (r : nat) : Prop :=
  val (al r) = 0%Z \/ (val (al r) <= maxOf h r)%Z.
Lemma decide_bounded h es : forall est s a j s', (forall e, In e es -> goodEntry e) ->
  (forall e q, In e es -> In q (p_needs e) -> EstOk est (a_alloc s) (q_name q)) ->
  (forall r, bounded h (a_alloc s) r) -> decide h es est s = (a, j, s') -> forall r, bounded h (a_alloc s') r.
Proof.
  induction es as [|e es IH]; intros est s a j s' Hg He Hb E; cbn [decide] in E; [injection E as <- <- <-; auto|].
  destruct (Hg e (or_introl eq_refl)) as [Hs Hw].
  pose proof (tryNeeds_spec h (p_needs e) Hs Hw est) as HT.
  assert (Hpre : forall q, In q (p_needs e) -> exists b c, est (q_name q) = (b, c) /\ (0 <= b <= c)%Z).
  { intros q Hq. destruct (He e q (or_introl eq_refl) Hq) as [b [X Y]]. exists b, (val (a_alloc s (q_name q))). auto. }
  specialize (HT Hpre). destruct (tryNeeds h (p_needs e) est) as [est'|].
  - destruct HT as [T1 T2]. destruct (decide h es est' _) as [[a1 j1] s1] eqn:Ed. injection E as <- <- <-.
    match type of Ed with decide _ _ _ ?s0 = _ => apply (IH est' s0 a1 j1 s1) end; auto; cbn [a_alloc].
    + intros; apply Hg; right; auto.
    + intros x q Hx Hq. destruct (He x q (or_intror Hx) Hq) as [b [X Y]]. exists b. rewrite T2, X. cbn [fst snd].
      rewrite charge_all by auto. split; auto. pose proof (dem_nonneg e (q_name q) (conj Hs Hw)) as Hd. unfold dem in Hd. lia.
    + intros r. unfold bounded. rewrite charge_all by auto.
      destruct (sget r (p_needs e)) as [q|] eqn:Eg.
      * apply sget_name in Eg. destruct Eg as [<- Hq]. right. specialize (T1 q Hq).
        destruct (He e q (or_introl eq_refl) Hq) as [b [X Y]]. rewrite X in T1. cbn in *. lia.
      * destruct (Hb r); [left|right]; cbn; lia.
  - destruct (decide h es est s) as [[a1 j1] s1] eqn:Ed. injection E as <- <- <-.
    apply (IH est s a1 j1 s1); auto; intros; [apply Hg; right; auto|eapply He; [right; eauto|auto]].
Qed.

Lemma arb_est need cs es0 s al est : Forall2 (EntryOf need) cs es0 -> prepare (psort es0) (a_alloc s) = (al, est) ->
  (forall r, 0 <= val (a_alloc s r))%Z ->
  (forall r, val (al r) = val (a_alloc s r)) /\
  forall e q, In e (psort es0) -> In q (p_needs e) -> EstOk est al (q_name q).
Proof.
  intros HF Ep H0. pose proof (prepare_spec (psort es0) (a_alloc s)) as [P1 P2]. rewrite Ep in P1, P2. cbn [fst snd] in *.
  split; auto. intros e q He Hq. exists (val (a_alloc s (q_name q))). rewrite (P2 e q He Hq), P1. split; auto.
  specialize (H0 (q_name q)). lia.
Qed.

(** The amount in use never exceeds a resource's maximum, if commands do not have negative needs. *)
Theorem C16_never_exceeds fuel h need l s r : Forall properOp l -> describes h need l -> nonneg need l ->
  arun fuel h l = Some s ->
  let u := inUse need [] (trace fuel h l) r in (0 <= u)%Z /\ (u = 0%Z \/ (u <= maxOf h r)%Z).
Proof.
  intros HP HD HN E u. unfold u. rewrite <- (C16_books fuel h need l s r HP HD E).
  split; [eapply books_nonneg; eauto|].
  clear u. revert s r E. induction l as [|o l IH]; intros s r E.
  - cbn in E. injection E as <-. left. auto.
  - inversion HP as [|? ? Ho HP']; subst. assert (HD' : describes h need l) by (intros cs c Hx1 Hx2; apply (HD cs); auto; right; auto).
    assert (HN' : nonneg need l) by (intros cs c r' H1 H2'; apply (HN cs); auto; right; auto).
    specialize (IH HP' HD' HN'). destruct o as [cs|k]; cbn [arun] in *.
    + destruct (arun fuel h l) as [s0|] eqn:E0; [|discriminate].
      destruct (arbitrate fuel h cs s0) as [[[acc rej] s1]|] eqn:Ea; [|discriminate]. injection E as <-.
      assert (Hn : forall c, In c cs -> NeedOf h c (need c)) by (intros c Hc; apply (HD cs); auto; left; auto).
      destruct (arbitrate_inv fuel h _ cs s0 acc rej s1 Hn Ho Ea) as (es0 & a & al & est & -> & HF & Ep & Ed & Hd).
      destruct (arb_est need _ es0 s0 al est HF Ep) as [A1 A2]; [intros; eapply books_nonneg; eauto|].
      eapply decide_bounded in Ed; eauto.
      * eapply good_entries; eauto. intros c r' Hc. apply filter_In in Hc. apply (HN cs); [left; auto|tauto].
      * intros r'. unfold bounded. cbn [a_alloc]. rewrite A1. apply IH. auto.
    + destruct (arun fuel h l) as [s0|] eqn:E0; [|discriminate]. injection E as <-.
      specialize (IH s0 r eq_refl).
      pose proof (Matches_run fuel h need l s0 HP' HD' E0) as [M1 M2].
      assert (E' : arun fuel h (ARel k :: l) = Some (release k s0)) by (cbn; rewrite E0; auto).
      pose proof (books_nonneg fuel h need (ARel k :: l) _ r HP HD HN E') as Hnn.
      unfold release in *. specialize (M2 k). destruct (a_held s0 k) as [qs|] eqn:Eh; [|auto].
      destruct (heldSpec (trace fuel h l) k) as [c|] eqn:Ehs; [|discriminate].
      destruct M2 as [qs' [X [HS Hq]]]. injection X as <-.
      cbn [a_alloc] in *. rewrite unCharge_all in * by auto.
      assert (Hc : (0 <= amount (sget r qs))%Z).
      { rewrite Hq. assert (Hin : exists cs, In (AArb cs) l /\ In c cs).
        { apply (trace_in fuel h). clear -Ehs. induction (trace fuel h l) as [|[c'|j] t IHt]; cbn in Ehs; [discriminate| |].
          - destruct (Nat.eqb (k_id c') k); [injection Ehs as ->; left; auto|right; auto].
          - destruct (Nat.eqb j k); [discriminate|right; auto]. }
        destruct Hin as [cs [H1 H2]]. eapply HN'; eauto. }
      assert (Hle : (keptAmount (sget r qs) <= amount (sget r qs))%Z).
      { unfold amount, keptAmount in *. destruct (sget r qs) as [q|]; [destruct (q_rel q)|]; lia. }
      destruct IH as [IH|IH]; [left; lia|right; lia].
Qed.

(** ** Who is rejected *)
(** A command is rejected exactly if some resource it needs does not suffice for it on top of
    what is in use and what was granted, in this batch, to commands served before it: those with
    smaller priority number, or with the same number and earlier in the batch. *)
Theorem C16_rejected_iff fuel h need l s cs acc rej s' :
  Forall properOp (AArb cs :: l) -> describes h need (AArb cs :: l) -> nonneg need (AArb cs :: l) ->
  arun fuel h l = Some s -> arbitrate fuel h cs s = Some (acc, rej, s') ->
  forall before c after, cs = before ++ c :: after -> contested c = true ->
  (In (k_id c) rej <->
   exists r q, need c r = Some q /\
     (maxOf h r < inUse need [] (trace fuel h l) r
                  + sumZ (fun c' => amount (need c' r))
                      (filter (fun c' => contested c' && mem (k_id c') acc && Z.leb (prioOf c') (prioOf c)) before
                       ++ filter (fun c' => contested c' && mem (k_id c') acc && Z.ltb (prioOf c') (prioOf c)) after)
                  + q_w q)%Z).
Proof.
  intros HP HD HN E Ea before c after Hcs Hcc.
  assert (Ho : NoDup (map k_id cs)) by (inversion HP; auto). assert (HP' : Forall properOp l) by (inversion HP; auto).
  assert (HD' : describes h need l) by (intros cs' c' H1 H2'; apply (HD cs'); auto; right; auto).
  assert (HN' : nonneg need l) by (intros cs' c' r' H1 H2'; apply (HN cs'); auto; right; auto).
  assert (Hn : forall c, In c cs -> NeedOf h c (need c)) by (intros c' Hc; apply (HD cs); auto; left; auto).
  assert (Hnn : forall c r, In c cs -> (0 <= amount (need c r))%Z) by (intros c' r' Hc; apply (HN cs); auto; left; auto).
  destruct (arbitrate_inv fuel h _ cs s acc rej s' Hn Ho Ea) as (es0 & a & al & est & Hacc & HF & Ep & Ed & Hd).
  destruct (arb_est need _ es0 s al est HF Ep) as [A1 A2]; [intros; eapply books_nonneg; eauto|].
  assert (Hg : forall e, In e (psort es0) -> goodEntry e).
  { eapply good_entries; eauto. intros c' r' Hc. apply filter_In in Hc. apply Hnn; tauto. }
  pose proof (decide_greedy h (psort es0) est {| a_alloc := al; a_held := a_held s |} a rej s' Hg Hd A2 Ed) as HG. cbn [a_alloc] in HG.
  (* accepted, for contested commands *)
  assert (Hmem : forall c', In c' cs -> contested c' = true -> mem (k_id c') acc = mem (k_id c') a).
  { intros c' Hc Hk. rewrite Hacc, mem_app. destruct (mem (k_id c') (map k_id _)) eqn:M; auto. apply mem_In in M.
    apply in_map_iff in M. destruct M as [c2 [E1 E2]]. apply filter_In in E2. destruct E2 as [E2 E3].
    assert (c2 = c'). { clear -Ho Hc E2 E1. induction cs as [|x cs IH]; [destruct Hc|]. cbn in Ho. inversion Ho; subst.
      destruct Hc as [->|Hc], E2 as [->|E2]; auto; exfalso; match goal with X : ~ In _ _ |- _ => apply X end; apply in_map_iff; eauto. }
    subst c2. rewrite Hk in E3. discriminate. }
  (* the entry of c *)
  assert (HF' : Forall2 (EntryOf need) (filter contested before ++ c :: filter contested after) es0).
  { rewrite Hcs, filter_app in HF. cbn [filter] in HF. rewrite Hcc in HF. exact HF. }
  apply Forall2_app_inv_l in HF'. destruct HF' as [e1 [e2' [F1 [F2 Hes]]]].
  inversion F2 as [|? e ? e2 Fe F2']; subst e2' x l0. 
  destruct Fe as (G1 & G2 & G3 & G4).
  destruct (psort_split e2 e e1) as [A [B [HS HPm]]].
  rewrite Hes in HG. specialize (HG A e B HS). rewrite <- G1, HG.
  assert (Hsum : forall r, accSum a r A = sumZ (fun c' => amount (need c' r))
                      (filter (fun c' => contested c' && mem (k_id c') acc && Z.leb (prioOf c') (prioOf c)) before
                       ++ filter (fun c' => contested c' && mem (k_id c') acc && Z.ltb (prioOf c') (prioOf c)) after)).
  { intros r. unfold accSum. rewrite (sumZ_perm _ _ _ HPm), !sumZ_app. rewrite G2.
    assert (Hgen : forall (lt : Z -> bool) cc ee, Forall2 (EntryOf need) (filter contested cc) ee -> (forall x, In x cc -> In x cs) ->
       sumZ (fun x => if mem (p_cmd x) a then dem x r else 0%Z) (filter (fun x => lt (p_prio x)) ee)
       = sumZ (fun c' => amount (need c' r)) (filter (fun c' => contested c' && mem (k_id c') acc && lt (prioOf c')) cc)).
    { clear -Hmem. intros lt cc. induction cc as [|c cc IH]; intros ee HF Hin; cbn [filter] in *.
      - inversion HF; subst. auto.
      - destruct (contested c) eqn:Ec; cbn [andb].
        + inversion HF as [|? e ? ee' Fe F]; subst. destruct Fe as (G1 & G2 & G3 & G4). cbn [filter].
          rewrite G2, Hmem by (auto; apply Hin; left; auto).
          specialize (IH ee' F (fun x Hx => Hin x (or_intror Hx))).
          destruct (lt (prioOf c)); cbn [sumZ]; rewrite ?andb_true_r, ?andb_false_r; [|auto].
          rewrite IH, G1. destruct (mem (k_id c) a); cbn [sumZ]; unfold dem; rewrite ?G4; lia.
        + apply IH; auto. intros; apply Hin; right; auto. }
    rewrite (Hgen (fun z => Z.leb z (prioOf c)) before e1 F1), (Hgen (fun z => Z.ltb z (prioOf c)) after e2 F2'); auto.
    - intros x Hx. rewrite Hcs. apply in_or_app. right; right; auto.
    - intros x Hx. rewrite Hcs. apply in_or_app. auto. }
  split.
  - intros [q [Hq Hlt]]. exists (q_name q), q. rewrite <- G4, (sget_in _ _ G3 Hq). split; auto.
    rewrite <- Hsum. rewrite <- (C16_books fuel h need l s _ HP' HD' E), <- A1. exact Hlt.
  - intros [r [q [Hq Hlt]]]. rewrite <- G4 in Hq. apply sget_name in Hq. destruct Hq as [<- Hq].
    exists q. split; auto. rewrite Hsum, A1, (C16_books fuel h need l s _ HP' HD' E). exact Hlt.
Qed.

(** ** Priorities *)
Lemma tryNeeds_agree h (S : nat -> Prop) qs : (forall q, In q qs -> S (q_name q)) -> forall est1 est2,
  (forall r, S r -> est1 r = est2 r) ->
  match tryNeeds h qs est1, tryNeeds h qs est2 with
  | Some e1, Some e2 => forall r, S r -> e1 r = e2 r
  | None, None => True
  | _, _ => False
  end.
Proof.
  induction qs as [|q qs IH]; intros HS est1 est2 He; cbn [tryNeeds]; auto.
  rewrite <- (He (q_name q)) by (apply HS; left; auto).
  destruct (est1 (q_name q)) as [ren con].
  destruct (if Z.ltb (q_w q) 0 then _ else _) as [ren' con'].
  destruct (_ || _)%bool; auto. apply IH.
  - intros; apply HS; right; auto.
  - intros r Hr. unfold upd. destruct (Nat.eqb r (q_name q)); auto.
Qed.
Lemma decide_prefix h X : forall P est1 est2 s1 s2 a1 j1 s1' a2 j2 s2' (S : nat -> Prop),
  (forall e q, In e P -> In q (p_needs e) -> S (q_name q)) -> (forall r, S r -> est1 r = est2 r) ->
  decide h (P ++ X) est1 s1 = (a1, j1, s1') -> decide h P est2 s2 = (a2, j2, s2') ->
  exists a' j', a1 = a2 ++ a' /\ j1 = j2 ++ j' /\ forall k, In k (a' ++ j') -> In k (map p_cmd X).
Proof.
  assert (Hids : forall es est s a j s', decide h es est s = (a, j, s') -> forall k, In k (a ++ j) -> In k (map p_cmd es)).
  { induction es as [|e es IH]; intros est s a j s' E k; cbn [decide] in E.
    - injection E as <- <- <-. auto.
    - destruct (tryNeeds h (p_needs e) est); destruct (decide h es _ _) as [[a1 j1] s1] eqn:Ed; injection E as <- <- <-; cbn [map In].
      + cbn [app In]. intros [H|H]; auto. right. eapply IH; eauto.
      + rewrite in_app_iff. cbn [In]. intros [H|[H|H]]; auto; right; eapply IH; eauto; apply in_or_app; auto. }
  induction P as [|e P IH]; intros est1 est2 s1 s2 a1 j1 s1' a2 j2 s2' S HS He E1 E2; cbn [app decide] in *.
  - injection E2 as <- <- <-. exists a1, j1. split; auto. split; auto. eapply Hids; eauto.
  - pose proof (tryNeeds_agree h S (p_needs e) (fun q Hq => HS e q (or_introl eq_refl) Hq) est1 est2 He) as HT.
    destruct (tryNeeds h (p_needs e) est1) as [e1|]; destruct (tryNeeds h (p_needs e) est2) as [e2|]; try contradiction.
    + destruct (decide h (P ++ X) e1 _) as [[b1 k1] t1] eqn:D1. destruct (decide h P e2 _) as [[b2 k2] t2] eqn:D2.
      injection E1 as <- <- <-. injection E2 as <- <- <-.
      destruct (IH e1 e2 _ _ _ _ _ _ _ _ S (fun x q Hx => HS x q (or_intror Hx)) HT D1 D2) as (a' & j' & -> & -> & Hk).
      exists a', j'. auto.
    + destruct (decide h (P ++ X) est1 s1) as [[b1 k1] t1] eqn:D1. destruct (decide h P est2 s2) as [[b2 k2] t2] eqn:D2.
      injection E1 as <- <- <-. injection E2 as <- <- <-.
      destruct (IH est1 est2 _ _ _ _ _ _ _ _ S (fun x q Hx => HS x q (or_intror Hx)) He D1 D2) as (a' & j' & -> & -> & Hk).
      exists a', j'. auto.
Qed.
Lemma psort_cut p l : psort l = psort (filter (fun e => Z.leb (p_prio e) p) l) ++ psort (filter (fun e => negb (Z.leb (p_prio e) p)) l).
Proof.
  induction l as [|e l IH]; auto. cbn [psort filter]. rewrite IH. clear IH.
  set (A := psort (filter (fun e => Z.leb (p_prio e) p) l)). set (B := psort (filter (fun e => negb (Z.leb (p_prio e) p)) l)).
  assert (HA : forall x, In x A -> (p_prio x <= p)%Z).
  { intros x Hx. apply (Permutation_in _ (psort_perm _)) in Hx. apply filter_In in Hx. lia. }
  assert (HB : forall x, In x B -> (p < p_prio x)%Z).
  { intros x Hx. apply (Permutation_in _ (psort_perm _)) in Hx. apply filter_In in Hx. destruct Hx as [_ Hx]. apply negb_true_iff in Hx. lia. }
  destruct (Z.leb_spec (p_prio e) p); cbn [negb psort]; fold A B; clearbody A B.
  - destruct B as [|b B]; [rewrite !app_nil_r; auto|]. apply pinsert_le. specialize (HB b (or_introl eq_refl)). lia.
  - clear HB. induction A as [|x A IH]; cbn [app pinsert]; auto.
    destruct (Z.ltb_spec (p_prio x) (p_prio e)).
    + rewrite IH; auto. intros; apply HA; right; auto.
    + specialize (HA x (or_introl eq_refl)). lia.
Qed.
Lemma partition_filter fuel h p : forall cs a es, partition fuel h cs = Some (a, es) ->
  partition fuel h (filter (fun c => negb (contested c) || Z.leb (prioOf c) p) cs)
   = Some (a, filter (fun e => Z.leb (p_prio e) p) es)
  /\ forall e, In e es -> exists c, In c cs /\ k_id c = p_cmd e /\ prioOf c = p_prio e.
Proof.
  induction cs as [|c cs IH]; intros a es E; cbn [partition] in E.
  - injection E as <- <-. split; auto. intros e [].
  - assert (Ec : contested c = match k_res c with [] => false | _ => true end) by reflexivity.
    assert (Eq : prioOf c = match k_res c with v :: _ => v_prio v | [] => 0%Z end) by reflexivity.
    cbn [filter]. rewrite Ec. destruct (k_res c) as [|v vs] eqn:Ek; cbn [negb orb].
    + destruct (partition fuel h cs) as [[a1 s1]|]; [|discriminate]. injection E as <- <-.
      destruct (IH _ _ eq_refl) as [I1 I2]. cbn [partition]. rewrite Ek, I1. split; auto.
      intros e He. destruct (I2 e He) as [c' [? ?]]. exists c'. split; auto. right; auto.
    + destruct (allNeeds fuel h (v :: vs) []) as [n|] eqn:Ea; [|discriminate].
      destruct (partition fuel h cs) as [[a1 s1]|]; [|discriminate]. injection E as <- <-.
      destruct (IH _ _ eq_refl) as [I1 I2]. split.
      * cbn [filter p_prio]. rewrite Eq. destruct (Z.leb (v_prio v) p); cbn [partition]; [rewrite Ek, Ea, I1; auto|auto].
      * intros e [<-|He]; [exists c; cbn; rewrite Eq; auto|]. destruct (I2 e He) as [c' [? ?]]. exists c'. split; auto. right; auto.
Qed.

(** Commands of lower priority (larger number) do not influence the fate of the others: without
    them the remaining commands are accepted and rejected just the same, in the same order. *)
Theorem C16_lower_priority_irrelevant fuel h p cs s acc rej s' :
  arbitrate fuel h cs s = Some (acc, rej, s') ->
  exists acc2 rej2 s2 xa xr,
    arbitrate fuel h (filter (fun c => negb (contested c) || Z.leb (prioOf c) p) cs) s = Some (acc2, rej2, s2)
    /\ acc = acc2 ++ xa /\ rej = rej2 ++ xr
    /\ forall k, In k (xa ++ xr) -> exists c, In c cs /\ k_id c = k /\ (p < prioOf c)%Z.
Proof.
  unfold arbitrate. destruct (partition fuel h cs) as [[a0 es]|] eqn:Ep; [|discriminate].
  destruct (partition_filter fuel h p cs a0 es Ep) as [-> Hes].
  set (P := psort (filter (fun e => Z.leb (p_prio e) p) es)). rewrite (psort_cut p es). fold P.
  set (X := psort (filter (fun e => negb (Z.leb (p_prio e) p)) es)).
  pose proof (prepare_spec (P ++ X) (a_alloc s)) as [_ Q1]. pose proof (prepare_spec P (a_alloc s)) as [_ Q2].
  destruct (prepare (P ++ X) (a_alloc s)) as [al1 est1]. destruct (prepare P (a_alloc s)) as [al2 est2]. cbn [snd] in *.
  destruct (decide h (P ++ X) est1 _) as [[a1 j1] s1] eqn:D1. destruct (decide h P est2 _) as [[a2 j2] s2] eqn:D2.
  intros E. injection E as <- <- <-.
  destruct (decide_prefix h X P _ _ _ _ _ _ _ _ _ _ (fun r => exists e q, In e P /\ In q (p_needs e) /\ q_name q = r)
     (fun e q He Hq => ex_intro _ e (ex_intro _ q (conj He (conj Hq eq_refl))))
     (fun r Hr => match Hr with ex_intro _ e (ex_intro _ q (conj He (conj Hq Hn))) =>
         match Hn with eq_refl => eq_trans (Q1 e q (in_or_app _ _ _ (or_introl He)) Hq) (eq_sym (Q2 e q He Hq)) end end) D1 D2)
    as (a' & j' & -> & -> & Hk).
  exists (a0 ++ a2), j2, s2, a', j'. split; auto. split; [apply app_assoc|]. split; auto.
  intros k Hin. specialize (Hk k Hin). apply in_map_iff in Hk. destruct Hk as [e [<- He]].
  apply (Permutation_in _ (psort_perm _)) in He. apply filter_In in He. destruct He as [He Hp]. apply negb_true_iff in Hp.
  destruct (Hes e He) as [c [? [? ?]]]. exists c. split; auto. split; auto. lia.
Qed.

(** ** Termination *)
Lemma flatC_mono h rel : forall f n l, flatC f h rel n = Some l -> forall f', f <= f' -> flatC f' h rel n = Some l.
Proof.
  induction f as [|f IH]; intros n l E f' Hf; [discriminate|]. destruct f' as [|f']; [lia|]. cbn [flatC] in *.
  destruct (h n) as [nd|]; auto. revert l E.
  induction (rn_children nd) as [|c cs IHc]; intros l E; cbn [fold_right] in *; auto.
  destruct (flatC f h rel (snd c)) as [l1|] eqn:E1; [|discriminate].
  destruct (fold_right _ _ cs) as [l2|]; [|discriminate].
  rewrite (IH _ _ E1 f') by lia. rewrite (IHc l2 eq_refl). auto.
Qed.
Lemma allNeeds_mono h f f' vs : f <= f' -> forall s l, allNeeds f h vs s = Some l -> allNeeds f' h vs s = Some l.
Proof.
  intros Hf. induction vs as [|v vs IH]; intros s l E; cbn [allNeeds] in *; auto. unfold allChild in *.
  destruct (flatC f h (v_release v) (v_name v)) as [fl|] eqn:Ef; [|discriminate]. rewrite (flatC_mono _ _ _ _ _ Ef f' Hf). auto.
Qed.
Lemma partition_mono h f f' cs : f <= f' -> forall p, partition f h cs = Some p -> partition f' h cs = Some p.
Proof.
  intros Hf. induction cs as [|c cs IH]; intros p E; cbn [partition] in *; auto. destruct (k_res c) as [|v vs].
  - destruct (partition f h cs) as [[a s]|]; [|discriminate]. rewrite (IH _ eq_refl). auto.
  - destruct (allNeeds f h (v :: vs) []) eqn:Ea; [|discriminate]. rewrite (allNeeds_mono h f f' _ Hf _ _ Ea).
    destruct (partition f h cs) as [[a s]|]; [|discriminate]. rewrite (IH _ eq_refl). auto.
Qed.
Lemma arun_mono h f f' l : f <= f' -> forall s, arun f h l = Some s -> arun f' h l = Some s.
Proof.
  intros Hf. induction l as [|[cs|k] l IH]; intros s E; cbn [arun] in *; auto.
  - destruct (arun f h l) as [s0|]; [|discriminate]. rewrite (IH _ eq_refl). unfold arbitrate in *.
    destruct (partition f h cs) as [p|] eqn:Ep; [|discriminate]. rewrite (partition_mono h f f' cs Hf _ Ep). auto.
  - destruct (arun f h l) as [s0|]; [|discriminate]. rewrite (IH _ eq_refl). auto.
Qed.

(** No resource is its own descendant. *)
Definition acyclic (h : hier) : Prop := exists rank : nat -> nat,
  forall n nd w m, h n = Some nd -> In (w, m) (rn_children nd) -> rank m < rank n.

(** For hierarchies without cycles every arbitration terminates; the recursion depth the model
    uses as a bound does not matter beyond some point. *)
Theorem C16_terminates h l : acyclic h ->
  exists f s, forall f', f <= f' -> arun f' h l = Some s.
Proof.
  intros [rank Hr].
  assert (Hflat : forall rel k n, rank n < k -> exists fl, flatC k h rel n = Some fl).
  { intros rel. induction k as [|k IH]; intros n Hn; [lia|]. cbn [flatC]. destruct (h n) as [nd|] eqn:Eh; [|eauto].
    assert (Hc : forall w m, In (w, m) (rn_children nd) -> rank m < k) by (intros w m Hm; specialize (Hr n nd w m Eh Hm); lia).
    clear Eh. induction (rn_children nd) as [|[w m] cs IHc]; cbn [fold_right]; [eauto|].
    destruct (IH m) as [l1 E1]; [apply (Hc w); left; auto|]. cbn [fst snd]. rewrite E1.
    destruct IHc as [l2 E2]; [intros; eapply Hc; right; eauto|]. rewrite E2. eauto. }
  assert (Hneeds : forall vs s, exists f r, allNeeds f h vs s = Some r).
  { induction vs as [|v vs IH]; intros s; [exists 0; eexists; reflexivity|].
    destruct (Hflat (v_release v) (S (rank (v_name v))) (v_name v)) as [fl Ef]; [lia|].
    set (s1 := addNeeds (v_name v) ({| q_name := v_name v; q_w := v_upper v; q_rel := v_release v |} :: fl) s).
    destruct (IH s1) as [f [r E]]. exists (Nat.max f (S (rank (v_name v)))), r. cbn [allNeeds]. unfold allChild.
    rewrite (flatC_mono _ _ _ _ _ Ef) by lia. fold s1. eapply allNeeds_mono; [|exact E]. lia. }
  assert (Hpart : forall cs, exists f p, partition f h cs = Some p).
  { induction cs as [|c cs [f [[a es] E]]]; [exists 0; eexists; reflexivity|]. cbn [partition]. destruct (k_res c) as [|v vs].
    - exists f. rewrite E. eauto.
    - destruct (Hneeds (v :: vs) []) as [f' [r E']]. exists (Nat.max f f').
      rewrite (allNeeds_mono h f' _ _ (Nat.le_max_r _ _) _ _ E'), (partition_mono h f _ _ (Nat.le_max_l _ _) _ E). eauto. }
  assert (G : exists f s, arun f h l = Some s).
  { induction l as [|[cs|k] l [f [s E]]]; [exists 0; eexists; reflexivity| |].
    - destruct (Hpart cs) as [f' [p Ep]]. exists (Nat.max f f'). cbn [arun].
      rewrite (arun_mono h f _ l (Nat.le_max_l _ _) _ E). unfold arbitrate.
      rewrite (partition_mono h f' _ _ (Nat.le_max_r _ _) _ Ep). destruct p as [a es].
      destruct (prepare _ _). destruct (decide _ _ _ _) as [[? ?] ?]. eauto.
    - exists f. cbn [arun]. rewrite E. eauto. }
  destruct G as [f [s E]]. exists f, s. intros f' Hf. eapply arun_mono; eauto.
Qed.

(** ** A concrete case: crane (maximum 2) with a motor below it (maximum 10), and an unlisted resource. *)
Definition xh : hier := fun n => match n with
  | 1 => Some {| rn_max := 2; rn_children := [(4%Z, 2)] |}
  | 2 => Some {| rn_max := 10; rn_children := [] |}
  | _ => None end.
Definition rq n p w rel : rval := {| v_name := n; v_prio := p; v_upper := w; v_release := rel |}.
Definition cmdA : acmd := {| k_id := 101; k_res := [rq 1 20 1 true] |}.
Definition cmdB : acmd := {| k_id := 102; k_res := [rq 1 10 1 true; rq 3 10 1 false] |}.
Definition cmdC : acmd := {| k_id := 103; k_res := [rq 2 20 3 true] |}.
Definition cmdD : acmd := {| k_id := 104; k_res := [] |}.
Definition xl : list aop := [AArb [cmdB; cmdC]; ARel 102; AArb [cmdA; cmdB; cmdC; cmdD]].
Definition xneed : acmd -> nat -> option creq := needF 5 xh.

Example C16_demo :
  match arbitrate 5 xh [cmdA; cmdB; cmdC; cmdD] newArb with
  | Some (acc, rej, s) => acc = [104; 102; 101] /\ rej = [103]
       /\ map (fun r => val (a_alloc s r)) [1; 2; 3] = [2; 8; 1]%Z
  | None => False
  end.
Proof. vm_compute. auto. Qed.
(** After B has ended its share of resource 3 stays used up: B is refused when it asks again. *)
Example C16_demo2 :
  match arun 5 xh xl with
  | Some s => map (fun r => val (a_alloc s r)) [1; 2; 3] = [1; 7; 1]%Z
  | None => False
  end
  /\ map (inUse xneed [] (trace 5 xh xl)) [1; 2; 3] = [1; 7; 1]%Z.
Proof. vm_compute. auto. Qed.
Lemma xl_proper : Forall properOp xl.
Proof.
  repeat (apply Forall_cons || apply Forall_nil); cbn;
  repeat (apply NoDup_cons || apply NoDup_nil); cbn; intuition discriminate.
Qed.
Lemma xl_describes : describes xh xneed xl.
Proof.
  intros cs c Hl Hc. assert (X : exists p, partition 5 xh cs = Some p).
  { cbn in Hl. destruct Hl as [Hl|[Hl|[Hl|[]]]]; try discriminate; injection Hl as <-; vm_compute; eauto. }
  destruct X as [p X]. eapply partition_needF; eauto.
Qed.
Lemma xl_nonneg : nonneg xneed xl.
Proof.
  intros cs c r Hl Hc.
  assert (X : c = cmdA \/ c = cmdB \/ c = cmdC \/ c = cmdD).
  { cbn in Hl. destruct Hl as [Hl|[Hl|[Hl|[]]]]; try discriminate; injection Hl as <-; cbn in Hc; intuition. }
  unfold xneed, needF. destruct X as [->|[->|[-> | ->]]];
    (match goal with |- context [allNeeds ?f ?h ?v ?s] => let y := eval vm_compute in (allNeeds f h v s) in change (allNeeds f h v s) with y end);
    cbn [sget q_name]; repeat (match goal with |- context [Nat.eqb ?a r] => destruct (Nat.eqb a r) end); cbn; lia.
Qed.
Example C16_hyps : Forall properOp xl /\ describes xh xneed xl /\ nonneg xneed xl /\ acyclic xh
  /\ exists s, arun 5 xh xl = Some s.
Proof.
  split; [apply xl_proper|]. split; [apply xl_describes|]. split; [apply xl_nonneg|]. split.
  - exists (fun n => 5 - n). intros n nd w m Hn Hin. destruct n as [|[|[|n]]]; cbn in Hn; try discriminate;
      injection Hn as <-; cbn in Hin; [|tauto]. destruct Hin as [E|[]]. injection E as _ <-. lia.
  - eexists. vm_compute. reflexivity.
Qed.

(** ** What does not hold *)
(** With a resource that is (directly or not) its own child the recursion never ends, at any depth. *)
Theorem C16_cycle_refuted : exists (h : hier) (c : acmd), forall fuel, arbitrate fuel h [c] newArb = None.
Proof.
  exists (fun n => match n with 1 => Some {| rn_max := 1; rn_children := [(1%Z, 2)] |} | 2 => Some {| rn_max := 1; rn_children := [(1%Z, 1)] |} | _ => None end).
  exists cmdA. intros fuel. unfold arbitrate. cbn [partition cmdA k_res allNeeds]. unfold allChild.
  match goal with |- context [flatC fuel ?h ?b ?n] => enough (X : flatC fuel h b 1 = None) by (cbn [v_name rq v_release] in *; rewrite X; auto); set (hh := h) end.
  enough (X : flatC fuel hh (v_release (rq 1 20 1 true)) 1 = None /\ flatC fuel hh (v_release (rq 1 20 1 true)) 2 = None) by tauto.
  induction fuel as [|f [I1 I2]]; [split; reflexivity|]. split; cbn [flatC]; unfold hh at 1; cbn [rn_children fold_right fst snd];
    [rewrite I2|rewrite I1]; reflexivity.
Qed.

(** The comment in determineAllChildResources says that a value given explicitly in the plan
    overrides one implied by an earlier request; it does not (std::set::insert keeps the old
    element): here the command asks for 7 of resource 2 but is charged 4. *)
Theorem C16_override_refuted : exists s,
  arbitrate 5 xh [{| k_id := 1; k_res := [rq 1 20 1 true; rq 2 20 7 true] |}] newArb = Some ([1], [], s)
  /\ a_alloc s 2 = Some 4%Z.
Proof. eexists. split; vm_compute; reflexivity. Qed.

(** With a negative (renewing) need the books can exceed the maximum: 5 in use, -3 accepted, then
    8 accepted, then the renewing command ends. *)
Theorem C16_negative_refuted : exists s,
  arun 5 xh [ARel 2; AArb [{| k_id := 3; k_res := [rq 2 1 8 true] |}]; AArb [{| k_id := 2; k_res := [rq 2 1 (-3) true] |}];
              AArb [{| k_id := 1; k_res := [rq 2 1 5 true] |}]] = Some s
  /\ a_alloc s 2 = Some 13%Z /\ maxOf xh 2 = 10%Z.
Proof. eexists. split; [vm_compute; reflexivity|]. split; vm_compute; reflexivity. Qed.

(** A command accepted again without having been released (CommandImpl does not release when the
    last handle was COMMAND_DENIED, which an adapter may send, see C15_release) leaks its first
    reservation for good. *)
Theorem C16_leak_refuted : exists s,
  arun 5 xh [ARel 103; AArb [cmdC]; AArb [cmdC]] = Some s /\ a_held s 103 = None /\ a_alloc s 2 = Some 3%Z.
Proof. eexists. split; [vm_compute; reflexivity|]. split; vm_compute; reflexivity. Qed.

(** Assumptions *)
Print Assumptions C16_partition.
Print Assumptions C16_books.
Print Assumptions C16_never_exceeds.
Print Assumptions C16_rejected_iff.
Print Assumptions C16_lower_priority_irrelevant.
Print Assumptions C16_terminates.
Print Assumptions C16_cycle_refuted.
Print Assumptions C16_override_refuted.
Print Assumptions C16_negative_refuted.
Print Assumptions C16_leak_refuted.
