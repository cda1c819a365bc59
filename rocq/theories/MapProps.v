(** C56: the sorted-vector containers are a finite map and a finite set. *)
From Coq Require Import Arith List Bool Lia.
From Verif Require Import MapModel MapSpec.
Import ListNotations.

(** ** lower_bound *)
Section LB.
  Variables (E X : Type) (before : E -> X -> bool).
  (** [before . x] is true on a prefix. *)
  Definition parted (s : list E) (x : X) : Prop :=
    forall i j a b, nth_error s i = Some a -> nth_error s j = Some b -> i < j -> before b x = true -> before a x = true.
  Lemma lbLoop_ok : forall s x, parted s x -> forall fuel first len,
    len <= fuel -> first + len <= length s ->
    (forall i e, nth_error s i = Some e -> i < first -> before e x = true) ->
    (forall i e, nth_error s i = Some e -> first + len <= i -> before e x = false) ->
    let p := lbLoop E X before fuel s x first len in
    p <= length s
    /\ (forall i e, nth_error s i = Some e -> i < p -> before e x = true)
    /\ (forall i e, nth_error s i = Some e -> p <= i -> before e x = false).
  Proof.
    intros s x HP fuel. induction fuel as [|f IH]; intros first len Hf Hl Hlo Hhi.
    - cbn. assert (len = 0) by lia. subst. rewrite Nat.add_0_r in *. auto.
    - cbn [lbLoop]. destruct len as [|n].
      + cbn. rewrite Nat.add_0_r in *. auto.
      + set (half := Nat.div2 (S n)).
        assert (Hh : half < S n) by (apply Nat.lt_div2; lia).
        clearbody half.
        destruct (nth_error s (first + half)) as [e|] eqn:En.
        2:{ apply nth_error_None in En. lia. }
        destruct (before e x) eqn:Eb.
        * apply IH; try lia.
          -- intros i e' Hi Hlt. destruct (Nat.eq_dec i (first + half)) as [->|Hne].
             ++ rewrite En in Hi. injection Hi as <-. exact Eb.
             ++ apply (HP i (first + half) e' e); auto; lia.
          -- intros i e' Hi Hge. apply (Hhi i e' Hi). lia.
        * apply IH; try lia.
          -- exact Hlo.
          -- intros i e' Hi Hge. destruct (Nat.eq_dec i (first + half)) as [->|Hne].
             ++ rewrite En in Hi. injection Hi as <-. exact Eb.
             ++ destruct (before e' x) eqn:Eb'; [|reflexivity].
                rewrite (HP (first + half) i e e' En Hi ltac:(lia) Eb') in Eb. discriminate.
  Qed.
  Lemma lowerBound_ok : forall s x, parted s x ->
    let p := lowerBound E X before s x in
    p <= length s
    /\ (forall i e, nth_error s i = Some e -> i < p -> before e x = true)
    /\ (forall i e, nth_error s i = Some e -> p <= i -> before e x = false).
  Proof.
    intros s x HP. apply lbLoop_ok; auto; try lia.
    intros i e Hi Hge. exfalso. assert (i < length s) by (apply nth_error_Some; congruence). lia.
  Qed.
End LB.

(** ** Positions of an insertion and a deletion *)
Lemma nth_insAt : forall E (s : list E) i e j, i <= length s ->
  nth_error (insAt s i e) j = if j <? i then nth_error s j else if j =? i then Some e else nth_error s (j - 1).
Proof.
  intros E s i e j Hi. unfold insAt.
  assert (L : length (firstn i s) = i) by (rewrite firstn_length; lia).
  destruct (j <? i) eqn:Hlt; [apply Nat.ltb_lt in Hlt | apply Nat.ltb_ge in Hlt].
  - rewrite nth_error_app1 by lia. clear L.
    revert j i Hi Hlt. induction s as [|a s IH]; intros [|j] [|i] H1 H2; cbn in *; try lia; auto.
    apply IH; lia.
  - rewrite nth_error_app2 by lia. rewrite L.
    destruct (j =? i) eqn:Heq; [apply Nat.eqb_eq in Heq; subst; rewrite Nat.sub_diag; reflexivity|].
    apply Nat.eqb_neq in Heq. replace (j - i) with (S (j - 1 - i)) by lia. cbn [nth_error].
    clear L. assert (Hj : i <= j - 1) by lia. clear Hlt Heq.
    set (k := j - 1) in *. clearbody k. clear j.
    revert k i Hi Hj. induction s as [|a s IH]; intros k i H1 H2.
    + rewrite skipn_nil. destruct (k - i), k; reflexivity.
    + destruct i as [|i]; [rewrite Nat.sub_0_r; reflexivity|]. destruct k as [|k]; [lia|]. cbn in *.
      apply IH; lia.
Qed.
Lemma in_insAt : forall E (s : list E) i e x, In x (insAt s i e) <-> x = e \/ In x s.
Proof.
  intros. unfold insAt. rewrite <- (firstn_skipn i s) at 3. rewrite !in_app_iff. cbn. intuition congruence.
Qed.
Lemma split_at : forall E (s : list E) i e, nth_error s i = Some e -> s = firstn i s ++ e :: skipn (S i) s /\ length (firstn i s) = i.
Proof.
  intros E s. induction s as [|a s IH]; intros [|i] e H; try discriminate.
  - injection H as ->. auto.
  - cbn [nth_error] in H. destruct (IH i e H) as [H1 H2].
    cbn [firstn length]. split; [|lia]. cbn [app]. f_equal.
    change (skipn (S (S i)) (a :: s)) with (skipn (S i) s). exact H1.
Qed.

(** ** Maps *)
Section MapP.
  Variables (K V : Type) (lt eqb : K -> K -> bool) (dflt : V).
  Hypothesis TO : total_order lt eqb.
  Definition sorted (s : list (K * V)) : Prop :=
    forall i j a b, nth_error s i = Some a -> nth_error s j = Some b -> i < j -> lt (fst a) (fst b) = true.
  Lemma sorted_parted : forall s k, sorted s -> parted _ _ (entBefore K V lt) s k.
  Proof.
    intros s k HS i j a b Ha Hb Hij H. unfold entBefore in *.
    eapply (to_trans _ _ TO); [eapply HS; eauto|exact H].
  Qed.
  Lemma eqb_spec : forall a b, eqb a b = true \/ (eqb a b = false /\ a <> b).
  Proof.
    intros a b. destruct (eqb a b) eqn:E; [left; reflexivity|right].
    split; [reflexivity|]. intros ->. assert (eqb b b = true) by (apply (to_eq _ _ TO); reflexivity). congruence.
  Qed.
  Lemma eqb_true : forall a b, eqb a b = true -> a = b.
  Proof. intros. apply (to_eq _ _ TO). assumption. Qed.
  Lemma lt_asym : forall a b, lt a b = true -> lt b a = true -> False.
  Proof. intros a b H1 H2. pose proof (to_trans _ _ TO _ _ _ H1 H2) as H. rewrite (to_irrefl _ _ TO) in H. discriminate. Qed.
  Lemma key_unique : forall s a b, sorted s -> In a s -> In b s -> fst a = fst b -> a = b.
  Proof.
    intros s a b HS Ha Hb Hk.
    apply In_nth_error in Ha. apply In_nth_error in Hb. destruct Ha as [i Hi]. destruct Hb as [j Hj].
    destruct (lt_eq_lt_dec i j) as [[H|H]|H].
    - pose proof (HS _ _ _ _ Hi Hj H) as C. rewrite Hk, (to_irrefl _ _ TO) in C. discriminate.
    - subst. congruence.
    - pose proof (HS _ _ _ _ Hj Hi H) as C. rewrite Hk, (to_irrefl _ _ TO) in C. discriminate.
  Qed.
  (** The outcome of the search: either the entry, or the place where it belongs. *)
  Lemma mlb_cases : forall s k, sorted s ->
    (exists v, nth_error s (mlb K V lt s k) = Some (k, v) /\ eqb k k = true)
    \/ ((forall v, ~ In (k, v) s)
        /\ (match nth_error s (mlb K V lt s k) with Some e => entEqual K V eqb e k = false | None => mlb K V lt s k = length s end)
        /\ forall v, sorted (insAt s (mlb K V lt s k) (k, v))) .
  Proof.
    intros s k HS. pose proof (lowerBound_ok _ _ (entBefore K V lt) s k (sorted_parted s k HS)) as L. cbn zeta in L.
    unfold mlb. set (p := lowerBound (K * V) K (entBefore K V lt) s k) in *. clearbody p.
    destruct L as (L1 & L2 & L3). unfold entBefore in L2, L3.
    assert (INS : (forall v, ~ In (k, v) s) -> forall v, sorted (insAt s p (k, v))).
    { intros NI v i j a b Hi Hj Hij.
      rewrite nth_insAt in Hi by exact L1. rewrite nth_insAt in Hj by exact L1.
      destruct (i <? p) eqn:C1; [apply Nat.ltb_lt in C1|apply Nat.ltb_ge in C1];
      (destruct (j <? p) eqn:C2; [apply Nat.ltb_lt in C2|apply Nat.ltb_ge in C2]); try lia.
      - eapply HS; eauto.
      - destruct (j =? p) eqn:C3.
        + injection Hj as <-. apply (L2 _ _ Hi C1).
        + apply Nat.eqb_neq in C3. eapply HS; [exact Hi|exact Hj|lia].
      - destruct (j =? p) eqn:C3; [apply Nat.eqb_eq in C3; lia|]. apply Nat.eqb_neq in C3.
        destruct (i =? p) eqn:C4.
        + injection Hi as <-. cbn [fst].
          pose proof (L3 _ _ Hj ltac:(lia)) as C.
          destruct (to_total _ _ TO k (fst b)) as [H|[H|H]]; [exact H| |congruence].
          exfalso. apply (NI (snd b)). apply nth_error_In in Hj. rewrite H. rewrite <- surjective_pairing. exact Hj.
        + apply Nat.eqb_neq in C4. eapply HS; [exact Hi|exact Hj|lia]. }
    assert (NIN : forall v i, nth_error s i = Some (k, v) -> p <= i).
    { intros v i Hi. destruct (le_lt_dec p i) as [H|H]; [exact H|exfalso].
      pose proof (L2 _ _ Hi H) as C. cbn [fst] in C. rewrite (to_irrefl _ _ TO) in C. discriminate. }
    destruct (nth_error s p) as [[k' v']|] eqn:Ep.
    - destruct (eqb_spec k' k) as [Q|[Q NE]].
      + left. apply eqb_true in Q. subst. exists v'. split; [reflexivity|apply (to_eq _ _ TO); reflexivity].
      + right. assert (NI : forall v, ~ In (k, v) s).
        { intros v Hin. apply In_nth_error in Hin. destruct Hin as [i Hi].
          pose proof (NIN _ _ Hi) as Hle. destruct (Nat.eq_dec i p) as [->|Hne].
          - rewrite Ep in Hi. congruence.
          - pose proof (HS _ _ _ _ Ep Hi ltac:(lia)) as C. cbn [fst] in C.
            rewrite (L3 _ _ Ep (le_n p) : lt k' k = false) in C. discriminate. }
        repeat split; auto.
    - right. assert (NI : forall v, ~ In (k, v) s).
      { intros v Hin. apply In_nth_error in Hin. destruct Hin as [i Hi].
        pose proof (NIN _ _ Hi) as Hle. apply nth_error_None in Ep.
        assert (i < length s) by (apply nth_error_Some; congruence). lia. }
      split; [exact NI|]. split; [|auto]. apply nth_error_None in Ep. lia.
  Qed.
  (** The abstraction. *)
  Definition absf (s : list (K * V)) (f : K -> option V) : Prop := forall k v, In (k, v) s <-> f k = Some v.
  Lemma absf_none : forall s f k, absf s f -> (forall v, ~ In (k, v) s) -> f k = None.
  Proof. intros s f k A N. destruct (f k) as [v|] eqn:Ef; [|reflexivity]. apply A in Ef. elim (N v Ef). Qed.
  Definition fupd (f : K -> option V) (k : K) (v : V) : K -> option V := fun x => if eqb x k then Some v else f x.
  Lemma fupd_upd : forall f k v, upd K V f (fupd f k v) k v.
  Proof.
    intros f k v. split; unfold fupd.
    - replace (eqb k k) with true; [reflexivity|]. symmetry. apply (to_eq _ _ TO). reflexivity.
    - intros k' N. destruct (eqb_spec k' k) as [Q|[Q _]]; [apply eqb_true in Q; contradiction|rewrite Q; reflexivity].
  Qed.
  Lemma absf_ins : forall s f k v i, absf s f -> (forall w, ~ In (k, w) s) -> absf (insAt s i (k, v)) (fupd f k v).
  Proof.
    intros s f k v i A N x w. rewrite in_insAt. unfold fupd. destruct (eqb_spec x k) as [Q|[Q NE]].
    - pose proof (eqb_true _ _ Q); subst. rewrite Q. split; [intros [H|H]; [congruence|elim (N _ H)]|].
      intros H; injection H as ->; auto.
    - rewrite Q. split; [intros [H|H]; [congruence|apply A; exact H]|intros H; right; apply A; exact H].
  Qed.
  Lemma setAt_ok : forall s f i k v w, sorted s -> absf s f -> nth_error s i = Some (k, w) ->
    sorted (setAt s i v) /\ absf (setAt s i v) (fupd f k v).
  Proof.
    intros s f i k v w HS A Hi. unfold setAt. rewrite Hi.
    destruct (split_at _ _ _ _ Hi) as [Hs Hl].
    assert (Hn : forall j, nth_error (firstn i s ++ (k, v) :: skipn (S i) s) j = if j =? i then Some (k, v) else nth_error s j).
    { intros j. destruct (j =? i) eqn:C.
      - apply Nat.eqb_eq in C. subst j. rewrite nth_error_app2 by lia. rewrite Hl, Nat.sub_diag. reflexivity.
      - apply Nat.eqb_neq in C. rewrite Hs at 3. destruct (le_lt_dec i j).
        + rewrite !nth_error_app2 by lia. rewrite Hl. replace (j - i) with (S (j - i - 1)) by lia. reflexivity.
        + rewrite !nth_error_app1 by lia. reflexivity. }
    split.
    - intros a b x y Hx Hy Hab. rewrite Hn in Hx, Hy.
      destruct (a =? i) eqn:C1; destruct (b =? i) eqn:C2; try (apply Nat.eqb_eq in C1); try (apply Nat.eqb_eq in C2); try lia.
      + subst a. injection Hx as <-. apply (HS _ _ _ _ Hi Hy Hab).
      + subst b. injection Hy as <-. apply (HS _ _ _ _ Hx Hi Hab).
      + eapply HS; eauto.
    - intros x u. split.
      + intros Hin. apply In_nth_error in Hin. destruct Hin as [j Hj]. rewrite Hn in Hj. unfold fupd.
        destruct (j =? i) eqn:C.
        * injection Hj as -> ->. replace (eqb x x) with true; [reflexivity|]. symmetry; apply (to_eq _ _ TO); reflexivity.
        * destruct (eqb_spec x k) as [Q|[Q _]].
          -- exfalso. apply eqb_true in Q. subst x. apply Nat.eqb_neq in C.
             assert (E1 : (k, u) = (k, w)) by (apply (key_unique s); eauto using nth_error_In).
             destruct (lt_eq_lt_dec i j) as [[H|H]|H]; [|lia|].
             ++ pose proof (HS _ _ _ _ Hi Hj H) as L. cbn [fst] in L. rewrite (to_irrefl _ _ TO) in L. discriminate.
             ++ pose proof (HS _ _ _ _ Hj Hi H) as L. cbn [fst] in L. rewrite (to_irrefl _ _ TO) in L. discriminate.
          -- rewrite Q. apply A. eapply nth_error_In; eauto.
      + unfold fupd. destruct (eqb_spec x k) as [Q|[Q NE]]; rewrite Q.
        * intros H; injection H as <-. apply eqb_true in Q. subst x. apply (nth_error_In _ i). rewrite Hn, Nat.eqb_refl. reflexivity.
        * intros H. apply A in H. apply In_nth_error in H. destruct H as [j Hj]. apply (nth_error_In _ j). rewrite Hn.
          destruct (j =? i) eqn:C; [|exact Hj]. apply Nat.eqb_eq in C. subst. rewrite Hi in Hj. congruence.
  Qed.
  Lemma sorted_lists : forall s f, sorted s -> absf s f -> lists K V lt f s.
  Proof. intros s f H1 H2. split; assumption. Qed.
  Lemma same_refl : forall f, same K V f f.
  Proof. intros f k. reflexivity. Qed.

  Lemma mstep_ok : forall s f o, sorted s -> absf s f ->
    exists f', mspec K V lt dflt f o (snd (mstep K V lt eqb dflt s o)) f'
      /\ sorted (fst (mstep K V lt eqb dflt s o)) /\ absf (fst (mstep K V lt eqb dflt s o)) f'.
  Proof.
    intros s f o HS A. destruct o as [k v|k v|k|k|k| | | |]; cbn [mstep mspec].
    - unfold smInsert. destruct (mlb_cases s k HS) as [(w & Hw & Q)|(NI & Hp & INS)].
      + rewrite Hw. unfold entEqual. cbn [fst]. rewrite Q. cbn [fst snd].
        rewrite (proj1 (A k w) (nth_error_In _ _ Hw)). exists f. auto using same_refl.
      + rewrite (absf_none _ _ _ A NI). exists (fupd f k v).
        assert (E : (let it := mlb K V lt s k in match nth_error s it with
           | Some e => if entEqual K V eqb e k then (s, false) else (insAt s it (k, v), true)
           | None => (insAt s it (k, v), true) end) = (insAt s (mlb K V lt s k) (k, v), true)).
        { cbn zeta. destruct (nth_error s (mlb K V lt s k)); [rewrite Hp|]; reflexivity. }
        cbn zeta in E. rewrite E. cbn [fst snd]. auto using fupd_upd, absf_ins.
    - unfold smIndex. destruct (mlb_cases s k HS) as [(w & Hw & Q)|(NI & Hp & INS)].
      + rewrite Hw. unfold entEqual. cbn [fst]. rewrite Q. cbn [fst snd].
        destruct (setAt_ok s f _ k v w HS A Hw) as [S1 S2]. exists (fupd f k v). auto using fupd_upd.
      + set (p := mlb K V lt s k) in *.
        assert (Pl : p <= length s).
        { destruct (nth_error s p) eqn:Ep; [|lia]. assert (p < length s) by (apply nth_error_Some; congruence). lia. }
        assert (E : match nth_error s p with
           | Some e => if entEqual K V eqb e k then (s, p) else (insAt s p (k, dflt), p)
           | None => (insAt s p (k, dflt), p) end = (insAt s p (k, dflt), p)).
        { destruct (nth_error s p); [rewrite Hp|]; reflexivity. }
        cbn zeta. rewrite E. cbn [fst snd].
        destruct (setAt_ok (insAt s p (k, dflt)) (fupd f k dflt) p k v dflt (INS dflt) (absf_ins _ _ _ _ _ A NI)) as [S1 S2].
        { rewrite nth_insAt by exact Pl. rewrite Nat.ltb_irrefl, Nat.eqb_refl. reflexivity. }
        exists (fupd (fupd f k dflt) k v). repeat split; auto.
        * apply fupd_upd.
        * intros k' N. rewrite (proj2 (fupd_upd (fupd f k dflt) k v) k' N). apply (proj2 (fupd_upd f k dflt)); exact N.
        * apply S2.
        * apply S2.
    - unfold smIndex. destruct (mlb_cases s k HS) as [(w & Hw & Q)|(NI & Hp & INS)].
      + rewrite Hw. unfold entEqual. cbn [fst]. rewrite Q. cbn [fst snd]. rewrite Hw. cbn [snd].
        rewrite (proj1 (A k w) (nth_error_In _ _ Hw)). exists f. auto using same_refl.
      + set (p := mlb K V lt s k) in *.
        assert (Pl : p <= length s).
        { destruct (nth_error s p) eqn:Ep; [|lia]. assert (p < length s) by (apply nth_error_Some; congruence). lia. }
        assert (E : match nth_error s p with
           | Some e => if entEqual K V eqb e k then (s, p) else (insAt s p (k, dflt), p)
           | None => (insAt s p (k, dflt), p) end = (insAt s p (k, dflt), p)).
        { destruct (nth_error s p); [rewrite Hp|]; reflexivity. }
        cbn zeta. rewrite E. cbn [fst snd]. rewrite nth_insAt by exact Pl. rewrite Nat.ltb_irrefl, Nat.eqb_refl. cbn [snd].
        rewrite (absf_none _ _ _ A NI). exists (fupd f k dflt). auto using fupd_upd, absf_ins.
    - exists f. cbn [fst snd]. split; [|auto]. split; [|apply same_refl]. f_equal. unfold smConst.
      destruct (mlb_cases s k HS) as [(w & Hw & Q)|(NI & Hp & INS)].
      + rewrite Hw. unfold entEqual. cbn [fst snd]. rewrite Q.
        rewrite (proj1 (A k w) (nth_error_In _ _ Hw)). reflexivity.
      + rewrite (absf_none _ _ _ A NI). destruct (nth_error s (mlb K V lt s k)); [rewrite Hp|]; reflexivity.
    - exists f. cbn [fst snd]. split; [|auto]. split; [|apply same_refl]. f_equal. unfold smFind.
      destruct (mlb_cases s k HS) as [(w & Hw & Q)|(NI & Hp & INS)].
      + rewrite Hw. unfold entEqual. cbn [fst snd]. rewrite Q.
        rewrite (proj1 (A k w) (nth_error_In _ _ Hw)). exact Hw.
      + rewrite (absf_none _ _ _ A NI). destruct (nth_error s (mlb K V lt s k)) eqn:Ep; [rewrite Hp|].
        * apply nth_error_None. lia.
        * exact Ep.
    - exists f. cbn [fst snd]. split; [|auto]. split; [|apply same_refl]. exists s. auto using sorted_lists.
    - exists f. cbn [fst snd]. split; [|auto]. split; [|apply same_refl]. eexists. split; [reflexivity|].
      destruct s as [|[k v] s].
      + split; [intros _ k|reflexivity]. apply (absf_none [] f k A). intros v [].
      + split; [discriminate|]. intros H.
        specialize (H k). rewrite (proj1 (A k v) (or_introl eq_refl)) in H. discriminate.
    - exists f. cbn [fst snd]. split; [|auto]. split; [|apply same_refl]. exists s. auto using sorted_lists.
    - exists (fun _ => None). cbn [fst snd]. repeat split; auto.
      + intros [|i] j a b H; discriminate.
      + intros [].
      + discriminate.
  Qed.
  Lemma mrun_ok : forall os s f, sorted s -> absf s f ->
    exists f', mhist K V lt dflt f os (snd (mrun K V lt eqb dflt s os)) f'
      /\ sorted (fst (mrun K V lt eqb dflt s os)) /\ absf (fst (mrun K V lt eqb dflt s os)) f'.
  Proof.
    intros os. induction os as [|o os IH]; intros s f HS A.
    - exists f. cbn. repeat split; auto; try apply A. constructor. apply same_refl.
    - cbn [mrun]. destruct (mstep_ok s f o HS A) as (f1 & M & S1 & A1).
      destruct (mstep K V lt eqb dflt s o) as [s1 r]. cbn [fst snd] in *.
      destruct (IH s1 f1 S1 A1) as (f2 & M2 & S2 & A2).
      destruct (mrun K V lt eqb dflt s1 os) as [s2 rs]. cbn [fst snd] in *.
      exists f2. split; [econstructor; eauto|auto].
  Qed.
End MapP.

(** ** Sets *)
Section SetP.
  Variables (K : Type) (lt eqb : K -> K -> bool).
  Hypothesis TO : total_order lt eqb.
  Definition ssorted (s : list K) : Prop :=
    forall i j a b, nth_error s i = Some a -> nth_error s j = Some b -> i < j -> lt a b = true.
  Lemma ssorted_parted : forall s k, ssorted s -> parted _ _ lt s k.
  Proof. intros s k HS i j a b Ha Hb Hij H. eapply (to_trans _ _ TO); [eapply HS; eauto|exact H]. Qed.
  Lemma setEqual_ok : forall a b, setEqual K lt a b = true <-> a = b.
  Proof.
    intros a b. unfold setEqual. destruct (to_total _ _ TO a b) as [H|[H|H]].
    - rewrite H. cbn. split; [discriminate|]. intros ->. rewrite (to_irrefl _ _ TO) in H. discriminate.
    - subst. rewrite !(to_irrefl _ _ TO). cbn. tauto.
    - rewrite H. rewrite andb_false_r. split; [discriminate|]. intros ->. rewrite (to_irrefl _ _ TO) in H. discriminate.
  Qed.
  Lemma slb_cases : forall s k, ssorted s ->
    (nth_error s (slb K lt s k) = Some k)
    \/ (~ In k s
        /\ (match nth_error s (slb K lt s k) with Some e => setEqual K lt e k = false /\ lt k e = true | None => slb K lt s k = length s end)
        /\ ssorted (insAt s (slb K lt s k) k)).
  Proof.
    intros s k HS. pose proof (lowerBound_ok _ _ lt s k (ssorted_parted s k HS)) as L. cbn zeta in L.
    unfold slb. set (p := lowerBound K K lt s k) in *. clearbody p.
    destruct L as (L1 & L2 & L3).
    assert (INS : ~ In k s -> ssorted (insAt s p k)).
    { intros NI i j a b Hi Hj Hij.
      rewrite nth_insAt in Hi by exact L1. rewrite nth_insAt in Hj by exact L1.
      destruct (i <? p) eqn:C1; [apply Nat.ltb_lt in C1|apply Nat.ltb_ge in C1];
      (destruct (j <? p) eqn:C2; [apply Nat.ltb_lt in C2|apply Nat.ltb_ge in C2]); try lia.
      - eapply HS; eauto.
      - destruct (j =? p) eqn:C3.
        + injection Hj as <-. apply (L2 _ _ Hi C1).
        + apply Nat.eqb_neq in C3. eapply HS; [exact Hi|exact Hj|lia].
      - destruct (j =? p) eqn:C3; [apply Nat.eqb_eq in C3; lia|]. apply Nat.eqb_neq in C3.
        destruct (i =? p) eqn:C4.
        + injection Hi as <-.
          pose proof (L3 _ _ Hj ltac:(lia)) as C.
          destruct (to_total _ _ TO k b) as [H|[H|H]]; [exact H| |congruence].
          exfalso. apply NI. rewrite H. eapply nth_error_In; eauto.
        + apply Nat.eqb_neq in C4. eapply HS; [exact Hi|exact Hj|lia]. }
    assert (NIN : forall i, nth_error s i = Some k -> p <= i).
    { intros i Hi. destruct (le_lt_dec p i) as [H|H]; [exact H|exfalso].
      pose proof (L2 _ _ Hi H) as C. rewrite (to_irrefl _ _ TO) in C. discriminate. }
    destruct (nth_error s p) as [k'|] eqn:Ep.
    - destruct (to_total _ _ TO k' k) as [H|[H|H]].
      + rewrite (L3 _ _ Ep (le_n p)) in H. discriminate.
      + left. congruence.
      + right. assert (NI : ~ In k s).
        { intros Hin. apply In_nth_error in Hin. destruct Hin as [i Hi].
          pose proof (NIN _ Hi) as Hle. destruct (Nat.eq_dec i p) as [->|Hne].
          - rewrite Ep in Hi. injection Hi as ->. rewrite (to_irrefl _ _ TO) in H. discriminate.
          - pose proof (HS _ _ _ _ Ep Hi ltac:(lia)) as C.
            rewrite (L3 _ _ Ep (le_n p) : lt k' k = false) in C. discriminate. }
        split; [exact NI|]. split; [|auto]. split; [|exact H].
        destruct (setEqual K lt k' k) eqn:Q; [|reflexivity]. apply setEqual_ok in Q. subst. rewrite (to_irrefl _ _ TO) in H. discriminate.
    - right. assert (NI : ~ In k s).
      { intros Hin. apply In_nth_error in Hin. destruct Hin as [i Hi].
        pose proof (NIN _ Hi) as Hle. apply nth_error_None in Ep.
        assert (i < length s) by (apply nth_error_Some; congruence). lia. }
      split; [exact NI|]. split; [|auto]. apply nth_error_None in Ep. lia.
  Qed.
  Lemma delAt_ok : forall s k i, ssorted s -> nth_error s i = Some k ->
    ssorted (delAt s i) /\ forall x, In x (delAt s i) <-> x <> k /\ In x s.
  Proof.
    intros s k i HS Hi. unfold delAt. destruct (split_at _ _ _ _ Hi) as [Hs Hl].
    assert (Hn : forall j, nth_error (firstn i s ++ skipn (S i) s) j = nth_error s (if j <? i then j else S j)).
    { intros j. rewrite Hs at 3. destruct (j <? i) eqn:C; [apply Nat.ltb_lt in C|apply Nat.ltb_ge in C].
      - rewrite !nth_error_app1 by lia. reflexivity.
      - rewrite !nth_error_app2 by lia. rewrite Hl. replace (S j - i) with (S (j - i)) by lia. reflexivity. }
    split.
    - intros a b x y Hx Hy Hab. rewrite Hn in Hx, Hy. eapply HS; [exact Hx|exact Hy|].
      destruct (Nat.ltb_spec a i); destruct (Nat.ltb_spec b i); lia.
    - intros x. split.
      + intros Hin. apply In_nth_error in Hin. destruct Hin as [j Hj]. rewrite Hn in Hj.
        split; [|eapply nth_error_In; eauto]. intros ->.
        destruct (j <? i) eqn:C; [apply Nat.ltb_lt in C|apply Nat.ltb_ge in C].
        * pose proof (HS _ _ _ _ Hj Hi C) as Q. rewrite (to_irrefl _ _ TO) in Q. discriminate.
        * pose proof (HS _ _ _ _ Hi Hj ltac:(lia)) as Q. rewrite (to_irrefl _ _ TO) in Q. discriminate.
      + intros [NE Hin]. rewrite Hs in Hin. apply in_app_iff in Hin. apply in_app_iff.
        destruct Hin as [H|[H|H]]; [auto|congruence|auto].
  Qed.
  Lemma sstep_ok : forall s f o, ssorted s -> (forall k, In k s <-> f k) ->
    exists f', sspec K lt f o (snd (sstep K lt s o)) f'
      /\ ssorted (fst (sstep K lt s o)) /\ (forall k, In k (fst (sstep K lt s o)) <-> f' k).
  Proof.
    intros s f o HS A. destruct o as [k|k|k|k| | |]; cbn [sstep sspec].
    - unfold ssInsert. destruct (slb_cases s k HS) as [Hw|(NI & Hp & INS)].
      + rewrite Hw. replace (setEqual K lt k k) with true by (symmetry; apply setEqual_ok; reflexivity).
        assert (FK : f k) by (apply A; eapply nth_error_In; eauto).
        cbn [fst snd]. exists f. split; [split|auto].
        * exists false. split; [reflexivity|]. split; [discriminate|]. intros C. elim (C FK).
        * intros k'. split; [auto|]. intros [->|H]; auto.
      + exists (fun x => x = k \/ f x).
        assert (E : match nth_error s (slb K lt s k) with
           | Some e => if setEqual K lt e k then (s, false) else (insAt s (slb K lt s k) k, true)
           | None => (insAt s (slb K lt s k) k, true) end = (insAt s (slb K lt s k) k, true)).
        { destruct (nth_error s (slb K lt s k)); [destruct Hp as [Hp _]; rewrite Hp|]; reflexivity. }
        cbn zeta. rewrite E. cbn [fst snd]. split; [split|split].
        * exists true. split; [reflexivity|]. split; [|reflexivity]. intros _ C. apply NI. apply A. exact C.
        * tauto.
        * exact INS.
        * intros x. rewrite in_insAt. rewrite (A x). tauto.
    - unfold ssErase, ssFind. destruct (slb_cases s k HS) as [Hw|(NI & Hp & INS)].
      + rewrite Hw. replace (setEqual K lt k k) with true by (symmetry; apply setEqual_ok; reflexivity).
        cbn zeta. rewrite Hw. cbn [fst snd].
        assert (FK : f k) by (apply A; eapply nth_error_In; eauto).
        destruct (delAt_ok s k _ HS Hw) as [D1 D2]. exists (fun x => x <> k /\ f x). split; [split|split].
        * exists 1. split; [reflexivity|]. split; [reflexivity|]. intros C; elim (C FK).
        * tauto.
        * exact D1.
        * intros x. rewrite D2, (A x). tauto.
      + assert (NF : ~ f k) by (intros C; apply NI; apply A; exact C).
        assert (E : nth_error s (match nth_error s (slb K lt s k) with
           | Some e => if setEqual K lt e k then slb K lt s k else length s
           | None => slb K lt s k end) = None).
        { destruct (nth_error s (slb K lt s k)) eqn:Ep; [destruct Hp as [Hp _]; rewrite Hp; apply nth_error_None; lia|exact Ep]. }
        cbn zeta. rewrite E. cbn [fst snd]. exists f. split; [split|auto].
        * exists 0. split; [reflexivity|]. split; [intros C; elim (NF C)|reflexivity].
        * intros x. split; [|tauto]. intros H; split; [|exact H]. intros ->. auto.
    - exists f. cbn [fst snd]. split; [split|auto]; [|intros x; tauto].
      eexists; split; [reflexivity|]. unfold ssContains. destruct (slb_cases s k HS) as [Hw|(NI & Hp & INS)].
      + rewrite Hw. rewrite (to_irrefl _ _ TO). cbn. split; [intros _; apply A; eapply nth_error_In; eauto|reflexivity].
      + destruct (nth_error s (slb K lt s k)) eqn:Ep.
        * destruct Hp as [_ Hp]; rewrite Hp. cbn. split; [discriminate|]. intros C. elim NI. apply A. exact C.
        * split; [discriminate|]. intros C. elim NI. apply A. exact C.
    - exists f. cbn [fst snd]. split; [split|auto]; [|intros x; tauto].
      eexists; split; [reflexivity|]. unfold ssFind. destruct (slb_cases s k HS) as [Hw|(NI & Hp & INS)].
      + rewrite Hw. replace (setEqual K lt k k) with true by (symmetry; apply setEqual_ok; reflexivity).
        cbn zeta. split; [intros _; exact Hw|]. intros C. elim C. apply A. eapply nth_error_In; eauto.
      + cbn zeta. split; [intros C; elim NI; apply A; exact C|]. intros _.
        destruct (nth_error s (slb K lt s k)) eqn:Ep; [destruct Hp as [Hp _]; rewrite Hp; apply nth_error_None; lia|exact Ep].
    - exists f. cbn [fst snd]. split; [split|auto]; [|intros x; tauto]. exists s. split; [split; assumption|reflexivity].
    - exists f. cbn [fst snd]. split; [split|auto]; [|intros x; tauto]. exists s. split; [split; assumption|reflexivity].
    - exists (fun _ => False). cbn [fst snd]. split; [split; [reflexivity|tauto]|]. split; [|intros x; cbn; tauto].
      intros [|i] j a b H; discriminate.
  Qed.
  Lemma srun_ok : forall os s f, ssorted s -> (forall k, In k s <-> f k) ->
    exists f', shist K lt f os (snd (srun K lt s os)) f'
      /\ ssorted (fst (srun K lt s os)) /\ (forall k, In k (fst (srun K lt s os)) <-> f' k).
  Proof.
    intros os. induction os as [|o os IH]; intros s f HS A.
    - exists f. cbn. repeat split; auto; try apply A. constructor. intros x; tauto.
    - cbn [srun]. destruct (sstep_ok s f o HS A) as (f1 & M & S1 & A1).
      destruct (sstep K lt s o) as [s1 r]. cbn [fst snd] in *.
      destruct (IH s1 f1 S1 A1) as (f2 & M2 & S2 & A2).
      destruct (srun K lt s1 os) as [s2 rs]. cbn [fst snd] in *.
      exists f2. split; [econstructor; eauto|auto].
  Qed.
End SetP.

(** ** The comparators in use *)
Lemma strLt_total : total_order strLt strEq.
Proof.
  split.
  - induction a as [|x a IH]; cbn [strLt strEq]; [reflexivity|]. rewrite Nat.ltb_irrefl, Nat.eqb_refl. exact IH.
  - induction a as [|x a IH]; intros [|y b] [|z c] H1 H2; cbn [strLt strEq] in *; try discriminate; try reflexivity.
    apply orb_true_iff in H1, H2. apply orb_true_iff.
    destruct H1 as [H1|H1]; destruct H2 as [H2|H2];
      try (apply Nat.ltb_lt in H1); try (apply Nat.ltb_lt in H2);
      try (apply andb_true_iff in H1; destruct H1 as [H1 H1']; apply Nat.eqb_eq in H1);
      try (apply andb_true_iff in H2; destruct H2 as [H2 H2']; apply Nat.eqb_eq in H2).
    + left. apply Nat.ltb_lt. lia.
    + left. apply Nat.ltb_lt. lia.
    + left. apply Nat.ltb_lt. lia.
    + right. apply andb_true_iff. split; [apply Nat.eqb_eq; lia|]. eapply IH; eauto.
  - induction a as [|x a IH]; intros [|y b]; cbn [strLt strEq]; auto.
    destruct (lt_eq_lt_dec x y) as [[H|H]|H].
    + left. apply orb_true_iff. left. apply Nat.ltb_lt. exact H.
    + subst y. rewrite Nat.ltb_irrefl, Nat.eqb_refl. cbn. destruct (IH b) as [Q|[Q|Q]]; auto. subst. auto.
    + right; right. apply orb_true_iff. left. apply Nat.ltb_lt. exact H.
  - induction a as [|x a IH]; intros [|y b]; cbn [strLt strEq]; try (split; [discriminate|congruence]); try tauto.
    rewrite andb_true_iff, Nat.eqb_eq, IH. split; [intros [-> ->]; reflexivity|]. intros H; injection H; auto.
Qed.

(** ** Theorems *)
(** Every sequence of operations on a new map, over any strict total order on keys, gives the results
    a finite map gives. *)
Theorem C56_map_refines : forall (K V : Type) (lt eqb : K -> K -> bool) (dflt : V) (os : list (mop K V)),
  total_order lt eqb ->
  exists f', mhist K V lt dflt (fun _ => None) os (snd (mrun K V lt eqb dflt [] os)) f'.
Proof.
  intros K V lt eqb dflt os TO.
  destruct (mrun_ok K V lt eqb dflt TO os [] (fun _ => None)) as (f' & H & _).
  - intros [|i] j a b H; discriminate.
  - intros k v. split; [intros []|discriminate].
  - exists f'. exact H.
Qed.
Theorem C56_set_refines : forall (K : Type) (lt eqb : K -> K -> bool) (os : list (sop K)),
  total_order lt eqb ->
  exists f', shist K lt (fun _ => False) os (snd (srun K lt [] os)) f'.
Proof.
  intros K lt eqb os TO.
  destruct (srun_ok K lt eqb TO os [] (fun _ => False)) as (f' & H & _).
  - intros [|i] j a b H; discriminate.
  - intros k. cbn. tauto.
  - exists f'. exact H.
Qed.
(** The keys in use: C strings and std::string. *)
Theorem C56_string_keys : total_order strLt strEq.
Proof. exact strLt_total. Qed.
(** Two maps with the same contents are iterated in the same order, whatever the order of insertion. *)
Theorem C56_iteration_canonical : forall (K V : Type) (lt eqb : K -> K -> bool) (f : K -> option V) l1 l2,
  total_order lt eqb -> lists K V lt f l1 -> lists K V lt f l2 -> l1 = l2.
Proof.
  intros K V lt eqb f l1 l2 TO. revert f l2. induction l1 as [|a l1 IH]; intros f l2 [A1 S1] [A2 S2].
  - destruct l2 as [|[k v] l2]; [reflexivity|]. exfalso.
    apply (proj2 (A1 k v)). apply A2. left; reflexivity.
  - destruct l2 as [|b l2].
    { exfalso. destruct a as [k v]. apply (proj2 (A2 k v)). apply A1. left; reflexivity. }
    assert (HD : forall (x : K * V) l, In x l ->
      (forall i j p q, nth_error l i = Some p -> nth_error l j = Some q -> i < j -> lt (fst p) (fst q) = true) ->
      forall y l', l = y :: l' -> x = y \/ lt (fst y) (fst x) = true).
    { intros x l Hx HS y l' ->. apply In_nth_error in Hx. destruct Hx as [[|i] Hi].
      - left. cbn in Hi. congruence.
      - right. apply (HS 0 (S i) y x); auto. lia. }
    assert (Ha : In a (b :: l2)). { destruct a as [k v]. apply A2. apply A1. left; reflexivity. }
    assert (Hb : In b (a :: l1)). { destruct b as [k v]. apply A1. apply A2. left; reflexivity. }
    assert (a = b).
    { destruct (HD a _ Ha S2 b l2 eq_refl) as [H|H]; [exact H|].
      destruct (HD b _ Hb S1 a l1 eq_refl) as [H'|H']; [congruence|].
      pose proof (to_trans _ _ TO _ _ _ H H') as C. rewrite (to_irrefl _ _ TO) in C. discriminate. }
    subst b. f_equal.
    assert (N : forall l, (forall i j p q, nth_error (a :: l) i = Some p -> nth_error (a :: l) j = Some q -> i < j -> lt (fst p) (fst q) = true) ->
      forall x, In x l -> fst x <> fst a).
    { intros l HS x Hx E. apply In_nth_error in Hx. destruct Hx as [i Hi].
      pose proof (HS 0 (S i) a x eq_refl Hi ltac:(lia)) as C. rewrite E, (to_irrefl _ _ TO) in C. discriminate. }
    apply (IH (fun k => if eqb k (fst a) then None else f k)).
    + split.
      * intros k v. split.
        -- intros H. pose proof (N l1 S1 _ H) as NE. cbn [fst] in NE.
           destruct (eqb k (fst a)) eqn:Q; [apply (to_eq _ _ TO) in Q; contradiction|]. apply A1. right; exact H.
        -- destruct (eqb k (fst a)) eqn:Q; [discriminate|]. intros H. apply A1 in H. destruct H as [H|H]; [|exact H].
           subst a. cbn [fst] in Q. rewrite (proj2 (to_eq _ _ TO k k) eq_refl) in Q. discriminate.
      * intros i j p q Hp Hq Hij. apply (S1 (S i) (S j) p q Hp Hq). lia.
    + split.
      * intros k v. split.
        -- intros H. pose proof (N l2 S2 _ H) as NE. cbn [fst] in NE.
           destruct (eqb k (fst a)) eqn:Q; [apply (to_eq _ _ TO) in Q; contradiction|]. apply A2. right; exact H.
        -- destruct (eqb k (fst a)) eqn:Q; [discriminate|]. intros H. apply A2 in H. destruct H as [H|H]; [|exact H].
           subst a. cbn [fst] in Q. rewrite (proj2 (to_eq _ _ TO k k) eq_refl) in Q. discriminate.
      * intros i j p q Hp Hq Hij. apply (S2 (S i) (S j) p q Hp Hq). lia.
Qed.
(** A concrete history over string keys ("b", "a", "ab"). *)
Theorem C56_example :
  snd (mrun (list nat) nat strLt strEq 0 [] [MInsert _ _ [98] 1; MInsert _ _ [97] 2; MInsert _ _ [98] 3; MIndex _ _ [97; 98]; MAssign _ _ [97] 7; MFind _ _ [97]; MFind _ _ [99]; MConst _ _ [99]; MSize _ _; MIter _ _])
  = [OBool _ _ true; OBool _ _ true; OBool _ _ false; OVal _ _ 0; OUnit _ _; OFind _ _ (Some ([97], 7)); OFind _ _ None; OVal _ _ 0;
     ONum _ _ 3; OList _ _ [([97], 7); ([97; 98], 0); ([98], 1)]]
  /\ snd (srun nat Nat.ltb [] [SInsert _ 5; SInsert _ 2; SInsert _ 5; SErase _ 5; SErase _ 5; SContains _ 2; SFind _ 5; SIter _])
  = [PBool _ true; PBool _ true; PBool _ false; PNum _ 1; PNum _ 0; PBool _ true; PFind _ None; PList _ [2]].
Proof. vm_compute. split; reflexivity. Qed.

(** Assumptions *)
Print Assumptions C56_map_refines.
Print Assumptions C56_set_refines.
Print Assumptions C56_string_keys.
Print Assumptions C56_iteration_canonical.
Print Assumptions C56_example.
