(** Refinement of the pointer-level queue operations by list operations. *)
From Verif Require Export QueueSpec.

Fixpoint seg (h : heap) (p : option nat) (l : list nat) (e : option nat) : Prop :=
  match l with
  | [] => p = e
  | x :: l' => p = Some x /\ seg h (h x) l' e
  end.

Lemma chain_seg h l : forall p, chain h p l <-> seg h p l None.
Proof. induction l; simpl; intros; [tauto|]. rewrite IHl. tauto. Qed.
Lemma seg_app h l1 l2 : forall p e, seg h p (l1 ++ l2) e <-> exists r, seg h p l1 r /\ seg h r l2 e.
Proof.
  induction l1; simpl; intros.
  - split; [eauto|]. intros (r & -> & H); auto.
  - rewrite IHl1. split.
    + intros (-> & r & H1 & H2). eauto.
    + intros (r & (-> & H1) & H2). eauto.
Qed.
Lemma seg_frame h h' l : forall p e, (forall x, In x l -> h' x = h x) -> seg h p l e -> seg h' p l e.
Proof.
  induction l; simpl; intros; auto. destruct H0. split; auto. rewrite H; auto.
Qed.
Lemma hset_same h x v : hset h x v x = v.
Proof. unfold hset. now rewrite Nat.eqb_refl. Qed.
Lemma hset_other h x v y : y <> x -> hset h x v y = h y.
Proof. intros. unfold hset. apply Nat.eqb_neq in H. now rewrite H. Qed.

Definition lastOr (prev : option nat) (l : list nat) : option nat :=
  match rev l with [] => prev | x :: _ => Some x end.
Definition cellOr (c : cell) (l : list nat) : cell :=
  match rev l with [] => c | x :: _ => CNext x end.
Lemma lastOr_cons prev x l : lastOr prev (x :: l) = lastOr (Some x) l.
Proof. unfold lastOr. simpl. destruct (rev l); auto. Qed.
Lemma cellOr_cons c x l : cellOr c (x :: l) = cellOr (CNext x) l.
Proof. unfold cellOr. simpl. destruct (rev l); auto. Qed.

Lemma seek_spec p h l : forall fuel prev c cur,
  seg h cur l None -> length l <= fuel ->
  (exists l1 x l2, l = l1 ++ x :: l2 /\ (forall y, In y l1 -> p y = false) /\ p x = true /\
     seek fuel h p prev c cur = Ok (Some (lastOr prev l1, cellOr c l1, x))) \/
  ((forall y, In y l -> p y = false) /\ seek fuel h p prev c cur = Ok None).
Proof.
  induction l as [|a l IH]; intros fuel prev c cur S L.
  - simpl in S. subst. right. split; [intros ? []|]. destruct fuel; auto.
  - destruct S as [-> S]. destruct fuel as [|f]; [simpl in L; lia|]. simpl.
    destruct (p a) eqn:E.
    + left. exists [], a, l. repeat split; auto. intros ? [].
    + destruct (IH f (Some a) (CNext a) (h a) S) as [(l1 & x & l2 & -> & F & T & K)|(F & K)]; [simpl in L; lia| |].
      * left. exists (a :: l1), x, l2. repeat split; auto.
        -- intros y [<-|I]; auto.
        -- rewrite K, lastOr_cons, cellOr_cons. auto.
      * right. split; auto. intros y [<-|I]; auto.
Qed.

Lemma drop1_app p l1 x l2 : (forall y, In y l1 -> p y = false) -> p x = true -> drop1 p (l1 ++ x :: l2) = l1 ++ l2.
Proof. induction l1; simpl; intros. now rewrite H0. rewrite (H a); auto. now rewrite IHl1; auto. Qed.
Lemma drop1_none p l : (forall y, In y l -> p y = false) -> drop1 p l = l.
Proof. induction l; simpl; intros; auto. rewrite H; auto. now rewrite IHl; auto. Qed.
Lemma ins_app lt x l1 y l2 : (forall z, In z l1 -> lt x z = false) -> lt x y = true -> ins lt x (l1 ++ y :: l2) = l1 ++ x :: y :: l2.
Proof. induction l1; simpl; intros. now rewrite H0. rewrite (H a); auto. now rewrite IHl1; auto. Qed.
Lemma ins_none lt x l : (forall y, In y l -> lt x y = false) -> ins lt x l = l ++ [x].
Proof. induction l; simpl; intros; auto. rewrite H; auto. now rewrite IHl; auto. Qed.

(** The last element determines everything about the end. *)
Lemma rev_cases (l : list nat) : l = [] \/ exists l' y, l = l' ++ [y].
Proof. destruct l using rev_ind; eauto. Qed.
Lemma lastOr_app prev l y : lastOr prev (l ++ [y]) = Some y.
Proof. unfold lastOr. now rewrite rev_app_distr. Qed.
Lemma cellOr_app c l y : cellOr c (l ++ [y]) = CNext y.
Proof. unfold cellOr. now rewrite rev_app_distr. Qed.

Record QR (h : heap) (q : lq) (l : list nat) : Prop := {
  qr_seg : seg h (q_head q) l None; qr_tail : q_tail q = lastOr None l; qr_count : q_count q = length l }.
Lemma QR_repr h q l : QR h q l <-> repr h q l.
Proof.
  split; intros []; constructor; auto.
  - now apply chain_seg.
  - now apply chain_seg.
Qed.
Lemma QR_frame h h' q l : (forall x, In x l -> h' x = h x) -> QR h q l -> QR h' q l.
Proof. intros F []; constructor; auto. eapply seg_frame; eauto. Qed.

Lemma NoDup_mid {A} (l1 : list A) x l2 : NoDup (l1 ++ x :: l2) -> ~ In x l1 /\ ~ In x l2.
Proof. intros N. apply NoDup_remove_2 in N. rewrite in_app_iff in N. tauto. Qed.

(** Cutting one item out. *)
Lemma cut_spec h q l1 x l2 :
  NoDup (l1 ++ x :: l2) -> QR h q (l1 ++ x :: l2) ->
  let '(h1, q1) := store h q (cellOr CHead l1) (h x) in
  let t := if oeqb (Some x) (q_tail q1) then lastOr None l1 else q_tail q1 in
  QR (hset h1 x None) (mkQ (q_head q1) t (pred (q_count q1))) (l1 ++ l2) /\
  (forall y, ~ In y (l1 ++ x :: l2) -> hset h1 x None y = h y).
Proof.
  intros N [S T C].
  apply seg_app in S as (r & S1 & S2). destruct S2 as [-> S2].
  pose proof (NoDup_mid _ _ _ N) as [X1 X2].
  assert (TL : (if oeqb (Some x) (q_tail q) then lastOr None l1 else q_tail q) = lastOr None (l1 ++ l2)).
  { rewrite T. destruct (rev_cases l2) as [->|(l3 & z & ->)].
    - rewrite lastOr_app, app_nil_r. simpl. rewrite Nat.eqb_refl. auto.
    - rewrite app_comm_cons, !app_assoc, !lastOr_app. simpl.
      destruct (Nat.eqb_spec x z); auto. exfalso. subst. apply X2. apply in_or_app. right. now left. }
  assert (CL : pred (q_count q) = length (l1 ++ l2)).
  { rewrite C, !app_length. simpl. lia. }
  destruct (rev_cases l1) as [->|(l3 & y & ->)].
  - cbn [cellOr rev store]. simpl in S1. unfold cellOr. cbn [rev store q_head q_tail q_count]. split.
    + constructor; cbn [q_head q_tail q_count]; auto.
      simpl. eapply seg_frame; [|apply S2]. intros z Z. apply hset_other. congruence.
    + intros z Z. apply hset_other. intros ->. apply Z. simpl. auto.
  - rewrite cellOr_app. cbn [store q_head q_tail q_count]. split.
    + constructor; cbn [q_head q_tail q_count]; auto.
      rewrite <- app_assoc in N. pose proof (NoDup_mid _ _ _ N) as [Y1 Y2]. cbn [app] in Y2.
      assert (XY : x <> y) by (intros ->; apply Y2; now left).
      rewrite <- app_assoc. apply seg_app in S1 as (r & S1 & S3).
      apply seg_app. exists r. split.
      * eapply seg_frame; [|apply S1]. intros z Z. rewrite !hset_other; auto.
        -- intros ->. contradiction.
        -- intros ->. apply X1. apply in_or_app. now left.
      * destruct S3 as [-> S3]. simpl. split; auto.
        rewrite hset_other, hset_same; auto.
        eapply seg_frame; [|apply S2]. intros z Z. rewrite !hset_other; auto.
        -- intros ->. apply Y2. now right.
        -- congruence.
    + intros z Z. rewrite !hset_other; auto.
      * intros ->. apply Z. apply in_or_app. left. apply in_or_app. right. now left.
      * intros ->. apply Z. apply in_or_app. right. now left.
Qed.

Lemma remove_if_spec fuel h q l p :
  NoDup l -> QR h q l -> length l <= fuel ->
  exists h' q' r, remove_if fuel h q p = Ok (h', q', r) /\ QR h' q' (drop1 p l) /\
    (forall y, ~ In y l -> h' y = h y) /\
    match r with
    | None => h' = h /\ q' = q /\ forall y, In y l -> p y = false
    | Some x => exists l1 l2, l = l1 ++ x :: l2 /\ p x = true /\ (forall y, In y l1 -> p y = false) /\ h' x = None
    end.
Proof.
  intros N R L. unfold remove_if.
  destruct (seek_spec p h l fuel None CHead (q_head q) (qr_seg _ _ _ R) L)
    as [(l1 & x & l2 & -> & F & T & ->)|(F & ->)].
  - pose proof (cut_spec h q l1 x l2 N R) as K.
    destruct (store h q (cellOr CHead l1) (h x)) as [h1 q1]. destruct K as [K1 K2].
    eexists _, _, _. split; [reflexivity|]. rewrite drop1_app; auto.
    split; [exact K1|]. split; auto. exists l1, l2. rewrite hset_same. auto.
  - exists h, q, None. rewrite drop1_none; auto 7.
Qed.

Lemma push_spec h q l x :
  QR h q l -> ~ In x l -> NoDup l -> h x = None ->
  exists h' q', push h q x = Ok (h', q') /\ QR h' q' (l ++ [x]) /\ (forall y, ~ In y (l ++ [x]) -> h' y = h y).
Proof.
  intros [S T C] X N E. unfold push. rewrite E. unfold isEmpty.
  destruct (rev_cases l) as [->|(l1 & t & ->)].
  - simpl in S. rewrite S. eexists _, _. split; [reflexivity|]. split.
    + constructor; simpl; rewrite ?hset_same, ?C; auto.
    + intros y Y. apply hset_other. intros ->. apply Y. now left.
  - rewrite lastOr_app in T. rewrite T.
    assert (H : exists a, q_head q = Some a).
    { destruct l1; destruct S as [S _]; eauto. }
    destruct H as [a H]. rewrite H.
    pose proof (NoDup_mid _ _ _ N) as [Y1 _].
    assert (XT : x <> t) by (intros ->; apply X, in_or_app; right; now left).
    eexists _, _. split; [reflexivity|]. split.
    + constructor; cbn [q_head q_tail q_count].
      * rewrite <- H. apply seg_app in S as (r & S1 & S2).
        rewrite <- app_assoc. apply seg_app. exists r. split.
        -- eapply seg_frame; [|apply S1]. intros z Z. rewrite !hset_other; auto.
           ++ intros ->. apply X, in_or_app. now left.
           ++ intros ->. contradiction.
        -- destruct S2 as [-> S2]. simpl. rewrite hset_same. split; auto. split; auto.
           rewrite hset_other, hset_same; auto.
      * now rewrite lastOr_app.
      * rewrite C, !app_length. simpl. lia.
    + intros y Y. rewrite !in_app_iff in Y. rewrite !hset_other; auto.
      * intros ->. apply Y. simpl. auto.
      * intros ->. apply Y. simpl. auto.
Qed.

Lemma insert_spec lt fuel h q l x :
  QR h q l -> ~ In x l -> NoDup l -> h x = None -> length l <= fuel ->
  exists h' q', insert lt fuel h q x = Ok (h', q') /\ QR h' q' (ins lt x l) /\
    (forall y, ~ In y (x :: l) -> h' y = h y).
Proof.
  intros R X N E L. destruct l as [|a l].
  - unfold insert. pose proof (qr_seg _ _ _ R) as S. simpl in S. rewrite S.
    destruct (push_spec h q [] x R X N E) as (h' & q' & K1 & K2 & K3). exists h', q'. auto.
  - pose proof (qr_seg _ _ _ R) as [S0 _]. unfold insert. rewrite S0. rewrite <- S0.
    destruct (seek_spec (fun c => lt x c) h (a :: l) fuel None CHead (q_head q) (qr_seg _ _ _ R) L)
      as [(l1 & y & l2 & EL & F & T & ->)|(F & ->)].
    + rewrite EL in *. clear EL S0 a l. rewrite ins_app; auto.
      destruct R as [S TT C]. apply seg_app in S as (r & S1 & S2).
      assert (XY : x <> y) by (intros ->; apply X, in_or_app; right; now left).
      assert (S2' : seg (hset h x (Some y)) (Some x) (x :: y :: l2) None).
      { destruct S2 as [_ S2]. simpl. rewrite hset_same. repeat split.
        rewrite hset_other by congruence. eapply seg_frame; [|apply S2].
        intros z Z. apply hset_other. intros ->. apply X, in_or_app. right. now right. }
      assert (TL : q_tail q = lastOr None (l1 ++ x :: y :: l2)).
      { rewrite TT. destruct (rev_cases (y :: l2)) as [H|(l3 & z & ->)]; [discriminate|].
        rewrite app_comm_cons, !app_assoc, !lastOr_app. auto. }
      assert (CL : S (q_count q) = length (l1 ++ x :: y :: l2)).
      { rewrite C, !app_length. simpl. lia. }
      destruct (rev_cases l1) as [->|(l3 & w & ->)].
      * unfold cellOr. simpl. eexists _, _. split; [reflexivity|]. split.
        -- constructor; auto.
        -- intros z Z. apply hset_other. intros ->. apply Z. now left.
      * rewrite cellOr_app. cbn [store q_head q_tail q_count]. eexists _, _. split; [reflexivity|].
        rewrite <- app_assoc in N. pose proof (NoDup_mid _ _ _ N) as [Y1 Y2].
        assert (XW : x <> w) by (intros ->; apply X; rewrite !in_app_iff; left; right; now left).
        split.
        -- constructor; auto. cbn [q_head]. rewrite <- app_assoc.
           apply seg_app in S1 as (r1 & S1 & S3). apply seg_app. exists r1. split.
           ++ eapply seg_frame; [|apply S1]. intros z Z. rewrite !hset_other; auto.
              ** intros ->. apply X. rewrite !in_app_iff. auto.
              ** intros ->. contradiction.
           ++ destruct S3 as [-> _]. cbn [app]. split; auto. rewrite hset_same.
              eapply (seg_frame _ _ (x :: y :: l2)); [|apply S2']. intros z [<-|Z]; apply hset_other; auto.
              intros ->. apply Y2. exact Z.
        -- intros z Z. cbn [In] in Z. rewrite !in_app_iff in Z. rewrite !hset_other; auto.
           intros ->. apply Z. right. left. right. now left.
    + rewrite ins_none; auto.
      destruct (push_spec h q (a :: l) x R X N E) as (h' & q' & K1 & K2 & K3).
      exists h', q'. unfold push in K1. rewrite E in K1. unfold isEmpty in K1. rewrite S0 in K1.
      destruct (q_tail q) eqn:TQ; [|discriminate].
      rewrite <- S0 in K1. split; auto. split; auto.
      intros z Z. apply K3. rewrite in_app_iff. simpl in *. tauto.
Qed.

Lemma pop_spec h q l :
  NoDup l -> QR h q l ->
  exists h' q', pop h q = Ok (h', q') /\ QR h' q' (tl l) /\ (forall y, ~ In y l -> h' y = h y) /\
    (forall x l', l = x :: l' -> h' x = None).
Proof.
  intros N R. unfold pop. destruct l as [|x l].
  - pose proof (qr_seg _ _ _ R) as S. simpl in S. rewrite S. exists h, q. repeat split; auto; try apply R.
    intros; discriminate.
  - destruct R as [[S0 S] T C]. rewrite S0. inversion_clear N.
    destruct l as [|y l].
    + unfold lastOr in T. simpl in T. rewrite T. simpl. rewrite Nat.eqb_refl.
      eexists _, _. split; [reflexivity|]. split; [|split].
      * constructor; simpl; auto. rewrite C. auto.
      * intros z Z. apply hset_other. intros ->. apply Z. now left.
      * intros a l' E. inversion E. apply hset_same.
    + assert (TX : oeqb (Some x) (q_tail q) = false).
      { rewrite T. destruct (rev_cases (y :: l)) as [E|(l3 & z & E)]; [discriminate|]. rewrite E in *.
        rewrite app_comm_cons, lastOr_app. simpl. apply Nat.eqb_neq. intros ->. apply H, in_or_app. right. now left. }
      rewrite TX. simpl in S. destruct S as [S1 S2]. rewrite S1.
      eexists _, _. split; [reflexivity|]. split; [|split].
      * constructor; cbn [q_head q_tail q_count tl].
        -- simpl. split; auto. rewrite hset_other. eapply seg_frame; [|apply S2].
           intros z Z. apply hset_other. intros ->. apply H. now right. intros ->. apply H. now left.
        -- rewrite T, lastOr_cons. destruct (rev_cases (y :: l)) as [E|(l3 & z & E)]; [discriminate|].
           rewrite E, !lastOr_app. auto.
        -- rewrite C. auto.
      * intros z Z. apply hset_other. intros ->. apply Z. now left.
      * intros a l' E. inversion E. subst. apply hset_same.
Qed.

Lemma clearLoop_spec l : forall fuel h cur,
  NoDup l -> seg h cur l None -> length l <= fuel ->
  exists h', clearLoop fuel h cur = Ok h' /\ (forall x, In x l -> h' x = None) /\ (forall y, ~ In y l -> h' y = h y).
Proof.
  induction l as [|x l IH]; intros fuel h cur N S L.
  - simpl in S. subst. exists h. destruct fuel; simpl; repeat split; auto; intros ? [].
  - destruct S as [-> S]. destruct fuel as [|f]; [simpl in L; lia|]. simpl. inversion_clear N.
    destruct (IH f (hset h x None) (h x)) as (h' & K1 & K2 & K3); auto.
    + eapply seg_frame; [|apply S]. intros z Z. apply hset_other. congruence.
    + simpl in L. lia.
    + exists h'. split; auto. split.
      * intros z [<-|Z]; auto. rewrite K3; auto. apply hset_same.
      * intros z Z. rewrite K3; [|tauto]. apply hset_other. intros ->. tauto.
Qed.

Lemma iterate_spec l : forall fuel h cur, seg h cur l None -> length l <= fuel -> iterate fuel h cur = Ok l.
Proof.
  induction l as [|x l IH]; intros fuel h cur S L.
  - simpl in S. subst. destruct fuel; auto.
  - destruct S as [-> S]. destruct fuel as [|f]; [simpl in L; lia|]. simpl. rewrite IH; auto. simpl in L. lia.
Qed.

Lemma find_if_spec fuel h q l p : QR h q l -> length l <= fuel -> find_if fuel h q p = Ok (find p l).
Proof.
  intros R L. unfold find_if.
  destruct (seek_spec p h l fuel None CHead (q_head q) (qr_seg _ _ _ R) L)
    as [(l1 & x & l2 & -> & F & T & ->)|(F & ->)]; f_equal.
  - clear R L. induction l1; simpl. now rewrite T. rewrite F by now left. apply IHl1. intros; apply F; now right.
  - clear R L. induction l; simpl; auto. rewrite F by now left. apply IHl. intros; apply F; now right.
Qed.

(** The concrete operations on a family of queues; loop bounds are the queues' own sizes. *)
Definition qset (qs : nat -> lq) (i : nat) (q : lq) : nat -> lq := fun j => if Nat.eqb j i then q else qs j.
Definition cop (lt : nat -> nat -> bool) (h : heap) (qs : nat -> lq) (o : qop) : out (heap * (nat -> lq)) :=
  let ret i r := match r with
                 | Ok (h', q') => Ok (h', qset qs i q')
                 | AssertFails => AssertFails | NullDeref => NullDeref | OutOfFuel => OutOfFuel
                 end in
  match o with
  | OPush i x => ret i (push h (qs i) x)
  | OInsert i x => ret i (insert lt (size (qs i)) h (qs i) x)
  | OPop i => ret i (pop h (qs i))
  | ORemove i x => ret i (remove (size (qs i)) h (qs i) x)
  | ORemoveIf i p => ret i (match remove_if (size (qs i)) h (qs i) p with
                            | Ok (h', q', _) => Ok (h', q')
                            | AssertFails => AssertFails | NullDeref => NullDeref | OutOfFuel => OutOfFuel
                            end)
  | OClear i => ret i (clear (size (qs i)) h (qs i))
  end.
Fixpoint crun (lt : nat -> nat -> bool) (h : heap) (qs : nat -> lq) (os : list qop) : out (heap * (nat -> lq)) :=
  match os with
  | [] => Ok (h, qs)
  | o :: os' => match cop lt h qs o with
                | Ok (h', qs') => crun lt h' qs' os'
                | AssertFails => AssertFails | NullDeref => NullDeref | OutOfFuel => OutOfFuel
                end
  end.

Record QI (h : heap) (qs : nat -> lq) (ls : nat -> list nat) : Prop := {
  qi_r : forall i, QR h (qs i) (ls i);
  qi_nd : forall i, NoDup (ls i);
  qi_dj : forall i j x, In x (ls i) -> In x (ls j) -> i = j;
  qi_free : forall x, (forall i, ~ In x (ls i)) -> h x = None }.

Lemma in_ins lt x y l : In y (ins lt x l) <-> y = x \/ In y l.
Proof. induction l; simpl. intuition. destruct (lt x a); simpl; rewrite ?IHl; intuition. Qed.
Lemma nd_ins lt x l : ~ In x l -> NoDup l -> NoDup (ins lt x l).
Proof.
  induction l; simpl; intros X N. constructor; auto.
  inversion_clear N. destruct (lt x a). constructor; simpl; auto. constructor; auto.
  constructor. rewrite in_ins. intuition. apply IHl; auto.
Qed.
Lemma in_drop1 p y l : In y (drop1 p l) -> In y l.
Proof. induction l; simpl; auto. destruct (p a); simpl; intuition. Qed.
Lemma nd_drop1 p l : NoDup l -> NoDup (drop1 p l).
Proof. induction l; simpl; intros N; auto. inversion_clear N. destruct (p a); auto. constructor; auto. intros I. apply in_drop1 in I. auto. Qed.

(** Replacing one queue. *)
Lemma QI_set h qs ls i h' q' l' :
  QI h qs ls -> QR h' q' l' -> NoDup l' ->
  (forall y, In y l' -> In y (ls i) \/ (forall j, ~ In y (ls j))) ->
  (forall y, ~ In y l' -> ~ In y (ls i) -> h' y = h y) ->
  (forall y, In y (ls i) -> ~ In y l' -> h' y = None) ->
  (forall y j, j <> i -> In y (ls j) -> ~ In y l') ->
  QI h' (qset qs i q') (lset ls i l').
Proof.
  intros [R N D F] R' N' I1 I2 I3 I4. unfold qset, lset. constructor.
  - intros j. destruct (Nat.eqb_spec j i); auto.
    eapply QR_frame; [|apply R]. intros x X. apply I2; eauto.
  - intros j. destruct (Nat.eqb_spec j i); auto.
  - intros j k x. destruct (Nat.eqb_spec j i), (Nat.eqb_spec k i); intros A B; subst; auto.
    + exfalso. eapply I4; eauto.
    + exfalso. eapply I4; eauto.
    + eauto.
  - intros x X. pose proof (X i) as Xi. rewrite Nat.eqb_refl in Xi.
    destruct (in_dec Nat.eq_dec x (ls i)) as [J|J]; auto.
    rewrite I2; auto. apply F. intros j. destruct (Nat.eq_dec j i); subst; auto.
    specialize (X j). apply Nat.eqb_neq in n. now rewrite n in X.
Qed.

Lemma drop1_lost p l y : NoDup l -> In y l -> ~ In y (drop1 p l) -> exists l1 l2, l = l1 ++ y :: l2 /\ p y = true /\ forall z, In z l1 -> p z = false.
Proof.
  induction l; simpl; intros N I X; [contradiction|]. inversion_clear N.
  destruct (p a) eqn:E.
  - destruct I as [<-|I]; [|contradiction]. exists [], l. repeat split; auto. intros ? [].
  - simpl in X. destruct I as [->|I]; [exfalso; auto|].
    destruct IHl as (l1 & l2 & -> & T & F); auto. exists (a :: l1), l2. repeat split; auto. intros z [<-|Z]; auto.
Qed.
Lemma split_unique (p : nat -> bool) l1 x l2 m1 y m2 :
  l1 ++ x :: l2 = m1 ++ y :: m2 -> p x = true -> p y = true ->
  (forall z, In z l1 -> p z = false) -> (forall z, In z m1 -> p z = false) -> x = y.
Proof.
  revert m1; induction l1; intros [|b m1] E X Y F1 F2; inversion E; subst; auto.
  - rewrite (F2 b) in X; [discriminate|now left].
  - rewrite (F1 y) in Y; [discriminate|now left].
  - eapply IHl1; eauto. intros; apply F1; now right. intros; apply F2; now right.
Qed.

Lemma QI_removeIf h qs ls i p : QI h qs ls ->
  exists h' q' r, remove_if (size (qs i)) h (qs i) p = Ok (h', q', r) /\
    QI h' (qset qs i q') (lset ls i (drop1 p (ls i))) /\ r = find p (ls i).
Proof.
  intros Q. destruct Q as [R N D F] eqn:EQ. clear EQ.
  destruct (remove_if_spec (size (qs i)) h (qs i) (ls i) p (N i) (R i)) as (h' & q' & r & K1 & K2 & K3 & K4).
  { unfold size. rewrite (qr_count _ _ _ (R i)). lia. }
  exists h', q', r. split; auto. split.
  - eapply QI_set; eauto.
    + apply nd_drop1; auto.
    + intros y Y. apply in_drop1 in Y. auto.
    + intros y I X. destruct (drop1_lost p _ _ (N i) I X) as (l1 & l2 & E & T & G).
      destruct r as [x|].
      * destruct K4 as (m1 & m2 & E2 & T2 & G2 & HN).
        rewrite E in E2. assert (y = x) by (eapply split_unique; eauto). subst. auto.
      * destruct K4 as (_ & _ & K4). rewrite K4 in T; [discriminate|auto].
    + intros y j J I X. apply in_drop1 in X. apply J. eauto.
  - destruct r as [x|].
    + destruct K4 as (m1 & m2 & E2 & T2 & G2 & _). rewrite E2. clear - T2 G2.
      induction m1; simpl. now rewrite T2. rewrite G2 by now left. apply IHm1. intros; apply G2; now right.
    + destruct K4 as (_ & _ & K4). clear - K4. induction (ls i); simpl; auto.
      rewrite K4 by now left. apply IHl. intros; apply K4; now right.
Qed.

Lemma cop_refines lt h qs ls o : QI h qs ls -> allowed ls o ->
  exists h' qs', cop lt h qs o = Ok (h', qs') /\ QI h' qs' (aop lt ls o).
Proof.
  intros Q A. assert (Q' := Q). destruct Q' as [R N D F].
  assert (SZ : forall i, length (ls i) <= size (qs i)) by (intros i; unfold size; rewrite (qr_count _ _ _ (R i)); lia).
  destruct o as [i x|i x|i|i x|i p|i]; simpl in *.
  - destruct (push_spec h (qs i) (ls i) x) as (h' & q' & -> & K2 & K3); auto.
    eexists _, _. split; [reflexivity|]. eapply QI_set; eauto.
    +
      assert (NoDup (rev (ls i ++ [x]))). { rewrite rev_app_distr. simpl. constructor; [rewrite <- in_rev; auto|apply NoDup_rev; auto]. }
      apply NoDup_rev in H. now rewrite rev_involutive in H.
    + intros y Y. apply in_app_iff in Y as [Y|[<-|[]]]; auto.
    + intros y I X. exfalso. apply X, in_or_app. auto.
    + intros y j J I X. apply in_app_iff in X as [X|[<-|[]]]; [apply J; eauto|]. eapply A; eauto.
  - destruct (insert_spec lt (size (qs i)) h (qs i) (ls i) x) as (h' & q' & -> & K2 & K3); auto.
    eexists _, _. split; [reflexivity|]. eapply QI_set; eauto.
    + apply nd_ins; auto.
    + intros y Y. apply in_ins in Y as [->|Y]; auto.
    + intros y Y1 Y2. apply K3. rewrite in_ins in Y1. simpl. intuition.
    + intros y I X. exfalso. apply X, in_ins. auto.
    + intros y j J I X. apply in_ins in X as [->|X]; [eapply A; eauto|]. apply J; eauto.
  - destruct (pop_spec h (qs i) (ls i)) as (h' & q' & -> & K2 & K3 & K4); auto.
    eexists _, _. split; [reflexivity|]. 
    assert (T : forall y, In y (tl (ls i)) -> In y (ls i)) by (intros y; destruct (ls i); simpl; auto).
    eapply QI_set; eauto.
    + pose proof (N i) as NI. destruct (ls i); simpl; auto. inversion NI; auto.
    + intros y I X. destruct (ls i) as [|a l]; [contradiction|]. destruct I as [<-|I]; [eauto|contradiction].
  - destruct (QI_removeIf h qs ls i (Nat.eqb x) Q) as (h' & q' & r & E & K & _).
    unfold remove. rewrite E. eexists _, _. split; [reflexivity|auto].
  - destruct (QI_removeIf h qs ls i p Q) as (h' & q' & r & E & K & _).
    rewrite E. eexists _, _. split; [reflexivity|auto].
  - unfold clear. destruct (clearLoop_spec (ls i) (size (qs i)) h (q_head (qs i))) as (h' & -> & K2 & K3); auto.
    { apply R. }
    eexists _, _. split; [reflexivity|]. eapply QI_set; eauto.
    + constructor; simpl; auto.
    + constructor.
Qed.
