From Coq Require Import List ZArith Bool Lia Permutation Sorted.
From Verif Require Import ArbiterModel ArbiterSpec.
Import ListNotations.

Scheme Desc_ind2 := Induction for Desc Sort Prop with Descs_ind2 := Induction for Descs Sort Prop.

(** ** Needs of a command *)
Lemma flatC_Desc h rel : forall fuel n l, flatC fuel h rel n = Some l -> Desc h rel n l.
Proof.
  induction fuel as [|k IH]; intros n l E; [discriminate|]. cbn [flatC] in E.
  destruct (h n) as [nd|] eqn:Eh; [|injection E as <-; apply D_leaf; auto].
  eapply D_node; eauto. clear Eh. revert l E.
  induction (rn_children nd) as [|[w m] cs IHc]; intros l E; cbn [fold_right] in E.
  - injection E as <-. constructor.
  - cbn [fst snd] in E. destruct (flatC k h rel m) as [l1|] eqn:E1; [|discriminate].
    destruct (fold_right _ _ cs) as [l2|]; [|discriminate]. injection E as <-.
    constructor; auto.
Qed.

Fixpoint sget (r : nat) (s : list creq) : option creq :=
  match s with [] => None | q :: t => if Nat.eqb (q_name q) r then Some q else sget r t end.
Definition SortedN (s : list creq) : Prop := StronglySorted (fun a b => q_name a < q_name b) s.

Lemma sfind_sget n s : sfind n s = match sget n s with Some _ => true | None => false end.
Proof. induction s as [|y s IH]; cbn; auto. destruct (Nat.eqb_spec (q_name y) n); cbn; auto. Qed.
Lemma sget_name n s q : sget n s = Some q -> q_name q = n /\ In q s.
Proof.
  induction s as [|y s IH]; cbn; [discriminate|]. destruct (Nat.eqb_spec (q_name y) n); intros E.
  - injection E as <-. auto.
  - destruct (IH E); auto.
Qed.
Lemma sget_none n s : sget n s = None <-> ~ In n (map q_name s).
Proof.
  induction s as [|y s IH]; cbn; [tauto|]. destruct (Nat.eqb_spec (q_name y) n); [split; [discriminate|tauto]|].
  rewrite IH. tauto.
Qed.
Lemma SortedN_NoDup s : SortedN s -> NoDup (map q_name s).
Proof.
  induction 1 as [|a l HS IH HF]; cbn; constructor; auto.
  rewrite in_map_iff. intros [x [E Hx]]. rewrite Forall_forall in HF. specialize (HF x Hx). cbn in HF. lia.
Qed.
Lemma sget_in s q : SortedN s -> In q s -> sget (q_name q) s = Some q.
Proof.
  induction 1 as [|a l HS IH HF]; cbn; [tauto|]. intros [->|Hi].
  - rewrite Nat.eqb_refl. auto.
  - destruct (Nat.eqb_spec (q_name a) (q_name q)); [|auto].
    rewrite Forall_forall in HF. specialize (HF q Hi). cbn in HF. lia.
Qed.
Lemma sinsert_in x s y : In y (sinsert x s) -> y = x \/ In y s.
Proof.
  induction s as [|z s IH]; cbn [sinsert In]; [intuition|].
  destruct (Nat.ltb _ _); cbn [In]; [intuition|]. destruct (Nat.eqb _ _); cbn [In]; intuition.
Qed.
Lemma sinsert_sorted x s : SortedN s -> SortedN (sinsert x s).
Proof.
  induction 1 as [|a l HS IH HF]; cbn [sinsert]; [repeat constructor|].
  destruct (Nat.ltb_spec (q_name x) (q_name a)).
  - constructor; [constructor; auto|]. constructor; auto. rewrite Forall_forall in *. intros y Hy. specialize (HF y Hy). cbn in *. lia.
  - destruct (Nat.eqb_spec (q_name x) (q_name a)); [constructor; auto|].
    constructor; auto. rewrite Forall_forall in *. intros y Hy. apply sinsert_in in Hy. destruct Hy as [->|Hy]; [lia|auto].
Qed.
Lemma sinsert_get x s r : SortedN s -> sget r (sinsert x s) =
  match sget r s with Some q => Some q | None => if Nat.eqb (q_name x) r then Some x else None end.
Proof.
  induction 1 as [|a l HS IH HF]; cbn [sinsert].
  - cbn. auto.
  - destruct (Nat.ltb_spec (q_name x) (q_name a)) as [H|H].
    + cbn [sget]. destruct (Nat.eqb_spec (q_name x) r) as [Ex|Ex].
      * destruct (Nat.eqb_spec (q_name a) r) as [Ea|Ea]; [lia|].
        destruct (sget r l) eqn:Eg; auto. apply sget_name in Eg. destruct Eg as [E1 E2].
        rewrite Forall_forall in HF. specialize (HF _ E2). cbn in HF. lia.
      * destruct (Nat.eqb (q_name a) r); auto. destruct (sget r l); auto.
    + destruct (Nat.eqb_spec (q_name x) (q_name a)) as [Ee|Ee].
      * cbn [sget]. rewrite Ee. destruct (Nat.eqb (q_name a) r); auto. destruct (sget r l); auto.
      * cbn [sget]. destruct (Nat.eqb_spec (q_name a) r) as [Ea|Ea]; auto.
Qed.

Lemma addNeeds_spec n flat : forall s, SortedN s -> SortedN (addNeeds n flat s) /\
  forall r, sget r (addNeeds n flat s) = match sget r s with Some q => Some q | None => firstQ r flat end.
Proof.
  unfold addNeeds. induction flat as [|f flat IH]; intros s HS; cbn [fold_left firstQ].
  - split; auto. intros r. destruct (sget r s); auto.
  - assert (E : (if negb (sfind (q_name f) s) then sinsert f s else if Nat.eqb (q_name f) n then sinsert f s else s)
       = sinsert f s \/ ((if negb (sfind (q_name f) s) then sinsert f s else if Nat.eqb (q_name f) n then sinsert f s else s) = s
          /\ sfind (q_name f) s = true)).
    { destruct (sfind (q_name f) s); cbn; auto. destruct (Nat.eqb (q_name f) n); auto. }
    destruct E as [E|[E Ef]]; rewrite E; clear E.
    + destruct (IH (sinsert f s) (sinsert_sorted f s HS)) as [I1 I2]. split; auto. intros r. rewrite I2.
      rewrite sinsert_get by auto. destruct (sget r s); auto. destruct (Nat.eqb (q_name f) r); auto.
    + destruct (IH s HS) as [I1 I2]. split; auto. intros r. rewrite I2.
      destruct (sget r s) eqn:Eg; auto. destruct (Nat.eqb_spec (q_name f) r); auto. subst r.
      rewrite sfind_sget, Eg in Ef. discriminate.
Qed.
Lemma firstQ_app r a b : firstQ r (a ++ b) = match firstQ r a with Some q => Some q | None => firstQ r b end.
Proof. induction a as [|x a IH]; cbn; auto. destruct (Nat.eqb (q_name x) r); auto. Qed.

Lemma allNeeds_spec fuel h : forall vs s s', SortedN s -> allNeeds fuel h vs s = Some s' ->
  SortedN s' /\ exists L, Mentions h vs L /\
  forall r, sget r s' = match sget r s with Some q => Some q | None => firstQ r L end.
Proof.
  induction vs as [|v vs IH]; intros s s' HS E; cbn [allNeeds] in E.
  - injection E as <-. split; auto. exists []. split; [constructor|]. intros r. cbn. destruct (sget r s); auto.
  - unfold allChild in E. destruct (flatC fuel h (v_release v) (v_name v)) as [l|] eqn:Ef; [|discriminate].
    match type of E with allNeeds _ _ _ (addNeeds ?n ?fl _) = _ => destruct (addNeeds_spec n fl s HS) as [A1 A2]; set (F := fl) in * end.
    destruct (IH _ _ A1 E) as [B1 [L [B2 B3]]]. split; auto.
    exists (F ++ L). split; [apply M_cons; auto; eapply flatC_Desc; eauto|].
    intros r. rewrite B3, A2, firstQ_app. destruct (sget r s); auto.
Qed.

(** The specification is deterministic. *)
Lemma Desc_fun h rel n l : Desc h rel n l -> forall l', Desc h rel n l' -> l = l'.
Proof.
  intros D. refine (Desc_ind2 h rel (fun n l _ => forall l', Desc h rel n l' -> l = l') (fun cs l _ => forall l', Descs h rel cs l' -> l = l') _ _ _ _ n l D); clear.
  - intros n Hn l' D'. inversion D'; congruence.
  - intros n nd l Hn D IH l' D'. inversion D' as [|n0 nd0 l0 H0 H1]; subst; [congruence|].
    rewrite Hn in H0. injection H0 as <-. auto.
  - intros l' D'. inversion D'; auto.
  - intros w n cs l1 l2 D1 I1 D2 I2 l' D'. inversion D'; subst. f_equal. f_equal; auto.
Qed.
Lemma Mentions_fun h vs l : Mentions h vs l -> forall l', Mentions h vs l' -> l = l'.
Proof.
  induction 1 as [|v vs l1 l2 D M IH]; intros l' M'; inversion M'; subst; auto.
  f_equal. f_equal; auto. eapply Desc_fun; eauto.
Qed.

(** ** Entries *)
Definition EntryOf (need : acmd -> nat -> option creq) (c : acmd) (e : pentry) : Prop :=
  p_cmd e = k_id c /\ p_prio e = prioOf c /\ SortedN (p_needs e) /\ forall r, sget r (p_needs e) = need c r.

Lemma partition_spec fuel h need : forall cs a es,
  (forall c, In c cs -> NeedOf h c (need c)) -> partition fuel h cs = Some (a, es) ->
  a = map k_id (filter (fun c => negb (contested c)) cs) /\ Forall2 (EntryOf need) (filter contested cs) es.
Proof.
  induction cs as [|c cs IH]; intros a es Hn E; cbn [partition] in E.
  - injection E as <- <-. cbn. auto.
  - assert (Hn' : forall c, In c cs -> NeedOf h c (need c)) by (intros; apply Hn; right; auto).
    assert (Ec : contested c = match k_res c with [] => false | _ => true end) by reflexivity.
    cbn [filter]. rewrite Ec. clear Ec. destruct (k_res c) as [|v vs] eqn:Ek; cbn [negb].
    + destruct (partition fuel h cs) as [[a1 s1]|]; [|discriminate]. injection E as <- <-.
      destruct (IH _ _ Hn' eq_refl) as [-> F]. split; auto.
    + destruct (allNeeds fuel h (v :: vs) []) as [n|] eqn:Ea; [|discriminate].
      destruct (partition fuel h cs) as [[a1 s1]|]; [|discriminate]. injection E as <- <-.
      destruct (IH _ _ Hn' eq_refl) as [-> F]. split; auto. constructor; auto.
      apply allNeeds_spec in Ea; [|constructor]. destruct Ea as [Hs [L [HM HL]]].
      unfold EntryOf, prioOf. cbn. rewrite Ek. repeat (split; auto). intros r. rewrite HL. cbn.
      destruct (Hn c (or_introl eq_refl)) as [L' [HM' HL']]. rewrite HL'. rewrite Ek in HM'.
      f_equal. eapply Mentions_fun; eauto.
Qed.

(** ** Sorting *)
Lemma pinsert_perm e l : Permutation (pinsert e l) (e :: l).
Proof.
  induction l as [|x l IH]; cbn; auto. destruct (Z.ltb _ _); auto.
  rewrite IH. constructor.
Qed.
Lemma psort_perm l : Permutation (psort l) l.
Proof. induction l as [|e l IH]; cbn; auto. rewrite pinsert_perm. auto. Qed.
Lemma pinsert_le x A e B : (p_prio x <= p_prio e)%Z -> pinsert x (A ++ e :: B) = pinsert x A ++ e :: B.
Proof.
  intros H. induction A as [|y A IH]; cbn.
  - destruct (Z.ltb_spec (p_prio e) (p_prio x)); [lia|auto].
  - destruct (Z.ltb _ _); auto. rewrite IH. auto.
Qed.
Lemma pinsert_gt x A e B : (p_prio e < p_prio x)%Z -> (forall y, In y A -> (p_prio y <= p_prio e)%Z) ->
  pinsert x (A ++ e :: B) = A ++ e :: pinsert x B.
Proof.
  intros H HA. induction A as [|y A IH]; cbn.
  - destruct (Z.ltb_spec (p_prio e) (p_prio x)); [auto|lia].
  - destruct (Z.ltb_spec (p_prio y) (p_prio x)).
    + rewrite IH; auto. intros; apply HA; right; auto.
    + specialize (HA y (or_introl eq_refl)). lia.
Qed.
Definition PSorted (l : list pentry) := StronglySorted (fun a b => (p_prio a <= p_prio b)%Z) l.
Lemma pinsert_sorted e l : PSorted l -> PSorted (pinsert e l).
Proof.
  induction 1 as [|a l HS IH HF]; cbn; [repeat constructor|].
  destruct (Z.ltb_spec (p_prio a) (p_prio e)).
  - constructor; auto. rewrite Forall_forall in *. intros y Hy.
    apply (Permutation_in _ (pinsert_perm e l)) in Hy. destruct Hy as [<-|Hy]; [lia|auto].
  - constructor; [constructor; auto|]. constructor; [auto|]. rewrite Forall_forall in *. intros y Hy. specialize (HF y Hy). cbn in HF. lia.
Qed.
Lemma psort_sorted l : PSorted (psort l).
Proof. induction l; cbn; [constructor|apply pinsert_sorted; auto]. Qed.
Lemma pinsert_split e l : PSorted l -> exists A B, pinsert e l = A ++ e :: B /\ A = filter (fun x => Z.ltb (p_prio x) (p_prio e)) l.
Proof.
  induction 1 as [|a l HS IH HF]; cbn [pinsert filter].
  - exists [], []. auto.
  - destruct (Z.ltb_spec (p_prio a) (p_prio e)).
    + destruct IH as [A [B [E1 E2]]]. exists (a :: A), B. rewrite E1, E2. auto.
    + exists [], (a :: l). split; auto. rewrite Forall_forall in HF. clear -HF H.
      induction l as [|y l IH]; auto. cbn. destruct (Z.ltb_spec (p_prio y) (p_prio e)).
      * specialize (HF y (or_introl eq_refl)). cbn in HF. lia.
      * apply IH. intros; apply HF; right; auto.
Qed.
Lemma filter_perm {A} (f : A -> bool) l l' : Permutation l l' -> Permutation (filter f l) (filter f l').
Proof.
  induction 1; cbn; auto.
  - destruct (f x); auto.
  - destruct (f x), (f y); auto. constructor.
  - etransitivity; eauto.
Qed.
(** Position of an element in the sorted list: after those with smaller priority and those of
    equal priority that came earlier. *)
Lemma psort_split e2 e e1 : exists A B, psort (e1 ++ e :: e2) = A ++ e :: B /\
  Permutation A (filter (fun x => Z.leb (p_prio x) (p_prio e)) e1 ++ filter (fun x => Z.ltb (p_prio x) (p_prio e)) e2).
Proof.
  induction e1 as [|x e1 IH].
  - cbn [app psort filter]. destruct (pinsert_split e (psort e2) (psort_sorted e2)) as [A [B [E1 E2]]].
    exists A, B. split; auto. rewrite E2. apply filter_perm, psort_perm.
  - destruct IH as [A [B [E P]]]. cbn [app psort filter]. rewrite E.
    assert (HA : forall y, In y A -> (p_prio y <= p_prio e)%Z).
    { intros y Hy. apply (Permutation_in _ P) in Hy. apply in_app_or in Hy. destruct Hy as [Hy|Hy]; apply filter_In in Hy; lia. }
    destruct (Z.leb_spec (p_prio x) (p_prio e)).
    + exists (pinsert x A), B. split; [apply pinsert_le; auto|]. rewrite pinsert_perm, P. auto.
    + exists A, (pinsert x B). split; [apply pinsert_gt; auto|]. auto.
Qed.

(** ** Deciding *)
Lemma mem_In k l : mem k l = true <-> In k l.
Proof. unfold mem. rewrite existsb_exists. split; [intros [x [H E]]; apply Nat.eqb_eq in E; congruence|intros H; exists k; rewrite Nat.eqb_refl; auto]. Qed.
Lemma sumZ_app {A} (f : A -> Z) l1 l2 : sumZ f (l1 ++ l2) = (sumZ f l1 + sumZ f l2)%Z.
Proof. induction l1 as [|x l IH]; cbn; auto. rewrite IH. lia. Qed.
Lemma sumZ_ext {A} (f g : A -> Z) l : (forall x, In x l -> f x = g x) -> sumZ f l = sumZ g l.
Proof. induction l as [|x l IH]; cbn; intros H; auto. rewrite (H x), IH; auto. Qed.
Lemma sumZ_perm {A} (f : A -> Z) l l' : Permutation l l' -> sumZ f l = sumZ f l'.
Proof. induction 1; cbn; lia. Qed.
Lemma sumZ_nonneg {A} (f : A -> Z) l : (forall x, In x l -> 0 <= f x)%Z -> (0 <= sumZ f l)%Z.
Proof. induction l as [|x l IH]; cbn; intros H; [lia|]. specialize (H x (or_introl eq_refl)) as Hx. assert (0 <= sumZ f l)%Z by (apply IH; intros; apply H; auto). lia. Qed.
Lemma sumZ_filter {A} (f : A -> Z) (p : A -> bool) l : sumZ f (filter p l) = sumZ (fun x => if p x then f x else 0%Z) l.
Proof. induction l as [|x l IH]; cbn; auto. destruct (p x); cbn; rewrite IH; lia. Qed.

Definition dem (e : pentry) (r : nat) : Z := amount (sget r (p_needs e)).

Lemma charge_all qs : SortedN qs -> forall al r, val (fold_left charge qs al r) = (val (al r) + amount (sget r qs))%Z.
Proof.
  induction 1 as [|q qs HS IH HF]; intros al r; cbn [fold_left sget]; [cbn; lia|].
  rewrite IH. unfold charge at 1. unfold upd. rewrite (Nat.eqb_sym r).
  destruct (Nat.eqb_spec (q_name q) r) as [<-|Hn].
  - cbn [val amount]. enough (sget (q_name q) qs = None) as H by (rewrite H; cbn; lia).
    apply sget_none. rewrite in_map_iff. intros [y [E Hy]]. rewrite Forall_forall in HF. specialize (HF y Hy). cbn in HF. lia.
  - lia.
Qed.
Lemma unCharge_all qs : SortedN qs -> forall al r, val (fold_left unCharge qs al r)
   = (val (al r) - (amount (sget r qs) - keptAmount (sget r qs)))%Z.
Proof.
  induction 1 as [|q qs HS IH HF]; intros al r; cbn [fold_left sget]; [cbn; lia|].
  rewrite IH. unfold unCharge at 1.
  assert (Hq : sget (q_name q) qs = None).
  { apply sget_none. rewrite in_map_iff. intros [y [E Hy]]. rewrite Forall_forall in HF. specialize (HF y Hy). cbn in HF. lia. }
  destruct (Nat.eqb_spec (q_name q) r) as [<-|Hn].
  - rewrite Hq. cbn [amount keptAmount]. destruct (q_rel q).
    + unfold upd. rewrite Nat.eqb_refl. destruct (Z.eqb_spec (val (al (q_name q)) - q_w q) 0) as [E|E]; cbn [val]; lia.
    + lia.
  - destruct (q_rel q); auto. unfold upd. rewrite (Nat.eqb_sym r). destruct (Nat.eqb_spec (q_name q) r); [congruence|auto].
Qed.

(** Invariant linking estimates and books, for the resources mentioned by [es]. *)
Definition EstOk (est : nat -> Z * Z) (al : nat -> option Z) (r : nat) : Prop :=
  exists b, est r = (b, val (al r)) /\ (0 <= b <= val (al r))%Z.

Lemma tryNeeds_spec h qs : SortedN qs -> (forall q, In q qs -> 0 <= q_w q)%Z ->
  forall est, (forall q, In q qs -> exists b, exists c, est (q_name q) = (b, c) /\ 0 <= b <= c)%Z ->
  match tryNeeds h qs est with
  | Some est' => (forall q, In q qs -> snd (est (q_name q)) + q_w q <= maxOf h (q_name q))%Z
       /\ forall r, est' r = (fst (est r), snd (est r) + amount (sget r qs))%Z
  | None => exists q, In q qs /\ (maxOf h (q_name q) < snd (est (q_name q)) + q_w q)%Z
  end.
Proof.
  induction 1 as [|q qs HS IH HF]; intros Hw est He.
  - cbn. split; [tauto|]. intros r. destruct (est r); cbn. f_equal. lia.
  - cbn [tryNeeds]. destruct (He q (or_introl eq_refl)) as [b [c [E Hb]]]. rewrite E.
    pose proof (Hw q (or_introl eq_refl)) as Hq.
    destruct (Z.ltb_spec (q_w q) 0); [lia|].
    destruct (_ || _) eqn:Ec.
    + exists q. split; [left; auto|]. rewrite E. cbn [snd].
      rewrite !orb_true_iff, !Z.ltb_lt in Ec. lia.
    + rewrite !orb_false_iff, !Z.ltb_ge in Ec.
      assert (Hne : forall y, In y qs -> q_name y <> q_name q).
      { intros y Hy. rewrite Forall_forall in HF. specialize (HF y Hy). cbn in HF. lia. }
      specialize (IH (fun y Hy => Hw y (or_intror Hy)) (upd est (q_name q) (b, c + q_w q)%Z)).
      assert (Hpre : forall y, In y qs -> exists b0 c0, upd est (q_name q) (b, (c + q_w q)%Z) (q_name y) = (b0, c0) /\ (0 <= b0 <= c0)%Z).
      { intros y Hy. unfold upd. destruct (Nat.eqb_spec (q_name y) (q_name q)) as [X|X]; [destruct (Hne y Hy X)|]. apply He. right; auto. }
      specialize (IH Hpre).
      assert (Hu : forall y, In y qs -> upd est (q_name q) (b, (c + q_w q)%Z) (q_name y) = est (q_name y)).
      { intros y Hy. unfold upd. destruct (Nat.eqb_spec (q_name y) (q_name q)) as [X|X]; auto. destruct (Hne y Hy X). }
      destruct (tryNeeds h qs _) as [est'|].
      * destruct IH as [I1 I2]. split.
        -- intros y [<-|Hy]; [rewrite E; cbn [snd]; lia|]. rewrite <- (Hu y Hy). auto.
        -- intros r. rewrite I2. unfold upd. rewrite (Nat.eqb_sym r). cbn [sget].
           destruct (Nat.eqb_spec (q_name q) r) as [<-|Hr].
           ++ rewrite E. cbn [fst snd amount]. assert (Hg : sget (q_name q) qs = None).
              { apply sget_none. rewrite in_map_iff. intros [y [Ey Hy]]. destruct (Hne y Hy Ey). }
              rewrite Hg. cbn. f_equal. lia.
           ++ auto.
      * destruct IH as [y [Hy Hlt]]. exists y. split; [right; auto|]. rewrite <- (Hu y Hy). auto.
Qed.

Definition goodEntry (e : pentry) : Prop := SortedN (p_needs e) /\ forall q, In q (p_needs e) -> (0 <= q_w q)%Z.
Definition accSum (a : list nat) (r : nat) (l : list pentry) : Z := sumZ (fun x => if mem (p_cmd x) a then dem x r else 0%Z) l.

Lemma accSum_cons_notin k a r l : ~ In k (map p_cmd l) -> accSum (k :: a) r l = accSum a r l.
Proof.
  intros H. unfold accSum. apply sumZ_ext. intros x Hx. unfold mem. cbn [existsb].
  destruct (Nat.eqb_spec (p_cmd x) k) as [E|E]; auto. destruct H. rewrite <- E. apply in_map. auto.
Qed.
Lemma dem_nonneg e r : goodEntry e -> (0 <= dem e r)%Z.
Proof.
  intros [_ H]. unfold dem. destruct (sget r (p_needs e)) as [q|] eqn:E; cbn; [|lia]. apply H. apply sget_name in E. tauto.
Qed.

(** What [decide] does, apart from the estimates. *)
Lemma decide_books h es : forall est s a j s', (forall e, In e es -> SortedN (p_needs e)) -> NoDup (map p_cmd es) ->
  decide h es est s = (a, j, s') ->
  Permutation (a ++ j) (map p_cmd es)
  /\ (forall r, val (a_alloc s' r) = val (a_alloc s r) + accSum a r es)%Z
  /\ (forall k, a_held s' k = a_held s k \/ exists e, In e es /\ p_cmd e = k)
  /\ (forall e, In e es -> a_held s' (p_cmd e) = if mem (p_cmd e) a then Some (p_needs e) else a_held s (p_cmd e)).
Proof.
  induction es as [|e es IH]; intros est s a j s' Hg Hnd E; cbn [decide] in E.
  - injection E as <- <- <-. cbn. repeat split; auto; try tauto. intros r. unfold accSum. cbn. lia.
  - cbn [map] in Hnd. inversion Hnd as [|? ? Hni Hnd']; subst.
    assert (Hg' : forall e, In e es -> SortedN (p_needs e)) by (intros; apply Hg; right; auto).
    destruct (tryNeeds h (p_needs e) est) as [est'|].
    + destruct (decide h es est' _) as [[a1 j1] s1] eqn:Ed. injection E as <- <- <-.
      destruct (IH _ _ _ _ _ Hg' Hnd' Ed) as (I1 & I2 & I3 & I4). cbn [a_alloc a_held] in *.
      split; [cbn; auto|]. split; [|split].
      * intros r. rewrite I2. unfold accSum at 2. cbn [sumZ]. fold (accSum (p_cmd e :: a1) r es).
        rewrite accSum_cons_notin by auto. rewrite charge_all by (apply Hg; left; auto).
        unfold mem. cbn [existsb]. rewrite Nat.eqb_refl. cbn [orb]. unfold dem. lia.
      * intros k. destruct (I3 k) as [I|[e' [I I']]]; [|right; exists e'; cbn; auto].
        rewrite I. unfold upd. destruct (Nat.eqb_spec k (p_cmd e)) as [->|]; [right; exists e; cbn; auto|auto].
      * intros x [<-|Hx].
        -- unfold mem. cbn [existsb]. rewrite Nat.eqb_refl. cbn [orb].
           destruct (I3 (p_cmd e)) as [I|[e' [I I']]].
           ++ rewrite I. unfold upd. rewrite Nat.eqb_refl. auto.
           ++ destruct Hni. rewrite <- I'. apply in_map. auto.
        -- rewrite (I4 x Hx). unfold mem. cbn [existsb]. unfold upd.
           destruct (Nat.eqb_spec (p_cmd x) (p_cmd e)) as [X|X]; [destruct Hni; rewrite <- X; apply in_map; auto|]. auto.
    + destruct (decide h es est s) as [[a1 j1] s1] eqn:Ed. injection E as <- <- <-.
      destruct (IH _ _ _ _ _ Hg' Hnd' Ed) as (I1 & I2 & I3 & I4).
      assert (Hna : mem (p_cmd e) a1 = false).
      { destruct (mem (p_cmd e) a1) eqn:M; auto. apply mem_In in M. destruct Hni.
        eapply Permutation_in; [exact I1|]. apply in_or_app; auto. }
      split; [|split; [|split]].
      * cbn [map]. rewrite <- Permutation_middle. auto.
      * intros r. rewrite I2. unfold accSum. cbn [sumZ]. rewrite Hna. lia.
      * intros k. destruct (I3 k) as [I|[e' [I I']]]; [auto|right; exists e'; cbn; auto].
      * intros x [<-|Hx]; [|auto]. rewrite Hna. destruct (I3 (p_cmd e)) as [I|[e' [I I']]]; auto.
        destruct Hni. rewrite <- I'. apply in_map. auto.
Qed.

Lemma decide_greedy h es : forall est s a j s', (forall e, In e es -> goodEntry e) -> NoDup (map p_cmd es) ->
  (forall e q, In e es -> In q (p_needs e) -> EstOk est (a_alloc s) (q_name q)) ->
  decide h es est s = (a, j, s') ->
  forall A e B, es = A ++ e :: B ->
  (In (p_cmd e) j <-> exists q, In q (p_needs e) /\
     (maxOf h (q_name q) < val (a_alloc s (q_name q)) + accSum a (q_name q) A + q_w q)%Z).
Proof.
  induction es as [|e0 es IH]; intros est s a j s' Hg Hnd He E A e B Hsplit; [destruct A; discriminate|].
  pose proof E as Eall. cbn [decide] in E. cbn [map] in Hnd. inversion Hnd as [|? ? Hni Hnd']; subst.
  assert (Hg' : forall e, In e es -> goodEntry e) by (intros; apply Hg; right; auto).
  destruct (Hg e0 (or_introl eq_refl)) as [Hs0 Hw0].
  pose proof (tryNeeds_spec h (p_needs e0) Hs0 Hw0 est) as HT.
  assert (Hpre : forall q, In q (p_needs e0) -> exists b c, est (q_name q) = (b, c) /\ (0 <= b <= c)%Z).
  { intros q Hq. destruct (He e0 q (or_introl eq_refl) Hq) as [b [X Y]]. exists b, (val (a_alloc s (q_name q))). auto. }
  specialize (HT Hpre).
  assert (Hsnd : forall q, In q (p_needs e0) -> snd (est (q_name q)) = val (a_alloc s (q_name q))).
  { intros q Hq. destruct (He e0 q (or_introl eq_refl) Hq) as [b [X Y]]. rewrite X. auto. }
  pose proof (decide_books h (e0 :: es) est s a j s' (fun x Hx => proj1 (Hg x Hx)) Hnd Eall) as (HP & _).
  assert (Hexcl : forall k, In k a -> In k j -> False).
  { intros k Ha Hj. assert (ND : NoDup (a ++ j)) by (eapply Permutation_NoDup; [symmetry; exact HP|exact Hnd]).
    revert ND Ha Hj. clear. induction a as [|x a IH]; cbn; [tauto|]. intros ND Ha Hj. inversion ND; subst.
    destruct Ha as [->|Ha]; [|eauto]. match goal with X : ~ In _ _ |- _ => apply X end. apply in_or_app; auto. }
  destruct (tryNeeds h (p_needs e0) est) as [est'|].
  - destruct HT as [T1 T2].
    destruct (decide h es est' _) as [[a1 j1] s1] eqn:Ed. injection E as <- <- <-.
    destruct A as [|e0' A]; cbn [app] in Hsplit; injection Hsplit as -> Hes.
    + split.
      * intros Hj. destruct (Hexcl (p_cmd e)); [left; auto|auto].
      * intros [q [Hq Hlt]]. unfold accSum in Hlt. cbn in Hlt. specialize (T1 q Hq). rewrite (Hsnd q Hq) in T1. lia.
    + assert (He' : forall x q, In x es -> In q (p_needs x) ->
         EstOk est' (fold_left charge (p_needs e0') (a_alloc s)) (q_name q)).
      { intros x q Hx Hq. destruct (He x q (or_intror Hx) Hq) as [b [X Y]]. exists b. rewrite T2, X. cbn [fst snd].
        rewrite charge_all by auto. split; auto. pose proof (dem_nonneg e0' (q_name q) (conj Hs0 Hw0)) as Hd. unfold dem in Hd. lia. }
      match type of Ed with decide _ _ _ ?s0 = _ => specialize (IH est' s0 a1 j1 s1 Hg' Hnd' He' Ed A e B Hes) end.
      rewrite IH. cbn [a_alloc].
      assert (HA : forall r, accSum (p_cmd e0' :: a1) r (e0' :: A) = (amount (sget r (p_needs e0')) + accSum a1 r A)%Z).
      { intros r. unfold accSum at 1. cbn [sumZ]. fold (accSum (p_cmd e0' :: a1) r A). rewrite accSum_cons_notin.
        - unfold mem. cbn [existsb]. rewrite Nat.eqb_refl. reflexivity.
        - intros Hin. apply Hni. rewrite Hes, map_app. apply in_or_app; auto. }
      split; intros [q [Hq Hlt]]; exists q; (split; [auto|]); rewrite HA in *; rewrite charge_all in * by auto; lia.
  - destruct HT as [q0 [Hq0 Hlt0]]. rewrite (Hsnd q0 Hq0) in Hlt0.
    destruct (decide h es est s) as [[a1 j1] s1] eqn:Ed. injection E as <- <- <-.
    destruct A as [|e0' A]; cbn [app] in Hsplit; injection Hsplit as -> Hes.
    + split; [intros _|left; auto]. exists q0. split; auto. unfold accSum. cbn. lia.
    + specialize (IH est s _ _ _ Hg' Hnd' (fun x q Hx => He x q (or_intror Hx)) Ed A e B Hes).
      assert (Hne : p_cmd e <> p_cmd e0') .
      { intros X. apply Hni. rewrite Hes, map_app. apply in_or_app; right. cbn. auto. }
      assert (Hm : mem (p_cmd e0') a1 = false).
      { destruct (mem (p_cmd e0') a1) eqn:M; auto. apply mem_In in M. destruct (Hexcl (p_cmd e0') M). left; auto. }
      cbn [In]. unfold accSum. cbn [sumZ]. rewrite Hm.
      split.
      * intros [X|X]; [congruence|]. apply IH in X. destruct X as [q [Hq X]]. exists q. split; [exact Hq|exact X].
      * intros [q [Hq X]]. right. apply IH. exists q. split; [exact Hq|exact X].
Qed.

(** ** Preparing *)
Lemma prepare1_all qs : forall al est, let p := fold_left prepare1 qs (al, est) in
  (forall r, val (fst p r) = val (al r)) /\
  (forall r, (In r (map q_name qs) \/ est r = (val (al r), val (al r))) -> snd p r = (val (al r), val (al r)))
  /\ (forall r, snd p r = est r \/ snd p r = (val (al r), val (al r))).
Proof.
  induction qs as [|q qs IH]; intros al est; cbn [fold_left].
  - cbn. repeat split; auto. intros r [[]|H]; auto.
  - unfold prepare1 at 2 4 6 8. cbn [fst snd].
    assert (Hv : forall r, val (ensure al (q_name q) r) = val (al r)).
    { intros r. unfold ensure. destruct (al (q_name q)) eqn:E; auto. unfold upd. destruct (Nat.eqb_spec r (q_name q)) as [->|]; auto. rewrite E; auto. }
    destruct (IH (ensure al (q_name q)) (upd est (q_name q) (val (al (q_name q)), val (al (q_name q))))) as [I1 [I2 I3]].
    cbn zeta in *. split; [|split].
    + intros r. rewrite I1. auto.
    + intros r Hr. rewrite I2; [rewrite Hv; auto|]. rewrite !Hv. unfold upd.
      destruct (Nat.eqb_spec r (q_name q)) as [->|Hne]; [right; auto|]. destruct Hr as [[X|X]|X]; auto. congruence.
    + intros r. destruct (I3 r) as [X|X]; rewrite X; rewrite ?Hv; auto. unfold upd.
      destruct (Nat.eqb_spec r (q_name q)) as [->|Hne]; auto.
Qed.
Lemma prepare_spec es al : let p := prepare es al in
  (forall r, val (fst p r) = val (al r)) /\
  (forall e q, In e es -> In q (p_needs e) -> snd p (q_name q) = (val (al (q_name q)), val (al (q_name q)))).
Proof.
  unfold prepare.
  assert (G : forall es al' est, (forall r, val (al' r) = val (al r)) ->
    let p := fold_left (fun p e => fold_left prepare1 (p_needs e) p) es (al', est) in
    (forall r, val (fst p r) = val (al r)) /\
    (forall r, ((exists e q, In e es /\ In q (p_needs e) /\ q_name q = r) \/ est r = (val (al r), val (al r))) -> snd p r = (val (al r), val (al r)))).
  { clear. induction es as [|e es IH]; intros al' est Ha; cbn [fold_left].
    - cbn. split; auto. intros r [[e [q [[] _]]]|H]; auto.
    - destruct (prepare1_all (p_needs e) al' est) as [P1 [P2 P3]].
      destruct (fold_left prepare1 (p_needs e) (al', est)) as [al1 est1]. cbn [fst snd] in *.
      assert (Ha1 : forall r, val (al1 r) = val (al r)) by (intros r; rewrite P1; auto).
      destruct (IH al1 est1 Ha1) as [I1 I2]. cbn zeta in *. split; auto. intros r Hr. apply I2.
      destruct Hr as [[e' [q [[<-|He] [Hq Hn]]]]|Hr].
      + right. rewrite P2, Ha; auto. left. rewrite <- Hn. apply in_map; auto.
      + left. exists e', q. auto.
      + right. rewrite P2, Ha; auto. rewrite Ha; auto. }
  destruct (G es al (fun _ => (0, 0)%Z) (fun _ => eq_refl)) as [G1 G2]. cbn zeta in *. split; auto.
  intros e q He Hq. apply G2. left. exists e, q. auto.
Qed.
