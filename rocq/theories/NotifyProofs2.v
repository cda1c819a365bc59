(** Proofs about the listener network. *)
From Coq Require Import List Arith ZArith Lia Bool.
From Verif Require Import NotifyModel NotifySpec NotifyProofs.
Import ListNotations.

Lemma lis_eqb_spec a b : reflect (a = b) (lis_eqb a b).
Proof.
  destruct a as [x|x], b as [y|y]; cbn; try (constructor; congruence);
    destruct (Nat.eqb_spec x y); constructor; congruence.
Qed.
Lemma existsb_lis l xs : existsb (lis_eqb l) xs = true <-> In l xs.
Proof.
  rewrite existsb_exists. split.
  - intros [y [Hy E]]. destruct (lis_eqb_spec l y); congruence.
  - intros H. exists l. split; auto. destruct (lis_eqb_spec l l); congruence.
Qed.
Lemma removeFirst_notin l xs : ~ In l xs -> removeFirst l xs = xs.
Proof.
  induction xs as [|a xs IH]; cbn; intros H; auto.
  destruct (lis_eqb_spec l a) as [->|]; [tauto|]. f_equal. tauto.
Qed.
Lemma removeFirst_in l xs y : NoDup xs -> (In y (removeFirst l xs) <-> In y xs /\ y <> l).
Proof.
  induction xs as [|a xs IH]; cbn; intros N; [tauto|]. inversion N; subst.
  destruct (lis_eqb_spec l a) as [->|Hn].
  - split; [intros Hy; split; [auto|congruence]|intros [[->|Hy] Hne]; congruence].
  - cbn. rewrite IH by auto. split; [intros [->|[Ha Hb]]; split; auto; congruence|tauto].
Qed.
Lemma removeFirst_nodup l xs : NoDup xs -> NoDup (removeFirst l xs).
Proof.
  induction xs as [|a xs IH]; cbn; intros N; auto. inversion N; subst.
  destruct (lis_eqb_spec l a); auto. constructor; auto. rewrite removeFirst_in by auto. tauto.
Qed.

Definition exts (xs : list lis) : list nat :=
  flat_map (fun l => match l with LExt x => [x] | _ => [] end) xs.
Lemma exts_app a b : exts (a ++ b) = exts a ++ exts b.
Proof. apply flat_map_app. Qed.
Lemma exts_in x xs : In x (exts xs) <-> In (LExt x) xs.
Proof.
  unfold exts. rewrite in_flat_map. split.
  - intros [[y|y] [Hl Hx]]; cbn in Hx; [|tauto]. destruct Hx as [->|[]]; auto.
  - intros H. exists (LExt x). split; auto. left; auto.
Qed.
Lemma exts_nodup xs : NoDup xs -> NoDup (exts xs).
Proof.
  induction xs as [|[x|p] xs IH]; intros N; [constructor| |]; inversion N; subst.
  - change (exts (LExt x :: xs)) with (x :: exts xs). constructor; auto. rewrite exts_in. auto.
  - apply IH; auto.
Qed.
Lemma exts_remove l xs : NoDup xs ->
  exts (removeFirst l xs) = match l with LExt x => filter (fun z => negb (Nat.eqb x z)) (exts xs) | _ => exts xs end.
Proof.
  induction xs as [|a xs IH]; cbn; intros N; [destruct l; auto|]. inversion N; subst.
  destruct (lis_eqb_spec l a) as [->|Hn].
  - destruct a as [x|p]; cbn; auto. rewrite Nat.eqb_refl. cbn.
    rewrite removeFirst_notin in IH by auto. exact (IH H2).
  - cbn [exts flat_map]. fold (exts (removeFirst l xs)). rewrite IH by auto. fold (exts xs).
    destruct l as [x|p], a as [y|q]; cbn; auto.
    destruct (Nat.eqb_spec x y); [congruence|]. reflexivity.
Qed.

Section L.
Variable g : graph.
Hypothesis W : wf g.

Definition stores (e : nat) : bool := match kind g e with KConst | KFwd _ => false | _ => true end.
Definition direct (p : nat) : list nat := xhead g p ++ xparams g p ++ nearest g (S p) p.
(** [p] puts itself on the list of [s] when it has listeners. *)
Definition D (p s : nat) : Prop :=
  kind g p = KProp /\ stores s = true /\ exists d, In d (direct p) /\ s = keeper g d.

Lemma keeper_le e : keeper g e <= e.
Proof.
  unfold keeper. destruct (kind g e) eqn:E; auto.
  destruct (wf_fwd g W e t E) as [_ [Hk _]].
  pose proof (wf_kids g W e t). rewrite Hk in H. specialize (H (or_introl eq_refl)). lia.
Qed.
Lemma nearest_lt : forall f p s, In s (nearest g f p) -> s < p.
Proof.
  induction f as [|f IH]; cbn; intros p s H; [tauto|].
  apply in_flat_map in H. destruct H as [k [Hk Hs]]. pose proof (wf_kids g W p k Hk).
  destruct (src g k); [destruct Hs as [->|[]]; auto|]. apply IH in Hs. lia.
Qed.
Lemma direct_lt p d : In d (direct p) -> d < p.
Proof.
  unfold direct. rewrite !in_app_iff. intros [H|[H|H]].
  - apply (wf_kids g W). apply (wf_xhead g W); auto.
  - apply (wf_kids g W). apply (wf_xparams g W); auto.
  - eapply nearest_lt; eauto.
Qed.
Lemma D_lt p s : D p s -> s < p.
Proof. intros [_ [_ [d [Hd ->]]]]. apply direct_lt in Hd. pose proof (keeper_le d). lia. Qed.
Lemma stores_keeper e : stores (keeper g e) = match kind g e with KConst => false | _ => true end.
Proof.
  unfold keeper, stores. destruct (kind g e) eqn:E; rewrite ?E; auto.
  destruct (wf_fwd g W e t E) as [-> _]. reflexivity.
Qed.

Record LI (E : list nat) (st : nst) : Prop := {
  li_nodup : forall s, NoDup (lst st s);
  li_stores : forall s, stores s = false -> lst st s = [];
  li_graph : forall p, ~ In p E -> forall s, In (LExp p) (lst st s) <-> lst st p <> [] /\ D p s }.

Definition okl (E : list nat) (l : lis) : Prop := match l with LExt _ => True | LExp q => In q E end.

Lemma nodup_snoc {A} (l : list A) x : NoDup l -> ~ In x l -> NoDup (l ++ [x]).
Proof.
  intros N H. apply NoDup_rev in N. rewrite <- (rev_involutive (l ++ [x])). apply NoDup_rev.
  rewrite rev_app_distr. cbn. constructor; auto. rewrite <- in_rev. auto.
Qed.

Lemma addN_in t l st s y : In y (lst (addN t l st) s) <-> In y (lst st s) \/ (y = l /\ s = t).
Proof.
  unfold addN. destruct (existsb (lis_eqb l) (lst st t)) eqn:E.
  - apply existsb_lis in E. split; [auto|]. intros [H|[-> ->]]; auto.
  - cbn [lst setLst]. unfold updn. destruct (Nat.eqb_spec s t) as [->|Hn].
    + rewrite in_app_iff. cbn. intuition congruence.
    + intuition congruence.
Qed.
Lemma addN_ne t l st : lst (addN t l st) t <> [].
Proof.
  intros E. assert (In l (lst (addN t l st) t)) by (apply addN_in; auto). rewrite E in H. contradiction.
Qed.
Lemma addN_other t l st s : s <> t -> lst (addN t l st) s = lst st s.
Proof.
  intros H. unfold addN. destruct existsb; auto. cbn. apply updn_other; auto.
Qed.
Lemma addN_nodup t l st s : NoDup (lst st s) -> NoDup (lst (addN t l st) s).
Proof.
  intros N. unfold addN. destruct (existsb (lis_eqb l) (lst st t)) eqn:E; auto.
  cbn. unfold updn. destruct (Nat.eqb_spec s t) as [->|]; auto.
  apply nodup_snoc; auto. rewrite <- existsb_lis. congruence.
Qed.

Lemma addN_LI E t l st : stores t = true -> okl E l -> l <> LExp t -> ~ In t E ->
  LI (t :: E) st -> (forall s, In (LExp t) (lst st s) <-> D t s) -> LI E (addN t l st).
Proof.
  intros Ht Hl Hlt Hnt I HD. split.
  - intros s. apply addN_nodup, I.
  - intros s Hs. rewrite addN_other by congruence. apply I; auto.
  - intros p Hp s. rewrite addN_in. destruct (Nat.eq_dec p t) as [->|Hn].
    + rewrite HD. split.
      * intros [H|[H _]]; [|congruence]. split; auto. apply addN_ne.
      * tauto.
    + rewrite addN_other by auto. rewrite (li_graph _ _ I p) by (cbn; intuition congruence).
      split; [|tauto]. intros [H|[H _]]; auto. subst l. cbn in Hl. tauto.
Qed.

Lemma LI_weaken E E' st : incl E E' -> LI E st -> LI E' st.
Proof. intros H I. split; try apply I. intros p Hp. apply (li_graph _ _ I). intros Hin. apply Hp, H, Hin. Qed.

(** The list of external listeners after adding [l] to the object kept by [t]. *)
Definition extAdd (t : nat) (l : lis) (s : nat) (xs : list nat) : list nat :=
  match l with
  | LExt x => if Nat.eqb t s && negb (existsb (Nat.eqb x) xs) && stores s then xs ++ [x] else xs
  | LExp _ => xs
  end.

Lemma existsb_ext x xs : existsb (Nat.eqb x) (exts xs) = existsb (lis_eqb (LExt x)) xs.
Proof.
  apply Bool.eq_iff_eq_true. rewrite existsb_lis, existsb_exists, <- exts_in. split.
  - intros [y [Hy E]]. apply Nat.eqb_eq in E. congruence.
  - intros H. exists x. split; auto. apply Nat.eqb_refl.
Qed.
Lemma addN_exts t l st s : stores t = true -> exts (lst (addN t l st) s) = extAdd t l s (exts (lst st s)).
Proof.
  intros Ht. unfold addN, extAdd. destruct l as [x|q].
  - rewrite existsb_ext. destruct (Nat.eqb_spec t s) as [<-|Hn]; cbn [andb].
    + destruct (existsb _ (lst st t)) eqn:E; cbn [negb andb]; auto. rewrite Ht.
      cbn. rewrite updn_same, exts_app. reflexivity.
    + destruct (existsb _ (lst st t)); auto. cbn. rewrite updn_other; auto.
  - destruct (existsb _ (lst st t)); auto. cbn. unfold updn. destruct (Nat.eqb_spec s t) as [->|]; auto.
    rewrite exts_app. cbn. apply app_nil_r.
Qed.

Record addPost (E : list nat) (e : nat) (l : lis) (st st' : nst) : Prop := {
  ap_li : LI E st';
  ap_frame : forall y, e < y -> lst st' y = lst st y;
  ap_exempt : forall q, In q E -> forall s,
     In (LExp q) (lst st' s) <-> In (LExp q) (lst st s) \/ (l = LExp q /\ s = keeper g e /\ stores s = true);
  ap_exts : forall s, exts (lst st' s) = extAdd (keeper g e) l s (exts (lst st s)) }.

Lemma addN_post E e t l st : keeper g e = t -> stores t = true -> (forall q, In q E -> e < q) -> okl E l ->
  LI E st -> kind g t <> KProp -> addPost E e l st (addN t l st).
Proof.
  intros Hk Ht HE Hl I Hnp. pose proof (keeper_le e) as Hle. rewrite Hk in Hle.
  assert (HtE : ~ In t E) by (intros H; specialize (HE t H); lia).
  split.
  - apply addN_LI; auto.
    + intros ->. cbn in Hl. auto.
    + eapply LI_weaken; [|exact I]. intros x; cbn; auto.
    + intros s. rewrite (li_graph _ _ I t) by auto. unfold D. tauto.
  - intros y Hy. apply addN_other. lia.
  - intros q Hq s. rewrite addN_in, Hk. split; [|intuition congruence]. intros [H|[<- ->]]; auto.
  - intros s. rewrite addN_exts by auto. rewrite Hk. reflexivity.
Qed.

Lemma addL_post : forall f e l st E, e < f -> LI E st -> (forall q, In q E -> e < q) -> okl E l ->
  addPost E e l st (addL g f e l st).
Proof.
  induction f as [|f IH]; intros e l st E He I HE Hl; [lia|].
  assert (HeE : ~ In e E) by (intros H; specialize (HE e H); lia).
  cbn [addL]. destruct (kind g e) eqn:Ek.
  - assert (Kc : keeper g e = e) by (unfold keeper; rewrite Ek; auto).
    assert (Sc : stores e = false) by (unfold stores; rewrite Ek; auto).
    split; auto.
    + intros q Hq s. split; auto. intros [H|[_ [-> Hs]]]; auto. congruence.
    + intros s. unfold extAdd. destruct l; auto. rewrite Kc. destruct (Nat.eqb_spec e s) as [<-|]; auto.
      rewrite Sc, andb_false_r. auto.
  - destruct (wf_fwd g W e t Ek) as [Kt _]. apply addN_post; auto.
    + unfold keeper. rewrite Ek. auto.
    + unfold stores. rewrite Kt. auto.
    + rewrite Kt. discriminate.
  - apply addN_post; auto; unfold keeper, stores; rewrite ?Ek; auto; discriminate.
  - apply addN_post; auto; unfold keeper, stores; rewrite ?Ek; auto; discriminate.
  - assert (Kc : keeper g e = e) by (unfold keeper; rewrite Ek; auto).
    assert (Sc : stores e = true) by (unfold stores; rewrite Ek; auto).
    change (xhead g e ++ xparams g e ++ nearest g (S e) e) with (direct e).
    set (st1 := if isNil (lst st e) then _ else st).
    assert (P1 : LI (e :: E) st1 /\ (forall y, e <= y -> lst st1 y = lst st y)
       /\ (forall q, In q E -> forall s, In (LExp q) (lst st1 s) <-> In (LExp q) (lst st s))
       /\ (forall s, exts (lst st1 s) = exts (lst st s))
       /\ (forall s, In (LExp e) (lst st1 s) <-> D e s)).
    { subst st1. destruct (lst st e) as [|l0 r0] eqn:El; cbn [isNil].
      2:{ split; [eapply LI_weaken; [|exact I]; intros x; cbn; auto|]. split; [auto|]. split; [tauto|]. split; [auto|].
          intros s. rewrite (li_graph _ _ I e) by auto. rewrite El. split; [tauto|]. intros H; split; auto. discriminate. }
      assert (Hd : forall d, In d (direct e) -> d < e) by (intros d; apply direct_lt).
      assert (I1 : LI (e :: E) st) by (eapply LI_weaken; [|exact I]; intros x; cbn; auto).
      assert (Hno : forall s, ~ In (LExp e) (lst st s)).
      { intros s H. apply (li_graph _ _ I e) in H; auto. destruct H as [H _]. auto. }
      assert (G : forall ds st2, (forall d, In d ds -> d < e) -> LI (e :: E) st2 ->
        let st3 := fold_left (fun s d => addL g f d (LExp e) s) ds st2 in
        LI (e :: E) st3 /\ (forall y, e <= y -> lst st3 y = lst st2 y)
        /\ (forall q, In q E -> forall s, In (LExp q) (lst st3 s) <-> In (LExp q) (lst st2 s))
        /\ (forall s, exts (lst st3 s) = exts (lst st2 s))
        /\ (forall s, In (LExp e) (lst st3 s) <-> In (LExp e) (lst st2 s) \/ stores s = true /\ exists d, In d ds /\ s = keeper g d)).
      { clear - IH HE HeE He W. induction ds as [|d ds IHd]; intros st2 Hlt I2; cbn [fold_left].
        - cbn. split; [auto|]. split; [auto|]. split; [tauto|]. split; [auto|].
          intros s. split; [auto|]. intros [H|[_ [d [[] _]]]]; auto.
        - assert (Hde : d < e) by (apply Hlt; left; auto).
          destruct (IH d (LExp e) st2 (e :: E)) as [Q1 Q2 Q3 Q4]; auto; [lia| |left; auto|].
          { intros q [<-|Hq]; auto. specialize (HE q Hq). lia. }
          destruct (IHd (addL g f d (LExp e) st2)) as [R1 [R2 [R3 [R4 R5]]]]; auto.
          { intros d' Hd'. apply Hlt. right; auto. }
          split; [auto|]. split; [|split; [|split]].
          + intros y Hy. rewrite R2 by auto. apply Q2. lia.
          + intros q Hq s. rewrite R3 by auto. rewrite Q3 by (right; auto).
            split; [|auto]. intros [H|[H _]]; auto. injection H as ->. contradiction.
          + intros s. rewrite R4, Q4. reflexivity.
          + intros s. rewrite R5, Q3 by (left; auto). split.
            * intros [[H|[_ [-> Hs]]]|[Hs [d' [H1 H2]]]]; auto.
              -- right. split; auto. exists d. split; [left|]; auto.
              -- right. split; auto. exists d'. split; [right|]; auto.
            * intros [H|[Hs [d' [[->|H1] H2]]]]; auto.
              right. split; auto. exists d'; auto. }
      destruct (G (direct e) st Hd I1) as [R1 [R2 [R3 [R4 R5]]]].
      split; [auto|]. split; [intros y Hy; apply R2; auto|]. split; [auto|]. split; [auto|].
      intros s. rewrite R5. unfold D. split.
      - intros [H|H]; [destruct (Hno s H)|]. auto.
      - intros [_ H]; auto. }
    destruct P1 as [Q1 [Q2 [Q3 [Q4 Q5]]]].
    split.
    + apply addN_LI; auto. intros ->. cbn in Hl. auto.
    + intros y Hy. rewrite addN_other by lia. apply Q2. lia.
    + intros q Hq s. rewrite addN_in, Q3, Kc by auto. split; [|intuition congruence].
      intros [H|[<- ->]]; auto.
    + intros s. rewrite addN_exts by auto. rewrite Q4, Kc. reflexivity.
Qed.

(** ** Removing *)
Lemma rmN_other t l st s : s <> t -> lst (rmN t l st) s = lst st s.
Proof. intros H. cbn. apply updn_other; auto. Qed.
Lemma rmN_in t l st s y : NoDup (lst st t) ->
  (In y (lst (rmN t l st) s) <-> In y (lst st s) /\ ~ (y = l /\ s = t)).
Proof.
  intros N. cbn. unfold updn. destruct (Nat.eqb_spec s t) as [->|Hn].
  - rewrite removeFirst_in by auto. intuition congruence.
  - intuition congruence.
Qed.
Definition extRm (t : nat) (l : lis) (s : nat) (xs : list nat) : list nat :=
  match l with
  | LExt x => if Nat.eqb t s then filter (fun z => negb (Nat.eqb x z)) xs else xs
  | LExp _ => xs
  end.
Lemma rmN_exts t l st s : NoDup (lst st t) -> exts (lst (rmN t l st) s) = extRm t l s (exts (lst st s)).
Proof.
  intros N. cbn. unfold updn, extRm. rewrite (Nat.eqb_sym t s). destruct (Nat.eqb_spec s t) as [->|Hn].
  - apply exts_remove; auto.
  - destruct l; auto.
Qed.

Record rmPost (E : list nat) (e : nat) (l : lis) (st st' : nst) : Prop := {
  rp_li : LI E st';
  rp_frame : forall y, e < y -> lst st' y = lst st y;
  rp_exempt : forall q, In q E -> forall s,
     In (LExp q) (lst st' s) <-> In (LExp q) (lst st s) /\ ~ (l = LExp q /\ s = keeper g e);
  rp_exts : forall s, exts (lst st' s) = extRm (keeper g e) l s (exts (lst st s)) }.

Lemma rmN_LI E t l st : okl E l -> ~ In t E -> LI E st -> LI (t :: E) (rmN t l st).
Proof.
  intros Hl Ht I. split.
  - intros s. cbn. unfold updn. destruct (Nat.eqb_spec s t) as [->|]; [|apply I].
    apply removeFirst_nodup, I.
  - intros s Hs. cbn. unfold updn. destruct (Nat.eqb_spec s t) as [->|]; [|apply I; auto].
    rewrite (li_stores _ _ I t Hs). reflexivity.
  - intros p Hp s. cbn in Hp. rewrite rmN_in by apply I.
    rewrite rmN_other by intuition congruence.
    rewrite (li_graph _ _ I p) by intuition congruence.
    split; [tauto|]. intros [H1 H2]. split; auto. intros [<- _]. cbn in Hl. tauto.
Qed.

Lemma rmN_post E e t l st : keeper g e = t -> (forall q, In q E -> e < q) -> okl E l ->
  LI E st -> kind g t <> KProp -> rmPost E e l st (rmN t l st).
Proof.
  intros Hk HE Hl I Hnp. pose proof (keeper_le e) as Hle. rewrite Hk in Hle.
  assert (HtE : ~ In t E) by (intros H; specialize (HE t H); lia).
  pose proof (rmN_LI E t l st Hl HtE I) as I1.
  split.
  - split; try apply I1. intros p Hp s. destruct (Nat.eq_dec p t) as [->|Hn].
    + rewrite rmN_in by apply I. rewrite (li_graph _ _ I t) by auto. unfold D. tauto.
    + apply (li_graph _ _ I1). cbn. intuition congruence.
  - intros y Hy. apply rmN_other. lia.
  - intros q Hq s. rewrite rmN_in, Hk by apply I. split; intros [H1 H2]; split; auto; intros [H3 H4]; apply H2; auto.
  - intros s. rewrite rmN_exts by apply I. rewrite Hk. reflexivity.
Qed.

Hypothesis FP : few_params g.

Lemma rmL_post : forall f e l st E, e < f -> LI E st -> (forall q, In q E -> e < q) -> okl E l ->
  rmPost E e l st (rmL g f e l st).
Proof.
  induction f as [|f IH]; intros e l st E He I HE Hl; [lia|].
  assert (HeE : ~ In e E) by (intros H; specialize (HE e H); lia).
  cbn [rmL]. destruct (kind g e) eqn:Ek.
  - assert (Kc : keeper g e = e) by (unfold keeper; rewrite Ek; auto).
    assert (Sc : stores e = false) by (unfold stores; rewrite Ek; auto).
    split; auto.
    + intros q Hq s. rewrite Kc. split; [|tauto]. intros H. split; auto. intros [_ ->].
      rewrite (li_stores _ _ I e Sc) in H. contradiction.
    + intros s. unfold extRm. destruct l; auto. rewrite Kc. destruct (Nat.eqb_spec e s) as [<-|]; auto.
      rewrite (li_stores _ _ I e Sc). reflexivity.
  - destruct (wf_fwd g W e t Ek) as [Kt _]. apply rmN_post; auto.
    + unfold keeper. rewrite Ek. auto.
    + rewrite Kt. discriminate.
  - apply rmN_post; auto; unfold keeper; rewrite ?Ek; auto; discriminate.
  - apply rmN_post; auto; unfold keeper; rewrite ?Ek; auto; discriminate.
  - assert (Kc : keeper g e = e) by (unfold keeper; rewrite Ek; auto).
    pose proof (rmN_LI E e l st Hl HeE I) as I1.
    assert (Hle : l <> LExp e) by (intros ->; cbn in Hl; auto).
    set (st1 := rmN e l st) in *.
    assert (B1 : forall y, e < y -> lst st1 y = lst st y) by (intros y Hy; apply rmN_other; lia).
    assert (B2 : forall q, In q E -> forall s, In (LExp q) (lst st1 s) <-> In (LExp q) (lst st s) /\ ~ (l = LExp q /\ s = keeper g e)).
    { intros q Hq s. unfold st1. rewrite rmN_in, Kc by apply I. split; intros [H1 H2]; split; auto; intros [H3 H4]; apply H2; auto. }
    assert (B3 : forall s, exts (lst st1 s) = extRm (keeper g e) l s (exts (lst st s))).
    { intros s. unfold st1. rewrite rmN_exts by apply I. rewrite Kc. reflexivity. }
    assert (B4 : forall s, In (LExp e) (lst st1 s) <-> In (LExp e) (lst st s)).
    { intros s. unfold st1. rewrite rmN_in by apply I. intuition congruence. }
    destruct (lst st1 e) as [|l0 r0] eqn:El; cbn [isNil].
    + pose proof (FP e) as Hfp. apply Nat.leb_le in Hfp. rewrite Hfp.
      assert (G : forall ds st2, (forall d, In d ds -> d < e) -> LI (e :: E) st2 ->
        let st3 := fold_left (fun s d => rmL g f d (LExp e) s) ds st2 in
        LI (e :: E) st3 /\ (forall y, e <= y -> lst st3 y = lst st2 y)
        /\ (forall q, In q E -> forall s, In (LExp q) (lst st3 s) <-> In (LExp q) (lst st2 s))
        /\ (forall s, exts (lst st3 s) = exts (lst st2 s))
        /\ (forall s, In (LExp e) (lst st3 s) <-> In (LExp e) (lst st2 s) /\ ~ exists d, In d ds /\ s = keeper g d)).
      { clear - IH HE HeE He W. induction ds as [|d ds IHd]; intros st2 Hlt I2; cbn [fold_left].
        - cbn. split; [auto|]. split; [auto|]. split; [tauto|]. split; [auto|].
          intros s. split; [|tauto]. intros H. split; auto. intros [d [[] _]].
        - assert (Hde : d < e) by (apply Hlt; left; auto).
          destruct (IH d (LExp e) st2 (e :: E)) as [Q1 Q2 Q3 Q4]; auto; [lia| |left; auto|].
          { intros q [<-|Hq]; auto. specialize (HE q Hq). lia. }
          destruct (IHd (rmL g f d (LExp e) st2)) as [R1 [R2 [R3 [R4 R5]]]]; auto.
          { intros d' Hd'. apply Hlt. right; auto. }
          split; [auto|]. split; [|split; [|split]].
          + intros y Hy. rewrite R2 by auto. apply Q2. lia.
          + intros q Hq s. rewrite R3 by auto. rewrite Q3 by (right; auto).
            split; [tauto|]. intros H. split; auto. intros [H1 _]. injection H1 as ->. contradiction.
          + intros s. rewrite R4, Q4. reflexivity.
          + intros s. rewrite R5, Q3 by (left; auto). split.
            * intros [[H1 H2] H3]. split; auto. intros [d' [[<-|Hd'] ->]]; [apply H2; auto|].
              apply H3. exists d'; auto.
            * intros [H1 H2]. split; [split; auto|].
              -- intros [_ ->]. apply H2. exists d. split; [left|]; auto.
              -- intros [d' [Hd' ->]]. apply H2. exists d'. split; [right|]; auto. }
      assert (Hd : forall d, In d (direct e) -> d < e) by (intros d; apply direct_lt).
      destruct (G (nearest g (S e) e) st1) as [R1 [R2 [R3 [R4 R5]]]]; auto.
      { intros d H. apply Hd. unfold direct. rewrite !in_app_iff. auto. }
      set (st2 := fold_left _ (nearest g (S e) e) st1) in *.
      destruct (G (xparams g e) st2) as [S1 [S2 [S3 [S4 S5]]]]; auto.
      { intros d H. apply Hd. unfold direct. rewrite !in_app_iff. auto. }
      set (st3 := fold_left _ (xparams g e) st2) in *.
      destruct (G (rev (xhead g e)) st3) as [T1 [T2 [T3 [T4 T5]]]]; auto.
      { intros d H. apply in_rev in H. apply Hd. unfold direct. rewrite !in_app_iff. auto. }
      set (st4 := fold_left _ (rev (xhead g e)) st3) in *.
      assert (Hnone : forall s, ~ In (LExp e) (lst st4 s)).
      { intros s H. apply T5 in H. destruct H as [H N1]. apply S5 in H. destruct H as [H N2].
        apply R5 in H. destruct H as [H N3]. apply B4 in H.
        apply (li_graph _ _ I e) in H; auto. destruct H as [_ [_ [_ [d [Hin ->]]]]].
        unfold direct in Hin. rewrite !in_app_iff in Hin. destruct Hin as [Hin|[Hin|Hin]].
        - apply N1. exists d. split; auto. apply -> in_rev. auto.
        - apply N2. exists d; auto.
        - apply N3. exists d; auto. }
      split.
      * split; try apply T1. intros p Hp s. destruct (Nat.eq_dec p e) as [->|Hn].
        -- split; [intros H; destruct (Hnone s H)|]. intros [H _]. rewrite T2, S2, R2 in H by auto. congruence.
        -- apply (li_graph _ _ T1). cbn. intuition congruence.
      * intros y Hy. rewrite T2, S2, R2 by lia. auto.
      * intros q Hq s. rewrite T3, S3, R3 by auto. auto.
      * intros s. rewrite T4, S4, R4. auto.
    + split; auto. split; try apply I1. intros p Hp s. destruct (Nat.eq_dec p e) as [->|Hn].
      * rewrite B4, (li_graph _ _ I e) by auto. rewrite El. split; [intros [_ H]; split; auto; discriminate|].
        intros [_ H]. split; auto. intros E0.
        assert (lst st1 e = []); [|congruence]. unfold st1. cbn. rewrite updn_same, E0. reflexivity.
      * apply (li_graph _ _ I1). cbn. intuition congruence.
Qed.
End L.
