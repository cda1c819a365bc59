(** Proofs about activation and notification. *)
From Coq Require Import List Arith ZArith Lia Bool.
From Verif Require Import NotifyModel NotifySpec.
Import ListNotations.

(** * Activation *)

Definition dlt (a x : nat) : Z := if Nat.eqb a x then 1%Z else 0%Z.
Fixpoint mult (l : list nat) (x : nat) : Z :=
  match l with [] => 0 | a :: r => dlt a x + mult r x end%Z.
Fixpoint sumn (n : nat) (f : nat -> Z) : Z :=
  match n with 0 => 0%Z | S k => (sumn k f + f k)%Z end.

Lemma sumn_ext n f h : (forall i, i < n -> f i = h i) -> sumn n f = sumn n h.
Proof. induction n; cbn; intros H; auto. rewrite IHn, H; auto. Qed.
Lemma sumn_nonneg n f : (forall i, (i < n)%nat -> (0 <= f i)%Z) -> (0 <= sumn n f)%Z.
Proof. induction n; cbn; intros H; [lia|]. pose proof (H n ltac:(lia)). assert (0 <= sumn n f)%Z by (apply IHn; intros; apply H; lia). lia. Qed.
Lemma sumn_ge n f i : (forall i, (i < n)%nat -> (0 <= f i)%Z) -> i < n -> (f i <= sumn n f)%Z.
Proof.
  induction n; cbn; intros H Hi; [lia|].
  assert (0 <= sumn n f)%Z by (apply sumn_nonneg; intros; apply H; lia).
  pose proof (H n ltac:(lia)).
  destruct (Nat.eq_dec i n); [subst; lia|].
  assert (f i <= sumn n f)%Z by (apply IHn; [intros; apply H; lia|lia]). lia.
Qed.
Lemma sumn_pos n f : (0 < sumn n f)%Z -> exists i, i < n /\ (0 < f i)%Z.
Proof.
  induction n; cbn; intros H; [lia|].
  destruct (Z_lt_le_dec 0 (f n)) as [Hn|Hn]; [exists n; auto|].
  destruct IHn as [i [Hi Hf]]; [lia|]. exists i; auto.
Qed.
Lemma sumn_upd n f h e : e < n -> (forall i, i <> e -> f i = h i) -> (sumn n h = sumn n f + (h e - f e))%Z.
Proof.
  induction n; cbn; intros He H; [lia|].
  destruct (Nat.eq_dec e n) as [->|Hn].
  - rewrite (sumn_ext n h f); [lia|]. intros i Hi. symmetry. apply H. lia.
  - rewrite IHn, (H n) by (auto; lia). lia.
Qed.
Lemma mult_nonneg l x : (0 <= mult l x)%Z.
Proof. induction l as [|a l IH]; cbn; [lia|]. unfold dlt. destruct (Nat.eqb a x); lia. Qed.
Lemma mult_pos l x : (0 < mult l x)%Z <-> In x l.
Proof.
  induction l as [|a l IH]; cbn; [lia|]. pose proof (mult_nonneg l x). unfold dlt.
  destruct (Nat.eqb_spec a x) as [->|Hn]; [split; [auto|lia]|].
  rewrite <- IH. split; [right; lia|]. intros [E|E]; [congruence|lia].
Qed.

Lemma updn_same {A} (f : nat -> A) e x : updn f e x e = x.
Proof. unfold updn. rewrite Nat.eqb_refl. reflexivity. Qed.
Lemma updn_other {A} (f : nat -> A) e x y : y <> e -> updn f e x y = f y.
Proof. unfold updn. intros H. destruct (Nat.eqb_spec y e); congruence. Qed.

Section A.
Variable g : graph.
Hypothesis W : wf g.

Lemma counted_lt e : counted g e = true -> e < gsize g.
Proof.
  intros H. destruct (le_lt_dec (gsize g) e) as [L|L]; auto.
  unfold counted in H. rewrite (wf_size g W e L) in H. discriminate.
Qed.
Lemma akids_counted e k : In k (akids g e) -> counted g e = true.
Proof.
  intros H. unfold counted. destruct (wf_akind g W e) as [E|E].
  - intros E; rewrite E in H; contradiction.
  - rewrite E; auto.
  - rewrite E; auto.
Qed.

(** The contribution of active users. *)
Definition fromUsers (st : nst) (x : nat) : Z :=
  sumn (gsize g) (fun p => if Nat.ltb 0 (cnt st p) then mult (akids g p) x else 0%Z).

(** Count of [x] = outside activations + uses by active expressions. *)
Definition AInv (ext : nat -> Z) (st : nst) : Prop :=
  forall x, counted g x = true -> Z.of_nat (cnt st x) = (ext x + fromUsers st x)%Z.

Lemma AInv_ext ext ext' st : (forall x, ext x = ext' x) -> AInv ext st -> AInv ext' st.
Proof. intros H I x Hx. rewrite <- H. auto. Qed.

Lemma fromUsers_set e c st x : e < gsize g ->
  fromUsers (setCnt e c st) x =
  (fromUsers st x + ((if Nat.ltb 0 c then mult (akids g e) x else 0)
                     - (if Nat.ltb 0 (cnt st e) then mult (akids g e) x else 0)))%Z.
Proof.
  intros He. unfold fromUsers.
  rewrite (sumn_upd (gsize g) (fun p => if Nat.ltb 0 (cnt st p) then mult (akids g p) x else 0%Z) _ e He).
  - cbn [cnt setCnt]. rewrite updn_same. reflexivity.
  - intros i Hi. cbn [cnt setCnt]. rewrite updn_other; auto.
Qed.

Lemma act_inv : forall f e st ext, e < f -> AInv ext st ->
  AInv (fun x => ext x + dlt e x)%Z (act g f e st).
Proof.
  induction f as [|f IH]; intros e st ext He I; [lia|].
  cbn [act]. destruct (counted g e) eqn:Hc.
  2:{ intros x Hx. unfold dlt. destruct (Nat.eqb_spec e x); [congruence|]. rewrite (I x Hx). lia. }
  assert (Hlt := counted_lt e Hc).
  destruct (Nat.eqb_spec (cnt st e) 0) as [Z|NZ].
  - set (ext1 := fun x => (ext x + dlt e x - mult (akids g e) x)%Z).
    assert (I1 : AInv ext1 (setCnt e (S (cnt st e)) st)).
    { intros x Hx. rewrite fromUsers_set by auto. rewrite Z. cbn [Nat.ltb Nat.leb].
      unfold ext1. cbn [cnt setCnt]. unfold updn, dlt. rewrite (Nat.eqb_sym x e).
      destruct (Nat.eqb_spec e x) as [->|Hn].
      - specialize (I x Hx). rewrite Z in I. lia.
      - specialize (I x Hx). lia. }
    assert (Hk : forall l st2 ext2, (forall k, In k l -> k < f) -> AInv ext2 st2 ->
       AInv (fun x => ext2 x + mult l x)%Z (fold_left (fun s k => act g f k s) l st2)).
    { clear - IH. induction l as [|a l IHl]; intros st2 ext2 Hl I2; cbn [fold_left mult].
      - eapply AInv_ext; [|exact I2]. intros; cbn; lia.
      - eapply AInv_ext; [|apply (IHl (act g f a st2) (fun x => ext2 x + dlt a x)%Z)].
        + intros x; cbn. lia.
        + intros k Hk. apply Hl. right; auto.
        + apply IH; auto. apply Hl. left; auto. }
    eapply AInv_ext; [|apply (Hk (akids g e) _ ext1); auto].
    + intros x. unfold ext1. cbn. lia.
    + intros k Hin. pose proof (wf_akids g W e k Hin). lia.
  - intros x Hx. rewrite fromUsers_set by auto.
    destruct (Nat.ltb_spec 0 (S (cnt st e))); [|lia]. destruct (Nat.ltb_spec 0 (cnt st e)); [|lia].
    cbn [cnt setCnt]. unfold updn, dlt. rewrite (Nat.eqb_sym x e). specialize (I x Hx).
    destruct (Nat.eqb_spec e x) as [->|Hn]; lia.
Qed.

Lemma fromUsers_nonneg st x : (0 <= fromUsers st x)%Z.
Proof. apply sumn_nonneg. intros i _. destruct (Nat.ltb 0 (cnt st i)); [apply mult_nonneg|lia]. Qed.

Lemma deact_inv : forall f e st ext, e < f -> AInv ext st -> (forall x, 0 <= ext x)%Z -> (1 <= ext e)%Z ->
  exists st', deact g f e st = Some st' /\ AInv (fun x => ext x - dlt e x)%Z st'.
Proof.
  induction f as [|f IH]; intros e st ext He I Hp H1; [lia|].
  cbn [deact]. destruct (counted g e) eqn:Hc.
  2:{ exists st. split; auto. intros x Hx. unfold dlt. destruct (Nat.eqb_spec e x); [congruence|]. rewrite (I x Hx). lia. }
  assert (Hlt := counted_lt e Hc).
  pose proof (I e Hc) as Ie. pose proof (fromUsers_nonneg st e).
  destruct (cnt st e) as [|c] eqn:Ec; [lia|].
  destruct (Nat.eqb_spec c 0) as [->|NZ].
  - set (ext1 := fun x => (ext x - dlt e x + mult (akids g e) x)%Z).
    assert (I1 : AInv ext1 (setCnt e 0 st)).
    { intros x Hx. rewrite fromUsers_set by auto. rewrite Ec. cbn [Nat.ltb Nat.leb].
      unfold ext1. cbn [cnt setCnt]. unfold updn, dlt. rewrite (Nat.eqb_sym x e).
      destruct (Nat.eqb_spec e x) as [->|Hn]; specialize (I x Hx); lia. }
    assert (Hk : forall l st2 ext2, (forall k, In k l -> k < f) -> AInv ext2 st2 ->
       (forall x, mult l x <= ext2 x)%Z ->
       exists st', fold_left (fun os k => match os with Some s => deact g f k s | None => None end) l (Some st2) = Some st'
         /\ AInv (fun x => ext2 x - mult l x)%Z st').
    { clear - IH. induction l as [|a l IHl]; intros st2 ext2 Hl I2 Hm; cbn [fold_left mult].
      - exists st2. split; auto. eapply AInv_ext; [|exact I2]. intros; cbn; lia.
      - destruct (IH a st2 ext2) as [st3 [E3 I3]]; auto.
        + apply Hl. left; auto.
        + intros x. specialize (Hm x). pose proof (mult_nonneg (a :: l) x). lia.
        + specialize (Hm a). cbn [mult] in Hm. unfold dlt in Hm. rewrite Nat.eqb_refl in Hm.
          pose proof (mult_nonneg l a). lia.
        + rewrite E3. destruct (IHl st3 (fun x => ext2 x - dlt a x)%Z) as [st4 [E4 I4]]; auto.
          * intros k Hk. apply Hl. right; auto.
          * intros x. specialize (Hm x). cbn [mult] in Hm. lia.
          * exists st4. split; auto. eapply AInv_ext; [|exact I4]. intros; cbn; lia. }
    destruct (Hk (akids g e) (setCnt e 0 st) ext1) as [st' [E' I']]; auto.
    + intros k Hin. pose proof (wf_akids g W e k Hin). lia.
    + intros x. unfold ext1, dlt. pose proof (Hp x). destruct (Nat.eqb_spec e x) as [->|]; lia.
    + exists st'. split; auto. eapply AInv_ext; [|exact I']. intros x. unfold ext1. cbn. lia.
  - eexists. split; [reflexivity|]. intros x Hx. rewrite fromUsers_set by auto.
    rewrite Ec. destruct (Nat.ltb_spec 0 c); [|lia]. destruct (Nat.ltb_spec 0 (S c)); [|lia].
    cbn [cnt setCnt]. unfold updn, dlt. rewrite (Nat.eqb_sym x e). specialize (I x Hx).
    destruct (Nat.eqb_spec e x) as [->|Hn]; lia.
Qed.

(** Listener calls do not touch the counters. *)
Lemma addN_cnt e l st : cnt (addN e l st) = cnt st.
Proof. unfold addN. destruct existsb; reflexivity. Qed.
Lemma addL_cnt : forall f e l st, cnt (addL g f e l st) = cnt st.
Proof.
  induction f as [|f IH]; intros e l st; cbn [addL]; auto.
  destruct (kind g e); auto using addN_cnt.
  rewrite addN_cnt. destruct (isNil (lst st e)); auto.
  generalize (xhead g e ++ xparams g e ++ nearest g (S e) e). intros ds. revert st.
  induction ds as [|d ds IHd]; intros st; cbn [fold_left]; auto. rewrite IHd. auto.
Qed.
Lemma foldL_cnt (F : nst -> nat -> nst) ds : (forall s d, cnt (F s d) = cnt s) ->
  forall st, cnt (fold_left F ds st) = cnt st.
Proof. intros H. induction ds as [|d ds IH]; intros st; cbn [fold_left]; auto. rewrite IH. auto. Qed.
Lemma rmL_cnt : forall f e l st, cnt (rmL g f e l st) = cnt st.
Proof.
  induction f as [|f IH]; intros e l st; cbn [rmL]; auto.
  destruct (kind g e); auto.
  destruct (isNil _); auto.
  rewrite foldL_cnt by auto.
  destruct (Nat.leb _ 4); rewrite foldL_cnt by (auto using addL_cnt); rewrite foldL_cnt by auto; reflexivity.
Qed.

Lemma AInv_cnt ext st st' : cnt st' = cnt st -> AInv ext st -> AInv ext st'.
Proof.
  intros E I x Hx. unfold fromUsers. rewrite E. apply I; auto.
Qed.

Lemma balanced_held h e : balanced h -> (0 <= held h e)%Z.
Proof.
  induction h as [|o h IH]; cbn [balanced held]; intros B; [lia|].
  destruct o as [y|y|y x|y x]; auto.
  - specialize (IH B). destruct (Nat.eqb y e); lia.
  - destruct B as [B1 B2]. specialize (IH B2). destruct (Nat.eqb_spec y e) as [->|]; lia.
Qed.

Lemma run_inv h : balanced h -> exists st, nrun g h = Some st /\ AInv (held h) st.
Proof.
  induction h as [|o h IH]; cbn [balanced nrun]; intros B.
  - exists nst0. split; auto. intros x Hx. unfold fromUsers. cbn.
    assert (forall n, sumn n (fun p => if Nat.ltb 0 0 then mult (akids g p) x else 0%Z) = 0%Z) as E.
    { induction n as [|n IH]; [reflexivity|]. cbn [sumn]. rewrite IH. reflexivity. }
    symmetry. exact (E (gsize g)).
  - assert (Bh : balanced h) by (destruct o; tauto).
    destruct (IH Bh) as [st [E I]]. rewrite E.
    destruct o as [e|e|e x|e x]; cbn [nstep held].
    + eexists. split; [reflexivity|]. unfold activate.
      eapply AInv_ext; [|apply act_inv; [lia|exact I]]. intros y; reflexivity.
    + destruct B as [B1 _].
      destruct (deact_inv (S e) e st (held h)) as [st' [E' I']]; auto; [|lia|].
      * intros y. apply balanced_held; auto.
      * exists st'. split; auto.
    + eexists. split; [reflexivity|]. eapply AInv_cnt; [|exact I]. apply addL_cnt.
    + eexists. split; [reflexivity|]. eapply AInv_cnt; [|exact I]. apply rmL_cnt.
Qed.

Lemma AInv_active_iff ext st e : AInv ext st -> (forall x, 0 <= ext x)%Z -> counted g e = true ->
  (0 < cnt st e <-> exists r, counted g r = true /\ (0 < ext r)%Z /\ uses g r e).
Proof.
  intros I Hp Hc. split.
  - remember (gsize g - e) as m eqn:Em. revert e Hc Em.
    induction m as [m IH] using lt_wf_ind. intros e Hc Em H.
    pose proof (I e Hc) as Ie.
    destruct (Z_lt_le_dec 0 (ext e)) as [He|He].
    + exists e. repeat split; auto. constructor.
    + assert (0 < fromUsers st e)%Z by lia. apply sumn_pos in H0. destruct H0 as [p [Hpn Hf]].
      destruct (Nat.ltb_spec 0 (cnt st p)) as [Hpa|]; [|lia].
      apply mult_pos in Hf.
      assert (Hcp := akids_counted p e Hf).
      pose proof (wf_akids g W p e Hf). pose proof (counted_lt p Hcp).
      destruct (IH (gsize g - p) ltac:(lia) p Hcp eq_refl Hpa) as [r [Hr [Hx Hu]]].
      exists r. repeat split; auto.
      clear - Hu Hf. induction Hu; [econstructor; eauto; constructor|]. econstructor; eauto.
  - intros [r [Hr [Hx Hu]]].
    assert (0 < cnt st r).
    { pose proof (I r Hr). pose proof (fromUsers_nonneg st r). lia. }
    clear Hx. induction Hu as [|p k e Hin Hu IH]; auto.
    destruct (counted g k) eqn:Hk.
    + apply IH; auto. pose proof (I k Hk). pose proof (Hp k).
      assert (1 <= fromUsers st k)%Z.
      { unfold fromUsers.
        transitivity (if Nat.ltb 0 (cnt st p) then mult (akids g p) k else 0%Z).
        - destruct (Nat.ltb_spec 0 (cnt st p)); [|lia]. apply mult_pos in Hin. lia.
        - apply (sumn_ge (gsize g) (fun p => if Nat.ltb 0 (cnt st p) then mult (akids g p) k else 0%Z)).
          + intros i _. destruct (Nat.ltb 0 (cnt st i)); [apply mult_nonneg|lia].
          + apply counted_lt. eapply akids_counted; eauto. }
      lia.
    + exfalso. inversion Hu; subst; [congruence|].
      match goal with H : In _ (akids g k) |- _ => apply akids_counted in H; congruence end.
Qed.
End A.
