(** C25: reservable resources have one holder and wake their waiters.
    The specification is in terms of the visible history only. *)
From Coq Require Import List PeanoNat Bool Lia Sorted.
From Verif Require Import ReservableModel.
Import ListNotations.

Definition hist := list (rop * robs).

(** Node [n] holds the resource: it was granted it and has not released it since. *)
Definition holds (h : hist) (n : nat) : Prop :=
  exists h1 h2, h = h1 ++ (Acq n, OGranted) :: h2
                /\ forall b, ~ In (Rel n, b) h2.

(** Calls that put [n] on the waiting list, and calls that take it off. *)
Definition registers (n : nat) (e : rop * robs) : Prop :=
  e = (Acq n, ORefused) \/ e = (AddW n, ODone).
Definition deregisters (n : nat) (e : rop * robs) : Prop :=
  e = (Acq n, OGranted) \/ e = (RemW n, ODone).

(** [n] has been waiting continuously since event number [i]. *)
Definition waiting_since (h : hist) (n i : nat) : Prop :=
  (exists e, nth_error h i = Some e /\ registers n e)
  /\ (forall j e, i < j -> nth_error h j = Some e -> ~ deregisters n e)
  /\ (forall j e, j < i -> nth_error h j = Some e -> registers n e ->
        exists k e', j < k < i /\ nth_error h k = Some e' /\ deregisters n e').

Definition waiting (h : hist) (n : nat) : Prop := exists i, waiting_since h n i.

(** ** Proofs *)

Lemma rrun_app : forall a b r,
  rrun (a ++ b) r =
  (let (r1, h1) := rrun a r in let (r2, h2) := rrun b r1 in (r2, h1 ++ h2)).
Proof.
  induction a as [|o a IH]; intros b r; cbn [rrun app].
  - destruct (rrun b r); reflexivity.
  - destruct (rstep o r) as [r1 ob]. rewrite IH.
    destruct (rrun a r1) as [r2 h]. destruct (rrun b r2); reflexivity.
Qed.

Lemma nth_snoc : forall (A : Type) (h : list A) x j e,
  nth_error (h ++ [x]) j = Some e ->
  (j < length h /\ nth_error h j = Some e) \/ (j = length h /\ e = x).
Proof.
  intros A h x j e H. destruct (Nat.lt_ge_cases j (length h)).
  - left. rewrite nth_error_app1 in H by assumption. auto.
  - right. rewrite nth_error_app2 in H by assumption.
    assert (j < length (h ++ [x])) by (apply nth_error_Some; rewrite nth_error_app2 by assumption; congruence).
    rewrite app_length in *; cbn in *.
    assert (j = length h) by lia. subst. rewrite Nat.sub_diag in H. cbn in H. split; congruence.
Qed.

Lemma nth_lt : forall (A : Type) (h : list A) i e, nth_error h i = Some e -> i < length h.
Proof. intros. apply nth_error_Some. congruence. Qed.

Lemma ws_keep : forall h x n i,
  ~ deregisters n x -> waiting_since h n i -> waiting_since (h ++ [x]) n i.
Proof.
  intros h x n i Hx ((e & He & Hr) & H2 & H3).
  pose proof (nth_lt _ _ _ _ He) as Hl. split; [|split].
  - exists e. rewrite nth_error_app1 by assumption. auto.
  - intros j e' Hj He'. apply nth_snoc in He' as [[_ E]|[_ ->]]; eauto.
  - intros j e' Hj He' Hr'. apply nth_snoc in He' as [[_ E]|[-> _]]; [|lia].
    destruct (H3 j e' Hj E Hr') as (k & e'' & Hk & Ek & Hd).
    exists k, e''. rewrite nth_error_app1 by lia. auto.
Qed.

Lemma ws_unsnoc : forall h x n i,
  waiting_since (h ++ [x]) n i ->
  (waiting_since h n i /\ ~ deregisters n x) \/ (i = length h /\ registers n x).
Proof.
  intros h x n i ((e & He & Hr) & H2 & H3).
  apply nth_snoc in He as [[Hl E]|[-> ->]]; [left|right; auto].
  split; [split; [eauto|split]|].
  - intros j e' Hj E'. apply (H2 j e' Hj). rewrite nth_error_app1; auto. eapply nth_lt; eauto.
  - intros j e' Hj E' Hr'.
    assert (E2 : nth_error (h ++ [x]) j = Some e') by (rewrite nth_error_app1; auto; lia).
    destruct (H3 j e' Hj E2 Hr') as (k & e'' & Hk & Ek & Hd).
    exists k, e''. rewrite nth_error_app1 in Ek by lia. auto.
  - apply (H2 (length h) x Hl). rewrite nth_error_app2, Nat.sub_diag by lia. reflexivity.
Qed.

Lemma ws_unique : forall h n i j, waiting_since h n i -> waiting_since h n j -> i = j.
Proof.
  intros h n i j ((e & He & Hr) & H2 & H3) ((e' & He' & Hr') & H2' & H3').
  destruct (Nat.lt_trichotomy i j) as [L|[L|L]]; auto.
  - destruct (H3' i e L He Hr) as (k & d & Hk & Ek & Hd). exfalso. eapply (H2 k); eauto. lia.
  - destruct (H3 j e' L He' Hr') as (k & d & Hk & Ek & Hd). exfalso. eapply (H2' k); eauto. lia.
Qed.

(** The waiting list and its registration times agree with the history. *)
Definition WL (h : hist) (ws : list nat) : Prop :=
  exists is, Forall2 (waiting_since h) ws is /\ StronglySorted lt is
             /\ forall m, waiting h m -> In m ws.

Lemma F2_in_l : forall (A B : Type) (R : A -> B -> Prop) l k x,
  Forall2 R l k -> In x l -> exists y, In y k /\ R x y.
Proof.
  induction 1; cbn; [tauto|]. intros [->|H1].
  - eauto.
  - destruct (IHForall2 H1) as (y' & ? & ?). eauto.
Qed.

Lemma Forall2_impl : forall (A B : Type) (P Q : A -> B -> Prop) l k,
  (forall a b, P a b -> Q a b) -> Forall2 P l k -> Forall2 Q l k.
Proof. induction 2; constructor; auto. Qed.

Lemma WL_nodup : forall h ws, WL h ws -> NoDup ws.
Proof.
  intros h ws (is & HF & HS & _). revert HS.
  induction HF; intros HS; constructor.
  - intros Hin. destruct (F2_in_l _ _ _ _ _ _ HF Hin) as (j & Hj & Hw).
    pose proof (ws_unique _ _ _ _ H Hw). subst.
    inversion HS; subst. rewrite Forall_forall in H3. specialize (H3 _ Hj). lia.
  - apply IHHF. inversion HS; auto.
Qed.

Lemma WL_waiting : forall h ws m, WL h ws -> (In m ws <-> waiting h m).
Proof.
  intros h ws m (is & HF & HS & Hc). split; auto.
  intros Hin. destruct (F2_in_l _ _ _ _ _ _ HF Hin) as (j & _ & Hw). exists j; auto.
Qed.

Lemma WL_lt : forall h ws is, Forall2 (waiting_since h) ws is -> Forall (fun i => i < length h) is.
Proof.
  induction 1; constructor; auto.
  destruct H as ((e & He & _) & _). eapply nth_lt; eauto.
Qed.

Lemma SS_snoc : forall l x, StronglySorted lt l -> Forall (fun i => i < x) l -> StronglySorted lt (l ++ [x]).
Proof.
  induction l as [|a l IH]; intros x HS HF; cbn.
  - repeat constructor.
  - inversion HS; inversion HF; subst. constructor; [apply IH; auto|].
    apply Forall_app. split; auto.
Qed.

(** an event that neither registers nor deregisters anybody *)
Lemma WL_same : forall h x ws,
  (forall n, ~ deregisters n x) -> (forall n, registers n x -> In n ws) -> WL h ws -> WL (h ++ [x]) ws.
Proof.
  intros h x ws Hd Hr HWL. destruct HWL as (is & HF & HS & Hc). exists is. split; [|split; auto].
  - eapply Forall2_impl; [|exact HF]. intros. apply ws_keep; auto.
  - intros m (i & Hi). apply ws_unsnoc in Hi as [[Hi _]|[_ Hi]]; auto. apply Hc. exists i; auto.
Qed.

Lemma WL_add : forall h x ws n,
  registers n x -> (forall m, registers m x -> m = n) -> (forall m, ~ deregisters m x) ->
  ~ In n ws -> WL h ws -> WL (h ++ [x]) (ws ++ [n]).
Proof.
  intros h x ws n Hr Hu Hd Hn HWL. pose proof (fun m => WL_waiting _ _ m HWL) as Hw.
  destruct HWL as (is & HF & HS & Hc).
  exists (is ++ [length h]). split; [|split].
  - apply Forall2_app.
    + eapply Forall2_impl; [|exact HF]. intros. apply ws_keep; auto.
    + constructor; [|constructor]. split; [|split].
      * exists x. rewrite nth_error_app2, Nat.sub_diag by lia. auto.
      * intros j e Hj He. apply nth_lt in He. rewrite app_length in He; cbn in He. lia.
      * intros j e Hj He Hre.
        (* some earlier registration of n, yet n is not waiting now *)
        assert (HX : forall h0, (exists j e, nth_error h0 j = Some e /\ registers n e) ->
                  forall j e, nth_error h0 j = Some e -> registers n e ->
                  waiting h0 n \/ exists k e', j < k /\ nth_error h0 k = Some e' /\ deregisters n e').
        { clear. intros h0 _. induction h0 as [|y h0 IH] using rev_ind; intros j e He Hr.
          - destruct j; discriminate.
          - assert (Hdec : deregisters n y \/ ~ deregisters n y).
            { destruct y as [[m|m|m|m] []]; try (right; intros [?|?]; discriminate);
                destruct (Nat.eq_dec m n);
                try (subst; left; unfold deregisters; auto; fail);
                right; intros [?|?]; congruence. }
            apply nth_snoc in He as [[Hl He]|[-> ->]].
            + destruct (IH j e He Hr) as [(i & Hi)|(k & e' & Hk & Ek & Hd)].
              * destruct Hdec as [Hd|Hd].
                -- right. exists (length h0), y. split; auto. split; auto.
                   rewrite nth_error_app2, Nat.sub_diag by lia. auto.
                -- left. exists i. apply ws_keep; auto.
              * right. exists k, e'. split; auto. split; auto.
                rewrite nth_error_app1; auto. eapply nth_lt; eauto.
            + left.
              (* the last registration is the last event: n waits since the
                 earliest registration after the last deregistration *)
              assert (Hnd : ~ deregisters n y) by (destruct Hr as [-> | ->]; intros [?|?]; discriminate).
              assert (HW : waiting h0 n \/ ~ (exists j e, nth_error h0 j = Some e /\ registers n e
                         /\ forall k e', j < k -> nth_error h0 k = Some e' -> ~ deregisters n e')).
              { destruct (existsb (fun j => match nth_error h0 j with
                  | Some (Acq m, ORefused) | Some (AddW m, ODone) =>
                      Nat.eqb m n && forallb (fun k => match nth_error h0 k with
                         | Some (Acq m', OGranted) | Some (RemW m', ODone) => negb (Nat.eqb m' n && Nat.ltb j k)
                         | _ => true end) (seq 0 (length h0))
                  | _ => false end) (seq 0 (length h0))) eqn:E.
                - left. apply existsb_exists in E as (j & _ & E).
                  destruct (nth_error h0 j) as [ev|] eqn:Ej; [|discriminate].
                  assert (Hrj : registers n ev /\ forallb (fun k => match nth_error h0 k with
                         | Some (Acq m', OGranted) | Some (RemW m', ODone) => negb (Nat.eqb m' n && Nat.ltb j k)
                         | _ => true end) (seq 0 (length h0)) = true).
                  { destruct ev as [[m|m|m|m] []]; try discriminate;
                      apply andb_true_iff in E as [E1 E2]; apply Nat.eqb_eq in E1; subst;
                      split; auto; unfold registers; auto. }
                  destruct Hrj as [Hrj Hf].
                  destruct (IH j ev Ej Hrj) as [?|(k & e' & Hk & Ek & Hd)]; auto.
                  exfalso. rewrite forallb_forall in Hf.
                  assert (In k (seq 0 (length h0))) by (apply in_seq; pose proof (nth_lt _ _ _ _ Ek); lia).
                  specialize (Hf k H). rewrite Ek in Hf.
                  apply Nat.ltb_lt in Hk.
                  destruct Hd as [-> | ->]; rewrite Nat.eqb_refl, Hk in Hf; discriminate.
                - right. intros (j & ev & Ej & Hrj & Hd).
                  assert (Ht : existsb (fun j => match nth_error h0 j with
                  | Some (Acq m, ORefused) | Some (AddW m, ODone) =>
                      Nat.eqb m n && forallb (fun k => match nth_error h0 k with
                         | Some (Acq m', OGranted) | Some (RemW m', ODone) => negb (Nat.eqb m' n && Nat.ltb j k)
                         | _ => true end) (seq 0 (length h0))
                  | _ => false end) (seq 0 (length h0)) = true); [|congruence].
                  apply existsb_exists. exists j. split; [apply in_seq; pose proof (nth_lt _ _ _ _ Ej); lia|].
                  rewrite Ej.
                  assert (Hf : forallb (fun k => match nth_error h0 k with
                         | Some (Acq m', OGranted) | Some (RemW m', ODone) => negb (Nat.eqb m' n && Nat.ltb j k)
                         | _ => true end) (seq 0 (length h0)) = true).
                  { apply forallb_forall. intros k _. destruct (nth_error h0 k) as [ek|] eqn:Ek; auto.
                    specialize (Hd k ek).
                    destruct ek as [[m|m|m|m] []]; auto;
                      destruct (Nat.eqb m n) eqn:En; auto; destruct (Nat.ltb j k) eqn:Ej2; auto;
                      apply Nat.eqb_eq in En; apply Nat.ltb_lt in Ej2; subst;
                      exfalso; apply (Hd Ej2 Ek); unfold deregisters; auto. }
                  destruct Hrj as [-> | ->]; rewrite Nat.eqb_refl, Hf; reflexivity. }
              destruct HW as [(i & Hi)|HN].
              * exists i. apply ws_keep; auto.
              * exists (length h0). split; [|split].
                -- exists y. rewrite nth_error_app2, Nat.sub_diag by lia. auto.
                -- intros j e Hj He. apply nth_lt in He. rewrite app_length in He; cbn in He. lia.
                -- intros j e Hj He Hre.
                   assert (Ej : nth_error h0 j = Some e) by (rewrite nth_error_app1 in He; auto).
                   destruct (IH j e Ej Hre) as [(i & (ei & Ei & Hri) & Hdi & _)|(k & e' & Hk & Ek & Hd)].
                   ++ exfalso. apply HN. exists i, ei. auto.
                   ++ exists k, e'. pose proof (nth_lt _ _ _ _ Ek). split; [lia|].
                      rewrite nth_error_app1 by lia. auto. }
        assert (Ej : nth_error h j = Some e) by (rewrite nth_error_app1 in He; auto).
        destruct (HX h (ex_intro _ j (ex_intro _ e (conj Ej Hre))) j e Ej Hre)
          as [Hwt|(k & e' & Hk & Ek & Hdk)].
        -- exfalso. apply Hn. apply Hw. exact Hwt.
        -- exists k, e'. pose proof (nth_lt _ _ _ _ Ek). split; [lia|].
           rewrite nth_error_app1 by lia. auto.
  - apply SS_snoc; auto. eapply WL_lt; eauto.
  - intros m (i & Hi). apply in_app_iff. apply ws_unsnoc in Hi as [[Hi _]|[_ Hi]].
    + left. apply Hc. exists i; auto.
    + right. left. symmetry. auto.
Qed.

Lemma erase_notin : forall n l, ~ In n l -> eraseFirst n l = l.
Proof.
  induction l; cbn; intros; auto. destruct (Nat.eqb_spec a n); [tauto|]. f_equal. tauto.
Qed.

Lemma WL_remove : forall h x ws n,
  deregisters n x -> (forall m, deregisters m x -> m = n) -> (forall m, ~ registers m x) ->
  WL h ws -> WL (h ++ [x]) (eraseFirst n ws).
Proof.
  intros h x ws n Hd Hu Hr HWL. pose proof (WL_nodup _ _ HWL) as HND.
  destruct HWL as (is & HF & HS & Hc).
  assert (HA : exists is', Forall2 (waiting_since (h ++ [x])) (eraseFirst n ws) is'
      /\ StronglySorted lt is' /\ incl is' is).
  { clear Hc. revert HS HND. induction HF as [|w i ws is Hwi HF IH]; intros HS HND; cbn [eraseFirst].
    - exists []. split; [constructor|split; [constructor|easy]].
    - inversion HS; inversion HND; subst. destruct (Nat.eqb_spec w n).
      + subst. exists is. split; [|split; auto; intros y Hy; right; auto].
        clear -HF H5 Hd Hu. assert (Hne : forall y, In y ws -> y <> n) by (intros y Hy ->; auto).
        clear H5. induction HF; constructor.
        * apply ws_keep; auto. intros Hx. apply (Hne x0); [left; auto|]. auto.
        * apply IHHF. intros; apply Hne; right; auto.
      + destruct (IH H1 H6) as (is' & HF' & HS' & HI). exists (i :: is'). split; [|split].
        * constructor; auto. apply ws_keep; auto.
        * constructor; auto. rewrite Forall_forall in *. intros y Hy. apply H2. auto.
        * intros y [->|Hy]; [left; auto|right; auto]. }
  destruct HA as (is' & HF' & HS' & _). exists is'. split; [|split]; auto.
  intros m (i & Hi). apply ws_unsnoc in Hi as [[Hi Hnd]|[_ Hi]]; [|exfalso; eapply Hr; eauto].
  assert (Hin : In m ws) by (apply Hc; exists i; auto).
  assert (Hmn : m <> n) by (intros ->; auto).
  clear -Hin Hmn. induction ws; cbn in *; [tauto|].
  destruct (Nat.eqb_spec a n); [destruct Hin; [congruence|auto]|].
  destruct Hin; [left|right]; auto.
Qed.

Lemma holds_snoc_other : forall h x n,
  x <> (Acq n, OGranted) -> (forall b, x <> (Rel n, b)) ->
  (holds (h ++ [x]) n <-> holds h n).
Proof.
  intros h x n Hx Hr. split.
  - intros (h1 & h2 & E & Hn). destruct h2 as [|y h2] using rev_ind.
    + apply app_inj_tail in E as [-> ->]. congruence.
    + rewrite app_comm_cons, app_assoc in E. apply app_inj_tail in E as [-> ->].
      exists h1, h2. split; auto. intros b Hb. apply (Hn b). apply in_app_iff; auto.
  - intros (h1 & h2 & -> & Hn). exists h1, (h2 ++ [x]). split.
    + rewrite <- app_assoc. reflexivity.
    + intros b Hb. apply in_app_iff in Hb as [Hb|[Hb|[]]]; [eapply Hn; eauto|eapply Hr; eauto].
Qed.

Lemma holds_snoc_rel : forall h n b, ~ holds (h ++ [(Rel n, b)]) n.
Proof.
  intros h n b (h1 & h2 & E & Hn). destruct h2 as [|y h2] using rev_ind.
  - apply app_inj_tail in E as [_ E]. discriminate.
  - rewrite app_comm_cons, app_assoc in E. apply app_inj_tail in E as [_ <-].
    apply (Hn b). apply in_app_iff. right; left; auto.
Qed.

Lemma holds_snoc_acq : forall h n, holds (h ++ [(Acq n, OGranted)]) n.
Proof. intros. exists h, []. split; auto. Qed.

Definition HInv (r : resv) (h : hist) : Prop :=
  (forall n, r_holder r = Some n <-> holds h n) /\ WL h (r_waiters r).

Lemma existsb_in : forall n l, existsb (Nat.eqb n) l = true <-> In n l.
Proof.
  intros. rewrite existsb_exists. split.
  - intros (x & Hx & E). apply Nat.eqb_eq in E. congruence.
  - intros H. exists n. split; auto. apply Nat.eqb_refl.
Qed.

Lemma addW_WL : forall r h n x,
  registers n x -> (forall m, registers m x -> m = n) -> (forall m, ~ deregisters m x) ->
  WL h (r_waiters r) -> WL (h ++ [x]) (r_waiters (addWaitingNode n r)).
Proof.
  intros r h n x H1 H2 H3 HW. unfold addWaitingNode.
  destruct (existsb (Nat.eqb n) (r_waiters r)) eqn:E.
  - apply existsb_in in E. apply WL_same; auto. intros m Hm. rewrite (H2 m Hm). auto.
  - cbn [r_waiters]. apply WL_add; auto. intros Hin. apply existsb_in in Hin. congruence.
Qed.

Lemma addW_holder : forall r n, r_holder (addWaitingNode n r) = r_holder r.
Proof. intros. unfold addWaitingNode. destruct existsb; reflexivity. Qed.

Lemma HInv_step : forall r h o r' b, HInv r h -> rstep o r = (r', b) -> HInv r' (h ++ [(o, b)]).
Proof.
  intros r h o r' b [HH HW] E.
  assert (Hfree : r_holder r = None -> forall n, ~ holds h n).
  { intros E0 n Hn. apply HH in Hn. congruence. }
  destruct o as [n|n|n|n]; cbn [rstep] in E.
  - unfold acquire in E. destruct (r_holder r) as [g|] eqn:Eg; injection E as <- <-.
    + split.
      * intros m. rewrite addW_holder, Eg, HH. symmetry. apply holds_snoc_other; [|intros]; congruence.
      * apply addW_WL; auto; [left; auto| |]; intros m [Hm|Hm]; congruence.
    + split.
      * intros m. cbn. destruct (Nat.eq_dec n m) as [->|Hne].
        -- split; auto. intros _. apply holds_snoc_acq.
        -- split; [congruence|]. intros Hm. apply holds_snoc_other in Hm; [|congruence|congruence].
           exfalso. eapply Hfree; eauto.
      * cbn. apply WL_remove; auto; [left; auto| |]; intros m [Hm|Hm]; congruence.
  - unfold release in E. destruct (r_holder r) as [g|] eqn:Eg.
    + destruct (Nat.eqb_spec g n) as [->|Hne]; injection E as <- <-.
      * split.
        -- intros m. cbn. split; [discriminate|]. intros Hm. exfalso.
           destruct (Nat.eq_dec n m) as [->|Hne].
           ++ eapply holds_snoc_rel; eauto.
           ++ apply holds_snoc_other in Hm; [|congruence|intros; congruence].
              apply HH in Hm. congruence.
        -- cbn. apply WL_same; auto; intros m [Hm|Hm]; discriminate.
      * split.
        -- intros m. rewrite Eg. destruct (Nat.eq_dec n m) as [->|Hne'].
           ++ split; [congruence|]. intros Hm. exfalso. eapply holds_snoc_rel; eauto.
           ++ rewrite HH. symmetry. apply holds_snoc_other; [|intros]; congruence.
        -- apply WL_same; auto; intros m [Hm|Hm]; discriminate.
    + injection E as <- <-. split.
      * intros m. rewrite Eg. split; [discriminate|]. intros Hm. exfalso.
        destruct (Nat.eq_dec n m) as [->|Hne'].
        -- eapply holds_snoc_rel; eauto.
        -- apply holds_snoc_other in Hm; [|congruence|intros; congruence]. eapply Hfree; eauto.
      * apply WL_same; auto; intros m [Hm|Hm]; discriminate.
  - injection E as <- <-. split.
    + intros m. rewrite addW_holder, HH. symmetry. apply holds_snoc_other; [|intros]; congruence.
    + apply addW_WL; auto; [right; auto| |]; intros m [Hm|Hm]; congruence.
  - injection E as <- <-. split.
    + intros m. cbn. rewrite HH. symmetry. apply holds_snoc_other; [|intros]; congruence.
    + cbn. apply WL_remove; auto; [right; auto| |]; intros m [Hm|Hm]; congruence.
Qed.

Lemma HInv0 : HInv resv0 [].
Proof.
  split.
  - intros n. cbn. split; [discriminate|]. intros ([|] & h2 & E & _); discriminate.
  - exists []. split; [constructor|split; [constructor|]].
    intros m (i & (e & He & _) & _). destruct i; discriminate.
Qed.

Lemma HInv_run : forall ops r h, rrun ops resv0 = (r, h) -> HInv r h.
Proof.
  induction ops as [|o ops IH] using rev_ind; intros r h E.
  - injection E as <- <-. apply HInv0.
  - rewrite rrun_app in E. destruct (rrun ops resv0) as [r1 h1] eqn:E1. cbn in E.
    destruct (rstep o r1) as [r2 b] eqn:E2. injection E as <- <-.
    eapply HInv_step; eauto.
Qed.

(** ** The property *)

(** At any point of any history at most one node holds the resource. *)
Theorem C25_one_holder : forall ops r h n m,
  rrun ops resv0 = (r, h) -> holds h n -> holds h m -> n = m.
Proof.
  intros ops r h n m E Hn Hm. destruct (HInv_run _ _ _ E) as [HH _].
  apply HH in Hn. apply HH in Hm. congruence.
Qed.

(** A request is granted exactly when no node holds the resource. *)
Theorem C25_granted_iff_free : forall ops r h n,
  rrun ops resv0 = (r, h) ->
  (snd (rstep (Acq n) r) = OGranted <-> forall m, ~ holds h m)
  /\ (snd (rstep (Acq n) r) = ORefused <-> exists m, holds h m).
Proof.
  intros ops r h n E. destruct (HInv_run _ _ _ E) as [HH _].
  cbn [rstep]. unfold acquire. destruct (r_holder r) as [g|] eqn:Eg; cbn.
  - assert (holds h g) by (apply HH; auto). split; split; try discriminate; try eauto.
    intros H0. exfalso. eapply H0; eauto.
  - split; split; auto; try discriminate.
    + intros _ m Hm. apply HH in Hm. congruence.
    + intros (m & Hm). apply HH in Hm. congruence.
Qed.

(** A release by a node that does not hold the resource changes nothing and wakes nobody. *)
Theorem C25_release_by_other_is_noop : forall ops r h n,
  rrun ops resv0 = (r, h) -> ~ holds h n ->
  rstep (Rel n) r = (r, ONotified []).
Proof.
  intros ops r h n E Hn. destruct (HInv_run _ _ _ E) as [HH _].
  cbn [rstep]. unfold release. destruct (r_holder r) as [g|] eqn:Eg; auto.
  destruct (Nat.eqb_spec g n); auto. subst. exfalso. apply Hn. apply HH; auto.
Qed.

(** A release by the holder frees the resource and wakes exactly the waiting
    nodes, each once, in the order in which they started waiting. *)
Theorem C25_release_wakes_waiters : forall ops r h n,
  rrun ops resv0 = (r, h) -> holds h n ->
  exists r' ws,
    rstep (Rel n) r = (r', ONotified ws)
    /\ (forall m, ~ holds (h ++ [(Rel n, ONotified ws)]) m)
    /\ NoDup ws
    /\ (forall m, In m ws <-> waiting h m)
    /\ (exists is, Forall2 (waiting_since h) ws is /\ StronglySorted lt is).
Proof.
  intros ops r h n E Hn. pose proof (HInv_run _ _ _ E) as HI. pose proof HI as [HH HW].
  pose proof Hn as Hn'. apply HH in Hn'.
  assert (Es : rstep (Rel n) r = ({| r_waiters := r_waiters r; r_holder := None |}, ONotified (r_waiters r))).
  { cbn [rstep]. unfold release. rewrite Hn', Nat.eqb_refl. reflexivity. }
  exists {| r_waiters := r_waiters r; r_holder := None |}, (r_waiters r).
  split; auto. pose proof (HInv_step _ _ _ _ _ HI Es) as [HH' _].
  split; [|split; [|split]].
  - intros m Hm. apply HH' in Hm. discriminate.
  - eapply WL_nodup; eauto.
  - intros m. apply WL_waiting. auto.
  - destruct HW as (is & ? & ? & _). eauto.
Qed.

(** Only the holder's own release ends its hold. *)
Theorem C25_held_until_released : forall ops r h n o r' b,
  rrun ops resv0 = (r, h) -> holds h n -> o <> Rel n -> rstep o r = (r', b) ->
  holds (h ++ [(o, b)]) n.
Proof.
  intros ops r h n o r' b E Hn Ho Es.
  apply holds_snoc_other; auto; [|intros; congruence].
  intros Ex. injection Ex as -> ->.
  destruct (C25_granted_iff_free _ _ _ n E) as [[H1 _] _]. rewrite Es in H1.
  eapply H1; eauto.
Qed.

(** A refused node is waiting, and stays so until it is granted the resource
    or withdraws, even across a release that wakes it. *)
Theorem C25_refused_waits : forall ops r h n r' ,
  rrun ops resv0 = (r, h) -> rstep (Acq n) r = (r', ORefused) ->
  waiting (h ++ [(Acq n, ORefused)]) n.
Proof.
  intros ops r h n r' E Es. destruct (HInv_step _ _ _ _ _ (HInv_run _ _ _ E) Es) as [_ HW].
  eapply WL_waiting; eauto. cbn [rstep] in Es. unfold acquire in Es.
  destruct (r_holder r) eqn:Eg; [|discriminate]. injection Es as <-.
  unfold addWaitingNode. destruct (existsb (Nat.eqb n) (r_waiters r)) eqn:Ex.
  - apply existsb_in; auto.
  - cbn. apply in_app_iff. right; left; auto.
Qed.

Theorem C25_stays_waiting : forall h n e, waiting h n -> ~ deregisters n e -> waiting (h ++ [e]) n.
Proof. intros h n e (i & Hi) He. exists i. apply ws_keep; auto. Qed.

(** Non-vacuity: three contenders; the second withdraws and comes back, so it
    is woken last; the losing waiter is woken again at the next release. *)
Example C25_demo :
  snd (rrun [Acq 1; Acq 2; Acq 3; Rel 2; RemW 2; Acq 2; Acq 3; Rel 1; Acq 3; Acq 2; Rel 3] resv0)
  = [(Acq 1, OGranted); (Acq 2, ORefused); (Acq 3, ORefused); (Rel 2, ONotified []);
     (RemW 2, ODone); (Acq 2, ORefused); (Acq 3, ORefused); (Rel 1, ONotified [3; 2]);
     (Acq 3, OGranted); (Acq 2, ORefused); (Rel 3, ONotified [2])].
Proof. reflexivity. Qed.

(** Assumptions *)
Print Assumptions C25_one_holder.
Print Assumptions C25_granted_iff_free.
Print Assumptions C25_release_by_other_is_noop.
Print Assumptions C25_release_wakes_waiters.
Print Assumptions C25_held_until_released.
Print Assumptions C25_refused_waits.
Print Assumptions C25_stays_waiting.
