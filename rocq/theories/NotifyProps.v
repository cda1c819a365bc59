(** C30: activation is balanced; changes reach exactly the registered listeners
    of the active expressions that depend on what changed. *)
From Coq Require Import List Arith ZArith Lia Bool.
From Verif Require Import NotifyModel NotifySpec NotifyProofs NotifyProofs2.
Import ListNotations.

Section P.
Variable g : graph.
Hypothesis W : wf g.

Lemma act_lst : forall f e st, lst (act g f e st) = lst st.
Proof.
  induction f as [|f IH]; intros e st; cbn [act]; auto.
  destruct (counted g e); auto. destruct (Nat.eqb _ 0); auto.
  assert (forall ks s1, lst (fold_left (fun s k => act g f k s) ks s1) = lst s1) as Hf.
  { induction ks as [|k ks IHk]; intros s1; cbn [fold_left]; auto. rewrite IHk. auto. }
  rewrite Hf. reflexivity.
Qed.

Lemma deact_lst : forall f e st st', deact g f e st = Some st' -> lst st' = lst st.
Proof.
  induction f as [|f IH]; intros e st st'; cbn [deact]; [intros H; injection H as <-; auto|].
  destruct (counted g e); [|intros H; injection H as <-; auto].
  destruct (cnt st e) as [|c]; [discriminate|].
  destruct (Nat.eqb c 0); [|intros H; injection H as <-; auto].
  assert (Hf : forall ks s1, fold_left (fun os k => match os with Some s => deact g f k s | None => None end) ks (Some s1) = Some st' -> lst st' = lst s1).
  { induction ks as [|k ks IHk]; intros s1; cbn [fold_left].
    - intros H; injection H as <-; auto.
    - destruct (deact g f k s1) as [s2|] eqn:E.
      + intros H. rewrite (IHk s2 H). eapply IH; eauto.
      + intros H. exfalso. clear - H. induction ks; cbn in H; [discriminate|auto]. }
  intros H. rewrite (Hf _ _ H). reflexivity.
Qed.

Lemma keeper_not_fwd y e t : keeper g y = e -> kind g e <> KFwd t.
Proof.
  unfold keeper. intros H E. destruct (kind g y) eqn:Ey; try congruence.
  subst t0. destruct (wf_fwd g W y e Ey). congruence.
Qed.

Hypothesis FP : few_params g.

Lemma run_LI h st : nrun g h = Some st ->
  LI g [] st /\ forall s, exts (lst st s) = registered g h s.
Proof.
  revert st. induction h as [|o h IH]; cbn [nrun]; intros st E.
  - injection E as <-. split; [|auto]. split; cbn; intros; auto; try constructor; tauto.
  - destruct (nrun g h) as [st0|]; [|discriminate]. destruct (IH st0 eq_refl) as [I R].
    destruct o as [e|e|e x|e x]; cbn [nstep] in E.
    + injection E as <-. unfold activate. cbn [registered]. split.
      * split; rewrite ?act_lst; apply I.
      * intros s. rewrite act_lst. auto.
    + apply deact_lst in E. cbn [registered]. split.
      * split; rewrite ?E; apply I.
      * intros s. rewrite E. auto.
    + injection E as <-. destruct (addL_post g W (S e) e (LExt x) st0 []) as [P1 P2 P3 P4]; cbn; auto; try tauto.
      split; auto. intros s. cbn [registered]. unfold addListener. rewrite P4, R. unfold extAdd.
      assert (Hs : Nat.eqb (keeper g e) s = true -> stores g s = match kind g s with KConst => false | _ => true end).
      { intros H. apply Nat.eqb_eq in H. unfold stores. destruct (kind g s) eqn:Es; auto.
        exfalso. eapply keeper_not_fwd; eauto. }
      destruct (Nat.eqb (keeper g e) s) eqn:Ek; cbn [andb]; auto. rewrite Hs by auto. reflexivity.
    + injection E as <-. destruct (rmL_post g W FP (S e) e (LExt x) st0 []) as [P1 P2 P3 P4]; cbn; auto; try tauto.
      split; auto. intros s. cbn [registered]. unfold removeListener. rewrite P4, R. reflexivity.
Qed.

(** ** Publishing *)
Section S.
Variable st : nst.
Hypothesis I : LI g [] st.
Variable chg : list ev -> nat -> bool.

Lemma edge s p : In (LExp p) (lst st s) -> s < p /\ p < gsize g /\ D g p s.
Proof.
  intros H. apply (li_graph _ _ _ I p) in H; [|auto]. destruct H as [_ H].
  split; [eapply D_lt; eauto|]. split; auto.
  destruct H as [H _]. destruct (le_lt_dec (gsize g) p) as [L|L]; auto.
  rewrite (wf_size g W p L) in H. discriminate.
Qed.

Definition pstep f e := (fun tr l =>
        match l with
        | LExt x => tr ++ [Told e x]
        | LExp p =>
          if isActive g st p then
            let tr' := tr ++ [Handled p] in
            if chg tr' p then pub g chg st f p tr' else tr'
          else tr
        end).

Lemma pub_eq f e tr : pub g chg st (S f) e tr = if isActive g st e then fold_left (pstep f e) (lst st e) tr else tr.
Proof. reflexivity. Qed.

Lemma pub_fuel : forall f f' e tr, gsize g - e <= f -> gsize g - e <= f' ->
  pub g chg st f e tr = pub g chg st f' e tr.
Proof.
  assert (Z : forall f e tr, gsize g - e = 0 -> pub g chg st f e tr = tr).
  { intros f e tr He. destruct f; auto. rewrite pub_eq. destruct (isActive g st e); auto.
    rewrite (li_stores _ _ _ I e); auto. unfold stores. rewrite (wf_size g W e); auto. lia. }
  induction f as [|f IH]; intros f' e tr H1 H2.
  - rewrite (Z f') by lia. reflexivity.
  - destruct f' as [|f']; [rewrite Z by lia; reflexivity|].
    rewrite !pub_eq. destruct (isActive g st e); auto.
    assert (forall ls tr, (forall l, In l ls -> In l (lst st e)) ->
      fold_left (pstep f e) ls tr = fold_left (pstep f' e) ls tr) as G; [|apply G; auto].
    induction ls as [|l ls IHl]; intros tr0 Hl; cbn [fold_left]; auto.
    assert (pstep f e tr0 l = pstep f' e tr0 l) as ->.
    { unfold pstep. destruct l as [x|p]; auto. destruct (isActive g st p); auto.
      cbn zeta. destruct (chg _ p); auto.
      destruct (edge e p) as [Hep [Hpg _]]; [apply Hl; left; auto|].
      apply IH; lia. }
    apply IHl. intros l' Hl'. apply Hl. right; auto.
Qed.

Lemma pub_step e tr : e < gsize g ->
  pub g chg st (gsize g - e) e tr =
  if isActive g st e then
    fold_left (fun tr l =>
        match l with
        | LExt x => tr ++ [Told e x]
        | LExp p =>
          if isActive g st p then
            let tr' := tr ++ [Handled p] in
            if chg tr' p then pub g chg st (gsize g - p) p tr' else tr'
          else tr
        end) (lst st e) tr
  else tr.
Proof.
  intros He. destruct (gsize g - e) as [|f] eqn:Ef; [lia|].
  rewrite pub_eq. destruct (isActive g st e); auto.
  assert (forall ls tr, (forall l, In l ls -> In l (lst st e)) ->
      fold_left (pstep f e) ls tr = fold_left (fun tr l =>
        match l with
        | LExt x => tr ++ [Told e x]
        | LExp p =>
          if isActive g st p then
            let tr' := tr ++ [Handled p] in
            if chg tr' p then pub g chg st (gsize g - p) p tr' else tr'
          else tr
        end) ls tr) as G; [|apply G; auto].
  induction ls as [|l ls IHl]; intros tr0 Hl; cbn [fold_left]; auto.
  rewrite IHl by (intros l' Hl'; apply Hl; right; auto). f_equal.
  unfold pstep. destruct l as [x|p]; auto. destruct (isActive g st p); auto.
  cbn zeta. destruct (chg _ p); auto.
  destruct (edge e p) as [Hep [Hpg _]]; [apply Hl; left; auto|].
  apply pub_fuel; lia.
Qed.

(** [up A s e]: notifications travel from [s] to [e] through active expressions satisfying [A]. *)
Inductive up (A : nat -> Prop) : nat -> nat -> Prop :=
| up_refl e : isActive g st e = true -> up A e e
| up_step s p e : isActive g st s = true -> In (LExp p) (lst st s) -> A p -> up A p e -> up A s e.

Lemma up_active A s e : up A s e -> isActive g st e = true.
Proof. induction 1; auto. Qed.
Lemma up_snoc A s p e : up A s p -> In (LExp e) (lst st p) -> isActive g st e = true -> A e -> up A s e.
Proof.
  induction 1; intros K1 K2 K3.
  - econstructor; eauto. constructor; auto.
  - econstructor; eauto.
Qed.

Lemma fold_mono {L} (F : list ev -> L -> list ev) ls : (forall tr l, In l ls -> exists tr', F tr l = tr ++ tr') ->
  forall tr, exists tr', fold_left F ls tr = tr ++ tr'.
Proof.
  induction ls as [|l ls IH]; intros H tr; cbn [fold_left]; [exists []; rewrite app_nil_r; auto|].
  destruct (H tr l (or_introl eq_refl)) as [t1 ->].
  destruct (IH (fun tr l Hl => H tr l (or_intror Hl)) (tr ++ t1)) as [t2 ->]. exists (t1 ++ t2). rewrite app_assoc. auto.
Qed.
Lemma pub_mono : forall f e tr, exists tr', pub g chg st f e tr = tr ++ tr'.
Proof.
  induction f as [|f IH]; intros e tr; [exists []; rewrite app_nil_r; auto|].
  rewrite pub_eq. destruct (isActive g st e); [|exists []; rewrite app_nil_r; auto].
  apply fold_mono. intros tr0 [x|p] _; unfold pstep; eauto.
  destruct (isActive g st p); [|exists []; rewrite app_nil_r; auto]. cbn zeta.
  destruct (chg _ p); eauto. destruct (IH p (tr0 ++ [Handled p])) as [t ->].
  exists ([Handled p] ++ t). rewrite app_assoc. auto.
Qed.

Lemma pub_sound : forall f s tr e x, In (Told e x) (pub g chg st f s tr) ->
  In (Told e x) tr \/ (up (fun _ => True) s e /\ In (LExt x) (lst st e)).
Proof.
  induction f as [|f IH]; intros s tr e x H; [auto|].
  rewrite pub_eq in H. destruct (isActive g st s) eqn:Ea; auto.
  assert (G : forall ls tr, (forall l, In l ls -> In l (lst st s)) -> In (Told e x) (fold_left (pstep f s) ls tr) ->
     In (Told e x) tr \/ (up (fun _ => True) s e /\ In (LExt x) (lst st e))); [|eapply G; eauto].
  clear H tr. induction ls as [|l ls IHl]; intros tr Hl H; cbn [fold_left] in H; auto.
  destruct (IHl _ (fun l' Hl' => Hl l' (or_intror Hl')) H) as [H1|H1]; auto. clear H.
  unfold pstep in H1. destruct l as [y|p].
  - apply in_app_iff in H1. destruct H1 as [H1|[H1|[]]]; auto. injection H1 as <- <-.
    right. split; [constructor; auto|]. apply Hl; left; auto.
  - destruct (isActive g st p) eqn:Ep; auto. cbn zeta in H1.
    assert (G2 : In (Told e x) (tr ++ [Handled p]) -> In (Told e x) tr).
    { intros H. apply in_app_iff in H. destruct H as [H|[H|[]]]; auto. discriminate. }
    destruct (chg _ p); [|auto].
    apply IH in H1. destruct H1 as [H1|[H1 H2]]; auto.
    right. split; auto. econstructor; eauto. apply Hl; left; auto.
Qed.

Definition always (p : nat) : Prop := forall tr, chg tr p = true.

Lemma pub_complete s e : up always s e -> forall tr x, In (LExt x) (lst st e) ->
  In (Told e x) (pub g chg st (gsize g - s) s tr).
Proof.
  induction 1 as [e Ha|s p e Ha Hin Hp Hup IH]; intros tr x Hx.
  - assert (He : e < gsize g).
    { destruct (le_lt_dec (gsize g) e) as [L|L]; auto. rewrite (li_stores _ _ _ I e) in Hx; [contradiction|].
      unfold stores. rewrite (wf_size g W e); auto. }
    destruct (gsize g - e) as [|f] eqn:Ef; [lia|]. rewrite pub_eq, Ha.
    apply in_split in Hx. destruct Hx as [l1 [l2 ->]]. rewrite fold_left_app. cbn [fold_left].
    destruct (fold_mono (pstep f e) l2 ltac:(intros tr0 [y|p] _; unfold pstep; eauto;
      destruct (isActive g st p); [|exists []; rewrite app_nil_r; auto]; cbn zeta;
      destruct (chg _ p); eauto; destruct (pub_mono f p (tr0 ++ [Handled p])) as [t ->];
      exists ([Handled p] ++ t); rewrite app_assoc; auto)
      (pstep f e (fold_left (pstep f e) l1 tr) (LExt x))) as [t ->].
    apply in_app_iff. left. cbn. apply in_app_iff. right. left. auto.
  - destruct (edge s p Hin) as [Hsp [Hpg _]].
    destruct (gsize g - s) as [|f] eqn:Ef; [lia|]. rewrite pub_eq, Ha.
    apply in_split in Hin. destruct Hin as [l1 [l2 ->]]. rewrite fold_left_app. cbn [fold_left].
    destruct (fold_mono (pstep f s) l2 ltac:(intros tr0 [y|q] _; unfold pstep; eauto;
      destruct (isActive g st q); [|exists []; rewrite app_nil_r; auto]; cbn zeta;
      destruct (chg _ q); eauto; destruct (pub_mono f q (tr0 ++ [Handled q])) as [t ->];
      exists ([Handled q] ++ t); rewrite app_assoc; auto)
      (pstep f s (fold_left (pstep f s) l1 tr) (LExp p))) as [t ->].
    apply in_app_iff. left. unfold pstep at 1.
    assert (isActive g st p = true) as -> by (inversion Hup; auto).
    cbn zeta. rewrite (Hp _). rewrite (pub_fuel f (gsize g - p)) by lia. apply IH; auto.
Qed.
End S.

(** ** Dependencies *)
Lemma depends_trans A e k s : depends g A e k -> (src g k = true -> A k) -> depends g A k s -> depends g A e s.
Proof.
  induction 1; intros Hk Hs.
  - eapply dep_step; eauto.
  - eapply dep_step; eauto.
Qed.
Lemma depends_mono (A B : nat -> Prop) e s : (forall k, A k -> B k) -> depends g A e s -> depends g B e s.
Proof. intros H. induction 1; [constructor; auto|]. eapply dep_step; eauto. Qed.
Lemma depends_lt A e s : depends g A e s -> s < e.
Proof.
  induction 1; [apply (wf_kids g W); auto|]. pose proof (wf_kids g W _ _ H). lia.
Qed.

Lemma nearest_depends A : forall f e s, In s (nearest g f e) -> depends g A e s /\ src g s = true.
Proof.
  induction f as [|f IH]; cbn; intros e s H; [tauto|].
  apply in_flat_map in H. destruct H as [k [Hk Hs]]. destruct (src g k) eqn:Ek.
  - destruct Hs as [<-|[]]. split; auto. constructor; auto.
  - apply IH in Hs. destruct Hs. split; auto. eapply dep_step; eauto. congruence.
Qed.
Lemma src_keeper k : src g k = true -> keeper g k = k /\ stores g k = true.
Proof.
  intros H. unfold keeper, stores. destruct (kind g k) eqn:E; auto.
  - destruct (wf_const g W k E). congruence.
  - destruct (wf_fwd g W k t E) as [_ [_ H1]]. congruence.
Qed.
Lemma D_depends A p s : D g p s -> depends g A p s.
Proof.
  intros [Hp [Hs [d [Hd ->]]]].
  assert (Hk : forall d, In d (kids g p) -> depends g A p (keeper g d)).
  { intros d' H'. destruct (kind g d') eqn:E; unfold keeper; rewrite E; try (constructor; auto; fail).
    destruct (wf_fwd g W d' t E) as [_ [Hkt Hsrc]]. eapply dep_step; eauto; [congruence|].
    constructor. rewrite Hkt. left; auto. }
  unfold direct in Hd. rewrite !in_app_iff in Hd. destruct Hd as [H|[H|H]].
  - apply Hk, (wf_xhead g W); auto.
  - apply Hk, (wf_xparams g W); auto.
  - apply (nearest_depends A) in H. destruct H as [H1 H2]. destruct (src_keeper d H2) as [-> _]. auto.
Qed.
Lemma nearest_first A : forall f e s, e < f -> depends g A e s -> src g s = true ->
  In s (nearest g f e) \/ exists k, In k (nearest g f e) /\ A k /\ depends g A k s.
Proof.
  induction f as [|f IH]; intros e s Hf Hd Hs; [lia|]. cbn [nearest].
  inversion Hd as [e0 s0 Hin|e0 k s0 Hin Hk Hks]; subst.
  - left. apply in_flat_map. exists s. split; auto. rewrite Hs. left; auto.
  - pose proof (wf_kids g W e k Hin). destruct (src g k) eqn:Ek.
    + right. exists k. split; auto. apply in_flat_map. exists k. split; auto. rewrite Ek. left; auto.
    + destruct (IH k s ltac:(lia) Hks Hs) as [H1|[k' [H1 [H2 H3]]]].
      * left. apply in_flat_map. exists k. split; auto. rewrite Ek. auto.
      * right. exists k'. split; auto. apply in_flat_map. exists k. split; auto. rewrite Ek. auto.
Qed.

Lemma depends_up st (I : LI g [] st) (A : nat -> Prop) : forall e s,
  kind g e = KProp -> lst st e <> [] -> isActive g st e = true -> A e ->
  depends g (fun k => A k /\ isActive g st k = true) e s -> src g s = true -> isActive g st s = true ->
  up st A s e.
Proof.
  induction e as [e IH] using lt_wf_ind. intros s Hk Hl Ha HA Hd Hs Hsa.
  assert (Hedge : forall k, In k (nearest g (S e) e) -> src g k = true -> In (LExp e) (lst st k)).
  { intros k Hin Hsk. apply (li_graph _ _ _ I e); auto. split; auto.
    destruct (src_keeper k Hsk) as [H1 H2]. split; auto. split; auto. exists k. split; auto.
    unfold direct. rewrite !in_app_iff. auto. }
  destruct (nearest_first _ (S e) e s ltac:(lia) Hd Hs) as [H|[k [Hin [[HAk Hka] Hks]]]].
  - econstructor; eauto. constructor; auto.
  - pose proof (nearest_lt g W _ _ _ Hin) as Hlt.
    destruct (nearest_depends (fun _ => True) _ _ _ Hin) as [_ Hsk].
    specialize (Hedge k Hin Hsk).
    assert (kind g k = KProp).
    { assert (Hkk : kids g k <> []) by (inversion Hks; intros E; match goal with H : In _ (kids g k) |- _ => rewrite E in H; contradiction end).
      destruct (kind g k) eqn:E; auto.
      - destruct (wf_const g W k E); contradiction.
      - destruct (wf_fwd g W k t E) as [_ [_ ?]]; congruence.
      - destruct (wf_leaf g W k (or_introl E)); contradiction.
      - destruct (wf_leaf g W k (or_intror E)); contradiction. }
    eapply up_snoc; eauto. apply IH; auto. intros E; rewrite E in Hedge; contradiction.
Qed.
End P.

(** ** Theorems *)

(** As long as nobody deactivates what they have not activated, no assertion
    fires, and an expression is active exactly if it, or an expression that uses
    it, is held active from outside. *)
Theorem C30_active_iff g h : wf g -> balanced h ->
  exists st, nrun g h = Some st
  /\ forall e, isActive g st e = true <->
       counted g e = false \/ exists r, (0 < held h r)%Z /\ counted g r = true /\ uses g r e.
Proof.
  intros W B. destruct (run_inv g W h B) as [st [E I]]. exists st. split; auto.
  intros e. unfold isActive. destruct (counted g e) eqn:Hc.
  - rewrite Nat.ltb_lt, (AInv_active_iff g W (held h) st e I) by (auto; intros x; apply balanced_held; auto).
    split.
    + intros [r [H1 [H2 H3]]]. right. exists r; auto.
    + intros [H|[r [H1 [H2 H3]]]]; [congruence|]. exists r; auto.
  - tauto.
Qed.

(** The activation count of an expression is the number of outside activations
    outstanding plus one for each time an active expression uses it: users are
    activated and deactivated exactly when this number leaves or reaches zero. *)
Theorem C30_count g h st e : wf g -> balanced h -> nrun g h = Some st -> counted g e = true ->
  Z.of_nat (cnt st e) =
  (held h e + sumn (gsize g) (fun p => if isActive g st p then Z.of_nat (count_occ Nat.eq_dec (akids g p) e) else 0))%Z.
Proof.
  intros W B E Hc. destruct (run_inv g W h B) as [st' [E' I]].
  assert (st' = st) by congruence. subst st'. rewrite (I e Hc). f_equal. unfold fromUsers. apply sumn_ext. intros p Hp.
  assert (Hm : mult (akids g p) e = Z.of_nat (count_occ Nat.eq_dec (akids g p) e)).
  { induction (akids g p) as [|a l IH]; cbn [mult count_occ]; auto. unfold dlt.
    destruct (Nat.eq_dec a e) as [->|Hn]; [rewrite Nat.eqb_refl|destruct (Nat.eqb_spec a e); [congruence|]]; lia. }
  rewrite <- Hm. unfold isActive. destruct (counted g p) eqn:Hcp; [reflexivity|].
  assert (akids g p = []) as ->.
  { destruct (akids g p) as [|a l] eqn:Ea; auto.
    assert (counted g p = true); [|congruence]. apply (akids_counted g W p a). rewrite Ea. left; auto. }
  destruct (Nat.ltb 0 (cnt st p)); reflexivity.
Qed.

(** The external listeners an expression keeps are exactly those registered and
    not since removed, in order of registration, whatever goes on in the rest of
    the graph. *)
Theorem C30_listeners_partial g h st e : wf g -> few_params g -> nrun g h = Some st ->
  flat_map (fun l => match l with LExt x => [x] | _ => [] end) (lst st e) = registered g h e.
Proof. intros W FP E. destruct (run_LI g W FP h st E) as [_ R]. apply R. Qed.

Definition toldBy (e : nat) (tr : list ev) : list nat :=
  flat_map (fun v => match v with Told y x => if Nat.eqb y e then [x] else [] | _ => [] end) tr.

Lemma toldBy_pub g (W : wf g) st (I : LI g [] st) chg s : forall f p tr, s < p ->
  toldBy s (pub g chg st f p tr) = toldBy s tr.
Proof.
  induction f as [|f IH]; intros p tr Hsp; auto.
  rewrite pub_eq. destruct (isActive g st p); auto.
  assert (forall ls tr, (forall l, In l ls -> In l (lst st p)) -> toldBy s (fold_left (pstep g st chg f p) ls tr) = toldBy s tr) as G; [|apply G; auto].
  induction ls as [|l ls IHl]; intros tr0 Hl; cbn [fold_left]; auto.
  rewrite IHl by (intros l' Hl'; apply Hl; right; auto).
  destruct l as [x|q]; unfold pstep.
  - unfold toldBy. rewrite flat_map_app. cbn. destruct (Nat.eqb_spec p s); [lia|]. apply app_nil_r.
  - destruct (isActive g st q); auto. cbn zeta.
    assert (E : toldBy s (tr0 ++ [Handled q]) = toldBy s tr0).
    { unfold toldBy. rewrite flat_map_app. cbn. apply app_nil_r. }
    destruct (chg _ q); auto. rewrite IH; auto.
    destruct (edge g W st I p q) as [Hpq _]; [apply Hl; left; auto|]. lia.
Qed.

(** When an expression publishes a change, it calls its own listeners once each,
    in registration order, and nobody at all if it is not active. *)
Theorem C30_publish_order_partial g h st chg e : wf g -> few_params g -> nrun g h = Some st ->
  toldBy e (publishChange g chg st e) = (if isActive g st e then registered g h e else [])
  /\ (isActive g st e = false -> publishChange g chg st e = [])
  /\ NoDup (registered g h e).
Proof.
  intros W FP E. destruct (run_LI g W FP h st E) as [I R]. unfold publishChange.
  split; [|split].
  - destruct (gsize g - e) as [|f] eqn:Ef.
    + rewrite <- R. cbn. rewrite (li_stores _ _ _ I e).
      * destruct (isActive g st e); auto.
      * unfold stores. rewrite (wf_size g W e); auto. lia.
    + rewrite pub_eq. destruct (isActive g st e); auto. rewrite <- R.
      assert (forall ls tr, (forall l, In l ls -> In l (lst st e)) ->
        toldBy e (fold_left (pstep g st chg f e) ls tr) = toldBy e tr ++ exts ls) as G; [|apply G; auto].
      induction ls as [|l ls IHl]; intros tr Hl; cbn [fold_left]; [cbn; rewrite app_nil_r; auto|].
      rewrite IHl by (intros l' Hl'; apply Hl; right; auto).
      destruct l as [x|q]; unfold pstep.
      * unfold toldBy at 1. rewrite flat_map_app. cbn. rewrite Nat.eqb_refl, <- app_assoc. reflexivity.
      * change (exts (LExp q :: ls)) with (exts ls). f_equal.
        destruct (isActive g st q); auto. cbn zeta.
        assert (E0 : toldBy e (tr ++ [Handled q]) = toldBy e tr).
        { unfold toldBy. rewrite flat_map_app. cbn. apply app_nil_r. }
        destruct (chg _ q); auto. rewrite (toldBy_pub g W st I); auto.
        destruct (edge g W st I e q) as [Hpq _]; [apply Hl; left; auto|]. lia.
  - intros Ha. destruct (gsize g - e); auto. rewrite pub_eq, Ha. reflexivity.
  - rewrite <- R. apply exts_nodup, I.
Qed.

(** A listener is told of a change of [s] only if it is registered with [s] or
    with an active expression that depends on [s] through active sources. *)
Theorem C30_told_only_if_partial g h st chg s e x : wf g -> few_params g -> nrun g h = Some st ->
  In (Told e x) (publishChange g chg st s) ->
  isActive g st s = true /\ isActive g st e = true /\ In x (registered g h e)
  /\ (e = s \/ depends g (fun k => isActive g st k = true) e s).
Proof.
  intros W FP E H. destruct (run_LI g W FP h st E) as [I R].
  apply pub_sound in H. destruct H as [[]|[Hup Hx]].
  split; [inversion Hup; auto|]. split; [eapply up_active; eauto|].
  split; [rewrite <- R; apply exts_in; auto|].
  clear - Hup W I. induction Hup as [e Ha|s p e Ha Hin _ Hup IH]; auto.
  right. destruct (edge g W st I s p Hin) as [_ [_ HD]].
  pose proof (D_depends g W (fun k => isActive g st k = true) p s HD) as Hps.
  destruct IH as [->|IH]; auto.
  eapply depends_trans; eauto. intros _. inversion Hup; auto.
Qed.

(** Whoever is registered with an active expression is told of every change of
    an active source it depends on, provided the sources in between are active
    and publish. *)
Theorem C30_told_if_partial g h st chg s e x : wf g -> few_params g -> nrun g h = Some st ->
  In x (registered g h (keeper g e)) -> isActive g st (keeper g e) = true ->
  src g s = true -> isActive g st s = true ->
  s = keeper g e \/
   (depends g (fun k => (forall tr, chg tr k = true) /\ isActive g st k = true) e s /\ forall tr, chg tr e = true) ->
  In (Told (keeper g e) x) (publishChange g chg st s).
Proof.
  intros W FP E Hx Hea Hs Hsa Hd. destruct (run_LI g W FP h st E) as [I R].
  unfold publishChange. rewrite <- R in Hx. apply exts_in in Hx.
  apply pub_complete; auto.
  destruct Hd as [->|[Hd HA]]; [constructor; auto|].
  destruct (kind g e) eqn:Ek.
  - destruct (wf_const g W e Ek) as [Hk _]. inversion Hd; rewrite Hk in *; contradiction.
  - destruct (wf_fwd g W e t Ek) as [Hk1 [Hk2 _]].
    destruct (wf_leaf g W t (or_introl Hk1)) as [Hk3 _].
    assert (s = t).
    { inversion Hd; subst; rewrite Hk2 in *; cbn in *; [intuition congruence|].
      assert (k = t) by intuition congruence. subst k.
      match goal with H : depends g _ t s |- _ => inversion H; rewrite Hk3 in *; contradiction end. }
    subst s. unfold keeper. rewrite Ek. constructor; auto.
  - destruct (wf_leaf g W e (or_introl Ek)) as [Hk _]. inversion Hd; rewrite Hk in *; contradiction.
  - destruct (wf_leaf g W e (or_intror Ek)) as [Hk _]. inversion Hd; rewrite Hk in *; contradiction.
  - assert (keeper g e = e) as Kc by (unfold keeper; rewrite Ek; auto). rewrite Kc in *.
    apply (depends_up g W st I (always chg)); auto.
    intros El; rewrite El in Hx; contradiction.
Qed.

(** In particular: if every expression under [e] activates its subexpressions --
    which all classes but Alias do -- then while [e] is held active its listeners
    learn of every change beneath it. *)
Theorem C30_active_condition_hears_partial g h chg s e x : wf g -> few_params g -> balanced h ->
  In x (registered g h e) -> kind g e = KProp ->
  (0 < held h e)%Z ->
  (forall k c, (k = e \/ depends g (fun _ => True) e k) -> In c (kids g k) -> In c (akids g k) \/ counted g c = false) ->
  src g s = true -> depends g (fun k => forall tr, chg tr k = true) e s -> (forall tr, chg tr e = true) ->
  exists st, nrun g h = Some st /\ In (Told e x) (publishChange g chg st s).
Proof.
  intros W FP B Hx Hk Hh Hall Hs Hd HA.
  destruct (C30_active_iff g h W B) as [st [E Hact]]. exists st. split; auto.
  assert (Hce : counted g e = true) by (unfold counted; rewrite Hk; auto).
  assert (Hae : isActive g st e = true) by (apply Hact; right; exists e; split; auto; split; auto; constructor).
  assert (Kc : keeper g e = e) by (unfold keeper; rewrite Hk; auto).
  assert (Hsub : forall k, (k = e \/ depends g (fun _ => True) e k) -> isActive g st k = true ->
     forall c, In c (kids g k) -> isActive g st c = true).
  { intros k Hek Hak c Hc. destruct (Hall k c Hek Hc) as [Ha|Hn].
    - apply Hact. destruct (counted g c) eqn:Ec; auto. right.
      apply Hact in Hak. pose proof (akids_counted g W k c Ha) as Hck.
      destruct Hak as [Hak|[r [H1 [H2 H3]]]]; [congruence|].
      exists r. split; auto. split; auto. clear - H3 Ha. induction H3; [econstructor; eauto; constructor|]. econstructor; eauto.
    - apply Hact. auto. }
  assert (Gen : forall k, (k = e \/ depends g (fun _ => True) e k) -> isActive g st k = true ->
     depends g (fun k => forall tr, chg tr k = true) k s ->
     isActive g st s = true /\ depends g (fun k => (forall tr, chg tr k = true) /\ isActive g st k = true) k s).
  { intros k Hek Hak Hks. revert Hek Hak. induction Hks as [k s Hin|k c s Hin Hc Hcs IH]; intros Hek Hak.
    - split; [eapply Hsub; eauto|constructor; auto].
    - assert (Hac : isActive g st c = true) by (eapply Hsub; eauto).
      destruct IH as [I1 I2]; auto.
      { right. destruct Hek as [->|Hek]; [constructor; auto|].
        eapply depends_trans; eauto. constructor; auto. }
      split; auto. eapply dep_step; eauto. }
  destruct (Gen e (or_introl eq_refl) Hae Hd) as [G1 G2].
  rewrite <- Kc. apply (C30_told_if_partial g h st chg s e x); auto; rewrite ?Kc; auto.
Qed.

(** ** Each listener once *)

(** In a graph without lookups every registration is served at most once per change. *)
Definition no_interior_sources (g : graph) : Prop :=
  forall p, kind g p = KProp -> src g p = false /\ xhead g p = [] /\ xparams g p = [].

Theorem C30_once_partial g h st chg s : wf g -> few_params g -> no_interior_sources g ->
  (forall tr p, chg tr p = true) -> nrun g h = Some st ->
  NoDup (publishChange g chg st s).
Proof.
  intros W FP NI HC E. destruct (run_LI g W FP h st E) as [I R]. unfold publishChange.
  assert (Hp : forall s p q, In (LExp p) (lst st s) -> ~ In (LExp q) (lst st p)).
  { intros s0 p q Hin Hq.
    destruct (edge g W st I s0 p Hin) as [_ [_ [Hkp _]]].
    destruct (edge g W st I p q Hq) as [_ [_ [Hkq [_ [d [Hd Ed]]]]]].
    destruct (NI q Hkq) as [_ [X1 X2]]. unfold direct in Hd. rewrite X1, X2 in Hd. cbn [app] in Hd.
    destruct (nearest_depends g (fun _ => True) _ _ _ Hd) as [_ Hs].
    destruct (src_keeper g W d Hs) as [Kd _]. rewrite Kd in Ed. subst d.
    destruct (NI p Hkp). congruence. }
  destruct (gsize g - s) as [|f] eqn:Ef; [constructor|].
  rewrite pub_eq. destruct (isActive g st s) eqn:Ea; [|constructor].
  set (blk := fun l => match l with
    | LExt x => [Told s x]
    | LExp p => if isActive g st p then Handled p :: map (Told p) (if Nat.eqb f 0 then [] else exts (lst st p)) else [] end).
  assert (Hb : forall ls tr, (forall l, In l ls -> In l (lst st s)) ->
     fold_left (pstep g st chg f s) ls tr = tr ++ flat_map blk ls).
  { induction ls as [|l ls IHl]; intros tr Hl; cbn [fold_left flat_map]; [rewrite app_nil_r; auto|].
    rewrite IHl by (intros l' Hl'; apply Hl; right; auto). rewrite app_assoc. f_equal.
    unfold pstep, blk. destruct l as [x|p]; auto.
    destruct (isActive g st p) eqn:Ep; [|rewrite app_nil_r; auto]. cbn zeta. rewrite HC.
    destruct f as [|f']; cbn [Nat.eqb map]; auto. rewrite pub_eq, Ep.
    assert (forall ls tr, (forall q, ~ In (LExp q) ls) ->
      fold_left (pstep g st chg f' p) ls tr = tr ++ map (Told p) (exts ls)) as G.
    { clear. induction ls as [|[x|q] ls IH]; intros tr Hn; cbn [fold_left].
      - cbn. rewrite app_nil_r; auto.
      - rewrite IH by (intros q Hq; apply (Hn q); right; auto).
        change (exts (LExt x :: ls)) with (x :: exts ls). cbn [map pstep]. rewrite <- app_assoc. reflexivity.
      - destruct (Hn q). left; auto. }
    rewrite G; [rewrite <- app_assoc; reflexivity|].
    intros q. eapply Hp. apply Hl. left; auto. }
  rewrite Hb by auto. cbn [app].
  assert (Hh : forall ls, NoDup ls -> (forall l, In l ls -> In l (lst st s)) -> NoDup (flat_map blk ls)).
  { induction ls as [|l ls IHl]; intros N Hl; cbn [flat_map]; [constructor|].
    inversion N as [|a b Hnl Nls]; subst. specialize (IHl Nls (fun l' H' => Hl l' (or_intror H'))).
    assert (Hbl : NoDup (blk l)).
    { unfold blk. destruct l as [x|p]; [constructor; [tauto|constructor]|].
      destruct (isActive g st p); [|constructor]. constructor.
      - intros H. apply in_map_iff in H. destruct H as [y [H _]]. discriminate.
      - destruct (Nat.eqb f 0); [constructor|]. cbn.
        assert (forall xs, NoDup xs -> NoDup (map (Told p) xs)) as M.
        { induction xs as [|y xs IHx]; cbn; intros Nx; constructor; inversion Nx; subst; auto.
          intros H. apply in_map_iff in H. destruct H as [z [Hz Hin]]. congruence. }
        apply M, exts_nodup, I. }
    assert (Hlt : forall p, In (LExp p) (l :: ls) -> s < p).
    { intros p Hin. apply (edge g W st I s p). apply Hl; auto. }
    clear - Hbl IHl Hnl Hlt.
    assert (Hdis : forall v, In v (blk l) -> ~ In v (flat_map blk ls)).
    { intros v Hv Hin. apply in_flat_map in Hin. destruct Hin as [l' [Hl' Hv']].
      assert (Hne : l <> l') by congruence.
      pose proof (Hlt) as Hlt2. unfold blk in Hv, Hv'.
      destruct l as [x|p], l' as [y|q]; cbn [In] in *.
      - intuition congruence.
      - destruct (isActive g st q); [|contradiction]. destruct Hv as [<-|[]].
        destruct Hv' as [H|H]; [discriminate|]. apply in_map_iff in H. destruct H as [z [Hz _]].
        specialize (Hlt q (or_intror Hl')). injection Hz as Hz _. lia.
      - destruct (isActive g st p); [|contradiction]. destruct Hv' as [<-|[]].
        destruct Hv as [H|H]; [discriminate|]. apply in_map_iff in H. destruct H as [z [Hz _]].
        specialize (Hlt p (or_introl eq_refl)). injection Hz as Hz _. lia.
      - destruct (isActive g st q); [|contradiction]. destruct (isActive g st p); [|contradiction].
        destruct Hv as [<-|Hv], Hv' as [H|Hv'].
        + congruence.
        + apply in_map_iff in Hv'. destruct Hv' as [z [Hz _]]. discriminate.
        + subst v. apply in_map_iff in Hv. destruct Hv as [z [Hz _]]. discriminate.
        + apply in_map_iff in Hv. apply in_map_iff in Hv'.
          destruct Hv as [z [<- _]], Hv' as [z' [Hz' _]]. congruence. }
    revert Hbl Hdis. generalize (blk l) as b. induction b as [|v b IHb]; intros Nb Hd; cbn [app]; auto.
    inversion Nb; subst. constructor.
    - intros H. apply in_app_iff in H. destruct H as [H|H]; auto. apply (Hd v); [left; auto|auto].
    - apply IHb; auto. intros v' Hv'. apply Hd. right; auto. }
  apply Hh; auto. apply I.
Qed.

(** ** What the code gets wrong, and examples *)

Definition mkGraph (n : nat) (row : nat -> knd * list nat * list nat * list nat * list nat * bool) : graph :=
  {| gsize := n;
     kind := fun e => let '(k, _, _, _, _, _) := row e in k;
     kids := fun e => let '(_, k, _, _, _, _) := row e in k;
     akids := fun e => let '(_, _, a, _, _, _) := row e in a;
     xhead := fun e => let '(_, _, _, x, _, _) := row e in x;
     xparams := fun e => let '(_, _, _, _, x, _) := row e in x;
     src := fun e => let '(_, _, _, _, _, s) := row e in s |}.

(** A lookup (6) with constant name (5) and five variable parameters (0-4). *)
Definition g5 : graph := mkGraph 7 (fun e =>
  match e with
  | 0 | 1 | 2 | 3 | 4 => (KNotif, [], [], [], [], true)
  | 6 => (KProp, [5; 0; 1; 2; 3; 4], [5; 0; 1; 2; 3; 4], [5], [0; 1; 2; 3; 4], true)
  | _ => (KConst, [], [], [], [], false)
  end).

Ltac wf_small :=
  split; intros e; do 8 (try (destruct e as [|e]; [cbn; intuition (try lia; try congruence; try discriminate)|]));
  cbn; intuition (try lia; try congruence; try discriminate).

Lemma g5_wf : wf g5.
Proof. wf_small. Qed.

(** A lookup with more than four parameters stays registered with all of them
    after its own last listener has been removed: GeneralExprVec::removeListener
    adds instead of removing. *)
Theorem C30_many_params_refuted :
  wf g5 /\ exists st, nrun g5 [ORem 6 7; OAdd 6 7] = Some st
    /\ registered g5 [ORem 6 7; OAdd 6 7] 6 = []
    /\ lst st 6 = [] /\ forall e, e <= 4 -> lst st e = [LExp 6].
Proof.
  split; [exact g5_wf|]. eexists. split; [vm_compute; reflexivity|]. split; [reflexivity|].
  split; [reflexivity|]. intros e He. do 5 (destruct e as [|e]; [reflexivity|]). lia.
Qed.

(** Two lookups (2, 3) with the same variable parameter (0), compared by a function (4). *)
Definition g2 : graph := mkGraph 5 (fun e =>
  match e with
  | 0 => (KNotif, [], [], [], [], true)
  | 2 | 3 => (KProp, [1; 0], [1; 0], [1], [0], true)
  | 4 => (KProp, [2; 3], [2; 3], [], [], false)
  | _ => (KConst, [], [], [], [], false)
  end).
Lemma g2_wf : wf g2.
Proof. wf_small. Qed.
Lemma g2_few : few_params g2.
Proof. intros e. do 5 (destruct e as [|e]; [cbn; lia|]). cbn. lia. Qed.

(** One change of the variable is announced twice to a listener of the comparison. *)
Theorem C30_once_refuted :
  wf g2 /\ exists st, nrun g2 [OAct 4; OAdd 4 7] = Some st
    /\ publishChange g2 (fun _ _ => true) st 0 = [Handled 2; Handled 4; Told 4 7; Handled 3; Handled 4; Told 4 7].
Proof. split; [exact g2_wf|]. eexists. split; vm_compute; reflexivity. Qed.

(** The theorems apply to [g2]: the comparison, held active, hears its variable. *)
Example C30_demo :
  exists st, nrun g2 [OAct 4; OAdd 4 7] = Some st /\ In (Told 4 7) (publishChange g2 (fun _ _ => true) st 0).
Proof.
  apply C30_active_condition_hears_partial; auto using g2_wf, g2_few; try reflexivity; try (cbn; auto; fail).
  - intros k c _ Hc. do 5 (destruct k as [|k]; [cbn in Hc; cbn; tauto|]). cbn in Hc. tauto.
  - apply dep_step with 2; cbn; auto. apply dep_one. cbn. auto.
Qed.

(** A variable used by two functions, one of them twice, and its state over a history. *)
Definition g3 : graph := mkGraph 4 (fun e =>
  match e with
  | 0 => (KNotif, [], [], [], [], true)
  | 1 => (KProp, [0; 0], [0; 0], [], [], false)
  | 2 => (KProp, [0; 1], [0; 1], [], [], false)
  | _ => (KConst, [], [], [], [], false)
  end).
Example C30_count_demo :
  wf g3 /\ balanced [ODeact 1; OAct 2; OAct 1; OAct 1]
  /\ (exists st, nrun g3 [ODeact 1; OAct 2; OAct 1; OAct 1] = Some st /\ map (cnt st) [0; 1; 2] = [3; 2; 1])
  /\ (exists st, nrun g3 [ODeact 1; ODeact 2; ODeact 1; OAct 2; OAct 1; OAct 1] = Some st /\ map (cnt st) [0; 1; 2] = [0; 0; 0])
  /\ nrun g3 [ODeact 2; ODeact 2; OAct 2] = None.
Proof.
  split; [wf_small|]. split; [cbn; repeat split; lia|]. split; [eexists; split; [vm_compute|]; reflexivity|].
  split; [eexists; split; [vm_compute|]; reflexivity|reflexivity].
Qed.
Example C30_once_demo :
  no_interior_sources g3 /\ few_params g3 /\
  exists st, nrun g3 [OAdd 0 8; OAdd 1 9; OAct 2; OAdd 2 7] = Some st
   /\ publishChange g3 (fun _ _ => true) st 0 = [Handled 2; Told 2 7; Handled 1; Told 1 9; Told 0 8].
Proof.
  split; [|split].
  - intros e. do 4 (destruct e as [|e]; [cbn; intros; try discriminate; auto|]). cbn. discriminate.
  - intros e. do 4 (destruct e as [|e]; [cbn; lia|]). cbn. lia.
  - eexists; split; [vm_compute|]; reflexivity.
Qed.

(** Assumptions *)
Print Assumptions C30_active_iff.
Print Assumptions C30_count.
Print Assumptions C30_listeners_partial.
Print Assumptions C30_publish_order_partial.
Print Assumptions C30_told_only_if_partial.
Print Assumptions C30_told_if_partial.
Print Assumptions C30_active_condition_hears_partial.
Print Assumptions C30_once_partial.
Print Assumptions C30_many_params_refuted.
Print Assumptions C30_once_refuted.
