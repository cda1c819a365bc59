(** Timestamps of the state cache model. *)
From Verif Require Import ValueModel RealModel RealProofs CacheModel CacheSpec OrderProps CacheProofs CacheProofs2.
Open Scope Z_scope.
Global Arguments gotSince : simpl never.

Record FR (w : world) : Prop := {
  fr_pos : (1 <= w_cyc w)%nat;
  fr_ts : forall k e c, In (k, e) (w_map w) -> e_val (w_ent w e) = Some c ->
          (cv_ts c <= w_cyc w)%nat /\ (cv_ts c = w_cyc w -> gotSince k (w_tr w) = true) }.
Lemma gotSince_app s a b : gotSince s (a ++ b) = fold_left (fun acc v => match v with Cyc => false | Got k _ => acc || same_key k s | _ => acc end) b (gotSince s a).
Proof. unfold gotSince. apply fold_left_app. Qed.
Lemma gotSince_mono s a d : ~ In Cyc d -> gotSince s a = true -> gotSince s (a ++ d) = true.
Proof.
  rewrite gotSince_app. intros N ->. induction d as [|v d IH]; auto. cbn in N. cbn.
  destruct v; cbn; tauto.
Qed.
(** Steps which store no new value. *)
Lemma FR_same w w' d : FR w -> w_cyc w' = w_cyc w -> w_tr w' = w_tr w ++ d -> ~ In Cyc d ->
  (forall k e c, In (k, e) (w_map w') -> e_val (w_ent w' e) = Some c -> In (k, e) (w_map w) /\ e_val (w_ent w e) = Some c) -> FR w'.
Proof.
  intros [P F] C T N H. constructor; rewrite C; auto. intros k e c I E. destruct (H k e c I E) as [I' E'].
  destruct (F k e c I' E') as [F1 F2]. split; auto. intros X. rewrite T. apply gotSince_mono; auto.
Qed.
Lemma FR_quiet w w' : quiet w w' -> FR w -> FR w'.
Proof.
  intros [Q1 Q2 Q3 Q4 Q5 Q6 [d [Q7 Q8]]] F. apply (FR_same w w' d); auto.
  - intros I. rewrite Forall_forall in Q8. destruct (Q8 _ I).
  - intros k e c. rewrite Q1, Q4. auto.
Qed.
Lemma FR_setLk w l y : FR w -> FR (setLk w l y).
Proof. intros F. apply (FR_same w _ []); auto. cbn. now rewrite app_nil_r. Qed.
Lemma FR_reg w e ls t : FR w -> FR (setEnt w e (mkEnt (e_val (w_ent w e)) ls t)).
Proof.
  intros F. apply (FR_same w _ []); auto. cbn. now rewrite app_nil_r. cbn. unfold updf.
  intros k e' c I. destruct (Nat.eqb_spec e' e) as [->|]; auto.
Qed.
Lemma FR_emit w v : v <> Cyc -> FR w -> FR (emit w v).
Proof. intros N F. apply (FR_same w _ [v]); auto. cbn. intros [|[]]; congruence. Qed.
Lemma FR_ensureE rg w s : inv rg w -> FR w -> FR (fst (ensureE w s)).
Proof.
  intros V F. unfold ensureE. destruct (findKey s (w_map w)); auto. cbn [fst]. apply (FR_same w _ []); auto.
  - cbn. now rewrite app_nil_r.
  - cbn. intros k e c I. unfold updf. apply in_app_iff in I as [I|[I|[]]].
    + pose proof (i_lt _ _ V _ _ I). rewrite (proj2 (Nat.eqb_neq e (w_next w))) by lia. auto.
    + inversion I; subst. rewrite Nat.eqb_refl. discriminate.
Qed.
Lemma ts_store c ts v : cv_ts (fst (cvStore c ts v)) = ts \/ cv_ts (fst (cvStore c ts v)) = cv_ts c.
Proof. unfold cvStore. destruct (_ || _); auto. Qed.
Lemma ts_unk c ts : cv_ts (fst (cvSetUnknown c ts)) = ts \/ cv_ts (fst (cvSetUnknown c ts)) = cv_ts c.
Proof. unfold cvSetUnknown. destruct (_ =? _); auto. Qed.
Lemma ts_update c ts v p : cvUpdate c ts v = Some p -> cv_ts (fst p) = ts \/ cv_ts (fst p) = cv_ts c.
Proof.
  unfold cvUpdate. destruct (cvType c =? UNKNOWN_TYPE).
  - destruct (vknown v); [discriminate|]. intros H. inversion H. auto.
  - destruct v; intros H; repeat match type of H with (if ?b then _ else _) = _ => destruct b end; try discriminate;
      inversion H; subst; try apply ts_store. apply ts_unk.
Qed.
Lemma cvFactory_ts t c : cvFactory t = Some c -> cv_ts c = 0%nat.
Proof. unfold cvFactory. destruct (_ || _ || _); [|destruct (_ || _)]; intros H; inversion H; auto. Qed.
Lemma ts_ensure cur t c : ensureCv cur t = Some (Some c) -> cv_ts c = 0%nat \/ cur = Some c.
Proof.
  unfold ensureCv. destruct cur as [c0|].
  - destruct (_ || _). { intros H; inversion H; auto. }
    destruct (_ =? _).
    { destruct (cvFactory t) eqn:F; [|discriminate]. cbn. intros H; inversion H; subst. left. eapply cvFactory_ts; eauto. }
    destruct (_ && _). { intros H; inversion H; auto. }
    destruct (_ && _); [|discriminate]. intros H; inversion H; auto.
  - destruct (cvFactory t) eqn:F; [|discriminate]. cbn. intros H; inversion H; subst. left. eapply cvFactory_ts; eauto.
Qed.
Lemma key_same rg w s e k : inv rg w -> okState s -> findKey s (w_map w) = Some e -> In (k, e) (w_map w) -> same_key s k = true.
Proof.
  intros V Hs F I. apply findKey_in in F as [k0 [I0 K0]]. rewrite same_key_sym.
  assert (EK : k = k0); [|now subst].
  pose proof (i_nodup _ _ V) as ND. clear - ND I I0. induction (w_map w) as [|[a x] m IH]; [destruct I|]. cbn in *. inversion ND; subst.
  destruct I0 as [I0|I0], I as [I|I]; auto; try congruence.
  - inversion I0; subst. exfalso. apply H1. apply in_map_iff. exists (k, e). auto.
  - inversion I; subst. exfalso. apply H1. apply in_map_iff. exists (k0, e). auto.
Qed.
Lemma FR_entUpdate rg w e s u w' : inv rg w -> okState s -> findKey s (w_map w) = Some e ->
  entUpdate (emit w (Got s u)) e u = Some w' -> FR w -> FR w' /\ exists d, w_tr w' = w_tr w ++ d.
Proof.
  intros V Hs F H FRw.
  assert (F0 : FR (emit w (Got s u))) by (apply FR_emit; auto; discriminate).
  assert (SET : forall c, (cv_ts c <= w_cyc w)%nat -> FR (setVal (emit w (Got s u)) e c)).
  { intros c L. constructor; cbn; [apply FRw|]. intros k e' c' I. unfold updf. destruct (Nat.eqb_spec e' e) as [->|N]; cbn.
    - intros E. inversion E; subst. split; auto. intros _. rewrite gotSince_app. cbn.
      rewrite (key_same rg w s e k) by auto. apply orb_true_r.
    - intros E. apply (fr_ts _ F0 k e' c'); auto. }
  assert (FIN : forall c (n : bool), (cv_ts c <= w_cyc w)%nat ->
     (if n then notifyAll (e_lk (w_ent w e)) (setVal (emit w (Got s u)) e c) else Some (setVal (emit w (Got s u)) e c)) = Some w' ->
     FR w' /\ exists d, w_tr w' = w_tr w ++ d).
  { intros c n L HN. specialize (SET c L). destruct n.
    - pose proof (quiet_notify _ _ _ HN) as Q. split; [eapply FR_quiet; eauto|].
      destruct (q_tr _ _ _ Q) as [d [D _]]. exists (Got s u :: d). rewrite D. cbn. now rewrite <- app_assoc.
    - inversion HN; subst. split; auto. exists [Got s u]. reflexivity. }
  unfold entUpdate, getE in H. destruct (live _ e); [|discriminate]. cbn [obind] in H.
  assert (TS : forall c, e_val (w_ent w e) = Some c -> (cv_ts c <= w_cyc w)%nat).
  { intros c E. destruct (findKey_in _ _ _ F) as [k [I _]]. eapply (fr_ts _ FRw); eauto. }
  destruct u as [v|].
  - ob H. destruct o as [c|].
    + ob H. cbv zeta in H. apply (FIN (fst p) (snd p)); auto.
      pose proof (fr_pos _ FRw). destruct (ts_update _ _ _ _ E0) as [->| ->]; cbn; auto.
      destruct (ts_ensure _ _ _ E) as [->|X]; auto. lia.
    + inversion H; subst. split; auto. exists [Got s (UVal v)]. reflexivity.
  - cbn [emit w_ent w_cyc] in H. destruct (e_val (w_ent w e)) as [c|] eqn:EV.
    + cbv zeta in H. apply (FIN (fst (cvSetUnknown c (w_cyc w))) (snd (cvSetUnknown c (w_cyc w)))); auto.
      destruct (ts_unk c (w_cyc w)) as [->| ->]; auto.
    + inversion H; subst. split; auto. exists [Got s UUnk]. reflexivity.
Qed.
