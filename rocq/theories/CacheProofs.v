(** Invariants of the state cache model. *)
From Coq Require Import Permutation.
From Verif Require Import ValueModel RealModel RealProofs CacheModel CacheSpec OrderProps.
Open Scope Z_scope.

Global Arguments lkActive : simpl never.
Global Arguments live : simpl never.
Global Arguments current : simpl never.
Global Arguments delivered : simpl never.
Global Arguments state_lt : simpl never.
Global Arguments same_key : simpl never.
Ltac ob H :=
  match type of H with
  | obind ?x _ = Some _ => let E := fresh "E" in destruct x eqn:E; cbn [obind] in H; [|discriminate H]
  end.

Lemma updf_same {A} (f : nat -> A) i x : updf f i x i = x. Proof. unfold updf. now rewrite Nat.eqb_refl. Qed.
Lemma updf_other {A} (f : nat -> A) i x j : j <> i -> updf f i x j = f j.
Proof. intros H. unfold updf. destruct (Nat.eqb_spec j i); congruence. Qed.

(** ** Steps that only touch thresholds, local caches and notifications *)
Definition core (x : lk) : lk :=
  mkLk (l_onch x) (l_const x) (l_tolconst x) (l_cnt x) (l_st x) (l_known x) (l_ent x) (l_reg x)
       None None (l_env x) (l_tol x) (l_tola x).
Definition soft (v : ev) : Prop := match v with Pub _ | SetTI _ _ _ | SetTR _ _ _ | ClrT _ => True | _ => False end.
Definition softT (v : ev) : Prop := match v with SetTI _ _ _ | SetTR _ _ _ | ClrT _ => True | _ => False end.
Record quietP (P : ev -> Prop) (w w' : world) : Prop := {
  q_map : w_map w' = w_map w;
  q_next : w_next w' = w_next w;
  q_cyc : w_cyc w' = w_cyc w;
  q_val : forall e, e_val (w_ent w' e) = e_val (w_ent w e);
  q_lks : forall e, e_lk (w_ent w' e) = e_lk (w_ent w e);
  q_core : forall l, core (w_lk w' l) = core (w_lk w l);
  q_tr : exists d, w_tr w' = w_tr w ++ d /\ Forall P d }.
Notation quiet := (quietP soft).
Notation quietT := (quietP softT).
Lemma quietT_quiet w w' : quietT w w' -> quiet w w'.
Proof.
  intros [A1 A2 A3 A4 A5 A6 [d [A7 A8]]]. constructor; auto. exists d. split; auto.
  eapply Forall_impl; [|exact A8]. intros []; cbn; tauto.
Qed.
Lemma quiet_refl P w : quietP P w w.
Proof. constructor; auto. exists []. rewrite app_nil_r. auto. Qed.
Lemma quiet_trans P a b c : quietP P a b -> quietP P b c -> quietP P a c.
Proof.
  intros [A1 A2 A3 A4 A5 A6 [d [A7 A8]]] [B1 B2 B3 B4 B5 B6 [d' [B7 B8]]].
  constructor; intros; try congruence.
  exists (d ++ d'). rewrite B7, A7, app_assoc. split; auto. apply Forall_app; auto.
Qed.
Lemma quiet_emit (P : ev -> Prop) w v : P v -> quietP P w (emit w v).
Proof. intros H. constructor; auto. exists [v]. cbn. auto. Qed.
Lemma quiet_flag P w e b : quietP P w (setThrFlag w e b).
Proof.
  constructor; auto; try (intros; cbn; unfold updf; destruct (Nat.eqb_spec e0 e); subst; reflexivity).
  exists []. rewrite app_nil_r. auto.
Qed.
Lemma quiet_TC P w l t c : quietP P w (setLkTC w l t c).
Proof.
  constructor; auto; try (intros; cbn; unfold updf; destruct (Nat.eqb_spec l0 l); subst; reflexivity).
  exists []. rewrite app_nil_r. auto.
Qed.
Lemma quiet_publish w l : quiet w (publish w l).
Proof. unfold publish. destruct lkActive. apply quiet_emit; exact I. apply quiet_refl. Qed.
Lemma quiet_updT w e st w' : updateThresholds w e st = Some w' -> quietT w w'.
Proof.
  unfold updateThresholds. intros H. ob H. destruct (e_val e0); [|discriminate].
  destruct (cvType c =? INTEGER_TYPE).
  - ob H. destruct o as [[lo hi]|]; inversion H; subst; clear H.
    + eapply quiet_trans; [apply quiet_flag|apply quiet_emit; exact I].
    + destruct (e_thr e0); [apply (quiet_trans _ _ (emit w (ClrT st))); [apply quiet_emit; exact I|apply quiet_flag]|apply quiet_flag].
  - destruct (_ || _ || _).
    + ob H. destruct o as [[lo hi]|]; inversion H; subst; clear H.
      * eapply quiet_trans; [apply quiet_flag|apply quiet_emit; exact I].
      * destruct (e_thr e0); [apply (quiet_trans _ _ (emit w (ClrT st))); [apply quiet_emit; exact I|apply quiet_flag]|apply quiet_flag].
    + inversion H; subst. apply quiet_refl.
Qed.
Lemma quiet_updI w l vc p : updateInternal w l vc = Some p -> quietT w (fst p).
Proof.
  unfold updateInternal. destruct (l_thr (w_lk w l)).
  - intros H. ob H. destruct (vknown _).
    + do 5 ob H. destruct b0.
      * do 4 ob H. inversion H; subst; cbn [fst]. eapply quiet_trans; [apply quiet_TC|eapply quiet_updT; eauto].
      * inversion H; subst; cbn [fst]. apply quiet_TC.
    + ob H. inversion H; subst; cbn [fst]. eapply quiet_trans; [apply quiet_TC|eapply quiet_updT; eauto].
  - destruct (l_ent _). 2:{ intros H. inversion H; subst. apply quiet_refl. }
    intros H. ob H. destruct (_ && _).
    + do 5 ob H. inversion H; subst; cbn [fst]. eapply quiet_trans; [apply quiet_TC|eapply quiet_updT; eauto].
    + inversion H; subst; cbn [fst]. apply quiet_refl.
Qed.
Lemma quiet_vc l w w' : valueChanged l w = Some w' -> quiet w w'.
Proof.
  unfold valueChanged. destruct l_onch; [destruct lkActive|].
  - intros H. ob H. inversion H; subst. apply quiet_updI, quietT_quiet in E.
    destruct (snd p); auto. eapply quiet_trans; eauto. apply quiet_publish.
  - intros H; inversion H; apply quiet_refl.
  - intros H; inversion H; apply quiet_publish.
Qed.
Lemma quiet_notify ls : forall w w', notifyAll ls w = Some w' -> quiet w w'.
Proof.
  induction ls; cbn; intros w w' H. { inversion H; apply quiet_refl. }
  ob H. eapply quiet_trans; [eapply quiet_vc; eauto|auto].
Qed.

(** ** The specification of values under quiet steps *)
Lemma delivered_app s a b :
  delivered s (a ++ b) = fold_left (fun acc v =>
    match v with Got k u => if same_key k s then acc ++ [u] else acc | Del k => if same_key k s then [] else acc | _ => acc end)
    b (delivered s a).
Proof. unfold delivered. apply fold_left_app. Qed.
Lemma delivered_soft s a d : Forall soft d -> delivered s (a ++ d) = delivered s a.
Proof.
  intros F. rewrite delivered_app. generalize (delivered s a). induction F as [|v d Hv F IH]; intros; cbn; auto.
  destruct v; cbn in Hv; try tauto; apply IH.
Qed.
Lemma delivered_got s a k u : delivered s (a ++ [Got k u]) = if same_key k s then delivered s a ++ [u] else delivered s a.
Proof. rewrite delivered_app. reflexivity. Qed.
Lemma current_soft s a d : Forall soft d -> current s (a ++ d) = current s a.
Proof. intros. unfold current. now rewrite delivered_soft. Qed.
Lemma current_got s a k u : current s (a ++ [Got k u]) = if same_key k s then valueAfter (current s a) u else current s a.
Proof. unfold current. rewrite delivered_got. destruct same_key; auto. rewrite fold_left_app. reflexivity. Qed.
Lemma current_del s a k : current s (a ++ [Del k]) = if same_key k s then VUnk UNKNOWN_TYPE else current s a.
Proof. unfold current. rewrite delivered_app. cbn. destruct same_key; auto. Qed.

(** ** Keys *)
Lemma same_key_spec a b : same_key a b = true <-> state_lt a b = false /\ state_lt b a = false.
Proof. unfold same_key. rewrite andb_true_iff, !negb_true_iff. reflexivity. Qed.
Lemma same_key_sym a b : same_key a b = same_key b a.
Proof. unfold same_key. apply andb_comm. Qed.
Lemma same_key_refl a : okState a -> same_key a a = true.
Proof. intros H. apply same_key_spec. pose proof (swo_irrefl _ _ C20_state_order_partial a H). auto. Qed.
Lemma same_key_trans a b c : okState a -> okState b -> okState c -> same_key a b = true -> same_key b c = true -> same_key a c = true.
Proof.
  intros Ha Hb Hc. rewrite !same_key_spec. intros [? ?] [? ?]. apply (swo_incomp _ _ C20_state_order_partial a b c); auto.
Qed.
Lemma same_key_cong a b c : okState a -> okState b -> okState c -> same_key a b = true -> same_key c a = same_key c b.
Proof.
  intros Ha Hb Hc H. destruct (same_key c a) eqn:E; symmetry.
  - apply (same_key_trans c a b); auto.
  - destruct (same_key c b) eqn:F; auto. rewrite <- E. symmetry. apply (same_key_trans c b a); auto. now rewrite same_key_sym.
Qed.
Lemma current_cong a b tr : okState a -> okState b -> same_key a b = true ->
  (forall k u, In (Got k u) tr -> okState k) -> (forall k, In (Del k) tr -> okState k) -> current a tr = current b tr.
Proof.
  intros Ha Hb H G D. unfold current. f_equal. induction tr as [|v tr IH] using rev_ind; auto.
  rewrite !delivered_app. cbn. rewrite IH; [|intros; eapply G; apply in_app_iff; eauto|intros; eapply D; apply in_app_iff; eauto].
  destruct v; auto.
  - rewrite (same_key_cong a b s); auto. eapply G. apply in_app_iff. right. left. reflexivity.
  - rewrite (same_key_cong a b s); auto. eapply D. apply in_app_iff. right. left. reflexivity.
Qed.

(** Equal known ordinary states are the same key. *)
Lemma vec_eq_arr_lt {T} (eq lt : T -> T -> bool) (HE : forall x y, eq x y = true -> lt x y = false /\ lt y x = false) :
  forall ka ca kb cb, vec_eq Bool.eqb ka kb = true -> vec_eq eq ca cb = true ->
    arr_lt_loop lt ka kb ca cb = false /\ arr_lt_loop lt kb ka cb ca = false.
Proof.
  induction ka as [|x ka IH]; intros ca [|y kb] cb; cbn; auto; try discriminate.
  destruct ca as [|u ca], cb as [|v cb]; cbn; auto; try discriminate.
  rewrite !andb_true_iff. intros [E1 E2] [E3 E4]. apply eqb_prop in E1. subst y.
  destruct (HE u v E3) as [-> ->]. destruct (IH ca kb cb E2 E4). destruct x; cbn; auto.
Qed.
Lemma vec_eq_len {T} (eq : T -> T -> bool) a : forall b, vec_eq eq a b = true -> length a = length b.
Proof. induction a; intros [|]; cbn; auto; try discriminate. rewrite andb_true_iff. intros [_ H]. f_equal. auto. Qed.
Lemma arr_eq_arr_lt {T} (eq lt : T -> T -> bool) (HE : forall x y, eq x y = true -> lt x y = false /\ lt y x = false) a b :
  arr_eq eq a b = true -> arr_lt lt a b = false /\ arr_lt lt b a = false.
Proof.
  unfold arr_eq, arr_lt. rewrite andb_true_iff. intros [E1 E2]. rewrite (vec_eq_len _ _ _ E1), Nat.ltb_irrefl.
  now apply (vec_eq_arr_lt eq).
Qed.
Lemma ext_eq_lt x y : ext_eq x y = true -> ext_lt x y = false /\ ext_lt y x = false.
Proof. destruct x, y; cbn; try discriminate; auto. rewrite Z.eqb_eq, !Z.ltb_ge. lia. Qed.
Lemma oext_eq_lt x y : oext_eq x y = true -> oext_lt x y = false /\ oext_lt y x = false.
Proof. destruct x, y; cbn; try discriminate; auto. apply ext_eq_lt. Qed.
Lemma seqb_sltb a : forall b, seqb a b = true -> sltb a b = false /\ sltb b a = false.
Proof.
  induction a; intros [|y b]; cbn; auto; try discriminate. rewrite andb_true_iff, Z.eqb_eq. intros [-> H].
  rewrite Z.ltb_irrefl. auto.
Qed.
Lemma Zeqb_ltb x y : (x =? y) = true -> (x <? y) = false /\ (y <? x) = false.
Proof. rewrite Z.eqb_eq, !Z.ltb_ge. lia. Qed.
Lemma beq_lt x y : Bool.eqb x y = true -> bool_lt x y = false /\ bool_lt y x = false.
Proof. destruct x, y; cbn; auto; discriminate. Qed.
Lemma veq_vlt a b : vknown a = true -> vknown b = true -> veq a b = true -> vlt a b = false /\ vlt b a = false.
Proof.
  destruct a, b; cbn -[ikey rkey]; intros K1 K2 H; try discriminate; auto.
  - now apply beq_lt.
  - now apply Zeqb_ltb.
  - apply oext_eq_lt in H. unfold oext_lt in *. cbn -[ikey rkey] in *. tauto.
  - now apply oext_eq_lt in H.
  - now apply oext_eq_lt in H.
  - now apply seqb_sltb.
  - now apply Zeqb_ltb.
  - now apply Zeqb_ltb.
  - now apply Zeqb_ltb.
  - now apply Zeqb_ltb.
  - eapply arr_eq_arr_lt; eauto. apply beq_lt.
  - eapply arr_eq_arr_lt; eauto. apply Zeqb_ltb.
  - eapply arr_eq_arr_lt; eauto. intros; now apply oext_eq_lt.
  - eapply arr_eq_arr_lt; eauto. intros; now apply seqb_sltb.
Qed.
Lemma state_eq_key a b : okLkState a -> okLkState b -> state_eq a b = true -> same_key a b = true.
Proof.
  intros [_ Ka] [_ Kb] H. unfold state_eq in H. apply andb_true_iff in H as [N P].
  apply same_key_spec. unfold state_lt. destruct (seqb_sltb _ _ N) as [-> ->].
  rewrite (vec_eq_len _ _ _ P), Nat.ltb_irrefl. generalize dependent (s_params b). generalize (s_params a) Ka.
  induction l as [|x l IH]; intros Fa [|y m] Fb; cbn; auto; try discriminate.
  rewrite andb_true_iff. intros [E1 E2]. inversion Fa; inversion Fb; subst.
  destruct (veq_vlt x y) as [-> ->]; auto.
Qed.

(** ** Invariant.  [rg]: the lookups listed in the entry they point to. *)
Definition entV (x : entry) : val := match e_val x with Some c => cv_v c | None => VUnk UNKNOWN_TYPE end.
Definition occ (ls : list nat) (l : nat) : nat := count_occ Nat.eq_dec ls l.
Definition at_ent (x : lk) (e : nat) : bool := match l_ent x with Some e' => Nat.eqb e' e | None => false end.
Definition goodTypes (x : entry) : Prop :=
  match e_val x with Some c => cvFactory (cvType c) <> None /\ canonType (cvType c) = cvType c | None => True end.
Record inv (rg : nat -> bool) (w : world) : Prop := {
  i_nodup : NoDup (map snd (w_map w));
  i_lt : forall k e, In (k, e) (w_map w) -> (e < w_next w)%nat;
  i_keys : forall k e, In (k, e) (w_map w) -> okState k;
  i_uniq : forall k e k' e', In (k, e) (w_map w) -> In (k', e') (w_map w) -> same_key k k' = true -> e = e';
  i_got : forall k u, In (Got k u) (w_tr w) -> okState k;
  i_del : forall k, In (Del k) (w_tr w) -> okState k;
  i_val : forall k e, In (k, e) (w_map w) -> vsim (entV (w_ent w e)) (current k (w_tr w));
  i_typ : forall e, goodTypes (w_ent w e);
  i_nokey : forall s, okState s -> findKey s (w_map w) = None -> current s (w_tr w) = VUnk UNKNOWN_TYPE;
  i_occ : forall e l, live w e = true -> occ (e_lk (w_ent w e)) l = if rg l && at_ent (w_lk w l) e then 1%nat else 0%nat;
  i_reg : forall l, rg l = true -> exists e, l_ent (w_lk w l) = Some e /\ okState (l_st (w_lk w l)) /\
                                             findKey (l_st (w_lk w l)) (w_map w) = Some e }.

Lemma findKey_in s m e : findKey s m = Some e -> exists k, In (k, e) m /\ same_key k s = true.
Proof.
  induction m as [|[k x] m IH]; cbn; [discriminate|]. destruct (same_key k s) eqn:E; intros H.
  - inversion H; subst. exists k. auto.
  - destruct (IH H) as [k' [A B]]. exists k'. auto.
Qed.
Lemma findKey_none s m : findKey s m = None -> forall k e, In (k, e) m -> same_key k s = false.
Proof.
  induction m as [|[k x] m IH]; cbn; intros H k' e' I; [tauto|]. destruct (same_key k s) eqn:E; [discriminate|].
  destruct I as [I|I]; [inversion I; subst; auto|eauto].
Qed.
Lemma live_in w e : live w e = true <-> exists k, In (k, e) (w_map w).
Proof.
  unfold live. rewrite existsb_exists. split.
  - intros [[k x] [I E]]. apply Nat.eqb_eq in E. cbn in E. subst. eauto.
  - intros [k I]. exists (k, e). split; auto. apply Nat.eqb_refl.
Qed.
Lemma findKey_live w s e : findKey s (w_map w) = Some e -> live w e = true.
Proof. intros H. apply findKey_in in H as [k [I _]]. apply live_in. eauto. Qed.
(** With ordinary keys, every key that is the same finds the same entry. *)
Lemma inv_find rg w : inv rg w -> forall s k e, okState s -> In (k, e) (w_map w) -> same_key k s = true -> findKey s (w_map w) = Some e.
Proof.
  intros V s k e Hs I K. destruct (findKey s (w_map w)) as [e'|] eqn:F.
  - apply findKey_in in F as [k' [I' K']]. f_equal. apply (i_uniq _ _ V k' e' k e); auto.
    apply (same_key_trans k' s k); auto; try (eapply i_keys; eauto). now rewrite same_key_sym.
  - rewrite (findKey_none _ _ F _ _ I) in K. discriminate.
Qed.
Lemma inv_find_cong rg w a b : inv rg w -> okState a -> okState b -> same_key a b = true -> findKey a (w_map w) = findKey b (w_map w).
Proof.
  intros V Ha Hb H. destruct (findKey a (w_map w)) as [e|] eqn:F.
  - symmetry. apply findKey_in in F as [k [I K]]. apply (inv_find rg w V b k e); auto. apply (same_key_trans k a b); auto. eapply i_keys; eauto.
  - destruct (findKey b (w_map w)) as [e|] eqn:F'; auto.
    apply findKey_in in F' as [k [I K]]. rewrite <- F. apply (inv_find rg w V a k e); auto.
    apply (same_key_trans k b a); auto. eapply i_keys; eauto. now rewrite same_key_sym.
Qed.
Lemma inv_current rg w s e : inv rg w -> okState s -> findKey s (w_map w) = Some e -> vsim (entV (w_ent w e)) (current s (w_tr w)).
Proof.
  intros V Hs F. apply findKey_in in F as [k [I K]].
  rewrite <- (current_cong k s); auto.
  - eapply i_val; eauto.
  - eapply i_keys; eauto.
  - apply (i_got _ _ V).
  - apply (i_del _ _ V).
Qed.

(** Same lookups, entries' registrations and keys. *)
Record semi (w w' : world) : Prop := {
  s_map : w_map w' = w_map w; s_next : w_next w' = w_next w; s_cyc : w_cyc w' = w_cyc w;
  s_lks : forall e, e_lk (w_ent w' e) = e_lk (w_ent w e);
  s_core : forall l, core (w_lk w' l) = core (w_lk w l) }.
Lemma quiet_semi w w' : quiet w w' -> semi w w'.
Proof. intros []. constructor; auto. Qed.
Lemma semi_refl w : semi w w. Proof. constructor; auto. Qed.
Lemma semi_trans a b c : semi a b -> semi b c -> semi a c.
Proof. intros [] []. constructor; intros; congruence. Qed.

Lemma core_ent x y : core x = core y -> l_ent x = l_ent y.
Proof. intros H. now inversion H. Qed.
Lemma core_st x y : core x = core y -> l_st x = l_st y.
Proof. intros H. now inversion H. Qed.
Lemma inv_quiet rg w w' : quiet w w' -> inv rg w -> inv rg w'.
Proof.
  intros [Q1 Q2 Q3 Q4 Q5 Q6 [d [Q7 Q8]]] [].
  assert (SG : forall k u, In (Got k u) (w_tr w') -> In (Got k u) (w_tr w)).
  { intros. rewrite Q7 in H. apply in_app_iff in H as [|H]; auto. rewrite Forall_forall in Q8. destruct (Q8 _ H). }
  assert (SD : forall k, In (Del k) (w_tr w') -> In (Del k) (w_tr w)).
  { intros. rewrite Q7 in H. apply in_app_iff in H as [|H]; auto. rewrite Forall_forall in Q8. destruct (Q8 _ H). }
  constructor; rewrite ?Q1, ?Q2; auto.
  - intros; eauto.
  - intros k e I. rewrite Q7, current_soft by auto. unfold entV. rewrite Q4. apply (i_val0 k e I).
  - intros e. unfold goodTypes. rewrite Q4. apply i_typ0.
  - intros s Hs F. rewrite Q7, current_soft by auto. auto.
  - intros e l L. rewrite Q5. unfold at_ent. rewrite (core_ent _ _ (Q6 l)). apply i_occ0.
    unfold live in *. now rewrite <- Q1.
  - intros l R. rewrite (core_ent _ _ (Q6 l)), (core_st _ _ (Q6 l)). auto.
Qed.

(** *** Creating entries *)
Lemma findKey_app s m k e : findKey s (m ++ [(k, e)]) = match findKey s m with Some x => Some x | None => if same_key k s then Some e else None end.
Proof. induction m as [|[k' x] m IH]; cbn; auto. destruct (same_key k' s); auto. Qed.
Record grows (w w' : world) : Prop := {
  g_find : forall s e, findKey s (w_map w) = Some e -> findKey s (w_map w') = Some e;
  g_next : (w_next w <= w_next w')%nat;
  g_live : forall e, (e < w_next w)%nat -> live w' e = true -> live w e = true }.
Lemma grows_refl w : grows w w. Proof. constructor; auto. Qed.
Lemma grows_trans a b c : grows a b -> grows b c -> grows a c.
Proof. intros [] []. constructor; auto. lia. intros. apply g_live0; auto. apply g_live1; auto. lia. Qed.
Lemma grows_semi w w' : semi w w' -> grows w w'.
Proof. intros []. unfold live. constructor. intros; congruence. lia. intros e _. unfold live. now rewrite s_map0. Qed.
Lemma ensureE_spec rg w s : inv rg w -> okState s ->
  let p := ensureE w s in
  inv rg (fst p) /\ grows w (fst p) /\ findKey s (w_map (fst p)) = Some (snd p) /\
  w_lk (fst p) = w_lk w /\ w_tr (fst p) = w_tr w /\ w_cyc (fst p) = w_cyc w /\
  (forall e, live w e = true -> w_ent (fst p) e = w_ent w e).
Proof.
  intros V Hs. unfold ensureE. destruct (findKey s (w_map w)) as [e|] eqn:F; cbn [fst snd].
  { repeat (split; auto). }
  assert (NL : live w (w_next w) = false).
  { destruct (live w (w_next w)) eqn:L; auto. apply live_in in L as [k I]. apply (i_lt _ _ V) in I. lia. }
  assert (LV : forall e, existsb (fun p => Nat.eqb (snd p) e) (w_map w ++ [(s, w_next w)]) = true -> e = w_next w \/ live w e = true).
  { intros e. rewrite existsb_app, orb_true_iff. cbn. rewrite orb_false_r, Nat.eqb_eq. intros [|]; auto. }
  split; [|split; [|split; [|split; [|split; [|split]]]]]; cbn; auto.
  - destruct V. constructor; cbn; auto.
    + rewrite map_app. cbn. 
      apply (Permutation_NoDup (l := w_next w :: map snd (w_map w))).
      { apply Permutation_cons_append. }
      constructor; auto. intros I. apply in_map_iff in I as [[k e] [E I]]. cbn in E. subst. apply i_lt0 in I. lia.
    + intros k e I. apply in_app_iff in I as [I|[I|[]]]; [apply i_lt0 in I; lia|inversion I; lia].
    + intros k e I. apply in_app_iff in I as [I|[I|[]]]; [eauto|inversion I; subst; auto].
    + intros k e k' e' I I' K. apply in_app_iff in I as [I|[I|[]]]; apply in_app_iff in I' as [I'|[I'|[]]].
      * eauto.
      * inversion I'; subst. rewrite (findKey_none _ _ F _ _ I) in K. discriminate.
      * inversion I; subst. rewrite same_key_sym, (findKey_none _ _ F _ _ I') in K. discriminate.
      * inversion I; inversion I'; subst; auto.
    + intros k e I. apply in_app_iff in I as [I|[I|[]]].
      * rewrite updf_other. eauto. intros ->. apply i_lt0 in I. lia.
      * inversion I; subst. rewrite updf_same. rewrite i_nokey0 by auto. left. reflexivity.
    + intros e. unfold updf. destruct (Nat.eqb e (w_next w)); [exact I|apply i_typ0].
    + intros s' Hs' F'. apply i_nokey0; auto. rewrite findKey_app in F'. destruct (findKey s' (w_map w)); auto.
    + intros e l L. apply LV in L as [->|L].
      * rewrite updf_same. cbn. destruct (rg l) eqn:R; auto.
        destruct (i_reg0 l R) as [e [E1 [_ E2]]]. unfold at_ent. rewrite E1.
        destruct (Nat.eqb_spec e (w_next w)); auto. subst. apply findKey_live in E2. congruence.
      * rewrite updf_other; auto. intros ->. congruence.
    + intros l R. destruct (i_reg0 l R) as [e [E1 [E2 E3]]]. exists e. split; auto. split; auto.
      rewrite findKey_app, E3. auto.
  - constructor; cbn; auto.
    + intros s' e' E. rewrite findKey_app, E. auto.
    + intros e Lt L. apply LV in L as [->|L]; auto. lia.
  - rewrite findKey_app, F, same_key_refl; auto.
  - intros e L. rewrite updf_other; auto. intros ->. congruence.
Qed.

(** *** Updating a value *)
Lemma vsim_type a b : vsim a b -> vtype a = vtype b.
Proof. intros [->|[H _]]; auto. Qed.
Lemma vsim_known a b : vsim a b -> vknown a = vknown b.
Proof.
  intros [->|[_ H]]; auto. unfold veq in H. destruct (Bool.eqb (vknown a) (vknown b)) eqn:E.
  - now apply eqb_prop in E.
  - discriminate.
Qed.
Lemma vsim_unk a b : vsim a b -> vknown a = false -> a = b.
Proof.
  intros H K. pose proof (vsim_type _ _ H). pose proof (vsim_known _ _ H). destruct a, b; cbn in *; try discriminate. congruence.
Qed.
Lemma vsim_refl a : vsim a a. Proof. now left. Qed.
Lemma vsim_veq a b v : vsim a b -> veq a v = veq b v.
Proof.
  intros [->|[_ H]]; auto. destruct (veq a v) eqn:E; symmetry.
  - rewrite C19_symmetric in H. eapply C19_transitive; eauto.
  - destruct (veq b v) eqn:F; auto. rewrite <- E. symmetry. eapply C19_transitive; eauto.
Qed.
Lemma vsim_changed a b v : vsim a b -> changed a v = changed b v.
Proof. intros H. unfold changed. now rewrite (vsim_known _ _ H), (vsim_veq _ _ _ H). Qed.

Definition goodCv (c : cv) : Prop := cvFactory (cvType c) <> None /\ canonType (cvType c) = cvType c.
Lemma factory_type t c : cvFactory t = Some c -> cv_v c = VUnk (canonType t) /\ goodCv c.
Proof.
  unfold cvFactory, canonType, goodCv, cvType. intros H.
  destruct ((t =? DATE_TYPE) || (t =? DURATION_TYPE) || (t =? REAL_TYPE)) eqn:E.
  - inversion H; subst; cbn. split; [|split; [discriminate|reflexivity]].
    destruct (Z.eqb_spec t DATE_TYPE), (Z.eqb_spec t DURATION_TYPE); cbn in *; auto. apply Z.eqb_eq in E. now subst.
  - destruct (_ || _) eqn:G in H; [|discriminate]. inversion H; subst; cbn [cv_v vtype].
    apply orb_false_iff in E as [E1 E2]. rewrite E1. split; auto. split.
    + unfold cvFactory. rewrite E1, E2, G. discriminate.
    + unfold canonType. now rewrite E1.
Qed.
Lemma store_spec c ts v : vtype v = cvType c -> vknown v = true ->
  vsim (cv_v (fst (cvStore c ts v))) v /\ cvType (fst (cvStore c ts v)) = cvType c /\ snd (cvStore c ts v) = changed (cv_v c) v.
Proof.
  intros T K. unfold cvStore, changed. rewrite K, andb_true_r.
  destruct (vknown (cv_v c)) eqn:KC; cbn [negb orb].
  - destruct (veq (cv_v c) v) eqn:E; cbn [negb fst snd cv_v].
    + split; auto. right. split; auto.
    + split; [now left|auto].
  - split; [now left|auto].
Qed.
Definition blank (cur : val) (u : upd) : Prop := vtype cur = UNKNOWN_TYPE /\ u = UVal (VUnk UNKNOWN_TYPE).
Lemma changed_unk t t' : changed (VUnk t) (VUnk t') = false. Proof. reflexivity. Qed.
Lemma changed_to_unk a t : changed a (VUnk t) = vknown a.
Proof. unfold changed. cbn. destruct (vknown a); auto. Qed.
Lemma changed_refl_dropped a : vknown a = false -> changed a a = false.
Proof. intros K. unfold changed. rewrite K. reflexivity. Qed.

(** cvUpdate on a typed cache whose type the value's type is compatible with. *)
Lemma update_typed c ts v p : goodCv c -> cvType c <> UNKNOWN_TYPE -> cvUpdate c ts v = Some p ->
  (vtype v = cvType c \/ vtype v = UNKNOWN_TYPE \/ (vtype v = INTEGER_TYPE /\ cvType c = REAL_TYPE)) ->
  vsim (cv_v (fst p)) (valueAfter (cv_v c) (UVal v)) /\ goodCv (fst p) /\ snd p = changed (cv_v c) (valueAfter (cv_v c) (UVal v)).
Proof.
  intros G N H T. unfold cvUpdate in H. unfold valueAfter. fold (cvType c).
  rewrite (proj2 (Z.eqb_neq _ _) N) in *.
  assert (S : forall v', vtype v' = cvType c -> vknown v' = true -> Some (cvStore c ts v') = Some p ->
    vsim (cv_v (fst p)) v' /\ goodCv (fst p) /\ snd p = changed (cv_v c) v').
  { intros v' Tv Kv E. inversion E; subst. destruct (store_spec c ts v' Tv Kv) as [A [B C]].
    split; auto. split; auto. unfold goodCv. rewrite B. exact G. }
  assert (D : forall v', vknown v' = true -> (if vtype v' =? cvType c then Some (cvStore c ts v') else None) = Some p ->
    let r := if vtype v' =? cvType c then v' else cv_v c in
    vsim (cv_v (fst p)) r /\ goodCv (fst p) /\ snd p = changed (cv_v c) r).
  { intros v' K Hv. destruct (Z.eqb_spec (vtype v') (cvType c)); [|discriminate]. apply S; auto. }
  destruct v; try (apply D; auto; fail).
  - (* unknown *) inversion H; subst. unfold cvSetUnknown. rewrite (proj2 (Z.eqb_neq _ _) N). cbn [fst snd cv_v vtype] in *.
    replace ((t =? cvType c) || (t =? UNKNOWN_TYPE) || (t =? INTEGER_TYPE) && (cvType c =? REAL_TYPE)) with true.
    + split; [now left|]. split; [exact G|]. rewrite changed_to_unk. auto.
    + symmetry. destruct T as [T|[T|[T1 T2]]].
      * rewrite T, Z.eqb_refl. auto.
      * rewrite T, Z.eqb_refl, orb_true_r. auto.
      * rewrite T1, T2. auto.
  - (* Integer *) destruct (Z.eqb_spec (cvType c) REAL_TYPE) as [E|NE].
    + rewrite E in *. change (REAL_TYPE =? INTEGER_TYPE) with false. apply S; auto.
    + destruct (Z.eqb_spec (cvType c) INTEGER_TYPE) as [E|]; [|discriminate]. apply S; auto.
Qed.
Lemma cmp_first v c ts p : cvFactory (vtype v) = Some c -> cvUpdate c ts v = Some p ->
  vsim (cv_v (fst p)) (match v with VUnk t => VUnk (canonType t) | _ => v end) /\ goodCv (fst p) /\
  (v <> VUnk UNKNOWN_TYPE -> snd p = changed (VUnk UNKNOWN_TYPE) (match v with VUnk t => VUnk (canonType t) | _ => v end)).
Proof.
  intros F U. destruct (factory_type _ _ F) as [V G].
  assert (CT : cvType c = canonType (vtype v)) by (unfold cvType; now rewrite V).
  destruct (Z.eqb_spec (cvType c) UNKNOWN_TYPE) as [E|N].
  - (* Void *)
    unfold cvUpdate in U. rewrite (proj2 (Z.eqb_eq _ _) E) in U. destruct (vknown v) eqn:K; [discriminate|].
    destruct v; try discriminate. inversion U; subst; cbn [fst snd cv_v].
    cbn [vtype] in CT. rewrite <- CT, E. split; [now left|]. split; [split; [discriminate|reflexivity]|].
    intros NV. exfalso. apply NV. f_equal. unfold canonType in CT.
    destruct ((t =? DATE_TYPE) || (t =? DURATION_TYPE)); rewrite E in CT; [discriminate CT|congruence].
  - destruct v; try (cbn [vtype] in *; change (canonType ?x) with x in *;
      destruct (update_typed c ts _ p G N U) as [A [B C]]; [left; cbn [vtype]; rewrite CT; reflexivity|];
      unfold valueAfter in *; fold (cvType c) in *; rewrite (proj2 (Z.eqb_neq _ _) N) in *; rewrite CT in *; cbn [vtype] in *;
      cbn in A, C; rewrite V in C; split; [exact A|]; split; [exact B|]; intros _; rewrite C; reflexivity).
    (* unknown of some type *)
    unfold cvUpdate in U. rewrite (proj2 (Z.eqb_neq _ _) N) in U. inversion U; subst. unfold cvSetUnknown.
    rewrite (proj2 (Z.eqb_neq _ _) N). cbn [fst snd cv_v vtype] in *. rewrite CT, V. cbn.
    split; [now left|]. split; auto. unfold goodCv, cvType. cbn. rewrite <- CT. exact G.
Qed.
Lemma valueAfter_sim a b u : vsim a b -> valueAfter a u = valueAfter b u \/ (valueAfter a u = a /\ valueAfter b u = b).
Proof.
  intros H. pose proof (vsim_type _ _ H) as T. unfold valueAfter. rewrite T. destruct u as [v|]; auto.
  destruct (vtype b =? UNKNOWN_TYPE); auto.
  destruct v; try (destruct (vtype _ =? vtype b); auto; fail).
  - destruct (_ || _); auto.
  - destruct (vtype b =? INTEGER_TYPE); auto. destruct (vtype b =? REAL_TYPE); auto.
Qed.
Lemma valueAfter_vsim a b u : vsim a b -> vsim (valueAfter a u) (valueAfter b u).
Proof. intros H. destruct (valueAfter_sim a b u H) as [->|[-> ->]]; auto. now left. Qed.
Lemma vsim_trans a b c : vsim a b -> vsim b c -> vsim a c.
Proof.
  intros [->|[A1 A2]] H; auto. destruct H as [<-|[B1 B2]]; right; auto. split. congruence. eapply C19_transitive; eauto.
Qed.
Lemma changed_vsim a b x y : vsim a b -> vsim x y -> changed a x = changed b y.
Proof.
  intros H K. rewrite (vsim_changed a b) by auto. unfold changed. rewrite <- (vsim_known _ _ K).
  rewrite (C19_symmetric b x), (C19_symmetric b y). now rewrite (vsim_veq x y b) by auto.
Qed.

Lemma typed_not_compat t ctyp : ctyp <> UNKNOWN_TYPE -> canonType ctyp = ctyp -> cvFactory ctyp <> None ->
  forall c, cvType c = ctyp -> ensureCv (Some c) t = Some None ->
  t <> ctyp /\ t <> UNKNOWN_TYPE /\ ~ (t = INTEGER_TYPE /\ ctyp = REAL_TYPE).
Proof.
  intros N C F c E H. unfold ensureCv in H. rewrite E in H.
  destruct (Z.eqb_spec ctyp t), (Z.eqb_spec t UNKNOWN_TYPE); cbn in H; try discriminate.
  destruct (Z.eqb_spec ctyp UNKNOWN_TYPE); [congruence|].
  split; auto. split; auto. intros [-> ->]. cbn in H. discriminate.
Qed.
(** The effect of one delivered value on an entry. *)
Lemma applyUpd x cur v oc : goodTypes x -> vsim (entV x) cur -> ensureCv (e_val x) (vtype v) = Some oc ->
  match oc with
  | None => valueAfter cur (UVal v) = cur /\ changed cur (valueAfter cur (UVal v)) = changed cur cur
  | Some c => forall ts p, cvUpdate c ts v = Some p ->
      vsim (cv_v (fst p)) (valueAfter cur (UVal v)) /\ goodCv (fst p) /\
      (~ blank cur (UVal v) -> snd p = changed cur (valueAfter cur (UVal v)))
  end.
Proof.
  intros G S H. unfold entV, goodTypes in *. destruct (e_val x) as [c0|] eqn:EV.
  - fold (goodCv c0) in G. destruct (Z.eqb_spec (cvType c0) UNKNOWN_TYPE) as [E|N].
    + assert (cur = VUnk UNKNOWN_TYPE).
      { assert (K : vknown (cv_v c0) = false) by (unfold cvType in E; destruct (cv_v c0); cbn in *; auto; discriminate).
        pose proof (vsim_unk _ _ S K). subst cur. unfold cvType in E. destruct (cv_v c0); cbn in *; try discriminate. congruence. }
      subst cur. unfold ensureCv in H. rewrite E in H.
      destruct (Z.eqb_spec UNKNOWN_TYPE (vtype v)) as [E2|NE2].
      * cbn in H. inversion H; subst. intros ts p U. unfold cvUpdate in U. rewrite (proj2 (Z.eqb_eq _ _) E) in U.
        destruct (vknown v) eqn:K; [discriminate|]. destruct v; try discriminate. cbn in E2. subst t.
        inversion U; subst. cbn. split; [now left|]. split; [split; [discriminate|reflexivity]|].
        intros NB. exfalso. apply NB. split; auto.
      * cbn [orb] in H. rewrite (proj2 (Z.eqb_neq (vtype v) UNKNOWN_TYPE)) in H by auto.
        change (UNKNOWN_TYPE =? UNKNOWN_TYPE) with true in H. cbn iota in H.
        destruct (cvFactory (vtype v)) as [c|] eqn:F; [|discriminate]. cbn in H. inversion H; subst. intros ts p U.
        destruct (cmp_first v c ts p F U) as [A [B C]]. unfold valueAfter. cbn [vtype].
        change (UNKNOWN_TYPE =? UNKNOWN_TYPE) with true. cbn iota. split; auto. split; auto. intros _. apply C.
        intros ->. apply NE2. reflexivity.
    + destruct oc as [c|].
      * assert (HC : c = c0 /\ (vtype v = cvType c0 \/ vtype v = UNKNOWN_TYPE \/ (vtype v = INTEGER_TYPE /\ cvType c0 = REAL_TYPE))).
        { unfold ensureCv in H.
          destruct (Z.eqb_spec (cvType c0) (vtype v)) as [X|X]; [cbn [orb] in H; inversion H; subst; split; auto|].
          destruct (Z.eqb_spec (vtype v) UNKNOWN_TYPE) as [Y|Y]; [cbn [orb] in H; inversion H; subst; split; auto|]. cbn [orb] in H.
          rewrite (proj2 (Z.eqb_neq _ _) N) in H.
          destruct G as [G1 G2]. unfold canonType in G2.
          destruct (Z.eqb_spec (cvType c0) DATE_TYPE) as [D|D]; [rewrite D in G2; discriminate|].
          destruct (Z.eqb_spec (cvType c0) DURATION_TYPE) as [D'|D']; [rewrite D' in G2; discriminate|].
          destruct (Z.eqb_spec (vtype v) INTEGER_TYPE) as [I1|I1]; cbn [andb] in H.
          - destruct (OpModel.isNumericType (cvType c0)) eqn:NT.
            + inversion H; subst. split; auto. right. right. split; auto. unfold OpModel.isNumericType in NT.
              rewrite !orb_true_iff, !Z.eqb_eq in NT. destruct NT as [[[NT|NT]|NT]|NT]; congruence.
            + cbn in H. rewrite andb_false_r in H. discriminate.
          - cbn in H. rewrite andb_false_r in H. discriminate. }
        destruct HC as [-> T]. intros ts p U. destruct (update_typed c0 ts v p G N U T) as [A [B C]].
        split; [|split; auto].
        { eapply vsim_trans; eauto. now apply valueAfter_vsim. }
        { intros _. rewrite C. apply changed_vsim; auto. now apply valueAfter_vsim. }
      * destruct (typed_not_compat (vtype v) (cvType c0) N (proj2 G) (proj1 G) c0 eq_refl H) as [T1 [T2 T3]].
        pose proof (vsim_type _ _ S) as TY. fold (cvType c0) in TY.
        assert (VA : valueAfter cur (UVal v) = cur).
        { unfold valueAfter. rewrite <- TY. rewrite (proj2 (Z.eqb_neq _ _) N).
          destruct v; cbn [vtype] in *; rewrite ?(proj2 (Z.eqb_neq _ _) T1); auto.
          - rewrite (proj2 (Z.eqb_neq _ _) T2). cbn. destruct (Z.eqb_spec t INTEGER_TYPE), (Z.eqb_spec (cvType c0) REAL_TYPE); auto. tauto.
          - destruct (Z.eqb_spec (cvType c0) INTEGER_TYPE); [congruence|]. destruct (Z.eqb_spec (cvType c0) REAL_TYPE); auto. tauto. }
        rewrite VA. auto.
  - assert (cur = VUnk UNKNOWN_TYPE) by (symmetry; apply (vsim_unk _ _ S); reflexivity). subst cur.
    unfold ensureCv in H. destruct (cvFactory (vtype v)) as [c|] eqn:F; [|discriminate]. cbn in H. inversion H; subst.
    intros ts p U. destruct (cmp_first v c ts p F U) as [A [B C]]. unfold valueAfter. cbn [vtype].
    change (UNKNOWN_TYPE =? UNKNOWN_TYPE) with true. cbn iota. split; auto. split; auto. intros NB. apply C.
    intros ->. apply NB. split; auto.
Qed.
