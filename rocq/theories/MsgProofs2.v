(** C47: the values of the message states over message histories. *)
From Verif Require Import ValueModel RealModel CacheModel CacheSpec OrderProps CacheProofs CacheProofs2 CacheProofs3 CacheProps MsgModel MsgSpec MsgProofs.
Open Scope Z_scope.
Local Opaque current.

(** ** Keys *)
Lemma sltb_anti a : forall b, sltb a b = false -> sltb b a = false -> a = b.
Proof.
  induction a as [|x a IH]; intros [|y b]; cbn; intros H1 H2; try discriminate; auto.
  destruct (Z.ltb_spec x y); [discriminate|]. destruct (Z.ltb_spec y x); [discriminate|].
  assert (x = y) by lia. subst. f_equal. apply IH; auto.
Qed.
Lemma key_name a b : same_key a b = true -> s_name a = s_name b.
Proof.
  rewrite same_key_spec. unfold state_lt. destruct (sltb (s_name a) (s_name b)) eqn:A; [intros [X _]; discriminate|].
  destruct (sltb (s_name b) (s_name a)) eqn:B; [intros [_ X]; discriminate|]. intros _. now apply sltb_anti.
Qed.
Lemma key_params a b : same_key a b = true -> length (s_params a) = length (s_params b) /\
  params_lt (s_params a) (s_params b) = false /\ params_lt (s_params b) (s_params a) = false.
Proof.
  rewrite same_key_spec. unfold state_lt. destruct (sltb (s_name a) (s_name b)) eqn:A; [intros [X _]; discriminate|].
  destruct (sltb (s_name b) (s_name a)) eqn:B; [intros [_ X]; discriminate|].
  destruct (Nat.ltb_spec (length (s_params a)) (length (s_params b))); [intros [X _]; discriminate|].
  destruct (Nat.ltb_spec (length (s_params b)) (length (s_params a))); [intros [_ X]; discriminate|].
  intros [X Y]. split; [lia|auto].
Qed.

Inductive fld := FText | FSender | FArrived | FCount | FParam (i : Z).
Definition st (h : str) (f : fld) : state :=
  match f with FText => sText h | FSender => sSender h | FArrived => sArrived h | FCount => sCount h | FParam i => sParam h i end.
Lemma st_ok h f : okState (st h f).
Proof. unfold okState. destruct f; cbn; repeat constructor. Qed.
Lemma st_msg h f : isMsg (st h f).
Proof. destruct f; unfold isMsg, msgNames; cbn [map In st]; tauto. Qed.
Lemma st_key h f h' f' : same_key (st h f) (st h' f') = true -> h = h' /\ f = f'.
Proof.
  intros H. pose proof (key_name _ _ H) as N. destruct (key_params _ _ H) as [_ [P1 P2]]. clear H.
  assert (VS : forall a b, vlt (VStr a) (VStr b) = sltb a b) by reflexivity.
  assert (VI : forall a b, vlt (VInt a) (VInt b) = (a <? b)) by reflexivity.
  assert (S : h = h'). { apply sltb_anti; destruct f, f'; cbn [st sText sSender sArrived sCount sParam s_params params_lt] in P1, P2; rewrite !VS in *;
    destruct (sltb h h'), (sltb h' h); congruence. }
  subst h'. split; auto. destruct f, f'; try reflexivity; try (exfalso; vm_compute in N; discriminate).
  cbn [st sParam s_params params_lt] in P1, P2. rewrite !VS, !VI in *. destruct (sltb h h); [discriminate|].
  f_equal. destruct (Z.ltb_spec i i0); [discriminate|]. destruct (Z.ltb_spec i0 i); [discriminate|]. lia.
Qed.
Lemma fld_dec : forall a b : fld, {a = b} + {a <> b}. Proof. decide equality. apply Z.eq_dec. Qed.
Lemma st_keyb h f h' f' : same_key (st h f) (st h' f') = if str_dec h h' then if fld_dec f f' then true else false else false.
Proof.
  destruct (str_dec h h') as [->|N]; [destruct (fld_dec f f') as [->|N]|].
  - apply same_key_refl, st_ok.
  - destruct same_key eqn:E; auto. apply st_key in E as [_ E]. congruence.
  - destruct same_key eqn:E; auto. apply st_key in E as [E _]. congruence.
Qed.
Lemma key_fixed h f k : In k [sHave; sPeek; sPeekSender] -> same_key (st h f) k = false /\ same_key k (st h f) = false.
Proof.
  assert (A : In k [sHave; sPeek; sPeekSender] -> same_key (st h f) k = false).
  { intros I. destruct same_key eqn:E; auto. apply key_name in E. exfalso. destruct I as [<-|[<-|[<-|[]]]]; destruct f; vm_compute in E; discriminate. }
  intros I. split; auto. rewrite same_key_sym. auto.
Qed.
Lemma msg_other k s : ~ isMsg k -> isMsg s -> same_key k s = false.
Proof. intros A B. destruct same_key eqn:E; auto. apply key_name in E. unfold isMsg in *. rewrite E in A. tauto. Qed.

(** ** Effects of lists of updates and deletions *)
Definition eff (t : state) (v : val) (o : op) : val :=
  match o with
  | OUpd s u => if same_key s t then valueAfter v u else v
  | ODel s => if same_key s t then VUnk UNKNOWN_TYPE else v
  | _ => v
  end.
Definition updDel (o : op) : Prop := match o with OUpd s _ | ODel s => okState s | _ => False end.
Definition unused (ps : nat -> lkspec) (os : list op) (o : op) : Prop :=
  match o with ODel s => forall l s', 0 < activeOf os l -> stateOf ps os l = Some s' -> same_key s' s = false | _ => True end.
Lemma updDel_ok o : updDel o -> okOp o. Proof. destruct o; cbn; tauto. Qed.
Lemma active_app os o l : activeOf (os ++ [o]) l = activeOf os l + activeOf [o] l.
Proof. induction os as [|[]]; cbn [app activeOf]; try rewrite IHos; try (cbn [activeOf]; lia). Qed.
Lemma updDel_frame ps os o l : updDel o -> activeOf (os ++ [o]) l = activeOf os l /\ stateOf ps (os ++ [o]) l = stateOf ps os l.
Proof.
  intros U. rewrite active_app. unfold stateOf. rewrite fold_left_app. destruct o; cbn in U; try tauto; cbn; split; auto; lia.
Qed.
Lemma unused_frame ps os o o' : updDel o -> unused ps os o' -> unused ps (os ++ [o]) o'.
Proof.
  intros U. destruct o'; cbn; auto. intros H l s'. destruct (updDel_frame ps os o l U) as [-> ->]. apply H.
Qed.
Lemma upd_eff ps os w s u w' t : history ps os w -> okState s -> step (OUpd s u) w = Some w' ->
  current t (w_tr w') = if same_key s t then valueAfter (current t (w_tr w)) u else current t (w_tr w).
Proof.
  intros H Hs S. pose proof (h_INV _ _ _ H) as [V _]. cbn [step] in S.
  destruct (ensureE_spec (regs w) w s V Hs) as [P1 [P2 [P3 [P4 [P5 [P6 P7]]]]]].
  destruct (entUpdate_spec _ _ _ _ _ _ P1 Hs P3 S) as [_ [_ [n [_ [[d [D1 D2]] _]]]]].
  rewrite D1, P5. change (Got s u :: d) with ([Got s u] ++ d). rewrite app_assoc, current_soft by auto. apply current_got.
Qed.
Lemma unreg_nil ps os w s e : history ps os w -> okState s -> (forall l s', 0 < activeOf os l -> stateOf ps os l = Some s' -> same_key s' s = false) ->
  findKey s (w_map w) = Some e -> e_lk (w_ent w e) = [].
Proof.
  intros H Hs U F. destruct (findKey_in _ _ _ F) as [k [I K]]. pose proof (h_INV _ _ _ H) as [V _]. pose proof (i_keys _ _ V _ _ I) as Hk.
  destruct (e_lk (w_ent w e)) as [|l r] eqn:E; auto. exfalso.
  pose proof (C26_registered ps os w l k e H I) as R. rewrite E in R. cbn [count_occ] in R. destruct (Nat.eq_dec l l); [|congruence].
  destruct (Z.ltb_spec 0 (activeOf os l)) as [A|A]; cbn [andb] in R; [|discriminate].
  destruct (stateOf ps os l) as [s'|] eqn:ST; [|discriminate].
  destruct (same_key s' k) eqn:SK; [|discriminate]. pose proof (h_okst _ _ _ H l s' ST) as [O _].
  specialize (U l s' A ST). rewrite (same_key_trans s' k s) in U; auto. discriminate.
Qed.
Lemma del_eff ps os w s w' t : history ps os w -> okState s -> okState t -> (forall l s', 0 < activeOf os l -> stateOf ps os l = Some s' -> same_key s' s = false) ->
  step (ODel s) w = Some w' -> current t (w_tr w') = if same_key s t then VUnk UNKNOWN_TYPE else current t (w_tr w).
Proof.
  intros H Hs Ht U S. pose proof (h_INV _ _ _ H) as [V _]. cbn [step] in S. destruct (findKey s (w_map w)) as [e|] eqn:F.
  - rewrite (unreg_nil ps os w s e H Hs U F) in S. inversion S; subst. apply current_del.
  - inversion S; subst. destruct (same_key s t) eqn:K; auto. rewrite <- (current_cong s t); auto.
    + now apply (i_nokey _ _ V).
    + apply (i_got _ _ V).
    + apply (i_del _ _ V).
Qed.
Lemma run_eff ps ops : forall os w w' t, history ps os w -> okState t -> Forall updDel ops -> Forall (unused ps os) ops -> run ops w = Some w' ->
  history ps (os ++ ops) w' /\ current t (w_tr w') = fold_left (eff t) ops (current t (w_tr w)).
Proof.
  induction ops as [|o ops IH]; intros os w w' t H Ht U N R; cbn [run] in R.
  - inversion R; subst. rewrite app_nil_r. auto.
  - ob R. inversion U; inversion N; subst. pose proof (history_step _ _ _ _ _ H (updDel_ok o H2) E) as H'.
    destruct (IH (os ++ [o]) w0 w' t H' Ht H3) as [A B]; auto.
    { eapply Forall_impl; [|exact H7]. intros. now apply unused_frame. }
    rewrite <- app_assoc in A. split; auto. rewrite B. cbn [fold_left]. f_equal.
    destruct o; cbn in H2; try tauto; cbn [eff].
    + eapply upd_eff; eauto.
    + eapply del_eff; eauto.
Qed.
(** Deletions never fail. *)
Lemma run_del ops : (forall o, In o ops -> exists s, o = ODel s) -> forall w, exists w', run ops w = Some w'.
Proof.
  induction ops as [|o ops IH]; intros D w; cbn [run]. { eauto. }
  destruct (D o (or_introl eq_refl)) as [s ->].
  assert (exists w1, step (ODel s) w = Some w1) as [w1 ->]. { cbn [step]. destruct (findKey _ _); eauto. destruct (e_lk _); eauto. }
  cbn [obind]. apply IH. intros; apply D; now right.
Qed.

(** ** The loops *)
Lemma eff_params h vs : forall i h' f v, fold_left (eff (st h' f)) (paramOps h i vs) v =
  match f with
  | FParam j => if str_dec h h' then match (if j <? i then None else nth_error vs (Z.to_nat (j - i))) with Some p => valueAfter v (UVal p) | None => v end else v
  | _ => v
  end.
Proof.
  induction vs as [|x vs IH]; intros i h' f v.
  - cbn. destruct f; auto. destruct (str_dec h h'); auto. destruct (i0 <? i); auto. destruct (Z.to_nat (i0 - i)); reflexivity.
  - cbn [paramOps fold_left eff]. change (sParam h i) with (st h (FParam i)). rewrite st_keyb, IH. clear IH.
    destruct (str_dec h h') as [->|N].
    + destruct f; try (destruct (fld_dec _ _) as [X|]; [discriminate|reflexivity]).
      destruct (fld_dec (FParam i) (FParam i0)) as [X|X].
      * inversion X; subst. rewrite Z.ltb_irrefl. destruct (Z.ltb_spec i0 (i0 + 1)); [|lia]. rewrite Z.sub_diag. reflexivity.
      * assert (i <> i0) by congruence. destruct (Z.ltb_spec i0 i), (Z.ltb_spec i0 (i + 1)); try lia; auto.
        replace (Z.to_nat (i0 - i)) with (S (Z.to_nat (i0 - (i + 1)))) by lia. reflexivity.
    + destruct f; auto.
Qed.
Lemma eff_unparams h n : forall i h' f v, fold_left (eff (st h' f)) (unparamOps h i n) v =
  match f with
  | FParam j => if str_dec h h' then if (i <=? j) && (j <? i + Z.of_nat n) then VUnk UNKNOWN_TYPE else v else v
  | _ => v
  end.
Proof.
  induction n as [|n IH]; intros i h' f v.
  - cbn. destruct f; auto. destruct (str_dec h h'); auto. destruct (Z.leb_spec i i0), (Z.ltb_spec i0 (i + 0)); auto; lia.
  - cbn [unparamOps fold_left eff]. change (sParam h i) with (st h (FParam i)). rewrite st_keyb, IH. clear IH.
    destruct (str_dec h h') as [->|N].
    + destruct f; try (destruct (fld_dec _ _) as [X|]; [discriminate|reflexivity]).
      destruct (fld_dec (FParam i) (FParam i0)) as [X|X].
      * inversion X; subst. destruct (Z.leb_spec (i0 + 1) i0); [lia|]. cbn [andb]. rewrite Z.leb_refl. destruct (Z.ltb_spec i0 (i0 + Z.of_nat (S n))); [reflexivity|lia].
      * assert (i <> i0) by congruence. destruct (Z.leb_spec i i0), (Z.leb_spec (i + 1) i0), (Z.ltb_spec i0 (i + 1 + Z.of_nat n)), (Z.ltb_spec i0 (i + Z.of_nat (S n))); cbn [andb]; auto; lia.
    + destruct f; auto.
Qed.
Lemma params_updDel h vs : forall i, Forall updDel (paramOps h i vs).
Proof. induction vs; intros; cbn [paramOps]; constructor; auto. apply (st_ok h (FParam i)). Qed.
Lemma unparams_updDel h n : forall i, Forall updDel (unparamOps h i n).
Proof. induction n; intros; cbn [unparamOps]; constructor; auto. apply (st_ok h (FParam i)). Qed.
Lemma eff_params_fixed h vs k : In k [sHave; sPeek; sPeekSender] -> forall i v, fold_left (eff k) (paramOps h i vs) v = v.
Proof. intros K. induction vs; intros; cbn [paramOps fold_left eff]; auto. change (sParam h i) with (st h (FParam i)). rewrite (proj1 (key_fixed h _ k K)). auto. Qed.
Lemma eff_unparams_fixed h n k : In k [sHave; sPeek; sPeekSender] -> forall i v, fold_left (eff k) (unparamOps h i n) v = v.
Proof. intros K. induction n; intros; cbn [unparamOps fold_left eff]; auto. change (sParam h i) with (st h (FParam i)). rewrite (proj1 (key_fixed h _ k K)). auto. Qed.
