(** Order of effects, steps, notifications. *)
From Verif Require Import AppModel AppSpec AppProofs.

Ltac sm := unfold w; rewrite ?put_eq; cbn [at_ emit setX setQ setMarks setSems setMutex setFlags postSem
     a_x a_q a_markCount a_lastMark a_sem a_markSem a_allSem a_mutex a_planLoaded a_stop a_susp a_pc a_tr].
Ltac ifs := repeat match goal with |- context[if ?b then _ else _] => destruct b eqn:?; sm end.

Section P.
  Context {X : Type}.
  Variable (apply : eff -> X -> X) (execStep clean : X -> X) (needsStep allFinished : X -> bool).
  Notation runs := (runs apply execStep clean needsStep allFinished true).
  Notation wstep := (wstep apply execStep clean needsStep allFinished).
  Notation cstep := (cstep allFinished).
  Notation app := (@app X).
  Notation runs_ind2 := (runs_ind2 apply execStep clean needsStep allFinished).

  (** ** Effects in order *)
  Definition inflight (p : pc) : list content := match p with W_apply _ _ _ c | W_crash c => [c] | _ => [] end.
  Definition ordered (y : app) : Prop := exists done rest,
    posts (a_tr y) = done ++ rest /\ outs (a_tr y) = flat_map want done /\ flat_map ent rest = inflight (a_pc y 0) ++ a_q y.
  Lemma posts_app a b : posts (a ++ b) = posts a ++ posts b. Proof. apply flat_map_app. Qed.
  Lemma outs_app a b : outs (a ++ b) = outs a ++ outs b. Proof. apply flat_map_app. Qed.
  (** Each posted event's entry does what is wanted. *)
  Lemma ent_want e : match ent e with
                     | [] => want e = []
                     | [c] => match process c with RMark n => want e = [OMark n] | REff f => want e = [OEff f] | RNothing => False
                                                 | RAssert => exists m h, e = PMessageAccepted (Some m) h /\ h <> [] end
                     | _ => False
                     end.
  Proof.
    destruct e; cbn; try reflexivity; try (destruct c; cbn; reflexivity); try (destruct u; cbn; reflexivity); try (destruct m; cbn; reflexivity).
    - destruct c; cbn; auto. unfold NO_COMMAND_HANDLE, COMMAND_HANDLE_MAX, COMMAND_INTERFACE_ERROR.
      destruct (Z.leb_spec h 48), (Z.leb_spec 58 h), (Z.ltb_spec 48 h), (Z.ltb_spec h 58); cbn; auto; try lia.
    - destruct m; cbn; auto. destruct handle; cbn; auto. eexists _, _; split; [reflexivity|discriminate].
    - destruct handle; cbn; auto.
  Qed.
  (** Events without entry at the head of the rest can be counted as done. *)
  Lemma ent_head rest c q : flat_map ent rest = c :: q -> exists r0 e r1, rest = r0 ++ e :: r1 /\ flat_map want r0 = [] /\ ent e = [c] /\ flat_map ent r1 = q.
  Proof.
    induction rest as [|e rest IH]; cbn; [discriminate|]. intros E. pose proof (ent_want e) as W. destruct (ent e) as [|c' [|]] eqn:Q; try tauto.
    - destruct (IH E) as (r0 & e' & r1 & -> & A & B & C). exists (e :: r0), e', r1. cbn. rewrite W, A. auto.
    - cbn in E. inversion E; subst. exists [], e, rest. auto.
  Qed.
  Lemma ordered_post (y y' : app) t e : ordered y -> a_tr y' = a_tr y ++ [EvPost t e] -> a_q y' = a_q y ++ ent e -> inflight (a_pc y' 0) = inflight (a_pc y 0) -> ordered y'.
  Proof.
    intros (d & r & A & B & C) T Q P. exists d, (r ++ [e]). rewrite T, posts_app, outs_app, P, Q, A, B. cbn. rewrite !app_nil_r.
    rewrite flat_map_app, C. cbn. rewrite app_nil_r, !app_assoc. auto.
  Qed.
  Lemma ordered_quiet (y y' : app) l : ordered y -> a_tr y' = a_tr y ++ l -> posts l = [] -> outs l = [] -> a_q y' = a_q y -> inflight (a_pc y' 0) = inflight (a_pc y 0) -> ordered y'.
  Proof.
    intros (d & r & A & B & C) T L1 L2 Q P. exists d, r. rewrite T, posts_app, outs_app, P, Q, L1, L2, !app_nil_r. auto.
  Qed.
  Lemma inflight_pq f l ns : inflight (pqReturn f l ns) = [].
  Proof. unfold pqReturn. destruct l, ns; auto. Qed.
  Lemma ordered_out (y y' : app) e : ordered y -> forall f l ns c, a_pc y 0 = W_apply f l ns c -> inflight (a_pc y' 0) = [] -> a_q y' = a_q y ->
    (exists l', a_tr y' = a_tr y ++ l' /\ posts l' = [] /\ match process c with RMark n => outs l' = [OMark n] | REff f => outs l' = [OEff f] | _ => False end) ->
    e = 0 -> ordered y'.
  Proof.
    intros (d & r & A & B & C) f l ns c PC I Q (l' & T & L1 & L2) _. rewrite PC in C. cbn [inflight List.app] in C.
    destruct (ent_head _ _ _ C) as (r0 & e' & r1 & E1 & E2 & E3 & E4). pose proof (ent_want e') as W. rewrite E3 in W.
    exists (d ++ r0 ++ [e']), r1. rewrite T, posts_app, outs_app, L1, I, Q, app_nil_r, A, B, E1, E4. split; [now rewrite <- !app_assoc|]. split; auto.
    rewrite !flat_map_app, E2. cbn. rewrite app_nil_r. f_equal. destruct (process c); try tauto; congruence.
  Qed.
  Lemma ordered_w (y y' : app) : ordered y -> wstep y y' -> ordered y'.
  Proof.
    intros O W. destruct W; ifs;
      try solve [eapply ordered_post; [exact O|..]; sm; rewrite ?upd_eq, ?H; auto];
      try solve [eapply (ordered_quiet _ _ []); [exact O|..]; sm; rewrite ?upd_eq, ?H, ?app_nil_r, ?inflight_pq; auto];
      try solve [eapply (ordered_quiet _ _ [_]); [exact O|..]; sm; rewrite ?upd_eq, ?H, ?app_nil_r, ?inflight_pq; auto].
    - destruct O as (d & r & A & B & C). exists d, r. sm. rewrite upd_eq. cbn [inflight]. rewrite H, H0 in C. cbn in C. auto.
    - eapply (ordered_out _ _ 0 O); sm; rewrite ?upd_eq; eauto. exists [EvMark n]. rewrite H0. auto.
    - eapply (ordered_out _ _ 0 O); sm; rewrite ?upd_eq; eauto. exists [EvApply e]. rewrite H0. auto.
    - exfalso. destruct O as (d & r & A & B & C). rewrite H in C. cbn in C. destruct (ent_head _ _ _ C) as (r0 & e' & r1 & E1 & E2 & E3 & E4).
      pose proof (ent_want e') as W. rewrite E3, H0 in W. auto.
  Qed.
  Lemma ordered_c (y y' : app) t : ordered y -> t <> 0 -> cstep y t y' -> ordered y'.
  Proof.
    intros O N W. destruct W; ifs;
      try solve [eapply ordered_post; [exact O|..]; sm; rewrite ?upd_ne by auto; auto];
      try solve [eapply (ordered_quiet _ _ []); [exact O|..]; sm; rewrite ?upd_ne, ?app_nil_r by auto; auto];
      try solve [eapply (ordered_quiet _ _ [_]); [exact O|..]; sm; rewrite ?upd_ne, ?app_nil_r by auto; auto].
  Qed.
  Lemma runs_ordered x h y : runs x h y -> ordered y.
  Proof.
    apply runs_ind2.
    - exists [], []. cbn. auto.
    - intros. eapply ordered_w; eauto.
    - intros. eapply ordered_c; eauto.
  Qed.

  (** ** Every effect is followed by a step *)
  Definition pending (p : pc) : bool := match p with W_get _ _ true | W_apply _ _ true _ | W_step _ | W_crash _ => true | _ => false end.
  Definition stepsOk (y : app) : Prop := pending (a_pc y 0) = true \/ stepped (a_tr y).
  Lemma stepped_app l e : stepped l -> (forall f, e <> EvApply f) -> stepped (l ++ [e]).
  Proof.
    intros S N l1 f l2 E. destruct l2 as [|e2 l2] using rev_ind.
    - apply app_inj_tail in E. destruct E as [_ E]. now destruct (N f).
    - clear IHl2. rewrite app_comm_cons, app_assoc in E. apply app_inj_tail in E. destruct E as [E ->]. apply in_or_app. left. eapply S; eauto.
  Qed.
  Lemma stepped_step l : stepped (l ++ [EvStep]).
  Proof.
    intros l1 f l2 E. destruct l2 as [|e2 l2] using rev_ind.
    - apply app_inj_tail in E. destruct E as [_ E]. discriminate.
    - clear IHl2. rewrite app_comm_cons, app_assoc in E. apply app_inj_tail in E. destruct E as [E <-]. apply in_or_app. right. now left.
  Qed.
  Lemma steps_keep (y y' : app) : stepsOk y -> (pending (a_pc y 0) = true -> pending (a_pc y' 0) = true) ->
    (a_tr y' = a_tr y \/ exists e, a_tr y' = a_tr y ++ [e] /\ forall f, e <> EvApply f) -> stepsOk y'.
  Proof.
    intros [S|S] P T; [left; auto|]. right. destruct T as [->|(e & -> & N)]; auto. now apply stepped_app.
  Qed.
  Lemma runs_steps x h y : runs x h y -> stepsOk y.
  Proof.
    apply runs_ind2.
    - right. intros [|] f l2 E; discriminate.
    - intros y0 y' _ _ S W. destruct W; ifs;
        try solve [eapply steps_keep; [exact S|..]; sm; rewrite ?upd_eq, ?H; cbn; auto; try (intros; discriminate); right; eexists; split; eauto; discriminate];
        try solve [left; sm; rewrite ?upd_eq; auto];
        try solve [right; sm; apply stepped_step].
      + eapply steps_keep; [exact S|..]; sm; rewrite ?upd_eq, ?H; cbn; auto. unfold pqReturn. destruct ns; [destruct l; auto|intros; discriminate].
    - intros y0 t y' _ _ S N W. destruct W; ifs;
        try solve [eapply steps_keep; [exact S|..]; sm; rewrite ?upd_ne by auto; auto; right; eexists; split; eauto; discriminate].
  Qed.

  (** ** No lost notification *)
  (** Entries of the events posted since the last notification. *)
  Definition isN (e : ev) : bool := match e with EvNotify _ => true | _ => false end.
  Fixpoint recent (l : list ev) : list content :=     (* l newest first *)
    match l with
    | [] => []
    | EvNotify _ :: _ => []
    | EvPost _ e :: r => recent r ++ ent e
    | _ :: r => recent r
    end.
  Definition fresh_q (y : app) : Prop := exists l, recent (rev (a_tr y)) = l ++ a_q y.
  (** The worker will look at the queue before it waits again. *)
  Definition willLook (p : pc) : bool :=
    match p with
    | W_start _ _ | W_lock _ | W_empty _ _ | W_get _ _ _ | W_apply _ _ _ _ | W_chk | W_chk2 | W_go | W_crash _ | W_done => true
    | _ => false
    end.
  Definition excused (y : app) : Prop := a_sem y <> 0 \/ a_susp y = true \/ exists t, t <> 0 /\ (a_pc y t = T_resume \/ a_pc y t = S_1).
  Definition noLost (y : app) : Prop := willLook (a_pc y 0) = true \/ fresh_q y \/ excused y.
  Lemma excused_w (y y' : app) : excused y -> a_sem y' = a_sem y -> a_susp y' = a_susp y -> (forall t, t <> 0 -> a_pc y' t = a_pc y t) -> excused y'.
  Proof.
    intros [E|[E|(t & N & E)]] A B C; unfold excused; rewrite A, B; auto. right. right. exists t. rewrite C; auto.
  Qed.
  Lemma excused_c (y y' : app) t p : excused y -> a_sem y' = a_sem y -> a_susp y' = a_susp y -> a_pc y' = upd (a_pc y) t p ->
    a_pc y t <> T_resume -> a_pc y t <> S_1 -> excused y'.
  Proof.
    intros [E|[E|(t' & N & E)]] A B C D F; unfold excused; rewrite A, B; auto. right. right. exists t'. rewrite C, upd_dec.
    destruct (Nat.eqb_spec t' t) as [->|]; auto. tauto.
  Qed.
  Lemma fresh_same (y y' : app) : fresh_q y -> a_q y' = a_q y -> (a_tr y' = a_tr y \/ exists e, a_tr y' = a_tr y ++ [e] /\ match e with EvNotify _ | EvPost _ _ => False | _ => True end) -> fresh_q y'.
  Proof.
    intros (l & E) Q [T|(e & T & N)]; exists l; rewrite Q, T; auto. rewrite rev_app_distr. cbn. destruct e; auto; tauto.
  Qed.
  Lemma fresh_post (y y' : app) t e : fresh_q y -> a_q y' = a_q y ++ ent e -> a_tr y' = a_tr y ++ [EvPost t e] -> fresh_q y'.
  Proof.
    intros (l & E) Q T. exists l. rewrite Q, T, rev_app_distr. cbn. now rewrite E, app_assoc.
  Qed.
  Lemma fresh_nil (y : app) : a_q y = [] -> fresh_q y.
  Proof. intros E. exists (recent (rev (a_tr y))). now rewrite E, app_nil_r. Qed.
  Lemma noLost_w (y y' : app) : noLost y -> wstep y y' -> noLost y'.
  Proof.
    intros S W. destruct W; ifs;
      try solve [left; sm; rewrite ?upd_eq; auto];
      try solve [right; right; left; sm; lia];
      try solve [right; left; apply fresh_nil; sm; auto];
      try solve [destruct S as [S|[S|S]]; [rewrite H in S; discriminate| |right; right; eapply excused_w; [exact S|..]; sm; auto; intros; rewrite upd_ne; auto];
                 right; left; eapply fresh_same; [exact S|..]; sm; auto; right; eexists; split; eauto; exact I].
    - destruct S as [S|[S|S]]; [rewrite H in S; discriminate| |right; right; eapply excused_w; [exact S|..]; sm; auto].
      right; left; eapply fresh_post; [exact S|..]; sm; auto.
    - right. right. right. left. sm. auto.
  Qed.
  Lemma noLost_c (y y' : app) t : noLost y -> t <> 0 -> cstep y t y' -> noLost y'.
  Proof.
    intros S N W. destruct W; ifs;
      try solve [right; right; left; sm; lia];
      try solve [right; right; right; left; sm; auto];
      try solve [destruct S as [S|[S|S]]; [left; sm; rewrite ?upd_ne by auto; auto
        |right; left; eapply fresh_same; [exact S|..]; sm; auto; right; eexists; split; eauto; exact I
        |right; right; eapply excused_c; [exact S|..]; sm; auto; rewrite H; discriminate]].
    - destruct S as [S|[S|S]]; [left; sm; rewrite ?upd_ne by auto; auto| |right; right; eapply excused_w; [exact S|..]; sm; auto].
      right; left; eapply fresh_post; [exact S|..]; sm; auto.
    - destruct S as [S|[S|S]]; [left; sm; rewrite ?upd_ne by auto; auto| |right; right; eapply excused_c; [exact S|..]; sm; eauto; rewrite H; discriminate].
      right; left; eapply fresh_post; [exact S|..]; sm; auto.
    - right. right. right. right. exists t. sm. rewrite upd_eq. auto.
    - auto.
    - destruct S as [S|[S|S]]; [left; sm; auto|right; left; eapply fresh_same; [exact S|..]; sm; auto; right; eexists; split; eauto; exact I|right; right; eapply excused_w; [exact S|..]; sm; auto].
    - destruct S as [S|[S|S]]; [left; sm; rewrite ?upd_ne by auto; auto| |right; right; eapply excused_c; [exact S|..]; sm; eauto; rewrite H; discriminate].
      right; left; eapply fresh_post; [exact S|..]; sm; auto.
  Qed.
  Lemma runs_noLost x h y : runs x h y -> noLost y.
  Proof.
    apply runs_ind2.
    - left. reflexivity.
    - intros. eapply noLost_w; eauto.
    - intros. eapply noLost_c; eauto.
  Qed.
  (** From freshness to the specification. *)
  Lemma recent_suffix l1 t l2 : exists r, flat_map ent (posts l2) = r ++ recent (rev (l1 ++ EvNotify t :: l2)).
  Proof.
    induction l2 as [|e l2 [r IH]] using rev_ind.
    - exists []. rewrite rev_app_distr. reflexivity.
    - replace (l1 ++ EvNotify t :: l2 ++ [e]) with ((l1 ++ EvNotify t :: l2) ++ [e]) by now rewrite <- app_assoc.
      rewrite rev_app_distr, posts_app, flat_map_app. cbn [rev List.app recent]. destruct e; cbn; rewrite ?app_nil_r; eauto.
      + exists r. now rewrite IH, app_assoc.
      + exists (flat_map ent (posts l2)). now rewrite app_nil_r.
  Qed.
  Lemma fresh_served (y : app) : ordered y -> fresh_q y -> inflight (a_pc y 0) = [] -> served (a_tr y).
  Proof.
    intros (d & r & A & B & C) (l & F) I l1 t l2 T. rewrite I in C. cbn in C.
    destruct (recent_suffix l1 t l2) as (r2 & R). rewrite <- T, F in R.
    assert (PT : posts (a_tr y) = posts l1 ++ posts l2) by (rewrite T, posts_app; reflexivity).
    (* the rest r is within posts l2, up to events without entry *)
    rewrite PT in A. rewrite B. clear B F.
    assert (G : forall p1 p2 d r l, p1 ++ p2 = d ++ r -> flat_map ent p2 = l ++ flat_map ent r -> exists z, flat_map want d = flat_map want p1 ++ z).
    { clear. intros p1 p2 d r l E1 E2. destruct (Nat.le_gt_cases (length p1) (length d)) as [L|L].
      - assert (exists z, d = p1 ++ z) as [z ->].
        { exists (skipn (length p1) d). assert (H := f_equal (firstn (length p1)) E1). rewrite firstn_app, Nat.sub_diag, firstn_all, firstn_O, app_nil_r, firstn_app in H.
          replace (length p1 - length d) with 0 in H by lia. rewrite firstn_O, app_nil_r in H. rewrite H at 1. now rewrite firstn_skipn. }
        rewrite flat_map_app. eauto.
      - assert (exists z, p1 = d ++ z) as [z ->].
        { exists (skipn (length d) p1). assert (H := f_equal (firstn (length d)) E1). rewrite (firstn_app _ d), Nat.sub_diag, firstn_all, firstn_O, app_nil_r, firstn_app in H.
          replace (length d - length p1) with 0 in H by lia. rewrite firstn_O, app_nil_r in H. rewrite <- H at 1. now rewrite firstn_skipn. }
        rewrite <- app_assoc in E1. apply app_inv_head in E1. subst r. rewrite flat_map_app in E2.
        assert (Z : flat_map ent z = []). { assert (H := f_equal (@length _) E2). rewrite !app_length in H. destruct (flat_map ent z); auto. cbn in H. lia. }
        assert (Z2 : flat_map want z = []).
        { clear -Z. induction z as [|e z IH]; auto. cbn in Z. apply app_eq_nil in Z. destruct Z as [Z1 Z2]. pose proof (ent_want e) as W. rewrite Z1 in W. cbn. rewrite W. auto. }
        exists []. rewrite flat_map_app, Z2, !app_nil_r. reflexivity. }
    destruct (G (posts l1) (posts l2) d r (r2 ++ l) A) as (z & Z). { rewrite R, C, <- app_assoc. reflexivity. }
    exists z. exact Z.
  Qed.
End P.
