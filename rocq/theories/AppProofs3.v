(** Quiescence, stop, marks. *)
From Verif Require Import AppModel AppSpec AppProofs AppProofs2.
From Coq Require Import Sorted.

Section P.
  Context {X : Type}.
  Variable (apply : eff -> X -> X) (execStep clean : X -> X) (needsStep allFinished : X -> bool).
  Notation runs := (runs apply execStep clean needsStep allFinished true).
  Notation xruns := (xruns apply execStep clean needsStep allFinished true).
  Notation wstep := (wstep apply execStep clean needsStep allFinished).
  Notation cstep := (cstep allFinished).
  Notation app := (@app X).
  Notation runs_ind2 := (runs_ind2 apply execStep clean needsStep allFinished).

  (** ** Quiescence *)
  Hypothesis clean_needs : forall x, needsStep (clean x) = needsStep x.
  Definition qpc (p : pc) (x : X) : Prop :=
    match p with
    | W_start o _ => o = false
    | W_lock f | W_step f | W_need f => f_once f = false
    | W_empty f l => f_once f = false /\ (l = true -> needsStep x = false)
    | W_get f l ns | W_apply f l ns _ => f_once f = false /\ (l = true -> ns = false -> needsStep x = false)
    | W_clean _ | W_unlock _ _ | W_postAll _ _ | W_postMark _ | W_wait => needsStep x = false
    | W_chk | W_chk2 | W_go | W_done | W_crash _ => True
    | _ => False
    end.
  Definition noNotify (l : list ev) : Prop := forall t, ~ In (EvNotify t) l.
  Definition quietOk (y : app) : Prop := noNotify (a_tr y) \/ excused y \/ qpc (a_pc y 0) (a_x y).
  Lemma noNotify_app l e : noNotify l -> (forall t, e <> EvNotify t) -> noNotify (l ++ [e]).
  Proof. intros N E t I. apply in_app_or in I. destruct I as [I|[I|[]]]; [now apply (N t)|now apply (E t)]. Qed.
  Lemma qpc_pq f l ns x : f_once f = false -> (l = true -> ns = false -> needsStep x = false) -> qpc (pqReturn f l ns) x.
  Proof. unfold pqReturn. destruct l, ns; cbn; auto. Qed.
  Lemma quiet_w (y y' : app) : quietOk y -> wstep y y' -> quietOk y'.
  Proof.
    intros S W. destruct W; ifs;
      try solve [right; right; sm; rewrite ?upd_eq; cbn; auto];
      try solve [right; left; left; sm; lia];
      try solve [destruct S as [S|[S|S]];
        [left; sm; auto; apply noNotify_app; auto; discriminate
        |right; left; eapply excused_w; [exact S|..]; sm; auto; intros; rewrite upd_ne; auto
        |right; right; rewrite H in S; sm; rewrite ?upd_eq, ?H; cbn in *; rewrite ?clean_needs; try apply qpc_pq; intuition (auto; congruence)]].
    - right. left. right. left. sm. auto.
  Qed.
  Lemma quiet_c (y y' : app) t : quietOk y -> t <> 0 -> cstep y t y' -> quietOk y'.
  Proof.
    intros S N W. destruct W; ifs;
      try solve [right; left; left; sm; lia];
      try solve [right; left; right; left; sm; auto];
      try solve [destruct S as [S|[S|S]];
        [left; sm; auto; apply noNotify_app; auto; discriminate
        |right; left; eapply excused_c; [exact S|..]; sm; eauto; rewrite H; discriminate
        |right; right; sm; rewrite ?upd_ne by auto; auto]];
      try solve [destruct S as [S|[S|S]];
        [left; sm; auto; apply noNotify_app; auto; discriminate
        |right; left; eapply excused_w; [exact S|..]; sm; auto; intros; rewrite upd_ne; auto
        |right; right; sm; rewrite ?upd_ne by auto; auto]].
    - right. left. right. right. exists t. sm. rewrite upd_eq. auto.
  Qed.
  Lemma runs_quiet x h y : runs x h y -> quietOk y.
  Proof.
    apply runs_ind2.
    - left. intros t [].
    - intros. eapply quiet_w; eauto.
    - intros. eapply quiet_c; eauto.
  Qed.

  (** ** Stop *)
  Definition done0 (y : app) : Prop := a_pc y 0 = W_done.
  Definition stopOk (y : app) : Prop := forall t, t <> 0 ->
    match a_pc y t with
    | S_3 | S_4 => done0 y \/ a_stop y = true
    | S_5 => done0 y \/ a_stop y = true /\ (a_sem y <> 0 \/ a_pc y 0 = W_chk \/ a_pc y 0 = W_go)
    | _ => True
    end.
  Lemma stop_w (y y' : app) : stopOk y -> wstep y y' -> stopOk y'.
  Proof.
    intros S W t N. specialize (S t N). assert (P : a_pc y' t = a_pc y t). { destruct W; ifs; sm; rewrite ?upd_ne; auto. }
    rewrite P. unfold done0 in *. destruct (a_pc y t); auto.
    - destruct W; ifs; sm; rewrite ?upd_eq; auto; destruct S as [S|S]; auto; congruence.
    - destruct W; ifs; sm; rewrite ?upd_eq; auto; destruct S as [S|S]; auto; congruence.
    - destruct W; ifs; sm; rewrite ?upd_eq; auto; destruct S as [S|[S1 [S|[S|S]]]]; auto; try (rewrite S in H; discriminate); try congruence; right; split; auto.
  Qed.
  Lemma stop_c (y y' : app) t : stopOk y -> t <> 0 -> cstep y t y' -> stopOk y'.
  Proof.
    intros S N W t' N'. pose proof (S t' N') as S'. unfold done0 in *.
    assert (P0 : a_pc y' 0 = a_pc y 0). { destruct W; ifs; sm; rewrite ?upd_ne; auto. }
    rewrite P0. destruct (Nat.eq_dec t' t) as [->|NT].
    - destruct W; ifs; sm; rewrite ?upd_eq, ?H in *; auto.
      + destruct H0 as [[-> ->]|[[-> ->]|[[-> ->]|[[-> ->]|[n [-> ->]]]]]]; auto.
      + destruct H1; subst; auto.
      + destruct S' as [S'|S']; auto.
    - assert (P : a_pc y' t' = a_pc y t'). { destruct W; ifs; sm; rewrite ?upd_ne; auto. }
      rewrite P. destruct (a_pc y t'); auto.
      + destruct W; ifs; sm; auto; destruct S'; auto; discriminate.
      + destruct W; ifs; sm; auto; destruct S'; auto; discriminate.
      + destruct W; ifs; sm; auto; destruct S' as [S'|[S1 [S2|S2]]]; auto; right; split; auto; left; lia.
  Qed.
  Lemma runs_stop x h y : runs x h y -> stopOk y.
  Proof.
    apply runs_ind2.
    - intros t N. cbn. rewrite (proj2 (Nat.eqb_neq _ _) N). auto.
    - intros. eapply stop_w; eauto.
    - intros. eapply stop_c; eauto.
  Qed.
End P.
