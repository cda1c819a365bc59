(** Marks: notifyAndWaitForCompletion when markQueue calls do not overlap. *)
From Verif Require Import AppModel AppSpec AppProofs AppProofs2.
From Coq Require Import Sorted.

Section P.
  Context {X : Type}.
  Variable (apply : eff -> X -> X) (execStep clean : X -> X) (needsStep allFinished : X -> bool).
  Notation runs := (runs apply execStep clean needsStep allFinished true).
  Notation xruns := (xruns apply execStep clean needsStep allFinished true).
  Notation wstep := (wstep apply execStep clean needsStep allFinished).
  Notation cstep := (cstep allFinished).
  Notation app := (@app X).

  Lemma xruns_runs x h y : xruns x h y -> runs x h y.
  Proof. induction 1; econstructor; eauto. Qed.
  Lemma overlap0 x : ~ overlap (app0 x : app).
  Proof. intros (t & t' & _ & A & _). cbn in A. destruct (Nat.eqb t 0); discriminate. Qed.
  Lemma xruns_no x h y : xruns x h y -> ~ overlap y.
  Proof. intros H. inversion H; subst; auto. apply overlap0. Qed.
  Lemma xruns_ind2 x (P : app -> Prop) : P (app0 x) ->
    (forall y y', roles y -> ordered y -> ~ overlap y -> P y -> wstep y y' -> P y') ->
    (forall y t y', roles y -> ordered y -> ~ overlap y -> ~ overlap y' -> P y -> t <> 0 -> cstep y t y' -> P y') ->
    forall h y, xruns x h y -> P y.
  Proof.
    intros P0 PW PC h y H. induction H as [|h y t a y' R IH ST NO]; auto. pose proof (xruns_runs _ _ _ R) as RR.
    destruct (runs_roles _ _ _ _ _ _ _ _ RR) as [R1 R2]. pose proof (runs_ordered _ _ _ _ _ _ _ _ RR) as O. pose proof (xruns_no _ _ _ R) as NO1.
    destruct (step_cases _ _ _ _ _ _ _ _ _ R1 ST) as [[-> W]|[N C]]; eauto.
  Qed.

  (** Sequence numbers posted and processed, in order. *)
  Definition mks (l : list event) : list nat := flat_map (fun e => match e with PMark n => [n] | _ => [] end) l.
  Definition omks (l : list out) : list nat := flat_map (fun e => match e with OMark n => [n] | _ => [] end) l.
  Lemma mks_app a b : mks (a ++ b) = mks a ++ mks b. Proof. apply flat_map_app. Qed.
  Lemma omks_app a b : omks (a ++ b) = omks a ++ omks b. Proof. apply flat_map_app. Qed.
  Lemma omks_want l : omks (flat_map want l) = mks l.
  Proof.
    induction l as [|e l IH]; auto. cbn. rewrite omks_app. rewrite IH. f_equal.
    destruct e; cbn; auto; try (destruct c; reflexivity); try (destruct u; reflexivity); try (destruct m; reflexivity).
    - destruct m; auto. destruct handle; reflexivity.
    - destruct handle; reflexivity.
  Qed.
  Definition mt (y : app) := mks (posts (a_tr y)).
  Definition pm (y : app) := omks (outs (a_tr y)).
  Lemma in_mks n l : In n (mks l) <-> In (PMark n) l.
  Proof.
    unfold mks. rewrite in_flat_map. split.
    - intros (e & I & J). destruct e; cbn in J; try tauto. destruct J as [->|[]]. auto.
    - intros I. exists (PMark n). cbn. auto.
  Qed.
  Lemma in_posts e l : In e (posts l) <-> exists t, In (EvPost t e) l.
  Proof.
    unfold posts. rewrite in_flat_map. split.
    - intros (v & I & J). destruct v; cbn in J; try contradiction. destruct J as [->|[]]. eauto.
    - intros (t & I). exists (EvPost t e). cbn. auto.
  Qed.

  Record marksOk (y : app) : Prop := {
    k_sorted : StronglySorted lt (mt y);
    k_le : forall n, In n (mt y) -> 0 < n <= a_markCount y;
    k_write : forall t n, a_pc y t = N_write n -> n = a_markCount y;
    k_put : forall t n, a_pc y t = N_put n -> n = a_markCount y /\ 0 < n /\ forall m, In m (mt y) -> m < n;
    k_last : a_lastMark y = last (pm y) 0;
    k_in : forall t n, a_pc y t = N_notify n -> exists p1 p2, a_tr y = p1 ++ EvPost t (PMark n) :: p2;
    k_in2 : forall t n, a_pc y t = N_wait n \/ a_pc y t = N_post n \/ a_pc y t = N_test n ->
       exists p1 p2 p3, a_tr y = p1 ++ EvPost t (PMark n) :: p2 ++ EvNotify t :: p3 }.
  Lemma sorted_snoc l n : StronglySorted lt l -> (forall m, In m l -> m < n) -> StronglySorted lt (l ++ [n]).
  Proof.
    intros S H. induction S; cbn; [repeat constructor|]. constructor.
    - apply IHS. intros. apply H. now right.
    - apply Forall_app. split; auto. constructor; auto. apply H. now left.
  Qed.
  Lemma last_snoc {A} (l : list A) x d : last (l ++ [x]) d = x. Proof. apply last_last. Qed.
  (** Trace growing without marks and positions of others unchanged. *)
  Lemma marks_keep (y y' : app) : marksOk y -> (a_tr y' = a_tr y \/ exists e, a_tr y' = a_tr y ++ [e] /\ match e with EvPost _ (PMark _) | EvMark _ => False | _ => True end) ->
    a_markCount y' = a_markCount y -> a_lastMark y' = a_lastMark y ->
    (forall t, a_pc y' t = a_pc y t \/ match a_pc y' t with N_write n => n = a_markCount y | N_put _ | N_notify _ => False
       | N_wait n | N_post n | N_test n => a_pc y t = N_wait n \/ a_pc y t = N_post n \/ a_pc y t = N_test n \/ a_pc y t = N_notify n /\ a_tr y' = a_tr y ++ [EvNotify t] | _ => True end) -> marksOk y'.
  Proof.
    intros [A B C D E F G] T M L P.
    assert (MT : mt y' = mt y). { unfold mt. destruct T as [->|(e & -> & N)]; auto. rewrite posts_app, mks_app. destruct e; cbn; rewrite ?app_nil_r; auto. destruct e; cbn in *; rewrite ?app_nil_r; tauto. }
    assert (PM : pm y' = pm y). { unfold pm. destruct T as [->|(e & -> & N)]; auto. rewrite outs_app, omks_app. destruct e; cbn; rewrite ?app_nil_r; auto; tauto. }
    assert (EX : exists l, a_tr y' = a_tr y ++ l). { destruct T as [->|(e & -> & _)]; [exists []; now rewrite app_nil_r|eauto]. }
    destruct EX as [l EX].
    constructor; rewrite ?MT, ?PM, ?M, ?L; auto.
    - intros t n Q. destruct (P t) as [R|R]; [rewrite R in Q; eauto|rewrite Q in R; auto].
    - intros t n Q. destruct (P t) as [R|R]; [rewrite R in Q; eauto|rewrite Q in R; tauto].
    - intros t n Q. destruct (P t) as [R|R]; [|rewrite Q in R; tauto]. rewrite R in Q. destruct (F t n Q) as (p1 & p2 & H). exists p1, (p2 ++ l). rewrite EX, H, <- app_assoc. reflexivity.
    - intros t n Q.
      assert (OLD : a_pc y t = N_wait n \/ a_pc y t = N_post n \/ a_pc y t = N_test n -> exists p1 p2 p3, a_tr y' = p1 ++ EvPost t (PMark n) :: p2 ++ EvNotify t :: p3).
      { intros R. destruct (G t n R) as (p1 & p2 & p3 & H). exists p1, p2, (p3 ++ l). rewrite EX, H, <- !app_assoc. cbn. now rewrite <- app_assoc. }
      assert (NEW : a_pc y t = N_notify n /\ a_tr y' = a_tr y ++ [EvNotify t] -> exists p1 p2 p3, a_tr y' = p1 ++ EvPost t (PMark n) :: p2 ++ EvNotify t :: p3).
      { intros [R1 R2]. destruct (F t n R1) as (p1 & p2 & H). exists p1, p2, []. rewrite R2, H, <- app_assoc. reflexivity. }
      destruct (P t) as [R|R]; [rewrite R in Q; auto|]. destruct Q as [Q|[Q|Q]]; rewrite Q in R; tauto.
  Qed.
  (** Marks in the entry being processed come after those processed. *)
  Lemma inflight_mark (y : app) f l ns c n : ordered y -> a_pc y 0 = W_apply f l ns c -> process c = RMark n ->
    exists m, mt y = pm y ++ n :: m.
  Proof.
    intros (d & r & A & B & C) PC PR. rewrite PC in C. cbn in C. destruct (ent_head _ _ _ C) as (r0 & e & r1 & E1 & E2 & E3 & E4).
    pose proof (ent_want e) as W. rewrite E3, PR in W. unfold mt, pm. rewrite A, B, omks_want, mks_app, E1, mks_app.
    assert (Z : mks r0 = []). { rewrite <- omks_want, E2. reflexivity. } rewrite Z. exists (mks r1). cbn [List.app]. f_equal.
    assert (H : mks (e :: r1) = mks [e] ++ mks r1) by (rewrite <- mks_app; reflexivity).
    assert (Z1 : mks [e] = [n]). { rewrite <- omks_want. cbn. rewrite W. reflexivity. } rewrite H, Z1. reflexivity.
  Qed.
  Lemma marks_w (y y' : app) : roles y -> ordered y -> marksOk y -> wstep y y' -> marksOk y'.
  Proof.
    intros R O K W. pose proof (roles_w _ _ _ _ _ _ _ R W) as [R0' _].
    assert (PO : forall t, t <> 0 -> a_pc y' t = a_pc y t). { intros t N. destruct W; ifs; sm; rewrite ?upd_ne; auto. }
    assert (P : forall t, a_pc y' t = a_pc y t \/ match a_pc y' t with N_write n => n = a_markCount y | N_put _ | N_notify _ => False
       | N_wait n | N_post n | N_test n => a_pc y t = N_wait n \/ a_pc y t = N_post n \/ a_pc y t = N_test n \/ a_pc y t = N_notify n /\ a_tr y' = a_tr y ++ [EvNotify t] | _ => True end).
    { intros t. destruct (Nat.eq_dec t 0) as [->|N]; auto. right. destruct (a_pc y' 0); auto; discriminate. }
    destruct W; try solve [ifs; eapply marks_keep; [exact K| |reflexivity|reflexivity|exact P]; sm; auto; right; eexists; split; eauto; exact I];
      try solve [eapply marks_keep; [exact K| | | |exact P]; ifs; sm; auto; right; eexists; split; eauto; exact I].
    - eapply marks_keep; [exact K| | | |exact P]; sm; auto. right; eexists; split; eauto. destruct e; auto. now apply (H0 n).
    - destruct (inflight_mark _ _ _ _ _ _ O H H0) as (m & MT). destruct K as [A B C D E F G].
      assert (MT' : mt (w (emit (setMarks y (a_markCount y) n) (EvMark n)) (W_get f l ns)) = mt y).
      { unfold mt. sm. rewrite posts_app, mks_app. cbn. now rewrite app_nil_r. }
      constructor; rewrite ?MT'; sm; auto.
      + intros t k. rewrite upd_dec. destruct (Nat.eqb t 0); [discriminate|apply C].
      + intros t k. rewrite upd_dec. destruct (Nat.eqb t 0); [discriminate|apply D].
      + unfold pm. sm. rewrite outs_app, omks_app. cbn. now rewrite last_last.
      + intros t k. rewrite upd_dec. destruct (Nat.eqb t 0); [discriminate|]. intros Q. destruct (F t k Q) as (p1 & p2 & Z). exists p1, (p2 ++ [EvMark n]). rewrite Z, <- app_assoc. reflexivity.
      + intros t k. rewrite upd_dec. destruct (Nat.eqb t 0); [intros [?|[?|?]]; discriminate|]. intros Q. destruct (G t k Q) as (p1 & p2 & p3 & Z).
        exists p1, p2, (p3 ++ [EvMark n]). rewrite Z, <- !app_assoc. cbn. now rewrite <- app_assoc.
  Qed.
  Lemma marks_c (y y' : app) t : roles y -> ~ overlap y -> ~ overlap y' -> marksOk y -> t <> 0 -> cstep y t y' -> marksOk y'.
  Proof.
    intros R NO NO' K NT W.
    assert (PO : forall t', t' <> t -> a_pc y' t' = a_pc y t'). { intros t' N. destruct W; ifs; sm; rewrite ?upd_ne; auto. }
    assert (GEN : (a_tr y' = a_tr y \/ exists e, a_tr y' = a_tr y ++ [e] /\ match e with EvPost _ (PMark _) | EvMark _ => False | _ => True end) ->
      a_markCount y' = a_markCount y -> a_lastMark y' = a_lastMark y ->
      (a_pc y' t = a_pc y t \/ match a_pc y' t with N_write n => n = a_markCount y | N_put _ | N_notify _ => False
       | N_wait n | N_post n | N_test n => a_pc y t = N_wait n \/ a_pc y t = N_post n \/ a_pc y t = N_test n \/ a_pc y t = N_notify n /\ a_tr y' = a_tr y ++ [EvNotify t] | _ => True end) -> marksOk y').
    { intros T M L P. eapply marks_keep; eauto. intros t'. destruct (Nat.eq_dec t' t) as [->|N]; auto. }
    destruct W;
      try solve [apply GEN; sm; rewrite ?upd_eq, ?H; auto; right; eexists; split; eauto; exact I].
    - apply GEN; sm; auto. right; eexists; split; eauto. destruct e; auto. now apply (H0 n).
    - apply GEN; sm; rewrite ?upd_eq, ?H; auto. { right; eexists; split; eauto; exact I. }
      right. destruct H0 as [[-> ->]|[[-> ->]|[[-> ->]|[[-> ->]|[n [-> ->]]]]]]; auto.
    - apply GEN; sm; rewrite ?upd_eq, ?H; auto. right. destruct H1; subst; auto.
    - (* write *)
      assert (ALONE : forall t', t' <> t -> inMark (a_pc y t') = false).
      { intros t' N. destruct (inMark (a_pc y t')) eqn:Q; auto. exfalso. apply NO. exists t', t. rewrite H. auto. }
      destruct K as [A B C D E F G]. pose proof (C t n H) as Cn. constructor; sm; auto.
      + intros m I. specialize (B m I). lia.
      + intros t' k. rewrite upd_dec. destruct (Nat.eqb_spec t' t) as [->|N]; [discriminate|]. intros Q. specialize (ALONE t' N). rewrite Q in ALONE. discriminate.
      + intros t' k. rewrite upd_dec. destruct (Nat.eqb_spec t' t) as [->|N]; [|intros Q; specialize (ALONE t' N); rewrite Q in ALONE; discriminate].
        intros Q. inversion Q; subst k. split; auto. split; [lia|]. intros m I. unfold mt in I. sm. specialize (B m I). lia.
      + intros t' k. rewrite upd_dec. destruct (Nat.eqb_spec t' t) as [->|N]; [discriminate|]. apply F.
      + intros t' k. rewrite upd_dec. destruct (Nat.eqb_spec t' t) as [->|N]; [intros [?|[?|?]]; discriminate|]. apply G.
    - (* put *)
      assert (ALONE : forall t', t' <> t -> inMark (a_pc y t') = false).
      { intros t' N. destruct (inMark (a_pc y t')) eqn:Q; auto. exfalso. apply NO. exists t', t. rewrite H. auto. }
      destruct K as [A B C D E F G]. destruct (D t n H) as (D1 & D2 & D3).
      assert (MT' : mt (at_ (put y t (PMark n)) t (N_notify n)) = mt y ++ [n]).
      { unfold mt. sm. rewrite posts_app, mks_app. reflexivity. }
      constructor; rewrite ?MT'; sm; auto.
      + apply sorted_snoc; auto.
      + intros m I. apply in_app_or in I. destruct I as [I|[<-|[]]]; [auto|lia].
      + intros t' k. rewrite upd_dec. destruct (Nat.eqb_spec t' t) as [->|N]; [discriminate|]. intros Q. specialize (ALONE t' N). rewrite Q in ALONE. discriminate.
      + intros t' k. rewrite upd_dec. destruct (Nat.eqb_spec t' t) as [->|N]; [discriminate|]. intros Q. specialize (ALONE t' N). rewrite Q in ALONE. discriminate.
      + rewrite E. unfold pm. sm. rewrite outs_app, omks_app. cbn. now rewrite app_nil_r.
      + intros t' k. rewrite upd_dec. destruct (Nat.eqb_spec t' t) as [->|N].
        * intros Q. inversion Q; subst k. exists (a_tr y), []. reflexivity.
        * intros Q. destruct (F t' k Q) as (p1 & p2 & Z). exists p1, (p2 ++ [EvPost t (PMark n)]). rewrite Z, <- app_assoc. reflexivity.
      + intros t' k. rewrite upd_dec. destruct (Nat.eqb_spec t' t) as [->|N]; [intros [?|[?|?]]; discriminate|]. intros Q. destruct (G t' k Q) as (p1 & p2 & p3 & Z).
        exists p1, p2, (p3 ++ [EvPost t (PMark n)]). rewrite Z, <- !app_assoc. cbn. now rewrite <- app_assoc.
  Qed.
  Lemma runs_marks x h y : xruns x h y -> marksOk y.
  Proof.
    apply xruns_ind2.
    - constructor; [apply SSorted_nil|cbn; tauto| | |reflexivity| |]; cbn; intros t n; destruct (Nat.eqb t 0); try discriminate; intros [?|[?|?]]; discriminate.
    - intros. eapply marks_w; eauto.
    - intros. eapply marks_c; eauto.
  Qed.
  Lemma pm_prefix (y : app) : ordered y -> exists r, mt y = pm y ++ r.
  Proof. intros (d & r & A & B & _). unfold mt, pm. rewrite A, B, omks_want, mks_app. eauto. Qed.
  Lemma sorted_app_lt (a b : list nat) : StronglySorted lt (a ++ b) -> forall x y, In x a -> In y b -> x < y.
  Proof.
    induction a as [|z a IH]; cbn; [tauto|]. intros S x y [->|I] J; inversion S; subst.
    - rewrite Forall_forall in H2. apply H2. apply in_or_app. auto.
    - eauto.
  Qed.
  Lemma last_in (l : list nat) : l <> [] -> In (last l 0) l.
  Proof. intros N. destruct l as [|a l] using rev_ind; [tauto|]. rewrite last_last. apply in_or_app. right. now left. Qed.
  Lemma last_max (l : list nat) : StronglySorted lt l -> forall x, In x l -> x <= last l 0.
  Proof.
    intros S x I. destruct l as [|a l _] using rev_ind; [destruct I|]. rewrite last_last. apply in_app_or in I. destruct I as [I|[->|[]]]; auto.
    pose proof (sorted_app_lt _ _ S x a I (or_introl eq_refl)). lia.
  Qed.
  Lemma sorted_l (a b : list nat) : StronglySorted lt (a ++ b) -> StronglySorted lt a.
  Proof. induction a; cbn; [constructor|]. intros S. inversion S; subst. constructor; auto. apply Forall_app in H2. tauto. Qed.
  (** A posted mark not above m_lastMark has been processed. *)
  Lemma seen_iff (y : app) n : ordered y -> marksOk y -> In n (mt y) -> n <= a_lastMark y <-> In n (pm y).
  Proof.
    intros O K I. destruct (pm_prefix y O) as [r P]. pose proof (k_sorted _ K) as S. rewrite P in S. rewrite (k_last _ K). split.
    - intros L. rewrite P in I. apply in_app_or in I. destruct I as [I|I]; auto. exfalso.
      pose proof (k_le _ K) as LE. rewrite P in LE. assert (0 < n) by (apply LE; apply in_or_app; auto).
      destruct (pm y) as [|a l] eqn:Q; [cbn in L; lia|].
      pose proof (sorted_app_lt _ _ S (last (a :: l) 0) n (last_in (a :: l) ltac:(discriminate)) I). lia.
    - intros J. apply last_max; auto. eapply sorted_l; eauto.
  Qed.

  (** ** Returning only after everything posted before was applied *)
  Lemma seen_before (y : app) t n p1 p2 : ordered y -> marksOk y -> a_tr y = p1 ++ EvPost t (PMark n) :: p2 -> n <= a_lastMark y ->
    prefix (flat_map want (posts p1)) (outs (a_tr y)).
  Proof.
    intros O K T L.
    assert (I : In n (mt y)). { apply in_mks, in_posts. exists t. rewrite T. apply in_or_app. right. now left. }
    apply (seen_iff _ _ O K I) in L. destruct O as (d & r & A & B & C). unfold pm in L. rewrite B, omks_want in L.
    rewrite T, posts_app in A. cbn in A. fold (posts p2) in A.
    assert (S : StronglySorted lt (mks (posts p1) ++ n :: mks (posts p2))).
    { pose proof (k_sorted _ K) as S. unfold mt in S. rewrite T, posts_app, mks_app in S. exact S. }
    destruct (Nat.le_gt_cases (length (posts p1)) (length d)) as [LE|LE].
    - assert (exists z, d = posts p1 ++ z) as [z ->].
      { exists (skipn (length (posts p1)) d). assert (H := f_equal (firstn (length (posts p1))) A). rewrite firstn_app, Nat.sub_diag, firstn_all, firstn_O, app_nil_r, firstn_app in H.
        replace (length (posts p1) - length d) with 0 in H by lia. rewrite firstn_O, app_nil_r in H. rewrite H at 1. now rewrite firstn_skipn. }
      exists (flat_map want z). now rewrite B, flat_map_app.
    - exfalso. assert (exists z, posts p1 = d ++ z) as [z Z].
      { exists (skipn (length d) (posts p1)). assert (H := f_equal (firstn (length d)) A). rewrite (firstn_app _ d), Nat.sub_diag, firstn_all, firstn_O, app_nil_r, firstn_app in H.
        replace (length d - length (posts p1)) with 0 in H by lia. rewrite firstn_O, app_nil_r in H. rewrite <- H at 1. now rewrite firstn_skipn. }
      rewrite Z, mks_app in S. pose proof (sorted_app_lt _ _ S n n ltac:(apply in_or_app; auto) (or_introl eq_refl)). lia.
  Qed.
  Definition returnsOk (l : list ev) : Prop := forall l1 t n l2, l = l1 ++ EvReturn t n :: l2 ->
    exists p1 p2, l1 = p1 ++ EvPost t (PMark n) :: p2 /\ prefix (flat_map want (posts p1)) (outs l1).
  Lemma returns_keep l l' : returnsOk l -> (l' = l \/ exists e, l' = l ++ [e] /\ forall t n, e <> EvReturn t n) -> returnsOk l'.
  Proof.
    intros R [->|(e & -> & N)]; auto. intros l1 t n l2 E. destruct l2 as [|e2 l2 _] using rev_ind.
    - apply app_inj_tail in E. destruct E as [_ E]. now destruct (N t n).
    - rewrite app_comm_cons, app_assoc in E. apply app_inj_tail in E. destruct E as [E ->]. eapply R; eauto.
  Qed.
  Lemma runs_returns x h y : xruns x h y -> returnsOk (a_tr y).
  Proof.
    intros H. enough (marksOk y /\ returnsOk (a_tr y)) by tauto. revert h y H. apply xruns_ind2.
    - split; [apply (runs_marks x []); constructor|]. intros [|] t n l2 E; discriminate.
    - intros y0 y' R O NO [K S] W. split; [eapply marks_w; eauto|]. destruct W; ifs;
        try solve [eapply returns_keep; [exact S|]; sm; auto; right; eexists; (split; [reflexivity|intros; discriminate])].
    - intros y0 t y' R O NO NO' [K S] N W. split; [eapply marks_c; eauto|]. destruct W; ifs;
        try solve [eapply returns_keep; [exact S|]; sm; auto; right; eexists; (split; [reflexivity|intros; discriminate])].
      sm. intros l1 t' m l2 E. destruct l2 as [|e2 l2 _] using rev_ind.
      + apply app_inj_tail in E. destruct E as [E1 E2]. inversion E2; subst t' m. subst l1. destruct (k_in2 _ K t n) as (p1 & p2 & p3 & T); auto.
        exists p1, (p2 ++ EvNotify t :: p3). split; auto. eapply seen_before; eauto.
      + rewrite app_comm_cons, app_assoc in E. apply app_inj_tail in E. destruct E as [E _]. eapply S; eauto.
  Qed.

  (** ** The token of m_markSem *)
  Definition tok (y : app) : Prop := a_markSem y <> 0 \/ exists t n, t <> 0 /\ a_pc y t = N_post n.
  Definition tokenOk (y : app) : Prop :=
    match a_pc y 0 with
    | W_lock f | W_empty f _ | W_get f _ _ | W_apply f _ _ _ | W_step f | W_need f | W_clean f | W_unlock f _ | W_postAll f _ | W_postMark f =>
        f_old f <= a_lastMark y /\ (0 < f_old f -> tok y)
    | W_crash _ | W_done => True
    | _ => 0 < a_lastMark y -> tok y
    end.
  Lemma tok_keep (y y' : app) : tok y -> a_markSem y' = a_markSem y -> (forall t, t <> 0 -> a_pc y' t = a_pc y t) -> tok y'.
  Proof. intros [T|(t & n & N & T)] A B; [left; congruence|right; exists t, n; rewrite B; auto]. Qed.
  Lemma token_w (y y' : app) : ordered y -> marksOk y -> tokenOk y -> wstep y y' -> tokenOk y'.
  Proof.
    intros O K S W. unfold tokenOk in *.
    assert (TK : a_markSem y' = a_markSem y -> tok y -> tok y').
    { intros E T. eapply tok_keep; eauto. intros t N. destruct W; ifs; sm; rewrite ?upd_ne; auto. }
    destruct W; rewrite H in S; ifs; sm; rewrite ?upd_eq, ?H; cbn [pqReturn] in *;
      try solve [destruct S as [S1 S2]; split; auto]; try solve [intros; apply TK; auto]; auto.
    - unfold pqReturn. destruct l; (destruct S as [S1 S2]; split; auto).
    - unfold pqReturn. destruct l, ns; (destruct S as [S1 S2]; split; auto).
    - destruct S as [S1 S2]. split; auto. destruct (inflight_mark _ _ _ _ _ _ O H H0) as (m & MT).
      pose proof (k_sorted _ K) as SO. rewrite MT in SO. rewrite (k_last _ K) in S1.
      destruct (pm y) as [|a0 l0] eqn:Q; [cbn in S1; lia|].
      pose proof (sorted_app_lt _ _ SO (last (a0 :: l0) 0) n (last_in (a0 :: l0) ltac:(discriminate)) (or_introl eq_refl)). lia.
    - intros _. left. sm. lia.
    - intros L. destruct S as [S1 S2]. apply Nat.ltb_ge in Heqb. apply TK; auto. apply S2. lia.
  Qed.
  Lemma token_c (y y' : app) t : tokenOk y -> t <> 0 -> cstep y t y' -> tokenOk y'.
  Proof.
    intros S N W. assert (TK : tok y -> tok y').
    { intros [T|(t' & n & N' & T)].
      - destruct W; try solve [left; sm; auto].
        right. exists t, n. sm. rewrite upd_eq. auto.
      - destruct (Nat.eq_dec t' t) as [->|NT].
        + destruct W; try congruence; try solve [left; sm; lia].
          * destruct H0 as [[-> _]|[[-> _]|[[-> _]|[[-> _]|[k [-> _]]]]]]; congruence.
          * right. exists t, n. auto.
        + right. exists t', n. split; auto. destruct W; sm; rewrite ?upd_ne; auto. }
    unfold tokenOk in *. assert (P0 : a_pc y' 0 = a_pc y 0) by (destruct W; sm; rewrite ?upd_ne; auto).
    assert (L0 : a_lastMark y' = a_lastMark y) by (destruct W; sm; auto).
    rewrite P0, L0. destruct (a_pc y 0); auto; destruct S; split; auto.
  Qed.
  Lemma runs_token x h y : xruns x h y -> tokenOk y.
  Proof.
    intros H. enough (marksOk y /\ tokenOk y) by tauto. revert h y H. apply xruns_ind2.
    - split; [apply (runs_marks x []); constructor|]. cbn. lia.
    - intros y0 y' R O NO [K S] W. split; [eapply marks_w; eauto|]. eapply token_w; eauto.
    - intros y0 t y' R O NO NO' [K S] N W. split; [eapply marks_c; eauto|]. eapply token_c; eauto.
  Qed.
End P.
