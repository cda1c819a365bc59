(** Proofs for C72: the maps of the environment hold what the history says. *)
From Coq Require Import ZArith List Bool String Lia.
From Verif Require Import ValueModel OrderProps UdpQueueModel LitModel LaunchModel TestModel TestSpec.
Import ListNotations.
Open Scope Z_scope.

Lemma same_alike a b : same a b = true <-> alike a b.
Proof. unfold same, alike. rewrite andb_true_iff, !negb_true_iff. reflexivity. Qed.
Lemma same_nalike a b : same a b = false <-> ~ alike a b.
Proof. rewrite <- same_alike. destruct (same a b); split; intros; congruence. Qed.
Lemma same_refl a : okState a -> same a a = true.
Proof. intros A. apply same_alike. split; apply (swo_irrefl _ _ C20_state_order_partial); exact A. Qed.
Lemma same_sym a b : same a b = same b a.
Proof. unfold same. apply andb_comm. Qed.
Lemma same_trans a b c : okState a -> okState b -> okState c -> same a b = true -> same b c = true -> same a c = true.
Proof.
  rewrite !same_alike. unfold alike. intros A B C [H1 H2] [H3 H4].
  exact (swo_incomp _ _ C20_state_order_partial a b c A B C H1 H2 H3 H4).
Qed.
Lemma same_eq a b c : okState a -> okState b -> okState c -> same a b = true -> same a c = same b c.
Proof.
  intros A B C H. destruct (same b c) eqn:E; [exact (same_trans a b c A B C H E)|]. destruct (same a c) eqn:E2; auto.
  rewrite same_sym in H. rewrite (same_trans b a c B A C H E2) in E. discriminate.
Qed.

(** Maps. *)
Definition okKeys {A} (m : list (state * A)) : Prop := Forall (fun p => okState (fst p)) m.
Lemma mset_ok {A} k (a : A) m : okState k -> okKeys m -> okKeys (mset k a m).
Proof.
  intros K. induction m as [|[k' b] r IH]; intros F; cbn [mset]; [repeat constructor; auto|]. inversion F; subst.
  destruct (same k' k); constructor; auto. apply IH; auto.
Qed.
Lemma merase_ok {A} k (m : list (state * A)) : okKeys m -> okKeys (merase k m).
Proof.
  induction m as [|p r IH]; intros F; cbn [merase filter]; auto. inversion F; subst. destruct (negb _); [constructor|]; auto; apply IH; auto.
Qed.
Lemma mfind_mset {A} k k0 (a : A) m : okState k -> okState k0 -> okKeys m -> mfind k0 (mset k a m) = if same k k0 then Some a else mfind k0 m.
Proof.
  intros K K0. induction m as [|[k' b] r IH]; intros F; cbn [mset mfind]; [reflexivity|]. inversion F; subst. cbn [fst] in *.
  destruct (same k' k) eqn:E; cbn [mfind].
  - rewrite (same_eq k' k k0); auto. destruct (same k k0); reflexivity.
  - rewrite IH by auto. destruct (same k k0) eqn:E2; [|reflexivity]. destruct (same k' k0) eqn:E3; [|reflexivity].
    rewrite same_sym in E2. rewrite (same_trans k' k0 k) in E; auto; discriminate.
Qed.
Lemma mfind_merase {A} k k0 (m : list (state * A)) : okState k -> okState k0 -> okKeys m ->
  mfind k0 (merase k m) = if same k k0 then None else mfind k0 m.
Proof.
  intros K K0. induction m as [|[k' b] r IH]; intros F; cbn [merase filter mfind]; [destruct (same k k0); reflexivity|]. inversion F; subst. cbn [fst] in *.
  change (filter (fun p => negb (same (fst p) k)) r) with (merase k r).
  destruct (same k' k) eqn:E; cbn [negb].
  - rewrite IH by auto. rewrite (same_eq k' k k0); auto. destruct (same k k0); reflexivity.
  - cbn [mfind]. rewrite IH by auto. destruct (same k' k0) eqn:E3; [|reflexivity]. destruct (same k k0) eqn:E2; [|reflexivity].
    rewrite same_sym in E2. rewrite (same_trans k' k0 k) in E; auto; discriminate.
Qed.
Lemma streq_refl s : streq s s = true.
Proof. unfold streq. destruct (str_eq_dec s s); congruence. Qed.
Lemma streq_true a b : streq a b = true <-> a = b.
Proof. unfold streq. destruct (str_eq_dec a b); split; congruence. Qed.
Lemma nfind_ninsert n n0 u m : nfind n0 (ninsert n u m) = match nfind n0 m with Some u0 => Some u0 | None => if streq n n0 then Some u else None end.
Proof.
  unfold ninsert. destruct (nfind n m) eqn:E; cbn [nfind].
  - destruct (streq n n0) eqn:E2; [apply streq_true in E2; subst; now rewrite E|]. destruct (nfind n0 m); reflexivity.
  - destruct (streq n n0) eqn:E2; [apply streq_true in E2; subst; now rewrite E|]. destruct (nfind n0 m); reflexivity.
Qed.
Lemma nfind_nerase n n0 m : nfind n0 (nerase n m) = if streq n n0 then None else nfind n0 m.
Proof.
  induction m as [|[n' u] r IH]; cbn [nerase filter nfind]; [destruct (streq n n0); reflexivity|]. cbn [fst].
  change (filter (fun p => negb (streq (fst p) n)) r) with (nerase n r).
  destruct (streq n' n) eqn:E; cbn [negb].
  - apply streq_true in E; subst. rewrite IH. destruct (streq n n0); reflexivity.
  - cbn [nfind]. rewrite IH. destruct (streq n' n0) eqn:E2; [|reflexivity]. apply streq_true in E2; subst.
    destruct (streq n n0) eqn:E3; [|reflexivity]. apply streq_true in E3; subst. now rewrite streq_refl in E.
Qed.

(** Histories, read from the newest event. *)
Section Scan.
Context {A : Type}.
Fixpoint scan (f : ev -> option (option A)) (h : list ev) : option A :=
  match h with [] => None | v :: r => match f v with Some o => o | None => scan f r end end.
Lemma scan_some f h a : scan f h = Some a <-> exists l r v, h = l ++ v :: r /\ f v = Some (Some a) /\ forall w, In w l -> f w = None.
Proof.
  split.
  - induction h as [|v r IH]; cbn [scan]; [discriminate|]. destruct (f v) as [o|] eqn:E.
    + intros ->. exists [], r, v. repeat split; auto. intros w [].
    + intros H. destruct (IH H) as (l & r' & v' & -> & F & N). exists (v :: l), r', v'. repeat split; auto. intros w [<-|I]; auto.
  - intros (l & r & v & -> & F & N). induction l as [|w l IH]; cbn [scan app]; [now rewrite F|].
    rewrite (N w) by (left; reflexivity). apply IH. intros; apply N; right; auto.
Qed.
Lemma scan_none f h : (forall w, In w h -> f w = None) -> scan f h = None.
Proof. induction h as [|v r IH]; intros N; cbn [scan]; auto. rewrite N by (left; auto). apply IH. intros; apply N; right; auto. Qed.
(** Nothing found, and nothing that ends the search. *)
Lemma scan_none_inv f h : (forall w, f w <> Some None) -> scan f h = None -> forall w, In w h -> f w = None.
Proof.
  intros N. induction h as [|v r IH]; cbn [scan]; [intros _ w []|]. destruct (f v) as [o|] eqn:E.
  - intros ->. elim (N v E).
  - intros H w [<-|I]; auto.
Qed.
End Scan.
Definition fTell s v := match v with Tell s' x => if same s' s then Some (Some x) else None | _ => None end.
Definition fWait s v := match v with
  | Issue c s' true => if same s' s then Some (Some c) else None
  | Return _ s' _ => if same s' s then Some None else None
  | _ => None end.
Definition fLast s v := match v with Issue c s' _ => if same s' s then Some (Some c) else None | _ => None end.
Definition fAbort s v := match v with
  | AbortReq c s' => if same s' s then Some (Some c) else None
  | AbortAck _ s' _ => if same s' s then Some None else None
  | _ => None end.
Fixpoint upW (n : str) (h : list ev) : option nat :=
  match h with
  | [] => None
  | Update u n' :: r => match upW n r with Some u0 => Some u0 | None => if streq n' n then Some u else None end
  | UpdateAck _ n' :: r => if streq n' n then None else upW n r
  | _ :: r => upW n r
  end.
Ltac sm := match goal with H : context [same ?a ?b] |- _ => destruct (same a b) eqn:?; try discriminate H end.
Lemma told_iff h s v : okState s -> told h s v <->
  v = match scan (fTell s) h with Some x => x | None => if same timeState s then VReal 0 else unk end.
Proof.
  intros K. split.
  - intros [(l & r & s' & -> & AL & N)|(N & D)].
    + assert (H : scan (fTell s) (l ++ Tell s' v :: r) = Some v) by (apply scan_some; exists l, r, (Tell s' v); repeat split; auto;
        [unfold fTell; apply same_alike in AL; rewrite AL; reflexivity|]; intros w I; destruct w; try reflexivity; cbn [fTell]; rewrite (proj2 (same_nalike _ _)); auto; eapply N; eauto).
      now rewrite H.
    + rewrite scan_none by (intros w I; destruct w; try reflexivity; cbn [fTell]; rewrite (proj2 (same_nalike _ _)); auto; eapply N; eauto).
      destruct D as [[T ->]|[T ->]]; [apply same_alike in T|apply same_nalike in T]; rewrite T; reflexivity.
  - intros ->. destruct (scan (fTell s) h) as [x|] eqn:E.
    + left. apply scan_some in E as (l & r & v & -> & F & N). destruct v; try discriminate. cbn [fTell] in F. sm. injection F as <-.
      exists l, r, s0. repeat split; auto; [apply same_alike in Heqb; apply Heqb|apply same_alike in Heqb; apply Heqb|].
      intros s2 v2 I. specialize (N _ I). cbn [fTell] in N. sm. now apply same_nalike.
    + right. split.
      * intros s2 v2 I. pose proof (scan_none_inv (fTell s) h ltac:(intros w; destruct w; cbn [fTell]; try discriminate; destruct (same _ _); discriminate) E _ I) as N.
        cbn [fTell] in N. sm. now apply same_nalike.
      * destruct (same timeState s) eqn:T; [left|right]; split; auto; [now apply same_alike|now apply same_nalike].
Qed.
Lemma awaiting_iff h s c : awaiting h s c <-> scan (fWait s) h = Some c.
Proof.
  rewrite scan_some. split.
  - intros (l & r & s' & -> & AL & N1 & N2). exists l, r, (Issue c s' true). repeat split; [cbn [fWait]; apply same_alike in AL; rewrite AL; reflexivity|].
    intros w I. destruct w; try reflexivity; cbn [fWait]; [destruct ret; [|reflexivity]|]; rewrite (proj2 (same_nalike _ _)); auto; [eapply N1|eapply N2]; eauto.
  - intros (l & r & v & -> & F & N). destruct v; try discriminate; cbn [fWait] in F; [destruct ret; try discriminate|]; sm. injection F as <-.
    exists l, r, s0. split; [reflexivity|]. split; [now apply same_alike|]. split.
    + intros c2 s2 I. specialize (N _ I). cbn [fWait] in N. sm. now apply same_nalike.
    + intros c2 s2 v2 I. specialize (N _ I). cbn [fWait] in N. sm. now apply same_nalike.
Qed.
Lemma lastIssued_iff h s c : lastIssued h s c <-> scan (fLast s) h = Some c.
Proof.
  rewrite scan_some. split.
  - intros (l & r & s' & b & -> & AL & N1). exists l, r, (Issue c s' b). repeat split; [cbn [fLast]; apply same_alike in AL; rewrite AL; reflexivity|].
    intros w I. destruct w; try reflexivity; cbn [fLast]; rewrite (proj2 (same_nalike _ _)); auto; eapply N1; eauto.
  - intros (l & r & v & -> & F & N). destruct v; try discriminate; cbn [fLast] in F; sm. injection F as <-.
    exists l, r, s0, ret. split; [reflexivity|]. split; [now apply same_alike|].
    intros c2 s2 r2 I. specialize (N _ I). cbn [fLast] in N. sm. now apply same_nalike.
Qed.
Lemma aborting_iff h s c : aborting h s c <-> scan (fAbort s) h = Some c.
Proof.
  rewrite scan_some. split.
  - intros (l & r & s' & -> & AL & N1 & N2). exists l, r, (AbortReq c s'). repeat split; [cbn [fAbort]; apply same_alike in AL; rewrite AL; reflexivity|].
    intros w I. destruct w; try reflexivity; cbn [fAbort]; rewrite (proj2 (same_nalike _ _)); auto; [eapply N1|eapply N2]; eauto.
  - intros (l & r & v & -> & F & N). destruct v; try discriminate; cbn [fAbort] in F; sm. injection F as <-.
    exists l, r, s0. split; [reflexivity|]. split; [now apply same_alike|]. split.
    + intros c2 s2 I. specialize (N _ I). cbn [fAbort] in N. sm. now apply same_nalike.
    + intros c2 s2 v2 I. specialize (N _ I). cbn [fAbort] in N. sm. now apply same_nalike.
Qed.
Lemma upW_none n h : upW n h = None <-> forall l e u, h = l ++ Update u n :: e -> exists u3, In (UpdateAck u3 n) l.
Proof.
  induction h as [|v r IH]; cbn [upW].
  - split; auto. intros _ l e u H. destruct l; discriminate.
  - assert (G : (forall u, v <> Update u n) -> (forall u, v <> UpdateAck u n) ->
      ((forall l e u, r = l ++ Update u n :: e -> exists u3, In (UpdateAck u3 n) l) <-> (forall l e u, v :: r = l ++ Update u n :: e -> exists u3, In (UpdateAck u3 n) l))).
    { intros V1 V2. split.
      - intros H l e u E. destruct l as [|w l]; cbn [app] in E; injection E as -> E; [elim (V1 u); reflexivity|]. destruct (H l e u E) as (u3 & I). exists u3. right; exact I.
      - intros H l e u ->. destruct (H (v :: l) e u eq_refl) as (u3 & [E|I]); [elim (V2 u3 E)|]. exists u3. exact I. }
    destruct v; try (rewrite IH; apply G; intros; discriminate).
    + destruct (upW n r) as [u0|] eqn:E.
      * split; [discriminate|]. intros H. exfalso. assert (X : Some u0 = None); [|discriminate]. apply IH.
        intros l e u1 ->. destruct (H (Update u n0 :: l) e u1 eq_refl) as (u3 & [D|I]); [discriminate|]. exists u3; exact I.
      * destruct (streq n0 n) eqn:S.
        -- apply streq_true in S; subst. split; [discriminate|]. intros H. destruct (H [] r u eq_refl) as (u3 & []).
        -- rewrite <- G; [split; auto; intros _; apply IH; reflexivity| |]; intros; intros [= -> ->]; rewrite streq_refl in S; discriminate.
    + destruct (streq n0 n) eqn:S.
      * apply streq_true in S; subst. split; auto. intros _ l e u1 E. destruct l as [|w l]; cbn [app] in E; [discriminate|]. injection E as <- E. exists u. left; reflexivity.
      * rewrite IH. apply G; intros; intros [= -> ->]; rewrite streq_refl in S; discriminate.
Qed.
Lemma updating_iff h n u : updating h n u <-> upW n h = Some u.
Proof.
  split.
  - intros (l & e & -> & N & F). apply upW_none in F. induction l as [|v l IH]; cbn [upW app]; [rewrite F, streq_refl; reflexivity|].
    assert (H : upW n (l ++ Update u n :: e) = Some u) by (apply IH; intros u2 I; elim (N u2); right; exact I).
    destruct v; auto; [rewrite H; reflexivity|]. destruct (streq n0 n) eqn:S; auto. apply streq_true in S; subst. elim (N u0). left; reflexivity.
  - induction h as [|v r IH]; cbn [upW]; [discriminate|].
    assert (G : (forall u2, v <> UpdateAck u2 n) -> updating r n u -> updating (v :: r) n u).
    { intros V (l & e & -> & N & F). exists (v :: l), e. split; [reflexivity|]. split; [|exact F]. intros u2 [E|I]; [elim (V u2 E)|elim (N u2 I)]. }
    destruct v; try (intros H; apply G; [intros; discriminate|apply IH; exact H]).
    + destruct (upW n r) as [u1|] eqn:E.
      * intros [= ->]. apply G; [intros; discriminate|]. apply IH. reflexivity.
      * destruct (streq n0 n) eqn:S; [|discriminate]. apply streq_true in S; subst. intros [= ->]. exists [], r. split; [reflexivity|]. split; [intros u2 []|]. now apply upW_none.
    + destruct (streq n0 n) eqn:S; [discriminate|]. intros H. apply G; [intros u2 [= -> ->]; rewrite streq_refl in S; discriminate|apply IH; exact H].
Qed.

(** Every event of a history is justified by what came before. *)
Definition justified (v : ev) (h : list ev) : Prop :=
  match v with
  | Look s x => told h s x
  | Return c s _ => awaiting h s c
  | Ack c s _ => lastIssued h s c
  | AbortAck c s _ => aborting h s c
  | UpdateAck u n => updating h n u
  | Issue _ s _ => utility s = false
  | Served _ s => utility s = true
  | _ => True
  end.
Fixpoint good (h : list ev) : Prop := match h with [] => True | v :: r => justified v r /\ good r end.
Lemma good_at l v r : good (l ++ v :: r) -> justified v r.
Proof. induction l as [|w l IH]; cbn [app good]; intros [A B]; auto. Qed.
Record Inv (e : env) : Prop := mkInv {
  i_k1 : okKeys (t_states e); i_k2 : okKeys (t_exec e); i_k3 : okKeys (t_acks e); i_k4 : okKeys (t_aborts e);
  i_states : forall s, okState s -> match mfind s (t_states e) with Some v => v | None => unk end =
    match scan (fTell s) (t_trace e) with Some v => v | None => if same timeState s then VReal 0 else unk end;
  i_exec : forall s, okState s -> mfind s (t_exec e) = scan (fWait s) (t_trace e);
  i_acks : forall s, okState s -> mfind s (t_acks e) = scan (fLast s) (t_trace e);
  i_aborts : forall s, okState s -> mfind s (t_aborts e) = scan (fAbort s) (t_trace e);
  i_upds : forall n, nfind n (t_upds e) = upW n (t_trace e);
  i_good : good (t_trace e) }.
Lemma inv0 : Inv env0.
Proof.
  constructor; cbn [env0 t_states t_exec t_acks t_aborts t_upds t_trace scan upW good mfind nfind]; auto; try (constructor; fail).
  - repeat constructor.
  - intros s K. destruct (same timeState s); reflexivity.
Qed.
Ltac flds := cbn [emit setStates setExec setAcks setAborts setUpds t_states t_exec t_acks t_aborts t_upds t_trace scan upW good fTell fWait fLast fAbort].
Lemma docall_inv a e : okCall a -> Inv e -> Inv (docall a e).
Proof.
  intros K [K1 K2 K3 K4 I1 I2 I3 I4 I5 G]. destruct a as [s|c s ret|c|c s|u n]; cbn [docall okCall] in *.
  - pose proof (I1 s K) as V. destruct (mfind s (t_states e)) as [v|] eqn:F.
    + constructor; flds; auto. split; [|exact G]. cbn [justified]. apply told_iff; auto.
    + constructor; flds; auto; [now apply mset_ok| |split; [|exact G]; cbn [justified]; apply told_iff; auto].
      intros s0 K0. rewrite mfind_mset by auto. destruct (same s s0) eqn:S; [|apply I1; exact K0]. rewrite <- (I1 s0 K0).
      assert (M : forall m, okKeys m -> mfind s m = None -> mfind s0 m = @None val).
      { clear - K K0 S. induction m as [|[k b] r IH]; intros OK F; cbn [mfind] in *; auto. inversion OK; subst. cbn [fst] in *.
        destruct (same k s) eqn:E; [discriminate|]. destruct (same k s0) eqn:E2; [|apply IH; auto]. rewrite same_sym in S. rewrite (same_trans k s0 s) in E; auto; discriminate. }
      now rewrite (M _ K1 F).
  - destruct (utility s) eqn:U.
    + constructor; flds; auto.
    + destruct ret; constructor; flds; auto; try (now apply mset_ok).
      * intros s0 K0. rewrite mfind_mset by auto. destruct (same s s0); auto.
      * intros s0 K0. rewrite mfind_mset by auto. destruct (same s s0); auto.
      * intros s0 K0. rewrite mfind_mset by auto. destruct (same s s0); auto.
  - constructor; flds; auto; try (cbn [justified]; auto; fail).
  - constructor; flds; auto; try (now apply mset_ok); try (cbn [justified]; auto; fail). intros s0 K0. rewrite mfind_mset by auto. destruct (same s s0); auto.
  - constructor; flds; auto; try (cbn [justified]; auto; fail). intros n0. rewrite nfind_ninsert, I5. destruct (upW n0 (t_trace e)); reflexivity.
Qed.
Lemma calls_inv l e : Forall okCall l -> Inv e -> Inv (fold_left (fun e a => docall a e) l e).
Proof. revert e. induction l as [|a l IH]; intros e F I; cbn [fold_left]; auto. inversion F; subst. apply IH; auto. now apply docall_inv. Qed.
Lemma looks_ok x h : okExec x -> Forall okCall (filter isLook (react x h)).
Proof. intros K. specialize (K h). induction K; cbn [filter]; auto. destruct (isLook x0); auto. Qed.
Lemma step_inv x e : okExec x -> Inv e -> Inv (step x e).
Proof.
  intros K [K1 K2 K3 K4 I1 I2 I3 I4 I5 G]. unfold step. apply calls_inv; [apply K|]. constructor; flds; auto; try (cbn [justified]; auto; fail).
Qed.
Lemma tell_inv x v e : okExec x -> Inv (emit v e) -> Inv (tell x v e).
Proof. intros K I. unfold tell. apply calls_inv; [now apply looks_ok|exact I]. Qed.
(** While it is told something, the executive changes no map of commands. *)
Lemma looks_frame l e : let e' := fold_left (fun e a => docall a e) (filter isLook l) e in
  t_exec e' = t_exec e /\ t_aborts e' = t_aborts e /\ t_upds e' = t_upds e /\
  (forall m, fold_left (fun e a => docall a e) (filter isLook l) (setExec m e) = setExec m e') /\
  (forall m, fold_left (fun e a => docall a e) (filter isLook l) (setAborts m e) = setAborts m e') /\
  (forall m, fold_left (fun e a => docall a e) (filter isLook l) (setUpds m e) = setUpds m e').
Proof.
  revert e. induction l as [|a l IH]; intros e; [cbn; auto 10|]. destruct a; try apply IH. cbn [filter isLook fold_left docall].
  destruct (mfind s (t_states e)) as [v|] eqn:F.
  - destruct (IH (emit (Look s v) e)) as (A & B & C & D1 & D2 & D3). repeat split; auto; intros m; cbn [setExec setAborts setUpds t_states]; rewrite F; [apply D1|apply D2|apply D3].
  - destruct (IH (emit (Look s unk) (setStates (mset s unk (t_states e)) e))) as (A & B & C & D1 & D2 & D3).
    repeat split; auto; intros m; cbn [setExec setAborts setUpds t_states]; rewrite F; [apply D1|apply D2|apply D3].
Qed.
Lemma tell_setExec x v e m : setExec m (tell x v e) = tell x v (setExec m e).
Proof. unfold tell. symmetry. apply (looks_frame (react x (t_trace (emit v e))) (emit v e)). Qed.
Lemma tell_setAborts x v e m : setAborts m (tell x v e) = tell x v (setAborts m e).
Proof. unfold tell. symmetry. apply (looks_frame (react x (t_trace (emit v e))) (emit v e)). Qed.
Lemma tell_setUpds x v e m : setUpds m (tell x v e) = tell x v (setUpds m e).
Proof. unfold tell. symmetry. apply (looks_frame (react x (t_trace (emit v e))) (emit v e)). Qed.
Lemma tell_maps x v e : t_exec (tell x v e) = t_exec e /\ t_aborts (tell x v e) = t_aborts e /\ t_upds (tell x v e) = t_upds e.
Proof. unfold tell. destruct (looks_frame (react x (t_trace (emit v e))) (emit v e)) as (A & B & C & _). auto. Qed.
Lemma doBasic_inv x b e : okExec x -> okBasic b -> Inv e -> Inv (snd (doBasic x b e)).
Proof.
  intros X K I. pose proof I as [K1 K2 K3 K4 I1 I2 I3 I4 I5 G]. destruct b as [s v|s v|s v|s v|n| |]; cbn [doBasic okBasic] in *.
  - cbn [snd]. apply tell_inv; auto. constructor; flds; auto; try (cbn [justified]; auto; fail); [now apply mset_ok|].
    intros s0 K0. rewrite mfind_mset by auto. destruct (same s s0); auto.
  - destruct (mfind s (t_exec e)) as [c|] eqn:F; [|exact I]. cbn [snd]. rewrite tell_setExec. apply tell_inv; auto.
    destruct (tell_maps x (Return c s v) e) as (-> & _ & _). constructor; flds; auto; [now apply merase_ok| |].
    + intros s0 K0. rewrite mfind_merase by auto. destruct (same s s0); auto.
    + split; [|exact G]. cbn [justified]. apply awaiting_iff. rewrite <- I2; auto.
  - destruct (mfind s (t_acks e)) as [c|] eqn:F; [|exact I]. cbn [snd]. apply tell_inv; auto. constructor; flds; auto.
    split; [|exact G]. cbn [justified]. apply lastIssued_iff. rewrite <- I3; auto.
  - destruct v; try exact I. destruct (mfind s (t_aborts e)) as [c|] eqn:F; [|exact I]. cbn [snd]. rewrite tell_setAborts. apply tell_inv; auto.
    destruct (tell_maps x (AbortAck c s b) e) as (_ & -> & _). constructor; flds; auto; [now apply merase_ok| |].
    + intros s0 K0. rewrite mfind_merase by auto. destruct (same s s0); auto.
    + split; [|exact G]. cbn [justified]. apply aborting_iff. rewrite <- I4; auto.
  - destruct (nfind n (t_upds e)) as [u|] eqn:F; [|exact I]. cbn [snd]. rewrite tell_setUpds. apply tell_inv; auto.
    destruct (tell_maps x (UpdateAck u n) e) as (_ & _ & ->). constructor; flds; auto.
    + intros n0. rewrite nfind_nerase, I5. reflexivity.
    + split; [|exact G]. cbn [justified]. apply updating_iff. rewrite <- I5; auto.
  - exact I.
  - exact I.
Qed.
Lemma doBasics_inv x l : forall e, okExec x -> Forall okBasic l -> Inv e -> Inv (snd (doBasics x l e)).
Proof.
  induction l as [|b r IH]; intros e X F I; cbn [doBasics]; auto. inversion F; subst. pose proof (doBasic_inv x b e X H1 I) as I2.
  destruct (doBasic x b e) as [[|] e1]; cbn [snd] in *; auto.
Qed.
Lemma doItem_inv x i e : okExec x -> okItem i -> Inv e -> Inv (snd (doItem x i e)).
Proof.
  intros X K I. destruct i as [b|l| |[d|]]; cbn [doItem okItem doSendPlan] in *; auto; [now apply doBasic_inv|now apply doBasics_inv|].
  destruct (child "PlexilPlan" d) as [p|]; auto. destruct (load x p) as [n|]; auto. cbn [snd]. apply tell_inv; auto.
  destruct I as [K1 K2 K3 K4 I1 I2 I3 I4 I5 G]. constructor; flds; auto; try (cbn [justified]; auto; fail).
Qed.
Lemma doItems_inv x l : forall e, okExec x -> Forall okItem l -> Inv e -> Inv (snd (doItems x l e)).
Proof.
  induction l as [|i r IH]; intros e X F I; cbn [doItems]; auto. inversion F; subst. pose proof (doItem_inv x i e X H1 I) as I2.
  destruct (doItem x i e) as [[|] e1]; cbn [snd] in *; auto. apply IH; auto. now apply step_inv.
Qed.
Lemma doInits_inv x l : forall e, okExec x -> Forall okInit l -> Inv e -> Inv (snd (doInits x l e)).
Proof.
  induction l as [|i r IH]; intros e X F I; cbn [doInits]; auto. inversion F; subst. destruct i; auto. apply IH; auto.
  exact (doBasic_inv x (BState s v) e X H1 I).
Qed.
Lemma settle_inv x k : forall e, okExec x -> Inv e -> Inv (settle x k e).
Proof. induction k as [|k IH]; intros e X I; cbn [settle]; auto. destruct (needs x (t_trace e)); auto. apply IH; auto. now apply step_inv. Qed.
Lemma doInitial_inv x l e : okExec x -> Forall okInit l -> Inv e -> Inv (snd (doInitial x l e)).
Proof.
  intros X F I. unfold doInitial. assert (H : Inv (snd (setInitial x l e))).
  { unfold setInitial. destruct l as [|[| |] r]; auto; apply doInits_inv; auto. }
  destruct (setInitial x l e) as [[|] e1]; cbn [snd] in *; auto. now apply step_inv.
Qed.
Lemma run_inv x k inits script : okExec x -> Forall okInit inits -> Forall okItem script -> Inv (snd (run x k inits script)).
Proof.
  intros X FI FS. unfold run. pose proof (doInitial_inv x inits env0 X FI inv0) as I. destruct (doInitial x inits env0) as [[|] e]; cbn [snd] in *; auto.
  pose proof (doItems_inv x script e X FS I) as I2. destruct (doItems x script e) as [[|] e2]; cbn [snd] in *; auto. now apply settle_inv.
Qed.

(** What the script is responsible for. *)
Lemma effects_cons v h : effects (v :: h) = effects h ++ scripted v.
Proof. unfold effects. cbn [rev]. rewrite flat_map_app. cbn [flat_map]. now rewrite app_nil_r. Qed.
Lemma docall_effects a e : effects (t_trace (docall a e)) = effects (t_trace e).
Proof.
  destruct a as [s|c s ret|c|c s|u n]; cbn [docall].
  - destruct (mfind s (t_states e)); flds; rewrite effects_cons; cbn [scripted]; apply app_nil_r.
  - destruct (utility s); [|destruct ret]; flds; rewrite effects_cons; cbn [scripted]; apply app_nil_r.
  - flds; rewrite effects_cons; cbn [scripted]; apply app_nil_r.
  - flds; rewrite effects_cons; cbn [scripted]; apply app_nil_r.
  - flds; rewrite effects_cons; cbn [scripted]; apply app_nil_r.
Qed.
Lemma calls_effects l e : effects (t_trace (fold_left (fun e a => docall a e) l e)) = effects (t_trace e).
Proof. revert e. induction l as [|a l IH]; intros e; cbn [fold_left]; auto. rewrite IH. apply docall_effects. Qed.
Lemma tell_effects x v e : effects (t_trace (tell x v e)) = effects (t_trace e) ++ scripted v.
Proof. unfold tell. rewrite calls_effects. flds. apply effects_cons. Qed.
Lemma step_effects x e : effects (t_trace (step x e)) = effects (t_trace e) ++ [EStep].
Proof. unfold step. rewrite calls_effects. flds. apply effects_cons. Qed.
Lemma doBasic_effects x b e : okBasic b -> Inv e ->
  if fst (doBasic x b e) then effects (t_trace (snd (doBasic x b e))) = effects (t_trace e) ++ meansBasic b
  else snd (doBasic x b e) = e /\ impossible (t_trace e) b.
Proof.
  intros K I. destruct b as [s v|s v|s v|s v|n| |]; cbn [doBasic meansBasic okBasic impossible] in *.
  - cbn [fst snd]. rewrite tell_effects. reflexivity.
  - pose proof (i_exec e I s K) as H. destruct (mfind s (t_exec e)) as [c|] eqn:F; cbn [fst snd].
    + cbn [setExec t_trace]. rewrite tell_effects. reflexivity.
    + split; auto. intros c A. apply awaiting_iff in A. congruence.
  - pose proof (i_acks e I s K) as H. destruct (mfind s (t_acks e)) as [c|] eqn:F; cbn [fst snd].
    + rewrite tell_effects. reflexivity.
    + split; auto. intros c A. apply lastIssued_iff in A. congruence.
  - assert (N : (forall b, v <> VBool b) \/ exists b, v = VBool b) by (destruct v; eauto; left; discriminate). destruct N as [N|[b ->]].
    + destruct v; cbn [fst snd]; try (split; [reflexivity|left; exact N]). elim (N b). reflexivity.
    + pose proof (i_aborts e I s K) as H. destruct (mfind s (t_aborts e)) as [c|] eqn:F; cbn [fst snd].
      * cbn [setAborts t_trace]. rewrite tell_effects. reflexivity.
      * split; auto. right. intros c A. apply aborting_iff in A. congruence.
  - pose proof (i_upds e I n) as H. destruct (nfind n (t_upds e)) as [u|] eqn:F; cbn [fst snd].
    + cbn [setUpds t_trace]. rewrite tell_effects. reflexivity.
    + split; auto. intros u A. apply updating_iff in A. congruence.
  - cbn [fst snd]. rewrite app_nil_r. reflexivity.
  - cbn [fst snd]. auto.
Qed.
Lemma doBasics_effects x l : forall e, okExec x -> Forall okBasic l -> Inv e ->
  if fst (doBasics x l e) then effects (t_trace (snd (doBasics x l e))) = effects (t_trace e) ++ flat_map meansBasic l
  else exists pre b post, l = pre ++ b :: post /\ effects (t_trace (snd (doBasics x l e))) = effects (t_trace e) ++ flat_map meansBasic pre /\
       impossible (t_trace (snd (doBasics x l e))) b.
Proof.
  induction l as [|b r IH]; intros e X F I; cbn [doBasics]; [cbn [fst snd flat_map]; now rewrite app_nil_r|]. inversion F; subst.
  pose proof (doBasic_effects x b e H1 I) as E. pose proof (doBasic_inv x b e X H1 I) as I2. destruct (doBasic x b e) as [[|] e1]; cbn [fst snd] in *.
  - specialize (IH e1 X H2 I2). destruct (doBasics x r e1) as [[|] e2]; cbn [fst snd] in *.
    + rewrite IH, E. cbn [flat_map]. now rewrite app_assoc.
    + destruct IH as (pre & b' & post & -> & E2 & IM). exists (b :: pre), b', post. repeat split; auto. rewrite E2, E. cbn [flat_map]. now rewrite app_assoc.
  - destruct E as [-> IM]. exists [], b, r. cbn [flat_map app]. rewrite app_nil_r. auto.
Qed.
(** An element that ends the script. *)
Definition stuck (x : executive) (i : item) (h0 h : list ev) : Prop :=
  match i with
  | Basic b => h = h0 /\ impossible h b
  | Simultaneous l => exists pre b post, l = pre ++ b :: post /\ effects h = effects h0 ++ flat_map meansBasic pre /\ impossible h b
  | SendPlan None => h = h0
  | _ => False
  end.
Lemma doItem_effects x i e : okExec x -> okItem i -> Inv e ->
  if fst (doItem x i e) then effects (t_trace (snd (doItem x i e))) = effects (t_trace e) ++ means x i
  else stuck x i (t_trace e) (t_trace (snd (doItem x i e))).
Proof.
  intros X K I. destruct i as [b|l| |[d|]]; cbn [doItem okItem doSendPlan means stuck] in *.
  - pose proof (doBasic_effects x b e K I) as E. destruct (doBasic x b e) as [[|] e1]; cbn [fst snd] in *; auto. destruct E as [-> E]. auto.
  - exact (doBasics_effects x l e X K I).
  - cbn [fst snd]. now rewrite app_nil_r.
  - destruct (child "PlexilPlan" d) as [p|]; [destruct (load x p) as [n|]|]; cbn [fst snd]; rewrite ?app_nil_r; auto. apply tell_effects.
  - cbn [fst snd]. reflexivity.
Qed.
Lemma doItems_effects x l : forall e, okExec x -> Forall okItem l -> Inv e ->
  if fst (doItems x l e) then effects (t_trace (snd (doItems x l e))) = effects (t_trace e) ++ meansScript x l
  else exists pre i post h0, l = pre ++ i :: post /\ effects h0 = effects (t_trace e) ++ meansScript x pre /\ stuck x i h0 (t_trace (snd (doItems x l e))).
Proof.
  induction l as [|i r IH]; intros e X F I; cbn [doItems]; [cbn [fst snd meansScript flat_map]; now rewrite app_nil_r|]. inversion F; subst.
  pose proof (doItem_effects x i e X H1 I) as E. pose proof (doItem_inv x i e X H1 I) as I2. destruct (doItem x i e) as [[|] e1]; cbn [fst snd] in *.
  - specialize (IH (step x e1) X H2 (step_inv x e1 X I2)). pose proof (step_effects x e1) as SE. destruct (doItems x r (step x e1)) as [[|] e2]; cbn [fst snd] in *.
    + rewrite IH, SE, E. unfold meansScript. cbn [flat_map]. now rewrite !app_assoc.
    + destruct IH as (pre & i' & post & h0 & -> & E2 & IM). exists (i :: pre), i', post, h0. repeat split; auto. rewrite E2, SE, E. unfold meansScript. cbn [flat_map]. now rewrite !app_assoc.
  - exists [], i, r, (t_trace e). cbn [meansScript flat_map app]. rewrite app_nil_r. auto.
Qed.
Lemma doInits_effects x l : forall e,
  if fst (doInits x l e) then effects (t_trace (snd (doInits x l e))) = effects (t_trace e) ++ flat_map meansInit l
  else exists pre i post, l = pre ++ i :: post /\ (i = InText \/ i = InBad) /\ effects (t_trace (snd (doInits x l e))) = effects (t_trace e) ++ flat_map meansInit pre.
Proof.
  induction l as [|i r IH]; intros e; cbn [doInits]; [cbn [fst snd flat_map]; now rewrite app_nil_r|]. destruct i as [s v| |].
  - specialize (IH (tell x (Tell s v) (setStates (mset s v (t_states e)) e))). rewrite tell_effects in IH. cbn [setStates t_trace scripted] in IH.
    destruct (doInits x r _) as [[|] e2]; cbn [fst snd] in *.
    + rewrite IH. cbn [flat_map meansInit]. now rewrite <- app_assoc.
    + destruct IH as (pre & i & post & -> & N & E). exists (InState s v :: pre), i, post. repeat split; auto. rewrite E. cbn [flat_map meansInit]. now rewrite <- app_assoc.
  - exists [], InText, r. cbn [fst snd flat_map app]. rewrite app_nil_r. auto.
  - exists [], InBad, r. cbn [fst snd flat_map app]. rewrite app_nil_r. auto.
Qed.
Lemma settle_effects x k : forall e, exists j, (j <= k)%nat /\ effects (t_trace (settle x k e)) = effects (t_trace e) ++ repeat EStep j /\
  ((j < k)%nat -> needs x (t_trace (settle x k e)) = false).
Proof.
  induction k as [|k IH]; intros e; cbn [settle]; [exists O; cbn [repeat]; rewrite app_nil_r; repeat split; auto; lia|].
  destruct (needs x (t_trace e)) eqn:N.
  - destruct (IH (step x e)) as (j & J & E & Q). exists (S j). repeat split; [lia| |intros; apply Q; lia]. rewrite E, step_effects. cbn [repeat]. now rewrite <- app_assoc.
  - exists O. cbn [repeat]. rewrite app_nil_r. repeat split; auto; lia.
Qed.
