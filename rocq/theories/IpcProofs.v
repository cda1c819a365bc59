(** Lemmas for IpcProps.v. *)
From Coq Require Import ZArith List Bool Arith Lia.
From Verif Require Import ValueModel UdpQueueModel IpcModel IpcSpec.
Import ListNotations.
Open Scope Z_scope.

(** ** Keys *)
Lemma sameMsg_true p q : sameMsg p q = true <-> idOf p = idOf q.
Proof.
  unfold sameMsg, idOf. destruct (str_eq_dec (p_uid p) (p_uid q)) as [E|N].
  - rewrite Z.eqb_eq, E. split; congruence.
  - split; [discriminate|]. congruence.
Qed.
Lemma sameMsg_false p q : sameMsg p q = false <-> idOf p <> idOf q.
Proof. rewrite <- sameMsg_true. destruct (sameMsg p q); split; congruence. Qed.
Lemma sameMsg_key p q : idOf p = idOf q -> forall x, sameMsg p x = sameMsg q x.
Proof. intros E x. destruct (sameMsg q x) eqn:F; [apply sameMsg_true in F; apply sameMsg_true; congruence|apply sameMsg_false in F; apply sameMsg_false; congruence]. Qed.
Lemma filter_key p q l : idOf p = idOf q -> filter (sameMsg p) l = filter (sameMsg q) l.
Proof. intros E. apply filter_ext. apply sameMsg_key, E. Qed.
(** By key instead of by part. *)
Definition ofKey (k : msgId) (l : list part) : list part := filter (fun q => if msgId_dec k (idOf q) then true else false) l.
Lemma ofKey_filter p l : filter (sameMsg p) l = ofKey (idOf p) l.
Proof. apply filter_ext. intros x. destruct (msgId_dec (idOf p) (idOf x)) as [E|N]; [apply sameMsg_true, E|apply sameMsg_false, N]. Qed.
Lemma ofKey_app k a b : ofKey k (a ++ b) = ofKey k a ++ ofKey k b.
Proof. apply filter_app. Qed.
Lemma ofKey_one k p : ofKey k [p] = if msgId_dec k (idOf p) then [p] else [].
Proof. unfold ofKey. cbn [filter]. destruct (msgId_dec k (idOf p)); reflexivity. Qed.

(** ** The table of incomplete messages *)
Lemma findInc_set m k v k' : findInc (setInc m k v) k' = if msgId_dec k' k then Some v else findInc m k'.
Proof.
  induction m as [|[k0 v0] m IH]; cbn [setInc findInc]; [destruct (msgId_dec k' k); reflexivity|].
  destruct (msgId_dec k k0) as [->|N]; cbn [findInc].
  - destruct (msgId_dec k' k0); reflexivity.
  - destruct (msgId_dec k' k0) as [->|N']; [destruct (msgId_dec k0 k); [congruence|reflexivity]|exact IH].
Qed.
Lemma in_keys_set m k v x : In x (map fst (setInc m k v)) -> x = k \/ In x (map fst m).
Proof.
  induction m as [|[k0 v0] m IH]; cbn [setInc map fst In]; [intuition congruence|]. destruct (msgId_dec k k0); cbn [map fst In]; tauto.
Qed.
Lemma in_keys_erase m k x : In x (map fst (eraseInc m k)) -> In x (map fst m).
Proof.
  induction m as [|[k0 v0] m IH]; cbn [eraseInc map fst In]; [tauto|]. destruct (msgId_dec k k0); cbn [map fst In]; tauto.
Qed.
Lemma keys_set m k v : NoDup (map fst m) -> NoDup (map fst (setInc m k v)).
Proof.
  induction m as [|[k0 v0] m IH]; intros N; cbn [setInc map fst]; [repeat constructor; intros []|].
  cbn [map fst] in N. inversion N; subst. destruct (msgId_dec k k0) as [->|D]; cbn [map fst]; constructor; try assumption; [|apply IH; assumption].
  intros J. apply in_keys_set in J. destruct J; [congruence|contradiction].
Qed.
Lemma findInc_none m k : ~ In k (map fst m) -> findInc m k = None.
Proof. induction m as [|[k0 v0] m IH]; cbn; [reflexivity|]. intros N. destruct (msgId_dec k k0); [subst; tauto|apply IH; tauto]. Qed.
Lemma findInc_erase m k k' : NoDup (map fst m) -> findInc (eraseInc m k) k' = if msgId_dec k' k then None else findInc m k'.
Proof.
  induction m as [|[k0 v0] m IH]; intros N; cbn [eraseInc findInc]; [destruct (msgId_dec k' k); reflexivity|].
  cbn in N. inversion N; subst. destruct (msgId_dec k k0) as [->|D].
  - destruct (msgId_dec k' k0) as [->|D']; [apply findInc_none; assumption|reflexivity].
  - cbn [findInc]. destruct (msgId_dec k' k0) as [->|D']; [destruct (msgId_dec k0 k); [congruence|reflexivity]|apply IH; assumption].
Qed.
Lemma keys_erase m k : NoDup (map fst m) -> NoDup (map fst (eraseInc m k)).
Proof.
  intros N. induction m as [|[k0 v0] m IH]; cbn; [exact N|]. cbn in N. inversion N; subst.
  destruct (msgId_dec k k0); [assumption|]. cbn. constructor; [|apply IH; assumption].
  intros J. apply in_keys_erase in J. contradiction.
Qed.

(** ** Listeners *)
Lemma regsFor_add m t n t' : regsFor (addReg m t n) t' = regsFor m t' ++ (if t' =? t then [n] else []).
Proof.
  induction m as [|[t0 l] m IH]; cbn [addReg regsFor]; [destruct (t' =? t); reflexivity|].
  destruct (t =? t0) eqn:E; cbn [regsFor].
  - apply Z.eqb_eq in E. subst t0. destruct (t' =? t); [reflexivity|]. rewrite app_nil_r. reflexivity.
  - destruct (t' =? t0) eqn:F; [|exact IH]. apply Z.eqb_eq in F. subst t'. rewrite Z.eqb_sym, E, app_nil_r. reflexivity.
Qed.

(** ** The invariant *)
Definition opened (u : str) (ps : list part) : bool :=
  match ps with [] => false | p :: r => negb (isValue p) && isFor u p && Nat.ltb (length r) (needs p) end.
Record inv (u : str) (subs : list (nat * option Z)) (seen : list part) (r : recv) : Prop := {
  i_uid : r_uid r = u;
  i_keys : NoDup (map fst (r_inc r));
  i_inc : forall k, findInc (r_inc r) k = if opened u (ofKey k seen) then Some (ofKey k seen) else None;
  i_aud : forall t, r_all r ++ regsFor (r_reg r) t = audience subs t;
  i_all : r_all r = map fst (filter (fun x => match snd x with None => true | Some _ => false end) subs) }.

Lemma cstr_nulFree s : nulFree s -> cstr s = s.
Proof.
  intros N. induction s as [|c s IH]; [reflexivity|]. cbn. destruct (Z.eqb_spec c 0) as [->|D]; [exfalso; apply N; left; reflexivity|].
  f_equal. apply IH. intros I. apply N. right. exact I.
Qed.
Lemma inv0 u : inv u [] [] (recv0 u).
Proof. constructor; cbn; try reflexivity; try constructor. Qed.

Definition outFor (u : str) subs (mine : list part) : list (nat * list part) :=
  if complete u mine then map (fun n => (n, mine)) (audience subs (match mine with q :: _ => typeCode (p_what q) | [] => 0 end)) else [].
Lemma deliver_aud u subs seen r p l : inv u subs seen r -> deliverMessages r (p :: l) = map (fun n => (n, p :: l)) (audience subs (typeCode (p_what p))).
Proof. intros I. cbn. rewrite (i_aud _ _ _ _ I). reflexivity. Qed.

(** One part. *)
Lemma filter_last_head (f : part -> bool) seen p : f p = true -> filter f (seen ++ [p]) = filter f seen ++ [p].
Proof. intros F. rewrite filter_app. cbn. rewrite F. reflexivity. Qed.
Lemma ofKey_last seen p : ofKey (idOf p) (seen ++ [p]) = ofKey (idOf p) seen ++ [p].
Proof. rewrite ofKey_app, ofKey_one. destruct (msgId_dec (idOf p) (idOf p)); [reflexivity|congruence]. Qed.
Lemma ofKey_other seen p k : k <> idOf p -> ofKey k (seen ++ [p]) = ofKey k seen.
Proof. intros N. rewrite ofKey_app, ofKey_one. destruct (msgId_dec k (idOf p)); [congruence|apply app_nil_r]. Qed.

Lemma inv_same u subs seen r p : inv u subs seen r -> opened u (ofKey (idOf p) seen ++ [p]) = false -> opened u (ofKey (idOf p) seen) = false -> inv u subs (seen ++ [p]) r.
Proof.
  intros I O O'. constructor; try apply I. intros k. rewrite (i_inc _ _ _ _ I).
  destruct (msgId_dec k (idOf p)) as [->|N]; [rewrite ofKey_last, O, O'; reflexivity|rewrite ofKey_other by exact N; reflexivity].
Qed.
Lemma inv_set u subs seen r p : inv u subs seen r -> opened u (ofKey (idOf p) seen ++ [p]) = true ->
  inv u subs (seen ++ [p]) (withInc r (setInc (r_inc r) (idOf p) (ofKey (idOf p) seen ++ [p]))).
Proof.
  intros I O. constructor; cbn; try apply I; [apply keys_set, I|]. intros k. rewrite findInc_set, (i_inc _ _ _ _ I).
  destruct (msgId_dec k (idOf p)) as [->|N]; [rewrite ofKey_last, O; reflexivity|rewrite ofKey_other by exact N; reflexivity].
Qed.
Lemma inv_erase u subs seen r p : inv u subs seen r -> opened u (ofKey (idOf p) seen ++ [p]) = false ->
  inv u subs (seen ++ [p]) (withInc r (eraseInc (r_inc r) (idOf p))).
Proof.
  intros I O. constructor; cbn; try apply I; [apply keys_erase, I|]. intros k. rewrite findInc_erase by apply I. rewrite (i_inc _ _ _ _ I).
  destruct (msgId_dec k (idOf p)) as [->|N]; [rewrite ofKey_last, O; reflexivity|rewrite ofKey_other by exact N; reflexivity].
Qed.

Lemma trailer_step u subs seen r p : inv u subs seen r -> isValue p = true -> orderly (ofKey (idOf p) seen ++ [p]) ->
  exists r', cacheMessageTrailer r p = Some (outFor u subs (ofKey (idOf p) seen ++ [p]), r') /\ inv u subs (seen ++ [p]) r'.
Proof.
  intros I V O. unfold cacheMessageTrailer. rewrite (i_inc _ _ _ _ I).
  destruct (ofKey (idOf p) seen) as [|q l] eqn:K.
  - cbn [opened app outFor complete]. unfold outFor. cbn [complete]. rewrite V. cbn. exists r. split; [reflexivity|].
    apply inv_same; [exact I|rewrite K; cbn; rewrite V; reflexivity|rewrite K; reflexivity].
  - destruct (opened u (q :: l)) eqn:OP.
    + cbn [opened] in OP. apply andb_true_iff in OP. destruct OP as [OP L]. apply Nat.ltb_lt in L.
      cbn [app]. destruct O as (C & W & _). change ((q :: l) ++ [p]) with (q :: (l ++ [p])).
      assert (NQ : needs q = Z.to_nat (p_count q)).
      { unfold needs in *. destruct (p_what q); try reflexivity; lia. }
      unfold outFor. cbn [complete]. rewrite OP. cbn [andb]. rewrite app_length. cbn [length].
      replace (p_count q <? Z.of_nat (S (length (l ++ [p])))) with (Nat.eqb (length l + 1) (needs q)).
      2:{ rewrite app_length. cbn [length]. apply eq_true_iff_eq. rewrite Nat.eqb_eq, Z.ltb_lt. lia. }
      destruct (Nat.eqb_spec (length l + 1) (needs q)) as [E|N].
      * eexists. split; [rewrite (deliver_aud _ _ _ _ _ _ I); reflexivity|]. apply inv_erase; [exact I|]. rewrite K. cbn [app opened]. rewrite OP. cbn [andb].
        apply Nat.ltb_ge. rewrite app_length. cbn [length]. lia.
      * eexists. split; [reflexivity|].
        pose proof (inv_set u subs seen r p I) as S. rewrite K in S. apply S. cbn [app opened]. rewrite OP. cbn [andb].
        apply Nat.ltb_lt. rewrite app_length. cbn [length]. lia.
    + assert (OQ : opened u ((q :: l) ++ [p]) = false /\ complete u ((q :: l) ++ [p]) = false).
      { cbn [app opened complete] in *. destruct (isValue q) eqn:VQ; [split; reflexivity|]. cbn [negb andb] in *.
        destruct (isFor u q); [|split; reflexivity]. cbn [andb] in *. apply Nat.ltb_ge in OP. destruct O as (_ & _ & B). specialize (B VQ). rewrite app_length in *. cbn [length] in *. lia. }
      destruct OQ as [O1 O2]. exists r. split; [unfold outFor; rewrite O2; reflexivity|]. apply inv_same; rewrite ?K; assumption.
Qed.

Lemma leader_step u subs seen r p : inv u subs seen r -> isFor u p = true ->
  match p_what p with KCommand _ | KLookup _ | KUpdate _ | KTelemetry _ | KReturn _ _ => True | _ => False end ->
  ofKey (idOf p) seen = [] -> 0 <= p_count p ->
  exists r', cacheMessageLeader r p = Some (outFor u subs [p], r') /\ inv u subs (seen ++ [p]) r'.
Proof.
  intros I F W K C. unfold cacheMessageLeader. rewrite (i_inc _ _ _ _ I), K. cbn [opened].
  assert (V : isValue p = false) by (unfold isValue; destruct (p_what p); try reflexivity; contradiction).
  assert (N : needs p = Z.to_nat (p_count p)) by (unfold needs; destruct (p_what p); try reflexivity; contradiction).
  unfold outFor. cbn [complete]. rewrite V, F. cbn [negb andb length]. destruct (Z.eqb_spec (p_count p) 0) as [E|D].
  - assert (Z0 : Nat.eqb 0 (needs p) = true) by (apply Nat.eqb_eq; lia). rewrite Z0. exists r. split; [rewrite (deliver_aud _ _ _ _ _ _ I); reflexivity|].
    apply inv_same; [exact I| |rewrite K; reflexivity]. rewrite K. cbn [app opened]. rewrite V, F. cbn [negb andb length]. apply Nat.ltb_ge. lia.
  - assert (Z0 : Nat.eqb 0 (needs p) = false) by (apply Nat.eqb_neq; lia). rewrite Z0. eexists. split; [reflexivity|].
    pose proof (inv_set u subs seen r p I) as S. rewrite K in S. apply S. cbn [app opened]. rewrite V, F. cbn [negb andb length]. apply Nat.ltb_lt. lia.
Qed.

Lemma single_step u subs seen r p : inv u subs seen r -> isFor u p = true -> isValue p = false -> needs p = 0%nat ->
  ofKey (idOf p) seen = [] ->
  Some (deliverMessages r [p], r) = Some (outFor u subs [p], r) /\ inv u subs (seen ++ [p]) r.
Proof.
  intros I F V N K. unfold outFor. cbn [complete]. rewrite V, F, N. cbn [negb andb length Nat.eqb]. rewrite (deliver_aud _ _ _ _ _ _ I). split; [reflexivity|].
  apply inv_same; [exact I| |rewrite K; reflexivity]. rewrite K. cbn [app opened]. rewrite N. rewrite andb_false_r. reflexivity.
Qed.

Lemma handle_step u subs seen r p : nulFree u -> inv u subs seen r -> orderly (ofKey (idOf p) seen ++ [p]) ->
  exists r', handleMessage r p = Some (outFor u subs (ofKey (idOf p) seen ++ [p]), r') /\ inv u subs (seen ++ [p]) r'.
Proof.
  intros NU I O. destruct (isValue p) eqn:V.
  - unfold handleMessage. destruct (trailer_step u subs seen r p I V O) as (r' & E & I'). exists r'. split; [|exact I'].
    unfold isValue in V. destruct (p_what p); try discriminate V; exact E.
  - assert (K : ofKey (idOf p) seen = []).
    { destruct (ofKey (idOf p) seen) as [|q l]; [reflexivity|]. destruct O as (_ & W & _). rewrite (W p) in V; [discriminate|]. apply in_or_app. right. left. reflexivity. }
    rewrite K in *. cbn [app] in *. destruct O as (C & _ & _).
    unfold handleMessage. 
    assert (S : isFor u p = true -> needs p = 0%nat -> exists r', Some (deliverMessages r [p], r) = Some (outFor u subs [p], r') /\ inv u subs (seen ++ [p]) r').
    { intros F N. exists r. apply single_step; assumption. }
    assert (L := leader_step u subs seen r p I).
    destruct (p_what p) eqn:W; try discriminate V;
      try (apply S; [unfold isFor; rewrite W; reflexivity|unfold needs; rewrite W; reflexivity]);
      try (unfold isValue in V; rewrite W in V; discriminate V).
    all: try (destruct (p_count p =? 0) eqn:Z0; [apply S; [unfold isFor; rewrite W; reflexivity|unfold needs; rewrite W; apply Z.eqb_eq in Z0; rewrite Z0; reflexivity]|]).
    all: try (apply L; [unfold isFor; rewrite W; reflexivity|exact Logic.I|exact K|exact C]).
    rewrite (i_uid _ _ _ _ I), (cstr_nulFree u NU). destruct (str_eq_dec uid u) as [->|D].
    + apply L; [unfold isFor; rewrite W; destruct (str_eq_dec u u); [reflexivity|congruence]|exact Logic.I|exact K|exact C].
    + assert (F : isFor u p = false) by (unfold isFor; rewrite W; destruct (str_eq_dec uid u); [congruence|reflexivity]).
      exists r. split; [unfold outFor; cbn [complete]; rewrite F, andb_false_r; reflexivity|].
      apply inv_same; [exact I| |rewrite K; reflexivity]. rewrite K. cbn [app opened]. rewrite F, andb_false_r. reflexivity.
Qed.

Lemma orderly_prefix a b : orderly (a ++ b) -> orderly a.
Proof.
  destruct a as [|p l]; [intros _; exact Logic.I|]. cbn [app orderly]. intros (C & W & B). split; [exact C|]. split.
  - intros q I. apply W, in_or_app. left. exact I.
  - intros V. specialize (B V). rewrite app_length in B. lia.
Qed.

Lemma run_inv u l : nulFree u -> noUnsub l -> forall subs seen r, inv u subs seen r -> orderlyAll (seen ++ partsIn l) ->
  exists r', rrun r l = Some (expected u subs seen l, r').
Proof.
  intros NU. induction l as [|e l IH]; intros NO subs seen r I O; cbn [rrun]; [exists r; reflexivity|].
  assert (NO' : noUnsub l) by (intros n J; apply (NO n); right; exact J).
  destruct e as [p|n|n t|n|]; cbn [rstep expected partsIn] in *.
  - assert (O1 : orderly (ofKey (idOf p) seen ++ [p])).
    { specialize (O p). rewrite ofKey_filter in O. replace (seen ++ p :: partsIn l) with ((seen ++ [p]) ++ partsIn l) in O by (rewrite <- app_assoc; reflexivity).
      rewrite ofKey_app, ofKey_last in O. apply orderly_prefix with (b := ofKey (idOf p) (partsIn l)), O. apply in_or_app. left. apply in_or_app. right. left. reflexivity. }
    destruct (handle_step u subs seen r p NU I O1) as (r1 & E & I1). rewrite E.
    destruct (IH NO' subs (seen ++ [p]) r1 I1) as (r2 & E2); [rewrite <- app_assoc; exact O|]. rewrite E2. exists r2.
    rewrite ofKey_filter, ofKey_last. reflexivity.
  - assert (I1 : inv u (subs ++ [(n, None)]) seen {| r_uid := r_uid r; r_inc := r_inc r; r_all := r_all r ++ [n]; r_reg := r_reg r |}).
    { constructor; cbn; try apply I.
      - intros t. pose proof (i_aud _ _ _ _ I t) as A. unfold audience in *. rewrite !filter_app, !map_app. cbn. rewrite app_nil_r.
        rewrite (i_all _ _ _ _ I) in *. apply app_inv_head in A. rewrite A, <- app_assoc. reflexivity.
      - rewrite filter_app, map_app, <- (i_all _ _ _ _ I). reflexivity. }
    destruct (IH NO' _ seen _ I1 O) as (r2 & E2). rewrite E2. exists r2. reflexivity.
  - assert (I1 : inv u (subs ++ [(n, Some t)]) seen {| r_uid := r_uid r; r_inc := r_inc r; r_all := r_all r; r_reg := addReg (r_reg r) t n |}).
    { constructor; cbn; try apply I.
      - intros t'. pose proof (i_aud _ _ _ _ I t') as A. unfold audience in *. rewrite !filter_app, !map_app. cbn. rewrite app_nil_r.
        rewrite (i_all _ _ _ _ I) in *. apply app_inv_head in A. rewrite regsFor_add, A. destruct (t' =? t); reflexivity.
      - rewrite filter_app, map_app, <- (i_all _ _ _ _ I). cbn. rewrite app_nil_r. reflexivity. }
    destruct (IH NO' _ seen _ I1 O) as (r2 & E2). rewrite E2. exists r2. reflexivity.
  - exfalso. apply (NO n). left. reflexivity.
  - assert (I1 : inv u [] seen {| r_uid := r_uid r; r_inc := r_inc r; r_all := []; r_reg := [] |}) by (constructor; cbn; try apply I; reflexivity).
    destruct (IH NO' _ seen _ I1 O) as (r2 & E2). rewrite E2. exists r2. reflexivity.
Qed.

(** ** Channels *)
Lemma suffix_check : forallb (fun f => forallb (fun g => (length g <=? length f)%nat || negb (if str_eq_dec (skipn (length g - length f) g) f then true else false)) allFormats) allFormats = true.
Proof. vm_compute. reflexivity. Qed.
Lemma suffix_same f g l : In f allFormats -> In g allFormats -> g = l ++ f -> l = [].
Proof.
  intros F G E. pose proof suffix_check as C. rewrite forallb_forall in C. specialize (C f F). rewrite forallb_forall in C. specialize (C g G).
  apply orb_true_iff in C. assert (L : length g = (length l + length f)%nat) by (rewrite E, app_length; reflexivity). destruct C as [C|C].
  - apply Nat.leb_le in C. destruct l; [reflexivity|cbn in L; lia].
  - assert (Q : skipn (length g - length f) g = f).
    { replace (length g - length f)%nat with (length l) by lia. rewrite E, skipn_app, skipn_all, Nat.sub_diag. reflexivity. }
    rewrite Q in C. destruct (str_eq_dec f f); [discriminate C|congruence].
Qed.
Lemma channel_own f g d : In f allFormats -> In g allFormats -> d ++ f = g -> d = [].
Proof. intros F G E. apply (suffix_same f g d F G). symmetry. exact E. Qed.
Lemma channel_dest f g d u : In f allFormats -> In g allFormats -> d ++ f = u ++ g -> d = u.
Proof.
  intros F G E. apply app_eq_app in E. destruct E as (l & [[-> E]|[-> E]]).
  - rewrite (suffix_same f g l F G E), app_nil_r. reflexivity.
  - rewrite (suffix_same g f l G F E), app_nil_r. reflexivity.
Qed.
Lemma subscribed_spec u d f : In f allFormats -> subscribed u (d ++ f) = if str_eq_dec d [] then true else if str_eq_dec d u then true else false.
Proof.
  intros F. apply eq_true_iff_eq. unfold subscribed. rewrite existsb_exists. split.
  - intros (g & G & E). destruct (str_eq_dec (d ++ f) g) as [Q|_]; [rewrite (channel_own _ _ _ F G Q); reflexivity|].
    destruct (str_eq_dec (d ++ f) (u ++ g)) as [Q|_]; [|discriminate E]. rewrite (channel_dest _ _ _ _ F G Q). destruct (str_eq_dec u []); [reflexivity|]. destruct (str_eq_dec u u); congruence.
  - intros E. exists f. split; [exact F|]. destruct (str_eq_dec d []) as [->|_]; [change ([] ++ f) with f; destruct (str_eq_dec f f); congruence|].
    destruct (str_eq_dec d u) as [->|_]; [|discriminate E]. destruct (str_eq_dec (u ++ f) f); [reflexivity|]. destruct (str_eq_dec (u ++ f) (u ++ f)); congruence.
Qed.
Lemma formats_nulFree : forallb (fun f => if in_dec Z.eq_dec 0 f then false else true) allFormats = true.
Proof. vm_compute. reflexivity. Qed.
Lemma format_in c f : format c = Some f -> In f allFormats /\ nulFree f.
Proof.
  intros E. assert (I : In f allFormats).
  { destruct c; cbn [format] in E; try discriminate E; injection E as <-; unfold allFormats; cbn [In]; tauto. }
  split; [exact I|]. pose proof formats_nulFree as C. rewrite forallb_forall in C. specialize (C f I). intros J. destruct (in_dec Z.eq_dec 0 f); [discriminate C|contradiction].
Qed.
Lemma nulFree_app a b : nulFree a -> nulFree b -> nulFree (a ++ b).
Proof. intros A B I. apply in_app_or in I. destruct I; [apply A|apply B]; assumption. Qed.
Definition heardAt (u d : str) : bool := if str_eq_dec d [] then true else if str_eq_dec d u then true else false.
Lemma hears_spec u d p : nulFree d -> format (p_what p) <> None -> hears u (mkPub d p) = heardAt u d.
Proof.
  intros N F. unfold hears. cbn [d_part d_dest]. destruct (format (p_what p)) as [f|] eqn:E; [|congruence]. destruct (format_in _ _ E) as [I J].
  rewrite cstr_nulFree by (apply nulFree_app; assumption). apply subscribed_spec, I.
Qed.

(** ** Values *)
Definition goodContent (c : content) : Prop := format c <> None /\ forall n s u, isValue (mkPart c n s u) = true.
Lemma map_cstr l : (forall s, In s l -> nulFree s) -> map cstr l = l.
Proof. intros F. induction l as [|x l IH]; [reflexivity|]. cbn. rewrite cstr_nulFree, IH; [reflexivity| |]; intros; apply F; cbn; auto. Qed.
Lemma allKnown_filled {T} (a : arr T) : filled a -> allKnown a = true.
Proof. intros F. unfold allKnown. rewrite F. induction (a_cont a); [reflexivity|assumption]. Qed.
Lemma knownArr_filled {T} (a : arr T) : filled a -> knownArr (a_cont a) = a.
Proof. intros F. destruct a as [k c]. unfold filled in F. cbn in *. subst k. reflexivity. Qed.
Lemma toBool_b2z l : map toBool (map Z.b2z l) = l.
Proof. induction l as [|b l IH]; [reflexivity|]. cbn [map]. rewrite IH. destruct b; reflexivity. Qed.
Lemma value_wire v : sendable v -> exists c, constructPlexilValueMsg v = Msg c /\ goodContent c /\ getPlexilMsgValue c = asReceived v.
Proof.
  assert (G : forall c, format c <> None -> (forall n s u, isValue (mkPart c n s u) = true) -> goodContent c) by (intros; split; assumption).
  destruct v; cbn [sendable]; intros S; try contradiction; cbn [constructPlexilValueMsg]; unfold ofArray;
    try (eexists; split; [reflexivity|]; split; [apply G; [discriminate|reflexivity]|]; cbn; try reflexivity).
  - destruct b; reflexivity.
  - rewrite cstr_nulFree by exact S. reflexivity.
  - rewrite (allKnown_filled _ S). eexists; split; [reflexivity|]; split; [apply G; [discriminate|reflexivity]|]. cbn [getPlexilMsgValue asReceived]. rewrite toBool_b2z, (knownArr_filled _ S). reflexivity.
  - rewrite (allKnown_filled _ S). eexists; split; [reflexivity|]; split; [apply G; [discriminate|reflexivity]|]. cbn [getPlexilMsgValue asReceived]. rewrite (knownArr_filled _ S). reflexivity.
  - rewrite (allKnown_filled _ S). eexists; split; [reflexivity|]; split; [apply G; [discriminate|reflexivity]|]. cbn [getPlexilMsgValue asReceived]. rewrite (knownArr_filled _ S). reflexivity.
  - destruct S as [S F]. rewrite (allKnown_filled _ S). eexists; split; [reflexivity|]; split; [apply G; [discriminate|reflexivity]|]. cbn [getPlexilMsgValue asReceived]. rewrite (map_cstr _ F), (knownArr_filled _ S). reflexivity.
Qed.
Lemma values_wire a : (forall v, In v a -> sendable v) ->
  exists cs, buildAll (map constructPlexilValueMsg a) = Some cs /\ Forall goodContent cs /\ length cs = length a /\ map getPlexilMsgValue cs = map asReceived a.
Proof.
  induction a as [|v a IH]; intros S; [exists []; repeat split; constructor|].
  destruct (value_wire v (S v (or_introl eq_refl))) as (c & E & G & D). destruct (IH (fun x I => S x (or_intror I))) as (cs & E2 & G2 & L & D2).
  exists (c :: cs). cbn [map buildAll]. rewrite E, E2. split; [reflexivity|]. split; [constructor; assumption|]. cbn [length map]. split; [f_equal; exact L|]. rewrite D, D2. reflexivity.
Qed.
Lemma pair_wire x : sendablePair x -> exists c, constructPlexilPairMsg x = Msg c /\ goodContent c /\ pairOf c = x.
Proof.
  destruct x as [n v]. unfold sendablePair. cbn [fst snd]. intros [N S]. unfold constructPlexilPairMsg. cbn [fst snd]. rewrite (cstr_nulFree n N).
  destruct v; try contradiction; (eexists; split; [reflexivity|]; split; [split; [discriminate|reflexivity]|]); cbn [pairOf]; try reflexivity.
  - destruct b; reflexivity.
  - rewrite cstr_nulFree by exact S. reflexivity.
Qed.

(** ** Sending when the network works *)
Lemma trailers_map uid s i cs : map p_what (trailers uid s i cs) = cs.
Proof. revert i. induction cs as [|c cs IH]; intros i; [reflexivity|]. cbn. rewrite IH. reflexivity. Qed.
Lemma trailers_length uid s i cs : length (trailers uid s i cs) = length cs.
Proof. rewrite <- (map_length p_what), trailers_map. reflexivity. Qed.
Lemma trailers_in uid s i cs p : In p (trailers uid s i cs) -> Forall goodContent cs -> idOf p = (cstr uid, s) /\ isValue p = true /\ format (p_what p) <> None /\ 0 <= p_count p.
Proof.
  revert i. induction cs as [|c cs IH]; intros i; [intros []|]. cbn [trailers In]. intros [<-|I] F; inversion F; subst; [|apply (IH _ I); assumption].
  split; [reflexivity|]. split; [apply H1|]. cbn [p_what p_count]. split; [apply H1|]. apply Z.mod_pos_bound. reflexivity.
Qed.
Lemma publishAll_ok i l : Forall (fun x => format (p_what (d_part x)) <> None) l -> publishAll working i l = (l, Some true).
Proof.
  revert i. induction l as [|x l IH]; intros i F; [reflexivity|]. inversion F; subst. cbn [publishAll]. unfold publish.
  destruct (format (p_what (d_part x))); [|congruence]. cbn [working]. rewrite IH by assumption. reflexivity.
Qed.
Lemma trailers_pub uid s i cs d : Forall goodContent cs -> Forall (fun x => format (p_what (d_part x)) <> None) (map (mkPub d) (trailers uid s i cs)).
Proof. intros G. apply Forall_forall. intros x I. apply in_map_iff in I. destruct I as (p & <- & I). apply (trailers_in _ _ _ _ _ I G). Qed.
Lemma sendParameters_ok net uid s d a cs : buildAll (map constructPlexilValueMsg a) = Some cs ->
  sendParameters net uid s d a = publishAll net 1 (map (mkPub d) (trailers uid s 0 cs)).
Proof. intros B. unfold sendParameters. rewrite B. reflexivity. Qed.
Lemma sendPairs_ok uid s l : (forall x, In x l -> sendablePair x) ->
  exists cs, (forall net i, sendPairs net uid s i l = publishAll net (S i) (map (mkPub []) (trailers uid s (Z.of_nat i) cs))) /\ Forall goodContent cs /\ length cs = length l /\ map pairOf cs = l.
Proof.
  induction l as [|x l IH]; intros P; [exists []; repeat split; constructor|].
  destruct (pair_wire x (P x (or_introl eq_refl))) as (c & E & G & D). destruct (IH (fun y I => P y (or_intror I))) as (cs & E2 & G2 & L & D2).
  exists (c :: cs). split; [|split; [constructor; assumption|cbn [length map]; split; [f_equal; exact L|rewrite D, D2; reflexivity]]].
  intros net i. cbn [sendPairs trailers map publishAll]. rewrite E, E2. replace (Z.of_nat i + 1) with (Z.of_nat (S i)) by lia. reflexivity.
Qed.
Definition restDest (k : scall) : str := match k with SReturn _ u _ => u | _ => [] end.
Lemma u16_small n : 0 <= n < 65536 -> u16 n = n.
Proof. apply Z.mod_small. Qed.
Lemma readVals (f : content -> val) l : map (fun q => f (p_what q)) l = map f (map p_what l).
Proof. rewrite map_map. reflexivity. Qed.
Lemma rest_ok uid s k : callOk k ->
  exists cs, (forall net, sendRest net uid s k = publishAll net 1 (map (mkPub (restDest k)) (trailers uid s 0 cs)))
    /\ Forall goodContent cs /\ Z.of_nat (length cs) = leaderCount k
    /\ forall n u, readMsg (mkPart (leaderOf k) n s u :: trailers uid s 0 cs) = (s, meaning k).
Proof.
  destruct k as [t|n d a|n d a|q u v|n a|n l]; cbn [callOk sendRest restDest leaderCount leaderOf meaning]; intros O.
  - exists []. split; [reflexivity|]. split; [constructor|]. split; [reflexivity|]. intros. cbn. rewrite cstr_nulFree by exact O. reflexivity.
  - destruct O as (N & _ & S & L). destruct (values_wire a S) as (cs & B & G & LE & D). exists cs. split; [intros net; apply sendParameters_ok; assumption|]. split; [exact G|].
    split; [rewrite u16_small by lia; f_equal; exact LE|]. intros. cbn [readMsg p_serial p_what]. rewrite readVals, trailers_map, D, cstr_nulFree by exact N. reflexivity.
  - destruct O as (N & _ & S & L). destruct (values_wire a S) as (cs & B & G & LE & D). exists cs. split; [intros net; apply sendParameters_ok; assumption|]. split; [exact G|].
    split; [rewrite u16_small by lia; f_equal; exact LE|]. intros. cbn [readMsg p_serial p_what]. rewrite readVals, trailers_map, D, cstr_nulFree by exact N. reflexivity.
  - destruct O as (N & S). destruct (values_wire [v]) as (cs & B & G & LE & D); [intros x [<-|[]]; exact S|]. exists cs. split; [intros net; apply sendParameters_ok; assumption|]. split; [exact G|].
    split; [rewrite LE; reflexivity|]. intros. cbn [readMsg p_serial p_what]. rewrite readVals, trailers_map, D. reflexivity.
  - destruct O as (N & S & L). destruct (values_wire a S) as (cs & B & G & LE & D). exists cs. split; [intros net; apply sendParameters_ok; assumption|]. split; [exact G|].
    split; [rewrite u16_small by lia; f_equal; exact LE|]. intros. cbn [readMsg p_serial p_what]. rewrite readVals, trailers_map, D, cstr_nulFree by exact N. reflexivity.
  - destruct O as (N & S & L). destruct (sendPairs_ok uid s l S) as (cs & B & G & LE & D). exists cs. split; [intros net; exact (B net 0%nat)|]. split; [exact G|].
    split; [rewrite u16_small by lia; f_equal; exact LE|]. intros. cbn [readMsg p_serial p_what]. rewrite <- (map_map p_what pairOf), trailers_map, D, cstr_nulFree by exact N. reflexivity.
Qed.
Lemma leader_format k : format (leaderOf k) <> None.
Proof. destruct k; discriminate. Qed.
Definition leaderPart (uid : str) (s : Z) (k : scall) : part := {| p_what := leaderOf k; p_count := leaderCount k; p_serial := s; p_uid := cstr uid |}.
Lemma send_ok f k : callOk k -> exists cs,
  send f working k = (mkPub (leaderDest k) (leaderPart (f_uid f) (f_next f) k) :: map (mkPub (restDest k)) (trailers (f_uid f) (f_next f) 0 cs),
                      Gives (match k with SMessage _ => 1 | _ => f_next f end), {| f_uid := f_uid f; f_next := u32 (f_next f + 1) |})
  /\ Forall goodContent cs /\ Z.of_nat (length cs) = leaderCount k
  /\ readMsg (leaderPart (f_uid f) (f_next f) k :: trailers (f_uid f) (f_next f) 0 cs) = (f_next f, meaning k).
Proof.
  intros O. destruct (rest_ok (f_uid f) (f_next f) k O) as (cs & E & G & L & R). exists cs. split; [|split; [exact G|split; [exact L|apply R]]].
  unfold send. cbn zeta. unfold publish. cbn [d_part p_what]. destruct (format (leaderOf k)) eqn:F; [|destruct (leader_format k F)]. cbn [working].
  rewrite E, publishAll_ok by (apply trailers_pub, G). unfold leaderPart. destruct k; reflexivity.
Qed.

(** ** What one call shows to a receiver *)
Definition seenBy (u : str) (l : list pub) : list part := map d_part (filter (hears u) l).
Lemma seenBy_app u a b : seenBy u (a ++ b) = seenBy u a ++ seenBy u b.
Proof. unfold seenBy. rewrite filter_app, map_app. reflexivity. Qed.
Lemma seenBy_dest u d l : nulFree d -> (forall p, In p l -> format (p_what p) <> None) -> seenBy u (map (mkPub d) l) = if heardAt u d then l else [].
Proof.
  intros N F. unfold seenBy. induction l as [|p l IH]; [destruct (heardAt u d); reflexivity|]. cbn [map filter].
  rewrite (hears_spec u d p N (F p (or_introl eq_refl))). destruct (heardAt u d); cbn [map d_part]; rewrite (IH (fun q I => F q (or_intror I))); reflexivity.
Qed.
Lemma destOk k : callOk k -> nulFree (leaderDest k) /\ nulFree (restDest k).
Proof. destruct k; cbn; intros O; (split; [try tauto|try tauto]); intros []. Qed.
Lemma leaderValue uid s k : isValue (leaderPart uid s k) = false.
Proof. destruct k; reflexivity. Qed.
Lemma leaderNeeds uid s k (cs : list content) : Z.of_nat (length cs) = leaderCount k -> needs (leaderPart uid s k) = length cs.
Proof. intros L. assert (P : p_count (leaderPart uid s k) = Z.of_nat (length cs)) by (rewrite L; reflexivity). unfold needs. rewrite P, Nat2Z.id. destruct k; try reflexivity. cbn in *. lia. Qed.
Lemma leaderFor u uid s k : callOk k -> isFor u (leaderPart uid s k) && heardAt u (leaderDest k) = addressed u k.
Proof.
  intros O. destruct k as [t|n d a|n d a|q x v|n a|n l]; cbn [leaderPart isFor p_what leaderOf leaderDest addressed]; unfold isFor; cbn [p_what leaderPart leaderOf]; unfold heardAt;
    try (destruct (str_eq_dec d []); [reflexivity|]; destruct (str_eq_dec d u); reflexivity); try reflexivity.
  destruct O as [N _]. rewrite (cstr_nulFree x N). destruct (str_eq_dec x u) as [->|D]; [|reflexivity]. destruct (str_eq_dec u []); [reflexivity|]. destruct (str_eq_dec u u); [reflexivity|congruence].
Qed.

(** A block of parts of one message. *)
Lemma expected_app u subs seen a b : expected u subs seen (map EPart a ++ b) = expected u subs seen (map EPart a) ++ expected u subs (seen ++ a) b.
Proof.
  revert seen. induction a as [|p a IH]; intros seen; [cbn; rewrite app_nil_r; reflexivity|]. cbn [map app expected]. rewrite IH, !app_assoc.
  rewrite <- (app_assoc seen [p] a). reflexivity.
Qed.
Lemma block_prefix u subs k seen a b : (forall p, In p (a ++ b) -> idOf p = k) -> ofKey k seen = [] -> orderly (a ++ b) -> b <> [] ->
  expected u subs (seen ++ a) (map EPart b) = if complete u (a ++ b) then outFor u subs (a ++ b) else [].
Proof.
  revert a. induction b as [|p b IH]; intros a KE S O NE; [congruence|]. cbn [map expected].
  assert (M : filter (sameMsg p) ((seen ++ a) ++ [p]) = a ++ [p]).
  { rewrite ofKey_filter, (KE p) by (apply in_or_app; right; left; reflexivity). rewrite <- app_assoc, ofKey_app, S. cbn [app].
    assert (A : forall l, (forall q, In q l -> idOf q = k) -> ofKey k l = l).
    { intros l H. unfold ofKey. induction l as [|q l IHl]; [reflexivity|]. cbn. rewrite (H q (or_introl eq_refl)). destruct (msgId_dec k k); [|congruence]. rewrite IHl; [reflexivity|]. intros; apply H; right; assumption. }
    apply A. intros q I. apply KE. apply in_app_or in I. apply in_or_app. destruct I as [I|[<-|[]]]; [left; exact I|right; left; reflexivity]. }
  rewrite M. fold (outFor u subs (a ++ [p])).
  destruct b as [|q b].
  - cbn [map expected]. rewrite app_nil_r. unfold outFor. destruct (complete u (a ++ [p])); reflexivity.
  - rewrite <- (app_assoc seen a [p]). rewrite (IH (a ++ [p])); [|intros x I; apply KE; rewrite <- app_assoc in I; exact I|exact S|rewrite <- app_assoc; exact O|discriminate].
    rewrite <- (app_assoc a [p]). cbn [app].
    assert (C : complete u (a ++ [p]) = false).
    { destruct a as [|x a].
      - cbn [app complete]. destruct (isValue p) eqn:V; [reflexivity|]. cbn [app] in O. destruct O as (_ & _ & B). specialize (B V). cbn [length] in *.
        destruct (needs p); [lia|]. cbn [length Nat.eqb]. rewrite andb_false_r. reflexivity.
      - cbn [app complete]. destruct (isValue x) eqn:V; [reflexivity|]. cbn [app] in O. destruct O as (_ & _ & B). specialize (B V). rewrite app_length in *. cbn [length] in *.
        destruct (Nat.eqb_spec (length a + 1) (needs x)); [lia|]. rewrite andb_false_r. reflexivity. }
    unfold outFor at 1. rewrite C. reflexivity.
Qed.
Lemma block_all u subs k seen b : (forall p, In p b -> idOf p = k) -> ofKey k seen = [] -> orderly b ->
  expected u subs seen (map EPart b) = outFor u subs b.
Proof.
  intros KE S O. destruct b as [|p b]; [reflexivity|]. pose proof (block_prefix u subs k seen [] (p :: b) KE S O) as B. rewrite app_nil_r in B. cbn [app] in B.
  rewrite B by discriminate. unfold outFor. destruct (complete u (p :: b)); reflexivity.
Qed.
Lemma call_seen u f k cs : callOk k -> Forall goodContent cs -> Z.of_nat (length cs) = leaderCount k ->
  let lead := leaderPart (f_uid f) (f_next f) k in
  let tr := trailers (f_uid f) (f_next f) 0 cs in
  let ps := seenBy u (mkPub (leaderDest k) lead :: map (mkPub (restDest k)) tr) in
  (forall p, In p ps -> idOf p = (cstr (f_uid f), f_next f)) /\ orderly ps
  /\ complete u ps = addressed u k /\ (addressed u k = true -> ps = lead :: tr).
Proof.
  intros O G L lead tr ps. destruct (destOk k O) as [N1 N2].
  assert (T : forall p, In p tr -> idOf p = (cstr (f_uid f), f_next f) /\ isValue p = true /\ format (p_what p) <> None /\ 0 <= p_count p) by (intros p I; apply (trailers_in _ _ _ _ _ I G)).
  assert (E : ps = (if heardAt u (leaderDest k) then [lead] else []) ++ (if heardAt u (restDest k) then tr else [])).
  { unfold ps. change (mkPub (leaderDest k) lead :: map (mkPub (restDest k)) tr) with (map (mkPub (leaderDest k)) [lead] ++ map (mkPub (restDest k)) tr).
    rewrite seenBy_app, !seenBy_dest; [reflexivity|exact N2|intros p I; apply T, I|exact N1|]. intros p [<-|[]]. apply leader_format. }
  assert (NE : needs lead = length tr) by (unfold tr; rewrite trailers_length; apply leaderNeeds, L).
  assert (C0 : 0 <= p_count lead) by (cbn; lia).
  assert (D : heardAt u (leaderDest k) = true -> heardAt u (restDest k) = true) by (destruct k; cbn [leaderDest restDest]; try reflexivity; intros H; exact H).
  pose proof (leaderFor u (f_uid f) (f_next f) k O) as A. fold lead in A.
  assert (V : isValue lead = false) by apply leaderValue.
  split; [|split; [|split]].
  - intros p I. rewrite E in I. apply in_app_or in I. destruct I as [I|I].
    + destruct (heardAt u (leaderDest k)); [destruct I as [<-|[]]; reflexivity|destruct I].
    + destruct (heardAt u (restDest k)); [apply T, I|destruct I].
  - rewrite E. destruct (heardAt u (leaderDest k)).
    + rewrite D by reflexivity. cbn [app orderly]. split; [exact C0|]. split; [intros q I; apply T, I|]. intros _. rewrite NE. apply Nat.le_refl.
    + cbn [app]. destruct (heardAt u (restDest k)); [|exact Logic.I]. destruct tr as [|p r]; [exact Logic.I|]. cbn [orderly]. split; [apply T; left; reflexivity|].
      split; [intros q I; apply T; right; exact I|]. intros W. destruct (T p (or_introl eq_refl)) as (_ & W' & _). congruence.
  - rewrite E, <- A. destruct (heardAt u (leaderDest k)).
    + rewrite D by reflexivity. cbn [app complete]. rewrite V, NE, Nat.eqb_refl, !andb_true_r. reflexivity.
    + rewrite andb_false_r. cbn [app]. destruct (heardAt u (restDest k)); [|reflexivity]. destruct tr as [|p r]; [reflexivity|]. cbn [complete]. destruct (T p (or_introl eq_refl)) as (_ & W' & _). rewrite W'. reflexivity.
  - intros AD. rewrite E. rewrite AD in A. apply andb_true_iff in A. destruct A as [_ A]. rewrite A, D by exact A. reflexivity.
Qed.

Lemma ofKey_in k l p : In p (ofKey k l) <-> In p l /\ idOf p = k.
Proof. unfold ofKey. rewrite filter_In. destruct (msgId_dec k (idOf p)); split; intros [A B]; split; congruence. Qed.
Lemma ofKey_nil k l : (forall p, In p l -> idOf p <> k) -> ofKey k l = [].
Proof. intros H. destruct (ofKey k l) as [|p r] eqn:E; [reflexivity|]. assert (I : In p (ofKey k l)) by (rewrite E; left; reflexivity). apply ofKey_in in I. destruct I as [I K]. destruct (H p I K). Qed.
Lemma ofKey_same k l : (forall p, In p l -> idOf p = k) -> ofKey k l = l.
Proof. intros H. unfold ofKey. induction l as [|q l IH]; [reflexivity|]. cbn. rewrite (H q (or_introl eq_refl)). destruct (msgId_dec k k); [|congruence]. rewrite IH; [reflexivity|]. intros; apply H; right; assumption. Qed.
Lemma calls_seen u n calls : Forall callOk calls -> forall f, 0 <= f_next f -> f_next f + Z.of_nat (length calls) < 4294967296 ->
  let ps := seenBy u (fst (fst (sendAll f (map (pair working) calls)))) in
  (forall p, In p ps -> p_uid p = cstr (f_uid f) /\ f_next f <= p_serial p)
  /\ (forall k, orderly (ofKey k ps))
  /\ forall seen, (forall q, In q seen -> p_uid q = cstr (f_uid f) -> p_serial q < f_next f) ->
       map (fun d => readMsg (snd d)) (expected u [(n, None)] seen (map EPart ps)) = inbox u (f_next f) calls
       /\ Forall (fun d => fst d = n) (expected u [(n, None)] seen (map EPart ps)).
Proof.
  induction calls as [|k calls IH]; intros C f P B; cbn [map sendAll].
  { cbn. split; [intros p []|]. split; [intros; exact Logic.I|]. intros seen _. split; [reflexivity|constructor]. }
  inversion C as [|k' l' OK C']; subst k' l'. destruct (send_ok f k OK) as (cs & E & G & L & R). rewrite E. clear E.
  set (f1 := {| f_uid := f_uid f; f_next := u32 (f_next f + 1) |}) in *.
  cbn [length] in B. assert (NX : f_next f1 = f_next f + 1) by (cbn; apply Z.mod_small; lia).
  destruct (IH C' f1) as (K1 & O1 & X1); [lia|lia|]. clear IH.
  destruct (sendAll f1 (map (pair working) calls)) as [[o2 es] f2]. cbn [fst] in *. change (f_uid f1) with (f_uid f) in *. rewrite NX in *.
  assert (CS := call_seen u f k cs OK G L). cbn zeta in CS.
  set (blk := mkPub (leaderDest k) (leaderPart (f_uid f) (f_next f) k) :: map (mkPub (restDest k)) (trailers (f_uid f) (f_next f) 0 cs)) in *.
  destruct CS as (KB & OB & CB & FB). cbn zeta. change (fst (fst (blk ++ o2, _ :: es, f2))) with (blk ++ o2). rewrite seenBy_app.
  set (b := seenBy u blk) in *. set (r := seenBy u o2) in *. clearbody b r.
  split; [|split].
  - intros p I. apply in_app_or in I. destruct I as [I|I]; [|destruct (K1 p I); split; [assumption|lia]]. specialize (KB p I). unfold idOf in KB. split; [congruence|]. assert (p_serial p = f_next f) by congruence. lia.
  - intros q. rewrite ofKey_app. destruct (msgId_dec q (cstr (f_uid f), f_next f)) as [->|D].
    + rewrite (ofKey_nil _ r); [rewrite app_nil_r, (ofKey_same _ b KB); exact OB|]. intros p I E. destruct (K1 p I) as [_ S]. unfold idOf in E. assert (p_serial p = f_next f) by congruence. lia.
    + rewrite (ofKey_nil _ b); [apply O1|]. intros p I E. apply D. rewrite <- E. apply KB, I.
  - intros seen S. rewrite map_app, expected_app.
    assert (SK : ofKey (cstr (f_uid f), f_next f) seen = []).
    { apply ofKey_nil. intros p I E. unfold idOf in E. specialize (S p I). assert (p_uid p = cstr (f_uid f)) by congruence. assert (p_serial p = f_next f) by congruence. specialize (S H). lia. }
    rewrite (block_all u _ _ seen b KB SK OB). destruct (X1 (seen ++ b)) as [X F].
    { intros q I U. apply in_app_or in I. destruct I as [I|I]; [specialize (S q I U); lia|]. specialize (KB q I). unfold idOf in KB. assert (p_serial q = f_next f) by congruence. lia. }
    rewrite map_app, X. cbn [inbox]. unfold outFor. rewrite CB. destruct (addressed u k).
    + assert (AU : forall t, audience [(n, None)] t = [n]) by reflexivity. rewrite AU. cbn [map app snd]. split; [rewrite (FB eq_refl), R; reflexivity|]. constructor; [reflexivity|exact F].
    + cbn [map app]. split; [reflexivity|exact F].
Qed.

(** ** Many senders *)
Lemma filter_filter {A} (f g : A -> bool) l : (forall x, f x = true -> g x = true) -> filter f (filter g l) = filter f l.
Proof.
  intros H. induction l as [|x l IH]; [reflexivity|]. cbn. destruct (g x) eqn:G; cbn; rewrite IH; [reflexivity|]. destruct (f x) eqn:F; [|reflexivity]. rewrite (H x F) in G. discriminate.
Qed.
Lemma sameMsg_sender p q : sameMsg p q = true -> p_uid q = p_uid p.
Proof. intros E. apply sameMsg_true in E. unfold idOf in E. congruence. Qed.
Lemma fromSender_true s p : fromSender s p = true <-> p_uid p = s.
Proof. unfold fromSender. destruct (str_eq_dec (p_uid p) s); split; congruence. Qed.
Lemma mine_sender s p l : p_uid p = s -> filter (sameMsg p) (filter (fromSender s) l) = filter (sameMsg p) l.
Proof. intros <-. apply filter_filter. intros x E. apply fromSender_true, sameMsg_sender, E. Qed.
Lemma outFor_sender u subs s ps : filter (sentBy s) (outFor u subs ps) = if (match ps with q :: _ => fromSender s q | [] => false end) then outFor u subs ps else [].
Proof.
  unfold outFor. destruct (complete u ps) eqn:C; [|cbn; destruct ps as [|q r]; [reflexivity|destruct (fromSender s q); reflexivity]].
  induction (audience subs _) as [|n l IH]; [destruct ps as [|q r]; [reflexivity|]; cbn; destruct (fromSender s q); reflexivity|].
  cbn [map filter]. change (sentBy s (n, ps)) with (match ps with q :: _ => fromSender s q | [] => false end).
  destruct (match ps with q :: _ => fromSender s q | [] => false end) eqn:F; rewrite IH; reflexivity.
Qed.
Lemma expected_sender u subs s l : forall seen, filter (sentBy s) (expected u subs seen (map EPart l)) = expected u subs (filter (fromSender s) seen) (map EPart (filter (fromSender s) l)).
Proof.
  induction l as [|p l IH]; intros seen; [reflexivity|]. cbn [map expected filter]. rewrite filter_app, IH. fold (outFor u subs (filter (sameMsg p) (seen ++ [p]))). rewrite outFor_sender.
  assert (H : match filter (sameMsg p) (seen ++ [p]) with q :: _ => fromSender s q | [] => false end = fromSender s p).
  { rewrite filter_app. cbn [filter]. assert (R : sameMsg p p = true) by (apply sameMsg_true; reflexivity). rewrite R.
    assert (A : forall q, In q (filter (sameMsg p) seen ++ [p]) -> p_uid q = p_uid p).
    { intros q I. apply in_app_or in I. destruct I as [I|[<-|[]]]; [|reflexivity]. apply filter_In in I. apply sameMsg_sender, I. }
    destruct (filter (sameMsg p) seen ++ [p]) as [|q r] eqn:E; [destruct (filter (sameMsg p) seen); discriminate E|]. unfold fromSender. rewrite (A q (or_introl eq_refl)). reflexivity. }
  rewrite H. rewrite (filter_app (fromSender s)). cbn [filter]. destruct (fromSender s p) eqn:F.
  - cbn [map expected]. fold (outFor u subs (filter (sameMsg p) (filter (fromSender s) seen ++ [p]))). f_equal. f_equal.
    rewrite !filter_app. cbn [filter]. f_equal. symmetry. apply mine_sender, fromSender_true, F.
  - rewrite app_nil_r. reflexivity.
Qed.
Lemma partsIn_map l : partsIn (map EPart l) = l.
Proof. induction l as [|p l IH]; [reflexivity|]. cbn. rewrite IH. reflexivity. Qed.
Lemma noUnsub_map l : noUnsub (map EPart l).
Proof. intros n I. apply in_map_iff in I. destruct I as (p & E & _). discriminate E. Qed.
