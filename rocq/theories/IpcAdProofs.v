(** Lemmas about the IPC adapter. *)
From Coq Require Import ZArith List Bool Arith Lia String.
From Verif Require Import ValueModel CacheModel CacheSpec CacheProofs UdpQueueModel UdpQueueSpec UdpQueueProofs LitModel LitSpec LitProofs IpcModel IpcSpec IpcProofs IpcAdModel IpcAdSpec.
Import ListNotations.
Open Scope Z_scope.

Global Arguments commandKey : simpl never.
Global Arguments paramKey : simpl never.
Lemma streqb_true a b : streqb a b = true <-> a = b.
Proof. unfold streqb. destruct (str_eq_dec a b); intuition congruence. Qed.
Lemma streqb_refl a : streqb a a = true.
Proof. apply streqb_true. reflexivity. Qed.
Lemma streqb_false a b : streqb a b = false <-> a <> b.
Proof. unfold streqb. destruct (str_eq_dec a b); intuition congruence. Qed.

(** ** Labels *)
Lemma numeral10_chars s n : numeral 10 s n -> Forall isDigit s /\ s <> [].
Proof.
  intros (ds & D & N & _). split.
  - clear N. induction D as [|c d p q [C L] D IH]; constructor; [|exact IH]. unfold isDigit. destruct C; lia.
  - intros ->. inversion D. congruence.
Qed.
Definition numeralChar (c : Z) : Prop := isDigit c \/ c = 45.
Lemma printInteger_chars z : exists c r, printInteger z = c :: r /\ numeralChar c /\ Forall isDigit r.
Proof.
  unfold printInteger. destruct (Z.ltb_spec z 0).
  - exists 45, (printNat (- z)). split; [reflexivity|]. split; [right; reflexivity|]. apply (numeral10_chars _ (- z)), printNat_numeral. lia.
  - destruct (printNat_numeral z H) as (A & _). destruct (numeral10_chars _ _ A) as [F N]. destruct (printNat z) as [|c r]; [congruence|].
    inversion F; subst. exists c, r. split; [reflexivity|]. split; [left|]; assumption.
Qed.
Lemma splitColon_app a b : ~ In 58 a -> splitColon (a ++ 58 :: b) = Some (a, b).
Proof.
  induction a as [|c a IH]; intros N; [reflexivity|]. cbn [app splitColon]. destruct (Z.eqb_spec c 58) as [->|]; [elim N; left; reflexivity|].
  rewrite IH by (intros I; apply N; right; exact I). reflexivity.
Qed.
Lemma splitColon_none s : ~ In 58 s -> splitColon s = None.
Proof.
  induction s as [|c a IH]; intros N; [reflexivity|]. cbn [splitColon]. destruct (Z.eqb_spec c 58) as [->|]; [elim N; left; reflexivity|].
  rewrite IH by (intros I; apply N; right; exact I). reflexivity.
Qed.
Lemma splitColon_some s a b : splitColon s = Some (a, b) -> s = a ++ 58 :: b /\ ~ In 58 a.
Proof.
  revert a. induction s as [|c s IH]; intros a; cbn [splitColon]; [discriminate|]. destruct (Z.eqb_spec c 58) as [->|N]; [intros E; injection E as <- <-; split; [reflexivity|auto]|].
  destruct (splitColon s) as [[x y]|]; [|discriminate]. intros E. injection E as <- <-. destruct (IH x eq_refl) as [-> I]. split; [reflexivity|]. intros [->|J]; [congruence|auto].
Qed.
Lemma digits_no58 r : Forall isDigit r -> ~ In 58 r.
Proof. intros F I. rewrite Forall_forall in F. apply F in I. unfold isDigit in I. lia. Qed.
Lemma splitLabel_ok z u : splitLabel (printInteger z ++ chars ":" ++ u) = Some (printInteger z, u).
Proof.
  destruct (printInteger_chars z) as (c & r & -> & _ & F). change (chars ":") with [58]. cbn [app splitLabel]. rewrite splitColon_app by (apply digits_no58, F). reflexivity.
Qed.
Lemma printInteger_decimal z : exists neg m, decimalText (printInteger z) neg m /\ 0 <= m /\ withSign neg m = z.
Proof.
  unfold printInteger. destruct (Z.ltb_spec z 0).
  - exists true, (- z). split; [|cbn; lia]. exists [], [45], (printNat (- z)). split; [constructor|]. split; [constructor|]. split; [apply printNat_numeral; lia|reflexivity].
  - exists false, z. split; [|cbn; lia]. exists [], [], (printNat z). split; [constructor|]. split; [constructor|]. split; [apply printNat_numeral; lia|reflexivity].
Qed.
Lemma printInteger_nulFree z : nulFree (printInteger z).
Proof.
  destruct (printInteger_chars z) as (c & r & -> & C & F). intros [->|I].
  - destruct C as [C|C]; [unfold isDigit in C; lia|lia].
  - rewrite Forall_forall in F. apply F in I. unfold isDigit in I. lia.
Qed.
Lemma atoi_print z : - 2147483648 <= z < 2147483648 -> atoiU32 (printInteger z) = u32 z.
Proof.
  intros B. destruct (printInteger_decimal z) as (neg & m & D & M & W). apply strto10_spec in D. unfold atoiU32. rewrite D.
  assert (L : longOf neg m = (z, false)) by (apply longOf_spec; [exact M|split; [symmetry; exact W|lia]]). rewrite L. reflexivity.
Qed.
Lemma asInt_range n : 0 <= n < 4294967296 -> - 2147483648 <= asInt n < 2147483648 /\ u32 (asInt n) = n.
Proof.
  intros B. unfold asInt, u32. destruct (Z.ltb_spec n 2147483648); [split; [lia|apply Z.mod_small; lia]|]. split; [lia|].
  rewrite <- (Z.mod_add _ 1) by lia. rewrite Z.mod_small; lia.
Qed.
Lemma label_parse n u : 0 <= n < 4294967296 -> parseLabel (cmdLabel n u) = Some (n, u).
Proof.
  intros B. destruct (asInt_range n B) as [R E]. unfold parseLabel, cmdLabel. rewrite splitLabel_ok, cstr_nulFree by apply printInteger_nulFree.
  rewrite atoi_print by exact R. rewrite E. reflexivity.
Qed.
Lemma label_inj n u m w : 0 <= n < 4294967296 -> 0 <= m < 4294967296 -> cmdLabel n u = cmdLabel m w -> n = m /\ u = w.
Proof. intros A B E. apply (f_equal parseLabel) in E. rewrite !label_parse in E by assumption. injection E as <- <-. auto. Qed.

(** ** Queues *)
Lemma qrun_one {V} (s : qmap V) o : qrun s [o] = qstep s o.
Proof. cbn. destruct (qstep s o). rewrite app_nil_r. reflexivity. Qed.
Lemma queueReturns_app a b : queueReturns (a ++ b) = queueReturns a ++ queueReturns b.
Proof. apply flat_map_app. Qed.
Lemma queueReturns_map l : queueReturns (map OQueue l) = l.
Proof. unfold queueReturns. induction l as [|x l IH]; cbn; [reflexivity|]. f_equal. exact IH. Qed.
(** A step that leaves the queues alone. *)
Definition noQueue (s : xad) (r : result_) : Prop := queueReturns (fst r) = [] /\ x_q (snd r) = x_q s.
Definition qStep (s : xad) (l : list (qop val)) (r : result_) : Prop := (queueReturns (fst r), x_q (snd r)) = qrun (x_q s) l.
Lemma qStep_nil s r : noQueue s r -> qStep s [] r.
Proof. intros [A B]. unfold qStep. rewrite A, B. reflexivity. Qed.
Lemma noQueue_stop s s' l : queueReturns l = [] -> x_q s' = x_q s -> noQueue s (stop l s').
Proof. intros A B. split; cbn [stop fst snd]; [|exact B]. rewrite queueReturns_app, A. reflexivity. Qed.
Lemma offer_q k v s : qStep s [QMsg k v] (offer k v s).
Proof.
  unfold qStep, offer. rewrite qrun_one. cbn [qstep]. destruct (addMessage (x_q s) k v) as [r q] eqn:E. cbn [fst snd setQ x_q]. rewrite queueReturns_map. reflexivity.
Qed.
Lemma qStep_seq s l1 l2 a s1 b s2 : qStep s l1 (a, s1) -> qStep s1 l2 (b, s2) -> qStep s (l1 ++ l2) (a ++ b, s2).
Proof.
  unfold qStep. cbn [fst snd]. intros A B. rewrite qrun_app, <- A, <- B, queueReturns_app. reflexivity.
Qed.
Lemma offerParams_q label vs : forall i s, qStep s (map (fun x => QMsg (paramKey label (fst x)) (snd x)) (numbered i vs)) (offerParams label i vs s).
Proof.
  induction vs as [|v vs IH]; intros i s; cbn [offerParams numbered map]; [reflexivity|].
  pose proof (offer_q (paramKey label i) v s) as A. destruct (offer (paramKey label i) v s) as [a s1]. pose proof (IH (S i) s1) as B. destruct (offerParams label (S i) vs s1) as [b s2].
  cbn [fst snd]. apply (qStep_seq s [_] _ a s1 b s2 A B).
Qed.
Lemma receiveOn_q k c s : qStep s [QRecip k c] (receiveOn k c s).
Proof.
  unfold qStep, receiveOn. rewrite qrun_one. cbn [qstep]. destruct (addRecipient (x_q s) k c) as [r q] eqn:E. cbn [fst snd setQ x_q]. rewrite queueReturns_app, queueReturns_map, app_nil_r. reflexivity.
Qed.
Ltac noq := first [apply noQueue_stop; reflexivity | split; reflexivity].
Ltac snd_ := match goal with |- context [send ?f ?n ?k] => destruct (send f n k) as [[?o ?e] ?f'] end.
Lemma execute_q net c n a s : qStep s (match asks n a with Some k => [QRecip k c] | None => [] end) (execute net c n a s).
Proof.
  unfold execute, asks.
  destruct (streqb n (chars "SendMessage")) eqn:E1.
  { apply streqb_true in E1. subst n. cbn [streqb]. change (streqb (chars "SendMessage") (chars "ReceiveMessage")) with false. change (streqb (chars "SendMessage") (chars "ReceiveCommand")) with false.
    change (streqb (chars "SendMessage") (chars "GetParameter")) with false. apply qStep_nil. unfold doSendMessage.
    destruct a as [|[] [|]]; try noq. snd_. destruct e; [destruct (z =? ERROR_SERIAL)|]; noq. }
  destruct (streqb n (chars "ReceiveMessage")) eqn:E2.
  { unfold doReceiveMessage. destruct a as [|[] [|]]; try (apply qStep_nil; noq). apply receiveOn_q. }
  destruct (streqb n (chars "ReceiveCommand")) eqn:E3.
  { unfold doReceiveCommand. destruct a as [|[] [|]]; try (apply qStep_nil; noq). apply receiveOn_q. }
  destruct (streqb n (chars "GetParameter")) eqn:E4.
  { unfold doGetParameter. destruct a as [|[] [|[] [|]]]; try (apply qStep_nil; noq); try apply receiveOn_q. destruct (0 <=? n0); [apply receiveOn_q|apply qStep_nil; noq]. }
  destruct (streqb n (chars "SendReturnValue")) eqn:E5.
  { apply qStep_nil. unfold doSendReturn. destruct a as [|[] [|? [|]]]; try noq. destruct (parseLabel s0) as [[? ?]|]; [|noq]. snd_. destruct e; [destruct (z0 =? ERROR_SERIAL)|]; noq. }
  destruct (streqb n (chars "UpdateLookup")) eqn:E6.
  { apply qStep_nil. unfold doUpdateLookup. destruct a as [|[] [|? ?]]; try noq. destruct (declared s0 (x_names s)); [|noq]. snd_. destruct e; noq. }
  apply qStep_nil. unfold doDefault. snd_. destruct e; [destruct (z =? ERROR_SERIAL)|]; noq.
Qed.
Lemma receive_q net ok ms s : qStep s (map (fun x => QMsg (fst x) (snd x)) (offers ms)) (receiveMessages net ok ms s).
Proof.
  destruct ms as [|p r]; [apply qStep_nil; noq|]. unfold receiveMessages, offers, readMsg. destruct (p_what p) eqn:W; cbn beta iota zeta;
    try (apply qStep_nil; noq); try (apply qStep_nil; unfold gotPlanFile, gotPlanText; destruct ok; [cbn|]; noq).
  - unfold gotCommand. cbn [map fst snd]. pose proof (offer_q (commandKey name) (VStr (cmdLabel (p_serial p) (p_uid p))) s) as A. destruct (offer _ _ s) as [a s1].
    pose proof (offerParams_q (cmdLabel (p_serial p) (p_uid p)) (map valOf r) 0 s1) as B. destruct (offerParams _ _ _ s1) as [b s2]. rewrite map_map. cbn [fst snd].
    exact (qStep_seq s [_] _ a s1 b s2 A B).
  - apply offer_q.
  - apply qStep_nil. unfold gotLookup. destruct (lookupReply _ _); [|noq]. snd_. destruct e; noq.
  - apply qStep_nil. unfold gotTelemetry. destruct name; [noq|]. destruct r; [noq|]. destruct (p_count p =? 0); [noq|]. destruct (_ =? _); [|noq]. destruct (state_eq _ _); noq.
  - apply qStep_nil. unfold gotReturn. destruct (request =? x_lserial s); [destruct r; [noq|]; destruct (p_count p =? 1); noq|].
    destruct (pendFind request (x_pend s)); [|noq]. destruct r; [noq|]. destruct (p_count p =? 1); [|noq]. destruct (_ =? _); [|noq]. destruct (valOf _); noq.
Qed.
Lemma step_q o s r : xstep o s = Some r -> qStep s (queueOps [o]) r.
Proof.
  intros H. unfold queueOps. cbn [flat_map]. rewrite app_nil_r.
  destruct o; destruct (x_phase s) eqn:P; cbn [xstep] in H; rewrite ?P in H; try discriminate H; try (injection H as <-); try (apply qStep_nil; noq).
  - apply execute_q.
  - apply qStep_nil. unfold lookupNow. destruct (extFind _ _); [noq|]. snd_. destruct e; noq.
  - destruct (x_sem s); [discriminate|]. injection H as <-. apply qStep_nil. noq.
  - apply qStep_nil. unfold plannerUpdate. destruct pairs; [noq|]. snd_. destruct e; [destruct (z =? ERROR_SERIAL)|]; noq.
  - apply receive_q.
  - apply receive_q.
  - destruct (needsLookupMutex ms s); [discriminate|]. injection H as <-. apply receive_q.
  - apply receive_q.
Qed.
Lemma queueOps_cons o l : queueOps (o :: l) = queueOps [o] ++ queueOps l.
Proof. unfold queueOps. cbn [flat_map]. rewrite app_nil_r. reflexivity. Qed.
Lemma run_q l : forall s o s', xrun s l = Some (o, s') -> qStep s (queueOps l) (o, s').
Proof.
  induction l as [|x l IH]; intros s o s'; cbn [xrun].
  - intros E. injection E as <- <-. reflexivity.
  - destruct (xstep x s) as [[a s1]|] eqn:X; [|discriminate]. destruct (xrun s1 l) as [[b s2]|] eqn:Y; [|discriminate]. intros E. injection E as <- <-.
    rewrite queueOps_cons. eapply qStep_seq; [apply step_q, X|apply IH, Y].
Qed.
(** ** Which queue *)
Lemma reserved_command n : reserved (commandKey n) = true.
Proof. reflexivity. Qed.
Lemma reserved_param l i : reserved (paramKey l i) = true.
Proof. reflexivity. Qed.
Lemma plain_cons o h : plainNames (o :: h) -> plainNames [o] /\ plainNames h.
Proof.
  unfold plainNames, messages, commands. cbn [flat_map]. rewrite !app_nil_r, !map_app. intros [A B]. split; (split; [intros n m I; apply (A n m)|intros c m I; apply (B c m)]); try (apply in_or_app; auto).
Qed.
Lemma recips1 k o : plainNames [o] -> reserved k = true ->
  recipsOf k (queueOps [o]) = match o with XExec _ c n a => if negb (streqb n (chars "ReceiveMessage")) then match asks n a with Some k' => if str_eq_dec k k' then [c] else [] | None => [] end else [] | _ => [] end.
Proof.
  intros [_ P] R. unfold queueOps. cbn [flat_map]. rewrite app_nil_r. destruct o; try reflexivity.
  - destruct (streqb name (chars "ReceiveMessage")) eqn:E; cbn [negb].
    + apply streqb_true in E. subst name. unfold asks. rewrite streqb_refl. destruct args as [|[] [|]]; try reflexivity. cbn [recipsOf]. destruct (str_eq_dec k s) as [->|]; [|reflexivity].
      assert (X : reserved s = false) by (apply (P c); left; reflexivity). congruence.
    + destruct (asks name args); [|reflexivity]. cbn [recipsOf]. reflexivity.
  - induction (offers ms) as [|x l IH]; cbn [map recipsOf]; [reflexivity|exact IH].
Qed.
Lemma recips_flat k h (f : xop -> list cmd) : reserved k = true -> plainNames h -> (forall o, In o h -> plainNames [o] -> recipsOf k (queueOps [o]) = f o) -> recipsOf k (queueOps h) = flat_map f h.
Proof.
  intros R. induction h as [|o h IH]; intros P H; [reflexivity|]. destruct (plain_cons _ _ P) as [A B]. rewrite queueOps_cons, recipsOf_app. cbn [flat_map]. rewrite (H o); [|left; reflexivity|exact A].
  f_equal. apply IH; [exact B|]. intros x I. apply H. right. exact I.
Qed.
Lemma recips_command name h : plainNames h -> recipsOf (commandKey name) (queueOps h) = receivers name h.
Proof.
  intros P. apply recips_flat; [apply reserved_command|exact P|]. intros o _ A. rewrite recips1 by (auto using reserved_command).
  destruct o as [net c n a| | | | | | |]; try reflexivity. unfold asks. destruct (streqb n (chars "ReceiveMessage")) eqn:E1; cbn [negb].
  { apply streqb_true in E1. subst n. destruct a as [|[] [|]]; try reflexivity. }
  destruct (streqb n (chars "ReceiveCommand")) eqn:E2.
  { destruct a as [|[] [|]]; try reflexivity. cbn [andb]. destruct (str_eq_dec (commandKey name) (commandKey s)) as [E|E].
    - apply commandKey_inj in E. subst. rewrite streqb_refl. reflexivity.
    - assert (X : streqb s name = false) by (apply streqb_false; congruence). rewrite X. reflexivity. }
  destruct (streqb n (chars "GetParameter")) eqn:E3.
  { apply streqb_true in E3. subst n. destruct a as [|[] [|[] [|]]]; try reflexivity.
    destruct (0 <=? n); [|reflexivity]. destruct (str_eq_dec (commandKey name) (paramKey s (Z.to_nat n))) as [E|E]; [destruct (command_param _ _ _ E)|reflexivity]. }
  destruct a as [|[] [|]]; reflexivity.
Qed.
Lemma recips_param label i h : plainNames h -> recipsOf (paramKey label i) (queueOps h) = askers label i h.
Proof.
  intros P. apply recips_flat; [apply reserved_param|exact P|]. intros o _ A. rewrite recips1 by (auto using reserved_param).
  destruct o as [net c n a| | | | | | |]; try reflexivity. unfold asks. destruct (streqb n (chars "ReceiveMessage")) eqn:E1; cbn [negb].
  { apply streqb_true in E1. subst n. destruct a as [|[] [|[] [|]]]; try reflexivity. }
  destruct (streqb n (chars "ReceiveCommand")) eqn:E2.
  { apply streqb_true in E2. subst n. destruct a as [|[] [|[] [|]]]; try reflexivity. }
  destruct (streqb n (chars "GetParameter")) eqn:E3.
  { destruct a as [|[] [|[] [|]]]; try reflexivity; cbn [andb].
    - destruct (str_eq_dec (paramKey label i) (paramKey s 0)) as [E|E].
      + apply paramKey_inj in E. destruct E as [-> ->]. rewrite streqb_refl. reflexivity.
      + destruct (streqb s label) eqn:ES; [|reflexivity]. apply streqb_true in ES. subst s. destruct (Nat.eqb_spec i 0) as [->|]; [congruence|reflexivity].
    - destruct (Z.leb_spec 0 n0).
      + destruct (str_eq_dec (paramKey label i) (paramKey s (Z.to_nat n0))) as [E|E].
        * apply paramKey_inj in E. destruct E as [-> ->]. rewrite streqb_refl. cbn [andb]. rewrite Z2Nat.id by lia. rewrite Z.eqb_refl. reflexivity.
        * destruct (streqb s label) eqn:ES; [|reflexivity]. apply streqb_true in ES. subst s. cbn [andb]. destruct (Z.eqb_spec n0 (Z.of_nat i)) as [->|]; [|reflexivity]. rewrite Nat2Z.id in E. congruence.
      + destruct (streqb s label); [|reflexivity]. cbn [andb]. destruct (Z.eqb_spec n0 (Z.of_nat i)); [lia|reflexivity]. }
  destruct a as [|[] [|[] [|]]]; reflexivity.
Qed.
Lemma msgs_flat k h (f : list part -> list val) : plainNames h -> (forall ms, In ms (messages h) -> (forall n m, readMsg ms = (n, RMessage m) -> reserved m = false) -> msgsOf k (map (fun x => QMsg (fst x) (snd x)) (offers ms)) = f ms) ->
  msgsOf k (queueOps h) = flat_map f (messages h).
Proof.
  induction h as [|o h IH]; intros P H; [reflexivity|]. destruct (plain_cons _ _ P) as [A B]. rewrite queueOps_cons, msgsOf_app.
  assert (T : msgsOf k (queueOps h) = flat_map f (messages h)).
  { apply IH; [exact B|]. intros ms I. apply H. unfold messages in *. cbn [flat_map]. apply in_or_app. right. exact I. }
  rewrite T. unfold messages at 2. cbn [flat_map]. rewrite flat_map_app. f_equal. unfold queueOps. cbn [flat_map]. rewrite app_nil_r.
  destruct o; try reflexivity.
  - destruct (asks name args); reflexivity.
  - cbn [flat_map app]. rewrite app_nil_r. apply H; [unfold messages; cbn [flat_map app]; left; reflexivity|].
    intros n m E. destruct A as [A _]. apply (A n m). unfold messages. cbn [flat_map app map]. left. exact E.
Qed.
Lemma msgsOf_params_other k label (vs : list val) : (forall i, k <> paramKey label i) -> forall i, msgsOf k (map (fun x => QMsg (paramKey label (fst x)) (snd x)) (numbered i vs)) = [].
Proof.
  intros N. induction vs as [|v vs IH]; intros i; [reflexivity|]. cbn [numbered map msgsOf fst snd]. destruct (str_eq_dec k (paramKey label i)) as [E|]; [destruct (N _ E)|apply IH].
Qed.
Lemma msgsOf_params label (vs : list val) j : forall i, (i <= j)%nat -> msgsOf (paramKey label j) (map (fun x => QMsg (paramKey label (fst x)) (snd x)) (numbered i vs)) = match nth_error vs (j - i) with Some v => [v] | None => [] end.
Proof.
  induction vs as [|v vs IH]; intros i L; [destruct (j - i)%nat; reflexivity|]. cbn [numbered map msgsOf fst snd]. destruct (str_eq_dec (paramKey label j) (paramKey label i)) as [E|E].
  - apply paramKey_inj in E. destruct E as [_ ->]. rewrite Nat.sub_diag. cbn [nth_error]. f_equal. clear IH L. assert (forall m, (i < m)%nat -> msgsOf (paramKey label i) (map (fun x => QMsg (paramKey label (fst x)) (snd x)) (numbered m vs)) = []).
    { induction vs as [|w vs IH]; intros m L; [reflexivity|]. cbn [numbered map msgsOf fst snd]. destruct (str_eq_dec (paramKey label i) (paramKey label m)) as [E|_]; [apply paramKey_inj in E; lia|]. apply IH. lia. }
    apply H. lia.
  - assert (i <> j) by congruence. rewrite IH by lia. replace (j - i)%nat with (S (j - S i)) by lia. reflexivity.
Qed.
Lemma offers_map (x : list (nat * val)) label : map (fun x => QMsg (fst x) (snd x)) (map (fun x => (paramKey label (fst x), snd x)) x) = map (fun x => QMsg (paramKey label (fst x)) (snd x)) x.
Proof. rewrite map_map. reflexivity. Qed.
Lemma flat_flat {A B C} (f : B -> list C) (g : A -> list B) l : flat_map f (flat_map g l) = flat_map (fun x => flat_map f (g x)) l.
Proof. induction l as [|x l IH]; cbn; [reflexivity|]. rewrite flat_map_app, IH. reflexivity. Qed.
Lemma msgs_command name h : plainNames h -> msgsOf (commandKey name) (queueOps h) = labelsFor name h.
Proof.
  intros P. unfold labelsFor, received. rewrite flat_flat. apply msgs_flat; [exact P|]. intros ms _ M. unfold offers. destruct ms as [|p r]; [reflexivity|].
  destruct (readMsg (p :: r)) as [n [m|m args|m args|q v|m v|m v|]] eqn:E; try reflexivity.
  - cbn [map fst snd msgsOf flat_map]. destruct (str_eq_dec (commandKey name) m) as [<-|]; [|reflexivity]. pose proof (M n _ eq_refl) as X. discriminate X.
  - cbn [map fst snd msgsOf flat_map]. rewrite app_nil_r, offers_map, (msgsOf_params_other (commandKey name)) by (intros i; apply command_param).
    destruct (str_eq_dec (commandKey name) (commandKey m)) as [K|K].
    + apply commandKey_inj in K. subst m. rewrite streqb_refl. reflexivity.
    + destruct (streqb m name) eqn:S; [apply streqb_true in S; subst m; congruence|reflexivity].
Qed.
Definition paramsUnder (label : str) (i : nat) (x : Z * str * str * list val) : list val :=
  match x with (n, u, _, args) => if streqb (cmdLabel n u) label then match nth_error args i with Some v => [v] | None => [] end else [] end.
Lemma msgs_param label i h : plainNames h -> msgsOf (paramKey label i) (queueOps h) = flat_map (paramsUnder label i) (received h).
Proof.
  intros P. unfold received. rewrite flat_flat. apply msgs_flat; [exact P|]. intros ms _ M. unfold offers. destruct ms as [|p r]; [reflexivity|].
  destruct (readMsg (p :: r)) as [n [m|m args|m args|q v|m v|m v|]] eqn:E; try reflexivity.
  - cbn [map fst snd msgsOf flat_map]. destruct (str_eq_dec (paramKey label i) m) as [<-|]; [|reflexivity]. pose proof (M n _ eq_refl) as X. discriminate X.
  - cbn [map fst snd msgsOf flat_map]. rewrite app_nil_r, offers_map. destruct (str_eq_dec (paramKey label i) (commandKey m)) as [K|_]; [symmetry in K; destruct (command_param _ _ _ K)|].
    cbn [paramsUnder]. destruct (streqb (cmdLabel n (p_uid p)) label) eqn:L.
    + apply streqb_true in L. rewrite L, msgsOf_params by lia. rewrite Nat.sub_0_r. reflexivity.
    + apply msgsOf_params_other. intros j K. apply paramKey_inj in K. destruct K as [K _]. apply streqb_false in L. congruence.
Qed.
Lemma noDup_ops h : noDupOp (queueOps h).
Proof.
  intros b I. unfold queueOps in I. apply in_flat_map in I. destruct I as (o & _ & I). destruct o; try destruct I.
  - destruct (asks name args); [destruct I as [I|[]]; discriminate I|destruct I].
  - apply in_map_iff in I. destruct I as (x & E & _). discriminate E.
Qed.
(** One message is paired the same way with and without duplicates. *)
Lemma newest_none {V} k (l : list (qop V)) : forall w, msgsOf k l = [] -> newest k w None l = [].
Proof.
  induction l as [|[k' c|k' v|b] l IH]; intros w H; cbn [newest msgsOf] in *; [reflexivity| | |apply IH, H].
  - destruct (str_eq_dec k k'); apply IH, H.
  - destruct (str_eq_dec k k'); [discriminate|apply IH, H].
Qed.
Lemma newest_pending {V} k (l : list (qop V)) v : msgsOf k l = [] -> newest k [] (Some v) l = combine (recipsOf k l) [v].
Proof.
  induction l as [|[k' c|k' w|b] l IH]; intros H; cbn [newest msgsOf recipsOf] in *; [reflexivity| | |apply IH, H].
  - destruct (str_eq_dec k k'); [|apply IH, H]. rewrite newest_none by exact H. cbn. destruct (recipsOf k l); reflexivity.
  - destruct (str_eq_dec k k'); [discriminate|apply IH, H].
Qed.
Lemma newest_one {V} k (l : list (qop V)) v : forall w, msgsOf k l = [v] -> newest k w None l = combine (w ++ recipsOf k l) [v].
Proof.
  induction l as [|[k' c|k' x|b] l IH]; intros w H; cbn [newest msgsOf recipsOf] in *; [discriminate| | |apply IH, H].
  - destruct (str_eq_dec k k'); [|apply IH, H]. rewrite IH by exact H. rewrite <- app_assoc. reflexivity.
  - destruct (str_eq_dec k k'); [|apply IH, H]. injection H as -> H. destruct w as [|c w].
    + rewrite newest_pending by exact H. reflexivity.
    + rewrite newest_none by exact H. cbn [app combine]. destruct (w ++ recipsOf k l); reflexivity.
Qed.
(** ** Serial numbers *)
Lemma send_facts f net k o e f' : send f net k = (o, e, f') ->
  f' = {| f_uid := f_uid f; f_next := u32 (f_next f + 1) |}
  /\ (forall z, e = Gives z -> (forall m, k <> SMessage m) -> z <> ERROR_SERIAL ->
      z = f_next f /\ exists r, o = mkPub (leaderDest k) (leaderPart (f_uid f) (f_next f) k) :: r)
  /\ (forall z, e = Gives z -> (forall m, k <> SMessage m) -> z = f_next f \/ z = ERROR_SERIAL).
Proof.
  unfold send. cbn zeta. set (lead := mkPub _ _). intros H.
  assert (R : forall st, result k (f_next f) st = e -> (forall z, e = Gives z -> (forall m, k <> SMessage m) -> st = Some true /\ z = f_next f \/ st = Some false /\ z = ERROR_SERIAL)).
  { intros st Q z EZ NM. unfold result in Q. destruct st as [[]|]; destruct k; try (destruct (NM s eq_refl)); subst e; try discriminate; injection EZ as <-; auto. }
  destruct (publish net 0 lead) as [[]|].
  - destruct (sendRest net (f_uid f) (f_next f) k) as [o' st]. injection H as <- He <-. split; [reflexivity|]. split; intros z EZ NM.
    + intros NE. destruct (R st He z EZ NM) as [[_ ->]|[_ ->]]; [|congruence]. split; [reflexivity|]. eexists. reflexivity.
    + destruct (R st He z EZ NM) as [[_ ->]|[_ ->]]; auto.
  - injection H as <- He <-. split; [reflexivity|]. split; intros z EZ NM.
    + intros NE. destruct (R (Some false) He z EZ NM) as [[X _]|[_ ->]]; [discriminate|congruence].
    + destruct (R (Some false) He z EZ NM) as [[_ ->]|[_ ->]]; auto.
  - injection H as <- He <-. split; [reflexivity|]. split; intros z EZ NM.
    + intros NE. destruct (R None He z EZ NM) as [[X _]|[X _]]; discriminate.
    + destruct (R None He z EZ NM) as [[X _]|[X _]]; discriminate.
Qed.
Definition nextOf (s : xad) : Z := f_next (x_fac s).
Definition inv (s : xad) : Prop :=
  1 <= nextOf s /\ (forall n c, In (n, c) (x_pend s) -> 1 <= n < nextOf s) /\ NoDup (map fst (x_pend s))
  /\ match x_phase s with
     | Idle => x_lserial s = 0
     | Sending _ n => 1 <= n < nextOf s /\ ~ In n (map fst (x_pend s)) /\ x_lserial s = 0
     | Asking n => ~ In n (map fst (x_pend s)) /\ x_lserial s = 0
     | Waiting => ~ In (x_lserial s) (map fst (x_pend s))
     | Stopped => True
     end.
(** How a step may change the numbers: at most one is used. *)
Definition calm (s s' : xad) : Prop :=
  x_pend s' = x_pend s /\ x_lserial s' = x_lserial s /\ (x_phase s' = x_phase s \/ x_phase s' = Stopped)
  /\ (nextOf s' = nextOf s \/ nextOf s' = u32 (nextOf s + 1)).
Lemma calm_refl s : calm s s.
Proof. repeat split; auto. Qed.
Lemma calm_inv s s' : calm s s' -> inv s -> nextOf s < ERROR_SERIAL -> inv s' /\ nextOf s' <= nextOf s + 1.
Proof.
  intros (P & L & F & N) (A & B & C & D) S. assert (M : nextOf s <= nextOf s' <= nextOf s + 1). { destruct N as [-> | ->]; [lia|]. unfold u32, ERROR_SERIAL in *. rewrite Z.mod_small; lia. }
  split; [|lia]. split; [lia|]. rewrite P. split; [intros n c I; specialize (B n c I); lia|]. split; [exact C|].
  destruct F as [-> | ->]; [|exact Logic.I]. rewrite L. destruct (x_phase s); auto. destruct D as (D1 & D2 & D3). split; [lia|auto].
Qed.
Ltac scalm := unfold stop; cbn [fst snd]; unfold calm, nextOf, setPhase, setFac, setQ, setExt, setPend, setLook; cbn; repeat split; auto.
Ltac snd_facts := match goal with |- context [send ?f ?n ?k] => let H := fresh "SF" in destruct (send f n k) as [[?o ?e] ?f'] eqn:H; apply send_facts in H; destruct H as (-> & ?SF1 & ?SF2) end.
Lemma offer_calm k v s : calm s (snd (offer k v s)).
Proof. unfold offer. destruct (addMessage (x_q s) k v). scalm. Qed.
Lemma calm_trans0 a b c : calm a b -> nextOf b = nextOf a -> x_phase b = x_phase a -> calm b c -> calm a c.
Proof. intros (A1 & A2 & A3 & A4) N P (B1 & B2 & B3 & B4). rewrite N, P in *. repeat split; congruence || auto. Qed.
Lemma offerParams_calm label vs : forall i s, calm s (snd (offerParams label i vs s)) /\ nextOf (snd (offerParams label i vs s)) = nextOf s /\ x_phase (snd (offerParams label i vs s)) = x_phase s.
Proof.
  induction vs as [|v vs IH]; intros i s; cbn [offerParams]; [split; [apply calm_refl|auto]|]. unfold offer. destruct (addMessage (x_q s) (paramKey label i) v) as [r q]. cbn zeta.
  specialize (IH (S i) (setQ q s)). destruct (offerParams label (S i) vs (setQ q s)) as [b s2]. cbn [snd] in *. destruct IH as ((A1 & A2 & A3 & A4) & B & C). unfold nextOf in *. cbn [setQ x_fac x_phase x_pend x_lserial] in *. repeat split; auto.
Qed.
Lemma receive_calm net ok ms s : calm s (snd (receiveMessages net ok ms s)).
Proof.
  destruct ms as [|p r]; [apply calm_refl|]. unfold receiveMessages. destruct (p_what p) eqn:W; try apply calm_refl; try apply offer_calm; try (unfold gotPlanFile, gotPlanText; destruct ok; apply calm_refl).
  - unfold gotCommand, offer. destruct (addMessage (x_q s) _ _) as [a q]. pose proof (offerParams_calm (cmdLabel (p_serial p) (p_uid p)) (map valOf r) 0 (setQ q s)) as ((A1 & A2 & A3 & A4) & B & C).
    destruct (offerParams _ _ _ (setQ q s)) as [b s2]. cbn [snd] in *. unfold nextOf in *. cbn [setQ x_fac x_phase x_pend x_lserial] in *. repeat split; auto.
  - unfold gotLookup. destruct (lookupReply _ _); [|apply calm_refl]. snd_facts. destruct e; scalm.
  - unfold gotTelemetry. destruct name; [apply calm_refl|]. destruct r; [apply calm_refl|]. destruct (p_count p =? 0); [apply calm_refl|]. destruct (_ =? _); [|apply calm_refl]. destruct (state_eq _ _); scalm.
  - unfold gotReturn. destruct (request =? x_lserial s); [destruct r; [scalm|]; destruct (p_count p =? 1); scalm|].
    destruct (pendFind request (x_pend s)); [|scalm]. destruct r; [scalm|]. destruct (p_count p =? 1); [|scalm]. destruct (_ =? _); [|scalm]. destruct (valOf _); scalm.
Qed.
Definition builtin (n : str) : Prop := In n [chars "SendMessage"; chars "ReceiveMessage"; chars "ReceiveCommand"; chars "GetParameter"; chars "SendReturnValue"; chars "UpdateLookup"].
Lemma execute_builtin net c n a s : builtin n -> calm s (snd (execute net c n a s)) /\ forall p, In (OPub p) (fst (execute net c n a s)) -> forall x m, hd_error p = Some x -> p_what (d_part x) <> KCommand m.
Proof.
  assert (SL : forall f net k o e f', send f net k = (o, e, f') -> forall x, hd_error o = Some x -> p_what (d_part x) = leaderOf k).
  { intros f nt k o e f' H x. unfold send in H. cbn zeta in H. destruct (publish _ _ _) as [[]|]; [destruct (sendRest _ _ _ _)|..]; injection H as <- _ _; cbn; try discriminate. intros E. injection E as <-. reflexivity. }
  intros B. unfold execute.
  destruct (streqb n (chars "SendMessage")) eqn:E1; [|destruct (streqb n (chars "ReceiveMessage")) eqn:E2; [|destruct (streqb n (chars "ReceiveCommand")) eqn:E3; [|destruct (streqb n (chars "GetParameter")) eqn:E4;
    [|destruct (streqb n (chars "SendReturnValue")) eqn:E5; [|destruct (streqb n (chars "UpdateLookup")) eqn:E6]]]]].
  - unfold doSendMessage. destruct a as [|[] [|]]; try (split; [scalm|cbn; intros p [I|[]]; discriminate I]). destruct (send _ _ _) as [[o e] f'] eqn:SF. pose proof (SL _ _ _ _ _ _ SF) as LL. apply send_facts in SF as (-> & _).
    destruct e; [destruct (z =? ERROR_SERIAL)|]; (split; [scalm|cbn [fst stop app]; intros p I x m HX; assert (EO : p = o) by (cbn [In] in I; intuition congruence); rewrite EO in HX; rewrite (LL x HX); cbn [leaderOf]; discriminate]).
  - unfold doReceiveMessage. destruct a as [|[] [|]]; try (split; [scalm|cbn; intros p [I|[]]; discriminate I]). unfold receiveOn. destruct (addRecipient _ _ _). split; [scalm|]. cbn [fst]. intros p I. apply in_app_or in I. destruct I as [I|[I|[I|[]]]]; try discriminate I. apply in_map_iff in I. destruct I as (? & I & _). discriminate I.
  - unfold doReceiveCommand. destruct a as [|[] [|]]; try (split; [scalm|cbn; intros p [I|[]]; discriminate I]). unfold receiveOn. destruct (addRecipient _ _ _). split; [scalm|]. cbn [fst]. intros p I. apply in_app_or in I. destruct I as [I|[I|[I|[]]]]; try discriminate I. apply in_map_iff in I. destruct I as (? & I & _). discriminate I.
  - assert (RO : forall k, calm s (snd (receiveOn k c s)) /\ forall p, In (OPub p) (fst (receiveOn k c s)) -> forall x m, hd_error p = Some x -> p_what (d_part x) <> KCommand m).
    { intros k. unfold receiveOn. destruct (addRecipient _ _ _). split; [scalm|]. cbn [fst]. intros p I. apply in_app_or in I. destruct I as [I|[I|[I|[]]]]; try discriminate I. apply in_map_iff in I. destruct I as (? & I & _). discriminate I. }
    unfold doGetParameter. destruct a as [|[] [|[] [|]]]; try (split; [scalm|cbn; intros p [I|[]]; discriminate I]); try apply RO. destruct (0 <=? n0); [apply RO|]. split; [scalm|cbn; intros p [I|[]]; discriminate I].
  - unfold doSendReturn. destruct a as [|[] [|? [|]]]; try (split; [scalm|cbn; intros p [I|[]]; discriminate I]). destruct (parseLabel s0) as [[? ?]|]; [|split; [scalm|cbn; intros p [I|[]]; discriminate I]].
    destruct (send _ _ _) as [[o e] f'] eqn:SF. pose proof (SL _ _ _ _ _ _ SF) as LL. apply send_facts in SF as (-> & _).
    destruct e; [destruct (z0 =? ERROR_SERIAL)|]; (split; [scalm|cbn [fst stop app]; intros p I x m HX; assert (EO : p = o) by (cbn [In] in I; intuition congruence); rewrite EO in HX; rewrite (LL x HX); cbn [leaderOf]; discriminate]).
  - unfold doUpdateLookup. destruct a as [|[] [|? ?]]; try (split; [scalm|cbn; intros p [I|[]]; discriminate I]). destruct (declared s0 (x_names s)); [|split; [scalm|cbn; intros p [I|[I|[]]]; discriminate I]].
    destruct (send _ _ _) as [[o e] f'] eqn:SF. pose proof (SL _ _ _ _ _ _ SF) as LL. cbn [setExt x_fac] in SF. apply send_facts in SF as (-> & _).
    destruct e; (split; [scalm|cbn [fst stop app]; intros p I x m HX; assert (EO : p = o) by (cbn [In] in I; intuition congruence); rewrite EO in HX; rewrite (LL x HX); cbn [leaderOf]; discriminate]).
  - exfalso. destruct B as [<-|[<-|[<-|[<-|[<-|[<-|[]]]]]]]; rewrite streqb_refl in *; discriminate.
Qed.
Lemma builtin_dec n : builtin n \/ ~ builtin n.
Proof. destruct (in_dec str_eq_dec n [chars "SendMessage"; chars "ReceiveMessage"; chars "ReceiveCommand"; chars "GetParameter"; chars "SendReturnValue"; chars "UpdateLookup"]); auto. Qed.
Lemma execute_default net c n a s : ~ builtin n -> execute net c n a s = doDefault net c n a s.
Proof.
  intros B. unfold execute. repeat (match goal with |- context [streqb n ?x] => let H := fresh in destruct (streqb n x) eqn:H; [apply streqb_true in H; exfalso; apply B; subst n; unfold builtin; cbn [In]; auto 10|] end). reflexivity.
Qed.
Lemma pendFind_in m n c : NoDup (map fst m) -> pendFind n m = Some c <-> In (n, c) m.
Proof.
  induction m as [|[k d] m IH]; cbn [pendFind map fst In]; intros N; [split; [discriminate|tauto]|]. inversion N as [|x l N1 N2]; subst. destruct (Z.eqb_spec n k) as [->|E].
  - split; [intros E; injection E as ->; auto|]. intros [E|I]; [congruence|]. elim N1. apply (in_map fst) in I. exact I.
  - rewrite IH by exact N2. split; [auto|]. intros [X|I]; [congruence|exact I].
Qed.
Lemma pendSet_new m n c : ~ In n (map fst m) -> pendSet n c m = m ++ [(n, c)].
Proof.
  induction m as [|[k d] m IH]; cbn [pendSet map fst In]; intros N; [reflexivity|]. destruct (Z.eqb_spec n k) as [->|E]; [elim N; auto|]. rewrite IH by auto. reflexivity.
Qed.
Definition lastSent (s : xad) : option (Z * cmd) := match x_phase s with Sending c n => Some (n, c) | _ => None end.
Definition lastAfter (l : option (Z * cmd)) (o : xop) (a : list xout) : option (Z * cmd) :=
  match o, a with
  | XExec _ c _ _, OPub (p :: _) :: _ => match p_what (d_part p) with KCommand _ => Some (p_serial (d_part p), c) | _ => l end
  | XRecord, _ => None
  | _, _ => l
  end.
Definition sent1 (l : option (Z * cmd)) (o : xop) : list (Z * cmd) := match o with XRecord => match l with Some x => [x] | None => [] end | _ => [] end.
Lemma sent_cons l o a t : sentCommands l ((o, a) :: t) = sent1 l o ++ sentCommands (lastAfter l o a) t.
Proof.
  destruct o; cbn [sentCommands sent1 lastAfter app]; try reflexivity; try (destruct a as [|[] ?]; reflexivity).
  destruct a as [|[l0| | | | | | | | | | |] ?]; try reflexivity. destruct l0; reflexivity.
Qed.
Lemma step_inv o s a s' : xstep o s = Some (a, s') -> inv s -> nextOf s < ERROR_SERIAL ->
  inv s' /\ nextOf s' <= nextOf s + 1 /\ x_pend s' = x_pend s ++ sent1 (lastSent s) o /\ (x_phase s' <> Stopped -> lastAfter (lastSent s) o a = lastSent s').
Proof.
  intros H V B. pose proof V as V0.
  assert (CALM : calm s s' -> sent1 (lastSent s) o = [] -> (lastAfter (lastSent s) o a = lastSent s) ->
     inv s' /\ nextOf s' <= nextOf s + 1 /\ x_pend s' = x_pend s ++ sent1 (lastSent s) o /\ (x_phase s' <> Stopped -> lastAfter (lastSent s) o a = lastSent s')).
  { intros C E1 E2. destruct (calm_inv _ _ C V B) as [I N]. split; [exact I|]. split; [exact N|]. rewrite E1, app_nil_r. destruct C as (C1 & _ & C3 & _). split; [exact C1|].
    intros NS. rewrite E2. unfold lastSent. destruct C3 as [-> |]; [reflexivity|congruence]. }
  destruct o; destruct (x_phase s) eqn:P; cbn [xstep] in H; rewrite ?P in H; try discriminate H.
  - assert (E : (a, s') = execute net c name args s) by congruence. clear H. destruct (builtin_dec name) as [BI|NB].
    + destruct (execute_builtin net c name args s BI) as [C OP]. rewrite <- E in C, OP. cbn [fst snd] in *. apply CALM; [exact C|reflexivity|]. cbn [lastAfter]. destruct a as [|[[|x l]| | | | | | | | | | |] ?]; try reflexivity.
      specialize (OP (x :: l) (or_introl eq_refl) x). destruct (p_what (d_part x)) eqn:W; try reflexivity. elim (OP name0 eq_refl). reflexivity.
    + rewrite execute_default in E by exact NB. unfold doDefault in E. destruct (send (x_fac s) net (remoteCall name args)) as [[o e] f'] eqn:SF. apply send_facts in SF. destruct SF as (-> & SF1 & SF2).
      assert (NM : forall m, remoteCall name args <> SMessage m) by (intros m; unfold remoteCall; destruct (splitColon name) as [[]|]; discriminate).
      assert (STOP : (a, s') = stop [OPub o] (setFac {| f_uid := f_uid (x_fac s); f_next := u32 (f_next (x_fac s) + 1) |} s) -> inv s' /\ nextOf s' <= nextOf s + 1 /\ x_pend s' = x_pend s ++ sent1 (lastSent s) (XExec net c name args) /\ (x_phase s' <> Stopped -> lastAfter (lastSent s) (XExec net c name args) a = lastSent s')).
      { intros Q. unfold stop in Q. assert (s' = setPhase Stopped (setFac {| f_uid := f_uid (x_fac s); f_next := u32 (f_next (x_fac s) + 1) |} s)) by congruence. subst s'.
        assert (C : calm s (setPhase Stopped (setFac {| f_uid := f_uid (x_fac s); f_next := u32 (f_next (x_fac s) + 1) |} s))) by scalm.
        destruct (calm_inv _ _ C V B) as [I N]. split; [exact I|]. split; [exact N|]. cbn [sent1]. rewrite app_nil_r. split; [reflexivity|]. intros X. elim X. reflexivity. }
      destruct e as [z|]; [|exact (STOP E)]. destruct (Z.eqb_spec z ERROR_SERIAL) as [->|NE]; [exact (STOP E)|]. clear STOP.
      destruct (SF1 z eq_refl NM NE) as [-> [r ->]]. assert (a = [OPub (mkPub (leaderDest (remoteCall name args)) (leaderPart (f_uid (x_fac s)) (f_next (x_fac s)) (remoteCall name args)) :: r)]) by congruence.
      assert (s' = setPhase (Sending c (f_next (x_fac s))) (setFac {| f_uid := f_uid (x_fac s); f_next := u32 (f_next (x_fac s) + 1) |} s)) by congruence. subst a s'. clear E.
      destruct V0 as (V1 & V2 & V3 & V4). rewrite P in V4.
      assert (NX : nextOf (setPhase (Sending c (f_next (x_fac s))) (setFac {| f_uid := f_uid (x_fac s); f_next := u32 (f_next (x_fac s) + 1) |} s)) = nextOf s + 1).
      { unfold nextOf in *. cbn. unfold u32, ERROR_SERIAL in *. rewrite Z.mod_small; lia. }
      split; [|split; [lia|split; [cbn [sent1]; rewrite app_nil_r; reflexivity|]]].
      * split; [lia|]. split; [intros n0 c0 I; rewrite NX; specialize (V2 n0 c0 I); lia|]. split; [exact V3|]. cbn [setPhase x_phase x_pend x_lserial setFac]. rewrite NX. split; [unfold nextOf in *; lia|]. split; [|exact V4].
        intros I. apply in_map_iff in I. destruct I as ([n0 c0] & E & I). cbn in E. subst n0. specialize (V2 _ _ I). unfold nextOf in V2. lia.
      * intros _. cbn [lastAfter d_part leaderPart p_what p_serial]. unfold lastSent at 2. cbn [setPhase x_phase]. unfold remoteCall. destruct (splitColon name) as [[]|]; reflexivity.
  - assert (a = [OAck c SentToSystem; ONotify]) by congruence. assert (s' = setPhase Idle (setPend (pendSet serial c (x_pend s)) s)) by congruence. subst a s'. destruct V0 as (V1 & V2 & V3 & V4). rewrite P in V4. destruct V4 as (V4 & V5 & V6).
    assert (LS : lastSent s = Some (serial, c)) by (unfold lastSent; rewrite P; reflexivity). rewrite LS. cbn [sent1]. unfold nextOf in *. cbn [setPhase setPend x_pend x_fac]. rewrite pendSet_new by exact V5.
    split; [|split; [lia|split; [reflexivity|reflexivity]]]. split; [exact V1|]. unfold nextOf in *. cbn [setPhase setPend x_pend x_fac x_phase x_lserial]. split; [|split; [|exact V6]].
    + intros n0 c0 I. apply in_app_or in I. destruct I as [I|[I|[]]]; [apply (V2 _ _ I)|]. injection I as <- <-. exact V4.
    + rewrite map_app. cbn [map fst]. apply (Permutation.Permutation_NoDup (l := serial :: map fst (x_pend s))); [apply Permutation.Permutation_cons_append|]. constructor; assumption.
  - assert (s' = s) by congruence. assert (a = [OAbortAck c; ONotify]) by congruence. subst a s'. apply CALM; [apply calm_refl|reflexivity|reflexivity].
  - assert (E : (a, s') = lookupNow net st s) by congruence. unfold lookupNow in E. destruct (extFind st (x_ext s)).
    { assert (s' = s) by congruence. subst s'. apply CALM; [apply calm_refl|reflexivity|reflexivity]. }
    destruct (send (x_fac s) net (lookupCall st)) as [[o e] f'] eqn:SF. apply send_facts in SF. destruct SF as (-> & SF1 & SF2).
    assert (NM : forall m, lookupCall st <> SMessage m) by (intros m; unfold lookupCall; destruct (splitColon (s_name st)) as [[]|]; discriminate).
    destruct e as [z|].
    + match type of E with _ = (_, ?t) => assert (ES : s' = t) by congruence end. clear E H. destruct V0 as (V1 & V2 & V3 & V4). rewrite P in V4.
      assert (NX : nextOf s' = nextOf s + 1). { subst s'. unfold nextOf in *. cbn. unfold u32, ERROR_SERIAL in *. rewrite Z.mod_small; lia. }
      assert (XP : x_pend s' = x_pend s) by (subst s'; reflexivity). assert (XL : x_lserial s' = 0) by (subst s'; exact V4). assert (PH : x_phase s' = Asking z) by (subst s'; reflexivity). clear ES.
      split; [|split; [lia|split; [rewrite XP; cbn [sent1]; rewrite app_nil_r; reflexivity|]]].
      * split; [lia|]. rewrite XP. split; [intros n0 c0 I; specialize (V2 n0 c0 I); lia|]. split; [exact V3|]. rewrite PH. split; [|exact XL].
        intros I. apply in_map_iff in I. destruct I as ([n0 c0] & E & I). cbn in E. subst n0. specialize (V2 _ _ I). destruct (SF2 z eq_refl NM) as [-> | ->]; [unfold nextOf in V2; lia|unfold ERROR_SERIAL in *; lia].
      * intros _. cbn [lastAfter]. unfold lastSent. rewrite P, PH. reflexivity.
    + unfold stop in E. match type of E with _ = (_, ?t) => assert (ES : s' = t) by congruence end. clear E H.
      assert (C : calm s s') by (subst s'; scalm). apply CALM; [exact C|reflexivity|reflexivity].
  - assert (ES : s' = setPhase Waiting (setLook (x_sem s) (x_res s) (x_lstate s) serial s)) by congruence. assert (a = []) by congruence. subst a. destruct V0 as (V1 & V2 & V3 & V4). rewrite P in V4. destruct V4 as [V4 V5].
    subst s'. split; [|split; [cbn; unfold nextOf; cbn; lia|split; [cbn [sent1]; rewrite app_nil_r; reflexivity|intros _; unfold lastSent; cbn [setPhase x_phase lastAfter]; rewrite P; reflexivity]]].
    split; [exact V1|]. split; [exact V2|]. split; [exact V3|]. exact V4.
  - destruct (x_sem s) as [|k]; [discriminate H|]. assert (ES : s' = setPhase Idle (setLook k unk noState 0 s)) by congruence. assert (a = [OAnswer (x_res s)]) by congruence. subst a. destruct V0 as (V1 & V2 & V3 & V4).
    subst s'. split; [|split; [cbn; unfold nextOf; cbn; lia|split; [cbn [sent1]; rewrite app_nil_r; reflexivity|intros _; unfold lastSent; cbn [setPhase x_phase lastAfter]; rewrite P; reflexivity]]].
    split; [exact V1|]. split; [exact V2|]. split; [exact V3|]. reflexivity.
  - assert (E : (a, s') = plannerUpdate net node pairs s) by congruence. unfold plannerUpdate in E. destruct pairs as [|x l]; [assert (s' = s) by congruence; subst s'; apply CALM; [apply calm_refl|reflexivity|reflexivity]|].
    destruct (send (x_fac s) net (SUpdate node (x :: l))) as [[o e] f'] eqn:SF. apply send_facts in SF. destruct SF as (-> & _).
    assert (C : calm s s').
    { destruct e as [z|]; [destruct (z =? ERROR_SERIAL)|]; unfold stop in E; match type of E with _ = (_, ?t) => assert (ES : s' = t) by congruence end; subst s'; scalm. }
    apply CALM; [exact C|reflexivity|reflexivity].
  - assert (E : (a, s') = receiveMessages net ok ms s) by congruence. apply CALM; [pose proof (receive_calm net ok ms s) as C; rewrite <- E in C; exact C|reflexivity|reflexivity].
  - assert (E : (a, s') = receiveMessages net ok ms s) by congruence. apply CALM; [pose proof (receive_calm net ok ms s) as C; rewrite <- E in C; exact C|reflexivity|reflexivity].
  - destruct (needsLookupMutex ms s); [discriminate H|]. assert (E : (a, s') = receiveMessages net ok ms s) by congruence. apply CALM; [pose proof (receive_calm net ok ms s) as C; rewrite <- E in C; exact C|reflexivity|reflexivity].
  - assert (E : (a, s') = receiveMessages net ok ms s) by congruence. apply CALM; [pose proof (receive_calm net ok ms s) as C; rewrite <- E in C; exact C|reflexivity|reflexivity].
Qed.
Lemma stopped_step o s : x_phase s = Stopped -> xstep o s = None.
Proof. intros P. destruct o; cbn [xstep]; rewrite P; reflexivity. Qed.
Lemma trace_inv l : forall s t s', xtrace s l = Some (t, s') -> inv s -> nextOf s + Z.of_nat (length l) < ERROR_SERIAL ->
  inv s' /\ x_pend s' = x_pend s ++ sentCommands (lastSent s) t.
Proof.
  induction l as [|o l IH]; intros s t s'; cbn [xtrace].
  - intros E V _. assert (t = []) by congruence. assert (s' = s) by congruence. subst. split; [exact V|]. cbn. rewrite app_nil_r. reflexivity.
  - destruct (xstep o s) as [[a s1]|] eqn:X; [|discriminate]. destruct (xtrace s1 l) as [[b s2]|] eqn:Y; [|discriminate]. intros E V B.
    assert (t = (o, a) :: b) by congruence. assert (s' = s2) by congruence. subst t s'. cbn [length] in B. destruct (step_inv _ _ _ _ X V ltac:(lia)) as (V1 & N1 & P1 & L1).
    destruct (IH s1 b s2 Y V1 ltac:(lia)) as [V2 P2]. split; [exact V2|]. rewrite sent_cons, P2, P1, <- app_assoc. do 2 f_equal.
    destruct (x_phase s1) eqn:PH; try (rewrite L1 by discriminate; reflexivity).
    destruct l as [|o2 l]; [cbn [xtrace] in Y; assert (b = []) by congruence; subst b; reflexivity|]. cbn [xtrace] in Y. rewrite stopped_step in Y by exact PH. discriminate Y.
Qed.
Lemma inv_init u dup decls : inv (xinit u dup decls) /\ nextOf (xinit u dup decls) = 1 /\ x_pend (xinit u dup decls) = [] /\ quiet (xinit u dup decls) /\ x_q (xinit u dup decls) = qinit dup.
Proof.
  unfold xinit. destruct (declare decls [] []) as [n e]. split; [|repeat split]. unfold inv, nextOf. cbn. split; [lia|]. split; [tauto|]. split; [constructor|reflexivity].
Qed.
(** ** External lookups *)
Definition keysOk (m : list (state * val)) : Prop := forall x, In x m -> okState (fst x).
Lemma extSet_keys m k v : keysOk m -> okState k -> keysOk (extSet k v m).
Proof.
  induction m as [|[k0 w] m IH]; intros K O x; cbn [extSet In].
  - intros [<-|[]]. exact O.
  - assert (K2 : keysOk m) by (intros y I; apply K; right; exact I). destruct (same_key k0 k); cbn [In].
    + intros [<-|I]; [apply (K (k0, w)); left; reflexivity|apply K; right; exact I].
    + intros [<-|I]; [apply (K (k0, w)); left; reflexivity|apply IH; assumption].
Qed.
Lemma extFind_set m k v st : keysOk m -> okState k -> okState st -> extFind st (extSet k v m) = if same_key k st then Some v else extFind st m.
Proof.
  induction m as [|[k0 w] m IH]; intros K O S; cbn [extSet extFind]; [reflexivity|].
  assert (K0 : okState k0) by (apply (K (k0, w)); left; reflexivity). assert (K2 : keysOk m) by (intros y I; apply K; right; exact I).
  destruct (same_key k0 k) eqn:E; cbn [extFind].
  - rewrite (same_key_sym k0 st), (same_key_sym k st), <- (same_key_cong k0 k st K0 O S E). destruct (same_key st k0); reflexivity.
  - rewrite IH by assumption. destruct (same_key k0 st) eqn:E2; [|reflexivity]. destruct (same_key k st) eqn:E3; [|reflexivity]. exfalso.
    rewrite same_key_sym in E3. pose proof (same_key_trans k0 st k K0 S O E2 E3). congruence.
Qed.
Definition pick (st : state) (acc : option val) (x : state * val) : option val := if same_key (fst x) st then Some (snd x) else acc.
(** What one step does to the table. *)
Definition upd1 (names : list str) (o : xop) : list (state * val) :=
  match o with
  | XExec _ _ n (VStr m :: v :: ps) => if streqb n (chars "UpdateLookup") && declared m names then [(mkState m ps, v)] else []
  | _ => []
  end.
Definition extSame (s s' : xad) : Prop := x_ext s' = x_ext s /\ x_names s' = x_names s.
Lemma extSame_offerParams label vs : forall i s, extSame s (snd (offerParams label i vs s)).
Proof.
  induction vs as [|v vs IH]; intros i s; cbn [offerParams]; [split; reflexivity|]. unfold offer. destruct (addMessage (x_q s) (paramKey label i) v) as [r q].
  specialize (IH (S i) (setQ q s)). destruct (offerParams label (S i) vs (setQ q s)) as [b s2]. cbn [snd] in *. exact IH.
Qed.
Ltac es := unfold stop; cbn [fst snd]; split; reflexivity.
Lemma receive_ext net ok ms s : extSame s (snd (receiveMessages net ok ms s)).
Proof.
  destruct ms as [|p r]; [es|]. unfold receiveMessages. destruct (p_what p) eqn:W; try es; try (unfold gotPlanFile, gotPlanText; destruct ok; es).
  - unfold gotCommand, offer. destruct (addMessage (x_q s) _ _) as [a q]. pose proof (extSame_offerParams (cmdLabel (p_serial p) (p_uid p)) (map valOf r) 0 (setQ q s)) as H.
    destruct (offerParams _ _ _ (setQ q s)) as [b s2]. cbn [snd] in *. exact H.
  - unfold offer. destruct (addMessage _ _ _). es.
  - unfold gotLookup. destruct (lookupReply _ _); [|es]. snd_. destruct e; es.
  - unfold gotTelemetry. destruct name; [es|]. destruct r; [es|]. destruct (p_count p =? 0); [es|]. destruct (_ =? _); [|es]. destruct (state_eq _ _); es.
  - unfold gotReturn. destruct (request =? x_lserial s); [destruct r; [es|]; destruct (p_count p =? 1); es|].
    destruct (pendFind request (x_pend s)); [|es]. destruct r; [es|]. destruct (p_count p =? 1); [|es]. destruct (_ =? _); [|es]. destruct (valOf _); es.
Qed.
Definition extAfter (l : list (state * val)) (m : list (state * val)) : list (state * val) := fold_left (fun m x => extSet (fst x) (snd x) m) l m.
Lemma execute_ext net c n a s : x_ext (snd (execute net c n a s)) = extAfter (upd1 (x_names s) (XExec net c n a)) (x_ext s) /\ x_names (snd (execute net c n a s)) = x_names s.
Proof.
  assert (SAME : forall r : result_, extSame s (snd r) -> upd1 (x_names s) (XExec net c n a) = [] -> x_ext (snd r) = extAfter (upd1 (x_names s) (XExec net c n a)) (x_ext s) /\ x_names (snd r) = x_names s).
  { intros r [A B] ->. split; assumption. }
  destruct (streqb n (chars "UpdateLookup")) eqn:U.
  - apply streqb_true in U. subst n. change (execute net c (chars "UpdateLookup") a s) with (doUpdateLookup net c a s). unfold doUpdateLookup.
    destruct a as [|[] [|v ps]]; try (apply SAME; [es|reflexivity]). cbn [upd1]. rewrite streqb_refl. cbn [andb]. destruct (declared s0 (x_names s)) eqn:D; [|es]. snd_. destruct e; es.
  - assert (UN : upd1 (x_names s) (XExec net c n a) = []) by (cbn [upd1]; rewrite U; destruct a as [|[] [|]]; reflexivity).
    apply SAME; [|exact UN]. unfold execute. rewrite U. assert (RO : forall k, extSame s (snd (receiveOn k c s))) by (intros k; unfold receiveOn; destruct (addRecipient _ _ _); es).
    destruct (streqb n (chars "SendMessage")); [unfold doSendMessage; destruct a as [|[] [|]]; try es; snd_; destruct e; [destruct (z =? ERROR_SERIAL)|]; es|].
    destruct (streqb n (chars "ReceiveMessage")); [unfold doReceiveMessage; destruct a as [|[] [|]]; try es; apply RO|].
    destruct (streqb n (chars "ReceiveCommand")); [unfold doReceiveCommand; destruct a as [|[] [|]]; try es; apply RO|].
    destruct (streqb n (chars "GetParameter")); [unfold doGetParameter; destruct a as [|[] [|[] [|]]]; try es; try apply RO; destruct (0 <=? n0); [apply RO|es]|].
    destruct (streqb n (chars "SendReturnValue")); [unfold doSendReturn; destruct a as [|[] [|? [|]]]; try es; destruct (parseLabel s0) as [[? ?]|]; [|es]; snd_; destruct e; [destruct (z0 =? ERROR_SERIAL)|]; es|].
    unfold doDefault. snd_. destruct e; [destruct (z =? ERROR_SERIAL)|]; es.
Qed.
Lemma step_ext o s a s' : xstep o s = Some (a, s') -> x_ext s' = extAfter (upd1 (x_names s) o) (x_ext s) /\ x_names s' = x_names s.
Proof.
  intros H.
  assert (SAME : extSame s s' -> upd1 (x_names s) o = [] -> x_ext s' = extAfter (upd1 (x_names s) o) (x_ext s) /\ x_names s' = x_names s).
  { intros [A B] ->. split; assumption. }
  destruct o; destruct (x_phase s) eqn:P; cbn [xstep] in H; rewrite ?P in H; try discriminate H.
  - assert (E : (a, s') = execute net c name args s) by congruence. pose proof (execute_ext net c name args s) as X. rewrite <- E in X. exact X.
  - apply SAME; [|reflexivity]. assert (s' = setPhase Idle (setPend (pendSet serial c (x_pend s)) s)) by congruence. subst s'. es.
  - apply SAME; [|reflexivity]. assert (s' = s) by congruence. subst s'. es.
  - apply SAME; [|reflexivity]. assert (E : (a, s') = lookupNow net st s) by congruence. unfold lookupNow in E. destruct (extFind st (x_ext s)); [assert (s' = s) by congruence; subst s'; es|].
    destruct (send (x_fac s) net (lookupCall st)) as [[o e] f']. destruct e; unfold stop in E; match type of E with _ = (_, ?t) => assert (ES : s' = t) by congruence end; subst s'; es.
  - apply SAME; [|reflexivity]. match type of H with Some (_, ?t) = _ => assert (ES : s' = t) by congruence end. subst s'. es.
  - apply SAME; [|reflexivity]. destruct (x_sem s); [discriminate H|]. match type of H with Some (_, ?t) = _ => assert (ES : s' = t) by congruence end. subst s'. es.
  - apply SAME; [|reflexivity]. assert (E : (a, s') = plannerUpdate net node pairs s) by congruence. unfold plannerUpdate in E. destruct pairs as [|x l]; [assert (s' = s) by congruence; subst s'; es|].
    destruct (send (x_fac s) net (SUpdate node (x :: l))) as [[o e] f']. destruct e as [z|]; [destruct (z =? ERROR_SERIAL)|]; unfold stop in E; match type of E with _ = (_, ?t) => assert (ES : s' = t) by congruence end; subst s'; es.
  - assert (E : (a, s') = receiveMessages net ok ms s) by congruence. apply SAME; [|reflexivity]. pose proof (receive_ext net ok ms s) as X. rewrite <- E in X. exact X.
  - assert (E : (a, s') = receiveMessages net ok ms s) by congruence. apply SAME; [|reflexivity]. pose proof (receive_ext net ok ms s) as X. rewrite <- E in X. exact X.
  - destruct (needsLookupMutex ms s); [discriminate H|]. assert (E : (a, s') = receiveMessages net ok ms s) by congruence. apply SAME; [|reflexivity]. pose proof (receive_ext net ok ms s) as X. rewrite <- E in X. exact X.
  - assert (E : (a, s') = receiveMessages net ok ms s) by congruence. apply SAME; [|reflexivity]. pose proof (receive_ext net ok ms s) as X. rewrite <- E in X. exact X.
Qed.
Lemma run_ext l : forall s o s', xrun s l = Some (o, s') -> x_ext s' = extAfter (flat_map (upd1 (x_names s)) l) (x_ext s) /\ x_names s' = x_names s.
Proof.
  induction l as [|x l IH]; intros s o s'; cbn [xrun]; [intros E; assert (s' = s) by congruence; subst; es|].
  destruct (xstep x s) as [[a s1]|] eqn:X; [|discriminate]. destruct (xrun s1 l) as [[b s2]|] eqn:Y; [|discriminate]. intros E. assert (s' = s2) by congruence. subst s'.
  destruct (step_ext _ _ _ _ X) as [A B]. destruct (IH _ _ _ Y) as [C D]. rewrite C, D, B, A. cbn [flat_map]. unfold extAfter. rewrite fold_left_app. auto.
Qed.
Lemma extAfter_find st l : okState st -> (forall x, In x l -> okState (fst x)) -> forall m, keysOk m -> keysOk (extAfter l m) /\ extFind st (extAfter l m) = fold_left (pick st) l (extFind st m).
Proof.
  intros S. induction l as [|x l IH]; intros O m K; [split; [exact K|reflexivity]|]. cbn [extAfter fold_left].
  destruct (IH (fun y I => O y (or_intror I)) (extSet (fst x) (snd x) m)) as [A B]; [apply extSet_keys; [exact K|apply O; left; reflexivity]|].
  split; [exact A|]. unfold extAfter in B. rewrite B, extFind_set by (try assumption; apply O; left; reflexivity). reflexivity.
Qed.
Lemma declared_in n l : declared n l = true <-> In n l.
Proof.
  unfold declared. rewrite existsb_exists. split; [intros (x & I & E); destruct (str_eq_dec n x); [subst; exact I|discriminate]|]. intros I. exists n. split; [exact I|]. destruct (str_eq_dec n n); congruence.
Qed.
Lemma declared_ext n a b : (forall x, In x a <-> In x b) -> declared n a = declared n b.
Proof. intros H. destruct (declared n a) eqn:A; symmetry; [apply declared_in, H, declared_in, A|]. destruct (declared n b) eqn:B; [|reflexivity]. apply declared_in, H, declared_in in B. congruence. Qed.
Lemma declare_spec l : forall names ext seen, (forall x, In x seen <-> In x names) ->
  let '(ns, e) := declare l names ext in (forall x, In x ns <-> In x names \/ In x (map fst l)) /\ e = extAfter (defaults seen l) ext.
Proof.
  induction l as [|[n v] l IH]; intros names ext seen H; cbn [declare defaults map fst]; [cbn; split; [intros x; tauto|reflexivity]|].
  rewrite (declared_ext n seen names H). destruct (declared n names) eqn:D.
  - specialize (IH names ext seen H). destruct (declare l names ext) as [ns e]. destruct IH as [A B]. split; [|exact B]. intros x. rewrite A. cbn. apply declared_in in D. intuition congruence.
  - specialize (IH (names ++ [n]) (extSet (mkState n []) v ext) (n :: seen)). destruct (declare l (names ++ [n]) (extSet (mkState n []) v ext)) as [ns e]. destruct IH as [A B].
    + intros x. rewrite in_app_iff. cbn. rewrite H. tauto.
    + split; [|exact B]. intros x. rewrite A, in_app_iff. cbn. tauto.
Qed.
Lemma defaults_ok l : forall seen x, In x (defaults seen l) -> okState (fst x).
Proof.
  induction l as [|[n v] l IH]; intros seen x; cbn [defaults]; [intros []|]. destruct (declared n seen); [apply IH|]. intros [<-|I]; [constructor|apply (IH _ _ I)].
Qed.
Lemma upd1_updates decls names h : (forall x, In x names <-> In x (map fst decls)) -> flat_map (upd1 names) h = updates decls h.
Proof.
  intros H. unfold updates, commands. rewrite flat_flat. induction h as [|o h IH]; [reflexivity|]. cbn [flat_map]. f_equal; [|exact IH].
  destruct o; try reflexivity. cbn [upd1 flat_map]. rewrite app_nil_r. destruct args as [|[] [|]]; try reflexivity. rewrite (declared_ext s _ _ H). reflexivity.
Qed.
Lemma run_known u dup decls h o s st : xrun (xinit u dup decls) h = Some (o, s) -> statesOk decls h -> okState st -> extFind st (x_ext s) = known decls h st.
Proof.
  intros R O S. destruct (run_ext _ _ _ _ R) as [E _]. rewrite E. unfold xinit. pose proof (declare_spec decls [] [] [] (fun x => iff_refl _)) as D. destruct (declare decls [] []) as [ns e] eqn:DE. cbn [x_names x_ext]. destruct D as [D1 D2].
  rewrite (upd1_updates decls) by (intros x; rewrite D1; cbn; tauto). rewrite D2. unfold known, lastOf. fold (pick st).
  destruct (extAfter_find st (defaults [] decls) S (defaults_ok decls []) []) as [K F]; [intros x []|].
  destruct (extAfter_find st (updates decls h) S O _ K) as [_ F2]. rewrite F2, F, fold_left_app. reflexivity.
Qed.
Lemma run_reply u dup decls h o s st : xrun (xinit u dup decls) h = Some (o, s) -> statesOk decls h -> okState st -> lookupReply st (x_ext s) = reply decls h st.
Proof.
  intros R O S. unfold lookupReply, reply. rewrite (run_known _ _ _ _ _ _ _ R O S). destruct (known decls h st) eqn:K; [reflexivity|].
  rewrite (run_known _ _ _ _ _ _ (mkState (s_name st) []) R O (Forall_nil _)). destruct st as [n [|p ps]]; [cbn in *; symmetry; exact K|reflexivity].
Qed.
(** ** Waiting for an answer *)
Definition lookSame (s s' : xad) : Prop := x_sem s' = x_sem s /\ x_res s' = x_res s /\ x_lstate s' = x_lstate s /\ x_lserial s' = x_lserial s /\ (x_phase s' = x_phase s \/ x_phase s' = Stopped).
Lemma lookSame_offerParams label vs : forall i s, lookSame s (snd (offerParams label i vs s)) /\ answersOut (fst (offerParams label i vs s)) = [].
Proof.
  induction vs as [|v vs IH]; intros i s; cbn [offerParams]; [split; [repeat split; auto|reflexivity]|]. unfold offer. destruct (addMessage (x_q s) (paramKey label i) v) as [r q].
  specialize (IH (S i) (setQ q s)). destruct (offerParams label (S i) vs (setQ q s)) as [b s2]. cbn [snd fst] in *. destruct IH as [A B]. split; [exact A|]. unfold answersOut in *. rewrite flat_map_app, B, app_nil_r. clear. induction r; [reflexivity|exact IHr].
Qed.
Lemma answers_map l : answersOut (map OQueue l) = [].
Proof. induction l; [reflexivity|assumption]. Qed.
Ltac ls := unfold stop; cbn [fst snd]; split; [repeat split; auto|reflexivity].
Lemma receive_look net ok ms s : whole ms -> answersWith (x_lserial s) (x_lstate s) ms = None ->
  lookSame s (snd (receiveMessages net ok ms s)) /\ answersOut (fst (receiveMessages net ok ms s)) = [].
Proof.
  destruct ms as [|p r]; [intros []|]. intros (WC & WV & WK). unfold receiveMessages, answersWith, readMsg. destruct (p_what p) eqn:W; intros A; try ls; try (unfold gotPlanFile, gotPlanText; destruct ok; cbn; ls).
  - unfold gotCommand, offer. destruct (addMessage (x_q s) _ _) as [a q]. pose proof (lookSame_offerParams (cmdLabel (p_serial p) (p_uid p)) (map valOf r) 0 (setQ q s)) as [H1 H2].
    destruct (offerParams _ _ _ (setQ q s)) as [b s2]. cbn [snd fst] in *. split; [exact H1|]. unfold answersOut in *. rewrite flat_map_app, H2, app_nil_r. apply answers_map.
  - unfold offer. destruct (addMessage _ _ _). cbn [fst snd]. split; [repeat split; auto|apply answers_map].
  - unfold gotLookup. destruct (lookupReply _ _); [|ls]. snd_. destruct e; ls.
  - unfold gotTelemetry. destruct name as [|c0 name]; [ls|]. destruct r as [|q r]; [ls|]. destruct (p_count p =? 0); [ls|]. destruct (_ =? _); [|ls]. cbn [map] in A. change (streqb (c0 :: name) []) with false in A. cbn iota in A. fold valOf in A.
    change (map (fun q => getPlexilMsgValue (p_what q)) r) with (map valOf r) in A. destruct (state_eq _ _); [discriminate A|ls].
  - unfold gotReturn. destruct r as [|q [|]]; try discriminate WK. cbn [map] in A. destruct (request =? x_lserial s); [discriminate A|].
    destruct (pendFind request (x_pend s)); [|ls]. destruct (p_count p =? 1); [|ls]. destruct (_ =? _); [|ls]. destruct (valOf _); ls.
Qed.
Lemma receive_answer net ok ms s v : whole ms -> answersWith (x_lserial s) (x_lstate s) ms = Some v ->
  receiveMessages net ok ms s = ([], setLook (S (x_sem s)) v (x_lstate s) (x_lserial s) s).
Proof.
  destruct ms as [|p r]; [intros []|]. intros (WC & WV & WK). unfold receiveMessages, answersWith, readMsg. destruct (p_what p) eqn:W; intros A; try discriminate A.
  - unfold gotTelemetry. destruct r as [|q r]; [discriminate A|]. cbn [map] in A. destruct name as [|c0 name]; [discriminate A|]. change (streqb (c0 :: name) []) with false in A. cbn iota in A.
    destruct (Z.eqb_spec (p_count p) 0) as [E|_]; [rewrite WC in E; cbn [length] in E; lia|]. destruct (Z.eqb_spec (p_count p + 1) (Z.of_nat (length (p :: q :: r)))) as [_|E]; [|elim E; rewrite WC; cbn [length]; lia].
    change (map (fun q => getPlexilMsgValue (p_what q)) r) with (map valOf r) in A. destruct (state_eq _ _); [|discriminate A]. injection A as <-. reflexivity.
  - unfold gotReturn. destruct r as [|q [|]]; try discriminate WK. cbn [map] in A. destruct (request =? x_lserial s); [|discriminate A]. injection A as <-. rewrite WC. reflexivity.
Qed.
Definition ircv (x : (nat -> bool) * bool * list part) : xop := IRecv (fst (fst x)) (snd (fst x)) (snd x).
Lemma lookSame_trans a b c : lookSame a b -> lookSame b c -> lookSame a c.
Proof. intros (A1 & A2 & A3 & A4 & A5) (B1 & B2 & B3 & B4 & B5). repeat split; try congruence. destruct A5, B5; [left|right|right|right]; congruence. Qed.
Lemma run_app l1 : forall l2 s o s', xrun s (l1 ++ l2) = Some (o, s') -> exists o1 s1 o2, xrun s l1 = Some (o1, s1) /\ xrun s1 l2 = Some (o2, s') /\ o = o1 ++ o2.
Proof.
  induction l1 as [|x l1 IH]; intros l2 s o s'; cbn [xrun app].
  - intros E. exists [], s, o. auto.
  - destruct (xstep x s) as [[a s1]|]; [|discriminate]. destruct (xrun s1 (l1 ++ l2)) as [[b s2]|] eqn:Y; [|discriminate]. intros E. assert (s' = s2) by congruence. assert (o = a ++ b) by congruence. subst.
    destruct (IH _ _ _ _ Y) as (o1 & s3 & o2 & A & B & ->). rewrite A. exists (a ++ o1), s3, o2. rewrite app_assoc. auto.
Qed.
Lemma answersOut_app a b : answersOut (a ++ b) = answersOut a ++ answersOut b.
Proof. apply flat_map_app. Qed.
(** Messages that answer nothing. *)
Lemma run_silent n st l : (forall x, In x l -> whole (snd x) /\ answersWith n st (snd x) = None) ->
  forall s o s', x_lstate s = st -> (x_lserial s = n \/ exists k, x_phase s = Asking k) -> xrun s (map ircv l) = Some (o, s') -> lookSame s s' /\ answersOut o = [].
Proof.
  intros H. induction l as [|x l IH]; intros s o s' ST SR; cbn [map xrun].
  - intros E. assert (s' = s) by congruence. assert (o = []) by congruence. subst s' o. split; [repeat split; auto|reflexivity].
  - destruct (xstep (ircv x) s) as [[a s1]|] eqn:X; [|discriminate]. destruct (xrun s1 (map ircv l)) as [[b s2]|] eqn:Y; [|discriminate]. intros E. assert (s' = s2) by congruence. assert (o = a ++ b) by congruence. subst s' o.
    destruct (H x (or_introl eq_refl)) as [W A].
    assert (R : lookSame s s1 /\ answersOut a = []).
    { unfold ircv in X. cbn [xstep] in X.
      assert (GEN : (a, s1) = receiveMessages (fst (fst x)) (snd (fst x)) (snd x) s -> (x_lserial s = n \/ needsLookupMutex (snd x) s = false) -> lookSame s s1 /\ answersOut a = []).
      { intros E2 OR. pose proof (receive_look (fst (fst x)) (snd (fst x)) (snd x) s W) as RL. rewrite <- E2 in RL. cbn [fst snd] in RL. apply RL. destruct OR as [-> |NM]; [rewrite ST; exact A|].
        clear - NM. unfold answersWith, needsLookupMutex, readMsg in *. destruct (snd x) as [|p r]; [reflexivity|]. destruct (p_what p); try reflexivity; try discriminate NM. rewrite NM. destruct (map _ r) as [|? [|]]; reflexivity. }
      destruct (x_phase s) eqn:P; try discriminate X; try (apply GEN; [congruence|]; left; destruct SR as [|[k Q]]; [assumption|congruence]).
      destruct (needsLookupMutex (snd x) s) eqn:NM; [discriminate X|]. apply GEN; [congruence|]. right. reflexivity. }
    destruct R as [R1 R2]. pose proof R1 as (L1 & L2 & L3 & L4 & L5).
    destruct (x_phase s1) eqn:P1.
    5: { destruct l as [|y l]; [cbn [map xrun] in Y; assert (s2 = s1) by congruence; assert (b = []) by congruence; subst; rewrite app_nil_r; auto|]. cbn [map xrun] in Y. rewrite stopped_step in Y by exact P1. discriminate Y. }
    all: destruct (IH (fun y I => H y (or_intror I)) s1 b s2) as [R3 R4];
      [congruence | (destruct SR as [SR|[k SR]]; [left; congruence|right; exists k; destruct L5; congruence]) | exact Y | split; [eapply lookSame_trans; eauto|rewrite answersOut_app, R2, R4; reflexivity]].
Qed.
