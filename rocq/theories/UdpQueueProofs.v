(** Proofs about UdpQueueModel.v. *)
From Coq Require Import ZArith List Bool Lia DecimalString Ascii String DecimalNat.
From Verif Require Import ValueModel TypeModel UdpModel UdpQueueModel UdpQueueSpec.
Import ListNotations.

(** ** The map *)
Lemma qget_same {V : Type} m k (q : pairq V) : qget (qset m k q) k = Some q.
Proof.
  induction m as [|[k' q'] r IH]; cbn.
  - destruct (str_eq_dec k k); congruence.
  - destruct (str_eq_dec k k') as [->|N]; cbn; [destruct (str_eq_dec k' k'); congruence|]. destruct (str_eq_dec k k'); congruence.
Qed.
Lemma qget_other {V : Type} m k k' (q : pairq V) : k <> k' -> qget (qset m k' q) k = qget m k.
Proof.
  intros N. induction m as [|[k0 q0] r IH]; cbn.
  - destruct (str_eq_dec k k'); congruence.
  - destruct (str_eq_dec k' k0) as [->|N']; cbn.
    + destruct (str_eq_dec k k0); congruence.
    + destruct (str_eq_dec k k0); auto.
Qed.
Lemma ensure_same {V : Type} m k (q : pairq V) : ensureQueue (qset m k q) k = q.
Proof. unfold ensureQueue. rewrite qget_same. reflexivity. Qed.
Lemma ensure_other {V : Type} m k k' (q : pairq V) : k <> k' -> ensureQueue (qset m k' q) k = ensureQueue m k.
Proof. intros N. unfold ensureQueue. rewrite qget_other; auto. Qed.
Lemma pairUp_eq {V : Type} k r (m : list V) : pairUp k r m = (map (fun cv => (k, fst cv, snd cv)) (combine r m), {| rq := skipn (length m) r; mq := skipn (length r) m |}).
Proof.
  revert m. induction r as [|c r IH]; intros [|v m]; cbn; auto. rewrite IH. reflexivity.
Qed.
Lemma retsOf_map {V : Type} k l : retsOf k (map (fun cv : cmd * V => (k, fst cv, snd cv)) l) = l.
Proof. induction l as [|[c v] r IH]; cbn; auto. destruct (str_eq_dec k k); congruence. Qed.
Lemma retsOf_map_other {V : Type} k k' l : k <> k' -> retsOf k (map (fun cv : cmd * V => (k', fst cv, snd cv)) l) = [].
Proof. intros N. induction l as [|[c v] r IH]; cbn; auto. destruct (str_eq_dec k k'); congruence. Qed.
Lemma retsOf_app {V : Type} k (a b : list (ret V)) : retsOf k (a ++ b) = retsOf k a ++ retsOf k b.
Proof. induction a as [|[[k' c] v] r IH]; cbn; auto. destruct (str_eq_dec k k'); cbn; congruence. Qed.
Lemma combine_split {A B} (R : list A) (M : list B) R' M' :
  combine (R ++ R') (M ++ M') = combine R M ++ combine (skipn (length M) R ++ R') (skipn (length R) M ++ M').
Proof. revert M. induction R as [|r R IH]; intros [|m M]; cbn; auto. f_equal. apply IH. Qed.
Lemma skipn_split {A B} (R : list A) (M : list B) R' M' :
  skipn (length (M ++ M')) (R ++ R') = skipn (length (skipn (length R) M ++ M')) (skipn (length M) R ++ R').
Proof. revert M. induction R as [|r R IH]; intros [|m M]; cbn; auto. Qed.
(** One step of a queue. *)
Definition qfor {V : Type} (s : qmap V) (k : str) : pairq V := ensureQueue (q_map s) k.
Lemma update_eq {V : Type} s k (q : pairq V) : updateQueue s k q
  = (map (fun cv => (k, fst cv, snd cv)) (combine (rq q) (mq q)),
     {| q_map := qset (q_map s) k {| rq := skipn (length (mq q)) (rq q); mq := skipn (length (rq q)) (mq q) |}; q_dup := q_dup s |}).
Proof. unfold updateQueue. rewrite pairUp_eq. reflexivity. Qed.
Definition qinv {V : Type} (s : qmap V) (k : str) (R : list cmd) (M : list V) : Prop :=
  rq (qfor s k) = skipn (length M) R /\ mq (qfor s k) = skipn (length R) M.
Definition recip1 {V : Type} (k : str) (o : qop V) : list cmd := recipsOf k [o].
Definition msg1 {V : Type} (k : str) (o : qop V) : list V := msgsOf k [o].
Lemma recipsOf_app {V : Type} k (a b : list (qop V)) : recipsOf k (a ++ b) = recipsOf k a ++ recipsOf k b.
Proof. induction a as [|[k' c|k' v|x] r IH]; cbn; auto. destruct (str_eq_dec k k'); cbn; congruence. Qed.
Lemma msgsOf_app {V : Type} k (a b : list (qop V)) : msgsOf k (a ++ b) = msgsOf k a ++ msgsOf k b.
Proof. induction a as [|[k' c|k' v|x] r IH]; cbn; auto. destruct (str_eq_dec k k'); cbn; congruence. Qed.
Lemma qstep_inv {V : Type} s k R M (o : qop V) : q_dup s = true -> (forall b, o <> QDup b) -> qinv s k R M ->
  let '(a, s') := qstep s o in
  q_dup s' = true /\ qinv s' k (R ++ recip1 k o) (M ++ msg1 k o)
  /\ retsOf k a = combine (skipn (length M) R ++ recip1 k o) (skipn (length R) M ++ msg1 k o).
Proof.
  intros D N [I1 I2]. destruct o as [k' c|k' v|b]; cbn [qstep]; [| |exfalso; eapply N; reflexivity].
  - unfold addRecipient. rewrite update_eq. cbn [rq mq]. unfold recip1, msg1. cbn [recipsOf msgsOf].
    split; [exact D|]. destruct (str_eq_dec k k') as [->|E].
    + unfold qinv, qfor in *. cbn [q_map]. rewrite ensure_same. cbn [rq mq]. rewrite I1, I2, retsOf_map.
      split; [|rewrite app_nil_r; reflexivity].
      split; [rewrite (skipn_split R M [c] []), app_nil_r; reflexivity|]. rewrite (skipn_split M R [] [c]), app_nil_r; reflexivity.
    + unfold qinv, qfor in *. cbn [q_map]. rewrite ensure_other by exact E. rewrite !app_nil_r, retsOf_map_other by exact E.
      split; [split; assumption|]. clear. revert M. induction R as [|r R IH]; intros [|m M]; cbn; auto.
  - unfold addMessage. rewrite D, update_eq. cbn [rq mq]. unfold recip1, msg1. cbn [recipsOf msgsOf].
    split; [exact D|]. destruct (str_eq_dec k k') as [->|E].
    + unfold qinv, qfor in *. cbn [q_map]. rewrite ensure_same. cbn [rq mq]. rewrite I1, I2, retsOf_map.
      split; [|rewrite app_nil_r; reflexivity].
      split; [rewrite (skipn_split R M [] [v]), app_nil_r; reflexivity|]. rewrite (skipn_split M R [v] []), app_nil_r; reflexivity.
    + unfold qinv, qfor in *. cbn [q_map]. rewrite ensure_other by exact E. rewrite !app_nil_r, retsOf_map_other by exact E.
      split; [split; assumption|]. clear. revert M. induction R as [|r R IH]; intros [|m M]; cbn; auto.
Qed.
Lemma qrun_inv {V : Type} k (l : list (qop V)) : noDupOp l -> forall s R M, q_dup s = true -> qinv s k R M ->
  let '(a, s') := qrun s l in
  qinv s' k (R ++ recipsOf k l) (M ++ msgsOf k l)
  /\ combine R M ++ retsOf k a = combine (R ++ recipsOf k l) (M ++ msgsOf k l).
Proof.
  induction l as [|o r IH]; intros ND s R M D I; cbn [qrun].
  - cbn. rewrite !app_nil_r. auto.
  - pose proof (qstep_inv s k R M o D (fun b E => ND b (or_introl E)) I) as S. destruct (qstep s o) as [a s1]. destruct S as (D1 & I1 & E1).
    specialize (IH (fun b X => ND b (or_intror X)) s1 _ _ D1 I1). destruct (qrun s1 r) as [b s2]. destruct IH as [I2 E2].
    change (o :: r) with ([o] ++ r). rewrite recipsOf_app, msgsOf_app. fold (recip1 k o) (msg1 k o). rewrite !app_assoc. split; [exact I2|].
    rewrite <- E2, retsOf_app, E1, app_assoc. f_equal. symmetry. apply combine_split.
Qed.
(** ** Keeping only the newest *)
Definition ninv {V : Type} (s : qmap V) (k : str) (w : list cmd) (p : option V) : Prop :=
  rq (qfor s k) = w /\ mq (qfor s k) = match p with Some v => [v] | None => [] end /\ (w = [] \/ p = None).
Lemma qrun_newest {V : Type} k (l : list (qop V)) : noDupOp l -> forall s w p, q_dup s = false -> ninv s k w p ->
  retsOf k (fst (qrun s l)) = newest k w p l.
Proof.
  induction l as [|o r IH]; intros ND s w p D (I1 & I2 & I3); cbn [qrun newest]; [reflexivity|].
  assert (ND' : noDupOp r) by (intros b X; exact (ND b (or_intror X))).
  destruct o as [k' c|k' v|b]; cbn [qstep]; [| |exfalso; exact (ND b (or_introl eq_refl))].
  - unfold addRecipient. rewrite update_eq. cbn [rq mq]. unfold qfor in *. destruct (str_eq_dec k k') as [<-|E].
    + rewrite I1, I2. match goal with |- context [qrun ?s1 r] => set (s1' := s1) end. specialize (IH ND' s1').
      destruct p as [v|].
      * destruct I3 as [->|]; [|discriminate]. specialize (IH [] None D).
        assert (N : ninv s1' k [] None). { unfold ninv, qfor, s1'. cbn [q_map]. rewrite ensure_same. cbn. auto. }
        specialize (IH N). destruct (qrun s1' r) as [a s2]. cbn [fst] in *. rewrite retsOf_app, IH. cbn [app combine map]. cbn.
        destruct (str_eq_dec k k); [reflexivity|congruence].
      * specialize (IH (w ++ [c]) None D).
        assert (N : ninv s1' k (w ++ [c]) None).
        { unfold ninv, qfor, s1'. cbn [q_map]. rewrite ensure_same. cbn [rq mq length skipn]. rewrite app_length. cbn [length]. rewrite Nat.add_comm. cbn. auto. }
        specialize (IH N). destruct (qrun s1' r) as [a s2]. cbn [fst] in *. rewrite retsOf_app, IH, retsOf_map.
        destruct (w ++ [c]); reflexivity.
    + match goal with |- context [qrun ?s1 r] => set (s1' := s1) end. specialize (IH ND' s1' w p D).
      assert (N : ninv s1' k w p). { unfold ninv, qfor, s1'. cbn [q_map]. rewrite ensure_other by exact E. auto. }
      specialize (IH N). destruct (qrun s1' r) as [a s2]. cbn [fst] in *. rewrite retsOf_app, retsOf_map_other by exact E. exact IH.
  - unfold addMessage. rewrite D, update_eq. cbn [rq mq app]. unfold qfor in *. destruct (str_eq_dec k k') as [<-|E].
    + rewrite I1. match goal with |- context [qrun ?s1 r] => set (s1' := s1) end. specialize (IH ND' s1').
      destruct w as [|c w].
      * specialize (IH [] (Some v) D).
        assert (N : ninv s1' k [] (Some v)). { unfold ninv, qfor, s1'. cbn [q_map]. rewrite ensure_same. cbn. auto. }
        specialize (IH N). destruct (qrun s1' r) as [a s2]. cbn [fst] in *. exact IH.
      * specialize (IH w None D).
        assert (N : ninv s1' k w None). { unfold ninv, qfor, s1'. cbn [q_map]. rewrite ensure_same. cbn. rewrite skipn_nil. auto. }
        specialize (IH N). destruct (qrun s1' r) as [a s2]. cbn [fst] in *. cbn. destruct w; cbn; (destruct (str_eq_dec k k); [congruence|congruence]).
    + match goal with |- context [qrun ?s1 r] => set (s1' := s1) end. specialize (IH ND' s1' w p D).
      assert (N : ninv s1' k w p). { unfold ninv, qfor, s1'. cbn [q_map]. rewrite ensure_other by exact E. auto. }
      specialize (IH N). destruct (qrun s1' r) as [a s2]. cbn [fst] in *. rewrite retsOf_app, retsOf_map_other by exact E. exact IH.
Qed.
(** ** Names of queues *)
Lemma chars_inj a b : chars a = chars b -> a = b.
Proof.
  unfold chars. intros H. assert (E : list_ascii_of_string a = list_ascii_of_string b).
  { revert H. generalize (list_ascii_of_string a) (list_ascii_of_string b). induction l as [|x l IH]; intros [|y l']; cbn; try discriminate; auto.
    intros H. injection H as H1 H2. f_equal; auto. apply Nat2Z.inj in H1. rewrite <- (ascii_nat_embedding x), <- (ascii_nat_embedding y). congruence. }
  rewrite <- (string_of_list_ascii_of_string a), <- (string_of_list_ascii_of_string b). congruence.
Qed.
Lemma decimal_inj a b : decimal a = decimal b -> a = b.
Proof.
  unfold decimal. intros H. apply chars_inj in H.
  assert (E : NilEmpty.uint_of_string (NilEmpty.string_of_uint (Nat.to_uint a)) = NilEmpty.uint_of_string (NilEmpty.string_of_uint (Nat.to_uint b))) by congruence.
  rewrite !NilEmpty.usu in E. injection E as E. apply Unsigned.to_uint_inj in E. exact E.
Qed.
Definition isDigit (c : Z) : Prop := (48 <= c < 58)%Z.
Lemma uint_digits u : Forall isDigit (chars (NilEmpty.string_of_uint u)).
Proof. unfold chars, isDigit. induction u; cbn; constructor; auto; lia. Qed.
Lemma decimal_digits n : Forall isDigit (decimal n).
Proof. apply uint_digits. Qed.
(** A suffix of digits after a character that is no digit is unique. *)
Lemma digits_suffix a x u b y v : Forall isDigit u -> Forall isDigit v -> ~ isDigit x -> ~ isDigit y ->
  a ++ x :: u = b ++ y :: v -> a = b /\ x = y /\ u = v.
Proof.
  intros U V X Y H.
  assert (K : forall a x u b y v, Forall isDigit u -> Forall isDigit v -> ~ isDigit x -> ~ isDigit y ->
    u ++ x :: a = v ++ y :: b -> a = b /\ x = y /\ u = v).
  { clear. intros a x u. induction u as [|c u IH]; intros b y v U V X Y E; destruct v as [|d v]; cbn in E; injection E as E1 E2.
    - auto.
    - subst. inversion V; contradiction.
    - subst. inversion U; contradiction.
    - inversion U; inversion V; subst. apply IH in E2; auto. intuition congruence. }
  apply (f_equal (@rev Z)) in H. rewrite !rev_app_distr in H. cbn [rev] in H. rewrite <- !app_assoc in H. cbn [app] in H.
  apply K in H; auto using Forall_rev. destruct H as (A & B & C). apply (f_equal (@rev Z)) in A, C. rewrite !rev_involutive in A, C. auto.
Qed.
Lemma us_nodigit : ~ isDigit 95. Proof. unfold isDigit. lia. Qed.
Lemma colon_nodigit : ~ isDigit 58. Proof. unfold isDigit. lia. Qed.
Lemma paramKey_inj l i l' i' : paramKey l i = paramKey l' i' -> l = l' /\ i = i'.
Proof.
  unfold paramKey. intros H. apply app_inv_head in H. change (chars "_") with [95%Z] in H. cbn [app] in H.
  apply digits_suffix in H; auto using decimal_digits, us_nodigit. destruct H as (A & _ & B). apply decimal_inj in B. auto.
Qed.
Lemma commandKey_inj a b : commandKey a = commandKey b -> a = b.
Proof. unfold commandKey. intros H. apply app_inv_head in H. apply app_inv_tail in H. exact H. Qed.
Lemma command_param a l i : commandKey a <> paramKey l i.
Proof. unfold commandKey, paramKey, chars. cbn. discriminate. Qed.
Lemma msgLabel_inj a n b k : msgLabel a n = msgLabel b k -> a = b /\ n = k.
Proof.
  unfold msgLabel. intros H. change (chars ":msg_parameter:") with (chars ":msg_parameter" ++ [58%Z]) in H.
  rewrite <- !app_assoc, !(app_assoc _ (chars ":msg_parameter")) in H. cbn [app] in H.
  apply digits_suffix in H; auto using decimal_digits, colon_nodigit. destruct H as (A & _ & B). apply app_inv_tail in A. apply decimal_inj in B. auto.
Qed.
(** ** The adapter as queue operations *)
Fixpoint paramOps (label : str) (i : nat) (vs : list tval) : list (qop tval) :=
  match vs with [] => [] | v :: r => QMsg (paramKey label i) v :: paramOps label (S i) r end.
Definition ops1 (d : defs) (n : nat) (o : aop) : list (qop tval) :=
  match o with
  | ARecv c args _ => match recvRequest args with Some name => [QRecip (commandKey name) c] | None => [] end
  | AGet c args => match getRequest d args with Some (l, i) => [QRecip (paramKey l i) c] | None => [] end
  | AAbort _ => []
  | ADgram name m buf => QMsg (commandKey name) (TVs (SS (msgLabel name n))) :: paramOps (msgLabel name n) 0 (fst (handleUdpMessage m buf))
  end.
Definition next (n : nat) (o : aop) : nat := match o with ADgram _ _ _ => S n | _ => n end.
Fixpoint opsOf (d : defs) (n : nat) (h : list aop) : list (qop tval) :=
  match h with [] => [] | o :: r => ops1 d n o ++ opsOf d (next n o) r end.
Lemma qrun_app {V : Type} (s : qmap V) a b : qrun s (a ++ b) = let '(x, s1) := qrun s a in let '(y, s2) := qrun s1 b in (x ++ y, s2).
Proof.
  revert s. induction a as [|o r IH]; intros s; cbn [app qrun].
  - destruct (qrun s b); reflexivity.
  - destruct (qstep s o) as [x s1]. rewrite IH. destruct (qrun s1 r) as [y s2]. destruct (qrun s2 b) as [z s3]. rewrite app_assoc. reflexivity.
Qed.
Lemma queueParams_ops vs : forall s l i, queueParams s l i vs = qrun s (paramOps l i vs).
Proof.
  induction vs as [|v r IH]; intros s l i; cbn [queueParams paramOps qrun qstep]; auto.
  destruct (addMessage s (paramKey l i) v) as [a s1]. rewrite IH. reflexivity.
Qed.
Lemma astep_ops d s o : let '(x, s') := astep d s o in
  (snd x, a_q s') = qrun (a_q s) (ops1 d (a_counter s) o) /\ a_counter s' = next (a_counter s) o.
Proof.
  destruct o as [c args op|c args|c|name m buf]; cbn [astep ops1 next].
  - destruct (recvRequest args) as [name|]; [|cbn; auto]. cbn [qrun qstep]. destruct (addRecipient (a_q s) (commandKey name) c) as [a q]. cbn.
    rewrite app_nil_r. auto.
  - destruct (getRequest d args) as [[l i]|]; [|cbn; auto]. cbn [qrun qstep]. destruct (addRecipient (a_q s) (paramKey l i) c) as [a q]. cbn.
    rewrite app_nil_r. auto.
  - cbn; auto.
  - cbn [qrun qstep]. destruct (addMessage (a_q s) (commandKey name) (TVs (SS (msgLabel name (a_counter s))))) as [a q1].
    rewrite queueParams_ops. destruct (qrun q1 (paramOps (msgLabel name (a_counter s)) 0 (fst (handleUdpMessage m buf)))) as [b q2]. cbn. auto.
Qed.
Lemma arun_ops d h : forall s, let '(x, s') := arun d s h in (snd x, a_q s') = qrun (a_q s) (opsOf d (a_counter s) h).
Proof.
  induction h as [|o r IH]; intros s; cbn [arun opsOf]; [reflexivity|].
  pose proof (astep_ops d s o) as A. destruct (astep d s o) as [x s1]. destruct A as [A1 A2].
  specialize (IH s1). destruct (arun d s1 r) as [y s2]. rewrite qrun_app, <- A1, <- A2, <- IH. reflexivity.
Qed.
Lemma paramOps_nodup l i vs : noDupOp (paramOps l i vs).
Proof. revert i. induction vs; intros i b; cbn; [tauto|]. intros [X|X]; [discriminate|]. eapply IHvs; eauto. Qed.
Lemma opsOf_nodup d h : forall n, noDupOp (opsOf d n h).
Proof.
  induction h as [|o r IH]; intros n b; cbn [opsOf]; [intros []|]. intros X. apply in_app_or in X as [X|X]; [|eapply IH; eauto].
  destruct o as [c args op|c args|c|name m buf]; cbn [ops1] in X.
  - destruct (recvRequest args); cbn in X; intuition discriminate.
  - destruct (getRequest d args) as [[? ?]|]; cbn in X; intuition discriminate.
  - exact X.
  - destruct X as [X|X]; [discriminate|]. eapply paramOps_nodup; eauto.
Qed.
(** *** Which queue operations concern a message or a parameter *)
Lemma recips_paramOps k l i vs : recipsOf k (paramOps l i vs) = [].
Proof. revert i. induction vs; intros i; cbn; auto. Qed.
Lemma msgs_paramOps_command a l i vs : msgsOf (commandKey a) (paramOps l i vs) = [].
Proof.
  revert i. induction vs; intros i; cbn [paramOps msgsOf]; auto. destruct (str_eq_dec (commandKey a) (paramKey l i)) as [E|E]; auto.
  exfalso. eapply command_param; eauto.
Qed.
Lemma msgs_paramOps_other l0 j l i vs : l0 <> l -> msgsOf (paramKey l0 j) (paramOps l i vs) = [].
Proof.
  intros N. revert i. induction vs; intros i; cbn [paramOps msgsOf]; auto. destruct (str_eq_dec (paramKey l0 j) (paramKey l i)) as [E|E]; auto.
  apply paramKey_inj in E. tauto.
Qed.
Lemma msgs_paramOps_same l i vs : forall j, msgsOf (paramKey l (i + j)) (paramOps l i vs) = match nth_error vs j with Some v => [v] | None => [] end.
Proof.
  revert i. induction vs as [|v r IH]; intros i j; cbn [paramOps msgsOf].
  - destruct j; reflexivity.
  - destruct j as [|j].
    + rewrite Nat.add_0_r. destruct (str_eq_dec (paramKey l i) (paramKey l i)); [|congruence]. cbn [nth_error]. f_equal.
      assert (K : forall k, (i < k)%nat -> msgsOf (paramKey l i) (paramOps l k r) = []).
      { clear. induction r; intros k K; cbn [paramOps msgsOf]; auto. destruct (str_eq_dec (paramKey l i) (paramKey l k)) as [E|E]; [|apply IHr; lia].
        apply paramKey_inj in E. lia. }
      apply K. lia.
    + destruct (str_eq_dec (paramKey l (i + S j)) (paramKey l i)) as [E|E]; [apply paramKey_inj in E; lia|].
      replace (i + S j)%nat with (S i + j)%nat by lia. rewrite IH. reflexivity.
Qed.
Lemma recips_command d name h : forall n, recipsOf (commandKey name) (opsOf d n h) = receivers name h.
Proof.
  induction h as [|o r IH]; intros n; cbn [opsOf]; [reflexivity|]. rewrite recipsOf_app, IH.
  destruct o as [c args op|c args|c|nm m buf]; cbn [ops1 receivers].
  - unfold recvRequest. destruct args as [|[[[b|z|x|s]| |]|] [|]]; try reflexivity. cbn [recipsOf].
    destruct (str_eq_dec (commandKey name) (commandKey s)) as [E|E], (str_eq_dec name s) as [E'|E']; try reflexivity.
    + apply commandKey_inj in E. contradiction.
    + subst. contradiction.
  - destruct (getRequest d args) as [[l i]|]; [|reflexivity]. cbn [recipsOf].
    destruct (str_eq_dec (commandKey name) (paramKey l i)) as [E|E]; [exfalso; eapply command_param; eauto|reflexivity].
  - reflexivity.
  - cbn [recipsOf]. rewrite recips_paramOps. reflexivity.
Qed.
Lemma msgs_command d name h : forall n, msgsOf (commandKey name) (opsOf d n h) = labelsFrom n name (datagrams h).
Proof.
  induction h as [|o r IH]; intros n; cbn [opsOf]; [reflexivity|]. rewrite msgsOf_app, IH.
  destruct o as [c args op|c args|c|nm m buf]; cbn [ops1 datagrams next labelsFrom].
  - destruct (recvRequest args); reflexivity.
  - destruct (getRequest d args) as [[l i]|]; reflexivity.
  - reflexivity.
  - cbn [msgsOf]. rewrite msgs_paramOps_command.
    destruct (str_eq_dec (commandKey name) (commandKey nm)) as [E|E], (str_eq_dec name nm) as [E'|E']; try reflexivity.
    + subst. reflexivity.
    + apply commandKey_inj in E. contradiction.
    + subst. contradiction.
Qed.
Lemma recips_param d l i h : forall n, recipsOf (paramKey l i) (opsOf d n h) = askers d l i h.
Proof.
  induction h as [|o r IH]; intros n; cbn [opsOf]; [reflexivity|]. rewrite recipsOf_app, IH.
  destruct o as [c args op|c args|c|nm m buf]; cbn [ops1 askers].
  - destruct (recvRequest args) as [s|]; [|reflexivity]. cbn [recipsOf].
    destruct (str_eq_dec (paramKey l i) (commandKey s)) as [E|E]; [exfalso; eapply command_param; eauto|reflexivity].
  - destruct (getRequest d args) as [[l' i']|]; [|reflexivity]. cbn [recipsOf].
    destruct (str_eq_dec (paramKey l i) (paramKey l' i')) as [E|E].
    + apply paramKey_inj in E as [-> ->]. destruct (str_eq_dec l' l'); [|congruence]. destruct (Nat.eq_dec i' i'); [reflexivity|congruence].
    + destruct (str_eq_dec l l') as [->|]; [|reflexivity]. destruct (Nat.eq_dec i i') as [->|]; [contradiction|reflexivity].
  - reflexivity.
  - cbn [recipsOf]. rewrite recips_paramOps. reflexivity.
Qed.
Lemma msgs_param_none d name k i h : forall n, (k < n)%nat -> msgsOf (paramKey (msgLabel name k) i) (opsOf d n h) = [].
Proof.
  induction h as [|o r IH]; intros n K; cbn [opsOf]; [reflexivity|]. rewrite msgsOf_app, IH by (destruct o; cbn; lia). rewrite app_nil_r.
  destruct o as [c args op|c args|c|nm m buf]; cbn [ops1].
  - destruct (recvRequest args); reflexivity.
  - destruct (getRequest d args) as [[? ?]|]; reflexivity.
  - reflexivity.
  - cbn [msgsOf]. destruct (str_eq_dec (paramKey (msgLabel name k) i) (commandKey nm)) as [E|E]; [exfalso; eapply command_param; eauto|].
    apply msgs_paramOps_other. intros E'. apply msgLabel_inj in E'. lia.
Qed.
Lemma msgs_param d name k i h : forall n, msgsOf (paramKey (msgLabel name (n + k)) i) (opsOf d n h)
  = match nth_error (datagrams h) k with
    | Some (s, vs) => if str_eq_dec name s then match nth_error vs i with Some v => [v] | None => [] end else []
    | None => []
    end.
Proof.
  revert k. induction h as [|o r IH]; intros k n; cbn [opsOf]; [destruct k; reflexivity|]. rewrite msgsOf_app.
  destruct o as [c args op|c args|c|nm m buf]; cbn [ops1 datagrams next].
  - rewrite IH. destruct (recvRequest args); reflexivity.
  - rewrite IH. destruct (getRequest d args) as [[? ?]|]; reflexivity.
  - rewrite IH. reflexivity.
  - cbn [msgsOf]. destruct (str_eq_dec (paramKey (msgLabel name (n + k)) i) (commandKey nm)) as [E|E]; [exfalso; eapply command_param; eauto|].
    destruct k as [|k].
    + rewrite Nat.add_0_r, msgs_param_none by lia. rewrite app_nil_r. cbn [nth_error]. destruct (str_eq_dec name nm) as [<-|N].
      * apply (msgs_paramOps_same (msgLabel name n) 0).
      * apply msgs_paramOps_other. intros E'. apply msgLabel_inj in E'. tauto.
    + rewrite msgs_paramOps_other by (intros E'; apply msgLabel_inj in E'; lia). cbn [nth_error]. replace (n + S k)%nat with (S n + k)%nat by lia. apply IH.
Qed.
