(** C79: a simulator script means what it says. *)
From Coq Require Import ZArith Reals List Bool Lia String.
From Flocq Require Import Core BinarySingleNaN.
From Verif Require Import ValueModel FloatModel TypeModel UdpQueueModel LitModel LitSpec LitProofs ResFileModel ResFileSpec ResFileProofs ScriptModel ScriptSpec.
Import ListNotations.
Open Scope Z_scope.

(** ** Lines *)
Lemma dropBlanks_app b t : margin b -> dropBlanks (b ++ t) = dropBlanks t.
Proof. induction 1 as [|c b I F IH]; [reflexivity|]. cbn [app dropBlanks]. cbn in I. destruct I as [<- |[<- |[<- |[<- |[]]]]]; exact IH. Qed.
Lemma digitVal_alnum c : digitVal c <? 36 = true <-> alnum c.
Proof.
  split.
  - intros H. apply Z.ltb_lt in H. exists (digitVal c). apply (digitVal_lt_char 36); lia.
  - intros (d & H). rewrite (digitVal_char c d H). apply Z.ltb_lt. destruct H as [[H _]|[H _]]; lia.
Qed.
Lemma dropBlanks_stop c r : ~ In c [9; 10; 13; 32] -> dropBlanks (c :: r) = c :: r.
Proof.
  intros N. cbn [dropBlanks]. cbn in N. destruct (Z.eqb_spec c 32); [exfalso; auto 6|]. destruct (Z.eqb_spec c 9); [exfalso; auto 6|]. destruct (Z.eqb_spec c 10); [exfalso; auto 6|]. destruct (Z.eqb_spec c 13); [exfalso; auto 6|]. reflexivity.
Qed.
Lemma alnum_not_blank c : alnum c -> ~ isBlank c.
Proof. intros (d & H) B. apply blank_cases in B. destruct H as [[? ?]|[? [?|?]]]; lia. Qed.
Lemma data_kept l : dataLine l -> ignored l = false.
Proof.
  intros (_ & b & c & r & -> & M & A). unfold ignored. rewrite dropBlanks_app by exact M. rewrite dropBlanks_stop; [apply negb_false_iff; now apply digitVal_alnum|].
  intros I. apply (alnum_not_blank c A). cbn in I |- *. intuition.
Qed.
Lemma remark_ignored l : remark l -> ignored l = true.
Proof.
  intros [_ [M|(b & c & r & -> & M & N & A)]]; unfold ignored.
  - rewrite <- (app_nil_r l), dropBlanks_app by exact M. reflexivity.
  - rewrite dropBlanks_app by exact M. rewrite dropBlanks_stop by exact N. apply negb_true_iff. destruct (digitVal c <? 36) eqn:E; [|reflexivity]. elim A. now apply digitVal_alnum.
Qed.
Lemma getLine_data l r : dataLine l -> getLine (l :: r) = (l, r).
Proof. intros D. cbn [getLine]. destruct r; [reflexivity|]. now rewrite (data_kept l D). Qed.
Lemma getLine_remark l r : remark l -> r <> [] -> getLine (l :: r) = getLine r.
Proof. intros D N. cbn [getLine]. destruct r; [congruence|]. now rewrite (remark_ignored l D). Qed.
Lemma getLine_remarks rs l r : Forall remark rs -> dataLine l -> getLine (rs ++ l :: r) = (l, r).
Proof. intros F D. induction F as [|x rs R F IH]; [now apply getLine_data|]. cbn [app]. rewrite getLine_remark; [exact IH|exact R|destruct rs; discriminate]. Qed.

(** ** Words and numbers *)
Lemma nextWord_cons s w l : hasWords s (w :: l) -> exists t, nextWord s = Some (w, t) /\ stopB t /\ hasWords t l.
Proof.
  intros H. apply hasWords_skip in H as ([NE F] & t & E & ST & H). exists t. unfold nextWord. rewrite E. destruct w as [|c w]; [congruence|]. cbn [app].
  change (c :: w ++ t) with ((c :: w) ++ t). rewrite takeWord_app by assumption. auto.
Qed.
Lemma stop_stops b t : b <= 36 -> stopB t -> stops b t.
Proof. intros B [-> |H]; [exact I|]. destruct t as [|c t]; [exact I|]. cbn [hd] in H. cbn [stops]. apply blank_cases in H. assert (digitVal c = 99) by (destruct H as [-> |[-> |[-> |[-> |[-> | ->]]]]]; reflexivity). lia. Qed.
Lemma readUnsigned_word s w l a m : hasWords s (w :: l) -> numeral 10 w a -> a < m -> exists t, readUnsigned m s = Some (a, t) /\ hasWords t l.
Proof.
  intros H N L. apply hasWords_skip in H as ([NE F] & t & E & ST & H). exists t. split; [|exact H].
  assert (P : 0 <= a) by (eapply numeral_nonneg; [|exact N]; lia).
  destruct N as (ds & D & NED & ->). unfold readUnsigned, strtoMag. rewrite E.
  assert (TS : takeSign (w ++ t) = (false, w ++ t)).
  { destruct D as [|c d w' ds' [DC _] D]; [congruence|]. apply (takeSign_app [] false). constructor. cbn [app]. apply (digitChar_starts c d _ DC). }
  rewrite TS. change (10 =? 0) with false. cbn iota. rewrite (takeDigits_app 10 w ds t D (stop_stops 10 t ltac:(lia) ST)).
  destruct ds as [|d ds]; [congruence|]. rewrite number_positional. destruct (Z.ltb_spec (positional 10 (d :: ds)) m); [|lia]. rewrite Z.mod_small by lia. reflexivity.
Qed.
Lemma floatBody_digits p ds : digitsIn 10 p ds -> forall m d e t, floatBody m d e (p ++ t) = let '(b, u) := floatBody (m || match p with [] => false | _ => true end) d e t in (p ++ b, u).
Proof.
  induction 1 as [|c x p ds [DC L] D IH]; intros m d e t.
  - rewrite orb_false_r. cbn [app]. destruct (floatBody m d e t); reflexivity.
  - cbn [app floatBody]. rewrite (digitVal_char c x DC). destruct (Z.ltb_spec x 10); [|lia]. rewrite IH. rewrite orb_true_r. cbn [orb]. destruct (floatBody true d e t). reflexivity.
Qed.
Lemma floatBody_stop m d e t : stopB t -> floatBody m d e t = ([], t).
Proof.
  intros [-> |H]; [reflexivity|]. destruct t as [|c t]; [reflexivity|]. cbn [hd] in H. apply blank_cases in H. destruct H as [-> |[-> |[-> |[-> |[-> | ->]]]]]; destruct m, d, e; reflexivity.
Qed.
Lemma floatBody_word w m k t : mantissa 10 w m k -> stopB t -> floatBody false false false (w ++ t) = (w, t).
Proof.
  intros (a & b & da & db & A & B & NE & SH & _) ST. destruct SH as [[-> ->]| ->].
  - rewrite (floatBody_digits a da A). rewrite floatBody_stop by exact ST. now rewrite app_nil_r.
  - rewrite <- app_assoc. rewrite (floatBody_digits a da A). cbn [app floatBody]. change (digitVal 46 <? 10) with false. change (46 =? 46) with true. cbn [andb negb]. rewrite (floatBody_digits b db B). rewrite floatBody_stop by exact ST. now rewrite app_nil_r.
Qed.
Lemma finite_not_inf (x : fl) : is_finite x = true -> isInf x = false.
Proof. destruct x; auto; discriminate. Qed.
Lemma mantissa_first w m k : mantissa 10 w m k -> exists c r, w = c :: r /\ (c =? 43) || (c =? 45) = false.
Proof.
  intros (a & b & da & db & A & B & NE & SH & _).
  assert (F : forall p ds, digitsIn 10 p ds -> forall c r, p = c :: r -> (c =? 43) || (c =? 45) = false).
  { intros p ds D c r ->. inversion D as [|? d ? ? [DC _]]; subst. destruct (Z.eqb_spec c 43), (Z.eqb_spec c 45); try reflexivity; destruct DC as [[? ?]|[? [?|?]]]; lia. }
  destruct SH as [[-> ->]| ->].
  - destruct a as [|c r]; [inversion A; subst; inversion B; subst; elim NE; reflexivity|]. exists c, r. split; [reflexivity|]. eapply F; [exact A|reflexivity].
  - destruct a as [|c r]; [exists 46, b; split; reflexivity|]. exists c, (r ++ 46 :: b). split; [reflexivity|]. eapply F; [exact A|reflexivity].
Qed.
Lemma readDouble_word s w l x : hasWords s (w :: l) -> delayIs w x -> exists t, readDouble s = Some (x, t).
Proof.
  intros H ((m & k & M) & E & FI). apply hasWords_skip in H as (_ & t & ES & ST & _). exists t. unfold readDouble. rewrite ES.
  destruct (mantissa_first w m k M) as (c & r & -> & NS). cbn [app]. rewrite NS. change (c :: r ++ t) with ((c :: r) ++ t). rewrite (floatBody_word _ m k) by assumption. cbn [app]. rewrite E. now rewrite finite_not_inf.
Qed.
Lemma commandHeader_words s i k d ws a b x : hasWords s (i :: k :: d :: ws) -> numeral 10 i a -> a < 2 ^ 64 -> numeral 10 k b -> b < 2 ^ 32 -> delayIs d x -> commandHeader s = Some (a, b, x).
Proof.
  intros H A LA B LB D. unfold commandHeader. destruct (readUnsigned_word s i _ a (2 ^ 64) H A LA) as (t1 & -> & H1). destruct (readUnsigned_word t1 k _ b (2 ^ 32) H1 B LB) as (t2 & -> & H2).
  destruct (readDouble_word t2 d _ x H2 D) as (t3 & ->). reflexivity.
Qed.
(** ** Values *)
Lemma handle_index i : (1 <= i < 10)%nat -> parseName handleNames (nameOf handleNames i) = i.
Proof. intros H. do 10 (destruct i as [|i]; [first [lia|vm_compute; reflexivity]|]). lia. Qed.
Lemma readValue_is ty v y : valueIs ty v y -> readValue ty v = Some y.
Proof.
  intros [l b E|l z E|l x E|l|i H]; unfold readValue.
  - change (BOOLEAN_TYPE =? BOOLEAN_TYPE) with true. cbn iota. now rewrite E.
  - change (INTEGER_TYPE =? BOOLEAN_TYPE) with false. change (INTEGER_TYPE =? INTEGER_TYPE) with true. cbn iota. now rewrite E.
  - change (REAL_TYPE =? BOOLEAN_TYPE) with false. change (REAL_TYPE =? INTEGER_TYPE) with false. change (REAL_TYPE =? REAL_TYPE) with true. cbn iota. now rewrite E.
  - reflexivity.
  - change (COMMAND_HANDLE_TYPE =? BOOLEAN_TYPE) with false. change (COMMAND_HANDLE_TYPE =? INTEGER_TYPE) with false. change (COMMAND_HANDLE_TYPE =? REAL_TYPE) with false.
    change (COMMAND_HANDLE_TYPE =? STRING_TYPE) with false. change (COMMAND_HANDLE_TYPE =? COMMAND_HANDLE_TYPE) with true. cbn iota. now rewrite handle_index.
Qed.
(** ** Entries *)
Lemma telemetry_ok n rest d ws x rs v ty y tab tel compat ls : hasWords rest (d :: ws) -> delayIs d x -> Forall remark rs -> dataLine v -> valueIs ty v y ->
  parseTelemetry n rest ty tab tel compat (rs ++ v :: ls) = Go [ETelemetry n x y] tab tel compat ls.
Proof. intros H D F V Y. unfold parseTelemetry. destruct (readDouble_word rest d ws x H D) as (t & ->). rewrite getLine_remarks by assumption. now rewrite (readValue_is ty v y Y). Qed.
Lemma command_ok n rest i k d ws a b x rs v ty y tab tel compat ls : hasWords rest (i :: k :: d :: ws) -> numeral 10 i a -> a < 2 ^ 64 -> numeral 10 k b -> b < 2 ^ 32 -> delayIs d x ->
  Forall remark rs -> dataLine v -> valueIs ty v y -> ls <> [] ->
  parseCommand n rest ty tab tel compat (rs ++ v :: ls) = Go [EManager n; ECommand n a b x y] tab tel compat ls.
Proof.
  intros H A LA B LB D F V Y NE. unfold parseCommand. rewrite (commandHeader_words rest i k d ws a b x) by assumption. rewrite getLine_remarks by assumption. destruct ls; [congruence|]. now rewrite (readValue_is ty v y Y).
Qed.
Lemma findSym_none n tab : undeclared n tab -> findSym n tab = None.
Proof.
  unfold undeclared, findSym. intros N. replace (find _ tab) with (@None (str * (bool * Z))); [reflexivity|]. induction tab as [|[m k] tab IH]; [reflexivity|]. cbn [find fst]. cbn [map fst In] in N. destruct (streq m n) eqn:E; [apply streq_true in E; subst; elim N; now left|]. apply IH. intros I. apply N. now right.
Qed.
Lemma findSym_some n k tab : NoDup (map fst tab) -> In (n, k) tab -> findSym n tab = Some k.
Proof.
  unfold findSym. induction tab as [|[m j] tab IH]; [intros _ []|]. cbn [map fst find]. intros ND I. inversion ND as [|? ? NI ND']; subst. destruct I as [[= -> ->]|I].
  - assert (E : streq n n = true) by now apply streq_true. rewrite E. reflexivity.
  - destruct (streq m n) eqn:E; [|now apply IH]. apply streq_true in E. subst. elim NI. apply (in_map fst) in I. exact I.
Qed.
Lemma nodup_snoc (tab : table) n k : NoDup (map fst tab) -> undeclared n tab -> NoDup (map fst (tab ++ [(n, k)])).
Proof.
  intros ND N. rewrite map_app. cbn [map fst]. apply NoDup_Add with (a := n) (l := map fst tab); [|split; [exact ND|exact N]]. rewrite <- (app_nil_r (map fst tab)) at 1. apply Add_app.
Qed.
(** ** The loop *)
Lemma loop_remark f tab tel compat l r : remark l -> r <> [] -> readLoop (S f) tab tel compat (l :: r) = readLoop (S f) tab tel compat r.
Proof. intros R NE. cbn [readLoop]. rewrite getLine_remark by assumption. destruct r; [congruence|]. reflexivity. Qed.
Lemma loop_data f tab tel compat l r w ws : dataLine l -> hasWords l (w :: ws) -> exists t, hasWords t ws /\ readLoop (S f) tab tel compat (l :: r) =
  match scriptLine w t tab tel compat r with
  | Stop ok es => (ok, es, tab)
  | Go es tab' tel' compat' ls' => let '(ok, es', tab'') := readLoop f tab' tel' compat' ls' in (ok, es ++ es', tab'')
  end.
Proof. intros D H. destruct (nextWord_cons l w ws H) as (t & E & _ & H'). exists t. split; [exact H'|]. cbn [readLoop]. rewrite getLine_data by exact D. rewrite E. reflexivity. Qed.
Lemma streq_no a b : a <> b -> streq a b = false.
Proof. intros N. now apply streq_false. Qed.
Lemma type_word w : parseValueType w <> UNKNOWN_TYPE -> streq w (chars "BEGIN_TELEMETRY") = false /\ streq w (chars "BEGIN_COMMANDS") = false /\ (parseValueType w =? UNKNOWN_TYPE) = false.
Proof. intros N. split; [|split]; [apply streq_no; intros ->; apply N; reflexivity|apply streq_no; intros ->; apply N; reflexivity|now apply Z.eqb_neq]. Qed.
Lemma wordOr_word old s w l : hasWords s (w :: l) -> exists t, wordOr old s = (w, t) /\ hasWords t l.
Proof. intros H. destruct (nextWord_cons s w l H) as (t & E & _ & H'). exists t. unfold wordOr. rewrite E. auto. Qed.
Lemma loop_says L tab ls es tab' : L <> [] -> scriptSays tab ls es tab' -> NoDup (map fst tab) -> forall f, (length ls < f)%nat -> NoDup (map fst tab') /\ exists f', (f <= f' + length ls)%nat /\
  readLoop f tab false false (ls ++ L) = let '(ok, es', t) := readLoop f' tab' false false L in (ok, es ++ es', t).
Proof.
  intros NL. induction 1 as [tab|tab l ls es tab' R H IH|tab l ty n ws ls es tab' D W T U H IH|tab l ty n ws ls es tab' D W T U H IH|tab l n ws ls es tab' D W U H IH
    |tab l n d ws x rs v ty y ls es tab' D W FN I DL F V Y H IH|tab l n i k d ws a b x rs v ty y ls es tab' D W FN I A LA B LB DL F V Y H IH]; intros ND f LT; (destruct f as [|f]; [cbn in LT; lia|]).
  - split; [exact ND|]. exists (S f). split; [lia|]. cbn [app]. destruct (readLoop (S f) tab false false L) as [[ok es'] t]. reflexivity.
  - cbn [app]. rewrite loop_remark; [|exact R|destruct ls; [exact NL|discriminate]]. cbn [length] in LT. destruct (IH ND (S f) ltac:(lia)) as (ND' & f' & LE & E). split; [exact ND'|]. exists f'. split; [cbn [length]; lia|exact E].
  - cbn [app]. destruct (loop_data f tab false false l (ls ++ L) ty _ D W) as (t & W1 & ->). destruct (type_word ty T) as (E1 & E2 & E3). unfold scriptLine. rewrite E1, E2, E3. cbn [negb]. unfold declaration.
    destruct (wordOr_word [] t _ _ W1) as (t2 & -> & W2). change (streq (chars "Lookup") (chars "Command")) with false. change (streq (chars "Lookup") (chars "Lookup")) with true. cbn iota.
    destruct (wordOr_word (chars "Lookup") t2 _ _ W2) as (t3 & -> & _). cbn [fst]. unfold declare. rewrite findSym_none by exact U. cbn [length] in LT. destruct (IH (nodup_snoc _ _ _ ND U) f ltac:(lia)) as (ND' & f' & LE & E). split; [exact ND'|]. exists f'. split; [cbn [length]; lia|]. rewrite E. destruct (readLoop f' tab' false false L) as [[ok es'] t']. reflexivity.
  - cbn [app]. destruct (loop_data f tab false false l (ls ++ L) ty _ D W) as (t & W1 & ->). destruct (type_word ty T) as (E1 & E2 & E3). unfold scriptLine. rewrite E1, E2, E3. cbn [negb]. unfold declaration.
    destruct (wordOr_word [] t _ _ W1) as (t2 & -> & W2). change (streq (chars "Command") (chars "Command")) with true. cbn iota. unfold commandDecl.
    destruct (wordOr_word [] t2 _ _ W2) as (t3 & -> & _). cbn [fst]. unfold declare. rewrite findSym_none by exact U. cbn [length] in LT. destruct (IH (nodup_snoc _ _ _ ND U) f ltac:(lia)) as (ND' & f' & LE & E). split; [exact ND'|]. exists f'. split; [cbn [length]; lia|]. rewrite E. destruct (readLoop f' tab' false false L) as [[ok es'] t']. reflexivity.
  - cbn [app]. destruct (loop_data f tab false false l (ls ++ L) _ _ D W) as (t & W1 & ->). unfold scriptLine. change (streq (chars "Command") (chars "BEGIN_TELEMETRY")) with false. change (streq (chars "Command") (chars "BEGIN_COMMANDS")) with false.
    change (parseValueType (chars "Command") =? UNKNOWN_TYPE) with true. change (streq (chars "Command") (chars "Command")) with true. cbn [negb]. cbn iota. unfold commandDecl.
    destruct (wordOr_word [] t _ _ W1) as (t2 & -> & W2). cbn [fst]. unfold declare. rewrite findSym_none by exact U. cbn [length] in LT. destruct (IH (nodup_snoc _ _ _ ND U) f ltac:(lia)) as (ND' & f' & LE & E). split; [exact ND'|]. exists f'. split; [cbn [length]; lia|]. rewrite E. destruct (readLoop f' tab' false false L) as [[ok es'] t']. reflexivity.
  - cbn [app]. rewrite <- app_assoc. cbn [app]. destruct (loop_data f tab false false l (rs ++ v :: ls ++ L) _ _ D W) as (t & W1 & ->). destruct FN as (N1 & N2 & N3 & N4). unfold scriptLine.
    rewrite (streq_no _ _ N1), (streq_no _ _ N2), (streq_no _ _ N3), N4. change (UNKNOWN_TYPE =? UNKNOWN_TYPE) with true. cbn [negb]. rewrite (findSym_some n _ tab ND I). destruct tab as [|s tab]; [destruct I|]. cbn [andb].
    rewrite (telemetry_ok n t d ws x rs v ty y) by assumption. cbn [length] in LT. rewrite app_length in LT. cbn [length] in LT. destruct (IH ND f ltac:(lia)) as (ND' & f' & LE & E). split; [exact ND'|]. exists f'. split; [cbn [length]; rewrite app_length; cbn [length]; lia|]. rewrite E. destruct (readLoop f' tab' false false L) as [[ok es'] t']. reflexivity.
  - cbn [app]. rewrite <- app_assoc. cbn [app]. destruct (loop_data f tab false false l (rs ++ v :: ls ++ L) _ _ D W) as (t & W1 & ->). destruct FN as (N1 & N2 & N3 & N4). unfold scriptLine.
    rewrite (streq_no _ _ N1), (streq_no _ _ N2), (streq_no _ _ N3), N4. change (UNKNOWN_TYPE =? UNKNOWN_TYPE) with true. cbn [negb]. rewrite (findSym_some n _ tab ND I). destruct tab as [|s tab]; [destruct I|]. cbn [andb].
    rewrite (command_ok n t i k d ws a b x rs v ty y) by first [assumption | destruct ls; [exact NL | discriminate]]. cbn [length] in LT. rewrite app_length in LT. cbn [length] in LT. destruct (IH ND f ltac:(lia)) as (ND' & f' & LE & E). split; [exact ND'|]. exists f'. split; [cbn [length]; rewrite app_length; cbn [length]; lia|]. rewrite E. destruct (readLoop f' tab' false false L) as [[ok es'] t']. reflexivity.
Qed.
Lemma loop_old tel ls es : saysOld tel ls es -> forall tab f, (length ls < f)%nat -> readLoop f tab tel true (ls ++ [[]]) = (Some true, es, tab).
Proof.
  induction 1 as [tel|tel l ls es R H IH|tel t l ws ls es D W H IH|l n d ws x rs v y ls es D W N1 N2 DL F V Y H IH|l n i k d ws a b x rs v y ls es D W N1 N2 A LA B LB DL F V Y H IH]; intros tab f L; (destruct f as [|f]; [cbn in L; lia|]).
  - reflexivity.
  - cbn [app]. rewrite loop_remark; [|exact R|destruct ls; discriminate]. apply IH. cbn [length] in L. lia.
  - cbn [app]. destruct (loop_data f tab tel true l (ls ++ [[]]) _ _ D W) as (t1 & W1 & ->). unfold scriptLine. destruct t.
    + change (streq (chars "BEGIN_TELEMETRY") (chars "BEGIN_TELEMETRY")) with true. cbn iota. rewrite IH; [reflexivity|]. cbn [length] in L. lia.
    + change (streq (chars "BEGIN_COMMANDS") (chars "BEGIN_TELEMETRY")) with false. change (streq (chars "BEGIN_COMMANDS") (chars "BEGIN_COMMANDS")) with true. cbn iota. rewrite IH; [reflexivity|]. cbn [length] in L. lia.
  - cbn [app]. rewrite <- app_assoc. cbn [app]. destruct (loop_data f tab true true l (rs ++ v :: ls ++ [[]]) _ _ D W) as (t & W1 & ->). unfold scriptLine. rewrite (streq_no _ _ N1), (streq_no _ _ N2).
    rewrite (telemetry_ok n t d ws x rs v REAL_TYPE y) by assumption. rewrite IH; [reflexivity|]. cbn [length] in L. rewrite app_length in L. cbn [length] in L. lia.
  - cbn [app]. rewrite <- app_assoc. cbn [app]. destruct (loop_data f tab false true l (rs ++ v :: ls ++ [[]]) _ _ D W) as (t & W1 & ->). unfold scriptLine. rewrite (streq_no _ _ N1), (streq_no _ _ N2).
    rewrite (command_ok n t i k d ws a b x rs v REAL_TYPE y) by (try assumption; destruct ls; discriminate). rewrite IH; [reflexivity|]. cbn [length] in L. rewrite app_length in L. cbn [length] in L. lia.
Qed.
Lemma remark_plain l : remark l -> plainLine l. Proof. now intros [H _]. Qed.
Lemma data_plain l : dataLine l -> plainLine l. Proof. now intros [H _]. Qed.
Lemma says_plain tab ls es tab' : scriptSays tab ls es tab' -> Forall plainLine (ls ++ [[]]).
Proof.
  induction 1; cbn [app]; try rewrite <- app_assoc; cbn [app]; try (constructor; [auto using remark_plain, data_plain|]); try assumption; try solve [repeat constructor];
    apply Forall_app; (split; [eapply Forall_impl; [apply remark_plain|assumption]|constructor; [now apply data_plain|assumption]]).
Qed.
Lemma old_plain tel ls es : saysOld tel ls es -> Forall plainLine (ls ++ [[]]).
Proof.
  induction 1; cbn [app]; try rewrite <- app_assoc; cbn [app]; try (constructor; [auto using remark_plain, data_plain|]); try assumption; try solve [repeat constructor];
    apply Forall_app; (split; [eapply Forall_impl; [apply remark_plain|assumption]|constructor; [now apply data_plain|assumption]]).
Qed.
(** A file with declarations, each line ended by a newline: everything it says is scheduled or given to the managers, in its order and
    with the values and delays written; nothing else is; remarks may stand anywhere. *)
Theorem C79_reads tab ls es tab' : NoDup (map fst tab) -> scriptSays tab ls es tab' -> readScript tab false (Some (text (ls ++ [[]]))) = (Some true, es, tab').
Proof.
  intros ND H. unfold readScript. rewrite splitLines_text; [|destruct ls; discriminate|eapply says_plain; exact H]. destruct (loop_says [[]] tab ls es tab' ltac:(discriminate) H ND (length (ls ++ [[]]))) as (_ & f' & L & ->); [rewrite app_length; cbn [length]; lia|].
  rewrite app_length in L. cbn [length] in L. destruct f' as [|f']; [lia|]. cbn. now rewrite app_nil_r.
Qed.
(** A symbol declared twice, or one used without having been declared when others have been: readScript stops there and says so; what was
    said before stays. *)
Lemma plain_app tab ls es tab' L : scriptSays tab ls es tab' -> Forall plainLine L -> Forall plainLine (ls ++ L).
Proof. intros H F. apply says_plain in H. apply Forall_app in H as [H _]. apply Forall_app. auto. Qed.
Theorem C79_duplicate tab ls es tab' l ty n ws (c : string) r : NoDup (map fst tab) -> scriptSays tab ls es tab' -> dataLine l -> c = "Lookup"%string \/ c = "Command"%string ->
  hasWords l (ty :: chars c :: n :: ws) -> parseValueType ty <> UNKNOWN_TYPE -> In n (map fst tab') -> Forall plainLine r ->
  readScript tab false (Some (text (ls ++ l :: r))) = (Some false, es, tab').
Proof.
  intros ND H D C W T I P. unfold readScript. rewrite splitLines_text; [|destruct ls; discriminate|eapply plain_app; [exact H|constructor; [now apply data_plain|exact P]]].
  destruct (loop_says (l :: r) tab ls es tab' ltac:(discriminate) H ND (length (ls ++ l :: r))) as (ND' & f' & L & ->); [rewrite app_length; cbn [length]; lia|].
  rewrite app_length in L. cbn [length] in L. destruct f' as [|f']; [lia|]. destruct (loop_data f' tab' false false l r _ _ D W) as (t & W1 & ->). destruct (type_word ty T) as (E1 & E2 & E3). unfold scriptLine. rewrite E1, E2, E3. cbn [negb].
  assert (F : exists k, findSym n tab' = Some k). { apply in_map_iff in I as ([m k] & <- & I). exists k. now apply findSym_some. }
  destruct F as (k & F). unfold declaration. destruct (wordOr_word [] t _ _ W1) as (t2 & -> & W2). destruct C as [-> | ->].
  - change (streq (chars "Lookup") (chars "Command")) with false. change (streq (chars "Lookup") (chars "Lookup")) with true. cbn iota. destruct (wordOr_word (chars "Lookup") t2 _ _ W2) as (t3 & -> & _). cbn [fst]. unfold declare. rewrite F. now rewrite app_nil_r.
  - change (streq (chars "Command") (chars "Command")) with true. cbn iota. unfold commandDecl. destruct (wordOr_word [] t2 _ _ W2) as (t3 & -> & _). cbn [fst]. unfold declare. rewrite F. now rewrite app_nil_r.
Qed.
Theorem C79_undeclared tab ls es tab' l n ws r : NoDup (map fst tab) -> scriptSays tab ls es tab' -> dataLine l -> hasWords l (n :: ws) -> freeName n -> tab' <> [] -> undeclared n tab' ->
  Forall plainLine r -> readScript tab false (Some (text (ls ++ l :: r))) = (Some false, es, tab').
Proof.
  intros ND H D W (N1 & N2 & N3 & N4) NE U P. unfold readScript. rewrite splitLines_text; [|destruct ls; discriminate|eapply plain_app; [exact H|constructor; [now apply data_plain|exact P]]].
  destruct (loop_says (l :: r) tab ls es tab' ltac:(discriminate) H ND (length (ls ++ l :: r))) as (ND' & f' & L & ->); [rewrite app_length; cbn [length]; lia|].
  rewrite app_length in L. cbn [length] in L. destruct f' as [|f']; [lia|]. destruct (loop_data f' tab' false false l r _ _ D W) as (t & W1 & ->). unfold scriptLine.
  rewrite (streq_no _ _ N1), (streq_no _ _ N2), (streq_no _ _ N3), N4. change (UNKNOWN_TYPE =? UNKNOWN_TYPE) with true. cbn [negb]. rewrite findSym_none by exact U. destruct tab'; [congruence|]. cbn [andb]. now rewrite app_nil_r.
Qed.
(** The same for an old script: a telemetry script read as such, or one that begins with a line telling what it is. *)
Theorem C79_old_telemetry tab ls es : saysOld true ls es -> readScript tab true (Some (text (ls ++ [[]]))) = (Some true, es, tab).
Proof. intros H. unfold readScript. rewrite splitLines_text; [|destruct ls; discriminate|eapply old_plain; exact H]. apply loop_old; [exact H|]. rewrite app_length. cbn [length]. lia. Qed.
Theorem C79_old tab (t : bool) l ws ls es : dataLine l -> hasWords l (chars (if t then "BEGIN_TELEMETRY" else "BEGIN_COMMANDS") :: ws) -> saysOld t ls es ->
  readScript tab false (Some (text (l :: ls ++ [[]]))) = (Some true, es, tab).
Proof.
  intros D W H. unfold readScript. assert (H2 : saysOld t (l :: ls) es) by (econstructor; eassumption). pose proof (old_plain _ _ _ H2) as P. cbn [app] in P.
  rewrite splitLines_text; [|discriminate|exact P]. cbn [length]. destruct (loop_data (length (ls ++ [[]])) tab false false l (ls ++ [[]]) _ _ D W) as (t1 & W1 & ->). unfold scriptLine. destruct t.
  - change (streq (chars "BEGIN_TELEMETRY") (chars "BEGIN_TELEMETRY")) with true. cbn iota. rewrite (loop_old true ls es H); [reflexivity|]. rewrite app_length. cbn [length]. lia.
  - change (streq (chars "BEGIN_COMMANDS") (chars "BEGIN_TELEMETRY")) with false. change (streq (chars "BEGIN_COMMANDS") (chars "BEGIN_COMMANDS")) with true. cbn iota. rewrite (loop_old false ls es H); [reflexivity|]. rewrite app_length. cbn [length]. lia.
Qed.
(** An old script of responses need not begin by saying so, if nothing was declared before. *)
Theorem C79_old_presumed rs l n ws ls es : Forall remark rs -> dataLine l -> hasWords l (n :: ws) -> freeName n -> saysOld false (l :: ls) es ->
  readScript [] false (Some (text (rs ++ l :: ls ++ [[]]))) = (Some true, es, []).
Proof.
  intros F D W (N1 & N2 & N3 & N4) H. unfold readScript. pose proof (old_plain _ _ _ H) as P. cbn [app] in P.
  rewrite splitLines_text; [|destruct rs; discriminate|apply Forall_app; split; [eapply Forall_impl; [apply remark_plain|exact F]|exact P]].
  assert (X : forall f, readLoop (S f) [] false false (rs ++ l :: ls ++ [[]]) = readLoop (S f) [] false true (l :: ls ++ [[]])).
  { intros f. induction F as [|x rs R F IH]; [|cbn [app]; rewrite loop_remark; [exact IH|exact R|destruct rs; discriminate]].
    cbn [app readLoop]. rewrite getLine_data by exact D. destruct (nextWord_cons l n ws W) as (t & -> & _). unfold scriptLine.
    rewrite (streq_no _ _ N1), (streq_no _ _ N2), (streq_no _ _ N3), N4. change (UNKNOWN_TYPE =? UNKNOWN_TYPE) with true. reflexivity. }
  rewrite app_length. cbn [length]. rewrite Nat.add_succ_r, X. change (l :: ls ++ [[]]) with ((l :: ls) ++ [[]]). apply loop_old; [exact H|]. rewrite app_length. cbn [length]. lia.
Qed.
(** A delay is the double nearest to the number written. *)
Theorem C79_delay w x m k : delayIs w x -> mantissa 10 w m k -> standsFor x false (IZR m * powerRZ 10 (0 - k)).
Proof.
  intros (_ & E & _) M. destruct (strtod_says w false (IZR m * powerRZ 10 (0 - k))) as (y & E2 & H).
  - exists [], w. split; [constructor|]. split; [|reflexivity]. rewrite <- (app_nil_r w). constructor; [exact M|]. left. split; reflexivity.
  - rewrite E in E2. injection E2 as <-. exact H.
Qed.
(** ** What is not as it should be.  The name and value of what is told: *)
Definition told (e : entry) : str * option rval := match e with EManager n => (n, None) | ECommand n _ _ _ v => (n, Some v) | ETelemetry n _ v => (n, Some v) end.
Definition run (ls : list string) : option bool * list (str * option rval) * table :=
  let '(ok, es, tab) := readScript [] false (Some (text (map chars ls))) in (ok, map told es, tab).
Lemma printNat_plain n : 0 <= n -> plainLine (printNat n).
Proof.
  intros P. destruct (printNat_numeral n P) as ((ds & D & _) & _). induction D as [|c d w l [C L] D IH]; constructor; auto. destruct C as [[? ?]|[? [?|?]]]; lia.
Qed.
(** A negative value is taken for a remark; what follows is taken for the value: here nothing, and the value is one that was never set. *)
Theorem C79_negative_refuted z : z < 0 -> exists es,
  readScript [] false (Some (text [chars "Integer Lookup t"; chars "t 1"; printInteger z; []])) = (Some true, es, [(chars "t", (true, INTEGER_TYPE))]) /\
  map told es = [(chars "t", Some VGarbage)].
Proof.
  intros N. assert (E : printInteger z = 45 :: printNat (- z)) by (unfold printInteger; destruct (Z.ltb_spec z 0); [reflexivity|lia]).
  assert (P : plainLine (printInteger z)) by (rewrite E; constructor; [lia|apply printNat_plain; lia]).
  assert (R : remark (printInteger z)). { split; [exact P|]. right. exists [], 45, (printNat (- z)). split; [exact E|]. split; [constructor|]. split; [cbn; lia|]. intros (d & H). destruct H as [[? ?]|[? [?|?]]]; lia. }
  unfold readScript. rewrite splitLines_text; [|discriminate|].
  2:{ constructor; [repeat constructor; discriminate|]. constructor; [repeat constructor; discriminate|]. constructor; [exact P|]. repeat constructor. }
  assert (G : getLine [printInteger z; []] = ([], [])) by (rewrite getLine_remark by (auto; discriminate); reflexivity).
  generalize dependent (printInteger z). intros w _ _ _ G. cbn [length readLoop]. rewrite !getLine_data.
  2:{ split; [repeat constructor; discriminate|]. exists [], 73, (chars "nteger Lookup t"). split; [reflexivity|]. split; [constructor|]. exists 18. right. split; [lia|]. right. reflexivity. }
  change (nextWord (chars "Integer Lookup t")) with (Some (chars "Integer", chars " Lookup t")). cbn iota.
  change (scriptLine (chars "Integer") (chars " Lookup t") [] false false [chars "t 1"; w; []]) with (Go [] [(chars "t", (true, INTEGER_TYPE))] false false [chars "t 1"; w; []]). cbn iota.
  cbn [readLoop]. change (getLine [chars "t 1"; w; []]) with (chars "t 1", [w; []]). cbn iota.
  change (nextWord (chars "t 1")) with (Some (chars "t", chars " 1")). cbn iota.
  assert (SL : exists d, scriptLine (chars "t") (chars " 1") [(chars "t", (true, INTEGER_TYPE))] false false [w; []] = Go [ETelemetry (chars "t") d VGarbage] [(chars "t", (true, INTEGER_TYPE))] false false []).
  { destruct (readDouble (chars " 1")) as [[d r]|] eqn:ED; [|exfalso; apply (f_equal (fun o => match o with Some _ => true | None => false end)) in ED; vm_compute in ED; discriminate ED]. exists d.
    change (scriptLine (chars "t") (chars " 1") [(chars "t", (true, INTEGER_TYPE))] false false [w; []]) with (parseTelemetry (chars "t") (chars " 1") INTEGER_TYPE [(chars "t", (true, INTEGER_TYPE))] false false [w; []]).
    unfold parseTelemetry. rewrite ED, G. reflexivity. }
  destruct SL as (d & ->). exists [ETelemetry (chars "t") d VGarbage]. split; reflexivity.
Qed.
(** It can also be the next line of the script. *)
Theorem C79_negative_next_refuted : run ["String Lookup t"; "t 1"; "-5"; "t 2"; "6"; ""]%string = (Some false, [(chars "t", Some (VVal (SS (chars "t 2"))))], [(chars "t", (true, STRING_TYPE))]).
Proof. vm_compute. reflexivity. Qed.
(** A response whose value is the last line, without a newline, is not taken in, and readScript says that all is well. *)
Theorem C79_no_newline_refuted : run ["Integer Command go"; "go 1 1 0.5"; "7"; "go 2 1 0.5"; "8"]%string = (Some true, [(chars "go", None); (chars "go", Some (VVal (SI 7))); (chars "go", None)], [(chars "go", (false, INTEGER_TYPE))]).
Proof. vm_compute. reflexivity. Qed.
(** A remark that is the last line, without a newline, is not skipped. *)
Theorem C79_last_remark_refuted : run ["Integer Lookup t"; "t 1"; "7"; "# end"]%string = (Some false, [(chars "t", Some (VVal (SI 7)))], [(chars "t", (true, INTEGER_TYPE))]) /\
  run ["BEGIN_COMMANDS"; "# end"]%string = (Some true, [(chars "#", None)], []).
Proof. split; vm_compute; reflexivity. Qed.
(** The value UNKNOWN is whatever was in memory. *)
Theorem C79_unknown_refuted : map (fun t => run [append t " Lookup t"; "t 1"; "UNKNOWN"; ""]%string) ["Boolean"; "Integer"; "Real"]%string =
  map (fun k => (Some true, [(chars "t", Some VGarbage)], [(chars "t", (true, k))])) [BOOLEAN_TYPE; INTEGER_TYPE; REAL_TYPE].
Proof. vm_compute. reflexivity. Qed.
(** A command handle is no response for a command that returns a value (the simulator dies), and for one that returns none every response
    is the unknown value; so is a Date, a Duration or an array. *)
Theorem C79_handle_refuted : run ["Integer Command go"; "go 1 1 0"; "COMMAND_SUCCESS"; ""]%string = (None, [(chars "go", None)], [(chars "go", (false, INTEGER_TYPE))]) /\
  run ["Command go"; "go 1 1 0"; "COMMAND_SUCCESS"; ""]%string = (Some true, [(chars "go", None); (chars "go", Some VNone)], [(chars "go", (false, UNKNOWN_TYPE))]) /\
  run ["RealArray Lookup a"; "a 1"; "#(1 2)"; "1 2"; ""]%string = (Some true, [(chars "a", Some VNone)], [(chars "a", (true, REAL_ARRAY_TYPE))]).
Proof. split; [|split]; vm_compute; reflexivity. Qed.
(** After a line that cannot be read the rest of the file is passed over, and readScript says that all is well; a value that cannot be
    read, such as one followed by a blank or a carriage return, ends the simulator. *)
Theorem C79_broken_refuted : run ["Integer Lookup t"; "t soon"; "1"; "t 2"; "3"; ""]%string = (Some true, [], [(chars "t", (true, INTEGER_TYPE))]) /\
  run ["Integer Lookup t"; "t 1"; "7 "; "t 2"; "3"; ""]%string = (None, [], [(chars "t", (true, INTEGER_TYPE))]) /\
  readScript [(chars "t", (true, INTEGER_TYPE))] false (Some (chars "t 1" ++ [13; 10] ++ chars "7" ++ [13; 10])) = (None, [], [(chars "t", (true, INTEGER_TYPE))]).
Proof. split; [|split]; vm_compute; reflexivity. Qed.
(** A declaration without a name declares the word before it, or the empty name. *)
Theorem C79_no_name_refuted : run ["Integer Lookup"; "Command"; ""]%string = (Some true, [], [(chars "Lookup", (true, INTEGER_TYPE)); ([], (false, UNKNOWN_TYPE))]).
Proof. vm_compute. reflexivity. Qed.
Ltac bl := unfold blank; repeat (constructor; [cbn; auto 10|]); constructor.
Ltac hw := first [apply HW_nil; bl | match goal with |- hasWords ?s (?w :: _) => let b := eval vm_compute in (firstn (length s - length (skipSpace s)) s) in let t := eval vm_compute in (snd (takeWord (skipSpace s))) in
  change s with (b ++ w ++ t); apply HW_cons; [bl|split; [discriminate|repeat (constructor; [cbn; lia|]); constructor]|first [left; reflexivity|right; cbn; auto 10]|hw] end].
Theorem C79_example : exists x y, delayIs (chars "1.5") x /\ delayIs (chars "3") y /\
  scriptSays [] (map chars ["# a test"; "Integer Command go"; " Boolean Lookup light"; "go 0 1 1.5"; ""; "42"; "light 3"; "true"]%string)
  [EManager (chars "go"); ECommand (chars "go") 0 1 x (VVal (SI 42)); ETelemetry (chars "light") y (VVal (SB true))]
  [(chars "go", (false, INTEGER_TYPE)); (chars "light", (true, BOOLEAN_TYPE))].
Proof.
  destruct (strtod (chars "1.5")) as [[x r]|] eqn:EX; [|exfalso; apply (f_equal (fun o => match o with Some _ => true | None => false end)) in EX; vm_compute in EX; discriminate EX]. destruct (strtod (chars "3")) as [[y q]|] eqn:EY; [|exfalso; apply (f_equal (fun o => match o with Some _ => true | None => false end)) in EY; vm_compute in EY; discriminate EY].
  assert (X : delayIs (chars "1.5") x).
  { split; [exists 15, 1, [49], [53], [1], [5]|].
    - split; [repeat constructor; lia|]. split; [repeat constructor; lia|]. split; [discriminate|]. split; [now right|]. split; reflexivity.
    - assert (r = [] /\ is_finite x = true) as [-> F]; [|split; [exact EX|exact F]].
      assert (E : match strtod (chars "1.5") with Some (v, w) => (is_finite v, w) | None => (false, []) end = (true, [])) by (vm_compute; reflexivity). rewrite EX in E. apply pair_equal_spec in E as [E1 E2]. split; assumption. }
  assert (Y : delayIs (chars "3") y).
  { split; [exists 3, 0, [51], [], [3], []|].
    - split; [repeat constructor; lia|]. split; [constructor|]. split; [discriminate|]. split; [now left|]. split; reflexivity.
    - assert (q = [] /\ is_finite y = true) as [-> F]; [|split; [exact EY|exact F]].
      assert (E : match strtod (chars "3") with Some (v, w) => (is_finite v, w) | None => (false, []) end = (true, [])) by (vm_compute; reflexivity). rewrite EY in E. apply pair_equal_spec in E as [E1 E2]. split; assumption. }
  exists x, y. split; [exact X|]. split; [exact Y|]. cbn [map].
  assert (PL : forall l, forallb (fun c => negb (c =? 10) && negb (c =? 0)) l = true -> plainLine l).
  { intros l H. rewrite forallb_forall in H. apply Forall_forall. intros c I. specialize (H c I). apply andb_true_iff in H as [H1 H2]. apply negb_true_iff, Z.eqb_neq in H1. apply negb_true_iff, Z.eqb_neq in H2. auto. }
  assert (DL : forall l, ignored l = false -> forallb (fun c => negb (c =? 10) && negb (c =? 0)) l = true -> dataLine l).
  { intros l H P. split; [now apply PL|]. clear P. induction l as [|c l IH]; [discriminate H|]. unfold ignored in H. cbn [dropBlanks] in H.
    destruct ((c =? 32) || (c =? 9) || (c =? 10) || (c =? 13)) eqn:E.
    - destruct (IH H) as (b & c' & r' & -> & M & A). exists (c :: b), c', r'. split; [reflexivity|]. split; [|exact A]. constructor; [|exact M]. rewrite !orb_true_iff, !Z.eqb_eq in E. cbn. intuition.
    - exists [], c, l. split; [reflexivity|]. split; [constructor|]. apply digitVal_alnum. now apply negb_false_iff in H. }
  assert (RM : forall c l, ~ In c [9; 10; 13; 32] -> ~ alnum c -> plainLine (c :: l) -> remark (c :: l)).
  { intros c l N A P. split; [exact P|]. right. exists [], c, l. split; [reflexivity|]. split; [constructor|]. auto. }
  apply S_remark. { change (chars "# a test") with (35 :: chars " a test"). apply RM; [cbn; lia|intros (d & H); destruct H as [[? ?]|[? [?|?]]]; lia|apply PL; reflexivity]. }
  apply S_command with (ty := chars "Integer") (n := chars "go") (ws := []); [apply DL; reflexivity|hw|discriminate|intros []|].
  apply S_lookup with (ty := chars "Boolean") (n := chars "light") (ws := []); [apply DL; reflexivity|hw|discriminate|intros [H|[]]; discriminate H|].
  apply S_response with (i := chars "0") (k := chars "1") (d := chars "1.5") (ws := []) (rs := [[]]) (v := chars "42") (ty := INTEGER_TYPE) (ls := [chars "light 3"; chars "true"]).
  - apply DL; reflexivity.
  - hw.
  - repeat split; discriminate.
  - now left.
  - exists [0]. split; [repeat constructor; lia|]. split; [discriminate|reflexivity].
  - lia.
  - exists [1]. split; [repeat constructor; lia|]. split; [discriminate|reflexivity].
  - lia.
  - exact X.
  - constructor; [|constructor]. split; [constructor|left; constructor].
  - apply DL; reflexivity.
  - constructor. reflexivity.
  - apply S_telemetry with (d := chars "3") (ws := []) (rs := []) (v := chars "true") (ty := BOOLEAN_TYPE) (ls := []).
    + apply DL; reflexivity.
    + hw.
    + repeat split; discriminate.
    + right. now left.
    + exact Y.
    + constructor.
    + apply DL; reflexivity.
    + constructor. reflexivity.
    + apply S_end.
Qed.

(** Assumptions *)
Print Assumptions C79_reads.
Print Assumptions C79_old_telemetry.
Print Assumptions C79_old.
Print Assumptions C79_delay.
Print Assumptions C79_negative_refuted.
Print Assumptions C79_negative_next_refuted.
Print Assumptions C79_no_newline_refuted.
Print Assumptions C79_last_remark_refuted.
Print Assumptions C79_unknown_refuted.
Print Assumptions C79_handle_refuted.
Print Assumptions C79_broken_refuted.
Print Assumptions C79_no_name_refuted.
Print Assumptions C79_example.
Print Assumptions C79_duplicate.
Print Assumptions C79_undeclared.
Print Assumptions C79_old_presumed.
