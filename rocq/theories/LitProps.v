(** C63: a literal in a plan has the value its text denotes, or the plan is refused. *)
From Coq Require Import ZArith Reals List Bool String Lia Lra.
From Flocq Require Import Core BinarySingleNaN.
From Verif Require Import ValueModel FloatModel TypeModel UdpQueueModel LitModel LitSpec LitProofs.
Import ListNotations.
Open Scope Z_scope.

(** ** Integers *)
Theorem C63_integer s z : parseInteger s = Known z <-> s <> chars "UNKNOWN" /\ intText s z /\ - 2 ^ 31 <= z < 2 ^ 31.
Proof. apply parseInteger_spec. Qed.
Theorem C63_integer_unknown s : parseInteger s = Unknown <-> s = [] \/ s = chars "UNKNOWN".
Proof.
  unfold parseInteger. destruct (streq s []) eqn:E0; [apply streq_true in E0; cbn; tauto|]. destruct (streq s (chars "UNKNOWN")) eqn:E1; [apply streq_true in E1; cbn; tauto|].
  apply streq_false in E0. apply streq_false in E1. cbn [orb]. split; [|tauto]. destruct (strtoMag 0 s) as [[[neg m] [|]]|]; try discriminate.
  destruct (longOf neg m) as [v err]. destruct (negb err && (v <=? 2 ^ 31 - 1) && (- 2 ^ 31 <=? v)); discriminate.
Qed.
Theorem C63_print_integer z : - 2 ^ 31 <= z < 2 ^ 31 -> parseInteger (printInteger z) = Known z.
Proof. intros R. apply parseInteger_spec. split; [apply printInteger_not_unknown|]. split; [apply printInteger_text|exact R]. Qed.
Theorem C63_integer_text_unambiguous s y z : intText s y -> intText s z -> y = z.
Proof. apply intText_fun. Qed.

(** ** Booleans *)
Lemma stricmp_0 a b : stricmp a b = 0 <-> sameLetters a b.
Proof.
  unfold sameLetters. revert b. induction a as [|x a IH]; intros [|y b]; cbn [stricmp map]; try (split; [discriminate|discriminate]); [tauto|].
  destruct (Z.eqb_spec x y) as [->|N].
  - rewrite IH. split; [congruence|]. intros H. injection H. auto.
  - destruct (Z.ltb_spec (upper y) (upper x)); [|destruct (Z.ltb_spec (upper x) (upper y))].
    + split; [discriminate|]. intros X. injection X as X _. apply upper_lower in X. lia.
    + split; [discriminate|]. intros X. injection X as X _. apply upper_lower in X. lia.
    + assert (U : upper x = upper y) by lia. apply upper_lower in U. rewrite IH. split; [congruence|]. intros X. injection X. auto.
Qed.
Theorem C63_boolean s b :
  parseBoolean s = Known b <-> if b then s = chars "1" \/ sameLetters s (chars "true") else s = chars "0" \/ sameLetters s (chars "false").
Proof.
  assert (LT : sameLetters s (chars "true") -> length s = 4%nat) by (intros H; apply (f_equal (@length Z)) in H; rewrite !map_length in H; exact H).
  assert (LF : sameLetters s (chars "false") -> length s = 5%nat) by (intros H; apply (f_equal (@length Z)) in H; rewrite !map_length in H; exact H).
  unfold parseBoolean. destruct (length s) as [|[|[|[|[|[|[|[|n]]]]]]]] eqn:L;
    try (split; [discriminate|]; destruct b; (intros [-> |H]; [discriminate L|]; try (apply LT in H); try (apply LF in H); discriminate)).
  - destruct s as [|c [|]]; try discriminate L. cbn [nth]. destruct (Z.eqb_spec c 48) as [->|N0]; [|destruct (Z.eqb_spec c 49) as [->|N1]].
    + destruct b; (split; [try discriminate; intros _|intros [H|H]; try reflexivity; try discriminate H; try (apply LT in H; discriminate); try (apply LF in H; discriminate)]).
      left. reflexivity.
    + destruct b; (split; [try discriminate; intros _|intros [H|H]; try reflexivity; try discriminate H; try (apply LT in H; discriminate); try (apply LF in H; discriminate)]).
      left. reflexivity.
    + split; [discriminate|]. destruct b; (intros [H|H]; [vm_compute in H; injection H as H; congruence|]); [apply LT in H; discriminate|apply LF in H; discriminate].
  - destruct (Z.eqb_spec (stricmp s (chars "true")) 0) as [E|E].
    + apply stricmp_0 in E. split; [intros [= <-]; auto|]. destruct b; [reflexivity|]. intros [-> |H]; [discriminate L|]. apply LF in H. discriminate.
    + split; [discriminate|]. destruct b; (intros [-> |H]; [discriminate L|]); [apply stricmp_0 in H; contradiction|apply LF in H; discriminate].
  - destruct (Z.eqb_spec (stricmp s (chars "false")) 0) as [E|E].
    + apply stricmp_0 in E. split; [intros [= <-]; auto|]. destruct b; [|reflexivity]. intros [-> |H]; [discriminate L|]. apply LT in H. discriminate.
    + split; [discriminate|]. destruct b; (intros [-> |H]; [discriminate L|]); [apply LT in H; discriminate|apply stricmp_0 in H; contradiction].
  - split; [destruct (streq s (chars "UNKNOWN")); discriminate|]. destruct b; (intros [-> |H]; [discriminate L|]; try (apply LT in H); try (apply LF in H); discriminate).
Qed.
Theorem C63_boolean_unknown s : parseBoolean s = Unknown <-> s = chars "UNKNOWN".
Proof.
  split; [|intros ->; reflexivity]. unfold parseBoolean. destruct (length s) as [|[|[|[|[|[|[|[|n]]]]]]]]; try discriminate.
  - destruct (nth 0 s 0 =? 48); [discriminate|]. destruct (nth 0 s 0 =? 49); discriminate.
  - destruct (stricmp s (chars "true") =? 0); discriminate.
  - destruct (stricmp s (chars "false") =? 0); discriminate.
  - destruct (streq s (chars "UNKNOWN")) eqn:E; [|discriminate]. intros _. apply streq_true. exact E.
Qed.
Theorem C63_print_boolean b : parseBoolean (printBoolean b) = Known b.
Proof. destruct b; reflexivity. Qed.

(** ** Reals *)
(** The double nearest to the number written; refused if that would be infinite. *)
Theorem C63_real s neg r : realText s neg r ->
  if Rlt_bool (Rabs (nearest r)) (bpow radix2 1024) then
    exists x, parseReal s = Known x /\ B2R x = (if neg then - nearest r else nearest r)%R /\ is_finite x = true /\ Bsign x = neg
  else parseReal s = Refused.
Proof. apply parseReal_text. Qed.
(** No double is closer. *)
Theorem C63_real_closest s neg r x y : realText s neg r -> parseReal s = Known x -> is_finite (y : fl) = true ->
  (Rabs (B2R x - (if neg then - r else r)) <= Rabs (B2R y - (if neg then - r else r)))%R.
Proof.
  intros T K F. pose proof (parseReal_text s neg r T) as H. destruct (Rlt_bool _ _); [|congruence]. destruct H as (x' & K' & E & _). rewrite K in K'. injection K' as <-. rewrite E.
  pose proof (nearest_signed neg r) as NS. unfold signedR in NS |- *. rewrite <- NS. set (v := (if neg then - r else r)%R).
  destruct (round_N_pt radix2 (FLT_exp (-1074) 53) (fun n => negb (Z.even n)) v) as [_ M]. apply M. apply (generic_format_B2R 53 1024).
Qed.
(** A text that denotes an integer small enough for a double denotes it exactly as a Real too. *)
Theorem C63_real_exact s neg r x (v : fl) : realText s neg r -> parseReal s = Known x -> is_finite v = true -> B2R v = (if neg then - r else r)%R -> B2R x = B2R v.
Proof.
  intros T K F E. pose proof (C63_real_closest s neg r x v T K F) as H. rewrite E in H. replace ((if neg then - r else r) - (if neg then - r else r))%R with 0%R in H by ring.
  rewrite Rabs_R0 in H. rewrite E. pose proof (Rabs_pos (B2R x - (if neg then - r else r))) as P. assert (Z : Rabs (B2R x - (if neg then - r else r)) = 0%R) by lra.
  destruct (Req_dec (B2R x - (if neg then - r else r)) 0) as [D|D]; [lra|]. apply Rabs_no_R0 in D. contradiction.
Qed.
(** Nothing else is accepted, but "nan". *)
Theorem C63_real_accepted s x : parseReal s = Known x -> (x = B754_nan /\ nanText s) \/ exists neg r, realText s neg r.
Proof. apply parseReal_known. Qed.
Theorem C63_real_unknown s : parseReal s = Unknown <-> s = [] \/ s = chars "UNKNOWN".
Proof.
  unfold parseReal. destruct (streq s []) eqn:E0; [apply streq_true in E0; cbn; tauto|]. destruct (streq s (chars "UNKNOWN")) eqn:E1; [apply streq_true in E1; cbn; tauto|].
  apply streq_false in E0. apply streq_false in E1. cbn [orb]. split; [|tauto]. destruct (strtod s) as [[x [|]]|]; try discriminate. destruct (isInf x); discriminate.
Qed.
(** The constant built for a <RealValue> is the same number. *)
Lemma feq_real a b : feq a b = true -> is_finite b = true -> B2R a = B2R b.
Proof.
  unfold feq, Beqb, SpecFloat.SFeqb. intros H F. destruct (is_finite a) eqn:FA.
  - pose proof (Bcompare_correct 53 1024 a b FA F) as C. unfold Bcompare in C. destruct (SpecFloat.SFcompare (B2SF a) (B2SF b)) as [[]|]; try discriminate. injection C as C.
    symmetry in C. apply Rcompare_Eq_inv in C. exact C.
  - destruct a as [?|[]| |? ? ? ?], b as [?|[]| |? ? ? ?]; try discriminate; cbn in H; destruct s; discriminate.
Qed.
Theorem C63_real_literal s x : parseReal s = Known x -> exists y, literal LReal s = Some (Some (SR y)) /\ B2R y = B2R x /\ is_nan y = is_nan x /\ is_finite y = is_finite x.
Proof.
  intros K. assert (NE : s <> []) by (intros ->; discriminate K). apply streq_false in NE. unfold literal. rewrite NE, K. cbn [ofPres]. eexists. split; [reflexivity|].
  unfold realConstant.
  assert (G : forall c, is_finite c = true -> is_nan c = false -> feq x c = true -> B2R c = B2R x /\ is_nan c = is_nan x /\ is_finite c = is_finite x).
  { intros c FC NC H. pose proof (feq_real _ _ H FC) as E. split; [congruence|]. apply parseReal_known in K as [[-> _]|(neg & r & T)]; [discriminate H|].
    pose proof (parseReal_text s neg r T) as R. destruct x as [?|[]| |? ? ? ?]; cbn in *; auto; destruct c as [?|[]| |? ? ? ?]; try discriminate; destruct s0; discriminate. }
  destruct (feq x fone) eqn:E1; [apply G; auto; reflexivity|]. destruct (feq x (B754_zero false)) eqn:E2; [apply G; auto; reflexivity|].
  destruct (feq x (fneg fone)) eqn:E3; [apply G; auto; reflexivity|]. auto.
Qed.
(** The other literals. *)
Theorem C63_literal t s :
  literal t s = match t with
                | LString => Some (Some (SS s))
                | _ => if str_eq_dec s [] then None
                       else match t with
                            | LBool => match parseBoolean s with Known b => Some (Some (SB b)) | Unknown => Some None | Refused => None end
                            | LInt => match parseInteger s with Known z => Some (Some (SI z)) | Unknown => Some None | Refused => None end
                            | _ => literal t s
                            end
                end.
Proof. destruct t; unfold literal, parseAs, ofPres, streq; destruct (str_eq_dec s []); reflexivity. Qed.

(** ** Array literals *)
(** Elements with the tag of their type, not empty: accepted if and only if each can be read, with these values in order. *)
Definition tagOf (t : litTag) : str := litName t ++ chars "Value".
Lemma eltOk_tag t txt : eltOk t (tagOf t, txt) = match t with LString => true | _ => negb (streq txt []) && match parseAs t txt with Some _ => true | None => false end end.
Proof. destruct t; reflexivity. Qed.
Theorem C63_array t txts : (t = LString \/ ~ In [] txts) ->
  arrayLiteral t (map (fun x => (tagOf t, x)) txts)
  = if forallb (fun x => match parseAs t x with Some _ => true | None => false end) txts
    then Some (map (fun x => match parseAs t x with Some v => v | None => None end) txts) else None.
Proof.
  intros NE. unfold arrayLiteral. rewrite map_map. cbn [snd].
  assert (E : forallb (eltOk t) (map (fun x => (tagOf t, x)) txts) = forallb (fun x => match parseAs t x with Some _ => true | None => false end) txts); [|rewrite E; reflexivity].
  induction txts as [|x r IH]; [reflexivity|]. cbn [map forallb]. rewrite IH; [|destruct NE as [N|N]; [left; exact N|right; intros I; apply N; right; exact I]].
  f_equal. rewrite eltOk_tag. destruct NE as [-> |N]; [reflexivity|]. assert (X : streq x [] = false) by (apply streq_false; intros ->; apply N; left; reflexivity).
  rewrite X. destruct t; reflexivity.
Qed.
Theorem C63_array_length t es l : arrayLiteral t es = Some l -> length l = length es.
Proof. unfold arrayLiteral. destruct (forallb _ _); [|discriminate]. intros [= <-]. apply map_length. Qed.

(** Whatever is accepted: each element is readable as the array's type, and its tag is the beginning of the type's name and "Value". *)
Lemma strneq_prefix n a b : strneq a b n = true -> firstn n a = firstn n b.
Proof.
  revert a b. induction n as [|n IH]; intros [|x a] [|y b] H; cbn in *; try discriminate; [reflexivity|reflexivity|reflexivity|reflexivity|reflexivity|].
  apply andb_prop in H as [E H]. apply Z.eqb_eq in E. rewrite E, (IH a b H). reflexivity.
Qed.
Theorem C63_array_accepted t es l : arrayLiteral t es = Some l ->
  Forall2 (fun e v => parseAs t (snd e) = Some v /\ exists p q, fst e = p ++ chars "Value" /\ litName t = p ++ q) es l.
Proof.
  unfold arrayLiteral. destruct (forallb (eltOk t) es) eqn:F; [|discriminate]. intros [= <-]. induction es as [|[tag txt] r IH]; [constructor|].
  cbn [forallb] in F. apply andb_prop in F as [E F]. cbn [map]. constructor; [|exact (IH F)]. cbn [fst snd].
  assert (G : testSuffix (chars "Value") tag = true -> strneq tag (litName t) (length tag - 5) = true -> exists p q, tag = p ++ chars "Value" /\ litName t = p ++ q).
  { intros S N. exists (firstn (length tag - 5) tag), (skipn (length tag - 5) (litName t)). unfold testSuffix in S. destruct (Nat.ltb_spec (length tag) (length (chars "Value"))); [discriminate|].
    apply streq_true in S. change (length (chars "Value")) with 5%nat in S. split.
    - rewrite <- S. symmetry. apply firstn_skipn.
    - rewrite (strneq_prefix _ _ _ N). symmetry. apply firstn_skipn. }
  unfold eltOk in E. cbn [fst snd] in E.
  destruct t; try (apply andb_prop in E as [E P]; apply andb_prop in E as [E _]; apply andb_prop in E as [S N]; split; [destruct (parseAs _ txt); [reflexivity|discriminate P]|exact (G S N)]).
  split; [reflexivity|]. apply streq_true in E. exists (chars "String"), []. split; [exact E|reflexivity].
Qed.

(** ** MaxSize and Priority *)
(** A size written in decimal without leading zeros is the size built. *)
Theorem C63_max_size_partial s n : decimalText s false n -> (forall ws sg r, blank ws -> sign sg false -> s <> ws ++ sg ++ 48 :: r) -> 0 <= n < 2 ^ 31 ->
  maxSizeCheck s = true /\ maxSizeBuilt s = n.
Proof.
  intros D NZ R. assert (IT : intText s n).
  { destruct D as (ws & sg & body & B & S & N & ->). exists ws, sg, false, body, n. split; [exact B|]. split; [exact S|]. split; [|split; reflexivity].
    apply IB_dec; [exact N|]. destruct (numeral_cons _ _ _ N) as (c & r & d & ds & -> & _). cbn. intros ->. exact (NZ ws sg r B S eq_refl). }
  assert (NS : s <> [] /\ s <> chars "UNKNOWN").
  { split; intros ->.
    - destruct IT as (ws & sg & neg & body & m & _ & _ & H & E & _). symmetry in E. apply app_eq_nil in E as [_ E]. apply app_eq_nil in E as [_ ->].
      destruct (choose_body _ _ H) as (b & s3 & ds & C & T & X & _). cbn in C. injection C as <- <-. cbn in T. injection T as <-. congruence.
    - assert (P : strtoMag 10 (chars "UNKNOWN") = Some (false, n, [])) by (apply strto10_spec; exact D). discriminate P. }
  split.
  - unfold maxSizeCheck. assert (P : parseInteger s = Known n) by (apply parseInteger_spec; split; [apply NS|]; split; [exact IT|lia]). rewrite P.
    assert (X : streq s [] = false) by (apply streq_false; apply NS). rewrite X. cbn. apply Z.leb_le. lia.
  - unfold maxSizeBuilt. assert (P : strtoMag 10 s = Some (false, n, [])) by (apply strto10_spec; exact D). rewrite P.
    assert (L : longOf false n = (n, false)) by (apply longOf_spec; [lia|]; cbn; lia). rewrite L. cbn [fst]. rewrite Z.mod_small by lia. unfold toInt32. destruct (Z.ltb_spec n (2 ^ 31)); lia.
Qed.
(** The array's size is checked in one notation and built in another. *)
Theorem C63_max_size_refuted :
  (maxSizeCheck (chars "0x10") = true /\ parseInteger (chars "0x10") = Known 16 /\ maxSizeBuilt (chars "0x10") = 0)
  /\ (maxSizeCheck (chars "010") = true /\ parseInteger (chars "010") = Known 8 /\ maxSizeBuilt (chars "010") = 10).
Proof. vm_compute. repeat split. Qed.
(** A priority that is accepted and not negative is the number written. *)
Theorem C63_priority_partial s n : decimalText s false n ->
  (priorityCheck s = true <-> n < 2 ^ 31 - 1) /\ (priorityCheck s = true -> prioritySet s = n).
Proof.
  intros D. assert (N0 : 0 <= n) by (destruct D as (ws & sg & body & _ & _ & N & _); eapply numeral_nonneg; [|exact N]; lia).
  assert (P : strtoMag 10 s = Some (false, n, [])) by (apply strto10_spec; exact D).
  assert (X : streq s [] = false) by (apply streq_false; intros ->; discriminate P).
  unfold priorityCheck, prioritySet. rewrite P, X. cbn [negb andb]. unfold ulongOf. destruct (Z.ltb_spec (2 ^ 64 - 1) n) as [L|L].
  - cbn. split; [split; [discriminate|lia]|discriminate].
  - rewrite (Z.mod_small n (2 ^ 64)) by lia. cbn [negb andb fst]. rewrite Z.ltb_lt. split; [tauto|]. intros Q. rewrite Z.mod_small by lia. unfold toInt32. destruct (Z.ltb_spec n (2 ^ 31)); lia.
Qed.
Theorem C63_priority_accepted s : priorityCheck s = true -> exists neg n, decimalText s neg n.
Proof.
  unfold priorityCheck. destruct (streq s []); [discriminate|]. cbn [negb andb]. destruct (strtoMag 10 s) as [[[neg m] [|]]|] eqn:E; try discriminate. intros _. exists neg, m. apply strto10_spec. exact E.
Qed.
(** A negative number can be accepted, and means another one; the largest priority is refused. *)
Theorem C63_priority_refuted :
  priorityCheck (chars "-18446744073709551615") = true /\ prioritySet (chars "-18446744073709551615") = 1
  /\ priorityCheck (chars "2147483647") = false.
Proof. vm_compute. repeat split. Qed.

(** ** Names *)
Lemma searchFrom_spec i names s k : NoDup (map chars names) -> (1 <= i)%nat ->
  searchFrom i names s = k /\ k <> O <-> exists j n, nth_error names j = Some n /\ k = (i + j)%nat /\ s = chars n.
Proof.
  revert i k. induction names as [|a r IH]; intros i k ND I; cbn [searchFrom].
  - split; [intros [<- H]; congruence|]. intros (j & n & H & _). destruct j; discriminate H.
  - inversion ND as [|x l NI ND' E]; subst. destruct (streq (chars a) s) eqn:SE.
    + apply streq_true in SE. split.
      * intros [<- _]. exists O, a. split; [reflexivity|]. split; [lia|congruence].
      * intros (j & n & H & -> & ->). destruct j as [|j]; [split; lia|]. exfalso. apply NI. rewrite SE. cbn in H. apply in_map. eapply nth_error_In; eauto.
    + apply streq_false in SE. rewrite (IH (S i) k ND' ltac:(lia)). split.
      * intros (j & n & H & -> & ->). exists (S j), n. split; [exact H|]. split; [lia|reflexivity].
      * intros (j & n & H & -> & ->). destruct j as [|j]; [cbn in H; injection H as ->; congruence|]. exists j, n. split; [exact H|]. split; [lia|reflexivity].
Qed.
Ltac nodup := repeat (constructor; [cbn; intuition discriminate|]); constructor.
(** Each state, outcome, failure type and command handle is read from its own name and from no other text. *)
Theorem C63_names names : In names [stateNames; outcomeNames; failureNames; handleNames] ->
  forall s i, i <> O -> (parseName names s = i <-> (i < length names)%nat /\ s = nameOf names i).
Proof.
  intros IN s i NZ. assert (ND : NoDup (map chars (tl names)) /\ names <> []).
  { cbn in IN. destruct IN as [<- | [<- | [<- | [<- | []]]]]; (split; [vm_compute; nodup|discriminate]). }
  destruct ND as [ND NE]. destruct names as [|a r]; [congruence|]. cbn [tl] in ND. unfold parseName. cbn [tl].
  assert (X : searchFrom 1 r s = i <-> searchFrom 1 r s = i /\ i <> O) by tauto. rewrite X, (searchFrom_spec 1 r s i ND ltac:(lia)).
  unfold nameOf. split.
  - intros (j & n & H & -> & ->). cbn [length hd]. split; [assert (j < length r)%nat by (apply nth_error_Some; congruence); lia|].
    f_equal. cbn. symmetry. apply nth_error_nth. exact H.
  - intros [L ->]. destruct i as [|j]; [congruence|]. cbn [length] in L. cbn [hd nth]. assert (LT : (j < length r)%nat) by lia. exists j, (nth j r a).
    split; [apply nth_error_nth'; exact LT|]. split; reflexivity.
Qed.
Theorem C63_name_tables :
  map (parseName stateNames) (map chars ["INACTIVE"; "WAITING"; "EXECUTING"; "ITERATION_ENDED"; "FINISHED"; "FAILING"; "FINISHING"])%string = [1; 2; 3; 4; 5; 6; 7]%nat
  /\ map (parseName outcomeNames) (map chars ["SUCCESS"; "FAILURE"; "SKIPPED"; "INTERRUPTED"])%string = [1; 2; 3; 4]%nat
  /\ map (parseName failureNames) (map chars ["PRE_CONDITION_FAILED"; "POST_CONDITION_FAILED"; "INVARIANT_CONDITION_FAILED"; "PARENT_FAILED"; "EXITED"; "PARENT_EXITED"])%string = [1; 2; 3; 4; 5; 6]%nat
  /\ map (parseName handleNames) (map chars ["COMMAND_SENT_TO_SYSTEM"; "COMMAND_ACCEPTED"; "COMMAND_RCVD_BY_SYSTEM"; "COMMAND_FAILED"; "COMMAND_DENIED"; "COMMAND_SUCCESS";
        "COMMAND_ABORTED"; "COMMAND_ABORT_FAILED"; "COMMAND_INTERFACE_ERROR"])%string = [1; 2; 3; 4; 5; 6; 7; 8; 9]%nat.
Proof. vm_compute. repeat split. Qed.
(** A command handle literal in a plan: these six names and no other text. *)
Theorem C63_handles s i :
  handleConstant s = Some i <->
  In (s, i) (combine (map chars ["COMMAND_SENT_TO_SYSTEM"; "COMMAND_ACCEPTED"; "COMMAND_RCVD_BY_SYSTEM"; "COMMAND_FAILED"; "COMMAND_DENIED"; "COMMAND_SUCCESS"])%string [1; 2; 3; 4; 5; 6]%nat).
Proof.
  assert (N : forall k, k <> O -> parseName handleNames s = k -> s = nameOf handleNames k).
  { intros k NZ H. apply (C63_names handleNames) in H as [_ H]; [exact H|cbn; tauto|exact NZ]. }
  unfold handleConstant. split.
  - destruct (parseName handleNames s) as [|[|[|[|[|[|[|k]]]]]]] eqn:E; try discriminate; intros [= <-]; rewrite (N _ (Nat.neq_succ_0 _) eq_refl); cbn [combine map In]; tauto.
  - cbn [combine map In]. intros H. repeat (destruct H as [H|H]; [injection H as <- <-; reflexivity|]). destruct H.
Qed.
(** A command can end aborted or with an interface error, but a plan cannot name these handles. *)
Theorem C63_handles_refuted :
  Forall (fun n => parseName handleNames (chars n) <> O /\ handleConstant (chars n) = None)
    ["COMMAND_ABORTED"; "COMMAND_ABORT_FAILED"; "COMMAND_INTERFACE_ERROR"]%string.
Proof. repeat constructor; vm_compute; congruence. Qed.
Theorem C63_types s t : t <> UNKNOWN_TYPE ->
  (parseValueType s = t <->
   (s = typeName t /\ In t [BOOLEAN_TYPE; INTEGER_TYPE; REAL_TYPE; STRING_TYPE; DATE_TYPE; DURATION_TYPE; BOOLEAN_ARRAY_TYPE; INTEGER_ARRAY_TYPE;
      REAL_ARRAY_TYPE; STRING_ARRAY_TYPE; STATE_TYPE; NODE_STATE_TYPE; OUTCOME_TYPE; FAILURE_TYPE; COMMAND_HANDLE_TYPE])
   \/ (s = chars "Array" /\ t = ARRAY_TYPE)).
Proof.
  intros NU. split.
  - intros <-. revert NU.
    set (Q := fun u : Z => u <> UNKNOWN_TYPE -> (s = typeName u /\ In u [BOOLEAN_TYPE; INTEGER_TYPE; REAL_TYPE; STRING_TYPE; DATE_TYPE; DURATION_TYPE; BOOLEAN_ARRAY_TYPE; INTEGER_ARRAY_TYPE;
      REAL_ARRAY_TYPE; STRING_ARRAY_TYPE; STATE_TYPE; NODE_STATE_TYPE; OUTCOME_TYPE; FAILURE_TYPE; COMMAND_HANDLE_TYPE]) \/ (s = chars "Array" /\ u = ARRAY_TYPE)).
    assert (QU : Q UNKNOWN_TYPE) by (intros X; contradiction).
    assert (QC : forall n u, (s = chars n -> Q u) -> Q (cmp s n u)).
    { intros n u H. unfold cmp. destruct (streq s (chars n)) eqn:E; [|exact QU]. apply streq_true in E. exact (H E). }
    assert (QT : forall n u, typeName u = chars n /\ In u [BOOLEAN_TYPE; INTEGER_TYPE; REAL_TYPE; STRING_TYPE; DATE_TYPE; DURATION_TYPE; BOOLEAN_ARRAY_TYPE; INTEGER_ARRAY_TYPE;
      REAL_ARRAY_TYPE; STRING_ARRAY_TYPE; STATE_TYPE; NODE_STATE_TYPE; OUTCOME_TYPE; FAILURE_TYPE; COMMAND_HANDLE_TYPE] -> s = chars n -> Q u).
    { intros n u [T I] -> _. left. split; [congruence|exact I]. }
    assert (QA : s = chars "Array" -> Q ARRAY_TYPE) by (intros -> _; right; split; reflexivity).
    change (Q (parseValueType s)). unfold parseValueType. destruct s as [|c r] eqn:ES; [exact QU|]. rewrite <- ES in *. clear ES. clearbody Q.
    destruct (c =? 65); [apply QC, QA|].
    destruct (c =? 66). { destruct (length s) as [|[|[|[|[|[|[|[|[|[|[|[|[|?]]]]]]]]]]]]]; try exact QU; apply QC; apply QT; (split; [reflexivity|cbn; tauto]). }
    destruct (c =? 68). { destruct (streq s (chars "Date")) eqn:E; [apply streq_true in E; apply (QT "Date"%string); [split; [reflexivity|cbn; tauto]|exact E]|]. apply QC; apply QT; (split; [reflexivity|cbn; tauto]). }
    destruct (c =? 73). { destruct (length s) as [|[|[|[|[|[|[|[|[|[|[|[|[|?]]]]]]]]]]]]]; try exact QU; apply QC; apply QT; (split; [reflexivity|cbn; tauto]). }
    destruct (c =? 78).
    { destruct (length s) as [|[|[|[|[|[|[|[|[|[|[|[|[|[|[|[|[|[|?]]]]]]]]]]]]]]]]]]; try exact QU; try (apply QC; apply QT; (split; [reflexivity|cbn; tauto])).
      destruct (nth 4 s 0 =? 70); cbn [andb]; [|apply QC; apply QT; (split; [reflexivity|cbn; tauto])].
      destruct (streq s (chars "NodeFailure")) eqn:E; [apply streq_true in E; apply (QT "NodeFailure"%string); [split; [reflexivity|cbn; tauto]|exact E]|]. apply QC; apply QT; (split; [reflexivity|cbn; tauto]). }
    destruct (c =? 82). { destruct (length s) as [|[|[|[|[|[|[|[|[|[|[|[|[|?]]]]]]]]]]]]]; try exact QU; apply QC; apply QT; (split; [reflexivity|cbn; tauto]). }
    destruct (c =? 83). { destruct (length s) as [|[|[|[|[|[|[|[|[|[|[|[|[|?]]]]]]]]]]]]]; try exact QU; apply QC; apply QT; (split; [reflexivity|cbn; tauto]). }
    exact QU.
  - intros [[-> IN]|[-> ->]]; [|reflexivity]. cbn [In] in IN. repeat (destruct IN as [<- |IN]; [reflexivity|]). destruct IN.
Qed.

(** ** Where the code falls short *)
(** A leading zero makes an Integer octal, but not a Real. *)
Theorem C63_leading_zero_refuted :
  literal LInt (chars "010") = Some (Some (SI 8)) /\ literal LInt (chars "08") = None
  /\ exists x, parseReal (chars "010") = Known x /\ B2R x = 10%R.
Proof.
  split; [reflexivity|]. split; [reflexivity|].
  assert (T : realText (chars "010") false (IZR 10 * powerRZ 10 (0 - 0))).
  { exists [], [], (chars "010" ++ []). split; [constructor|]. split; [constructor|]. split; [|reflexivity]. constructor; [|left; auto].
    exists (chars "010"), [], [0; 1; 0], []. split; [repeat constructor; unfold digitChar; cbn; lia|]. split; [constructor|]. split; [discriminate|]. split; [left; auto|]. split; reflexivity. }
  assert (E : (IZR 10 * powerRZ 10 (0 - 0) = B2R (binary_normalize 53 1024 eq_refl eq_refl mode_NE 10 0 false))%R) by (vm_compute; lra).
  destruct (parseReal (chars "010")) as [x| |] eqn:P.
  - exists x. split; [reflexivity|]. rewrite (C63_real_exact _ _ _ x (binary_normalize 53 1024 eq_refl eq_refl mode_NE 10 0 false) T P eq_refl (eq_sym E)). rewrite <- E. cbn. lra.
  - apply C63_real_unknown in P as [P|P]; discriminate P.
  - exfalso. assert (X : match parseReal (chars "010") with Refused => false | _ => true end = true) by (vm_compute; reflexivity). rewrite P in X. discriminate X.
Qed.
(** Negative zero becomes zero; a Real constant can be no number at all; a number too small becomes zero. *)
Theorem C63_real_values_refuted :
  literal LReal (chars "-0.0") = Some (Some (SR (B754_zero false))) /\ parseReal (chars "-0.0") = Known (B754_zero true)
  /\ literal LReal (chars "nan") = Some (Some (SR B754_nan))
  /\ literal LReal (chars "1e-400") = Some (Some (SR (B754_zero false))).
Proof. split; [reflexivity|]. split; [reflexivity|]. split; [reflexivity|]. vm_compute. reflexivity. Qed.
(** An element's tag need only begin like the type's name. *)
Theorem C63_array_tag_refuted :
  arrayLiteral LInt [(chars "IntValue", chars "7"); (chars "Value", chars "UNKNOWN")] = Some [Some (SI 7); None].
Proof. reflexivity. Qed.

(** ** Examples *)
Theorem C63_example :
  map (literal LInt) (map chars ["-2147483648"; "2147483648"; " +0x1F"; "12abc"; "UNKNOWN"; ""])%string
  = [Some (Some (SI (-2147483648))); None; Some (Some (SI 31)); None; Some None; None]
  /\ map (literal LBool) (map chars ["TrUe"; "0"; "yes"; "UNKNOWN"])%string = [Some (Some (SB true)); Some (Some (SB false)); None; Some None]
  /\ literal LReal (chars "1e999") = None /\ literal LReal (chars "inf") = None
  /\ exists x, literal LReal (chars "0x1.8p1") = Some (Some (SR x)) /\ B2R x = 3%R.
Proof.
  split; [reflexivity|]. split; [reflexivity|]. split; [vm_compute; reflexivity|]. split; [reflexivity|].
  set (x := match parseReal (chars "0x1.8p1") with Known y => realConstant y | _ => B754_nan end).
  assert (X : B2SF x = SpecFloat.S754_finite false 6755399441055744 (-51)) by (vm_compute; reflexivity).
  exists x. split.
  - assert (P : match parseReal (chars "0x1.8p1") with Known _ => true | _ => false end = true) by (vm_compute; reflexivity).
    unfold literal, x. destruct (parseReal (chars "0x1.8p1")); [reflexivity|discriminate P|discriminate P].
  - rewrite <- SF2R_B2SF, X. cbn. unfold F2R. cbn. lra.
Qed.

(** Assumptions *)
Print Assumptions C63_integer.
Print Assumptions C63_integer_unknown.
Print Assumptions C63_print_integer.
Print Assumptions C63_integer_text_unambiguous.
Print Assumptions C63_boolean.
Print Assumptions C63_boolean_unknown.
Print Assumptions C63_print_boolean.
Print Assumptions C63_real.
Print Assumptions C63_real_closest.
Print Assumptions C63_real_exact.
Print Assumptions C63_real_accepted.
Print Assumptions C63_real_unknown.
Print Assumptions C63_real_literal.
Print Assumptions C63_literal.
Print Assumptions C63_array.
Print Assumptions C63_array_length.
Print Assumptions C63_max_size_partial.
Print Assumptions C63_max_size_refuted.
Print Assumptions C63_priority_partial.
Print Assumptions C63_priority_accepted.
Print Assumptions C63_priority_refuted.
Print Assumptions C63_names.
Print Assumptions C63_handles_refuted.
Print Assumptions C63_types.
Print Assumptions C63_leading_zero_refuted.
Print Assumptions C63_real_values_refuted.
Print Assumptions C63_array_tag_refuted.
Print Assumptions C63_example.
Print Assumptions C63_array_accepted.
Print Assumptions C63_name_tables.
Print Assumptions C63_handles.
