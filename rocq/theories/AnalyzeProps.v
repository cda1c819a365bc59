(** C80: the plan analyser reports the right numbers. *)
From Coq Require Import String List Arith Lia Bool FinFun.
From Verif Require Import AnalyzeModel AnalyzeSpec.
Import ListNotations.
(** ** Counters *)
Lemma bump_at a i j : bump a i j = a j + (if j =? i then 1 else 0).
Proof. unfold bump. destruct (j =? i); lia. Qed.
Lemma bumpAt_ok v : forall i, i < length v -> exists v', bumpAt v i = Some v' /\ length v' = length v /\ forall j, nth j v' 0 = nth j v 0 + (if i =? j then 1 else 0).
Proof.
  induction v as [|x v IH]; intros i L; [cbn in L; lia|]. destruct i as [|i].
  - exists (S x :: v). repeat split. intros [|j]; cbn [nth Nat.eqb]; lia.
  - cbn [length] in L. destruct (IH i ltac:(lia)) as (v' & E & EL & N). exists (x :: v'). cbn [bumpAt]. rewrite E. split; [reflexivity|]. split; [cbn; lia|]. intros [|j]; cbn [nth Nat.eqb]; [lia|apply N].
Qed.
Lemma resize_nth v n j : length v <= n -> nth j (resize v n) 0 = nth j v 0.
Proof.
  intros L. unfold resize. rewrite firstn_all2 by exact L. destruct (Nat.lt_ge_cases j (length v)); [now rewrite app_nth1|].
  rewrite app_nth2 by lia. rewrite (nth_overflow v) by lia. apply nth_repeat.
Qed.
Lemma resize_length v n : length v <= n -> length (resize v n) = n.
Proof. intros L. unfold resize. rewrite app_length, firstn_all2, repeat_length by exact L. lia. Qed.
Lemma increment_ok v n : 0 < n \/ 0 < length v -> exists v', incrementCount v n = Some v' /\ length v <= length v' /\ n < length v' /\ forall j, nth j v' 0 = nth j v 0 + (if n =? j then 1 else 0).
Proof.
  intros H. unfold incrementCount. destruct (length v <=? n) eqn:E; [apply Nat.leb_le in E|apply Nat.leb_gt in E].
  - destruct (bumpAt_ok (resize v (n * 2)) n) as (v' & -> & L & N); [rewrite resize_length; lia|]. rewrite resize_length in L by lia. exists v'. split; [reflexivity|]. split; [lia|]. split; [lia|].
    intros j. rewrite N, resize_nth by lia. reflexivity.
  - destruct (bumpAt_ok v n E) as (v' & -> & L & N). exists v'. split; [reflexivity|]. split; [lia|]. split; [lia|exact N].
Qed.
Lemma increment_leaf_first : incrementCount [] 0 = None.
Proof. reflexivity. Qed.
Lemma fold_bump_out l : forall a j, ~ In j l -> fold_left bump l a j = a j.
Proof. induction l as [|i l IH]; intros a j N; [reflexivity|]. cbn [fold_left]. rewrite IH by (intros I; apply N; now right). rewrite bump_at. destruct (Nat.eqb_spec j i); [subst; elim N; now left|lia]. Qed.
Lemma fold_bump_in l : NoDup l -> forall a j, In j l -> fold_left bump l a j = S (a j).
Proof.
  induction 1 as [|i l NI ND IH]; intros a j I; [destruct I|]. cbn [fold_left]. destruct (Nat.eq_dec j i) as [->|NE].
  - rewrite fold_bump_out by exact NI. rewrite bump_at, Nat.eqb_refl. lia.
  - destruct I as [->|I]; [congruence|]. rewrite IH by exact I. rewrite bump_at. destruct (Nat.eqb_spec j i); [congruence|lia].
Qed.
Lemma condition_same n i : getNodeCondition n i = hasCondition i n.
Proof.
  unfold getNodeCondition, hasCondition, getCondition. destruct (i <? 3) eqn:E; cbn [negb orb]; [|now rewrite andb_true_r]. destruct (children n); cbn [length Nat.eqb negb]; [now rewrite andb_false_r|now rewrite andb_true_r].
Qed.
Lemma conditions_same n : filter (getNodeCondition n) (seq 0 conditionIndexMax) = filter (fun i => hasCondition i n) [0;1;2;3;4;5;6;7;8;9;10;11;12].
Proof. change (seq 0 conditionIndexMax) with [0;1;2;3;4;5;6;7;8;9;10;11;12]. apply filter_ext. intros i. apply condition_same. Qed.
Lemma filter_le {A} (p : A -> bool) l : length (filter p l) <= length l.
Proof. induction l as [|a l IH]; cbn; [lia|]. destruct (p a); cbn; lia. Qed.
Lemma filter_less {A} (p : A -> bool) l x : In x l -> p x = false -> length (filter p l) < length l.
Proof.
  induction l as [|a l IH]; [intros []|]. intros [->|I] N; cbn [filter length].
  - rewrite N. pose proof (filter_le p l). lia.
  - specialize (IH I N). destruct (p a); cbn [length]; lia.
Qed.
Lemma conditions_few n : planNode n -> conditionsOf n < 13.
Proof.
  intros (_ & _ & C). unfold conditionsOf. change 13 with (length [0;1;2;3;4;5;6;7;8;9;10;11;12]). destruct (children n) as [|k ks] eqn:E.
  - apply filter_less with (x := 0); [now left|]. unfold hasCondition. rewrite E. cbn. apply andb_false_r.
  - apply filter_less with (x := 12); [do 12 right; now left|]. unfold hasCondition. rewrite C by discriminate. reflexivity.
Qed.
(** ** Called libraries *)
Definition named (l : list (string * nat)) : Prop := NoDup (map fst l).
Lemma insertLib_in libs name e : In e (insertLib libs name) <-> e = (name, 1) \/ In e libs.
Proof.
  induction libs as [|[m k] r IH]; cbn [insertLib]; [cbn [In]; intuition congruence|]. destruct (String.ltb name m); cbn [In]; [intuition congruence|]. rewrite IH. intuition congruence.
Qed.
Lemma insertLib_named libs name : named libs -> ~ In name (map fst libs) -> named (insertLib libs name).
Proof.
  unfold named. induction libs as [|[m k] r IH]; cbn [insertLib map fst]; intros ND NI; [constructor; [intros []|constructor]|]. destruct (String.ltb name m); cbn [map fst]; [constructor; assumption|].
  inversion ND as [|? ? N ND']; subst. constructor; [|apply IH; [exact ND'|intros I; apply NI; now right]].
  intros I. apply in_map_iff in I. destruct I as ([m' k'] & E & I). cbn [fst] in E. subst m'. apply insertLib_in in I. destruct I as [[= -> ->]|I]; [apply NI; now left|]. apply N. apply in_map_iff. now exists (m, k').
Qed.
Lemma named_one l a x y : named l -> In (a, x) l -> In (a, y) l -> x = y.
Proof.
  unfold named. induction l as [|[m k] r IH]; cbn [map fst]; intros ND I J; [destruct I|]. inversion ND as [|? ? N ND']; subst. destruct I as [[= -> ->]|I], J as [E|J].
  - now injection E.
  - elim N. apply in_map_iff. now exists (a, y).
  - injection E as -> ->. elim N. apply in_map_iff. now exists (a, x).
  - now apply IH.
Qed.
Definition tallies (libs : list (string * nat)) (c : string -> nat) : Prop := named libs /\ forall lib k, In (lib, k) libs <-> 0 < k /\ k = c lib.
Lemma tally libs c name c' : tallies libs c -> (forall lib, c' lib = c lib + (if String.eqb name lib then 1 else 0)) -> tallies (incrementLibraryCallCount libs name) c'.
Proof.
  intros (ND & T) C. unfold incrementLibraryCallCount. destruct (existsb _ libs) eqn:E.
  - apply existsb_exists in E. destruct E as ([m k] & I & E). cbn [fst] in E. apply String.eqb_eq in E. subst m. split.
    + unfold named. rewrite map_map. erewrite map_ext; [exact ND|]. intros e. now destruct (String.eqb (fst e) name).
    + intros lib j. rewrite in_map_iff, C. split.
      * intros ([m q] & E & J). cbn [fst snd] in E. apply T in J. destruct (String.eqb_spec m name) as [->|N]; injection E as <- <-.
        -- rewrite String.eqb_refl. lia.
        -- destruct (String.eqb_spec name m); [congruence|lia].
      * intros (P & ->). destruct (String.eqb_spec name lib) as [->|N].
        -- apply T in I. exists (lib, c lib). cbn [fst snd]. rewrite String.eqb_refl. split; [f_equal; lia|]. apply T. lia.
        -- exists (lib, c lib). cbn [fst snd]. destruct (String.eqb_spec lib name); [congruence|]. split; [f_equal; lia|]. apply T. lia.
  - assert (NI : ~ In name (map fst libs)).
    { intros I. apply in_map_iff in I. destruct I as ([m k] & E' & I). cbn [fst] in E'. subst m. rewrite <- not_true_iff_false in E. apply E. apply existsb_exists. exists (name, k). split; [exact I|]. cbn [fst]. apply String.eqb_refl. }
    assert (Z : c name = 0). { destruct (c name) as [|q] eqn:Q; [reflexivity|]. elim NI. apply in_map_iff. exists (name, S q). split; [reflexivity|]. apply T. lia. }
    split; [now apply insertLib_named|]. intros lib j. rewrite insertLib_in, C, T. destruct (String.eqb_spec name lib) as [->|N].
    + split; [intros [[= ->]|H]; lia|]. intros (_ & ->). left. f_equal. lia.
    + split; [intros [EQ|H]; [injection EQ as ? ?; congruence|lia]|]. intros H. right. lia.
Qed.
(** ** The walk *)
Definition many (p : node -> bool) (l : list node) : nat := length (filter p l).
Lemma many_snoc p l n : many p (l ++ [n]) = many p l + (if p n then 1 else 0).
Proof. unfold many. rewrite filter_app, app_length. cbn [filter]. now destruct (p n). Qed.
Record Seen (l : list node) (s : stats) : Prop := mkSeen {
  sCount : nodeCount s = length l;
  sTypes : forall ty, typeCounts s ty = many (fun x => nodeType x =? ty) l;
  sConds : forall i, i <= 12 -> conditionCounts s i = many (hasCondition i) l;
  sNumber : forall k, conditionCountNodes s k = many (fun x => conditionsOf x =? k) l;
  sLists : forall k, conditionCountListNodes s k = many (fun x => (nodeType x =? 1) && (conditionsOf x =? k)) l;
  sKids : forall k, nth k (childCounts s) 0 = many (fun x => length (children x) =? k) l;
  sKids2 : l <> [] -> 2 <= length (childCounts s);
  sVars : forall k, nth k (variableCounts s) 0 = many (hasVariables k) l;
  sVars2 : (exists n, In n l /\ variables n <> None) -> 0 < length (variableCounts s);
  sLibs : tallies (calledLibs s) (fun lib => many (callsLibrary lib) l);
  sDepth : callDepth s <= maxCallDepth s }.
Lemma seen_none : Seen [] initializeStatistics.
Proof.
  constructor; cbn; try reflexivity; try (intros; reflexivity).
  - intros [|k]; reflexivity.
  - congruence.
  - intros [|k]; reflexivity.
  - intros (n & [] & _).
  - split; [constructor|]. intros lib k. cbn. split; [intros []|lia].
Qed.
(** The counting of one node, with the call if it is one *)
Definition enter (s : stats) (n : node) : stats := match children n with k :: _ => if nodeType n =? 6 then enterCall s (nodeId k) else s | [] => s end.
Lemma tallies_ext libs c c' : tallies libs c -> (forall lib, c lib = c' lib) -> tallies libs c'.
Proof. intros (N & T) E. split; [exact N|]. intros lib k. rewrite T, E. reflexivity. Qed.
Lemma count_ok l s n : Seen l s -> planNode n -> (l <> [] \/ children n <> []) -> (variables n = Some 0 -> exists b, In b l /\ variables b <> None) ->
  exists s', countNode s n = Some s' /\ Seen (l ++ [n]) (enter s' n) /\ callDepth s' = callDepth s /\ maxCallDepth s' = maxCallDepth s.
Proof.
  intros S P K V. pose proof P as (T & K1 & _). unfold countNode, NodeType_error. destruct (7 <=? nodeType n) eqn:E7; [apply Nat.leb_le in E7; lia|clear E7].
  assert (exists vc, (match variables n with Some k => incrementCount (variableCounts s) k | None => Some (variableCounts s) end) = Some vc /\
    (forall j, nth j vc 0 = nth j (variableCounts s) 0 + (if hasVariables j n then 1 else 0)) /\ length (variableCounts s) <= length vc /\ (variables n <> None -> 0 < length vc)) as (vc & -> & VC & VL & VN).
  { unfold hasVariables. destruct (variables n) as [k|]; [|exists (variableCounts s); split; [reflexivity|]; split; [intros; lia|]; split; [lia|congruence]].
    destruct (increment_ok (variableCounts s) k) as (v & E & L1 & L2 & N); [|exists v; split; [exact E|]; split; [exact N|]; split; [exact L1|lia]].
    destruct k; [|lia]. right. apply (sVars2 l s S), V. reflexivity. }
  unfold getConditionStatistics. cbn [conditionCounts nodeCount typeCounts conditionCountNodes conditionCountListNodes childCounts variableCounts calledLibs callDepth maxCallDepth].
  rewrite conditions_same. fold (conditionsOf n). pose proof (conditions_few n P) as F. unfold conditionIndexMax. destruct (13 <=? conditionsOf n) eqn:E; [apply Nat.leb_le in E; lia|clear E].
  cbn [conditionCounts nodeCount typeCounts conditionCountNodes conditionCountListNodes childCounts variableCounts calledLibs callDepth maxCallDepth].
  destruct (increment_ok (childCounts s) (length (children n))) as (kc & EK & L1 & L2 & N).
  { destruct K as [K|K]; [right; pose proof (sKids2 l s S K); lia|left; destruct (children n); [congruence|cbn; lia]]. }
  rewrite EK. eexists. split; [reflexivity|]. split; [|split; reflexivity].
  set (s' := mkStats _ _ _ _ _ _ _ _ _ _).
  assert (G : Seen (l ++ [n]) (mkStats (nodeCount s') (typeCounts s') (conditionCounts s') (conditionCountNodes s') (conditionCountListNodes s') (childCounts s') (variableCounts s') (calledLibs (enter s' n)) (callDepth (enter s' n)) (maxCallDepth (enter s' n)))).
  { constructor; cbn [nodeCount typeCounts conditionCounts conditionCountNodes conditionCountListNodes childCounts variableCounts calledLibs callDepth maxCallDepth s'].
    - rewrite app_length, (sCount l s S). cbn. lia.
    - intros ty. rewrite bump_at, many_snoc, (sTypes l s S), (Nat.eqb_sym ty). reflexivity.
    - intros i I. rewrite many_snoc, <- (sConds l s S) by exact I. destruct (hasCondition i n) eqn:H.
      + rewrite fold_bump_in; [lia|apply NoDup_filter; change [0;1;2;3;4;5;6;7;8;9;10;11;12] with (seq 0 13); apply seq_NoDup|]. apply filter_In. split; [|exact H]. change [0;1;2;3;4;5;6;7;8;9;10;11;12] with (seq 0 13). apply in_seq. lia.
      + rewrite fold_bump_out; [lia|]. rewrite filter_In. intros (_ & H'). congruence.
    - intros k. rewrite bump_at, many_snoc, (sNumber l s S), (Nat.eqb_sym k). reflexivity.
    - intros k. unfold NodeType_NodeList. rewrite many_snoc, <- (sLists l s S). destruct (nodeType n =? 1); cbn [andb]; [|lia]. rewrite bump_at, (Nat.eqb_sym k). reflexivity.
    - intros k. rewrite many_snoc, <- (sKids l s S), N. reflexivity.
    - intros _. destruct K as [K|K]; [pose proof (sKids2 l s S K); lia|]. destruct (children n); [congruence|cbn in L2; lia].
    - intros k. rewrite many_snoc, <- (sVars l s S), VC. reflexivity.
    - intros (b & I & B). apply in_app_iff in I. destruct I as [I|[->|[]]]; [|now apply VN]. pose proof (sVars2 l s S (ex_intro _ b (conj I B))). lia.
    - unfold enter. destruct (nodeType n =? 6) eqn:E6.
      + destruct (children n) as [|k [|k2 ks]] eqn:EC; [apply Nat.eqb_eq in E6; specialize (K1 E6); discriminate| |apply Nat.eqb_eq in E6; specialize (K1 E6); discriminate].
        unfold enterCall. cbn [calledLibs s']. apply (tally _ _ _ _ (sLibs l s S)). intros lib. rewrite many_snoc. unfold callsLibrary at 2, isCall. rewrite E6, EC. cbn [existsb andb]. rewrite orb_false_r. reflexivity.
      + replace (calledLibs _) with (calledLibs s) by (destruct (children n); reflexivity). apply (tallies_ext _ _ _ (sLibs l s S)). intros lib. rewrite many_snoc. unfold callsLibrary at 3, isCall. rewrite E6. cbn [andb]. lia.
    - pose proof (sDepth l s S). unfold enter. destruct (children n); [exact H|]. destruct (nodeType n =? 6); [|exact H]. unfold enterCall. cbn [callDepth maxCallDepth s']. destruct (maxCallDepth s <? _) eqn:E; [lia|]. apply Nat.ltb_ge in E. lia. }
  destruct G. unfold enter in *. destruct (children n); [constructor; assumption|]. destruct (nodeType n =? 6); constructor; assumption.
Qed.
Lemma node_induction (P : node -> Prop) : (forall id ty v c kids, Forall P kids -> P (Node id ty v c kids)) -> forall n, P n.
Proof.
  intros H. fix F 1. intros [id ty v c kids]. apply H. induction kids as [|k ks IH]; constructor; [apply F|exact IH].
Qed.
Definition allKids := fix all (ks : list node) (s : stats) : option stats :=
  match ks with [] => Some s | k :: ks => match getNodeStatistics k s with Some s => all ks s | None => None end end.
Lemma vars_before root l n rest : firstVariables root -> nodes root = l ++ n :: rest -> variables n = Some 0 -> exists b, In b l /\ variables b <> None.
Proof.
  intros FV E V. destruct (existsb (fun b => match variables b with Some _ => true | None => false end) l) eqn:X.
  - apply existsb_exists in X. destruct X as (b & I & B). exists b. split; [exact I|]. now destruct (variables b).
  - specialize (FV l n rest 0 E). rewrite <- not_true_iff_false in X. enough (0 < 0) by lia. apply FV; [|exact V]. intros b I. destruct (variables b) eqn:B; [|reflexivity]. elim X. apply existsb_exists. exists b. now rewrite B.
Qed.
Lemma leave_seen l s : Seen l s -> Seen l (leaveCall s).
Proof. intros []. constructor; try assumption. cbn. lia. Qed.
Lemma walk root : plan root -> firstVariables root -> forall n l rest s, nodes root = l ++ nodes n ++ rest -> (l <> [] \/ children n <> []) -> Seen l s ->
  exists s', getNodeStatistics n s = Some s' /\ Seen (l ++ nodes n) s' /\ callDepth s' = callDepth s /\ maxCallDepth s' = Nat.max (maxCallDepth s) (callDepth s + nestedCalls n).
Proof.
  intros PL FV. induction n as [id ty v c kids IH] using node_induction. intros l rest s E K SN. set (n := Node id ty v c kids) in *.
  assert (EN : nodes n = n :: flat_map nodes kids) by reflexivity. rewrite EN in E. cbn [app] in E.
  assert (PN : planNode n). { unfold plan in PL. rewrite E in PL. apply Forall_app in PL. destruct PL as (_ & PL). now inversion PL. }
  destruct (count_ok l s n SN PN K) as (s1 & C & S1 & D1 & M1); [intros V; exact (vars_before root l n _ FV E V)|].
  assert (EG : getNodeStatistics n s = match countNode s n with None => None | Some s => if ty =? NodeType_LibraryNodeCall then match kids with [] => None | k :: _ => match getNodeStatistics k (enterCall s (nodeId k)) with Some s => Some (leaveCall s) | None => None end end else allKids kids s end) by reflexivity.
  rewrite EG, C, EN. clear EG. unfold NodeType_LibraryNodeCall. destruct (ty =? 6) eqn:E6.
  - destruct PN as (_ & ONE & _). specialize (ONE (proj1 (Nat.eqb_eq _ _) E6)). cbn [children n] in ONE. destruct kids as [|k [|k2 ks]]; [discriminate| |discriminate]. inversion IH as [|? ? IHk _]; subst.
    unfold enter in S1. cbn [children nodeType n] in S1. rewrite E6 in S1. cbn [flat_map] in E |- *. rewrite app_nil_r in E |- *.
    destruct (IHk (l ++ [n]) rest _ ltac:(rewrite <- app_assoc; exact E) ltac:(left; destruct l; discriminate) S1) as (s2 & G & S2 & D2 & M2). rewrite G. eexists. split; [reflexivity|].
    split; [apply leave_seen; rewrite <- app_assoc in S2; exact S2|]. cbn [leaveCall callDepth maxCallDepth]. rewrite D2, M2. cbn [enterCall callDepth maxCallDepth]. split; [lia|].
    change (nestedCalls n) with ((if ty =? 6 then 1 else 0) + Nat.max (nestedCalls k) 0). rewrite E6, M1, D1. pose proof (sDepth l s SN). destruct (maxCallDepth s <? S (callDepth s)) eqn:LT; [apply Nat.ltb_lt in LT|apply Nat.ltb_ge in LT]; unfold list_max; cbn [fold_right]; lia.
  - assert (S1' : Seen (l ++ [n]) s1). { unfold enter in S1. cbn [children nodeType n] in S1. rewrite E6 in S1. destruct kids; exact S1. }
    assert (GO : forall ks m r s, Forall (fun n => forall l rest s, nodes root = l ++ nodes n ++ rest -> l <> [] \/ children n <> [] -> Seen l s -> exists s', getNodeStatistics n s = Some s' /\ Seen (l ++ nodes n) s' /\ callDepth s' = callDepth s /\ maxCallDepth s' = Nat.max (maxCallDepth s) (callDepth s + nestedCalls n)) ks ->
      nodes root = m ++ flat_map nodes ks ++ r -> m <> [] -> Seen m s -> exists s', allKids ks s = Some s' /\ Seen (m ++ flat_map nodes ks) s' /\ callDepth s' = callDepth s /\ maxCallDepth s' = Nat.max (maxCallDepth s) (callDepth s + list_max (map nestedCalls ks))).
    { clear. induction ks as [|k ks IH]; intros m r s F E NE SN; cbn [allKids flat_map map].
      - exists s. rewrite app_nil_r. split; [reflexivity|]. split; [exact SN|]. split; [reflexivity|]. pose proof (sDepth m s SN). cbn [list_max fold_right]. unfold list_max. cbn [fold_right]. lia.
      - inversion F as [|? ? Fk F']; subst. cbn [flat_map] in E. rewrite <- app_assoc in E. destruct (Fk m (flat_map nodes ks ++ r) s E (or_introl NE) SN) as (s2 & -> & S2 & D2 & M2).
        destruct (IH (m ++ nodes k) r s2 F' ltac:(rewrite <- app_assoc; exact E) ltac:(destruct m; [congruence|discriminate]) S2) as (s3 & G & S3 & D3 & M3).
        exists s3. split; [exact G|]. split; [rewrite <- app_assoc in S3; exact S3|]. split; [congruence|]. rewrite M3, M2, D2. unfold list_max. cbn [fold_right]. lia. }
    destruct (GO kids (l ++ [n]) rest s1 IH ltac:(rewrite <- app_assoc; exact E) ltac:(destruct l; discriminate) S1') as (s2 & G & S2 & D2 & M2).
    exists s2. split; [exact G|]. split; [rewrite <- app_assoc in S2; exact S2|]. split; [congruence|]. rewrite M2, M1, D1. unfold n. cbn [nestedCalls]. rewrite E6. lia.
Qed.
(** ** The report *)
Lemma nonzero_in mk v : forall i x, In x (nonzero mk v i) <-> exists j, j < length v /\ 0 < nth j v 0 /\ x = mk (nth j v 0) (i + j).
Proof.
  induction v as [|n v IH]; intros i x; cbn [nonzero].
  - split; [intros []|intros (j & L & _); cbn in L; lia].
  - rewrite in_app_iff, IH. split.
    + intros [I|(j & L & P & ->)].
      * exists 0. destruct n as [|n]; [destruct I|]. cbn in I. destruct I as [<-|[]]. cbn [length nth]. split; [lia|]. split; [lia|]. f_equal. lia.
      * exists (S j). cbn [length nth]. split; [lia|]. split; [exact P|]. f_equal. lia.
    + intros ([|j] & L & P & ->); cbn [length nth] in *.
      * left. destruct n; [lia|]. cbn. left. f_equal. lia.
      * right. exists j. split; [lia|]. split; [exact P|]. f_equal. lia.
Qed.
Lemma nested_calls n : 0 < nestedCalls n <-> exists m, In m (nodes n) /\ nodeType m = 6.
Proof.
  induction n as [id ty v c kids IH] using node_induction. set (n := Node id ty v c kids). change (nestedCalls n) with ((if ty =? 6 then 1 else 0) + list_max (map nestedCalls kids)). change (nodes n) with (n :: flat_map nodes kids).
  destruct (Nat.eqb_spec ty 6) as [->|NE].
  - split; [intros _; exists n; split; [now left|reflexivity]|lia].
  - cbn [Nat.add]. transitivity (exists k, In k kids /\ 0 < nestedCalls k).
    + clear IH n. induction kids as [|k ks IHk]; cbn [map].
      * cbn. split; [lia|intros (k & [] & _)].
      * change (list_max (nestedCalls k :: map nestedCalls ks)) with (Nat.max (nestedCalls k) (list_max (map nestedCalls ks))). split.
        -- intros P. destruct (Nat.lt_ge_cases 0 (nestedCalls k)); [exists k; split; [now left|assumption]|]. destruct (proj1 IHk ltac:(lia)) as (k' & I & P'). exists k'. split; [now right|exact P'].
        -- intros (k' & [->|I] & P); [lia|]. pose proof (proj2 IHk (ex_intro _ k' (conj I P))). lia.
    + rewrite Forall_forall in IH. split.
      * intros (k & I & P). apply (IH k I) in P. destruct P as (m & J & T). exists m. split; [right; apply in_flat_map; now exists k|exact T].
      * intros (m & [<-|J] & T); [cbn in T; congruence|]. apply in_flat_map in J. destruct J as (k & I & J). exists k. split; [exact I|]. apply (IH k I). now exists m.
Qed.
Lemma many_pos p l : 0 < many p l <-> exists n, In n l /\ p n = true.
Proof.
  unfold many. split.
  - destruct (filter p l) as [|n r] eqn:E; cbn; [lia|]. intros _. exists n. apply filter_In. rewrite E. now left.
  - intros (n & H). apply filter_In in H. destruct (filter p l); [destruct H|cbn; lia].
Qed.
Lemma call_pos root : plan root -> (0 < nestedCalls root <-> exists lib, 0 < howMany (callsLibrary lib) root).
Proof.
  intros PL. rewrite nested_calls. unfold plan in PL. rewrite Forall_forall in PL. split.
  - intros (m & I & T). destruct (PL m I) as (_ & ONE & _). specialize (ONE T). destruct (children m) as [|k [|k2 r]] eqn:E; try discriminate. exists (nodeId k). change (howMany _ root) with (many (callsLibrary (nodeId k)) (nodes root)). apply many_pos. exists m. split; [exact I|].
    unfold callsLibrary, isCall. rewrite T, E. cbn. now rewrite String.eqb_refl.
  - intros (lib & P). change (howMany _ root) with (many (callsLibrary lib) (nodes root)) in P. apply many_pos in P. destruct P as (m & I & C). exists m. split; [exact I|]. unfold callsLibrary, isCall in C. apply andb_prop in C. now apply Nat.eqb_eq.
Qed.
Lemma same_length (a b : list string) : NoDup a -> NoDup b -> (forall x, In x a <-> In x b) -> length a = length b.
Proof. intros A B E. apply Nat.le_antisymm; apply NoDup_incl_length; try assumption; intros x; apply E. Qed.
Lemma in_map_seq {A} (f : nat -> A) a n x : In x (map f (seq a n)) <-> exists i, a <= i < a + n /\ x = f i.
Proof. rewrite in_map_iff. split; intros (i & H). - exists i. destruct H as (<- & I). now apply in_seq in I. - exists i. destruct H as (I & ->). split; [reflexivity|]. now apply in_seq. Qed.
Lemma nonzero_map mk f a n i x : In x (nonzero mk (map f (seq a n)) i) <-> exists j, j < n /\ 0 < f (a + j) /\ x = mk (f (a + j)) (i + j).
Proof.
  rewrite nonzero_in. rewrite map_length, seq_length.
  assert (N : forall j, j < n -> nth j (map f (seq a n)) 0 = f (a + j)). { intros j L. rewrite (nth_indep _ 0 (f 0)) by (rewrite map_length, seq_length; exact L). rewrite map_nth, seq_nth by exact L. reflexivity. }
  split; intros (j & L & P & ->); exists j; rewrite N in * by exact L; auto.
Qed.
Lemma lib_lines root s : plan root -> Seen (nodes root) s -> maxCallDepth s = nestedCalls root -> forall x, In x (reportLibraryStatistics s) <-> match x with CallDepth _ | Libraries _ | Called _ _ => says root x | _ => False end.
Proof.
  intros PL S M x. destruct (sLibs _ _ S) as (ND & T). unfold reportLibraryStatistics.
  assert (IN : forall lib, In lib (map fst (calledLibs s)) <-> 0 < howMany (callsLibrary lib) root).
  { intros lib. rewrite in_map_iff. split; [intros ([m k] & <- & I); apply T in I; destruct I as (P & ->); exact P|]. intros P. exists (lib, howMany (callsLibrary lib) root). split; [reflexivity|]. now apply T. }
  pose proof (call_pos root PL) as CP. destruct (calledLibs s) as [|e r] eqn:E.
  - assert (NO : forall lib, ~ 0 < howMany (callsLibrary lib) root) by (intros lib P; apply IN in P; destruct P).
    split; [intros []|]. destruct x as [ | | | | | | | | |n|n|lib n]; try (intros []; fail); cbn [says].
    + intros (P & ->). apply CP in P. destruct P as (lib & P). now apply (NO lib).
    + intros (P & libs & _ & L & J). destruct libs as [|lib libs]; [cbn in L; lia|]. apply (NO lib), J. now left.
    + intros (P & ->). now apply (NO lib).
  - rewrite <- E in *. assert (LEN : length (map fst (calledLibs s)) = length (calledLibs s)) by apply map_length. assert (POS : 0 < length (calledLibs s)) by (rewrite E; cbn; lia). clear E e r.
    cbn [app In]. rewrite in_map_iff. split.
    + intros [<-|[<-|([lib k] & <- & I)]]; cbn [says fst snd].
      * split; [|now rewrite M]. rewrite M. apply CP. destruct (calledLibs s) as [|[lib k] r]; [cbn in POS; lia|]. exists lib. apply IN. now left.
      * split; [exact POS|]. exists (map fst (calledLibs s)). split; [exact ND|]. split; [exact LEN|exact IN].
      * apply T in I. exact I.
    + destruct x as [ | | | | | | | | |n|n|lib n]; try (intros []; fail); cbn [says].
      * intros (_ & ->). left. now rewrite M.
      * intros (_ & libs & N & <- & J). right. left. f_equal. rewrite <- LEN. apply same_length; [exact ND|exact N|]. intros lib. now rewrite IN, J.
      * intros (P & ->). right. right. exists (lib, howMany (callsLibrary lib) root). split; [reflexivity|]. now apply T.
Qed.
Theorem C80_report root : plan root -> children root <> [] -> firstVariables root -> exists ls, analyze root = Some ls /\ forall l, In l ls <-> says root l.
Proof.
  intros PL K FV. destruct (walk root PL FV root [] [] initializeStatistics) as (s & G & S & D & M); [cbn; now rewrite app_nil_r|now right|apply seen_none|].
  cbn [app] in S. cbn [initializeStatistics callDepth maxCallDepth Nat.add Nat.max] in M. assert (NE : nodes root <> []) by (destruct root; discriminate).
  pose proof (sKids2 _ _ S NE) as K2. pose proof (sKids _ _ S) as SK. pose proof (sVars _ _ S) as SV. pose proof (lib_lines root s PL S M) as LL. unfold analyze. rewrite G. unfold reportStatistics.
  destruct (childCounts s) as [|leaf [|one more]] eqn:EC; [cbn in K2; lia|cbn in K2; lia|]. eexists. split; [reflexivity|]. intros l.
  rewrite !in_app_iff. rewrite !nonzero_map, LL, in_map_seq, !nonzero_in. clear LL. cbn [In].
  assert (TYPES : forall ty, 0 < typeCounts s ty -> 1 <= ty <= 6).
  { intros ty. rewrite (sTypes _ _ S), many_pos. intros (n & I & E). apply Nat.eqb_eq in E. subst ty. unfold plan in PL. rewrite Forall_forall in PL. apply (PL n I). }
  assert (FEW : forall p k, 0 < many (fun x => p x && (conditionsOf x =? k)) (nodes root) -> k < 13).
  { intros p k. rewrite many_pos. intros (n & I & E). apply andb_prop in E. destruct E as (_ & E). apply Nat.eqb_eq in E. subst k. apply conditions_few. unfold plan in PL. rewrite Forall_forall in PL. now apply PL. }
  assert (FEW1 : forall k, 0 < many (fun x => conditionsOf x =? k) (nodes root) -> k < 13) by (intros k; exact (FEW (fun _ => true) k)).
  pose proof (sTypes _ _ S) as ST. pose proof (sConds _ _ S) as SC. pose proof (sNumber _ _ S) as SN. pose proof (sLists _ _ S) as SL. pose proof (sCount _ _ S) as S0.
  change NodeType_NodeList with 1. change (NodeType_error - 1) with 6. change conditionIndexMax with 13.
  split.
  - intros [[<-|[]]|[(j & L & P & ->)|[(j & L & P & ->)|[[<-|[<-|[]]]|[(j & L & P & ->)|[(i & L & ->)|[(j & L & P & ->)|[(j & L & P & ->)|LL]]]]]]]]; cbn [says].
    + exact S0.
    + split; [exact P|apply ST].
    + split; [exact P|apply SV].
    + exact (SK 0).
    + exact (SK 1).
    + split; [exact P|]. split; [lia|]. exact (SK (2 + j)).
    + split; [lia|]. apply SC. lia.
    + split; [exact P|apply SN].
    + split; [exact P|apply SL].
    + destruct l; first [exact LL | destruct LL].
  - destruct l as [n|n ty|n k|n|n|n k|n i|n k|n k|n|n|lib n]; cbn [says].
    + intros ->. left. left. now rewrite S0.
    + intros (P & ->). right. left. change (howMany _ root) with (many (fun x => nodeType x =? ty) (nodes root)) in *. rewrite <- ST in *. pose proof (TYPES ty P). exists (ty - 1). replace (1 + (ty - 1)) with ty by lia. split; [lia|]. now split.
    + intros (P & ->). right. right. left. change (howMany _ root) with (many (hasVariables k) (nodes root)) in *. rewrite <- SV in *. exists k. split; [|now split]. destruct (Nat.lt_ge_cases k (length (variableCounts s))); [assumption|]. rewrite nth_overflow in P by assumption. lia.
    + intros ->. do 3 right. left. left. f_equal. exact (SK 0).
    + intros ->. do 3 right. left. right. left. f_equal. exact (SK 1).
    + intros (P & L & ->). do 4 right. left. change (howMany _ root) with (many (fun x => length (children x) =? k) (nodes root)) in *. rewrite <- SK in *. destruct k as [|[|k]]; [lia|lia|]. cbn [nth] in *. exists k. split; [|now split]. destruct (Nat.lt_ge_cases k (length more)); [assumption|]. rewrite nth_overflow in P by assumption. lia.
    + intros (L & ->). do 5 right. left. exists i. split; [lia|]. f_equal. symmetry. now apply SC.
    + intros (P & ->). do 6 right. left. pose proof (FEW1 k P) as L. change (howMany _ root) with (many (fun x => conditionsOf x =? k) (nodes root)) in *. rewrite <- SN in *. exists k. now split.
    + intros (P & ->). do 7 right. left. pose proof (FEW (fun x => nodeType x =? 1) k P) as L. change (howMany _ root) with (many (fun x => (nodeType x =? 1) && (conditionsOf x =? k)) (nodes root)) in *. rewrite <- SL in *. exists k. now split.
    + intros H. do 8 right. exact H.
    + intros H. do 8 right. exact H.
    + intros H. do 8 right. exact H.
Qed.
(** A plan that is a single node without children: the count of nodes with no children is written past the end of an emptied vector. *)
Theorem C80_single_refuted id ty vars cond : ty < 7 -> analyze (Node id ty vars cond []) = None.
Proof.
  intros T. unfold analyze. cbn [getNodeStatistics]. assert (E : countNode initializeStatistics (Node id ty vars cond []) = None); [|now rewrite E].
  unfold countNode. cbn [nodeType variables]. unfold NodeType_error. destruct (7 <=? ty) eqn:E; [reflexivity|]. destruct (match vars with Some k => _ | None => _ end); [|reflexivity].
  unfold getConditionStatistics. destruct (conditionIndexMax <=? _); [reflexivity|]. cbn [children length childCounts initializeStatistics]. now rewrite increment_leaf_first.
Qed.
(** ** No line twice *)
Definition kind (l : line) : nat :=
  match l with TotalNodes _ => 0 | OfType _ _ => 1 | WithVariables _ _ => 2 | LeafNodes _ => 3 | WithOneChild _ => 4 | WithChildren _ _ => 5 | WithCondition _ _ => 6 | WithConditions _ _ => 7 | ListsWithConditions _ _ => 8
  | CallDepth _ => 9 | Libraries _ => 10 | Called _ _ => 11 end.
Definition from (k : nat) (l : list line) : Prop := NoDup l /\ forall x, In x l -> k <= kind x.
Lemma from_app k a b : NoDup a -> (forall x, In x a -> kind x = k) -> from (S k) b -> from k (a ++ b).
Proof.
  intros A K (B & L). split.
  - induction A as [|x a NI ND IH]; [exact B|]. cbn [app]. constructor; [|apply IH; intros y I; apply K; now right]. rewrite in_app_iff. intros [I|I]; [now apply NI|]. apply L in I. rewrite (K x) in I by now left. lia.
  - intros x I. apply in_app_iff in I. destruct I as [I|I]; [rewrite (K x I); lia|]. apply L in I. lia.
Qed.
Lemma nonzero_nodup mk : (forall n i m j, mk n i = mk m j -> i = j) -> forall v i, NoDup (nonzero mk v i).
Proof.
  intros INJ v. induction v as [|n v IH]; intros i; cbn [nonzero]; [constructor|]. destruct (n =? 0); cbn [app]; [apply IH|]. constructor; [|apply IH]. rewrite nonzero_in. intros (j & _ & _ & E). apply INJ in E. lia.
Qed.
Lemma nonzero_kind mk k v i : (forall n i, kind (mk n i) = k) -> forall x, In x (nonzero mk v i) -> kind x = k.
Proof. intros K x I. apply nonzero_in in I. destruct I as (j & _ & _ & ->). apply K. Qed.
Lemma one_nodup (l : line) : NoDup [l].
Proof. constructor; [intros []|constructor]. Qed.
Theorem C80_once root ls : plan root -> children root <> [] -> firstVariables root -> analyze root = Some ls -> NoDup ls.
Proof.
  intros PL K FV. destruct (walk root PL FV root [] [] initializeStatistics) as (s & G & S & _ & _); [cbn; now rewrite app_nil_r|now right|apply seen_none|].
  pose proof (sLibs _ _ S) as (ND & _). unfold analyze. rewrite G. unfold reportStatistics. destruct (childCounts s) as [|leaf [|one more]]; [discriminate|discriminate|]. intros [= <-].
  assert (N : forall l, from 0 l -> NoDup l) by (intros l (H & _); exact H).
  apply (N ([TotalNodes (nodeCount s)] ++ nonzero OfType (map (typeCounts s) (seq NodeType_NodeList (NodeType_error - NodeType_NodeList))) NodeType_NodeList ++ nonzero WithVariables (variableCounts s) 0
    ++ [LeafNodes leaf] ++ [WithOneChild one] ++ nonzero WithChildren more 2 ++ map (fun i => WithCondition (conditionCounts s i) i) (seq 0 conditionIndexMax)
    ++ nonzero WithConditions (map (conditionCountNodes s) (seq 0 conditionIndexMax)) 0 ++ nonzero ListsWithConditions (map (conditionCountListNodes s) (seq 0 conditionIndexMax)) 0 ++ reportLibraryStatistics s)).
  apply from_app; [apply one_nodup|now intros x [<-|[]]|].
  apply from_app; [apply nonzero_nodup; congruence|now apply nonzero_kind|].
  apply from_app; [apply nonzero_nodup; congruence|now apply nonzero_kind|].
  apply from_app; [apply one_nodup|now intros x [<-|[]]|].
  apply from_app; [apply one_nodup|now intros x [<-|[]]|].
  apply from_app; [apply nonzero_nodup; congruence|now apply nonzero_kind|].
  apply from_app; [apply FinFun.Injective_map_NoDup; [intros i j E; now injection E|apply seq_NoDup]|intros x I; apply in_map_iff in I; destruct I as (i & <- & _); reflexivity|].
  apply from_app; [apply nonzero_nodup; congruence|now apply nonzero_kind|].
  apply from_app; [apply nonzero_nodup; congruence|now apply nonzero_kind|].
  unfold reportLibraryStatistics. destruct (calledLibs s) as [|e r]; [split; [constructor|intros x []]|]. cbn [app].
  apply (from_app 9 [CallDepth (maxCallDepth s)]); [apply one_nodup|now intros x [<-|[]]|].
  apply (from_app 10 [Libraries (length (e :: r))]); [apply one_nodup|now intros x [<-|[]]|].
  split; [|intros x I; apply in_map_iff in I; destruct I as (q & <- & _); reflexivity].
  unfold named in ND. revert ND. generalize (e :: r). clear. induction l as [|[m k] l IH]; cbn [map fst snd]; intros ND; [constructor|]. inversion ND as [|? ? NI ND']; subst. constructor; [|now apply IH].
  intros I. apply in_map_iff in I. destruct I as ([m' k'] & E & I). cbn [fst snd] in E. injection E as -> ->. apply NI. apply in_map_iff. now exists (m, k).
Qed.
(** A plan whose first vector of variables is empty: a library call gets an empty one when all its aliases are variables of the caller (parseNode.cc 824-841, LibraryCallNode.cc 73-91). *)
Definition none (i : nat) : bool := false.
Ltac planNodeTac := unfold planNode; cbn; split; [lia|split; [intros; first [reflexivity|discriminate]|intros; first [reflexivity|congruence]]].
Theorem C80_alias_refuted : let root := Node "Root" 1 None none [Node "Call" 6 (Some 0) none [Node "Lib" 5 None none []]] in plan root /\ children root <> [] /\ analyze root = None.
Proof. cbv zeta. split; [unfold plan; cbn; repeat (constructor; [planNodeTac|]); constructor|]. split; [discriminate|reflexivity]. Qed.
(** A plan with a list, a command with a start condition, and a library called twice, once inside another *)
Definition examplePlan : node :=
  Node "Root" 1 (Some 2) (fun i => (i =? 2) || (i =? 5) || (i =? 8) || (i =? 11))
    [ Node "Go" 2 None (fun i => (i =? 4) || (i =? 11) || (i =? 12)) [];
      Node "First" 6 None (fun i => (i =? 8) || (i =? 11)) [Node "LibB" 1 (Some 1) (fun i => i =? 11) [Node "Inner" 6 None (fun i => i =? 11) [Node "LibA" 5 None none []]]];
      Node "Second" 6 None (fun i => i =? 11) [Node "LibA" 5 None none []] ].
Theorem C80_example : plan examplePlan /\ children examplePlan <> [] /\ firstVariables examplePlan /\ analyze examplePlan = Some
  [ TotalNodes 8; OfType 2 1; OfType 1 2; OfType 2 5; OfType 3 6; WithVariables 1 1; WithVariables 1 2; LeafNodes 3; WithOneChild 4; WithChildren 1 3;
    WithCondition 0 0; WithCondition 0 1; WithCondition 1 2; WithCondition 0 3; WithCondition 1 4; WithCondition 1 5; WithCondition 0 6; WithCondition 0 7; WithCondition 2 8; WithCondition 0 9; WithCondition 0 10; WithCondition 6 11; WithCondition 1 12;
    WithConditions 2 0; WithConditions 3 1; WithConditions 1 2; WithConditions 1 3; WithConditions 1 4; ListsWithConditions 1 1; ListsWithConditions 1 4;
    CallDepth 2; Libraries 2; Called "LibA" 2; Called "LibB" 1 ].
Proof.
  split; [unfold plan; cbn; repeat (constructor; [planNodeTac|]); constructor|]. split; [discriminate|]. split; [|vm_compute; reflexivity].
  intros before n after k E B V. destruct before as [|b before]; [injection E as <- _; injection V as <-; lia|]. injection E as <- _. specialize (B examplePlan (or_introl eq_refl)). discriminate B.
Qed.
Print Assumptions C80_report.

(** Assumptions *)
Print Assumptions C80_single_refuted.
Print Assumptions C80_once.
Print Assumptions C80_alias_refuted.
Print Assumptions C80_example.
