(** C75: resource hierarchy files. *)
From Coq Require Import ZArith Reals List Bool Lia Lra String.
From Flocq Require Import Core BinarySingleNaN.
From Verif Require Import ValueModel FloatModel TypeModel UdpQueueModel LitModel LitSpec LitProofs ResFileModel ResFileSpec ResFileProofs.
Import ListNotations.
Open Scope Z_scope.

(** A file of lines that each say nothing or give one entry, no resource twice, is read as exactly these entries, in order, each number
    as the double nearest to it; what was known before is forgotten. *)
Theorem C75_reads old ls ms : ls <> [] -> Forall2 lineSays ls ms -> NoDup (map se_name (entries ms)) ->
  exists h, readFile old (Some (text ls)) = (true, h) /\ Forall2 same h (entries ms).
Proof.
  intros NE F ND. destruct (readLines_says ls ms F [] ND) as (es & E & S). exists es. split; [|exact S]. cbn [readFile]. unfold readHierarchy. rewrite splitLines_text; [exact E|exact NE|].
  clear - F. induction F as [|l m ls ms [P _] F IH]; constructor; assumption.
Qed.
(** What the arbiter then finds under a name. *)
Lemma same_find es ss : Forall2 same es ss -> NoDup (map se_name ss) -> forall n,
  (forall s, In s ss -> se_name s = n -> exists e, lookupRes n es = Some e /\ same e s) /\ ((~ exists s, In s ss /\ se_name s = n) -> lookupRes n es = None).
Proof.
  unfold lookupRes. induction 1 as [|e s es ss SE F IH]; intros ND n; [split; [intros s []|reflexivity]|]. cbn [map] in ND. inversion ND as [|? ? NI ND']; subst. destruct (IH ND' n) as [A B]. cbn [find].
  destruct (streq (re_name e) n) eqn:E; [apply streq_true in E|apply streq_false in E]; rewrite (proj1 SE) in E; split.
  - intros s' [<-|I] N; [exists e; auto|]. elim NI. rewrite E, <- N. now apply in_map.
  - intros X. elim X. exists s. split; [now left|exact E].
  - intros s' [<-|I] N; [contradiction|]. now apply A.
  - intros X. apply B. intros (s' & I & N). apply X. exists s'. split; [now right|exact N].
Qed.
Theorem C75_lookup old ls ms n : ls <> [] -> Forall2 lineSays ls ms -> NoDup (map se_name (entries ms)) ->
  let h := snd (readFile old (Some (text ls))) in
  (forall s, In s (entries ms) -> se_name s = n -> exists e, lookupRes n h = Some e /\ same e s) /\
  ((~ exists s, In s (entries ms) /\ se_name s = n) -> lookupRes n h = None).
Proof. intros NE F ND. destruct (C75_reads old ls ms NE F ND) as (es & E & S). rewrite E. cbn [snd]. now apply same_find. Qed.
(** A resource given twice is refused. *)
Lemma readLines_dup ls ms : Forall2 lineSays ls ms -> forall h, fst (readLines ls h) = true -> NoDup (map re_name h) -> NoDup (map re_name h ++ map se_name (entries ms)).
Proof.
  induction 1 as [|l m ls ms L F IH]; intros h T ND; [now rewrite app_nil_r|]. cbn [readLines] in T. destruct m as [s|].
  - pose proof (readLine_some l s h L) as E. destruct (hasName (se_name s) h) eqn:HN; [rewrite E in T; discriminate T|]. destruct E as (e & SE & E). rewrite E in T.
    unfold entries in *. cbn [flat_map app map]. specialize (IH _ T). rewrite map_app in IH. cbn [map] in IH. rewrite (proj1 SE), <- app_assoc in IH. apply IH.
    apply NoDup_rev in ND. rewrite <- (rev_involutive (map re_name h ++ [se_name s])). apply NoDup_rev. rewrite rev_unit. constructor; [|exact ND].
    rewrite <- in_rev. intros I. apply hasName_in in I. congruence.
  - rewrite (readLine_none l h L) in T. exact (IH h T ND).
Qed.
Theorem C75_duplicate old ls ms : ls <> [] -> Forall2 lineSays ls ms -> ~ NoDup (map se_name (entries ms)) -> fst (readFile old (Some (text ls))) = false.
Proof.
  intros NE F ND. cbn [readFile]. unfold readHierarchy. rewrite splitLines_text; [|exact NE|].
  - destruct (fst (readLines ls [])) eqn:T; [|reflexivity]. elim ND. exact (readLines_dup ls ms F [] T (NoDup_nil _)).
  - clear - F. induction F as [|l m ls ms [P _] F IH]; constructor; assumption.
Qed.
(** So is a file with a line that makes no sense, whatever the other lines are. *)
Theorem C75_senseless old ls : ls <> [] -> Forall plainLine ls -> (exists l ws, In l ls /\ hasWords l ws /\ senseless ws) -> fst (readFile old (Some (text ls))) = false.
Proof.
  intros NE P (l & ws & I & H & S). cbn [readFile]. unfold readHierarchy. rewrite splitLines_text by assumption. apply in_split in I as (l1 & l2 & ->).
  rewrite readLines_app. destruct (readLines l1 []) as [[|] h]; [|reflexivity]. cbn [readLines]. rewrite Forall_forall in P.
  pose proof (readLine_bad l h (P l ltac:(apply in_or_app; right; now left)) (ex_intro _ ws (conj H S))) as B. destruct (readLine l h) as [[|] h']; [discriminate B|reflexivity].
Qed.
(** Nothing is accepted but one entry for each line that is not blank and no comment, with the line's first word as its name, all different. *)
Definition isEntry (l : str) (m : option rentry) : Prop :=
  exists ws, hasWords l ws /\
  match m with
  | None => ws = [] \/ exists c r, ws = (37 :: c) :: r
  | Some e => exists r, ws = re_name e :: r /\ hd 0 (re_name e) <> 37 /\ r <> []
  end.
Lemma words_exist s : exists l, hasWords s l.
Proof.
  induction s as [|c s (l & H)]; [exists []; constructor; constructor|]. destruct (isSpace c) eqn:B.
  - apply isSpace_blank in B. exists l. destruct H as [b Bb|b w t l Bb W ST H].
    + constructor. now constructor.
    + change (c :: b ++ w ++ t) with ((c :: b) ++ w ++ t). constructor; auto. now constructor.
  - assert (NB : ~ isBlank c) by (rewrite <- isSpace_blank; congruence). destruct H as [b Bb|b w t l Bb W ST H].
    + exists [[c]]. change (c :: b) with ([] ++ [c] ++ b). constructor; [constructor|split; [discriminate|repeat constructor; exact NB]| |now constructor].
      destruct Bb; [now left|right; assumption].
    + destruct b as [|x b].
      * exists ((c :: w) :: l). change (c :: [] ++ w ++ t) with ([] ++ (c :: w) ++ t). constructor; auto. split; [discriminate|]. constructor; [exact NB|apply W].
      * exists ([c] :: w :: l). change (c :: (x :: b) ++ w ++ t) with ([] ++ [c] ++ (x :: b) ++ w ++ t). constructor; [constructor|split; [discriminate|repeat constructor; exact NB]| |].
        -- right. inversion Bb; subst. assumption.
        -- constructor; auto.
Qed.
Lemma readLine_accepts l h h' : plainLine l -> readLine l h = (true, h') -> exists m, isEntry l m /\
  match m with None => h' = h | Some e => h' = h ++ [e] /\ ~ In (re_name e) (map re_name h) end.
Proof.
  intros P E. destruct (words_exist l) as (ws & H). destruct ws as [|w ws].
  - exists None. split; [exists []; auto|]. rewrite readLine_none in E; [congruence|]. split; [exact P|]. exists []. split; [exact H|constructor].
  - destruct (Z.eq_dec (hd 0 w) 37) as [W|W].
    + exists None. assert (M : exists c, w = 37 :: c). { destruct (hasWords_skip _ _ H) as ([NE _] & _). destruct w; [congruence|]. cbn in W. subst. eauto. }
      destruct M as (c & ->). split; [exists ((37 :: c) :: ws); split; [exact H|right; eauto]|]. rewrite readLine_none in E; [congruence|]. split; [exact P|]. exists ((37 :: c) :: ws). split; [exact H|constructor].
    + destruct (readLine_entry l w ws h P H W) as (t & H1 & EQ). rewrite EQ in E. destruct (strtod t) as [[m r]|] eqn:D; [|discriminate E]. destruct (hasName w h) eqn:HN; [discriminate E|].
      destruct (readKids _ _) as [kids ok]. injection E as -> <-. exists (Some {| re_name := w; re_max := m; re_kids := kids |}). split.
      * exists (w :: ws). split; [exact H|]. exists ws. split; [reflexivity|]. split; [exact W|]. intros ->. rewrite (hasWords_nil_strtod t H1) in D. discriminate D.
      * split; [reflexivity|]. intros I. apply hasName_in in I. cbn [re_name] in I. congruence.
Qed.
Definition listOf {A} (m : option A) : list A := match m with Some e => [e] | None => [] end.
Theorem C75_accepted old s h : ~ In 0 s -> readFile old (Some s) = (true, h) ->
  exists ls ms, s = text ls /\ Forall plainLine ls /\ Forall2 isEntry ls ms /\ h = flat_map listOf ms /\ NoDup (map re_name h).
Proof.
  intros Z0 E. cbn [readFile] in E. unfold readHierarchy in E. destruct (splitLines_plain s Z0) as (P & T & NE). exists (splitLines s). enough (Y : exists ms, Forall2 isEntry (splitLines s) ms /\ h = flat_map listOf ms /\ NoDup (map re_name h)).
  { destruct Y as (ms & Y). exists ms. rewrite T. auto. }
  revert P E. generalize (splitLines s). clear. intros ls P E. enough (X : forall h0, NoDup (map re_name h0) -> readLines ls h0 = (true, h) -> exists ms, Forall2 isEntry ls ms /\ h = h0 ++ flat_map listOf ms /\ NoDup (map re_name h)).
  { destruct (X [] (NoDup_nil _) E) as (ms & A & B & C). exists ms. auto. }
  clear E. revert h. induction P as [|l ls P F IH]; intros h h0 ND E.
  - injection E as <-. exists []. rewrite app_nil_r. auto.
  - cbn [readLines] in E. destruct (readLine l h0) as [[|] h1] eqn:EL; [|discriminate E]. destruct (readLine_accepts l h0 h1 P EL) as ([e|] & IE & M).
    + destruct M as [-> NI]. destruct (IH h (h0 ++ [e])) as (ms & A & B & C).
      * rewrite map_app. cbn [map]. apply NoDup_rev in ND. rewrite <- (rev_involutive (map re_name h0 ++ [re_name e])). apply NoDup_rev. rewrite rev_unit. constructor; [|exact ND]. now rewrite <- in_rev.
      * exact E.
      * exists (Some e :: ms). split; [constructor; assumption|]. split; [|exact C]. rewrite B, <- app_assoc. reflexivity.
    + subst h1. destruct (IH h h0 ND E) as (ms & A & B & C). exists (None :: ms). split; [constructor; assumption|]. auto.
Qed.
(** A file that cannot be opened changes nothing... *)
Theorem C75_no_file old : readFile old None = (false, old).
Proof. reflexivity. Qed.
(** ...but after any other failure what was read before the bad line, and perhaps part of that, is what counts from then on. *)
Theorem C75_failure_keeps_refuted old ls ms bad rest ws : Forall2 lineSays ls ms -> NoDup (map se_name (entries ms)) -> plainLine bad -> hasWords bad ws -> senseless ws -> Forall plainLine rest ->
  exists h part, readFile old (Some (text (ls ++ bad :: rest))) = (false, h ++ part) /\ Forall2 same h (entries ms) /\ (length part <= 1)%nat.
Proof.
  intros F ND P H S FR. destruct (readLines_says ls ms F [] ND) as (es & E & SM). destruct (readLine_adds bad es) as (part & EP & L). exists es, part. split; [|split; assumption].
  cbn [readFile]. unfold readHierarchy. rewrite splitLines_text; [|destruct ls; discriminate|].
  - rewrite readLines_app, E. cbn [app readLines]. pose proof (readLine_bad bad es P (ex_intro _ ws (conj H S))) as B. destruct (readLine bad es) as [[|] h']; [discriminate B|]. cbn [snd] in EP. now rewrite EP.
  - apply Forall_app. split; [|constructor; assumption]. clear - F. induction F as [|l m ls ms [PL _] F IH]; constructor; assumption.
Qed.
(** A file that cannot be read to its end is never accepted; a directory is read forever. *)
Lemma lastOr (A : Type) (l : list A) d : l <> [] -> l = removelast l ++ [last l d].
Proof. apply app_removelast_last. Qed.
Theorem C75_broken_never_accepted fuel s h : readBroken fuel s <> Some (true, h).
Proof.
  unfold readBroken. destruct (readLines _ _) as [[|] h0]; [|congruence]. revert h0. induction fuel as [|k IH]; intros h0; cbn [readAgain]; [discriminate|]. destruct (readLine _ h0) as [[|] h1]; [apply IH|congruence].
Qed.
Theorem C75_directory_refuted : forall fuel, readBroken fuel [] = None.
Proof. unfold readBroken. cbn. induction fuel as [|k IH]; [reflexivity|exact IH]. Qed.

(** ** Lines that look right and are read as something else *)
Definition readText (t : string) : bool * list rentry := readFile [] (Some (chars t)).
Definition kidNames (r : bool * list rentry) : bool * list (str * list str) := (fst r, map (fun e => (re_name e, map snd (re_kids e))) (snd r)).
(** A part without its weight: the beginning of its name is read as the weight. *)
Theorem C75_no_weight_refuted :
  kidNames (readText "sys 10 nano") = (true, [(chars "sys", [chars "o"])]) /\ map (fun e => map (fun k => is_nan (fst k)) (re_kids e)) (snd (readText "sys 10 nano")) = [[true]] /\
  kidNames (readText "sys 10 infra") = (true, [(chars "sys", [chars "ra"])]) /\ map (fun e => map (fun k => isInf (fst k)) (re_kids e)) (snd (readText "sys 10 infra")) = [[true]].
Proof. vm_compute. auto. Qed.
(** A number need not end where the word does. *)
Theorem C75_glued_refuted : kidNames (readText "sys 10 2mem") = (true, [(chars "sys", [chars "mem"])]) /\ kidNames (readText "sys 10/2 cpu") = (false, [(chars "sys", [])]).
Proof. vm_compute. auto. Qed.
(** A comment after an entry is taken for parts. *)
Theorem C75_comment_refuted :
  fst (readText "mem 10 % all of it") = false /\ kidNames (readText "mem 10 5 % 2 free") = (true, [(chars "mem", [chars "%"; chars "free"])]).
Proof. vm_compute. auto. Qed.
(** A file with a comment, a blank line and two entries. *)
Definition ln (t : string) : str := chars t.
Definition exLines : list str := [ln "% our resources"; ln ""; ln "mem 10.5"; ln "sys 1  0.5 mem 2 cpu"; []].
Lemma says_dec w m k : mantissa 10 w m k -> says w false (IZR m * powerRZ 10 (0 - k)).
Proof. intros M. exists [], w. split; [constructor|]. split; [|reflexivity]. rewrite <- (app_nil_r w). apply RB_dec; [exact M|left; auto]. Qed.
Lemma says_int w ds : digitsIn 10 w ds -> ds <> [] -> says w false (IZR (positional 10 ds) * powerRZ 10 (0 - 0)).
Proof. intros D NE. apply says_dec. exists w, [], ds, []. split; [exact D|]. split; [constructor|]. rewrite app_nil_r. repeat split; auto. Qed.
Lemma says_point a b da db : digitsIn 10 a da -> digitsIn 10 b db -> da ++ db <> [] -> says (a ++ 46 :: b) false (IZR (positional 10 (da ++ db)) * powerRZ 10 (0 - Z.of_nat (length b))).
Proof. intros A B NE. apply says_dec. exists a, b, da, db. auto 10. Qed.
Ltac wrd := split; [discriminate|repeat constructor; vm_compute; intuition discriminate].
Lemma words_ex b w t l : blank b -> word w -> stopB t -> hasWords t l -> forall s, s = b ++ w ++ t -> hasWords s (w :: l).
Proof. intros B W S H s ->. now apply HW_cons. Qed.
Ltac nw b w t := apply (words_ex (chars b) (chars w) (chars t)); [repeat constructor; vm_compute; tauto|wrd|vm_compute; tauto| |reflexivity].
Ltac nw0 := apply HW_nil; constructor.
Ltac numR :=
  match goal with |- context [positional 10 ?l] => let v := eval vm_compute in (positional 10 l) in change (positional 10 l) with v end;
  match goal with |- context [powerRZ 10 ?e] => let v := eval vm_compute in e in change e with v end; cbn [powerRZ Pos.to_nat Pos.iter_op pow]; unfold Pos.to_nat; cbn [Pos.iter_op pow]; lra.
Theorem C75_example : exists m1 m2 : option sentry, let ms := [None; None; m1; m2; None] in Forall2 lineSays exLines ms /\ map se_name (entries ms) = [chars "mem"; chars "sys"] /\
  map (fun s => snd (se_max s)) (entries ms) = [10.5; 1]%R /\ map (fun s => map snd (se_kids s)) (entries ms) = [[]; [chars "mem"; chars "cpu"]].
Proof.
  assert (PL : forall l, forallb (fun c => negb (c =? 10) && negb (c =? 0)) l = true -> plainLine l).
  { intros l H. rewrite forallb_forall in H. apply Forall_forall. intros c I. specialize (H c I). apply andb_true_iff in H as [A B]. rewrite negb_true_iff, Z.eqb_neq in A, B. auto. }
  exists (Some {| se_name := chars "mem"; se_max := (false, 10.5%R); se_kids := [] |}),
    (Some {| se_name := chars "sys"; se_max := (false, 1%R); se_kids := [((false, 0.5%R), chars "mem"); ((false, 2%R), chars "cpu")] |}).
  cbv zeta. split; [|repeat split].
  assert (D1 : forall d, 0 <= d <= 9 -> digitChar (48 + d) d /\ d < 10) by (intros d D; split; [left; auto|lia]).
  assert (V105 : says (chars "10.5") false 10.5%R).
  { assert (Q : (IZR (positional 10 ([1; 0] ++ [5])%Z%list) * powerRZ 10 (0 - Z.of_nat (length (chars "5")))%Z = 10.5)%R) by numR. rewrite <- Q. clear Q.
    apply (says_point (chars "10") (chars "5")); [|constructor; [apply (D1 5); lia|constructor]|discriminate]. constructor; [apply (D1 1); lia|]. constructor; [apply (D1 0); lia|constructor]. }
  assert (V05 : says (chars "0.5") false 0.5%R).
  { assert (Q : (IZR (positional 10 ([0] ++ [5])%Z%list) * powerRZ 10 (0 - Z.of_nat (length (chars "5")))%Z = 0.5)%R) by numR. rewrite <- Q. clear Q.
    apply (says_point (chars "0") (chars "5")); [constructor; [apply (D1 0); lia|constructor]|constructor; [apply (D1 5); lia|constructor]|discriminate]. }
  assert (V1 : says (chars "1") false 1%R).
  { assert (Q : (IZR (positional 10 [1]%Z%list) * powerRZ 10 (0 - 0)%Z = 1)%R) by numR. rewrite <- Q. clear Q. apply says_int; [constructor; [apply (D1 1); lia|constructor]|discriminate]. }
  assert (V2 : says (chars "2") false 2%R).
  { assert (Q : (IZR (positional 10 [2]%Z%list) * powerRZ 10 (0 - 0)%Z = 2)%R) by numR. rewrite <- Q. clear Q. apply says_int; [constructor; [apply (D1 2); lia|constructor]|discriminate]. }
  constructor; [|constructor; [|constructor; [|constructor; [|constructor; [|constructor]]]]]; (split; [apply PL; reflexivity|]).
  - exists [chars "%"; chars "our"; chars "resources"]. split; [nw ""%string "%"%string " our resources"%string; nw " "%string "our"%string " resources"%string; nw " "%string "resources"%string ""%string; nw0|apply M_comment].
  - exists []. split; [nw0|apply M_blank].
  - exists [chars "mem"; chars "10.5"]. split; [nw ""%string "mem"%string " 10.5"%string; nw " "%string "10.5"%string ""%string; nw0|]. apply M_entry; [discriminate|exact V105|constructor].
  - exists [chars "sys"; chars "1"; chars "0.5"; chars "mem"; chars "2"; chars "cpu"]. split.
    + nw ""%string "sys"%string " 1  0.5 mem 2 cpu"%string; nw " "%string "1"%string "  0.5 mem 2 cpu"%string; nw "  "%string "0.5"%string " mem 2 cpu"%string; nw " "%string "mem"%string " 2 cpu"%string; nw " "%string "2"%string " cpu"%string; nw " "%string "cpu"%string ""%string; nw0.
    + apply M_entry; [discriminate|exact V1|]. constructor; [exact V05|]. constructor; [exact V2|constructor].
  - exists []. split; [nw0|apply M_blank].
Qed.

(** Assumptions *)
Print Assumptions C75_reads.
Print Assumptions C75_lookup.
Print Assumptions C75_duplicate.
Print Assumptions C75_senseless.
Print Assumptions C75_accepted.
Print Assumptions C75_no_file.
Print Assumptions C75_failure_keeps_refuted.
Print Assumptions C75_broken_never_accepted.
Print Assumptions C75_directory_refuted.
Print Assumptions C75_no_weight_refuted.
Print Assumptions C75_glued_refuted.
Print Assumptions C75_comment_refuted.
Print Assumptions C75_example.
