(** Reading lines: strtod looks no further than the word it is at. *)
From Coq Require Import ZArith Reals List Bool Lia String.
From Flocq Require Import Core BinarySingleNaN.
From Verif Require Import ValueModel FloatModel TypeModel UdpQueueModel LitModel LitSpec LitProofs ResFileModel ResFileSpec.
Import ListNotations.
Open Scope Z_scope.

Definition stopB (t : str) : Prop := t = [] \/ isBlank (hd 0 t).
Lemma blank_cases c : isBlank c -> c = 9 \/ c = 10 \/ c = 11 \/ c = 12 \/ c = 13 \/ c = 32.
Proof. unfold isBlank. cbn. intuition. Qed.
Ltac blanks H := apply blank_cases in H; destruct H as [-> | [-> | [-> | [-> | [-> | ->]]]]].
Lemma isSpace_blank c : isSpace c = true <-> isBlank c.
Proof. apply isSpace_in. Qed.
Lemma isSpace_not c : ~ isBlank c -> isSpace c = false.
Proof. intros N. destruct (isSpace c) eqn:E; [|reflexivity]. apply isSpace_blank in E. contradiction. Qed.
Lemma takeWord_app w t : Forall (fun c => ~ isBlank c) w -> stopB t -> takeWord (w ++ t) = (w, t).
Proof.
  intros F ST. induction F as [|c w N F IH]; cbn [app takeWord].
  - destruct ST as [-> |B]; [reflexivity|]. destruct t as [|c t]; [reflexivity|]. cbn [hd] in B. cbn [takeWord]. apply isSpace_blank in B. now rewrite B.
  - rewrite (isSpace_not c N). now rewrite IH.
Qed.
Lemma skip_app b w t : blank b -> word w -> skipSpace (b ++ w ++ t) = w ++ t.
Proof. intros B [NE F]. apply skipSpace_app; [exact B|]. destruct w as [|c w]; [congruence|]. inversion F; subst. cbn [app]. now apply isSpace_not. Qed.
Lemma skip_blank b : blank b -> skipSpace b = [].
Proof. intros B. rewrite <- (app_nil_r b) at 1. now apply skipSpace_app. Qed.

Section Stop.
Variable t : str.
Hypothesis ST : stopB t.
Lemma takeDigits_stop b s ds u : b <= 36 -> takeDigits b s = (ds, u) -> takeDigits b (s ++ t) = (ds, u ++ t).
Proof.
  intros B. revert ds u. induction s as [|c s IH]; intros ds u; cbn [takeDigits app].
  - intros [= <- <-]. cbn [app]. destruct ST as [-> |H]; [reflexivity|]. destruct t as [|c r]; [reflexivity|]. cbn [hd] in H. cbn [takeDigits].
    assert (D : digitVal c = 99) by (blanks H; reflexivity). rewrite D. destruct (Z.ltb_spec 99 b); [lia|reflexivity].
  - destruct (Z.ltb _ _).
    + destruct (takeDigits b s) as [ds' u']. rewrite (IH ds' u' eq_refl). intros [= <- <-]. reflexivity.
    + intros [= <- <-]. reflexivity.
Qed.
Lemma takeMantissa_stop b s ds k u : b <= 36 -> takeMantissa b s = (ds, k, u) -> takeMantissa b (s ++ t) = (ds, k, u ++ t).
Proof.
  intros B. unfold takeMantissa. destruct (takeDigits b s) as [a r] eqn:E. rewrite (takeDigits_stop b s a r B E). destruct r as [|c r].
  - intros [= <- <- <-]. cbn [app]. destruct ST as [-> |H]; [reflexivity|]. destruct t as [|c r]; [reflexivity|]. cbn [hd] in H.
    assert (N : (c =? 46) = false) by (blanks H; reflexivity). rewrite N. reflexivity.
  - cbn [app]. destruct (c =? 46).
    + destruct (takeDigits b r) as [d q] eqn:E2. rewrite (takeDigits_stop b r d q B E2). destruct (a ++ d) as [|z zs]; intros [= <- <- <-]; reflexivity.
    + intros [= <- <- <-]. reflexivity.
Qed.
Lemma takeSign_stop s neg u : takeSign s = (neg, u) -> takeSign (s ++ t) = (neg, u ++ t).
Proof.
  destruct s as [|c s]; cbn [takeSign app].
  - intros [= <- <-]. cbn [app]. destruct ST as [-> |H]; [reflexivity|]. destruct t as [|c r]; [reflexivity|]. cbn [hd] in H.
    cbn [takeSign]. blanks H; reflexivity.
  - destruct (c =? 45); [intros [= <- <-]; reflexivity|]. destruct (c =? 43); intros [= <- <-]; reflexivity.
Qed.
Lemma takeExponent_stop mark s e u : (forall c, isBlank c -> mark c = false) -> takeExponent mark s = (e, u) -> takeExponent mark (s ++ t) = (e, u ++ t).
Proof.
  intros MK. destruct s as [|c s]; cbn [takeExponent app].
  - intros [= <- <-]. cbn [app]. destruct ST as [-> |H]; [reflexivity|]. destruct t as [|c r]; [reflexivity|]. cbn [hd] in H.
    cbn [takeExponent]. now rewrite (MK c H).
  - destruct (mark c); [|intros [= <- <-]; reflexivity]. destruct (takeSign s) as [neg r1] eqn:E. rewrite (takeSign_stop _ _ _ E).
    destruct (takeDigits 10 r1) as [ds q] eqn:E2. rewrite (takeDigits_stop 10 r1 ds q ltac:(lia) E2). destruct ds; intros [= <- <-]; reflexivity.
Qed.
Lemma upper_blank x c : isBlank c -> ~ isBlank (upper x) -> upper x =? upper c = false.
Proof. intros B N. destruct (Z.eqb_spec (upper x) (upper c)) as [E|]; [|reflexivity]. elim N. rewrite E. blanks B; vm_compute; tauto. Qed.
Lemma dropWord_stop w : forall s, Forall (fun x => ~ isBlank (upper x)) w -> dropWord w (s ++ t) = option_map (fun r => r ++ t) (dropWord w s).
Proof.
  induction w as [|x w IH]; intros s F; [destruct s; reflexivity|]. inversion F; subst. destruct s as [|c s]; cbn [dropWord app].
  - destruct ST as [-> |H]; [reflexivity|]. destruct t as [|c r]; [reflexivity|]. cbn [hd] in H. cbn [dropWord]. now rewrite (upper_blank x c H H1).
  - destruct (_ =? _); [apply IH; assumption|reflexivity].
Qed.
Lemma dropAlnum_stop s : dropAlnum (s ++ t) = dropAlnum s ++ t.
Proof.
  induction s as [|c s IH]; cbn [dropAlnum app].
  - destruct ST as [-> |H]; [reflexivity|]. destruct t as [|c r]; [reflexivity|]. cbn [hd] in H. cbn [dropAlnum]. blanks H; reflexivity.
  - destruct (isAlnum_ c); [exact IH|reflexivity].
Qed.
Lemma nanTail_stop s : nanTail (s ++ t) = nanTail s ++ t.
Proof.
  destruct s as [|c s]; cbn [nanTail app].
  - destruct ST as [-> |H]; [reflexivity|]. destruct t as [|c r]; [reflexivity|]. cbn [hd] in H. cbn [nanTail]. blanks H; reflexivity.
  - destruct (c =? 40); [|reflexivity]. rewrite dropAlnum_stop. destruct (dropAlnum s) as [|d q]; cbn [app].
    + destruct ST as [E|H]; [rewrite E; reflexivity|]. destruct t as [|d r]; [reflexivity|]. cbn [hd] in H. blanks H; reflexivity.
    + destruct (d =? 41); reflexivity.
Qed.
Lemma hexStart_stop s : hexStart (s ++ t) = option_map (fun r => r ++ t) (hexStart s).
Proof.
  destruct s as [|z [|x s]].
  - cbn [app]. destruct ST as [-> |H]; [reflexivity|]. destruct t as [|c r]; [reflexivity|]. cbn [hd] in H. cbn [hexStart option_map]. destruct r; [reflexivity|]. blanks H; reflexivity.
  - cbn [app]. destruct ST as [-> |H]; [reflexivity|]. destruct t as [|c r]; [reflexivity|]. cbn [hd] in H. cbn [hexStart option_map].
    assert (X : isX c = false) by (blanks H; reflexivity). now rewrite X, andb_false_r.
  - cbn [app hexStart]. destruct ((z =? 48) && isX x); [|reflexivity]. destruct (takeMantissa 16 s) as [[ds k] u] eqn:E. rewrite (takeMantissa_stop 16 s ds k u ltac:(lia) E). cbn [fst]. destruct ds; reflexivity.
Qed.
Lemma strtod_stop b w : blank b -> word w -> strtod (b ++ w ++ t) = option_map (fun p => (fst p, snd p ++ t)) (strtod w).
Proof.
  intros B W. unfold strtod. rewrite (skip_app b w t B W). pose proof (skip_app [] w [] (Forall_nil _) W) as E0. cbn [app] in E0. rewrite !app_nil_r in E0. rewrite E0. clear E0.
  destruct (takeSign w) as [neg u] eqn:S. rewrite (takeSign_stop _ _ _ S).
  assert (L : Forall (fun x => ~ isBlank (upper x)) (chars "inf") /\ Forall (fun x => ~ isBlank (upper x)) (chars "inity") /\ Forall (fun x => ~ isBlank (upper x)) (chars "nan")).
  { repeat split; repeat constructor; vm_compute; intuition discriminate. }
  destruct L as (L1 & L2 & L3). rewrite (dropWord_stop _ u L1). destruct (dropWord (chars "inf") u) as [r|]; cbn [option_map].
  - rewrite (dropWord_stop _ r L2). destruct (dropWord (chars "inity") r); reflexivity.
  - rewrite (dropWord_stop _ u L3). destruct (dropWord (chars "nan") u) as [r|]; cbn [option_map]; [now rewrite nanTail_stop|].
    rewrite hexStart_stop. destruct (hexStart u) as [r|]; cbn [option_map].
    + destruct (takeMantissa 16 r) as [[ds k] r1] eqn:E. rewrite (takeMantissa_stop 16 r ds k r1 ltac:(lia) E). destruct (takeExponent isP r1) as [e r2] eqn:E2.
      rewrite (takeExponent_stop isP r1 e r2) by (auto; intros c H; blanks H; reflexivity). reflexivity.
    + destruct (takeMantissa 10 u) as [[ds k] r1] eqn:E. rewrite (takeMantissa_stop 10 u ds k r1 ltac:(lia) E). destruct ds; [reflexivity|]. destruct (takeExponent isExp r1) as [e r2] eqn:E2.
      rewrite (takeExponent_stop isExp r1 e r2) by (auto; intros c H; blanks H; reflexivity). reflexivity.
Qed.
End Stop.

Lemma strtod_says w neg r : says w neg r -> exists x, strtod w = Some (x, []) /\ standsFor x neg r.
Proof.
  intros (sg & body & S & B & ->). destruct (realBody_strtod [] sg neg body r (Forall_nil _) S B) as (x & E & _ & M). exists x. split; [exact E|]. unfold standsFor.
  destruct (Rlt_bool _ _); [|exact M]. destruct M as (V & F & _). split; [exact F|]. rewrite V. destruct neg; reflexivity.
Qed.
Lemma strtod_noNumber w : word w -> noNumber w -> strtod w = None.
Proof.
  intros W (sg & neg & r & S & -> & H). unfold strtod. pose proof (skip_app [] (sg ++ r) [] (Forall_nil _) W) as E0. cbn [app] in E0. rewrite !app_nil_r in E0. rewrite E0. clear E0.
  assert (E : takeSign (sg ++ r) = (neg, r)).
  { destruct r as [|c q].
    - destruct S; reflexivity.
    - destruct (H c q eq_refl) as [_ N]. cbn in N. apply takeSign_app; [exact S|]. unfold starts. split; [|split; intro; subst c; tauto]. apply isSpace_not. destruct W as [_ W]. rewrite Forall_forall in W. apply W. apply in_or_app. right. now left. }
  rewrite E. clear E. destruct r as [|c q]; [reflexivity|]. destruct (H c q eq_refl) as [D N]. cbn in N.
  assert (DV : digitVal c <? 10 = false). { destruct (Z.ltb_spec (digitVal c) 10); [|reflexivity]. elim D. exists (digitVal c). split; [|assumption]. apply (digitVal_lt_char 10); lia. }
  assert (C48 : c <> 48) by (intros ->; discriminate DV).
  assert (LI : lower c <> 105 /\ lower c <> 110) by (unfold lower; destruct (Z.leb_spec 65 c), (Z.leb_spec c 90); cbn [andb]; lia).
  assert (W1 : dropWord (chars "inf") (c :: q) = None) by (apply dropWord_first; exact (proj1 LI)).
  assert (W2 : dropWord (chars "nan") (c :: q) = None) by (apply dropWord_first; exact (proj2 LI)).
  rewrite W1, W2. unfold hexStart. destruct (Z.eqb_spec c 48); [contradiction|]. cbn [andb].
  assert (T : takeMantissa 10 (c :: q) = ([], 0, c :: q)). { unfold takeMantissa. cbn [takeDigits]. rewrite DV. destruct (Z.eqb_spec c 46); [lia|reflexivity]. }
  rewrite T. destruct q; reflexivity.
Qed.

(** ** A line *)
Lemma hasWords_skip t l : hasWords t l -> match l with [] => skipSpace t = [] | w :: l' => word w /\ exists t', skipSpace t = w ++ t' /\ stopB t' /\ hasWords t' l' end.
Proof.
  intros [b B|b w t' l' B W ST H]; [now apply skip_blank|]. split; [exact W|]. exists t'. rewrite skip_app by assumption. auto.
Qed.
Lemma strtod_words t a l : hasWords t (a :: l) -> exists t', stopB t' /\ hasWords t' l /\ strtod t = option_map (fun p => (fst p, snd p ++ t')) (strtod a).
Proof. intros H. inversion H as [|b w t' l' B W ST H']; subst. exists t'. split; [exact ST|]. split; [exact H'|]. apply strtod_stop; assumption. Qed.
Lemma hasWords_nil_strtod t : hasWords t [] -> strtod t = None.
Proof. intros H. inversion H; subst. unfold strtod. rewrite skip_blank by assumption. reflexivity. Qed.
Lemma words_len t l : hasWords t l -> (length l <= length t)%nat.
Proof. induction 1 as [|b w t l B [NE _] ST H IH]; [cbn; lia|]. rewrite !app_length. cbn [length]. destruct w; [congruence|]. cbn [length]. lia. Qed.
Definition kidOk (k : fl * str) (s : (bool * R) * str) : Prop := snd k = snd s /\ standsFor (fst k) (fst (fst s)) (snd (fst s)).
Lemma skip_skip t : skipSpace (skipSpace t) = skipSpace t.
Proof. induction t as [|c t IH]; [reflexivity|]. cbn [skipSpace]. destruct (isSpace c) eqn:E; [exact IH|]. cbn [skipSpace]. now rewrite E. Qed.
Lemma strtod_skip t : strtod (skipSpace t) = strtod t.
Proof. unfold strtod. now rewrite skip_skip. Qed.
(** Reading the parts said, and going on with what is left. *)
Lemma readKids_app l ks : kidsOf l ks -> forall fuel t l2, (length l <= fuel)%nat -> hasWords t (l ++ l2) ->
  exists kids t2 f2, Forall2 kidOk kids ks /\ hasWords t2 l2 /\ (fuel <= f2 + length l)%nat /\
    readKids fuel (skipSpace t) = (kids ++ fst (readKids f2 (skipSpace t2)), snd (readKids f2 (skipSpace t2))).
Proof.
  induction 1 as [|a neg r n l ks SA K IH]; intros fuel t l2 F H.
  - exists [], t, fuel. cbn [app]. split; [constructor|]. split; [exact H|]. split; [cbn; lia|]. destruct (readKids _ _); reflexivity.
  - cbn [app] in H. cbn [length] in F. destruct fuel as [|k]; [lia|]. destruct (strtod_says _ _ _ SA) as (x & EX & ST).
    destruct (strtod_words _ _ _ H) as (t' & S1 & H1 & E1). rewrite EX in E1. cbn [option_map fst snd app] in E1.
    pose proof (hasWords_skip _ _ H) as (WA & t0 & E0 & _). pose proof (hasWords_skip _ _ H1) as (WN & t2 & E2 & S2 & H2).
    destruct (IH k t2 l2 ltac:(lia) H2) as (kids & t3 & f2 & FK & H3 & FL & E3).
    exists ((x, n) :: kids), t3, f2. split; [constructor; [split; [reflexivity|exact ST]|exact FK]|]. split; [exact H3|]. split; [cbn [length]; lia|].
    assert (NE : exists c q, skipSpace t = c :: q). { rewrite E0. destruct WA as [WA _]. destruct a; [congruence|]. cbn. eauto. }
    destruct NE as (c & q & NE). rewrite NE. cbn [readKids]. rewrite <- NE, strtod_skip, E1, E2. assert (NE2 : exists c q, n ++ t2 = c :: q) by (destruct WN as [WN _]; destruct n; [congruence|]; cbn; eauto).
    destruct NE2 as (c2 & q2 & NE2). rewrite NE2, <- NE2. rewrite takeWord_app by (auto; apply WN). rewrite E3. reflexivity.
Qed.
Lemma cstr_plain l : plainLine l -> cstr l = l.
Proof. induction 1 as [|c l [_ N] F IH]; [reflexivity|]. cbn [cstr]. destruct (Z.eqb_spec c 0); [contradiction|]. now rewrite IH. Qed.
Lemma streq_refl s : streq s s = true.
Proof. now apply streq_true. Qed.
Lemma readLine_none line h : lineSays line None -> readLine line h = (true, h).
Proof.
  intros (P & ws & H & M). unfold readLine. rewrite (cstr_plain _ P). inversion M as [E|c l E|]; subst; pose proof (hasWords_skip _ _ H) as K.
  - rewrite K. now rewrite streq_refl.
  - destruct K as (_ & t & -> & _). reflexivity.
Qed.
(** Up to the amount. *)
Lemma readLine_entry line n l h : plainLine line -> hasWords line (n :: l) -> hd 0 n <> 37 -> exists t, hasWords t l /\ readLine line h =
  match strtod t with
  | None => (false, h)
  | Some (m, r) => if hasName n h then (false, h) else let '(kids, ok) := readKids (length line) (skipSpace r) in (ok, h ++ [{| re_name := n; re_max := m; re_kids := kids |}])
  end.
Proof.
  intros P H N. pose proof (hasWords_skip _ _ H) as (W & t & E & ST & H'). exists t. split; [exact H'|]. unfold readLine. rewrite (cstr_plain _ P), E.
  destruct n as [|c n]; [destruct W; congruence|]. cbn [app hd] in *. destruct (Z.eqb_spec c 37); [contradiction|].
  change (c :: n ++ t) with ((c :: n) ++ t). rewrite takeWord_app by (auto; apply W). reflexivity.
Qed.
Lemma kids_end l ks t fuel : kidsOf l ks -> hasWords t l -> (length l <= fuel)%nat -> exists kids, readKids fuel (skipSpace t) = (kids, true) /\ Forall2 kidOk kids ks.
Proof.
  intros K H F. destruct (readKids_app l ks K fuel t [] F) as (kids & t2 & f2 & FK & H2 & _ & E); [now rewrite app_nil_r|]. exists kids. split; [|exact FK]. rewrite E.
  pose proof (hasWords_skip _ _ H2) as K2. cbn in K2. rewrite K2. destruct f2; cbn; now rewrite app_nil_r.
Qed.
Lemma readLine_some line s h : lineSays line (Some s) -> if hasName (se_name s) h then readLine line h = (false, h) else exists e, same e s /\ readLine line h = (true, h ++ [e]).
Proof.
  intros (P & ws & H & M). inversion M as [| |n a neg r l ks N SA K]; subst. cbn [se_name]. destruct (readLine_entry _ _ _ h P H N) as (t & H1 & E).
  destruct (strtod_says _ _ _ SA) as (x & EX & ST). destruct (strtod_words _ _ _ H1) as (t' & S1 & H2 & E1). rewrite EX in E1. cbn [option_map fst snd app] in E1. rewrite E1 in E.
  destruct (hasName n h); [exact E|]. assert (L : (length l <= length line)%nat) by (pose proof (words_len _ _ H) as L; cbn in L; lia).
  destruct (kids_end l ks t' _ K H2 L) as (kids & EK & FK). rewrite EK in E. eexists. split; [|exact E]. split; [reflexivity|]. split; [exact ST|exact FK].
Qed.
Lemma readLine_bad line h : plainLine line -> (exists ws, hasWords line ws /\ senseless ws) -> fst (readLine line h) = false.
Proof.
  intros P (ws & H & B). destruct B as [n N|n a l N NN|n a neg r l ks b m N SA K NN|n a neg r l ks b neg' r' N SA K SB].
  - destruct (readLine_entry _ _ _ h P H N) as (t & H1 & ->). now rewrite (hasWords_nil_strtod t H1).
  - destruct (readLine_entry _ _ _ h P H N) as (t & H1 & ->). destruct (strtod_words _ _ _ H1) as (t' & _ & _ & ->). inversion H1; subst. now rewrite strtod_noNumber.
  - destruct (readLine_entry _ _ _ h P H N) as (t & H1 & ->). destruct (strtod_says _ _ _ SA) as (x & EX & ST). destruct (strtod_words _ _ _ H1) as (t' & _ & H2 & ->). rewrite EX. cbn [option_map fst snd app].
    destruct (hasName n h); [reflexivity|]. assert (L : (length l < length line)%nat) by (pose proof (words_len _ _ H) as L; cbn in L; rewrite app_length in L; cbn in L; lia).
    destruct (readKids_app l ks K (length line) t' (b :: m) ltac:(lia) H2) as (kids & t2 & f2 & _ & H3 & FL & ->). destruct f2 as [|f2]; [lia|].
    destruct (strtod_words _ _ _ H3) as (t3 & _ & _ & E3). pose proof (hasWords_skip _ _ H3) as (WB & t4 & E4 & _). rewrite (strtod_noNumber b WB NN) in E3. cbn [option_map] in E3.
    destruct (skipSpace _) as [|c q] eqn:E5; [destruct b; [destruct WB; congruence|discriminate E4]|]. cbn [readKids]. rewrite <- E5, strtod_skip, E3. reflexivity.
  - destruct (readLine_entry _ _ _ h P H N) as (t & H1 & ->). destruct (strtod_says _ _ _ SA) as (x & EX & ST). destruct (strtod_words _ _ _ H1) as (t' & _ & H2 & ->). rewrite EX. cbn [option_map fst snd app].
    destruct (hasName n h); [reflexivity|]. assert (L : (length l < length line)%nat) by (pose proof (words_len _ _ H) as L; cbn in L; rewrite app_length in L; cbn in L; lia).
    destruct (readKids_app l ks K (length line) t' [b] ltac:(lia) H2) as (kids & t2 & f2 & _ & H3 & FL & ->). destruct f2 as [|f2]; [lia|].
    destruct (strtod_says _ _ _ SB) as (y & EY & _). destruct (strtod_words _ _ _ H3) as (t3 & _ & H4 & E3). rewrite EY in E3. cbn [option_map fst snd app] in E3.
    pose proof (hasWords_skip _ _ H3) as ([WB _] & t4 & E4 & _). destruct (skipSpace _) as [|c q] eqn:E5; [destruct b; [congruence|discriminate E4]|]. cbn [readKids]. rewrite <- E5, strtod_skip, E3.
    pose proof (hasWords_skip _ _ H4) as E6. cbn in E6. rewrite E6. reflexivity.
Qed.

(** ** Lines *)
Lemma splitLines_text ls : ls <> [] -> Forall plainLine ls -> splitLines (text ls) = ls.
Proof.
  destruct ls as [|l ls]; [congruence|]. intros _. cbn [text]. revert l. induction ls as [|l2 ls IH]; intros l F; inversion F as [|? ? F1 F2]; subst.
  - cbn [flat_map]. rewrite app_nil_r. clear F F2. induction F1 as [|c l [N _] F1 IH]; [reflexivity|]. cbn [splitLines]. destruct (Z.eqb_spec c 10); [contradiction|]. now rewrite IH.
  - cbn [flat_map app]. specialize (IH l2 F2). cbn [text] in IH. clear F. induction F1 as [|c l [N _] F1 IHl].
    + cbn [app splitLines]. rewrite Z.eqb_refl. now rewrite IH.
    + cbn [app splitLines]. destruct (Z.eqb_spec c 10); [contradiction|]. now rewrite IHl.
Qed.
Lemma splitLines_plain s : ~ In 0 s -> Forall plainLine (splitLines s) /\ text (splitLines s) = s /\ splitLines s <> [].
Proof.
  induction s as [|c s IH]; intros N; cbn [splitLines]; [split; [repeat constructor|split; [reflexivity|discriminate]]|].
  destruct IH as (F & T & NE); [intros H; apply N; now right|]. destruct (Z.eqb_spec c 10) as [-> |C].
  - split; [constructor; [constructor|exact F]|]. split; [|discriminate]. cbn [text app]. destruct (splitLines s) as [|l ls]; [congruence|]. cbn [flat_map app]. cbn [text] in T. now rewrite T.
  - destruct (splitLines s) as [|l ls]; [congruence|]. inversion F; subst. split; [constructor; [constructor; [split; [exact C|intros ->; apply N; now left]|assumption]|assumption]|]. split; [reflexivity|discriminate].
Qed.
Lemma hasName_in n h : hasName n h = true <-> In n (map re_name h).
Proof.
  unfold hasName. rewrite existsb_exists, in_map_iff. split; intros (e & A & B).
  - exists e. split; [now apply streq_true in B|exact A].
  - exists e. split; [exact B|now apply streq_true].
Qed.
Lemma readLines_app l1 : forall l2 h, readLines (l1 ++ l2) h = let '(ok, h') := readLines l1 h in if ok then readLines l2 h' else (false, h').
Proof.
  induction l1 as [|l l1 IH]; intros l2 h; [reflexivity|]. cbn [app readLines]. destruct (readLine l h) as [[|] h']; [apply IH|reflexivity].
Qed.
Lemma readLines_says ls ms : Forall2 lineSays ls ms -> forall h, NoDup (map re_name h ++ map se_name (entries ms)) ->
  exists es, readLines ls h = (true, h ++ es) /\ Forall2 same es (entries ms).
Proof.
  induction 1 as [|l m ls ms L F IH]; intros h ND.
  - exists []. rewrite app_nil_r. split; [reflexivity|constructor].
  - destruct m as [s|].
    + unfold entries in *. cbn [flat_map app map] in *. pose proof (readLine_some l s h L) as E.
      destruct (hasName (se_name s) h) eqn:HN.
      * apply hasName_in in HN. exfalso. apply NoDup_remove_2 in ND. apply ND. apply in_or_app. now left.
      * destruct E as (e & SE & E). cbn [readLines]. rewrite E. destruct (IH (h ++ [e])) as (es & E2 & FS).
        { rewrite map_app. cbn [map]. rewrite (proj1 SE). rewrite <- app_assoc. exact ND. }
        exists (e :: es). rewrite E2, <- app_assoc. split; [reflexivity|constructor; assumption].
    + cbn [readLines]. rewrite (readLine_none l h L). exact (IH h ND).
Qed.
(** Lines only add, and what they add is an entry. *)
Lemma readLine_adds l h : exists es, snd (readLine l h) = h ++ es /\ (length es <= 1)%nat.
Proof.
  unfold readLine. destruct (skipSpace (cstr l)) as [|c q].
  - destruct (streq _ _); exists []; rewrite app_nil_r; auto.
  - destruct (c =? 37); [exists []; rewrite app_nil_r; auto|]. destruct (takeWord _) as [n t]. destruct (strtod t) as [[m r]|]; [|exists []; rewrite app_nil_r; auto].
    destruct (hasName n h); [exists []; rewrite app_nil_r; auto|]. destruct (readKids _ _) as [kids ok]. eexists. split; [reflexivity|cbn; lia].
Qed.
