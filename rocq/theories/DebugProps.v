(** C77: which debug messages are enabled. *)
From Coq Require Import ZArith List Bool Lia String.
From Verif Require Import ValueModel FloatModel TypeModel UdpQueueModel LitModel LitSpec LitProofs ResFileModel ResFileSpec ResFileProofs DebugModel.
Import ListNotations.
Open Scope Z_scope.

(** [p] occurs in [m]. *)
Definition occursIn (p m : str) : Prop := exists a b, m = a ++ p ++ b.
(** The pattern a line gives: what is between leading blanks and the first # or /, without blanks at the end and without a first colon. *)
Definition gives (line p : str) : Prop :=
  exists b core b' rest, line = b ++ core ++ b' ++ rest /\ blank b /\ blank b' /\ core <> [] /\ ~ isBlank (hd 0 core) /\ ~ isBlank (last core 0) /\
    Forall (fun c => c <> 35 /\ c <> 47) core /\ (rest = [] \/ hd 0 rest = 35 \/ hd 0 rest = 47) /\
    (core = 58 :: p \/ (hd 0 core <> 58 /\ core = p)).
(** A pattern that was asked for. *)
Definition asked (l : list dop) (p : str) : Prop :=
  In (EnablePattern p) l \/ exists t line, In (ReadConfig t) l /\ In line (splitLines t) /\ gives line p.

Lemma startsWith_spec p : forall s, startsWith p s = true <-> exists b, s = p ++ b.
Proof.
  induction p as [|x p IH]; intros s; cbn [startsWith app]; [split; [intros _; now exists s|reflexivity]|]. destruct s as [|c s]; [split; [discriminate|intros (b & E); discriminate E]|].
  rewrite andb_true_iff, Z.eqb_eq, IH. split; [intros (-> & b & ->); now exists b|intros (b & [= -> ->]); split; [reflexivity|now exists b]].
Qed.
Lemma strstr_spec s p : strstr s p = true <-> occursIn p s.
Proof.
  unfold occursIn. induction s as [|c s IH]; cbn [strstr]; rewrite orb_true_iff, startsWith_spec.
  - split; [intros [(b & E)|X]; [exists [], b; exact E|discriminate X]|]. intros (a & b & E). destruct a; [left; now exists b|discriminate E].
  - rewrite IH. split.
    + intros [(b & E)|(a & b & E)]; [exists [], b; exact E|exists (c :: a), b; now rewrite E].
    + intros (a & b & E). destruct a as [|x a]; [left; now exists b|]. right. injection E as _ E. now exists a, b.
Qed.
Lemma isComment_spec c : isComment c = true <-> c = 35 \/ c = 47.
Proof. unfold isComment. now rewrite orb_true_iff, !Z.eqb_eq. Qed.
Lemma before_inv s : exists rest, s = beforeComment s ++ rest /\ (rest = [] \/ hd 0 rest = 35 \/ hd 0 rest = 47) /\ Forall (fun c => c <> 35 /\ c <> 47) (beforeComment s).
Proof.
  induction s as [|c s IH]; [exists []; split; [reflexivity|split; [now left|constructor]]|]. destruct IH as (rest & E & R & F). cbn [beforeComment]. destruct (isComment c) eqn:C.
  - exists (c :: s). apply isComment_spec in C. auto.
  - exists rest. split; [cbn; congruence|]. split; [exact R|]. constructor; [|exact F]. assert (N : ~ (c = 35 \/ c = 47)) by (rewrite <- isComment_spec; congruence). tauto.
Qed.
Lemma before_app a rest : Forall (fun c => c <> 35 /\ c <> 47) a -> (rest = [] \/ hd 0 rest = 35 \/ hd 0 rest = 47) -> beforeComment (a ++ rest) = a.
Proof.
  intros F R. induction F as [|c a [N1 N2] F IH].
  - cbn. destruct rest as [|c r]; [reflexivity|]. cbn in *. assert (C : isComment c = true) by (apply isComment_spec; destruct R as [R|R]; [discriminate R|exact R]). now rewrite C.
  - cbn [app beforeComment]. assert (C : isComment c = false) by (destruct (isComment c) eqn:C; [apply isComment_spec in C; tauto|reflexivity]). now rewrite C, IH.
Qed.
Lemma blank_rev b : blank b -> blank (rev b).
Proof. unfold blank. rewrite !Forall_forall. intros H x I. apply H. now apply in_rev. Qed.
Lemma trim_app core b : blank b -> core <> [] -> ~ isBlank (last core 0) -> trimRight (core ++ b) = core.
Proof.
  intros B NE L. unfold trimRight. rewrite rev_app_distr. rewrite skipSpace_app; [apply rev_involutive|now apply blank_rev|].
  destruct (exists_last NE) as (l & x & ->). rewrite rev_unit. rewrite last_last in L. now apply isSpace_not.
Qed.
Lemma trim_inv s : exists b, s = trimRight s ++ b /\ blank b /\ (trimRight s = [] \/ ~ isBlank (last (trimRight s) 0)).
Proof.
  unfold trimRight. destruct (skipSpace_inv (rev s)) as (ws & E & B & H). exists (rev ws). split; [|split; [now apply blank_rev|]].
  - rewrite <- rev_app_distr, <- E. symmetry. apply rev_involutive.
  - destruct (skipSpace (rev s)) as [|c r]; [now left|]. right. cbn [rev]. rewrite last_last. intros X. apply isSpace_blank in X. congruence.
Qed.
(** A line gives one pattern or none, as described. *)
Theorem C77_line line p : linePattern line = Some p <-> gives line p.
Proof.
  unfold linePattern, gives. split.
  - destruct (skipSpace_inv line) as (b & E & B & H). destruct (skipSpace line) as [|c r]; [discriminate|]. destruct (isComment c) eqn:C; [discriminate|].
    destruct (before_inv (c :: r)) as (rest & E2 & R & F). assert (NB : ~ isBlank c) by (rewrite <- isSpace_blank; congruence).
    assert (EB : beforeComment (c :: r) = c :: beforeComment r) by (cbn [beforeComment]; now rewrite C).
    destruct (trim_inv (beforeComment (c :: r))) as (b' & E3 & B' & L).
    assert (TR : exists q, trimRight (beforeComment (c :: r)) = c :: q).
    { destruct (trimRight (beforeComment (c :: r))) as [|x q] eqn:T; rewrite EB in E3; cbn [app] in E3.
      - rewrite <- E3 in B'. inversion B'; subst. contradiction.
      - injection E3 as <- _. now exists q. }
    destruct TR as (q & TR). rewrite TR in *. intros HP. exists b, (c :: q), b', rest. split.
    + rewrite E, E2 at 1. rewrite E3 at 1. now rewrite <- app_assoc.
    + split; [exact B|]. split; [exact B'|]. split; [discriminate|]. split; [exact NB|]. split; [destruct L as [L|L]; [discriminate L|exact L]|]. split.
      * rewrite E3 in F. apply Forall_app in F. apply F.
      * split; [exact R|]. cbn [tl hd] in *. destruct (Z.eqb_spec c 58) as [-> |N]; injection HP as <-; [now left|right; auto].
  - intros (b & core & b' & rest & -> & B & B' & NE & H1 & H2 & F & R & P). destruct core as [|c q]; [congruence|]. cbn [hd] in H1.
    rewrite skipSpace_app; [|exact B|cbn; now apply isSpace_not]. cbn [app]. inversion F as [|? ? [N1 N2] F']; subst.
    assert (C : isComment c = false) by (destruct (isComment c) eqn:C; [apply isComment_spec in C; tauto|reflexivity]). rewrite C.
    assert (BC : beforeComment ((c :: q) ++ b' ++ rest) = (c :: q) ++ b').
    { rewrite app_assoc. apply before_app; [|exact R]. apply Forall_app. split; [exact F|]. eapply Forall_impl; [|exact B']. cbn. intros x X. lia. }
    cbn [app] in BC. rewrite BC. change (c :: q ++ b') with ((c :: q) ++ b'). rewrite trim_app by (auto; discriminate). cbn [tl].
    destruct P as [[= -> ->]|[N E]]; [reflexivity|]. cbn [hd] in N. destruct (Z.eqb_spec c 58); [contradiction|]. now rewrite E.
Qed.
(** ** Histories *)
(** A history with configuration files replaced by their patterns. *)
Lemma inv_step (d : debug) : (forall m, In m (d_msgs d) -> d_enabled m = true <-> exists p, In p (d_pats d) /\ occursIn (cstr p) (d_marker m)) -> forall p,
  (forall m, In m (d_msgs (enable p d)) -> d_enabled m = true <-> exists p', In p' (d_pats (enable p d)) /\ occursIn (cstr p') (d_marker m)).
Proof.
  intros H p m I. cbn [enable d_msgs d_pats] in *. apply in_map_iff in I as (m0 & <- & I). specialize (H m0 I). destruct (d_enabled m0) eqn:E; cbn [negb andb].
  - rewrite E. split; [intros _|reflexivity]. destruct (proj1 H eq_refl) as (q & A & B). exists q. split; [apply in_or_app; now left|exact B].
  - destruct (markerMatches (d_marker m0) p) eqn:M; cbn [d_enabled d_marker].
    + split; [intros _|reflexivity]. exists p. split; [apply in_or_app; right; now left|]. now apply strstr_spec.
    + rewrite E. split; [discriminate|]. intros (q & A & B). apply in_app_or in A as [A|[<-|[]]]; [apply H; now exists q|]. apply strstr_spec in B. unfold markerMatches in M. congruence.
Qed.
Definition inv (l : list dop) (d : debug) : Prop :=
  (forall m, In m (d_msgs d) -> d_enabled m = true <-> exists p, In p (d_pats d) /\ occursIn (cstr p) (d_marker m)) /\
  (forall p, In p (d_pats d) <-> asked l p) /\ (map d_marker (d_msgs d) = rev (flat_map (fun o => match o with NewMessage m => [m] | _ => [] end) l)).
Lemma enable_markers p d : map d_marker (d_msgs (enable p d)) = map d_marker (d_msgs d).
Proof. cbn. rewrite map_map. apply map_ext. intros m. destruct (_ && _); reflexivity. Qed.
Lemma config_inv ls : forall d, (forall m, In m (d_msgs d) -> d_enabled m = true <-> exists p, In p (d_pats d) /\ occursIn (cstr p) (d_marker m)) ->
  let d' := fold_left (fun d l => match linePattern l with Some p => enable p d | None => d end) ls d in
  (forall m, In m (d_msgs d') -> d_enabled m = true <-> exists p, In p (d_pats d') /\ occursIn (cstr p) (d_marker m)) /\
  (forall p, In p (d_pats d') <-> In p (d_pats d) \/ exists line, In line ls /\ gives line p) /\ map d_marker (d_msgs d') = map d_marker (d_msgs d).
Proof.
  induction ls as [|l ls IH]; intros d H; cbn [fold_left].
  - split; [exact H|]. split; [|reflexivity]. intros p. split; [now left|]. intros [X|(line & [] & _)]. exact X.
  - destruct (linePattern l) as [q|] eqn:E.
    + destruct (IH (enable q d) (inv_step d H q)) as (A & B & C). split; [exact A|]. split; [|rewrite C; apply enable_markers]. intros p. rewrite B. cbn [enable d_pats]. rewrite in_app_iff. cbn [In]. split.
      * intros [[X|[<-|[]]]|(line & X & Y)]; [now left|right; exists l; split; [now left|now apply C77_line]|right; exists line; auto].
      * intros [X|(line & [<-|X] & Y)]; [auto| |right; eauto]. apply C77_line in Y. rewrite E in Y. injection Y as ->. auto.
    + destruct (IH d H) as (A & B & C). split; [exact A|]. split; [|exact C]. intros p. rewrite B. split.
      * intros [X|(line & X & Y)]; [now left|right; exists line; cbn; auto].
      * intros [X|(line & [<-|X] & Y)]; [now left| |right; eauto]. apply C77_line in Y. congruence.
Qed.
Lemma run_inv l : inv l (drun l).
Proof.
  unfold drun. induction l as [|o l IH] using rev_ind.
  - split; [intros m []|]. split; [|reflexivity]. intros p. split; [intros []|]. intros [[]|(t & line & [] & _)].
  - rewrite fold_left_app. cbn [fold_left]. destruct IH as (A & B & C). destruct o as [m|t|p]; cbn [dstep].
    + split; [|split].
      * intros m0 [<-|I]; [|now apply A]. cbn [newMessage d_enabled d_marker d_pats]. unfold matchesPatterns. rewrite existsb_exists.
        split; intros (p & P & Q); exists p; (split; [exact P|]); now apply strstr_spec.
      * intros p. cbn [newMessage d_pats]. rewrite B. unfold asked. split.
        -- intros [X|(t & line & X & Y)]; [left; apply in_or_app; now left|right; exists t, line; split; [apply in_or_app; now left|exact Y]].
        -- intros [X|(t & line & X & Y)]; apply in_app_or in X as [X|[X|[]]]; try discriminate X; [now left|right; eauto].
      * cbn [newMessage d_msgs map]. rewrite C, flat_map_app. cbn. now rewrite rev_app_distr.
    + destruct (config_inv (splitLines t) _ A) as (A' & B' & C'). split; [exact A'|]. split.
      * intros p. unfold readConfig. rewrite B', B. unfold asked. split.
        -- intros [[X|(t0 & line & X & Y)]|(line & X & Y)]; [left; apply in_or_app; now left|right; exists t0, line; split; [apply in_or_app; now left|exact Y]|right; exists t, line; split; [apply in_or_app; right; now left|auto]].
        -- intros [X|(t0 & line & X & Y)]; apply in_app_or in X as [X|[X|[]]]; [left; now left|discriminate X|left; right; eauto|]. injection X as ->. right. exists line. exact Y.
      * unfold readConfig. rewrite C', C, flat_map_app. cbn. now rewrite app_nil_r.
    + split; [now apply inv_step|]. split; [|rewrite enable_markers, C, flat_map_app; cbn; now rewrite app_nil_r].
      intros q. cbn [enable d_pats]. rewrite in_app_iff, B. unfold asked. cbn [In]. rewrite in_app_iff. cbn [In]. split.
      * intros [[X|(t & line & X & Y)]|[<-|[]]]; [tauto|right; exists t, line; split; [apply in_or_app; now left|exact Y]|tauto].
      * intros [[X|[X|[]]]|(t & line & X & Y)]; [tauto|injection X as ->; tauto|]. apply in_app_or in X as [X|[X|[]]]; [left; right; eauto|discriminate X].
Qed.
(** The messages are those that were made, and a message is enabled iff a pattern asked for, before or after the message was made, occurs in its marker. *)
Theorem C77_enabled l : map d_marker (d_msgs (drun l)) = rev (flat_map (fun o => match o with NewMessage m => [m] | _ => [] end) l) /\
  ((forall p, asked l p -> ~ In 0 p) ->
   forall m, In m (d_msgs (drun l)) -> d_enabled m = true <-> exists p, asked l p /\ occursIn p (d_marker m)).
Proof.
  destruct (run_inv l) as (A & B & C). split; [exact C|]. intros NZ m I. rewrite (A m I).
  assert (CS : forall p, asked l p -> cstr p = p).
  { intros p P. specialize (NZ p P). clear - NZ. induction p as [|c p IH]; [reflexivity|]. cbn [cstr]. destruct (Z.eqb_spec c 0) as [-> |]; [elim NZ; now left|]. rewrite IH; [reflexivity|]. intros X. apply NZ. now right. }
  split; intros (p & P & Q).
  - apply B in P. exists p. split; [exact P|]. now rewrite <- (CS p P).
  - exists p. split; [now apply B|]. now rewrite (CS p P).
Qed.
(** So the order of operations does not matter. *)
Theorem C77_order l l' m m' : (forall p, asked l p -> ~ In 0 p) -> (forall o, In o l <-> In o l') ->
  In m (d_msgs (drun l)) -> In m' (d_msgs (drun l')) -> d_marker m = d_marker m' -> d_enabled m = d_enabled m'.
Proof.
  intros NZ S I I' E. assert (AS : forall p, asked l p <-> asked l' p).
  { intros p. unfold asked. rewrite S. split; (intros [X|(t & line & X & Y)]; [now left|right; exists t, line; split; [now apply S|exact Y]]). }
  pose proof (proj2 (C77_enabled l) NZ m I) as A. pose proof (proj2 (C77_enabled l') ltac:(intros p P; apply NZ; now apply AS) m' I') as B.
  rewrite E in A. destruct (d_enabled m), (d_enabled m'); try reflexivity.
  - destruct (proj1 A eq_refl) as (p & P & Q). symmetry. apply B. exists p. split; [now apply AS|exact Q].
  - destruct (proj1 B eq_refl) as (p & P & Q). apply A. exists p. split; [now apply AS|exact Q].
Qed.
(** A line with nothing but a colon enables every message. *)
Theorem C77_colon_refuted t : In (chars ":") (splitLines t) -> forall l m, In (ReadConfig t) l -> In m (d_msgs (drun l)) -> d_enabled m = true.
Proof.
  intros HL l m HT HM. destruct (run_inv l) as (A & B & _). apply (A m HM). exists []. split; [|exists [], (d_marker m); reflexivity]. apply B. right. exists t, (chars ":"). split; [exact HT|]. split; [exact HL|].
  apply C77_line. reflexivity.
Qed.
Definition exConfig : str := chars "# all of these" ++ 10 :: chars "  :Node:transition  # states" ++ 10 :: 10 :: chars "Command" ++ [10].
Theorem C77_example : map (fun m => d_enabled m) (d_msgs (drun [NewMessage (chars "Node:transition"); ReadConfig exConfig; NewMessage (chars "Test:Command:x"); NewMessage (chars "Node:start")])) = [false; true; true].
Proof. vm_compute. reflexivity. Qed.

(** Assumptions *)
Print Assumptions C77_line.
Print Assumptions C77_enabled.
Print Assumptions C77_order.
Print Assumptions C77_colon_refuted.
Print Assumptions C77_example.
