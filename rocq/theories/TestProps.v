(** C72: the scripted environment of TestExec answers as the script says. *)
From Coq Require Import ZArith List Bool String Lia.
From Verif Require Import ValueModel OrderProps UdpQueueModel LitModel LaunchModel TestModel TestSpec TestProofs.
Import ListNotations.
Open Scope Z_scope.

(** Two states with known, scalar parameters are alike if and only if they are equal. *)
Theorem C72_alike_iff_equal : forall a b, okState a -> okState b -> Forall scalar (s_params a) -> Forall scalar (s_params b) ->
  (alike a b <-> state_eq a b = true).
Proof.
  intros [n p] [m q]. unfold okState, alike, state_lt, state_eq. cbn [s_name s_params]. intros OA OB SA SB.
  assert (IR : forall x, sltb x x = false) by (intros x; destruct (sltb x x) eqn:E; auto; pose proof (proj1 good_sltb x x I I E); congruence).
  assert (P : length p = length q -> (params_lt p q = false /\ params_lt q p = false <-> vec_eq veq p q = true)).
  { revert q OB SB. induction p as [|x p IH]; intros [|y q] OB SB L; try discriminate L; cbn [params_lt vec_eq]; [tauto|].
    inversion OA; inversion OB; inversion SA; inversion SB; subst. pose proof (C20_trichotomy x y H9 H13 H1 H5) as T. injection L as L.
    specialize (IH H2 H10 q H6 H14 L). rewrite andb_true_iff, <- IH, T. destruct (vlt x y), (vlt y x); intuition congruence. }
  rewrite andb_true_iff, seqb_iff. split.
  - intros [A B]. destruct (sltb n m) eqn:E1; [discriminate|]. destruct (sltb m n) eqn:E2; [discriminate|]. split; [now apply sltb_total|].
    cbv zeta in A, B. destruct (Nat.ltb_spec (length p) (length q)); [discriminate|]. destruct (Nat.ltb_spec (length q) (length p)); [discriminate|].
    apply P; [lia|]. auto.
  - intros [-> V]. rewrite IR. assert (L : length p = length q).
    { clear - V. revert q V. induction p as [|x p IH]; intros [|y q] V; cbn [vec_eq] in V; try discriminate; auto. apply andb_true_iff in V. cbn [length]. f_equal. apply IH, V. }
    cbv zeta. rewrite L, Nat.ltb_irrefl. apply P; auto.
Qed.

Section Histories.
Variables (x : executive) (k : nat) (inits : list init) (script : list item).
Hypotheses (X : okExec x) (FI : Forall okInit inits) (FS : Forall okItem script).
Let h := t_trace (snd (run x k inits script)).
(** Every lookup is answered with the value the script gave that state last. *)
Theorem C72_lookup : forall later s v earlier, h = later ++ Look s v :: earlier -> told earlier s v.
Proof. intros later s v earlier E. pose proof (i_good _ (run_inv x k inits script X FI FS)) as G. fold h in G. rewrite E in G. exact (good_at _ _ _ G). Qed.
(** Every value returned goes to the last command of that name and with these arguments that awaits one, and at most once. *)
Theorem C72_return : forall later c s v earlier, h = later ++ Return c s v :: earlier -> awaiting earlier s c.
Proof. intros later c s v earlier E. pose proof (i_good _ (run_inv x k inits script X FI FS)) as G. fold h in G. rewrite E in G. exact (good_at _ _ _ G). Qed.
Theorem C72_ack : forall later c s a earlier, h = later ++ Ack c s a :: earlier -> lastIssued earlier s c.
Proof. intros later c s a earlier E. pose proof (i_good _ (run_inv x k inits script X FI FS)) as G. fold h in G. rewrite E in G. exact (good_at _ _ _ G). Qed.
Theorem C72_abort : forall later c s b earlier, h = later ++ AbortAck c s b :: earlier -> aborting earlier s c.
Proof. intros later c s b earlier E. pose proof (i_good _ (run_inv x k inits script X FI FS)) as G. fold h in G. rewrite E in G. exact (good_at _ _ _ G). Qed.
Theorem C72_update : forall later u n earlier, h = later ++ UpdateAck u n :: earlier -> updating earlier n u.
Proof. intros later u n earlier E. pose proof (i_good _ (run_inv x k inits script X FI FS)) as G. fold h in G. rewrite E in G. exact (good_at _ _ _ G). Qed.
(** The utility commands need no script, and no other command is answered without one. *)
Theorem C72_utility : (forall c s, In (Served c s) h -> In (s_name s) utilityNames) /\ (forall c s r, In (Issue c s r) h -> ~ In (s_name s) utilityNames).
Proof.
  assert (U : forall s, utility s = true <-> In (s_name s) utilityNames).
  { intros s. unfold utility, utilityNames. rewrite !orb_true_iff. cbn [map In]. assert (S : forall w, streq (s_name s) w = true <-> w = s_name s) by (intros w; unfold streq; destruct (str_eq_dec (s_name s) w); split; congruence).
    rewrite !S. intuition congruence. }
  enough (UT : (forall c s, In (Served c s) h -> utility s = true) /\ (forall c s r, In (Issue c s r) h -> utility s = false)).
  { destruct UT as [U1 U2]. split; [intros c s I; apply U; now apply (U1 c)|]. intros c s r I J. apply U in J. rewrite (U2 c s r I) in J. discriminate J. }
  pose proof (i_good _ (run_inv x k inits script X FI FS)) as G. fold h in G. split.
  - intros c s I. apply in_split in I as (l & r & E). rewrite E in G. exact (good_at _ _ _ G).
  - intros c s r I. apply in_split in I as (l & r' & E). rewrite E in G. exact (good_at _ _ _ G).
Qed.
(** A script that ends did everything it says, in order, with a step of the executive after the initial state and after each element,
    and then steps for as long as the executive needs them. *)
Theorem C72_script : fst (run x k inits script) = true ->
  exists j, (j <= k)%nat /\ effects h = meansInits inits ++ meansScript x script ++ repeat EStep j /\ ((j < k)%nat -> needs x h = false).
Proof.
  unfold h, run. pose proof (doInitial_inv x inits env0 X FI inv0) as I.
  assert (EI : fst (doInitial x inits env0) = true -> effects (t_trace (snd (doInitial x inits env0))) = meansInits inits).
  { unfold doInitial. assert (D : fst (setInitial x inits env0) = true -> effects (t_trace (snd (setInitial x inits env0))) ++ [EStep] = meansInits inits).
    { unfold setInitial, meansInits. destruct inits as [|[s v| |] r]; try reflexivity.
      - pose proof (doInits_effects x (InState s v :: r) env0) as E. destruct (doInits _ _ _) as [[|] e]; cbn [fst snd] in *; [|discriminate]. intros _. rewrite E. reflexivity.
      - pose proof (doInits_effects x (InBad :: r) env0) as E. destruct (doInits _ _ _) as [[|] e]; cbn [fst snd] in *; [|discriminate]. intros _. rewrite E. reflexivity. }
    destruct (setInitial x inits env0) as [[|] e1]; cbn [fst snd] in *; [|discriminate]. intros _. rewrite step_effects. auto. }
  destruct (doInitial x inits env0) as [[|] e]; cbn [fst snd] in *; [|discriminate]. specialize (EI eq_refl).
  pose proof (doItems_effects x script e X FS I) as E. destruct (doItems x script e) as [[|] e2]; cbn [fst snd] in *; [|discriminate]. intros _.
  destruct (settle_effects x k e2) as (j & J & E2 & N). exists j. split; [exact J|]. split; [|exact N]. rewrite E2, E, EI. now rewrite app_assoc.
Qed.
(** A script ends early only at an element that cannot be carried out; everything before it was done. *)
Theorem C72_stops : fst (run x k inits script) = false ->
  (exists pre i post, inits = pre ++ i :: post /\ (i = InText \/ i = InBad) /\ effects h = flat_map meansInit pre) \/
  (exists pre i post done, script = pre ++ i :: post /\ effects h = meansInits inits ++ meansScript x pre ++ done /\
     match i with
     | Basic b => done = [] /\ impossible h b
     | Simultaneous l => exists p b q, l = p ++ b :: q /\ done = flat_map meansBasic p /\ impossible h b
     | SendPlan None => done = []
     | _ => False
     end).
Proof.
  unfold h, run. pose proof (doInitial_inv x inits env0 X FI inv0) as I.
  assert (EI : if fst (doInitial x inits env0) then effects (t_trace (snd (doInitial x inits env0))) = meansInits inits
    else exists pre i post, inits = pre ++ i :: post /\ (i = InText \/ i = InBad) /\ effects (t_trace (snd (doInitial x inits env0))) = flat_map meansInit pre).
  { unfold doInitial. assert (D : if fst (setInitial x inits env0) then effects (t_trace (snd (setInitial x inits env0))) ++ [EStep] = meansInits inits
      else exists pre i post, inits = pre ++ i :: post /\ (i = InText \/ i = InBad) /\ effects (t_trace (snd (setInitial x inits env0))) = flat_map meansInit pre).
    { unfold setInitial, meansInits. assert (G := doInits_effects x inits env0). destruct inits as [|[s v| |] r]; try reflexivity.
      - destruct (doInits _ _ _) as [[|] e]; cbn [fst snd] in *; [rewrite G; reflexivity|]. destruct G as (pre & i & post & A & B & C). exists pre, i, post. auto.
      - destruct (doInits _ _ _) as [[|] e]; cbn [fst snd] in *; [rewrite G; reflexivity|]. destruct G as (pre & i & post & A & B & C). exists pre, i, post. auto. }
    destruct (setInitial x inits env0) as [[|] e1]; cbn [fst snd] in *; [rewrite step_effects; auto|exact D]. }
  destruct (doInitial x inits env0) as [[|] e]; cbn [fst snd] in *; [|intros _; left; exact EI].
  pose proof (doItems_effects x script e X FS I) as E. destruct (doItems x script e) as [[|] e2]; cbn [fst snd] in *; [discriminate|]. intros _. right.
  destruct E as (pre & i & post & h0 & -> & E0 & ST). rewrite EI in E0. destruct i as [b|l| |[d|]]; cbn [stuck] in ST; try contradiction.
  - destruct ST as [E IM]. exists pre, (Basic b), post, []. rewrite app_nil_r. repeat split; auto. now rewrite E.
  - destruct ST as (p & b & q & -> & E & IM). exists pre, (Simultaneous (p ++ b :: q)), post, (flat_map meansBasic p). repeat split; auto.
    + rewrite E, E0. now rewrite app_assoc.
    + exists p, b, q. auto.
  - exists pre, (SendPlan None), post, []. rewrite app_nil_r. repeat split; auto. now rewrite ST.
Qed.
End Histories.

(** ** Where the environment is not what its scripts suggest *)
Definition cmd (n : string) : state := mkState (chars n) [].
(** An executive that makes the given calls in its i-th step, and needs no further one. *)
Definition steps (h : list ev) : nat := length (filter (fun v => match v with Step => true | _ => false end) h).
Definition scriptedExec (calls : nat -> list call) : executive :=
  mkX (fun h => match h with Step :: _ => calls (steps h) | _ => [] end) (fun _ => false) (fun _ => Some O).
Definition at1 (l : list call) (i : nat) : list call := match i with 1%nat => l | _ => [] end.
Lemma scripted_ok calls : (forall i, Forall okCall (calls i)) -> okExec (scriptedExec calls).
Proof. intros K h. destruct h as [|v h]; [constructor|]. destruct v; try constructor. apply K. Qed.
(** Two nodes execute one command with the same arguments: the first never gets its value, and the second value stops the script. *)
Theorem C72_same_command_refuted : exists x s v w, okExec x /\ okState s /\
  let r := run x 9 [] [Basic (BCommand s v); Basic (BCommand s w)] in
  fst r = false /\ In (Issue 1 s true) (t_trace (snd r)) /\ In (Issue 2 s true) (t_trace (snd r)) /\ In (Return 2 s v) (t_trace (snd r)) /\ forall u, ~ In (Return 1 s u) (t_trace (snd r)).
Proof.
  exists (scriptedExec (at1 [CExec 1 (cmd "Drive") true; CExec 2 (cmd "Drive") true])), (cmd "Drive"), (VInt 1), (VInt 2). split; [|split; [constructor|]].
  - apply scripted_ok. intros [|[|]]; repeat constructor.
  - cbv zeta. vm_compute. repeat split; auto; intros u H; repeat (destruct H as [H|H]; [discriminate H|]); destruct H.
Qed.
(** A command can be acknowledged again although its value was returned long ago. *)
Theorem C72_stale_ack_refuted : exists x s v, okExec x /\
  let r := run x 9 [] [Basic (BAck s (VStr (chars "COMMAND_SENT_TO_SYSTEM"))); Basic (BCommand s v); Basic (BAck s (VStr (chars "COMMAND_FAILED")))] in
  fst r = true /\ exists later mid first, t_trace (snd r) = later ++ Ack 1 s 4 :: mid ++ Return 1 s v :: first /\ In (Ack 1 s 1) first /\ forall c b, ~ In (Issue c s b) (later ++ mid).
Proof.
  exists (scriptedExec (at1 [CExec 1 (cmd "Drive") true])), (cmd "Drive"), (VInt 1). split.
  - apply scripted_ok. intros [|[|]]; repeat constructor.
  - split; [vm_compute; reflexivity|]. exists [Step], [Step], [Step; Ack 1 (cmd "Drive") 1; Issue 1 (cmd "Drive") true; Step].
    split; [vm_compute; reflexivity|]. split; [cbn; auto|]. intros c b H. cbn in H. intuition discriminate.
Qed.
(** A second update of a node that comes before the first was acknowledged is lost: it can never be acknowledged. *)
Theorem C72_second_update_refuted : exists x n, okExec x /\
  let r := run x 9 [] [Basic (BUpdateAck n); Basic (BUpdateAck n)] in
  fst r = false /\ In (Update 1 n) (t_trace (snd r)) /\ In (Update 2 n) (t_trace (snd r)) /\ In (UpdateAck 1 n) (t_trace (snd r)) /\ ~ In (UpdateAck 2 n) (t_trace (snd r)).
Proof.
  exists (scriptedExec (at1 [CUpdate 1 (chars "N"); CUpdate 2 (chars "N")])), (chars "N"). split.
  - apply scripted_ok. intros [|[|]]; repeat constructor.
  - cbv zeta. vm_compute. repeat split; auto; intros H; repeat (destruct H as [H|H]; [discriminate H|]); destruct H.
Qed.
(** An InitialState that begins with text sets nothing at all. *)
Theorem C72_initial_text_refuted : forall x k l script s v, ~ In (Basic (BState s v)) script -> (forall c, ~ In (Simultaneous c) script) ->
  okExec x -> Forall okItem script -> ~ In (Tell s v) (t_trace (snd (run x k (InText :: InState s v :: l) script))).
Proof.
  intros x k l script s v N1 N2 X F H.
  assert (E : In (ETell s v) (effects (t_trace (snd (run x k (InText :: InState s v :: l) script))))).
  { unfold effects. apply in_flat_map. exists (Tell s v). split; [now apply -> in_rev|left; reflexivity]. }
  clear H. assert (SC : forall sc, (forall i, In i sc -> In i script) -> ~ In (ETell s v) (meansScript x sc)).
  { intros sc SUB J. unfold meansScript in J. apply in_flat_map in J as (i & I & J). apply in_app_or in J as [J|[J|[]]]; [|discriminate].
    apply SUB in I. destruct i as [b|c| |[d|]]; cbn [means] in J; [|now elim (N2 c)|destruct J| |destruct J].
    - destruct b as [s1 v1|s1 v1|s1 v1|s1 v1|n| |]; cbn [meansBasic] in J; try (destruct J as [J|[]]; try discriminate J; fail); try (destruct J; fail).
      + destruct J as [J|[]]. injection J as -> ->. now apply N1.
      + destruct v1; try (destruct J; fail). destruct J as [J|[]]; discriminate J.
    - destruct (child "PlexilPlan" d) as [p|]; [destruct (load x p)|]; try (destruct J as [J|[]]; discriminate J); destruct J. }
  assert (OK : fst (doInitial x (InText :: InState s v :: l) env0) = true) by reflexivity.
  assert (I0 : Inv (snd (doInitial x (InText :: InState s v :: l) env0))) by (cbn [doInitial setInitial snd]; apply step_inv; [exact X|exact inv0]).
  assert (E0 : effects (t_trace (snd (doInitial x (InText :: InState s v :: l) env0))) = [EStep]) by (cbn [doInitial setInitial snd]; rewrite step_effects; reflexivity).
  unfold run in E. destruct (doInitial x (InText :: InState s v :: l) env0) as [ok e]. cbn [fst snd] in *. subst ok.
  pose proof (doItems_effects x script e X F I0) as D. destruct (doItems x script e) as [[|] e2]; cbn [fst snd] in *.
  - destruct (settle_effects x k e2) as (j & _ & E2 & _). rewrite E2, D, E0 in E. apply in_app_or in E as [E|E].
    + apply in_app_or in E as [[E|[]]|E]; [discriminate|]. exact (SC script (fun _ H => H) E).
    + apply repeat_spec in E. discriminate.
  - destruct D as (pre & i & post & h0 & -> & E1 & ST). assert (SP : ~ In (ETell s v) (effects h0)).
    { rewrite E1, E0. intros J. apply in_app_or in J as [[J|[]]|J]; [discriminate|]. apply (SC pre); [intros; apply in_or_app; auto|exact J]. }
    destruct i as [b|c| |[d|]]; cbn [stuck] in ST; try contradiction.
    + destruct ST as [ST _]. rewrite ST in E. contradiction.
    + elim (N2 c). apply in_or_app. right. left. reflexivity.
    + rewrite ST in E. contradiction.
Qed.
(** SendPlan looks for the plan below the document's root, so that a plan file, whose root is PlexilPlan, is never loaded. *)
Theorem C72_send_plan_refuted : forall x d e, is "PlexilPlan" d = true -> child "PlexilPlan" d = None -> doItem x (SendPlan (Some d)) e = (true, e).
Proof. intros x d e _ C. cbn [doItem doSendPlan]. rewrite C. reflexivity. Qed.
(** A scripted run with a lookup, a command and an update. *)
Theorem C72_example : exists x, okExec x /\
  let r := run x 9 [InState (cmd "Heat") (VInt 3)] [Basic (BState (cmd "Heat") (VInt 5)); Simultaneous [BAck (cmd "Drive") (VStr (chars "COMMAND_SUCCESS")); BCommand (cmd "Drive") (VInt 7); BUpdateAck (chars "N")]] in
  fst r = true /\ rev (t_trace (snd r)) =
    [Tell (cmd "Heat") (VInt 3); Step; Look (cmd "Heat") (VInt 3); Look (cmd "Cold") unk; Look timeState (VReal 0); Issue 1 (cmd "Drive") true;
     Tell (cmd "Heat") (VInt 5); Step; Look (cmd "Heat") (VInt 5); Update 2 (chars "N"); Served 3 (cmd "print");
     Ack 1 (cmd "Drive") 6; Return 1 (cmd "Drive") (VInt 7); UpdateAck 2 (chars "N"); Step].
Proof.
  exists (scriptedExec (fun i => match i with 1%nat => [CLook (cmd "Heat"); CLook (cmd "Cold"); CLook timeState; CExec 1 (cmd "Drive") true]
    | 2%nat => [CLook (cmd "Heat"); CUpdate 2 (chars "N"); CExec 3 (cmd "print") false] | _ => [] end)). split.
  - apply scripted_ok. intros [|[|[|]]]; repeat constructor.
  - vm_compute. split; reflexivity.
Qed.

(** Assumptions *)
Print Assumptions C72_alike_iff_equal.
Print Assumptions C72_lookup.
Print Assumptions C72_return.
Print Assumptions C72_ack.
Print Assumptions C72_abort.
Print Assumptions C72_update.
Print Assumptions C72_utility.
Print Assumptions C72_script.
Print Assumptions C72_stops.
Print Assumptions C72_same_command_refuted.
Print Assumptions C72_stale_ack_refuted.
Print Assumptions C72_second_update_refuted.
Print Assumptions C72_initial_text_refuted.
Print Assumptions C72_send_plan_refuted.
Print Assumptions C72_example.
