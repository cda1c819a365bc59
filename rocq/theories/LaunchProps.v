(** C70: starting and stopping plans from plans.  C71: watching them. *)
From Coq Require Import ZArith Reals Lra Lia List Bool String.
From Flocq Require Import Core BinarySingleNaN.
From Verif Require Import ValueModel FloatModel TypeModel UdpQueueModel LitModel LitSpec LitProofs LitProps PrintModel PrintProofs PrintProps LaunchModel LaunchSpec LaunchProofs.
Import ListNotations.
Open Scope Z_scope.

(** ** C70 *)
(** StartPlan(callee, name1, value1, ...) with different names and values that can be passed: if the library accepts the values, one plan is added, a
    call of the library with these values under a new name, which leaves when ExitPlan(that name) is looked up as true; then its name is returned
    and the command succeeds.  Otherwise the command fails and nothing else happens. *)
Theorem C70_start_plan lib n callee (ps : list (str * lval)) : callee <> [] -> noNul callee -> NoDup (map fst ps) ->
  Forall (fun p : str * lval => fst p <> [] /\ noNul (fst p) /\ passable (snd p)) ps ->
  exists args, Forall2 (fun p q : str * lval => fst q = fst p /\ same (snd p) (snd q)) ps args /\
  let name := callee ++ chars "_" ++ printNat (nextSerial n) in
  startPlan lib n (startArgs callee ps) =
  (nextSerial n, if lib callee args
                 then [PPlan {| w_id := name; w_exit := (chars "ExitPlan", [name]); w_callee := callee; w_aliases := args |}; PReturn name; PAck true; PNotify]
                 else [PAck false; PNotify]).
Proof.
  intros NE NN ND F. destruct (makeAliases_ok ps) as (m & M & FM); [eapply Forall_impl; [|exact F]; cbn; tauto|]. exists m.
  assert (MC : map (fun p => cstr (fst p)) ps = map fst ps) by (apply map_ext_in; intros p I; rewrite Forall_forall in F; apply cstr_noNul; apply (F p I)).
  split. { clear - F FM. induction FM as [|p q r s [A B] FM IH]; constructor; inversion F as [|? ? (F1 & F2 & F3) F4]; subst; [|auto]. split; [|exact B]. rewrite A. apply cstr_noNul. exact F2. }
  cbv zeta. set (k := nextSerial n). assert (K : 0 <= k) by apply nextSerial_range. change (callee ++ chars "_" ++ printNat k) with (callerName callee k).
  unfold startPlan, startArgs. cbn [planName tl]. rewrite pairs_args by (eapply Forall_impl; [|exact F]; intros p (_ & _ & P); destruct (snd p) as [|[]| |]; try contradiction; reflexivity).
  fold k. rewrite (cstr_noNul (callerName callee k)) by (apply callerName_noNul; assumption). rewrite (cstr_noNul callee NN).
  unfold addPlan. rewrite readPlan_wrapper, M.
  assert (E1 : streq (callerName callee k) [] = false) by (apply streq_false; unfold callerName; destruct callee; discriminate). assert (E2 : streq callee [] = false) by (apply streq_false; exact NE).
  assert (CA : checkAliases [] (map aliasXml ps) = true).
  { apply checkAliases_map. rewrite MC. split; [exact ND|]. eapply Forall_impl; [|exact F]. intros p (A & B & C). rewrite (cstr_noNul _ B). split; [exact A|]. split; [exact (fun H => H)|].
    destruct (snd p) as [|[]| |]; try contradiction; reflexivity. }
  rewrite E1, E2, CA. cbn [negb andb w_callee w_aliases]. destruct (lib callee m); reflexivity.
Qed.
(** Whatever the arguments: either the command fails and nothing else happens, or the four things happen, in this order, and the arguments were a library's
    name and known values under different names. *)
Theorem C70_all_or_nothing lib n args : snd (startPlan lib n args) = [PAck false; PNotify] \/
  exists callee ps w, let name := callee ++ chars "_" ++ printNat (nextSerial n) in
  startPlan lib n args = (nextSerial n, [PPlan w; PReturn name; PAck true; PNotify]) /\ args = startArgs callee ps /\ Forall (fun p => isKnown (snd p) = true) ps
  /\ lib (w_callee w) (w_aliases w) = true /\ (noNul callee -> w_id w = name /\ w_callee w = callee /\ w_exit w = (chars "ExitPlan", [name]))
  /\ (Forall (fun p : str * lval => noNul (fst p)) ps -> map fst (w_aliases w) = map fst ps /\ NoDup (map fst ps)).
Proof.
  unfold startPlan. destruct (planName args) as [callee|] eqn:PN; [|now left]. destruct (pairs (tl args)) as [ps|] eqn:PS; [|now left].
  destruct (addPlan _ _) as [w|] eqn:AP; [|now left]. right. exists callee, ps, w. destruct args as [|a args]; [discriminate|]. cbn [planName] in PN. destruct a as [|[| | |s]| |]; try discriminate. injection PN as ->.
  cbn [tl] in PS. destruct (pairs_inv _ _ PS) as [-> K]. cbv zeta. split; [reflexivity|]. split; [reflexivity|]. split; [exact K|]. unfold addPlan in AP. rewrite readPlan_wrapper in AP.
  destruct (_ && _ && _) eqn:C; [|discriminate]. destruct (makeAliases _) as [m|] eqn:M; [|discriminate]. cbn [w_callee w_aliases] in AP. destruct (lib (cstr callee) m) eqn:L; [|discriminate].
  injection AP as <-. cbn [w_callee w_aliases w_id w_exit]. split; [exact L|]. split.
  - intros NN. rewrite (cstr_noNul callee NN), cstr_noNul by (apply callerName_noNul; [apply nextSerial_range|exact NN]). auto.
  - intros NF. apply andb_prop in C as [_ C]. apply checkAliases_map in C as [D _]. assert (MC : map (fun p => cstr (fst p)) ps = map fst ps) by (apply map_ext_in; intros p I; rewrite Forall_forall in NF; apply cstr_noNul; apply (NF p I)).
    rewrite MC in D. split; [|exact D]. rewrite <- MC. apply makeAliases_names in M. clear - M. induction M as [|p q r s [A _] M IH]; [reflexivity|]. cbn [map]. rewrite A, IH. reflexivity.
Qed.
(** A library's name, the names of the values, the number of arguments: refused if wrong. *)
Theorem C70_bad_arguments lib n args : (forall callee ps, args = startArgs callee ps -> ~ Forall (fun p => isKnown (snd p) = true) ps) -> startPlan lib n args = (n, [PAck false; PNotify]).
Proof.
  intros H. unfold startPlan. destruct (planName args) as [callee|] eqn:PN; [|reflexivity]. destruct (pairs (tl args)) as [ps|] eqn:PS; [|reflexivity]. exfalso.
  destruct args as [|a args]; [discriminate|]. cbn [planName] in PN. destruct a as [|[| | |s]| |]; try discriminate. injection PN as ->. destruct (pairs_inv _ _ PS) as [E K]. cbn [tl] in E. subst args.
  exact (H callee ps eq_refl K).
Qed.
(** All the names given by any number of commands, less than 2^32, are different. *)
Fixpoint starts (lib : str -> list (str * lval) -> bool) (n : Z) (cmds : list (list lval)) : list post :=
  match cmds with [] => [] | c :: r => let '(n', out) := startPlan lib n c in out ++ starts lib n' r end.
Definition returned (l : list post) : list str := flat_map (fun p => match p with PReturn s => [s] | _ => [] end) l.
Lemma start_serial lib n args : fst (startPlan lib n args) = n \/ fst (startPlan lib n args) = nextSerial n.
Proof. unfold startPlan. destruct (planName args); [|now left]. destruct (pairs (tl args)); [|now left]. destruct (addPlan _ _); now right. Qed.
Lemma starts_names lib cmds : forall n, 0 <= n -> n + Z.of_nat (length cmds) < 2 ^ 32 ->
  NoDup (returned (starts lib n cmds)) /\ Forall (fun s => exists a k, s = callerName a k /\ n < k < 2 ^ 32) (returned (starts lib n cmds)).
Proof.
  induction cmds as [|c r IH]; intros n N L; cbn [starts returned flat_map]; [split; constructor|]. cbn [length] in L.
  assert (NS : nextSerial n = n + 1) by (unfold nextSerial; apply Z.mod_small; lia).
  destruct (startPlan lib n c) as [n' out] eqn:SP. pose proof (start_serial lib n c) as SS. rewrite SP in SS. cbn [fst] in SS.
  destruct (IH n' ltac:(destruct SS; lia) ltac:(destruct SS; lia)) as [D F].
  assert (F' : Forall (fun s => exists a k, s = callerName a k /\ n < k < 2 ^ 32) (returned (starts lib n' r))).
  { eapply Forall_impl; [|exact F]. intros s (a & k & E & K). exists a, k. split; [exact E|]. destruct SS; lia. }
  unfold returned in *. rewrite flat_map_app. destruct (C70_all_or_nothing lib n c) as [B|(callee & ps & w & B & _)]; cbv zeta in B; rewrite SP in B.
  - cbn [snd] in B. subst out. cbn [flat_map app]. auto.
  - injection B as -> ->. cbn [flat_map app]. rewrite NS in *. split.
    + constructor; [|exact D]. intros I. rewrite Forall_forall in F. destruct (F _ I) as (a & k & E & K). change (callee ++ chars "_" ++ printNat (n + 1)) with (callerName callee (n + 1)) in E.
      apply callerName_inj in E as [_ E]; lia.
    + constructor; [|exact F']. exists callee, (n + 1). split; [reflexivity|lia].
Qed.
Theorem C70_names_differ lib cmds : Z.of_nat (length cmds) < 2 ^ 32 -> NoDup (returned (starts lib 0 cmds)).
Proof. intros L. apply (starts_names lib cmds 0); lia. Qed.
(** ExitPlan(name): succeeds just if one plan has that name, and then ExitPlan(name) becomes true. *)
Theorem C70_exit_plan roots args :
  (exists name, args = [LvS (SS name)] /\ count_occ str_eq_dec roots name = 1%nat /\ exitPlan roots args = [PValue "ExitPlan" name (LvS (SB true)); PAck true; PNotify])
  \/ ((forall name, args = [LvS (SS name)] -> count_occ str_eq_dec roots name <> 1%nat) /\ exitPlan roots args = [PAck false; PNotify]).
Proof.
  assert (CO : forall name, count_occ str_eq_dec roots name = length (filter (streq name) roots)).
  { intros name. induction roots as [|x r IH]; [reflexivity|]. cbn [count_occ filter]. unfold streq at 1. destruct (str_eq_dec x name) as [->|N]; destruct (str_eq_dec name _); try congruence; cbn [length]; congruence. }
  unfold exitPlan. destruct (planName args) as [name|] eqn:PN; [|right; split; [intros nm ->; discriminate|reflexivity]].
  destruct args as [|a [|b r]]; [discriminate| |right; split; [discriminate|reflexivity]]. cbn [planName] in PN. destruct a as [|[| | |s]| |]; try discriminate. injection PN as ->.
  unfold findNode. specialize (CO name). destruct (filter (streq name) roots) as [|y [|z l]]; cbn [length] in CO.
  - right. split; [intros nm [= <-]; lia|reflexivity].
  - left. exists name. auto.
  - right. split; [intros nm [= <-]; lia|reflexivity].
Qed.
(** ExitPlan with the name StartPlan returned: it makes true what the exit condition of the plan that was added looks up. *)
Theorem C70_exit_started lib n n' callee ps w name roots : noNul callee -> startPlan lib n (startArgs callee ps) = (n', [PPlan w; PReturn name; PAck true; PNotify]) ->
  count_occ str_eq_dec roots (w_id w) = 1%nat ->
  exists state arg, w_exit w = (chars state, [arg]) /\ exitPlan roots [LvS (SS name)] = [PValue state arg (LvS (SB true)); PAck true; PNotify].
Proof.
  intros NN SP RO. destruct (C70_all_or_nothing lib n (startArgs callee ps)) as [B|(c & qs & w' & B & E & _ & _ & W & _)]; cbv zeta in *.
  - rewrite SP in B. discriminate.
  - rewrite SP in B. injection B as _ <- ->. injection E as <- _. destruct (W NN) as (I & _ & X). rewrite X. exists "ExitPlan"%string. eexists. split; [reflexivity|].
    destruct (C70_exit_plan roots [LvS (SS (callee ++ chars "_" ++ printNat (nextSerial n)))]) as [(nm & [= <-] & _ & P)|[P _]]; [exact P|]. elim (P _ eq_refl). rewrite <- I. exact RO.
Qed.
(** No array can be passed. *)
Theorem C70_array_refuted lib n callee ps name t l : In (name, LvA t l) ps -> snd (startPlan lib n (startArgs callee ps)) = [PAck false; PNotify].
Proof.
  intros I. unfold startPlan, startArgs. cbn [planName tl]. destruct (pairs _) as [qs|] eqn:P; [|reflexivity].
  assert (qs = ps).
  { destruct (pairs_inv _ _ P) as [E _]. clear - E. revert qs E. induction ps as [|[f v] r IH]; intros [|[g w] s] E; try discriminate; [reflexivity|]. cbn [flat_map app fst snd] in E. injection E as -> -> E. f_equal. auto. }
  subst qs. unfold addPlan. rewrite readPlan_wrapper. destruct (_ && _ && _); [|reflexivity]. destruct (makeAliases _) as [m|] eqn:M; [|reflexivity]. exfalso.
  apply makeAliases_names in M. clear P. induction M as [|p q r s [A B] M IH]; [destruct I|]. destruct I as [->|I]; [|exact (IH I)]. cbn [snd] in B. rewrite createLiteral_array in B. discriminate.
Qed.
(** Nor can these command handles; a Real may arrive as another; a name with a NUL is not the name of the plan; after 2^32 plans the names begin again. *)
Theorem C70_handle_refuted : Forall (fun i => forall lib n, snd (startPlan lib n (startArgs (chars "A") [(chars "x", LvN KHandle i)])) = [PAck false; PNotify]) [7; 8; 9]%nat.
Proof. repeat constructor; intros; reflexivity. Qed.
Theorem C70_real_refuted : exists x y : fl, B2R x <> B2R y /\ exists w name, startPlan (fun _ _ => true) 0 (startArgs (chars "A") [(chars "x", LvS (SR x))]) = (1, [PPlan w; PReturn name; PAck true; PNotify])
  /\ w_aliases w = [(chars "x", LvS (SR y))].
Proof.
  destruct C63_print_real_refuted as (x & y & F & V & P & R & N). destruct (C63_real_literal _ _ R) as (z & L & ZV & _). exists x, z. split; [congruence|].
  destruct (makeAliases (map aliasXml [(chars "x", LvS (SR x))])) as [m|] eqn:M.
  2:{ exfalso. rewrite makeAliases_map in M. cbn [snd fst valueXml] in M. rewrite createLiteral_scalar, scalar_clean in M by discriminate. cbn [litOf scalarText allocLit] in M. rewrite R in M. discriminate M. }
  eexists. eexists. unfold startPlan, startArgs. cbn [planName tl]. rewrite pairs_args by (repeat constructor). unfold addPlan. rewrite readPlan_wrapper, M.
  change (checkAliases [] (map aliasXml [(chars "x", LvS (SR x))])) with true. split; [reflexivity|]. cbn [w_aliases].
  rewrite makeAliases_map in M. cbn [snd fst valueXml] in M. rewrite createLiteral_scalar, scalar_clean in M by discriminate. cbn [litOf scalarText] in M.
  assert (AL : allocLit LReal (printReal x) = Some (Some (SR z))) by (unfold literal in L; destruct (streq (printReal x) []); [discriminate|exact L]). rewrite AL in M. cbn [option_map] in M. injection M as <-. reflexivity.
Qed.
Theorem C70_nul_refuted : exists w name, startPlan (fun _ _ => true) 0 (startArgs [65; 0; 66] []) = (1, [PPlan w; PReturn name; PAck true; PNotify]) /\ w_id w = [65] /\ w_callee w = [65] /\ name = [65; 0; 66; 95; 49].
Proof. eexists. eexists. split; [vm_compute; reflexivity|]. repeat split. Qed.
Lemma serial_iter k n : 0 <= n < 2 ^ 32 -> Nat.iter k nextSerial n = (n + Z.of_nat k) mod 2 ^ 32.
Proof.
  intros R. induction k as [|k IH]; [cbn [Nat.iter nat_rect]; rewrite Z.mod_small; lia|]. change (Nat.iter (S k) nextSerial n) with (nextSerial (Nat.iter k nextSerial n)). rewrite IH. unfold nextSerial.
  rewrite Zplus_mod_idemp_l. f_equal. lia.
Qed.
Lemma starts_repeat lib c callee : (forall n, exists w, startPlan lib n c = (nextSerial n, [PPlan w; PReturn (callerName callee (nextSerial n)); PAck true; PNotify])) ->
  forall k n, returned (starts lib n (repeat c k)) = map (fun i => callerName callee (Nat.iter (S i) nextSerial n)) (seq 0 k).
Proof.
  intros H. induction k as [|k IH]; intros n; [reflexivity|]. cbn [repeat starts]. destruct (H n) as (w & ->). unfold returned. rewrite flat_map_app. fold (returned (starts lib (nextSerial n) (repeat c k))).
  rewrite IH. cbn [flat_map app seq map]. f_equal. rewrite <- seq_shift, map_map. apply map_ext. intros i. f_equal.
  change (Nat.iter (S (S i)) nextSerial n) with (nextSerial (Nat.iter (S i) nextSerial n)). induction i as [|i IHi]; [reflexivity|].
  change (Nat.iter (S (S i)) nextSerial (nextSerial n)) with (nextSerial (Nat.iter (S i) nextSerial (nextSerial n))). rewrite IHi. reflexivity.
Qed.
Theorem C70_wrap_refuted : exists lib c, ~ NoDup (returned (starts lib 0 (repeat c (S (Z.to_nat (2 ^ 32)))))).
Proof.
  exists (fun _ _ => true), (startArgs (chars "A") []). rewrite (starts_repeat _ _ (chars "A")).
  2:{ intros n. destruct (C70_start_plan (fun _ _ => true) n (chars "A") []) as (args & _ & E); [discriminate|vm_compute; intuition discriminate|constructor|constructor|]. cbv zeta in E. rewrite E. eexists. reflexivity. }
  assert (ZK : Z.of_nat (Z.to_nat (2 ^ 32)) = 2 ^ 32) by (apply Z2Nat.id; lia). set (K := Z.to_nat (2 ^ 32)) in *. clearbody K. intros D.
  set (f := fun i => callerName (chars "A") (Nat.iter (S i) nextSerial 0)) in *. assert (E : f O = f K).
  { unfold f. rewrite !serial_iter by lia. f_equal. rewrite !Nat2Z.inj_succ, ZK. reflexivity. }
  assert (LK : (K > 0)%nat) by lia. rewrite (NoDup_nth _ (f O)) in D. specialize (D O K). rewrite map_length, seq_length in D. specialize (D ltac:(lia) ltac:(lia)).
  rewrite !map_nth, !seq_nth in D by lia. cbn [plus] in D. specialize (D E). lia.
Qed.
Theorem C70_example : startPlan (fun callee args => streq callee (chars "Drive")) 6 (startArgs (chars "Drive") [(chars "speed", LvS (SI 3)); (chars "who", LvS (SS (chars "me")))])
  = (7, [PPlan {| w_id := chars "Drive_7"; w_exit := (chars "ExitPlan", [chars "Drive_7"]); w_callee := chars "Drive"; w_aliases := [(chars "speed", LvS (SI 3)); (chars "who", LvS (SS (chars "me")))] |};
         PReturn (chars "Drive_7"); PAck true; PNotify])
  /\ exitPlan [chars "Main"; chars "Drive_7"] [LvS (SS (chars "Drive_7"))] = [PValue "ExitPlan" (chars "Drive_7") (LvS (SB true)); PAck true; PNotify].
Proof. vm_compute. auto. Qed.

(** ** C71 *)
Lemma lastValue_app name arg a b : lastValue name arg (a ++ b) = match lastValue name arg b with Some v => Some v | None => lastValue name arg a end.
Proof. induction a as [|p a IH]; cbn [app lastValue]; [destruct (lastValue name arg b); reflexivity|]. rewrite IH. destruct (lastValue name arg b); reflexivity. Qed.
Definition reportT (t : trans) : list post := if t_root t then reportOne t else [].
Lemma report_concat name id hist : lastValue name id (flat_map report hist) = lastValue name id (flat_map reportT (concat hist)).
Proof.
  induction hist as [|l r IH]; [reflexivity|]. cbn [flat_map concat]. rewrite flat_map_app, !lastValue_app, IH. destruct (lastValue name id (flat_map reportT (concat r))); [reflexivity|].
  unfold report. rewrite lastValue_app. assert (N : lastValue name id (match filter t_root l with [] => [] | _ => [PNotify] end) = None) by (destruct (filter t_root l); reflexivity). rewrite N.
  f_equal. clear. induction l as [|t l IH]; [reflexivity|]. cbn [filter flat_map]. unfold reportT at 1. destruct (t_root t); [cbn [flat_map]|]; rewrite IH; reflexivity.
Qed.
Lemma report_last (p : trans -> Prop) (val : trans -> lval) name id hist : (forall t, p t -> lastValue name id (reportT t) = Some (val t)) -> (forall t, ~ p t -> lastValue name id (reportT t) = None) ->
  (forall t, isLast p (concat hist) t -> lastValue name id (flat_map report hist) = Some (val t)) /\ (Forall (fun t => ~ p t) (concat hist) -> lastValue name id (flat_map report hist) = None).
Proof.
  intros Y N. rewrite report_concat. assert (G : forall l, Forall (fun t => ~ p t) l -> lastValue name id (flat_map reportT l) = None).
  { induction 1 as [|t l P F IH]; [reflexivity|]. cbn [flat_map]. rewrite lastValue_app, IH. apply N. exact P. }
  split; [|apply G]. intros t (b & a & -> & P & F). rewrite flat_map_app. cbn [flat_map]. rewrite !lastValue_app, (G a F), (Y t P). reflexivity.
Qed.
Lemma eqs_refl (s : str) : (if str_eq_dec s s then true else false) = true.
Proof. destruct (str_eq_dec s s); congruence. Qed.
Ltac rep t := unfold reportT, reportOne; destruct (t_root t); [|first [reflexivity|discriminate]]; destruct (t_outcome t =? 0)%nat eqn:?; [|destruct (t_failure t =? 0)%nat eqn:?];
  cbn [lastValue setBy]; repeat match goal with |- context [(?a =? ?b)%string] => let c := eval vm_compute in (a =? b)%string in change (a =? b)%string with c end; cbn [andb].
(** PlanState(id) is the state the plan entered last. *)
Theorem C71_state hist id :
  (forall t, isLast (ofPlan id) (concat hist) t -> lastValue "PlanState" id (flat_map report hist) = Some (LvS (SS (nameOf stateNames (t_new t)))))
  /\ (Forall (fun t => ~ ofPlan id t) (concat hist) -> lastValue "PlanState" id (flat_map report hist) = None).
Proof.
  apply report_last.
  - intros t [R <-]. rep t; rewrite ?eqs_refl; reflexivity.
  - intros t N. destruct (t_root t) eqn:R; [|unfold reportT; rewrite R; reflexivity]. assert (D : t_id t <> id) by (intros E; apply N; split; assumption). rep t; destruct (str_eq_dec (t_id t) id); congruence || reflexivity.
Qed.
(** PlanOutcome(id) is the outcome the plan had when a transition of it was last reported with one. *)
Theorem C71_outcome hist id :
  (forall t, isLast (fun u => ofPlan id u /\ t_outcome u <> 0%nat) (concat hist) t -> lastValue "PlanOutcome" id (flat_map report hist) = Some (LvS (SS (nameOf outcomeNames (t_outcome t)))))
  /\ (Forall (fun u => ~ (ofPlan id u /\ t_outcome u <> 0%nat)) (concat hist) -> lastValue "PlanOutcome" id (flat_map report hist) = None).
Proof.
  apply (report_last (fun u => ofPlan id u /\ t_outcome u <> 0%nat)).
  - intros t [[R <-] O]. unfold reportT. rewrite R. apply Nat.eqb_neq in O. unfold reportOne. rewrite O. destruct (t_failure t =? 0)%nat; cbn [lastValue setBy String.eqb Ascii.eqb Bool.eqb andb]; rewrite ?eqs_refl; reflexivity.
  - intros t N. destruct (t_root t) eqn:R; [|unfold reportT; rewrite R; reflexivity]. assert (D : t_outcome t = 0%nat \/ t_id t <> id) by (destruct (Nat.eq_dec (t_outcome t) 0); [now left|right; intros E; apply N; repeat split; assumption]).
    unfold reportT, reportOne. rewrite R. destruct D as [-> |D]; [reflexivity|]. destruct (t_outcome t =? 0)%nat; [|destruct (t_failure t =? 0)%nat];
      cbn [lastValue setBy String.eqb Ascii.eqb Bool.eqb andb]; destruct (str_eq_dec (t_id t) id); congruence || reflexivity.
Qed.
Theorem C71_failure hist id : let p := fun u => ofPlan id u /\ t_outcome u <> 0%nat /\ t_failure u <> 0%nat in
  (forall t, isLast p (concat hist) t -> lastValue "PlanFailureType" id (flat_map report hist) = Some (LvS (SS (nameOf failureNames (t_failure t)))))
  /\ (Forall (fun u => ~ p u) (concat hist) -> lastValue "PlanFailureType" id (flat_map report hist) = None).
Proof.
  intros p. apply (report_last p).
  - intros t ([R <-] & O & F). unfold reportT. rewrite R. apply Nat.eqb_neq in O. apply Nat.eqb_neq in F. unfold reportOne. rewrite O, F. cbn [lastValue setBy String.eqb Ascii.eqb Bool.eqb andb]. rewrite ?eqs_refl. reflexivity.
  - intros t N. destruct (t_root t) eqn:R; [|unfold reportT; rewrite R; reflexivity].
    assert (D : t_outcome t = 0%nat \/ t_failure t = 0%nat \/ t_id t <> id).
    { destruct (Nat.eq_dec (t_outcome t) 0); [now left|right]. destruct (Nat.eq_dec (t_failure t) 0); [now left|right]. intros E; apply N; repeat split; assumption. }
    unfold reportT, reportOne. rewrite R. destruct D as [-> |[-> |D]]; [reflexivity|destruct (t_outcome t =? 0)%nat; reflexivity|]. destruct (t_outcome t =? 0)%nat; [|destruct (t_failure t =? 0)%nat];
      cbn [lastValue setBy String.eqb Ascii.eqb Bool.eqb andb]; destruct (str_eq_dec (t_id t) id); congruence || reflexivity.
Qed.
(** The executive is woken once for each report of a root's transition, after the values, and not for others; nothing else is said. *)
Theorem C71_notify l : (Exists (fun t => t_root t = true) l -> exists vs, report l = vs ++ [PNotify] /\ Forall (fun p => exists n a v, p = PValue n a v) vs)
  /\ (Forall (fun t => t_root t = false) l -> report l = []).
Proof.
  split.
  - intros E. unfold report. exists (flat_map reportOne (filter t_root l)). split.
    + apply Exists_exists in E as (t & I & R). destruct (filter t_root l) eqn:F; [|reflexivity]. assert (J : In t (filter t_root l)) by (apply filter_In; auto). rewrite F in J. destruct J.
    + apply Forall_forall. intros p I. apply in_flat_map in I as (t & _ & I). unfold reportOne in I. destruct I as [<- |I]; [eauto|]. destruct (t_outcome t =? 0)%nat; [destruct I|]. destruct I as [<- |I]; [eauto|].
      destruct (t_failure t =? 0)%nat; [destruct I|]. destruct I as [<- |[]]. eauto.
  - intros F. unfold report. assert (N : filter t_root l = []) by (induction F as [|t r H F IH]; [reflexivity|]; cbn [filter]; rewrite H; exact IH). rewrite N. reflexivity.
Qed.
(** The values reported of a plan that has just finished are its own. *)
Theorem C71_finished hist id t : isLast (ofPlan id) (concat hist) t -> t_outcome t <> 0%nat ->
  lastValue "PlanState" id (flat_map report hist) = Some (LvS (SS (nameOf stateNames (t_new t))))
  /\ lastValue "PlanOutcome" id (flat_map report hist) = Some (LvS (SS (nameOf outcomeNames (t_outcome t))))
  /\ (t_failure t <> 0%nat -> lastValue "PlanFailureType" id (flat_map report hist) = Some (LvS (SS (nameOf failureNames (t_failure t))))).
Proof.
  intros L O. split; [apply C71_state; exact L|]. destruct L as (b & a & E & P & F). split.
  - apply C71_outcome. exists b, a. split; [exact E|]. split; [auto|]. eapply Forall_impl; [|exact F]. cbn. tauto.
  - intros X. apply C71_failure. exists b, a. split; [exact E|]. split; [auto|]. eapply Forall_impl; [|exact F]. cbn. tauto.
Qed.
(** But a plan that repeats keeps the outcome of its last iteration, and a failure that is long past: here it failed, began again, and then succeeded. *)
Theorem C71_stale_refuted : let id := chars "A" in
  let failedFirst := [mkTrans true id 5 2 2] in let again := [mkTrans true id 2 0 0] in let succeeded := [mkTrans true id 5 1 0] in
  (lastValue "PlanState" id (flat_map report [failedFirst; again]) = Some (LvS (SS (chars "WAITING")))
   /\ lastValue "PlanOutcome" id (flat_map report [failedFirst; again]) = Some (LvS (SS (chars "FAILURE"))))
  /\ lastValue "PlanOutcome" id (flat_map report [failedFirst; again; succeeded]) = Some (LvS (SS (chars "SUCCESS")))
  /\ lastValue "PlanFailureType" id (flat_map report [failedFirst; again; succeeded]) = Some (LvS (SS (chars "POST_CONDITION_FAILED"))).
Proof. vm_compute. auto. Qed.
(** Two plans of the same name cannot be told apart. *)
Theorem C71_same_name_refuted : exists t u, t <> u /\ t_id t = t_id u /\ t_root t = true /\ t_root u = true /\
  lastValue "PlanState" (t_id t) (report [t; u]) = Some (LvS (SS (nameOf stateNames (t_new u)))) /\ t_new t <> t_new u.
Proof. exists (mkTrans true (chars "A") 3 0 0), (mkTrans true (chars "A") 5 1 0). split; [discriminate|]. vm_compute. repeat split; discriminate. Qed.
Theorem C71_example : report [mkTrans true (chars "A") 3 0 0; mkTrans false (chars "B") 2 0 0; mkTrans true (chars "C") 5 2 1]
  = [PValue "PlanState" (chars "A") (LvS (SS (chars "EXECUTING"))); PValue "PlanState" (chars "C") (LvS (SS (chars "FINISHED"))); PValue "PlanOutcome" (chars "C") (LvS (SS (chars "FAILURE")));
     PValue "PlanFailureType" (chars "C") (LvS (SS (chars "PRE_CONDITION_FAILED"))); PNotify].
Proof. vm_compute. reflexivity. Qed.

(** Assumptions *)
Print Assumptions C70_start_plan.
Print Assumptions C70_all_or_nothing.
Print Assumptions C70_bad_arguments.
Print Assumptions C70_names_differ.
Print Assumptions C70_exit_plan.
Print Assumptions C70_exit_started.
Print Assumptions C70_array_refuted.
Print Assumptions C70_handle_refuted.
Print Assumptions C70_real_refuted.
Print Assumptions C70_nul_refuted.
Print Assumptions C70_wrap_refuted.
Print Assumptions C70_example.
Print Assumptions C71_state.
Print Assumptions C71_outcome.
Print Assumptions C71_failure.
Print Assumptions C71_notify.
Print Assumptions C71_finished.
Print Assumptions C71_stale_refuted.
Print Assumptions C71_same_name_refuted.
Print Assumptions C71_example.
