(** C64: requests go to the handler in force and errors are reported.  C65: listeners are told everything, in order. *)
From Coq Require Import ZArith List Bool String Lia.
From Verif Require Import ValueModel FloatModel TypeModel UdpQueueModel LitModel LitSpec LitProofs LitProps DispModel DispSpec.
Import ListNotations.
Open Scope Z_scope.

(** ** The handler in force *)
Definition lastOpt {A} (g : reg -> option A) (h : list reg) : option A := fold_left (fun a r => match g r with Some x => Some x | None => a end) h None.
Lemma lastOpt_snoc {A} (g : reg -> option A) h r : lastOpt g (h ++ [r]) = match g r with Some x => Some x | None => lastOpt g h end.
Proof. unfold lastOpt. rewrite fold_left_app. reflexivity. Qed.
Lemma last_snoc {A} (gives : reg -> A -> Prop) h r x : last gives (h ++ [r]) x <-> gives r x \/ (forall y, ~ gives r y) /\ last gives h x.
Proof.
  split.
  - intros (h1 & r1 & h2 & E & G & N). destruct h2 as [|a h2] using rev_ind.
    + apply app_inj_tail in E as [_ <-]. left. exact G.
    + clear IHh2. rewrite app_comm_cons, app_assoc in E. apply app_inj_tail in E as [-> ->]. right. split; [intros y; apply N; apply in_or_app; right; left; reflexivity|].
      exists h1, r1, h2. split; [reflexivity|]. split; [exact G|]. intros r' y I. apply N. apply in_or_app. left. exact I.
  - intros [G|[N (h1 & r1 & h2 & -> & G & N2)]].
    + exists h, r, []. split; [reflexivity|]. split; [exact G|]. intros r' y [].
    + exists h1, r1, (h2 ++ [r]). split; [rewrite <- app_assoc; reflexivity|]. split; [exact G|]. intros r' y I. apply in_app_or in I as [I|[<-|[]]]; [exact (N2 r' y I)|exact (N y)].
Qed.
Lemma never_snoc {A} (gives : reg -> A -> Prop) h r : never gives (h ++ [r]) <-> never gives h /\ forall y, ~ gives r y.
Proof.
  split.
  - intros N. split; [intros r' y I; apply N; apply in_or_app; left; exact I|intros y; apply N; apply in_or_app; right; left; reflexivity].
  - intros [N M] r' y I. apply in_app_or in I as [I|[<-|[]]]; [exact (N r' y I)|exact (M y)].
Qed.
Lemma last_never {A} (gives : reg -> A -> Prop) h x : last gives h x -> never gives h -> False.
Proof. intros (h1 & r & h2 & -> & G & _) N. apply (N r x); [apply in_or_app; right; left; reflexivity|exact G]. Qed.
Lemma lastOpt_spec {A} (g : reg -> option A) (gives : reg -> A -> Prop) : (forall r x, g r = Some x <-> gives r x) ->
  forall h, (forall x, lastOpt g h = Some x <-> last gives h x) /\ (lastOpt g h = None <-> never gives h).
Proof.
  intros GS h. induction h as [|r h [IH1 IH2]] using rev_ind.
  - split; [intros x; split; [discriminate|]; intros (h1 & r & h2 & E & _); destruct h1; discriminate E|]. split; [intros _ r y []|reflexivity].
  - rewrite lastOpt_snoc. destruct (g r) as [y|] eqn:E.
    + assert (G : gives r y) by (apply GS; exact E). split.
      * intros x. rewrite last_snoc. split; [intros [= <-]; left; exact G|]. intros [H|[N _]]; [apply GS in H; congruence|destruct (N y G)].
      * rewrite never_snoc. split; [discriminate|]. intros [_ N]. destruct (N y G).
    + assert (N : forall y, ~ gives r y) by (intros y H; apply GS in H; congruence). split; [intros x; rewrite last_snoc, IH1|rewrite never_snoc, IH2]; firstorder.
Qed.
Definition gC (n : str) (r : reg) : option chandler :=
  match r with RegCmd h names => if in_dec str_eq_dec n names then Some h else None | RegCmd1 h m => if str_eq_dec n m then Some h else None | _ => None end.
Definition gL (n : str) (r : reg) : option lhandler :=
  match r with RegLk h names => if in_dec str_eq_dec n names then Some h else None | RegLk1 h m => if str_eq_dec n m then Some h else None | _ => None end.
Lemma gC_spec n r x : gC n r = Some x <-> givesCommand n r x.
Proof.
  split; [destruct r; cbn; try discriminate; [destruct (in_dec str_eq_dec n names)|destruct (str_eq_dec n name)]; try discriminate; intros [= ->]; subst; now constructor|].
  intros H. destruct H; cbn; [destruct (in_dec str_eq_dec n names)|destruct (str_eq_dec n n)]; congruence.
Qed.
Lemma gL_spec n r x : gL n r = Some x <-> givesLookup n r x.
Proof.
  split; [destruct r; cbn; try discriminate; [destruct (in_dec str_eq_dec n names)|destruct (str_eq_dec n name)]; try discriminate; intros [= ->]; subst; now constructor|].
  intros H. destruct H; cbn; [destruct (in_dec str_eq_dec n names)|destruct (str_eq_dec n n)]; congruence.
Qed.
Lemma put_many {A} (v : A) names : forall (m : str -> option A) n, fold_left (fun m k => put m k v) names m n = if in_dec str_eq_dec n names then Some v else m n.
Proof.
  induction names as [|a r IH]; intros m n; cbn [fold_left]; [destruct (in_dec _ _ _) as [[]|]; reflexivity|]. rewrite IH. unfold put.
  destruct (in_dec str_eq_dec n r) as [I|I], (in_dec str_eq_dec n (a :: r)) as [J|J], (str_eq_dec n a) as [E|E]; try reflexivity; exfalso; cbn in J; firstorder congruence.
Qed.
Lemma configure_snoc h r : configure (h ++ [r]) = register (configure h) r.
Proof. unfold configure. rewrite fold_left_app. reflexivity. Qed.
Lemma cmap_lastOpt h n : cmap (configure h) n = lastOpt (gC n) h.
Proof.
  induction h as [|r h IH] using rev_ind; [reflexivity|]. rewrite configure_snoc, lastOpt_snoc, <- IH. destruct r; cbn [register gC setCmap setLmap cmap]; try reflexivity.
  - rewrite put_many. destruct (in_dec _ _ _); reflexivity.
  - unfold put. destruct (str_eq_dec n name); reflexivity.
Qed.
Lemma lmap_lastOpt h n : lmap (configure h) n = lastOpt (gL n) h.
Proof.
  induction h as [|r h IH] using rev_ind; [reflexivity|]. rewrite configure_snoc, lastOpt_snoc, <- IH. destruct r; cbn [register gL setCmap setLmap lmap]; try reflexivity.
  - rewrite put_many. destruct (in_dec _ _ _); reflexivity.
  - unfold put. destruct (str_eq_dec n name); reflexivity.
Qed.
Definition gDC (r : reg) : option chandler := match r with DefCmd h => Some h | _ => None end.
Definition gDL (r : reg) : option lhandler := match r with DefLk h => Some h | _ => None end.
Definition gU (r : reg) : option (option nat) := match r with RegUpd n => Some n | _ => None end.
Lemma cdef_lastOpt h : cdef (configure h) = match lastOpt gDC h with Some x => x | None => CBase end.
Proof. induction h as [|r h IH] using rev_ind; [reflexivity|]. rewrite configure_snoc, lastOpt_snoc. destruct r; cbn; auto. Qed.
Lemma ldef_lastOpt h : ldef (configure h) = match lastOpt gDL h with Some x => x | None => LBase end.
Proof. induction h as [|r h IH] using rev_ind; [reflexivity|]. rewrite configure_snoc, lastOpt_snoc. destruct r; cbn; auto. Qed.
Lemma upd_lastOpt h : upd (configure h) = match lastOpt gU h with Some x => x | None => None end.
Proof. induction h as [|r h IH] using rev_ind; [reflexivity|]. rewrite configure_snoc, lastOpt_snoc. destruct r; cbn; auto. Qed.
Lemma inForce_spec {A} (g d : reg -> option A) (gives dflt : reg -> A -> Prop) b h x :
  (forall r x, g r = Some x <-> gives r x) -> (forall r x, d r = Some x <-> dflt r x) ->
  inForce gives dflt b h x <-> match lastOpt g h with Some y => y | None => match lastOpt d h with Some y => y | None => b end end = x.
Proof.
  intros G D. destruct (lastOpt_spec g gives G h) as [G1 G2]. destruct (lastOpt_spec d dflt D h) as [D1 D2]. unfold inForce. rewrite <- G1, <- G2, <- D1, <- D2.
  destruct (lastOpt g h) as [y|]; [|destruct (lastOpt d h) as [y|]]; intuition congruence.
Qed.
Lemma commandInForce_iff h n x : commandInForce h n x <-> commandHandler (configure h) n = x.
Proof.
  unfold commandInForce. rewrite (inForce_spec (gC n) gDC); [|apply gC_spec|intros r y; destruct r; cbn; split; intros E; congruence].
  unfold commandHandler. rewrite cmap_lastOpt, cdef_lastOpt. tauto.
Qed.
Lemma lookupInForce_iff h n x : lookupInForce h n x <-> lookupHandler (configure h) n = x.
Proof.
  unfold lookupInForce. rewrite (inForce_spec (gL n) gDL); [|apply gL_spec|intros r y; destruct r; cbn; split; intros E; congruence].
  unfold lookupHandler. rewrite lmap_lastOpt, ldef_lastOpt. tauto.
Qed.
Lemma updaterInForce_iff h x : updaterInForce h x <-> upd (configure h) = x.
Proof.
  unfold updaterInForce. rewrite (inForce_spec gU (fun _ => None)); [|intros r y; destruct r; cbn; split; intros E; congruence|intros r y; split; [discriminate|intros []]].
  rewrite upd_lastOpt. assert (N : lastOpt (fun _ : reg => @None (option nat)) h = None) by (induction h using rev_ind; [reflexivity|]; rewrite lastOpt_snoc; assumption). rewrite N. tauto.
Qed.
(** There is always exactly one. *)
Theorem C64_in_force h n : (exists! x, commandInForce h n x) /\ (exists! x, lookupInForce h n x) /\ exists! x, updaterInForce h x.
Proof.
  split; [exists (commandHandler (configure h) n)|split; [exists (lookupHandler (configure h) n)|exists (upd (configure h))]];
    (split; [first [apply commandInForce_iff|apply lookupInForce_iff|apply updaterInForce_iff]; reflexivity|]); intros y H;
    first [apply commandInForce_iff in H|apply lookupInForce_iff in H|apply updaterInForce_iff in H]; exact H.
Qed.

(** ** Requests *)
Lemma calls_app a b : calls (a ++ b) = calls a ++ calls b.
Proof. induction a as [|x a IH]; [reflexivity|]. destruct x; cbn; rewrite IH; reflexivity. Qed.
Lemma catch_calls o e : calls [e] = [] -> calls (fst (catch o e)) = calls (fst o).
Proof. intros E. unfold catch. destruct (snd o); cbn [fst]; try reflexivity. rewrite calls_app, E, app_nil_r. reflexivity. Qed.
(** The handler in force is called, once, with the request; no other user code is called. *)
Theorem C64_execute ub h c x : wellBehaved ub -> commandInForce h (c_name c) x ->
  calls (fst (dispatch ub (configure h) (DExec c))) = match x with CUser n | CFun (Some n) _ => [(n, CExec c)] | _ => [] end.
Proof.
  intros W F. apply commandInForce_iff in F. cbn [dispatch]. rewrite F, catch_calls by reflexivity. destruct x as [| |n|[n|] ab]; cbn; try reflexivity; rewrite W; reflexivity.
Qed.
Theorem C64_abort ub h c x : wellBehaved ub -> commandInForce h (c_name c) x ->
  calls (fst (dispatch ub (configure h) (DAbort c))) = match x with CUser n | CFun _ (Some n) => [(n, CAbort c)] | _ => [] end.
Proof.
  intros W F. apply commandInForce_iff in F. cbn [dispatch]. rewrite F, catch_calls by reflexivity. destruct x as [| |n|ex [n|]]; cbn; try reflexivity; rewrite W; reflexivity.
Qed.
Theorem C64_lookup ub h s x hi lo hr lr : wellBehaved ub -> lookupInForce h (s_name s) x ->
  calls (fst (dispatch ub (configure h) (DLookup s))) = match x with LUser n | LFun (Some n) _ _ _ => [(n, CLookup s)] | _ => [] end
  /\ calls (fst (dispatch ub (configure h) (DSetR s hr lr))) = match x with LUser n | LFun _ (Some n) _ _ => [(n, CSetR s hr lr)] | _ => [] end
  /\ calls (fst (dispatch ub (configure h) (DSetI s hi lo))) = match x with LUser n | LFun _ _ (Some n) _ => [(n, CSetI s hi lo)] | _ => [] end
  /\ calls (fst (dispatch ub (configure h) (DClear s))) = match x with LUser n | LFun _ _ _ (Some n) => [(n, CClear s)] | _ => [] end.
Proof.
  intros W F. apply lookupInForce_iff in F. cbn [dispatch]. rewrite F, catch_calls by reflexivity.
  destruct x as [| |n|[n1|] [n2|] [n3|] [n4|]]; cbn; rewrite ?W; auto.
Qed.
Theorem C64_update ub h u x : updaterInForce h x ->
  dispatch ub (configure h) (DUpdate u) = match x with Some n => (Ran n (CUpdate u) :: fst (ub n (CUpdate u)), snd (ub n (CUpdate u))) | None => ([PostUpdateAck u true; Notify], Returns) end.
Proof. intros F. apply updaterInForce_iff in F. cbn [dispatch]. rewrite F. destruct x; reflexivity. Qed.
(** Without any handler, a command succeeds and an abort is acknowledged. *)
Theorem C64_default ub h c : commandInForce h (c_name c) CBase ->
  dispatch ub (configure h) (DExec c) = ([PostAck c COMMAND_SUCCESS; Notify], Returns)
  /\ dispatch ub (configure h) (DAbort c) = ([PostAbortAck c true; Notify], Returns).
Proof. intros F. apply commandInForce_iff in F. cbn [dispatch]. rewrite F. split; reflexivity. Qed.
(** A handler made of an execution function without an abort function acknowledges the abort as the default one does. *)
Theorem C64_no_abort_function ub h c ex : commandInForce h (c_name c) (CFun ex None) ->
  dispatch ub (configure h) (DAbort c) = ([PostAbortAck c true; Notify], Returns).
Proof. intros F. apply commandInForce_iff in F. cbn [dispatch]. rewrite F. destruct ex; reflexivity. Qed.
Theorem C64_unregistered h n : (forall x, ~ In (DefCmd x) h) -> never (givesCommand n) h -> commandInForce h n CBase.
Proof. intros D N. right. split; [exact N|]. right. split; [|reflexivity]. intros r y I ->. exact (D y I). Qed.
Theorem C64_denied ub h c : dispatch ub (configure h) (DDeny c) = ([NowHandle c COMMAND_DENIED], Returns).
Proof. reflexivity. Qed.
(** An error in a handler reaches the plan, not the executive: the command fails with an interface error, the abort is
    refused, the state becomes unknown. *)
Theorem C64_error_reported ub h c s n : 
  (commandInForce h (c_name c) (CUser n) -> snd (ub n (CExec c)) = IfaceErr ->
     dispatch ub (configure h) (DExec c) = (Ran n (CExec c) :: fst (ub n (CExec c)) ++ [NowHandle c COMMAND_INTERFACE_ERROR], Returns))
  /\ (commandInForce h (c_name c) (CUser n) -> snd (ub n (CAbort c)) = IfaceErr ->
     dispatch ub (configure h) (DAbort c) = (Ran n (CAbort c) :: fst (ub n (CAbort c)) ++ [NowAbortAck c false], Returns))
  /\ (lookupInForce h (s_name s) (LUser n) -> snd (ub n (CLookup s)) = IfaceErr ->
     dispatch ub (configure h) (DLookup s) = (Ran n (CLookup s) :: fst (ub n (CLookup s)) ++ [NowUnknown s], Returns)).
Proof.
  split; [|split]; intros F E; [apply commandInForce_iff in F|apply commandInForce_iff in F|apply lookupInForce_iff in F]; cbn [dispatch]; rewrite F; cbn [execBy abortBy lookupBy];
    unfold catch, runUser; cbn [fst snd]; rewrite E; reflexivity.
Qed.
(** Without an error, the handler's own reports are all there is. *)
Theorem C64_no_error ub h c n : commandInForce h (c_name c) (CUser n) -> snd (ub n (CExec c)) <> IfaceErr ->
  dispatch ub (configure h) (DExec c) = (Ran n (CExec c) :: fst (ub n (CExec c)), snd (ub n (CExec c))).
Proof.
  intros F E. apply commandInForce_iff in F. cbn [dispatch]. rewrite F. cbn [execBy]. unfold catch, runUser. cbn [fst snd]. destruct (snd (ub n (CExec c))); congruence.
Qed.
(** Only valid handle values reach the executive. *)
Theorem C64_ack_range c h : queuedAck None h = None /\ exists v, queuedAck (Some c) h = Some (c, v) /\ 1 <= v <= 9 /\ (1 <= h <= 9 -> v = h) /\ (~ 1 <= h <= 9 -> v = COMMAND_INTERFACE_ERROR).
Proof.
  split; [reflexivity|]. cbn [queuedAck]. eexists. split; [reflexivity|]. unfold COMMAND_INTERFACE_ERROR. destruct (Z.leb_spec h 0), (Z.leb_spec 10 h); cbn; lia.
Qed.

(** ** Adapters *)
(** Initialising adapters that all succeed registers their handlers in the order of the adapters: the later adapter wins. *)
Theorem C64_initialize l : Forall (fun a => a_init a = true) l -> initialize config0 l = (configure (flat_map a_regs l), true).
Proof.
  assert (G : forall s, Forall (fun a => a_init a = true) l -> initialize s l = (fold_left register (flat_map a_regs l) s, true)); [|apply G].
  induction l as [|a r IH]; intros s F; [reflexivity|]. inversion F; subst. cbn [initialize flat_map]. rewrite H1, IH by assumption. rewrite fold_left_app. reflexivity.
Qed.
Theorem C64_initialize_fails l1 a l2 : Forall (fun a => a_init a = true) l1 -> a_init a = false ->
  initialize config0 (l1 ++ a :: l2) = (configure (flat_map a_regs (l1 ++ [a])), false).
Proof.
  intros F E. assert (G : forall s, initialize s (l1 ++ a :: l2) = (fold_left register (flat_map a_regs (l1 ++ [a])) s, false)); [|apply G].
  induction F as [|b r B F IH]; intros s; cbn [app initialize flat_map]; [rewrite E, app_nil_r; reflexivity|]. rewrite B, IH, fold_left_app. reflexivity.
Qed.
Theorem C64_start l : (snd (startAll l) = true <-> Forall (fun a => a_start a = true) l)
  /\ (snd (startAll l) = true -> fst (startAll l) = map a_id l)
  /\ (forall l1 a l2, l = l1 ++ a :: l2 -> Forall (fun a => a_start a = true) l1 -> a_start a = false -> startAll l = (map a_id l1 ++ [a_id a], false)).
Proof.
  split; [|split].
  - induction l as [|a r IH]; cbn [startAll]; [split; [constructor|reflexivity]|]. destruct (a_start a) eqn:E.
    + destruct (startAll r) as [t ok]. cbn [snd] in *. rewrite IH. split; [constructor; assumption|]. intros F. inversion F. assumption.
    + split; [discriminate|]. intros F. inversion F. congruence.
  - induction l as [|a r IH]; cbn [startAll]; [reflexivity|]. destruct (a_start a); [|discriminate]. destruct (startAll r) as [t ok]. cbn in *. intros H. rewrite IH by exact H. reflexivity.
  - intros l1 a l2 -> F E. induction F as [|b r B F IH]; cbn [app startAll map]; [rewrite E; reflexivity|]. rewrite B, IH. reflexivity.
Qed.
(** Stopping reaches every adapter once, whether or not it was started. *)
Theorem C64_stop l a : In a l -> In (a_id a) (stopAll l) /\ length (stopAll l) = length l.
Proof. intros I. split; [apply in_map; exact I|apply map_length]. Qed.

(** ** The configuration file *)
Lemma isBlank_spec c : isBlank c = true <-> c = 32 \/ c = 9 \/ c = 10.
Proof. unfold isBlank. rewrite !orb_true_iff, !Z.eqb_eq. tauto. Qed.
Lemma skipBlank_app ws t : blanks ws -> skipBlank (ws ++ t) = skipBlank t.
Proof. induction 1 as [|c r H F IH]; [reflexivity|]. cbn. apply isBlank_spec in H. rewrite H. exact IH. Qed.
Lemma skipBlank_plain c t : c <> 32 -> c <> 9 -> c <> 10 -> skipBlank (c :: t) = c :: t.
Proof. intros A B D. cbn. destruct (isBlank c) eqn:E; [apply isBlank_spec in E; tauto|reflexivity]. Qed.
Lemma toComma_plain a t : plain a -> toComma (a ++ 44 :: t) = Some (a, t).
Proof. induction 1 as [|c r H F IH]; [reflexivity|]. cbn. destruct (Z.eqb_spec c 44); [tauto|]. rewrite IH. reflexivity. Qed.
Lemma toComma_none a we : plain a -> blanks we -> toComma (a ++ we) = None.
Proof.
  intros P B. induction P as [|c r H F IH]; cbn.
  - induction B as [|c r H F IH]; [reflexivity|]. cbn. destruct (Z.eqb_spec c 44); [lia|]. rewrite IH. reflexivity.
  - destruct (Z.eqb_spec c 44); [tauto|]. rewrite IH. reflexivity.
Qed.
Lemma toBlank_plain a we : plain a -> blanks we -> toBlank (a ++ we) = a.
Proof.
  intros P B. induction P as [|c r H F IH]; cbn.
  - destruct B as [|c r H F]; [reflexivity|]. cbn. apply isBlank_spec in H. rewrite H. reflexivity.
  - destruct (isBlank c) eqn:E; [apply isBlank_spec in E; tauto|]. rewrite IH. reflexivity.
Qed.
Lemma commaArgs_text l s : argText l s -> forall f, (length s < f)%nat -> commaArgs f s = l.
Proof.
  induction 1 as [ws B|ws a we B P NE E|ws a l t B P NE A IH]; intros f L; (destruct f as [|f]; [lia|]); cbn [commaArgs].
  - rewrite <- (app_nil_r ws), skipBlank_app by exact B. reflexivity.
  - rewrite skipBlank_app by exact B. destruct a as [|c r]; [congruence|]. inversion P as [|x y Hc Pr]; subst. cbn [app]. rewrite skipBlank_plain by tauto.
    change (c :: r ++ we) with ((c :: r) ++ we). rewrite toComma_none, toBlank_plain by assumption. destruct r; reflexivity.
  - rewrite skipBlank_app by exact B. rewrite !app_length in L. cbn [length] in L.
    assert (S : skipBlank (a ++ 44 :: t) = a ++ 44 :: t).
    { destruct a as [|c r]; [apply skipBlank_plain; lia|]. inversion P; subst. cbn [app]. apply skipBlank_plain; tauto. }
    rewrite S. pose proof (toComma_plain a t P) as C. destruct (a ++ 44 :: t) as [|z r] eqn:E; [destruct a; discriminate E|]. rewrite C, (IH f) by lia. reflexivity.
Qed.
(** A comma-separated list is read as its items. *)
Theorem C64_args l s : argText l s -> parseArgs s = l.
Proof. intros A. unfold parseArgs. apply commaArgs_text; [exact A|lia]. Qed.
(** The configuration is accepted exactly if nothing in it fails; what is built is what is listed, in order. *)
Definition fails (e : element) : bool := match e with EAdapter None | ELibrary false | EListener None => true | _ => false end.
Theorem C64_construct l : existsb fails l = false ->
  constructInterfaces built0 l =
  ({| b_adapters := flat_map (fun e => match e with EAdapter (Some a) => [a] | _ => [] end) l;
      b_listeners := flat_map (fun e => match e with EListener (Some a) => [a] | _ => [] end) l;
      b_libPath := flat_map (fun e => match e with ELibPath t => parseArgs t | _ => [] end) l;
      b_planPath := flat_map (fun e => match e with EPlanPath t => parseArgs t | _ => [] end) l |}, true).
Proof.
  intros F. assert (G : forall b, constructInterfaces b l =
    ({| b_adapters := b_adapters b ++ flat_map (fun e => match e with EAdapter (Some a) => [a] | _ => [] end) l;
        b_listeners := b_listeners b ++ flat_map (fun e => match e with EListener (Some a) => [a] | _ => [] end) l;
        b_libPath := b_libPath b ++ flat_map (fun e => match e with ELibPath t => parseArgs t | _ => [] end) l;
        b_planPath := b_planPath b ++ flat_map (fun e => match e with EPlanPath t => parseArgs t | _ => [] end) l |}, true)); [|apply G].
  induction l as [|e r IH]; intros b; cbn [constructInterfaces flat_map]; [rewrite !app_nil_r; destruct b; reflexivity|].
  cbn [existsb] in F. apply orb_false_elim in F as [E F]. destruct e as [[a|]|tag|[|]|[a|]|t|t|]; try discriminate E; cbn [element1]; rewrite (IH F); cbn; rewrite <- ?app_assoc; reflexivity.
Qed.
Theorem C64_construct_fails l1 e l2 : existsb fails l1 = false -> fails e = true -> constructInterfaces built0 (l1 ++ e :: l2) = (fst (constructInterfaces built0 l1), false).
Proof.
  intros F E. assert (G : forall b, constructInterfaces b (l1 ++ e :: l2) = (fst (constructInterfaces b l1), false)); [|apply G].
  induction l1 as [|a r IH]; intros b; cbn [app constructInterfaces].
  - destruct e as [[?|]|?|[|]|[?|]|?|?|]; try discriminate E; reflexivity.
  - cbn [existsb] in F. apply orb_false_elim in F as [A F]. destruct a as [[?|]|?|[|]|[?|]|?|?|]; try discriminate A; cbn [element1]; apply (IH F).
Qed.

(** ** Listeners *)
Definition isStep (k : hubCall) : bool := match k with HStepComplete => true | _ => false end.
Lemma toldTo_app n a b : toldTo n (a ++ b) = toldTo n a ++ toldTo n b.
Proof. unfold toldTo. rewrite filter_app, map_app. reflexivity. Qed.
Lemma toldTo_pairs n k (g : list note) : toldTo n (map (fun m => (k, m)) g) = if Nat.eqb k n then g else [].
Proof. unfold toldTo. induction g as [|m g IH]; cbn; [destruct (Nat.eqb k n); reflexivity|]. destruct (Nat.eqb k n); cbn; [f_equal; exact IH|exact IH]. Qed.
Definition mine (h : hub) (n : nat) := filter (fun l => Nat.eqb (fst l) n) (h_listeners h).
Lemma toldTo_flat n (g : nat * option (nat -> bool) -> list note) ls :
  toldTo n (flat_map (fun l => map (fun m => (fst l, m)) (g l)) ls) = flat_map g (filter (fun l => Nat.eqb (fst l) n) ls).
Proof.
  induction ls as [|l r IH]; [reflexivity|]. cbn [flat_map filter]. rewrite toldTo_app, toldTo_pairs, IH. destruct (Nat.eqb (fst l) n); reflexivity.
Qed.
Lemma map_flat {A} (x : note) (ls : list (nat * A)) : map (fun l => (fst l, x)) ls = flat_map (fun l => map (fun m => (fst l, m)) [x]) ls.
Proof. induction ls as [|l r IH]; [reflexivity|]. cbn. rewrite IH. reflexivity. Qed.
Definition hasStep (ks : list hubCall) : bool := existsb isStep ks.
Lemma hubRun_told ks : forall h n f, mine h n = [(n, f)] -> ~ In n (listenersOf ks) ->
  let o := toldTo n (snd (hubRun h ks)) in
  transIn o = (if hasStep ks then filter (reports f) (h_trans h ++ transOf (upToStep ks)) else [])
  /\ assignsIn o = (if hasStep ks then h_assigns h ++ assignsOf (upToStep ks) else [])
  /\ plansIn o = plansOf ks.
Proof.
  induction ks as [|k r IH]; intros h n f M N; [split; [|split]; reflexivity|]. cbn zeta.
  assert (TA : forall a b, transIn (a ++ b) = transIn a ++ transIn b) by (intros; apply flat_map_app).
  assert (AA : forall a b, assignsIn (a ++ b) = assignsIn a ++ assignsIn b) by (intros; apply flat_map_app).
  assert (PA : forall a b, plansIn (a ++ b) = plansIn a ++ plansIn b) by (intros; apply flat_map_app).
  assert (NR : ~ In n (listenersOf r)) by (intros I; apply N; unfold listenersOf; cbn [flat_map]; apply in_or_app; right; exact I).
  assert (US : forall k, isStep k = false -> upToStep (k :: r) = if hasStep r then k :: upToStep r else []).
  { intros k' E. cbn [upToStep]. change (existsb _ (k' :: r)) with (isStep k' || hasStep r). rewrite E. reflexivity. }
  assert (UN : hasStep r = false -> upToStep r = []).
  { destruct r as [|a r']; [reflexivity|]. intros E. cbn [upToStep]. change (existsb _ (a :: r')) with (hasStep (a :: r')). rewrite E. reflexivity. }
  change (hasStep (k :: r)) with (isStep k || hasStep r). cbn [hubRun].
  destruct k as [m g|ts|a|p|p|]; cbn [hubStep isStep orb].
  - destruct (hubRun _ r) as [h2 o2] eqn:E. match type of E with hubRun ?h1 _ = _ => specialize (IH h1 n f) end. rewrite E in IH. cbn [snd app] in *.
    assert (M' : mine {| h_listeners := h_listeners h ++ [(m, g)]; h_trans := h_trans h; h_assigns := h_assigns h |} n = [(n, f)]).
    { unfold mine in *. cbn [h_listeners]. rewrite filter_app, M. cbn. destruct (Nat.eqb_spec m n) as [-> |_]; [|reflexivity]. exfalso. apply N. left. reflexivity. }
    destruct (IH M' NR) as (A & B & C). cbn [h_trans h_assigns] in *. rewrite A, B, C, US by reflexivity. destruct (hasStep r); auto.
  - destruct (hubRun _ r) as [h2 o2] eqn:E. match type of E with hubRun ?h1 _ = _ => specialize (IH h1 n f M NR) end. rewrite E in IH. cbn [snd app h_trans h_assigns] in *.
    destruct IH as (A & B & C). rewrite A, B, C, US by reflexivity. destruct (hasStep r); [|auto]. change (transOf (HTransitions ts :: upToStep r)) with (ts ++ transOf (upToStep r)). rewrite app_assoc. auto.
  - destruct (hubRun _ r) as [h2 o2] eqn:E. match type of E with hubRun ?h1 _ = _ => specialize (IH h1 n f M NR) end. rewrite E in IH. cbn [snd app h_trans h_assigns] in *.
    destruct IH as (A & B & C). rewrite A, B, C, US by reflexivity. destruct (hasStep r); [|auto]. change (assignsOf (HAssignment a :: upToStep r)) with ([a] ++ assignsOf (upToStep r)). rewrite app_assoc. auto.
  - destruct (hubRun h r) as [h2 o2] eqn:E. specialize (IH h n f M NR). rewrite E in IH. cbn [snd] in *. rewrite toldTo_app, map_flat, toldTo_flat. unfold mine in M. rewrite M. cbn [flat_map app].
    change (transIn (NPlan p :: toldTo n o2)) with (transIn (toldTo n o2)). change (assignsIn (NPlan p :: toldTo n o2)) with (assignsIn (toldTo n o2)). change (plansIn (NPlan p :: toldTo n o2)) with ((true, p) :: plansIn (toldTo n o2)).
    destruct IH as (A & B & C). rewrite A, B, C, US by reflexivity. destruct (hasStep r); auto.
  - destruct (hubRun h r) as [h2 o2] eqn:E. specialize (IH h n f M NR). rewrite E in IH. cbn [snd] in *. rewrite toldTo_app, map_flat, toldTo_flat. unfold mine in M. rewrite M. cbn [flat_map app].
    change (transIn (NLibrary p :: toldTo n o2)) with (transIn (toldTo n o2)). change (assignsIn (NLibrary p :: toldTo n o2)) with (assignsIn (toldTo n o2)). change (plansIn (NLibrary p :: toldTo n o2)) with ((false, p) :: plansIn (toldTo n o2)).
    destruct IH as (A & B & C). rewrite A, B, C, US by reflexivity. destruct (hasStep r); auto.
  - destruct (hubRun _ r) as [h2 o2] eqn:E. match type of E with hubRun ?h1 _ = _ => specialize (IH h1 n f M NR) end. rewrite E in IH. cbn [snd h_trans h_assigns app] in *.
    rewrite toldTo_app, toldTo_flat. unfold mine in M. rewrite M. cbn [flat_map snd]. rewrite app_nil_r, TA, AA, PA. destruct IH as (A & B & C). rewrite A, B, C.
    assert (S1 : forall l1 l2, transIn (map NTrans l1 ++ map NAssign l2) = l1).
    { intros l1 l2. rewrite TA. assert (X : transIn (map NTrans l1) = l1) by (induction l1 as [|x l1 J]; [reflexivity|]; cbn; f_equal; exact J).
      assert (Y : transIn (map NAssign l2) = []) by (induction l2; auto). rewrite X, Y. apply app_nil_r. }
    assert (S2 : forall l1 l2, assignsIn (map NTrans l1 ++ map NAssign l2) = l2).
    { intros l1 l2. rewrite AA. assert (X : assignsIn (map NTrans l1) = []) by (induction l1; auto).
      assert (Y : assignsIn (map NAssign l2) = l2) by (induction l2 as [|x l2 J]; [reflexivity|]; cbn; f_equal; exact J). rewrite X, Y. reflexivity. }
    assert (S3 : forall l1 l2, plansIn (map NTrans l1 ++ map NAssign l2) = []).
    { intros l1 l2. rewrite PA. assert (X : plansIn (map NTrans l1) = []) by (induction l1; auto). assert (Y : plansIn (map NAssign l2) = []) by (induction l2; auto). rewrite X, Y. reflexivity. }
    unfold stepNotes. rewrite S1, S2, S3. cbn [upToStep existsb isStep orb]. change (transOf (HStepComplete :: upToStep r)) with (transOf (upToStep r)). change (assignsOf (HStepComplete :: upToStep r)) with (assignsOf (upToStep r)).
    destruct (hasStep r) eqn:HS.
    + rewrite filter_app. auto.
    + rewrite (UN eq_refl). cbn. rewrite !app_nil_r. auto.
Qed.
(** A listener added at configuration is told every transition its filter passes, every assignment, plan and library,
    each once and in order, those of a step when the step completes. *)
Theorem C65_told_everything ls n f ks :
  ~ In n (map fst ls) -> ~ In n (listenersOf ks) ->
  let o := toldTo n (snd (hubRun hub0 (map (fun l => HAddListener (fst l) (snd l)) (ls ++ [(n, f)]) ++ ks))) in
  transIn o = filter (reports f) (transOf (upToStep ks)) /\ assignsIn o = assignsOf (upToStep ks) /\ plansIn o = plansOf ks.
Proof.
  intros NL N.
  assert (R : forall l h, hubRun h (map (fun l => HAddListener (fst l) (snd l)) l ++ ks)
              = hubRun {| h_listeners := h_listeners h ++ l; h_trans := h_trans h; h_assigns := h_assigns h |} ks).
  { induction l as [|[a g] l IH]; intros h; [rewrite app_nil_r; destruct h; reflexivity|]. cbn [map app fst snd hubRun hubStep]. rewrite IH. cbn [h_listeners h_trans h_assigns].
    rewrite <- app_assoc. cbn [app]. destruct (hubRun _ ks); reflexivity. }
  rewrite R. cbn zeta. edestruct (hubRun_told ks {| h_listeners := [] ++ ls ++ [(n, f)]; h_trans := []; h_assigns := [] |} n f) as (A & B & C); [|exact N|].
  - unfold mine. cbn [h_listeners app]. rewrite filter_app. cbn. rewrite Nat.eqb_refl.
    assert (E : filter (fun l => Nat.eqb (fst l) n) ls = []); [|rewrite E; reflexivity].
    induction ls as [|[a g] l IH]; [reflexivity|]. cbn in *. destruct (Nat.eqb_spec a n); [tauto|]. apply IH. tauto.
  - cbn [h_trans h_assigns app hub0 h_listeners] in *. rewrite A, B, C. destruct (hasStep ks) eqn:H; [auto|].
    assert (U : upToStep ks = []); [|rewrite U; auto]. destruct ks as [|k r]; [reflexivity|]. cbn [upToStep]. change (existsb _ (k :: r)) with (hasStep (k :: r)). rewrite H. reflexivity.
Qed.
(** The filter by node state. *)
Lemma enableAll_spec b names j : enableAll b names j = if in_dec Nat.eq_dec j (map (parseName stateNames) names) then b else negb b.
Proof.
  unfold enableAll. assert (G : forall m, fold_left (fun m n => let i := parseName stateNames n in fun j => if Nat.eqb j i then b else m j) names m j
    = if in_dec Nat.eq_dec j (map (parseName stateNames) names) then b else m j); [|apply G].
  induction names as [|a r IH]; intros m; [reflexivity|]. cbn [fold_left map]. rewrite IH. cbn zeta. clear IH. generalize (parseName stateNames a) as i. generalize (map (parseName stateNames) r) as q. intros q i.
  destruct (in_dec Nat.eq_dec j q) as [I|I], (in_dec Nat.eq_dec j (i :: q)) as [J|J], (Nat.eqb_spec j i) as [E|E];
    try reflexivity; exfalso; cbn [In] in J; intuition congruence.
Qed.
Lemma in_names names i : (1 <= i < 8)%nat -> In i (map (parseName stateNames) names) <-> In (nameOf stateNames i) names.
Proof.
  intros I. rewrite in_map_iff. split.
  - intros (n & E & IN). apply (C63_names stateNames) in E as [_ ->]; [exact IN|cbn; tauto|lia].
  - intros IN. exists (nameOf stateNames i). split; [|exact IN]. apply (C63_names stateNames); [cbn; tauto|lia|]. split; [cbn; lia|reflexivity].
Qed.
Theorem C65_state_filter names text f t : argText names text -> text <> [] -> nodeStateFilter text [] = Some f -> (1 <= t_old t < 8)%nat -> (1 <= t_new t < 8)%nat ->
  reports (Some f) t = true <-> In (nameOf stateNames (t_old t)) names \/ In (nameOf stateNames (t_new t)) names.
Proof.
  intros A NE E O N. apply C64_args in A. destruct text as [|c r]; [congruence|]. cbn [nodeStateFilter] in E. rewrite A in E. injection E as <-. cbn [reports].
  rewrite orb_true_iff, !enableAll_spec, <- !in_names by assumption. do 2 destruct (in_dec _ _ _); cbn; intuition congruence.
Qed.
Theorem C65_ignored_filter names text f t : argText names text -> text <> [] -> nodeStateFilter [] text = Some f -> (1 <= t_old t < 8)%nat -> (1 <= t_new t < 8)%nat ->
  reports (Some f) t = false <-> In (nameOf stateNames (t_old t)) names /\ In (nameOf stateNames (t_new t)) names.
Proof.
  intros A NE E O N. apply C64_args in A. destruct text as [|c r]; [congruence|]. cbn [nodeStateFilter] in E. rewrite A in E. injection E as <-. cbn [reports].
  rewrite orb_false_iff, !enableAll_spec, <- !in_names by assumption. do 2 destruct (in_dec _ _ _); cbn; intuition congruence.
Qed.
Theorem C65_filter_conflict a b : nodeStateFilter a b = None <-> a <> [] /\ b <> [].
Proof. destruct a, b; cbn; intuition congruence. Qed.

(** ** Where the code falls short *)
Definition cmdA : command := {| c_id := 1; c_name := chars "A" |}.
Definition stX : wstate := {| s_name := chars "X"; s_args := [] |}.
(** An error in a handler's setThresholds or clearThresholds leaves the dispatcher, unlike one in lookupNow. *)
Theorem C64_threshold_error_refuted :
  exists ub h, lookupInForce h (s_name stX) (LUser 1) /\ snd (ub 1%nat (CClear stX)) = IfaceErr
  /\ snd (dispatch ub (configure h) (DClear stX)) = IfaceErr /\ snd (dispatch ub (configure h) (DSetI stX 1 0)) = IfaceErr.
Proof.
  exists (fun _ _ => ([], IfaceErr)), [RegLk1 (LUser 1) (chars "X")]. split; [apply lookupInForce_iff; reflexivity|]. split; [reflexivity|]. split; reflexivity.
Qed.
(** A command that was already acknowledged as successful gets an interface error first and the success afterwards. *)
Theorem C64_error_after_success_refuted :
  exists ub h, dispatch ub (configure h) (DExec cmdA) = ([Ran 1 (CExec cmdA); PostAck cmdA COMMAND_SUCCESS; NowHandle cmdA COMMAND_INTERFACE_ERROR], Returns).
Proof. exists (fun _ k => ([PostAck cmdA COMMAND_SUCCESS], IfaceErr)), [RegCmd1 (CUser 1) (chars "A")]. reflexivity. Qed.
(** A null handler, or one without an execute function, is accepted and fails only when the command is executed. *)
Theorem C64_null_handler_refuted ub :
  snd (dispatch ub (configure [RegCmd1 CNull (chars "A")]) (DExec cmdA)) = Crash
  /\ snd (dispatch ub (configure [RegCmd1 (CFun None None) (chars "A")]) (DExec cmdA)) = OtherErr
  /\ snd (dispatch ub (configure [DefLk LNull]) (DLookup stX)) = Crash.
Proof. repeat split. Qed.
(** A handler registered while a command runs gets the abort of a command it never saw. *)
Theorem C64_abort_elsewhere_refuted :
  exists ub h r, calls (fst (dispatch ub (configure h) (DExec cmdA))) = [(1%nat, CExec cmdA)] /\ calls (fst (dispatch ub (configure (h ++ [r])) (DAbort cmdA))) = [(2%nat, CAbort cmdA)].
Proof. exists (fun _ _ => ([], Returns)), [RegCmd1 (CUser 1) (chars "A")], (RegCmd1 (CUser 2) (chars "A")). split; reflexivity. Qed.
(** A lookup handler without a lookup function, or the built-in one, answers nothing: not even unknown. *)
Theorem C64_silent_lookup_refuted ub a b c :
  dispatch ub (configure []) (DLookup stX) = ([], Returns) /\ dispatch ub (configure [RegLk1 (LFun None a b c) (chars "X")]) (DLookup stX) = ([], Returns).
Proof. split; reflexivity. Qed.
(** Handlers in the configuration file are accepted and ignored. *)
Theorem C64_file_handlers_refuted tag : constructInterfaces built0 [EHandler tag] = (built0, true).
Proof. reflexivity. Qed.
(** A blank before a comma becomes part of the item; a blank in the last item ends it. *)
Theorem C64_args_refuted :
  parseArgs (chars "FINISHED ,FAILING") = [chars "FINISHED "; chars "FAILING"] /\ parseName stateNames (chars "FINISHED ") = O
  /\ parseArgs (chars "My Plans") = [chars "My"].
Proof. vm_compute. repeat split. Qed.
(** Ignoring a state does not ignore the transitions into it. *)
Theorem C65_ignored_refuted :
  exists f, nodeStateFilter [] (chars "FINISHED") = Some f /\ reports (Some f) {| t_node := 0; t_old := 4; t_new := 5 |} = true /\ nameOf stateNames 5 = chars "FINISHED".
Proof. eexists. split; [reflexivity|]. split; reflexivity. Qed.
(** An assignment made before a transition of the same step is told after it. *)
Theorem C65_order_refuted a t :
  toldTo 1 (snd (hubRun hub0 [HAddListener 1 None; HAssignment a; HTransitions [t]; HStepComplete])) = [NTrans t; NAssign a].
Proof. reflexivity. Qed.
(** ** Examples *)
Theorem C64_example :
  let h := [RegCmd (CUser 1) [chars "A"; chars "B"]; RegCmd1 (CUser 2) (chars "B"); DefCmd (CUser 3)] in
  commandInForce h (chars "A") (CUser 1) /\ commandInForce h (chars "B") (CUser 2) /\ commandInForce h (chars "C") (CUser 3)
  /\ argText [chars "a"; chars "b/c"] (chars " a, b/c ").
Proof.
  cbn zeta. split; [apply commandInForce_iff; reflexivity|]. split; [apply commandInForce_iff; reflexivity|]. split; [apply commandInForce_iff; reflexivity|].
  apply (AT_more [32] (chars "a") [chars "b/c"] (chars " b/c ")); [repeat constructor|repeat constructor; cbn; lia|discriminate|].
  apply (AT_last [32] (chars "b/c") [32]); [repeat constructor|repeat constructor; cbn; lia|discriminate|repeat constructor].
Qed.
Theorem C65_example :
  exists f, nodeStateFilter (chars "FINISHED, FAILING") [] = Some f /\
  transIn (toldTo 7 (snd (hubRun hub0 [HAddListener 7 (Some f); HTransitions [{| t_node := 1; t_old := 2; t_new := 3 |}; {| t_node := 1; t_old := 4; t_new := 5 |}]; HStepComplete;
    HTransitions [{| t_node := 2; t_old := 3; t_new := 6 |}]]))) = [{| t_node := 1; t_old := 4; t_new := 5 |}].
Proof. eexists. split; [reflexivity|]. vm_compute. reflexivity. Qed.

(** Assumptions *)
Print Assumptions C64_in_force.
Print Assumptions C64_execute.
Print Assumptions C64_abort.
Print Assumptions C64_lookup.
Print Assumptions C64_update.
Print Assumptions C64_default.
Print Assumptions C64_unregistered.
Print Assumptions C64_denied.
Print Assumptions C64_error_reported.
Print Assumptions C64_no_error.
Print Assumptions C64_ack_range.
Print Assumptions C64_initialize.
Print Assumptions C64_initialize_fails.
Print Assumptions C64_start.
Print Assumptions C64_stop.
Print Assumptions C64_args.
Print Assumptions C64_construct.
Print Assumptions C64_construct_fails.
Print Assumptions C65_told_everything.
Print Assumptions C65_state_filter.
Print Assumptions C65_ignored_filter.
Print Assumptions C65_filter_conflict.
Print Assumptions C64_threshold_error_refuted.
Print Assumptions C64_error_after_success_refuted.
Print Assumptions C64_null_handler_refuted.
Print Assumptions C64_abort_elsewhere_refuted.
Print Assumptions C64_silent_lookup_refuted.
Print Assumptions C64_file_handlers_refuted.
Print Assumptions C64_args_refuted.
Print Assumptions C65_ignored_refuted.
Print Assumptions C65_order_refuted.
Print Assumptions C64_example.
Print Assumptions C65_example.
Print Assumptions C64_no_abort_function.
