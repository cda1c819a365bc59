(** C21, C22, C23, C34, C41: operators. *)
From Coq Require Import Permutation.
From Verif Require Import OpModel OpSpec OrderProps.

(** * C21: three-valued Boolean operators *)
Lemma truth_range v : 0 <= truth v <= 2.
Proof. destruct v as [[]|]; cbn; lia. Qed.
Lemma fold_min_range l : 0 <= fold_right (fun v t => Z.min (truth v) t) 2 l <= 2.
Proof. induction l as [|v l IH]; cbn [fold_right]; [lia|]. pose proof (truth_range v). lia. Qed.
Lemma fold_max_range l : 0 <= fold_right (fun v t => Z.max (truth v) t) 0 l <= 2.
Proof. induction l as [|v l IH]; cbn [fold_right]; [lia|]. pose proof (truth_range v). lia. Qed.

Theorem C21_not : forall a, boolApply OpNot [a] = ofOpt (kNot a).
Proof. intros [[]|]; reflexivity. Qed.

Lemma andLoop_spec l : forall all, boolAndLoop all l = ofOpt (ofTruth (Z.min (if all then 2 else 1) (fold_right (fun v t => Z.min (truth v) t) 2 l))).
Proof.
  induction l as [|v l IH]; intros all; cbn [boolAndLoop fold_right].
  - destruct all; reflexivity.
  - pose proof (fold_min_range l) as R. destruct v as [[]|]; cbn [negb truth].
    + rewrite IH. f_equal. f_equal. destruct all; lia.
    + replace (Z.min (if all then 2 else 1) (Z.min 0 _)) with 0 by (destruct all; lia). reflexivity.
    + rewrite IH. f_equal. f_equal. destruct all; lia.
Qed.
Lemma and_loop_min l : boolAndLoop true l = ofOpt (kAnd l).
Proof. rewrite andLoop_spec. unfold kAnd. f_equal. f_equal. pose proof (fold_min_range l). lia. Qed.
Theorem C21_and : forall args, args <> [] -> boolApply OpAnd args = ofOpt (kAnd args).
Proof.
  intros [|a [|b [|c r]]] N; [congruence| | |].
  - destruct a as [[]|]; reflexivity.
  - destruct a as [[]|], b as [[]|]; reflexivity.
  - cbn [boolApply]. apply and_loop_min.
Qed.

(** What the general OR really computes. *)
Definition anyTrue (l : list (option bool)) : bool := existsb (fun v => match v with Some true => true | _ => false end) l.
Lemma orLoop_spec l : forall k, boolOrLoop k l = if anyTrue l then RKnown true else if k || existsb isSome l then RKnown false else RUnknown.
Proof.
  induction l as [|v l IH]; intros k; cbn [boolOrLoop existsb]; unfold anyTrue; cbn [existsb].
  - rewrite orb_false_r. reflexivity.
  - destruct v as [[]|]; cbn [isSome orb]; try reflexivity; rewrite IH; unfold anyTrue; destruct k; reflexivity.
Qed.
Lemma anyTrue_In l : anyTrue l = true <-> In (Some true) l.
Proof.
  unfold anyTrue. rewrite existsb_exists. split.
  - intros (v & I & E). destruct v as [[]|]; congruence.
  - intros I. exists (Some true). auto.
Qed.
Lemma kOr_true l : In (Some true) l -> kOr l = Some true.
Proof.
  intros I. unfold kOr. replace (fold_right _ 0 l) with 2; [reflexivity|].
  induction l as [|v l IH]; [destruct I|]. cbn [fold_right]. pose proof (fold_max_range l). pose proof (truth_range v).
  destruct I as [->|I]; [cbn [truth]; lia|]. rewrite <- (IH I). lia.
Qed.
Lemma kOr_unknown l : ~ In (Some true) l -> In None l -> kOr l = None.
Proof.
  intros N I. unfold kOr. replace (fold_right _ 0 l) with 1; [reflexivity|].
  assert (U : fold_right (fun v t => Z.max (truth v) t) 0 l <= 1).
  { clear I. induction l as [|v l IH]; cbn [fold_right]; [lia|]. assert (truth v <= 1) by (destruct v as [[]|]; cbn; try lia; exfalso; apply N; left; reflexivity).
    assert (~ In (Some true) l) by (intros ?; apply N; right; assumption). specialize (IH H0). lia. }
  clear N. induction l as [|v l IH]; [destruct I|]. cbn [fold_right] in *. pose proof (truth_range v). pose proof (fold_max_range l).
  destruct I as [->|I]; [cbn [truth] in *; lia|]. specialize (IH I). lia.
Qed.
Lemma kOr_false l : ~ In (Some true) l -> ~ In None l -> kOr l = Some false.
Proof.
  intros N M. unfold kOr. replace (fold_right _ 0 l) with 0; [reflexivity|].
  induction l as [|v l IH]; [reflexivity|]. cbn [fold_right].
  destruct v as [[]|]; [exfalso; apply N; left; reflexivity| |exfalso; apply M; left; reflexivity].
  cbn [truth]. rewrite <- IH; [reflexivity|firstorder|firstorder].
Qed.
(** OR is Kleene's, except with three or more operands of which none is true, some false and some
    unknown. *)
Theorem C21_or_partial : forall args, args <> [] ->
  (length args <= 2)%nat \/ In (Some true) args \/ ~ In (Some false) args \/ ~ In None args ->
  boolApply OpOr args = ofOpt (kOr args).
Proof.
  intros [|a [|b [|c r]]] N H; [congruence| | |].
  - destruct a as [[]|]; reflexivity.
  - destruct a as [[]|], b as [[]|]; reflexivity.
  - destruct H as [H|H]; [cbn in H; lia|]. cbn [boolApply]. set (l := a :: b :: c :: r) in *. rewrite orLoop_spec. cbn [orb].
    destruct (anyTrue l) eqn:T; [rewrite kOr_true by (apply anyTrue_In; exact T); reflexivity|].
    assert (NT : ~ In (Some true) l) by (rewrite <- anyTrue_In; congruence). destruct H as [H|H]; [contradiction|].
    destruct (existsb isSome l) eqn:K.
    + assert (F : In (Some false) l). { apply existsb_exists in K. destruct K as (v & I & S). destruct v as [[]|]; [contradiction|exact I|discriminate]. }
      destruct H as [H|H]; [contradiction|]. rewrite kOr_false by assumption. reflexivity.
    + rewrite kOr_unknown; [reflexivity|exact NT|]. left. destruct a as [x|]; [|reflexivity].
      exfalso. cut (existsb isSome l = true); [congruence|]. reflexivity.
Qed.
(** The defect (BooleanOperators.cc:115-117): with three or more operands, none true, some false
    and some unknown, OR answers a known false where Kleene's logic (and the code's own
    two-operand OR) answers unknown. *)
Theorem C21_or_nary_refuted : forall args, (3 <= length args)%nat ->
  ~ In (Some true) args -> In (Some false) args -> In None args ->
  boolApply OpOr args = RKnown false /\ kOr args = None.
Proof.
  intros [|a [|b [|c r]]] L NT F U; try (cbn in L; lia). split; [|apply kOr_unknown; assumption].
  cbn [boolApply]. set (l := a :: b :: c :: r) in *. rewrite orLoop_spec.
  destruct (anyTrue l) eqn:T; [apply anyTrue_In in T; contradiction|]. cbn [orb].
  replace (existsb isSome l) with true; [reflexivity|]. symmetry. apply existsb_exists. exists (Some false). auto.
Qed.
(** The same operands two at a time: a OR (b OR c) is unknown, OR(a, b, c) is false. *)
Example C21_or_nary_refuted_witness :
  boolApply OpOr [Some false; None; None] = RKnown false /\
  boolApply OpOr [Some false; seen (boolApply OpOr [None; None])] = RUnknown /\
  boolApply OpOr [Some false; None; Some true] = RKnown true.
Proof. repeat split. Qed.

Theorem C21_xor_partial : forall args, (1 <= length args <= 2)%nat -> boolApply OpXor args = ofOpt (kXor args).
Proof. intros [|a [|b [|c r]]] H; cbn in H; try lia; [destruct a as [[]|]; reflexivity|destruct a as [[]|], b as [[]|]; reflexivity]. Qed.
(** The defect (BooleanOperators.cc:226): XOR of three or more known operands is unknown, and with
    an unknown first operand it reads an uninitialised variable. *)
Theorem C21_xor_nary_refuted : forall args, (3 <= length args)%nat ->
  (Forall (fun v => v <> None) args -> boolApply OpXor args = RUnknown /\ kXor args <> None) /\
  (hd_error args = Some None -> boolApply OpXor args = RUB).
Proof.
  intros [|a [|b [|c r]]] L; try (cbn in L; lia). split.
  - intros F. split.
    + inversion F; subst. destruct a; [reflexivity|congruence].
    + unfold kXor. replace (forallb isSome _) with true; [congruence|]. symmetry. apply forallb_forall. intros v I.
      rewrite Forall_forall in F. specialize (F v I). destruct v; [reflexivity|congruence].
  - cbn. intros [= ->]. reflexivity.
Qed.

(** The operators do not depend on the order of their operands. *)
Lemma fold_min_perm l l' : Permutation l l' -> fold_right (fun v t => Z.min (truth v) t) 2 l = fold_right (fun v t => Z.min (truth v) t) 2 l'.
Proof. induction 1; cbn [fold_right]; lia. Qed.
Lemma existsb_perm {A} (f : A -> bool) l l' : Permutation l l' -> existsb f l = existsb f l'.
Proof. induction 1; cbn [existsb]; try congruence. destruct (f x), (f y); reflexivity. Qed.
Theorem C21_order_independent : forall op args args', Permutation args args' -> args <> [] ->
  op <> OpXor \/ (length args <= 2)%nat -> boolApply op args = boolApply op args'.
Proof.
  intros op args args' P N H. assert (L := Permutation_length P). destruct op.
  - destruct args as [|a [|b r]]; [congruence| |].
    + apply Permutation_length_1_inv in P. subst. reflexivity.
    + destruct args' as [|a' [|b' r']]; cbn in L; try lia. reflexivity.
  - assert (args' <> []) by (intros ->; apply N; apply length_zero_iff_nil; exact L).
    rewrite !C21_and by assumption. unfold kAnd. rewrite (fold_min_perm _ _ P). reflexivity.
  - destruct args as [|a [|b [|c r]]]; [congruence| | |].
    + apply Permutation_length_1_inv in P. subst. reflexivity.
    + apply Permutation_length_2_inv in P. destruct P as [->| ->]; [reflexivity|]. destruct a as [[]|], b as [[]|]; reflexivity.
    + destruct args' as [|a' [|b' [|c' r']]]; cbn in L; try lia. cbn [boolApply]. rewrite !orLoop_spec. cbn [orb].
      unfold anyTrue. rewrite (existsb_perm _ _ _ P), (existsb_perm isSome _ _ P). reflexivity.
  - destruct H as [H|H]; [congruence|]. destruct args as [|a [|b [|c r]]]; [congruence| | |cbn in H; lia].
    + apply Permutation_length_1_inv in P. subst. reflexivity.
    + apply Permutation_length_2_inv in P. destruct P as [->| ->]; [reflexivity|]. destruct a as [[]|], b as [[]|]; reflexivity.
Qed.
Example C21_example : boolApply OpAnd [Some true; None; Some false; None] = RKnown false /\ kAnd [Some true; None; Some false; None] = Some false
  /\ boolApply OpAnd [Some true; None; Some true] = RUnknown.
Proof. repeat split. Qed.

(** ** C41: nested Boolean expressions.  Within the safe fragment (OR and XOR with at most two
    operands, AND with any number) an expression of any depth computes Kleene's value, and
    learning the value of an unknown operand never changes a result that was already known. *)
Fixpoint safe (e : bexp) : Prop :=
  match e with
  | BLeaf _ => True
  | BOp op args => match op with OpNot => length args = 1%nat | OpAnd => args <> [] | _ => (1 <= length args <= 2)%nat end
                   /\ (fix all (l : list bexp) := match l with [] => True | x :: r => safe x /\ all r end) args
  end.
Fixpoint kEval (env : nat -> option bool) (e : bexp) : option bool :=
  match e with
  | BLeaf n => env n
  | BOp op args => let vs := map (kEval env) args in
                   match op with OpNot => kNot (hd None vs) | OpAnd => kAnd vs | OpOr => kOr vs | OpXor => kXor vs end
  end.
Lemma bexp_rect' (P : bexp -> Prop) : (forall n, P (BLeaf n)) -> (forall op args, Forall P args -> P (BOp op args)) -> forall e, P e.
Proof.
  intros HL HO. fix IH 1. intros [n|op args]; [apply HL|]. apply HO. induction args as [|x r IHr]; constructor; [apply IH|exact IHr].
Qed.
Lemma safe_all args : (fix all (l : list bexp) := match l with [] => True | x :: r => safe x /\ all r end) args <-> Forall safe args.
Proof. induction args as [|x r IH]; [split; constructor|]. rewrite Forall_cons_iff, IH. reflexivity. Qed.
Lemma seen_ofOpt o : seen (ofOpt o) = o. Proof. destruct o; reflexivity. Qed.
Theorem C41_nested_kleene : forall env e, safe e -> bexpEval env e = ofOpt (kEval env e).
Proof.
  intros env e. induction e as [n|op args IH] using bexp_rect'; intros S; [reflexivity|].
  cbn [safe] in S. destruct S as [C A]. apply safe_all in A. cbn [bexpEval kEval].
  assert (M : map (fun x => seen (bexpEval env x)) args = map (kEval env) args).
  { clear C. induction IH as [|x r Hx Hr IHr]; [reflexivity|]. inversion A; subst. cbn [map]. rewrite Hx by assumption. rewrite seen_ofOpt, IHr by assumption. reflexivity. }
  rewrite M. destruct op.
  - destruct args as [|a [|b r]]; cbn in C; try lia. cbn [map hd]. apply C21_not.
  - apply C21_and. destruct args; [congruence|discriminate].
  - apply C21_or_partial; [destruct args; [cbn in C; lia|discriminate]|]. left. rewrite map_length. lia.
  - apply C21_xor_partial. rewrite map_length. exact C.
Qed.
Lemma kAnd_mono l l' : Forall2 refines l l' -> refines (kAnd l) (kAnd l').
Proof.
  intros F. unfold kAnd. set (f := fold_right (fun v t => Z.min (truth v) t) 2).
  assert (R : f l = f l' \/ f l = 1).
  { induction F as [|a b l l' H F IH]; [left; reflexivity|]. unfold f in *. cbn [fold_right].
    pose proof (fold_min_range l). pose proof (fold_min_range l'). pose proof (truth_range b).
    destruct H as [->|<-]; cbn [truth]; [|pose proof (truth_range a)].
    - destruct IH as [E|E]; rewrite E; [|right; reflexivity].
      destruct (Z.eq_dec (fold_right (fun v t => Z.min (truth v) t) 2 l') 0); [left; lia|right; lia].
    - destruct IH as [E|E]; rewrite E; [left; reflexivity|]. destruct (Z.eq_dec (truth a) 0); [left; lia|right; lia]. }
  destruct R as [->| ->]; [right; reflexivity|left; reflexivity].
Qed.
Lemma kOr_mono l l' : Forall2 refines l l' -> refines (kOr l) (kOr l').
Proof.
  intros F. unfold kOr. set (f := fold_right (fun v t => Z.max (truth v) t) 0).
  assert (R : f l = f l' \/ f l = 1).
  { induction F as [|a b l l' H F IH]; [left; reflexivity|]. unfold f in *. cbn [fold_right].
    pose proof (fold_max_range l). pose proof (fold_max_range l'). pose proof (truth_range b).
    destruct H as [->|<-]; cbn [truth]; [|pose proof (truth_range a)].
    - destruct IH as [E|E]; rewrite E; [|right; reflexivity].
      destruct (Z.eq_dec (fold_right (fun v t => Z.max (truth v) t) 0 l') 2); [left; lia|right; lia].
    - destruct IH as [E|E]; rewrite E; [left; reflexivity|]. destruct (Z.eq_dec (truth a) 2); [left; lia|right; lia]. }
  destruct R as [->| ->]; [right; reflexivity|left; reflexivity].
Qed.
Lemma kXor_mono l l' : Forall2 refines l l' -> refines (kXor l) (kXor l').
Proof.
  intros F. unfold kXor. destruct (forallb isSome l) eqn:K; [|left; reflexivity]. right.
  assert (E : l = l'). { induction F as [|a b l l' H F IH]; [reflexivity|]. cbn in K. apply andb_prop in K. destruct K as [Ka K].
    f_equal; [|apply IH; exact K]. destruct H as [->|H]; [discriminate|exact H]. }
  subst l'. rewrite K. reflexivity.
Qed.
Theorem C41_known_results_persist_partial : forall env env' e, safe e -> (forall n, refines (env n) (env' n)) ->
  forall b, bexpEval env e = RKnown b -> bexpEval env' e = RKnown b.
Proof.
  intros env env' e S R. assert (K : refines (kEval env e) (kEval env' e)).
  { clear S. induction e as [n|op args IH] using bexp_rect'; [apply R|]. cbn [kEval].
    assert (F : Forall2 refines (map (kEval env) args) (map (kEval env') args)) by (induction IH; constructor; assumption).
    destruct op; [|apply kAnd_mono; exact F|apply kOr_mono; exact F|apply kXor_mono; exact F].
    inversion F as [|a b l l' H]; [right; reflexivity|]. cbn [hd]. destruct H as [->| ->]; [left|right]; reflexivity. }
  intros b. rewrite !C41_nested_kleene by assumption. destruct K as [-> | ->]; [discriminate|auto].
Qed.
(** The defect in OR shows here: learning that an operand is true turns a known false into true. *)
Theorem C41_or_retracts_refuted : exists env env' e, (forall n, refines (env n) (env' n)) /\
  bexpEval env e = RKnown false /\ bexpEval env' e = RKnown true.
Proof.
  exists (fun n => match n with 0%nat => Some false | _ => None end), (fun n => match n with 0%nat => Some false | 1%nat => Some true | _ => None end),
    (BOp OpOr [BLeaf 0; BLeaf 1; BLeaf 2]). split; [|split; reflexivity].
  intros [|[|n]]; [right|left|left]; reflexivity.
Qed.
Example C41_example : safe (BOp OpAnd [BOp OpNot [BLeaf 0]; BOp OpOr [BLeaf 1; BOp OpXor [BLeaf 0; BLeaf 2]]; BLeaf 3]) /\
  bexpEval (fun n => match n with 0%nat => Some false | 1%nat => None | 2%nat => Some true | _ => Some true end)
    (BOp OpAnd [BOp OpNot [BLeaf 0]; BOp OpOr [BLeaf 1; BOp OpXor [BLeaf 0; BLeaf 2]]; BLeaf 3]) = RKnown true.
Proof. split; [cbn; repeat split; try discriminate; try lia|reflexivity]. Qed.

(** * C22: Integer arithmetic *)
(** The exact mathematical result of each operation on n operands (n as the operation allows);
    division truncates toward zero and the remainder has the sign of the dividend. *)
Definition exactInt (op : intOp) (l : list Z) : option Z :=
  match op, l with
  | IAdd, _ :: _ => Some (sumZ l)
  | ISub, [x] => Some (- x)
  | ISub, x :: r => Some (x - sumZ r)
  | IMul, _ :: _ => Some (prodZ l)
  | IDiv, [x; y] => if y =? 0 then None else Some (Z.quot x y)
  | IMod, [x; y] => if y =? 0 then None else Some (Z.rem x y)
  | IMin, x :: r => Some (list_min x r)
  | IMax, x :: r => Some (list_max x r)
  | IAbs, [x] => Some (Z.abs x)
  | _, _ => None
  end.
Definition zero_divisor (op : intOp) (l : list (option Z)) : Prop :=
  (op = IDiv \/ op = IMod) /\ exists x, l = [Some x; Some 0].

Lemma inInt_fits z : inInt z = true <-> fits32 z.
Proof. unfold inInt, INT_MIN, INT_MAX, fits32. rewrite andb_true_iff, !Z.leb_le. change (2 ^ 31) with 2147483648. lia. Qed.
Lemma mach_known z w : mach z = RKnown w <-> z = w /\ fits32 w.
Proof.
  unfold mach. destruct (inInt z) eqn:E.
  - apply inInt_fits in E. split; [intros [= ->]; auto|intros [-> _]; reflexivity].
  - split; [discriminate|]. intros [-> F]. apply inInt_fits in F. congruence.
Qed.
Lemma mach_fits z : fits32 z -> mach z = RKnown z.
Proof. intros F. apply mach_known. auto. Qed.
Lemma mach_not_unknown z : mach z <> RUnknown.
Proof. unfold mach. destruct (inInt z); discriminate. Qed.
Lemma mach_not_err z : mach z <> RError.
Proof. unfold mach. destruct (inInt z); discriminate. Qed.
Lemma quot_fits x y : fits32 x -> fits32 y -> y <> 0 -> ~ (x = -2147483648 /\ y = -1) -> fits32 (Z.quot x y).
Proof.
  unfold fits32. intros X Y N B.
  destruct (Z.eq_dec y (-1)) as [->|N1]; [change (-1) with (- (1)); rewrite Z.quot_opp_r, Z.quot_1_r by lia; lia|].
  destruct (Z.eq_dec y 1) as [->|N2]; [rewrite Z.quot_1_r; lia|].
  assert (A : Z.abs (Z.quot x y) * 2 <= Z.abs x).
  { rewrite <- Z.quot_abs by assumption. rewrite Z.quot_div_nonneg by lia. 
    assert (Z.abs y * (Z.abs x / Z.abs y) <= Z.abs x) by (apply Z.mul_div_le; lia).
    assert (0 <= Z.abs x / Z.abs y) by (apply Z.div_pos; lia). nia. }
  lia.
Qed.
(** Loops: what a known result means, by induction over any number of operands. *)
Lemma loop_known (f : Z -> Z -> opres Z) (g : Z -> Z -> Z) :
  (forall a b z, f a b = RKnown z -> z = g a b /\ (fits32 a -> fits32 b -> fits32 z)) ->
  forall l acc z, fits32 acc -> Forall fits32 l -> intLoop f acc (map Some l) = RKnown z -> z = fold_left g l acc /\ fits32 z.
Proof.
  intros H l. induction l as [|x r IH]; intros acc z A F E; cbn [map intLoop fold_left] in *.
  - injection E as <-. auto.
  - inversion F; subst. destruct (f acc x) eqn:Ef; cbn [rbind] in E; try discriminate. apply H in Ef. destruct Ef as [Ez Fz].
    subst a. apply IH in E; [exact E| |assumption]. apply Fz; assumption.
Qed.
Lemma loop_known_all (f : Z -> Z -> opres Z) : forall args acc z, intLoop f acc args = RKnown z -> ~ In None args.
Proof.
  induction args as [|[x|] r IH]; intros acc z E I; cbn [intLoop] in E; [destruct I| |discriminate].
  destruct I as [I|I]; [discriminate|]. destruct (f acc x); try discriminate. eapply IH; eassumption.
Qed.
Lemma loop_unknown (f : Z -> Z -> opres Z) : (forall a b, f a b <> RUnknown) -> forall args acc, intLoop f acc args = RUnknown -> In None args.
Proof.
  intros H args. induction args as [|[x|] r IH]; intros acc E; cbn [intLoop] in E; [discriminate| |left; reflexivity].
  right. destruct (f acc x) eqn:Ef; cbn [rbind] in E; try discriminate; [eapply IH; exact E|]. exfalso; eapply H; exact Ef.
Qed.
Lemma loop_noerr (f : Z -> Z -> opres Z) : (forall a b, f a b <> RError) -> forall args acc, intLoop f acc args <> RError.
Proof.
  intros H args. induction args as [|[x|] r IH]; intros acc E; cbn [intLoop] in E; try discriminate.
  destruct (f acc x) eqn:Ef; cbn [rbind] in E; try discriminate; [eapply IH; exact E|]. eapply H; exact Ef.
Qed.
Definition loopG (op : intOp) : Z -> Z -> Z :=
  match op with IAdd => Z.add | ISub => Z.sub | IMul => Z.mul | IMin => Z.min | _ => Z.max end.
Definition loopOp (op : intOp) : Prop := op = IAdd \/ op = ISub \/ op = IMul \/ op = IMin \/ op = IMax.
Lemma step_known op : loopOp op -> forall a b z, intStep op a b = RKnown z -> z = loopG op a b /\ (fits32 a -> fits32 b -> fits32 z).
Proof.
  intros [->|[->|[->|[->| ->]]]] a b z E; cbn [intStep intMach loopG] in *.
  1-3: apply mach_known in E; destruct E as [<- F]; auto.
  - injection E as <-. destruct (b <? a) eqn:L; [apply Z.ltb_lt in L|apply Z.ltb_ge in L]; (split; [lia|auto]).
  - injection E as <-. rewrite Z.gtb_ltb. destruct (a <? b) eqn:L; [apply Z.ltb_lt in L|apply Z.ltb_ge in L]; (split; [lia|auto]).
Qed.
Lemma mach2_known op : loopOp op -> forall a b z, intMach op a b = RKnown z -> z = loopG op a b /\ (fits32 a -> fits32 b -> fits32 z).
Proof.
  intros [->|[->|[->|[->| ->]]]] a b z E; cbn [intMach loopG] in *.
  1-3: apply mach_known in E; destruct E as [<- F]; auto.
  - injection E as <-. destruct (a <? b) eqn:L; [apply Z.ltb_lt in L|apply Z.ltb_ge in L]; (split; [lia|auto]).
  - injection E as <-. rewrite Z.gtb_ltb. destruct (b <? a) eqn:L; [apply Z.ltb_lt in L|apply Z.ltb_ge in L]; (split; [lia|auto]).
Qed.
Lemma fold_add l : forall a, fold_left Z.add l a = a + sumZ l.
Proof. unfold sumZ. induction l as [|x r IH]; intros a; cbn [fold_left fold_right]; [lia|]. rewrite IH. lia. Qed.
Lemma fold_sub l : forall a, fold_left Z.sub l a = a - sumZ l.
Proof. unfold sumZ. induction l as [|x r IH]; intros a; cbn [fold_left fold_right]; [lia|]. rewrite IH. lia. Qed.
Lemma fold_mul l : forall a, fold_left Z.mul l a = a * prodZ l.
Proof. unfold prodZ. induction l as [|x r IH]; intros a; cbn [fold_left fold_right]; [lia|]. rewrite IH. lia. Qed.
Lemma exact_loop op x r : loopOp op -> r <> [] -> exactInt op (x :: r) = Some (fold_left (loopG op) r x).
Proof.
  intros [->|[->|[->|[->| ->]]]] N; cbn [exactInt loopG].
  - rewrite fold_add. unfold sumZ. reflexivity.
  - destruct r; [congruence|]. rewrite fold_sub. reflexivity.
  - rewrite fold_mul. reflexivity.
  - reflexivity.
  - reflexivity.
Qed.

(** Whatever the operation and however many operands, a known result is the exact mathematical
    result and fits in 32 bits. *)
Theorem C22_known_result_is_exact : forall op args z, intArgCountOk op (length args) = true ->
  (forall x, In (Some x) args -> fits32 x) -> intApply op args = RKnown z ->
  exists l, args = map Some l /\ exactInt op l = Some z /\ fits32 z.
Proof.
  intros op args z C F E.
  destruct args as [|a [|b r]].
  - destruct op; discriminate.
  - destruct a as [x|]; [|destruct op; discriminate]. exists [x]. split; [reflexivity|].
    assert (Fx : fits32 x) by (apply F; left; reflexivity).
    destruct op; cbn in C; try discriminate; cbn [intApply ofOpt exactInt] in *.
    + injection E as <-. unfold sumZ. cbn [fold_right]. rewrite Z.add_0_r. auto.
    + apply mach_known in E. destruct E as [<- ?]. auto.
    + injection E as <-. unfold prodZ. cbn [fold_right]. rewrite Z.mul_1_r. auto.
    + injection E as <-. auto.
    + injection E as <-. auto.
    + destruct (x <? 0) eqn:L; [apply Z.ltb_lt in L; apply mach_known in E; destruct E as [<- ?]|apply Z.ltb_ge in L; injection E as <-];
        (split; [f_equal; lia|assumption]).
  - assert (LO : loopOp op -> r = [] -> exists l, a :: b :: r = map Some l /\ exactInt op l = Some z /\ fits32 z).
    { intros LO ->. assert (E2 : int2 (intMach op) a b = RKnown z) by (destruct LO as [->|[->|[->|[->| ->]]]]; destruct a; exact E).
      destruct a as [x|], b as [y|]; cbn [int2] in E2; try discriminate. exists [x; y]. split; [reflexivity|].
      apply mach2_known in E2; [|exact LO]. destruct E2 as [-> G]. rewrite exact_loop by (assumption || discriminate). cbn [fold_left].
      split; [reflexivity|]. apply G; apply F; [left|right; left]; reflexivity. }
    assert (LN : loopOp op -> r <> [] -> exists l, a :: b :: r = map Some l /\ exactInt op l = Some z /\ fits32 z).
    { intros L0 N. destruct r as [|c r]; [congruence|].
      assert (KA : ~ In None (a :: b :: c :: r) /\ (forall x l, a :: b :: c :: r = map Some (x :: l) -> (x = 0 /\ op = IAdd \/ True) ->
                 exists acc ls, intLoop (intStep op) acc (map Some ls) = RKnown z /\ fold_left (loopG op) ls acc = fold_left (loopG op) l x /\ fits32 acc /\ Forall fits32 ls)).
      { destruct L0 as [->|[->|[->|[->| ->]]]]; cbn [intApply] in E.
        - split; [eapply loop_known_all; exact E|]. intros x l EQ _. exists 0, (x :: l). rewrite EQ in E. split; [exact E|]. split; [cbn [fold_left loopG]; f_equal; lia|].
          split; [unfold fits32; lia|]. rewrite Forall_forall. intros y I. apply F. rewrite EQ. apply in_map. exact I.
        - destruct a as [a|]; [|discriminate]. split; [intros [I|I]; [discriminate|]; eapply loop_known_all; eassumption|].
          intros x l EQ _. exists a, l. cbn [map] in EQ. injection EQ as <- EQ. rewrite EQ in E. split; [exact E|]. split; [reflexivity|].
          split; [apply F; left; reflexivity|]. rewrite Forall_forall. intros y I. apply F. right. rewrite EQ. apply in_map. exact I.
        - destruct a as [a|]; [|discriminate]. split; [intros [I|I]; [discriminate|]; eapply loop_known_all; eassumption|].
          intros x l EQ _. exists a, l. cbn [map] in EQ. injection EQ as <- EQ. rewrite EQ in E. split; [exact E|]. split; [reflexivity|].
          split; [apply F; left; reflexivity|]. rewrite Forall_forall. intros y I. apply F. right. rewrite EQ. apply in_map. exact I.
        - destruct a as [a|]; [|discriminate]. split; [intros [I|I]; [discriminate|]; eapply loop_known_all; eassumption|].
          intros x l EQ _. exists a, l. cbn [map] in EQ. injection EQ as <- EQ. rewrite EQ in E. split; [exact E|]. split; [reflexivity|].
          split; [apply F; left; reflexivity|]. rewrite Forall_forall. intros y I. apply F. right. rewrite EQ. apply in_map. exact I.
        - destruct a as [a|]; [|discriminate]. split; [intros [I|I]; [discriminate|]; eapply loop_known_all; eassumption|].
          intros x l EQ _. exists a, l. cbn [map] in EQ. injection EQ as <- EQ. rewrite EQ in E. split; [exact E|]. split; [reflexivity|].
          split; [apply F; left; reflexivity|]. rewrite Forall_forall. intros y I. apply F. right. rewrite EQ. apply in_map. exact I. }
      destruct KA as [NN KA].
      assert (ML : forall q : list (option Z), ~ In None q -> exists l, q = map Some l).
      { induction q as [|[y|] q IHq]; intros NQ; [exists []; reflexivity| |exfalso; apply NQ; left; reflexivity].
        destruct IHq as [l ->]; [intros I; apply NQ; right; exact I|]. exists (y :: l). reflexivity. }
      destruct (ML _ NN) as [[|x l] EQ]; [discriminate|]. exists (x :: l). split; [exact EQ|].
      destruct (KA x l EQ (or_intror I)) as (acc & ls & E1 & E2 & F1 & F2).
      apply (loop_known _ (loopG op)) in E1; [|intros; apply step_known; assumption|assumption|assumption].
      destruct E1 as [-> Fz]. rewrite E2 in *. rewrite exact_loop; [auto|exact L0|].
      destruct l; [discriminate|discriminate]. }
    destruct op; cbn in C; try discriminate;
      try (destruct r as [|c r]; [apply LO; [unfold loopOp; tauto|reflexivity]|apply LN; [unfold loopOp; tauto|discriminate]]);
      (destruct r; [|discriminate]); destruct a as [x|], b as [y|]; cbn [intApply int2 intMach] in E; try discriminate;
      destruct (y =? 0) eqn:Y; try discriminate; apply Z.eqb_neq in Y; exists [x; y]; (split; [reflexivity|]); cbn [exactInt]; rewrite (proj2 (Z.eqb_neq _ _) Y).
    + apply mach_known in E. destruct E as [-> ?]. auto.
    + destruct (mach (Z.quot x y)) eqn:M; cbn [rbind] in E; try discriminate. injection E as <-. split; [reflexivity|].
      assert (Fx : fits32 x) by (apply F; left; reflexivity). assert (Fy : fits32 y) by (apply F; right; left; reflexivity).
      unfold fits32 in *. pose proof (Z.rem_bound_abs x y Y). lia.
Qed.
(** A result is unknown only because an operand is unknown or a divisor is zero; it is never an error. *)
Theorem C22_unknown_only_if : forall op args, intArgCountOk op (length args) = true ->
  intApply op args <> RError /\ (intApply op args = RUnknown -> In None args \/ zero_divisor op args).
Proof.
  intros op args C.
  assert (ME : forall o a b, o <> IAbs -> intMach o a b <> RError).
  { intros o a b N. destruct o; cbn [intMach]; try congruence; try apply mach_not_err; destruct (b =? 0); try congruence; try apply mach_not_err.
    unfold mach. destruct (inInt _); cbn; congruence. }
  assert (SE : forall o a b, o <> IAbs -> intStep o a b <> RError).
  { intros o a b N. destruct o; cbn [intStep]; try congruence; apply ME; congruence. }
  assert (SU : forall o a b, loopOp o -> intStep o a b <> RUnknown).
  { intros o a b [->|[->|[->|[->| ->]]]]; cbn [intStep intMach]; try congruence; apply mach_not_unknown. }
  assert (MU : forall o a b, loopOp o -> intMach o a b <> RUnknown).
  { intros o a b [->|[->|[->|[->| ->]]]]; cbn [intMach]; try congruence; apply mach_not_unknown. }
  destruct args as [|a [|b [|c r]]].
  - destruct op; discriminate.
  - destruct a as [x|]; [|split; [destruct op; discriminate|intros; left; left; reflexivity]].
    destruct op; cbn in C; try discriminate; cbn [intApply ofOpt];
    (split; [try discriminate; try apply mach_not_err; try (destruct (x <? 0); [apply mach_not_err|discriminate])
            |intros E; exfalso; revert E; try discriminate; try apply mach_not_unknown; try (destruct (x <? 0); [apply mach_not_unknown|discriminate])]).
  - assert (E2 : op <> IAbs -> intApply op [a; b] = int2 (intMach op) a b) by (destruct op, a; congruence || reflexivity).
    assert (NA : op <> IAbs) by (destruct op; discriminate). rewrite E2 by exact NA.
    destruct a as [x|], b as [y|]; cbn [int2]; try (split; [discriminate|intros _; left; cbn; tauto]).
    split; [apply ME; exact NA|]. intros E. right.
    destruct op; try (exfalso; eapply MU; [|exact E]; unfold loopOp; tauto); cbn [intMach] in E.
    + destruct (y =? 0) eqn:Y; [apply Z.eqb_eq in Y; subst; split; [tauto|exists x; reflexivity]|]. exfalso; eapply mach_not_unknown; exact E.
    + destruct (y =? 0) eqn:Y; [apply Z.eqb_eq in Y; subst; split; [tauto|exists x; reflexivity]|]. unfold mach in E. destruct (inInt _); discriminate.
  - destruct op; cbn in C; try discriminate; cbn [intApply].
    + split; [apply loop_noerr; intros; apply SE; congruence|]. intros E; left. eapply loop_unknown in E; [exact E|intros; apply SU; unfold loopOp; tauto].
    + destruct a as [x|]; [|split; [discriminate|intros; left; left; reflexivity]].
      split; [apply loop_noerr; intros; apply SE; congruence|]. intros E; left. right. eapply loop_unknown in E; [exact E|intros; apply SU; unfold loopOp; tauto].
    + destruct a as [x|]; [|split; [discriminate|intros; left; left; reflexivity]].
      split; [apply loop_noerr; intros; apply SE; congruence|]. intros E; left. right. eapply loop_unknown in E; [exact E|intros; apply SU; unfold loopOp; tauto].
    + destruct a as [x|]; [|split; [discriminate|intros; left; left; reflexivity]].
      split; [apply loop_noerr; intros; apply SE; congruence|]. intros E; left. right. eapply loop_unknown in E; [exact E|intros; apply SU; unfold loopOp; tauto].
    + destruct a as [x|]; [|split; [discriminate|intros; left; left; reflexivity]].
      split; [apply loop_noerr; intros; apply SE; congruence|]. intros E; left. right. eapply loop_unknown in E; [exact E|intros; apply SU; unfold loopOp; tauto].
Qed.
(** One or two operands: whenever the exact result exists and fits, it is delivered (except
    INT_MIN % -1, below); unknown operands and zero divisors give unknown. *)
Theorem C22_exact_when_it_fits_partial : forall op l z, (length l <= 2)%nat -> Forall fits32 l ->
  exactInt op l = Some z -> fits32 z -> ~ (op = IMod /\ l = [-2147483648; -1]) -> intApply op (map Some l) = RKnown z.
Proof.
  intros op l z L F E Fz N. destruct l as [|x [|y [|w r]]]; [destruct op; discriminate| | |cbn in L; lia].
  - inversion F; subst. destruct op; cbn [exactInt map intApply ofOpt] in *; try discriminate; injection E as <-.
    + f_equal. unfold sumZ; cbn [fold_right]; lia.
    + apply mach_fits; exact Fz.
    + f_equal. unfold prodZ; cbn [fold_right]; lia.
    + reflexivity.
    + reflexivity.
    + destruct (x <? 0) eqn:X; [apply Z.ltb_lt in X; rewrite mach_fits by (replace (- x) with (Z.abs x) by lia; exact Fz); f_equal; lia|apply Z.ltb_ge in X; f_equal; lia].
  - inversion F as [|? ? Fx F']; subst. inversion F' as [|? ? Fy _]; subst. destruct op; cbn [exactInt map intApply int2 intMach] in *; try discriminate.
    + injection E as <-. unfold sumZ in *; cbn [fold_right] in *. rewrite mach_fits; [f_equal; lia|]. replace (x + y) with (x + (y + 0)) by lia; exact Fz.
    + injection E as <-. unfold sumZ in *; cbn [fold_right] in *. rewrite mach_fits; [f_equal; lia|]. replace (x - y) with (x - (y + 0)) by lia; exact Fz.
    + injection E as <-. unfold prodZ in *; cbn [fold_right] in *. rewrite mach_fits; [f_equal; lia|]. replace (x * y) with (x * (y * 1)) by lia; exact Fz.
    + destruct (y =? 0); [discriminate|]. injection E as <-. apply mach_fits; exact Fz.
    + destruct (y =? 0) eqn:Y; [discriminate|]. apply Z.eqb_neq in Y. injection E as <-. rewrite mach_fits; [reflexivity|]. apply quot_fits; try assumption.
      intros [-> ->]. apply N. auto.
    + injection E as <-. unfold list_min; cbn [fold_left]. destruct (x <? y) eqn:X; [apply Z.ltb_lt in X|apply Z.ltb_ge in X]; f_equal; lia.
    + injection E as <-. unfold list_max; cbn [fold_left]. rewrite Z.gtb_ltb. destruct (y <? x) eqn:X; [apply Z.ltb_lt in X|apply Z.ltb_ge in X]; f_equal; lia.
Qed.
Theorem C22_unknown_if : forall op a b, op <> IAbs -> a = None \/ b = None \/ ((op = IDiv \/ op = IMod) /\ b = Some 0) ->
  intApply op [a; b] = RUnknown.
Proof.
  intros op a b N H. assert (E2 : intApply op [a; b] = int2 (intMach op) a b) by (destruct op, a; congruence || reflexivity). rewrite E2.
  destruct H as [->|[->|[[->| ->] ->]]]; try (destruct a); reflexivity.
Qed.
(** Any number of operands: minimum and maximum are always exact; sums and differences are exact
    whenever the sum of the magnitudes fits in 32 bits. *)
Theorem C22_nary_min_max : forall op x l, op = IMin \/ op = IMax -> Forall fits32 (x :: l) ->
  intApply op (map Some (x :: l)) = RKnown (if match op with IMin => true | _ => false end then list_min x l else list_max x l).
Proof.
  intros op x l O F.
  assert (LP : forall l acc, intLoop (intStep op) acc (map Some l) = RKnown (if match op with IMin => true | _ => false end then list_min acc l else list_max acc l)).
  { clear F. intros q. induction q as [|y r IH]; intros acc; cbn [map intLoop]; [destruct O as [-> | ->]; reflexivity|].
    destruct O as [-> | ->]; cbn [intStep rbind]; rewrite IH; unfold list_min, list_max; cbn [fold_left]; do 2 f_equal.
    - destruct (y <? acc) eqn:X; [apply Z.ltb_lt in X|apply Z.ltb_ge in X]; lia.
    - rewrite Z.gtb_ltb. destruct (acc <? y) eqn:X; [apply Z.ltb_lt in X|apply Z.ltb_ge in X]; lia. }
  destruct l as [|y [|w r]].
  - destruct O as [-> | ->]; reflexivity.
  - destruct O as [-> | ->]; cbn [map intApply int2 intMach list_min list_max fold_left]; f_equal.
    + destruct (x <? y) eqn:X; [apply Z.ltb_lt in X|apply Z.ltb_ge in X]; lia.
    + rewrite Z.gtb_ltb. destruct (y <? x) eqn:X; [apply Z.ltb_lt in X|apply Z.ltb_ge in X]; lia.
  - rewrite <- LP. destruct O as [-> | ->]; reflexivity.
Qed.
Definition magnitude (l : list Z) : Z := sumZ (map Z.abs l).
Lemma magnitude_nonneg l : 0 <= magnitude l.
Proof. unfold magnitude, sumZ. induction l as [|x r IH]; cbn [map fold_right]; lia. Qed.
Lemma sum_le_magnitude l : Z.abs (sumZ l) <= magnitude l.
Proof. unfold magnitude, sumZ. induction l as [|x r IH]; cbn [map fold_right]; lia. Qed.
Theorem C22_nary_sum_partial : forall op x l, op = IAdd \/ op = ISub -> l <> [] -> magnitude (x :: l) <= 2147483647 ->
  intApply op (map Some (x :: l)) = RKnown (match op with IAdd => x + sumZ l | _ => x - sumZ l end).
Proof.
  intros op x l O N M.
  assert (MC : forall y r, magnitude (y :: r) = Z.abs y + magnitude r) by reflexivity.
  assert (LP : forall l acc, Z.abs acc + magnitude l <= 2147483647 ->
    intLoop (intStep op) acc (map Some l) = RKnown (match op with IAdd => acc + sumZ l | _ => acc - sumZ l end)).
  { clear M N. induction l0 as [|y r IH]; intros acc B; cbn [map intLoop].
    - unfold sumZ; cbn [fold_right]. destruct O as [-> | ->]; f_equal; lia.
    - rewrite MC in B. pose proof (magnitude_nonneg r). destruct O as [-> | ->]; cbn [intStep intMach];
      (rewrite mach_fits by (unfold fits32; lia)); cbn [rbind]; rewrite IH by lia; unfold sumZ; cbn [fold_right]; f_equal; lia. }
  rewrite MC in M. destruct l as [|y [|w r]]; [congruence| |].
  - rewrite MC in M. pose proof (magnitude_nonneg []). destruct O as [-> | ->]; cbn [map intApply int2 intMach]; rewrite mach_fits by (unfold fits32; lia); unfold sumZ; cbn [fold_right]; f_equal; lia.
  - pose proof (magnitude_nonneg (y :: w :: r)). destruct O as [-> | ->].
    + change (intApply IAdd (map Some (x :: y :: w :: r))) with (intLoop (intStep IAdd) 0 (map Some (x :: y :: w :: r))).
      rewrite LP by (rewrite (MC x); lia). unfold sumZ; cbn [fold_right]; f_equal; lia.
    + change (intApply ISub (map Some (x :: y :: w :: r))) with (intLoop (intStep ISub) x (map Some (y :: w :: r))).
      rewrite LP by lia. reflexivity.
Qed.
(** Defects: overflow is neither exact nor reported (undefined behaviour), even where the exact
    result fits: an intermediate sum overflows, or INT_MIN % -1 (exactly 0) traps. *)
Theorem C22_overflow_refuted :
  (forall x y, fits32 x -> fits32 y -> ~ fits32 (x + y) -> intApply IAdd [Some x; Some y] = RUB) /\
  intApply ISub [Some (-2147483648)] = RUB /\ intApply IAbs [Some (-2147483648)] = RUB /\
  intApply IDiv [Some (-2147483648); Some (-1)] = RUB.
Proof.
  split; [|repeat split]. intros x y _ _ N. cbn [intApply int2 intMach]. unfold mach. destruct (inInt (x + y)) eqn:E; [apply inInt_fits in E; contradiction|reflexivity].
Qed.
Theorem C22_fits_but_undefined_refuted :
  (exactInt IAdd [2147483647; 1; -1] = Some 2147483647 /\ intApply IAdd (map Some [2147483647; 1; -1]) = RUB) /\
  (exactInt IMod [-2147483648; -1] = Some 0 /\ intApply IMod (map Some [-2147483648; -1]) = RUB).
Proof. repeat split. Qed.
Example C22_example : intApply ISub (map Some [10; 3; 4; -5]) = RKnown 8 /\ intApply IDiv [Some (-7); Some 2] = RKnown (-3)
  /\ intApply IMod [Some (-7); Some 2] = RKnown (-1) /\ intApply IMul [Some 3; None; Some 4] = RUnknown
  /\ intApply IMax (map Some [3; 9; -2]) = RKnown 9 /\ magnitude [10; 3; 4; -5] <= 2147483647.
Proof. repeat split; vm_compute; congruence. Qed.

(** * C34: Real to Integer *)
Definition rounds (op : convOp) : Z -> Z -> Prop :=
  match op with CCeil => is_ceiling | CFloor => is_floor | CRound => is_round | CTrunc => is_trunc end.
Lemma SC_pos : 0 < S1074. Proof. unfold S1074. apply Z.pow_pos_nonneg; lia. Qed.
Lemma SC_eq : SC = S1074. Proof. reflexivity. Qed.
Lemma floor_spec k : is_floor k (k / S1074).
Proof. pose proof SC_pos. unfold is_floor. pose proof (Z.mul_div_le k S1074 H). pose proof (Z.mul_succ_div_gt k S1074 H). lia. Qed.
Lemma floor_uniq k z z' : is_floor k z -> is_floor k z' -> z = z'.
Proof. pose proof SC_pos. unfold is_floor. nia. Qed.
Lemma ceil_uniq k z z' : is_ceiling k z -> is_ceiling k z' -> z = z'.
Proof. pose proof SC_pos. unfold is_ceiling. nia. Qed.
Lemma ceil_spec k : is_ceiling k (- ((- k) / S1074)).
Proof. pose proof (floor_spec (- k)) as F. unfold is_floor, is_ceiling in *. lia. Qed.
Lemma trunc_spec k : is_trunc k (Z.quot k S1074).
Proof.
  pose proof SC_pos. split; intros H1.
  - rewrite Z.quot_div_nonneg by lia. apply floor_spec.
  - replace k with (- - k) at 2 by lia. rewrite Z.quot_opp_l by lia. rewrite Z.quot_div_nonneg by lia. apply ceil_spec.
Qed.
Lemma trunc_uniq k z z' : is_trunc k z -> is_trunc k z' -> z = z'.
Proof.
  intros [A B] [A' B']. destruct (Z_le_gt_dec 0 k) as [K|K]; [eapply floor_uniq; eauto|eapply ceil_uniq; [apply B|apply B']; lia].
Qed.
Lemma round_uniq k z z' : is_round k z -> is_round k z' -> z = z'.
Proof.
  pose proof SC_pos as S. unfold is_round. generalize dependent S1074. intros s S H H'.
  destruct (Z.lt_trichotomy z z') as [L|[->|L]]; [exfalso|reflexivity|exfalso].
  - assert (z * s + s <= z' * s) by nia. assert (P : 0 <= z' \/ z' < 0) by lia. destruct H, H'; try lia.
    destruct P; [assert (0 <= z' * s) by nia|assert (z * s < 0) by nia]; nia.
  - assert (z' * s + s <= z * s) by nia. destruct H, H'; try lia.
    assert (P : 0 <= z' \/ z' < 0) by lia. destruct P; nia.
Qed.
Lemma round_spec k : is_round k (if 0 <=? k then (2 * k + S1074) / (2 * S1074) else - ((2 * (- k) + S1074) / (2 * S1074))).
Proof.
  pose proof SC_pos as S. unfold is_round. generalize dependent S1074. intros s S.
  assert (D : forall j, 0 <= j -> let z := (2 * j + s) / (2 * s) in 0 <= z /\ 2 * s * z <= 2 * j + s < 2 * s * z + 2 * s).
  { intros j J z. assert (P : 0 < 2 * s) by lia. pose proof (Z.mul_div_le (2 * j + s) (2 * s) P). pose proof (Z.mul_succ_div_gt (2 * j + s) (2 * s) P).
    assert (0 <= z) by (apply Z.div_pos; lia). fold z in H, H0. lia. }
  destruct (0 <=? k) eqn:K; [apply Z.leb_le in K|apply Z.leb_gt in K].
  - specialize (D k K). cbv zeta in D. set (z := (2 * k + s) / (2 * s)) in *. clearbody z. destruct D as [D0 [D1 D2]].
    rewrite (Z.abs_eq k), (Z.abs_eq z) by lia. destruct (Z.eq_dec (2 * s * z) (2 * k + s)); [right; lia|left; lia].
  - specialize (D (- k) ltac:(lia)). cbv zeta in D. set (z := (2 * (- k) + s) / (2 * s)) in *. clearbody z. destruct D as [D0 [D1 D2]].
    rewrite (Z.abs_neq k), (Z.abs_neq (- z)) by lia. destruct (Z.eq_dec (2 * s * z) (2 * (- k) + s)); [right; lia|left; lia].
Qed.
Definition convZ (op : convOp) (k : Z) : Z :=
  match op with
  | CFloor => k / SC | CCeil => - ((- k) / SC) | CTrunc => Z.quot k SC
  | CRound => if 0 <=? k then (2 * k + SC) / (2 * SC) else - ((2 * (- k) + SC) / (2 * SC))
  end.
Lemma convZ_spec op k : rounds op k (convZ op k).
Proof. destruct op; cbn [rounds convZ]; rewrite SC_eq; [apply ceil_spec|apply floor_spec|apply round_spec|apply trunc_spec]. Qed.
Lemma rounds_uniq op k z z' : rounds op k z -> rounds op k z' -> z = z'.
Proof. destruct op; cbn [rounds]; [apply ceil_uniq|apply floor_uniq|apply round_uniq|apply trunc_uniq]. Qed.
Lemma realToInt_Fin k : realToInt (Some (Fin k)) = RUnknown \/ exists z, realToInt (Some (Fin k)) = RKnown z.
Proof. unfold realToInt. destruct (_ || _); [tauto|]. cbv zeta. destruct (_ =? 0); [right; eexists; reflexivity|tauto]. Qed.
Lemma realToInt_known k z : realToInt (Some (Fin k)) = RKnown z <-> is_exact k z /\ fits32 z.
Proof.
  pose proof SC_pos as S. unfold realToInt, is_exact, fits32. cbn [oext_lt ikey ext_lt]. fold SC. rewrite SC_eq.
  unfold INT_MIN, INT_MAX. change (- 2 ^ 31) with (-2147483648); change (2 ^ 31 - 1) with 2147483647. generalize dependent S1074. intros s S.
  destruct (k <? -2147483648 * s) eqn:A; [apply Z.ltb_lt in A|apply Z.ltb_ge in A]; cbn [orb].
  { split; [discriminate|]. nia. }
  destruct (2147483647 * s <? k) eqn:B; [apply Z.ltb_lt in B|apply Z.ltb_ge in B].
  { split; [discriminate|]. nia. }
  pose proof (Z.quot_rem k s ltac:(lia)) as Q. cbv zeta.
  destruct (k - Z.quot k s * s =? 0) eqn:C; [apply Z.eqb_eq in C|apply Z.eqb_neq in C].
  - split; [intros [= <-]; split; [lia|]|].
    + set (q := Z.quot k s) in *. clearbody q. nia.
    + intros [-> F]. rewrite Z.quot_mul by lia. reflexivity.
  - split; [discriminate|]. intros [-> F]. exfalso. apply C. rewrite Z.quot_mul by lia. lia.
Qed.
(** For every finite real operand: the Integer result of ceiling, floor, round and truncate is the
    correctly rounded integer when it fits in 32 bits and unknown otherwise. *)
Theorem C34_rounding : forall op r k, rkey r = Some (Fin k) ->
  (exists z, rounds op k z /\
     (fits32 z -> convInt op (Some (rkey r)) = RKnown z) /\ (~ fits32 z -> convInt op (Some (rkey r)) = RUnknown) /\
     convToReal op (Some (rkey r)) = RKnown (Some (ikey z))) /\
  (forall z z', rounds op k z -> rounds op k z' -> z = z').
Proof.
  intros op r k ->. split; [|apply rounds_uniq]. exists (convZ op k). split; [apply convZ_spec|].
  assert (E : convReal op (Some (Fin k)) = Some (Fin (convZ op k * SC))) by (unfold convReal, ikey; fold SC; destruct op; reflexivity).
  cbn [convInt convToReal]. rewrite E. split; [|split; [|reflexivity]].
  - intros F. apply realToInt_known. split; [rewrite SC_eq; reflexivity|exact F].
  - intros F. destruct (realToInt_Fin (convZ op k * SC)) as [->|[z Z]]; [reflexivity|]. exfalso. apply realToInt_known in Z. destruct Z as [X Y].
    unfold is_exact in X. rewrite SC_eq in X. pose proof SC_pos. apply Z.mul_reg_r in X; [|lia]. subst. contradiction.
Qed.
(** RealToInteger: exact or unknown. *)
Theorem C34_real_to_integer : forall r k z, rkey r = Some (Fin k) ->
  (realToInteger (Some (rkey r)) = RKnown z <-> is_exact k z /\ fits32 z) /\
  ((~ exists z, is_exact k z /\ fits32 z) -> realToInteger (Some (rkey r)) = RUnknown).
Proof.
  intros r k z ->. cbn [realToInteger]. split; [apply realToInt_known|]. intros N.
  destruct (realToInt_Fin k) as [E|[w E]]; [exact E|]. exfalso. apply N. exists w. apply realToInt_known. exact E.
Qed.
(** Unknown operands and infinities give unknown. *)
Theorem C34_unknown_and_infinite : forall op e, e = NInf \/ e = PInf ->
  convInt op None = RUnknown /\ realToInteger None = RUnknown /\
  convInt op (Some (Some e)) = RUnknown /\ realToInteger (Some (Some e)) = RUnknown.
Proof. intros op e [-> | ->]; destruct op; repeat split. Qed.
(** The defect (ConversionOperators.cc:47-50): a NaN passes both range tests and is cast. *)
Theorem C34_nan_refuted : forall op, exists r, rkey r = None /\ convInt op (Some (rkey r)) = RUB /\ realToInteger (Some (rkey r)) = RUB.
Proof. intros op. exists (2 ^ 63 - 1). destruct op; vm_compute; auto. Qed.
(** 2.5 = bit pattern 0x4004000000000000: ceiling 3, floor 2, round 3, trunc 2; not an integer.
    -2.5 rounds to -3; 2^31 (0x41E0...) does not fit. *)
Example C34_example :
  map (fun op => convInt op (Some (rkey 0x4004000000000000))) [CCeil; CFloor; CRound; CTrunc] = map RKnown [3; 2; 3; 2] /\
  realToInteger (Some (rkey 0x4004000000000000)) = RUnknown /\
  convInt CRound (Some (rkey 0xC004000000000000)) = RKnown (-3) /\
  convInt CFloor (Some (rkey 0x41E0000000000000)) = RUnknown /\ realToInteger (Some (rkey 0xC1E0000000000000)) = RKnown (-2147483648).
Proof. vm_compute. repeat split. Qed.

(** Assumptions *)
Print Assumptions C21_not.
Print Assumptions C21_and.
Print Assumptions C21_or_partial.
Print Assumptions C21_or_nary_refuted.
Print Assumptions C21_xor_partial.
Print Assumptions C21_xor_nary_refuted.
Print Assumptions C21_order_independent.
Print Assumptions C41_nested_kleene.
Print Assumptions C41_known_results_persist_partial.
Print Assumptions C41_or_retracts_refuted.
Print Assumptions C22_known_result_is_exact.
Print Assumptions C22_unknown_only_if.
Print Assumptions C22_exact_when_it_fits_partial.
Print Assumptions C22_unknown_if.
Print Assumptions C22_nary_min_max.
Print Assumptions C22_nary_sum_partial.
Print Assumptions C22_overflow_refuted.
Print Assumptions C22_fits_but_undefined_refuted.
Print Assumptions C34_rounding.
Print Assumptions C34_real_to_integer.
Print Assumptions C34_unknown_and_infinite.
Print Assumptions C34_nan_refuted.
