(** C19, C20: equality and ordering of values, arrays and states. *)
From Verif Require Import ValueModel.

(** ** Specification *)
(** A boolean relation is a strict weak order on [P]: irreflexive, asymmetric, transitive, and
    incomparability is transitive -- the requirements of std::map and std::sort. *)
Record strict_weak_order {A} (P : A -> Prop) (lt : A -> A -> bool) : Prop := {
  swo_irrefl : forall a, P a -> lt a a = false;
  swo_asym : forall a b, P a -> P b -> lt a b = true -> lt b a = false;
  swo_trans : forall a b c, P a -> P b -> P c -> lt a b = true -> lt b c = true -> lt a c = true;
  swo_incomp : forall a b c, P a -> P b -> P c ->
    lt a b = false -> lt b a = false -> lt b c = false -> lt c b = false -> lt a c = false /\ lt c a = false }.

Definition notNaN (r : Z) : Prop := rkey r <> None.
Definition array_ok {T} (P : T -> Prop) (a : arr T) : Prop := length (a_cont a) = length (a_known a) /\ Forall P (a_cont a).
(** Values without NaN, with a legal type code, arrays with as many contents as flags. *)
Definition ordinary (v : val) : Prop :=
  match v with
  | VUnk t => 0 <= t <= 52
  | VReal r => notNaN r
  | VBoolArr a => array_ok (fun _ => True) a
  | VIntArr a => array_ok (fun _ => True) a
  | VRealArr a => array_ok notNaN a
  | VStrArr a => array_ok (fun _ => True) a
  | _ => True
  end.
(** Array shape only (NaN allowed). *)

(** ** Compositional proof of strict weak order: asymmetry and "a < c implies a < b or b < c". *)
Definition good {A} (P : A -> Prop) (lt : A -> A -> bool) : Prop :=
  (forall a b, P a -> P b -> lt a b = true -> lt b a = false) /\
  (forall a b c, P a -> P b -> P c -> lt a c = true -> lt a b = true \/ lt b c = true).
Lemma good_swo {A} (P : A -> Prop) lt : good P lt -> strict_weak_order P lt.
Proof.
  intros [AS CO]. constructor.
  - intros a Pa. destruct (lt a a) eqn:E; auto. pose proof (AS a a Pa Pa E). congruence.
  - auto.
  - intros a b c Pa Pb Pc AB BC. destruct (CO a c b Pa Pc Pb AB); auto. apply AS in H; auto. congruence.
  - intros a b c Pa Pb Pc AB BA BC CB. split.
    + destruct (lt a c) eqn:E; auto. destruct (CO a b c Pa Pb Pc E); congruence.
    + destruct (lt c a) eqn:E; auto. destruct (CO c b a Pc Pb Pa E); congruence.
Qed.
Lemma good_sub {A} (P Q : A -> Prop) lt : (forall a, Q a -> P a) -> good P lt -> good Q lt.
Proof. intros H [X Y]. split; intros; [eapply X|eapply Y]; eauto. Qed.
Lemma good_map {A B} (f : A -> B) (P : B -> Prop) lt : good P lt -> good (fun a => P (f a)) (fun a b => lt (f a) (f b)).
Proof. intros [X Y]. split; intros; [eapply X|eapply Y]; eauto. Qed.
Lemma good_ext {A} (P : A -> Prop) lt lt' : (forall a b, P a -> P b -> lt a b = lt' a b) -> good P lt -> good P lt'.
Proof.
  intros E [X Y]. split.
  - intros a b Pa Pb. rewrite <- !E by auto. auto.
  - intros a b c Pa Pb Pc. rewrite <- !E by auto. auto.
Qed.
(** Lexicographic combination, where the second comparison is only known good among equals of the first. *)
Definition lex {A} (l1 l2 : A -> A -> bool) (a b : A) : bool := if l1 a b then true else if l1 b a then false else l2 a b.
Lemma good_lex {A} (P : A -> Prop) l1 l2 : good P l1 ->
  (forall r, P r -> good (fun x => P x /\ l1 r x = false /\ l1 x r = false) l2) -> good P (lex l1 l2).
Proof.
  intros G1 G2. pose proof (good_swo _ _ G1) as [I1 A1 T1 N1]. destruct G1 as [X1 Y1]. unfold lex. split.
  - intros a b Pa Pb. destruct (l1 a b) eqn:AB.
    + rewrite (X1 a b) by auto. auto.
    + destruct (l1 b a) eqn:BA; [discriminate|].
      destruct (G2 a Pa) as [X2 _]. apply X2; repeat split; auto.
  - intros a b c Pa Pb Pc. destruct (l1 a c) eqn:AC.
    + intros _. destruct (Y1 a b c Pa Pb Pc AC) as [H|H]; rewrite H; auto.
    + destruct (l1 c a) eqn:CA; [discriminate|]. intros H.
      destruct (l1 a b) eqn:AB; auto. destruct (l1 b c) eqn:BC; auto.
      destruct (l1 b a) eqn:BA. { destruct (Y1 b c a Pb Pc Pa BA); congruence. }
      destruct (l1 c b) eqn:CB. { destruct (Y1 c a b Pc Pa Pb CB); congruence. }
      destruct (G2 a Pa) as [_ Y2]. apply Y2; repeat split; auto.
Qed.
Lemma good_Zlt (P : Z -> Prop) : good P Z.ltb.
Proof. split; intros; rewrite ?Z.ltb_lt, ?Z.ltb_ge in *; lia. Qed.
Lemma good_natlt (P : nat -> Prop) : good P Nat.ltb.
Proof. split; intros; rewrite ?Nat.ltb_lt, ?Nat.ltb_ge in *; lia. Qed.
Lemma good_bool (P : bool -> Prop) : good P bool_lt.
Proof. split; intros [] []; try intros []; simpl; auto; discriminate. Qed.
Lemma good_ext_lt (P : ext -> Prop) : good P ext_lt.
Proof.
  split; intros [|x|] [|y|]; try intros [|z|]; simpl; auto; try discriminate; intros; rewrite ?Z.ltb_lt, ?Z.ltb_ge in *; try lia.
Qed.
Lemma good_oext : good (fun x => x <> None) oext_lt.
Proof.
  destruct (good_ext_lt (fun _ => True)) as [X Y].
  split; intros [a|] [b|]; try intros [c|]; simpl; try congruence; eauto.
Qed.
Lemma good_rlt : good notNaN rlt.
Proof. apply (good_map rkey _ oext_lt good_oext). Qed.

(** Lists of the same length compared element by element. *)
Fixpoint llt {A} (lt : A -> A -> bool) (a b : list A) : bool :=
  match a, b with
  | x :: a', y :: b' => if lt x y then true else if lt y x then false else llt lt a' b'
  | _, _ => false
  end.
Lemma good_llt {A} (P : A -> Prop) lt : good P lt -> forall n, good (fun l => length l = n /\ Forall P l) (llt lt).
Proof.
  intros [X Y]. pose proof (good_swo P lt (conj X Y)) as [I _ T _].
  induction n as [|n [IX IY]].
  - split; intros [|] [|]; try intros [|]; simpl; intuition; discriminate.
  - split.
    + intros [|x a] [|y b] [La Fa] [Lb Fb]; try discriminate. inversion_clear Fa. inversion_clear Fb. injection La as La. injection Lb as Lb. simpl.
      destruct (lt x y) eqn:E1. { rewrite (X x y) by auto. auto. }
      destruct (lt y x) eqn:E2; [discriminate|]. auto.
    + intros [|x a] [|y b] [|z c] [La Fa] [Lb Fb] [Lc Fc]; try discriminate. inversion_clear Fa. inversion_clear Fb. inversion_clear Fc.
      injection La as La. injection Lb as Lb. injection Lc as Lc. simpl.
      destruct (lt x z) eqn:E1.
      { intros _. destruct (Y x y z H H1 H3 E1) as [Q|Q]; rewrite Q; auto. }
      destruct (lt z x) eqn:E2; [discriminate|]. intros L.
      destruct (lt x y) eqn:E3; auto. destruct (lt y z) eqn:E4; auto.
      destruct (lt y x) eqn:E5. { destruct (Y y z x); auto; congruence. }
      destruct (lt z y) eqn:E6. { destruct (Y z x y); auto; congruence. }
      apply (IY a b c); auto.
Qed.
(** Strings of any lengths. *)
Lemma good_sltb : good (fun _ => True) sltb.
Proof.
  split.
  - induction a as [|x a IH]; intros [|y b] _ _; simpl; auto; try discriminate.
    destruct (Z.ltb_spec x y), (Z.ltb_spec y x); auto; try lia; try discriminate.
  - induction a as [|x a IH]; intros [|y b] [|z c] _ _ _; simpl; auto; try discriminate.
    destruct (Z.ltb_spec x z), (Z.ltb_spec z x), (Z.ltb_spec x y), (Z.ltb_spec y x), (Z.ltb_spec y z), (Z.ltb_spec z y); auto; try lia; try discriminate.
Qed.

(** Arrays: each element is (known, content); unknown elements are all alike. *)
Definition elt_lt {T} (lt : T -> T -> bool) (a b : bool * T) : bool :=
  lex (fun x y : bool * T => bool_lt (fst x) (fst y)) (fun x y => fst x && lt (snd x) (snd y)) a b.
Lemma good_elt {T} (P : T -> Prop) lt : good P lt -> good (fun x : bool * T => P (snd x)) (elt_lt lt).
Proof.
  intros G. apply good_lex.
  - apply (good_map fst (fun _ => True) bool_lt (good_bool _)) || (split; intros [[] ?] [[] ?]; try intros [[] ?]; simpl; auto; discriminate).
  - intros [k r] Pr. destruct G as [X Y]. split.
    + intros [[] a] [[] b]; destruct k; simpl; intros [Pa [A1 A2]] [Pb [B1 B2]]; try discriminate; auto.
    + intros [[] a] [[] b] [[] c]; destruct k; simpl; intros [Pa [A1 A2]] [Pb [B1 B2]] [Pc [C1 C2]]; try discriminate; auto.
Qed.
Lemma arr_loop_llt {T} (lt : T -> T -> bool) : forall ka kb ca cb,
  length ca = length ka -> length cb = length kb -> length ka = length kb ->
  arr_lt_loop lt ka kb ca cb = llt (elt_lt lt) (combine ka ca) (combine kb cb).
Proof.
  induction ka as [|x ka IH]; intros [|y kb] [|u ca] [|v cb] L1 L2 L3; try discriminate; auto.
  simpl. injection L1 as L1. injection L2 as L2. injection L3 as L3. unfold elt_lt, lex, bool_lt. simpl.
  rewrite (IH kb ca cb) by auto. destruct x, y; simpl; auto; destruct (lt u v), (lt v u); auto.
Qed.
Lemma good_arr {T} (P : T -> Prop) lt : good P lt -> good (array_ok P) (arr_lt lt).
Proof.
  intros G.
  apply (good_ext _ (lex (fun a b : arr T => (length (a_known a) <? length (a_known b))%nat)
            (fun a b => llt (elt_lt lt) (combine (a_known a) (a_cont a)) (combine (a_known b) (a_cont b))))).
  - intros a b [La _] [Lb _]. unfold lex, arr_lt.
    destruct (Nat.ltb_spec (length (a_known a)) (length (a_known b))), (Nat.ltb_spec (length (a_known b)) (length (a_known a))); auto.
    symmetry. apply arr_loop_llt; auto. lia.
  - apply good_lex.
    + eapply good_sub; [|apply (good_map (fun a : arr T => length (a_known a)) (fun _ => True) Nat.ltb (good_natlt _))]. intros; exact I.
    + intros r Pr. eapply good_sub; [|apply (good_map (fun a : arr T => combine (a_known a) (a_cont a)) _ _ (good_llt _ _ (good_elt P lt G) (length (a_known r))))].
      intros a ([La Fa] & H1 & H2). apply Nat.ltb_ge in H1, H2. split.
      * rewrite combine_length. lia.
      * apply Forall_forall. intros [k x] I. apply in_combine_r in I. rewrite Forall_forall in Fa. apply (Fa x I).
Qed.

(** Values: unknown before known; then type (Integer and Real counting as one for known values); then contents. *)
Definition rank (v : val) : Z :=
  match v with VUnk t => t | VReal _ => 1000 + INTEGER_TYPE | _ => 1000 + vtype v end.
Definition within (a b : val) : bool :=
  match a, b with
  | VInt x, VInt y => x <? y
  | VInt x, VReal y => oext_lt (Some (ikey x)) (rkey y)
  | VReal x, VInt y => oext_lt (rkey x) (Some (ikey y))
  | VReal x, VReal y => rlt x y
  | VBool x, VBool y => bool_lt x y
  | VNodeState x, VNodeState y => x <? y | VOutcome x, VOutcome y => x <? y
  | VFailure x, VFailure y => x <? y | VHandle x, VHandle y => x <? y
  | VStr x, VStr y => sltb x y
  | VBoolArr x, VBoolArr y => arr_lt bool_lt x y | VIntArr x, VIntArr y => arr_lt Z.ltb x y
  | VRealArr x, VRealArr y => arr_lt rlt x y | VStrArr x, VStrArr y => arr_lt sltb x y
  | _, _ => false
  end.
Lemma vlt_lex a b : ordinary a -> ordinary b -> vlt a b = lex (fun x y => rank x <? rank y) within a b.
Proof.
  intros Ha Hb. unfold lex.
  destruct a as [ta| | | | | | | | | | | |], b as [tb| | | | | | | | | | | |]; try reflexivity.
  { simpl in *. unfold vlt, vtype, vknown. simpl. unfold INTEGER_TYPE, REAL_TYPE.
    destruct (Z.eqb_spec ta 2), (Z.eqb_spec ta 3), (Z.eqb_spec ta tb), (Z.eqb_spec tb 3), (Z.eqb_spec tb 2), (Z.ltb_spec ta tb), (Z.ltb_spec tb ta); auto; lia. }
  all: simpl in *; unfold vlt, vtype, vknown; simpl;
    repeat match goal with |- context [?x <? ?y] => destruct (Z.ltb_spec x y) end; auto; unfold INTEGER_TYPE, REAL_TYPE, BOOLEAN_TYPE, STRING_TYPE, NODE_STATE_TYPE, OUTCOME_TYPE, FAILURE_TYPE, COMMAND_HANDLE_TYPE, BOOLEAN_ARRAY_TYPE, INTEGER_ARRAY_TYPE, REAL_ARRAY_TYPE, STRING_ARRAY_TYPE in *; lia.
Qed.
(** All numbers on one scale. *)
Definition nkey (v : val) : option ext := match v with VInt n => Some (ikey n) | VReal r => rkey r | _ => None end.
Lemma ikey_lt x y : ext_lt (ikey x) (ikey y) = (x <? y).
Proof.
  unfold ikey, ext_lt. destruct (Z.ltb_spec x y); [apply Z.ltb_lt|apply Z.ltb_ge].
  - apply Z.mul_lt_mono_pos_r; auto. apply Z.pow_pos_nonneg; lia.
  - apply Z.mul_le_mono_nonneg_r; auto. apply Z.pow_nonneg; lia.
Qed.
Lemma good_within r : good (fun x => ordinary x /\ (rank r <? rank x) = false /\ (rank x <? rank r) = false) within.
Proof.
  assert (NUM : good (fun v => nkey v <> None) (fun a b => oext_lt (nkey a) (nkey b))) by apply (good_map nkey _ _ good_oext).
  pose proof (good_Zlt (fun _ => True)) as GZ. pose proof (good_bool (fun _ => True)) as GB. pose proof good_sltb as GS.
  pose proof (good_arr (fun _ => True) _ (good_bool _)) as GBA. pose proof (good_arr (fun _ => True) _ (good_Zlt _)) as GIA.
  pose proof (good_arr _ _ good_rlt) as GRA. pose proof (good_arr _ _ good_sltb) as GSA.
  assert (WN : forall a b, (exists n, a = VInt n) \/ (exists r, a = VReal r) -> (exists n, b = VInt n) \/ (exists r, b = VReal r) -> within a b = oext_lt (nkey a) (nkey b)).
  { intros a b [[x ->]|[x ->]] [[y ->]|[y ->]]; try reflexivity. unfold within, nkey, oext_lt. now rewrite ikey_lt. }
  assert (K : forall a b, (rank r <? rank a) = false -> (rank a <? rank r) = false -> (rank r <? rank b) = false -> (rank b <? rank r) = false -> rank a = rank b)
    by (intros; rewrite ?Z.ltb_ge in *; lia).
  split.
  - intros a b [Oa [A1 A2]] [Ob [B1 B2]]. pose proof (K a b A1 A2 B1 B2) as R. clear A1 A2 B1 B2 K.
    destruct a; destruct b; try discriminate R; try discriminate; auto;
      try (simpl; auto; fail);
      try (rewrite !WN by eauto; apply NUM; simpl; try discriminate; auto).
    all: simpl in *.
    + apply GB; auto.
    + apply GS; auto.
    + apply GZ; auto.
    + apply GZ; auto.
    + apply GZ; auto.
    + apply GZ; auto.
    + apply GBA; auto.
    + apply GIA; auto.
    + apply GRA; auto.
    + apply GSA; auto.
  - intros a b c [Oa [A1 A2]] [Ob [B1 B2]] [Oc [C1 C2]].
    pose proof (K a b A1 A2 B1 B2) as R. pose proof (K a c A1 A2 C1 C2) as R2. clear A1 A2 B1 B2 C1 C2 K.
    destruct a; destruct c; try discriminate R2; try discriminate; destruct b; try discriminate R;
      try (simpl in *; lia);
      try (rewrite !WN by eauto; apply NUM; simpl; try discriminate; auto).
    all: simpl in *; try (apply GB; auto; fail); try (apply GS; auto; fail); try (apply GZ; auto; fail);
      try (apply GBA; auto; fail); try (apply GIA; auto; fail); try (apply GRA; auto; fail); try (apply GSA; auto; fail).
Qed.
Lemma good_vlt : good ordinary vlt.
Proof.
  apply (good_ext _ (lex (fun x y => rank x <? rank y) within)).
  - intros. symmetry. now apply vlt_lex.
  - apply good_lex.
    + eapply good_sub; [|apply (good_map rank (fun _ => True) Z.ltb (good_Zlt _))]. intros; exact I.
    + intros r _. apply good_within.
Qed.

(** ** C20 *)
(** The order on values is a strict weak order as long as no NaN occurs. *)
Theorem C20_value_order_partial : strict_weak_order ordinary vlt.
Proof. apply good_swo, good_vlt. Qed.
(** Arrays, for any element order that is one. *)
Theorem C20_array_order_partial :
  strict_weak_order (array_ok (fun _ => True)) (arr_lt bool_lt) /\ strict_weak_order (array_ok (fun _ => True)) (arr_lt Z.ltb) /\
  strict_weak_order (array_ok notNaN) (arr_lt rlt) /\ strict_weak_order (array_ok (fun _ => True)) (arr_lt sltb).
Proof.
  split; [|split; [|split]]; apply good_swo, good_arr; [apply good_bool|apply good_Zlt|apply good_rlt|apply good_sltb].
Qed.
(** States (keys of the lookup cache and command maps). *)
Theorem C20_state_order_partial : strict_weak_order (fun s => Forall ordinary (s_params s)) state_lt.
Proof.
  apply good_swo.
  apply (good_ext _ (lex (fun a b => sltb (s_name a) (s_name b))
    (lex (fun a b => (length (s_params a) <? length (s_params b))%nat) (fun a b => llt vlt (s_params a) (s_params b))))).
  - assert (E : forall a b, params_lt a b = llt vlt a b) by (induction a; intros [|]; simpl; auto; rewrite IHa; auto).
    intros a b _ _. unfold state_lt, lex. now rewrite E.
  - apply good_lex.
    + eapply good_sub; [|apply (good_map s_name (fun _ => True) sltb good_sltb)]. intros; exact I.
    + intros r _. apply good_lex.
      * eapply good_sub; [|apply (good_map (fun s => length (s_params s)) (fun _ => True) Nat.ltb (good_natlt _))]. intros; exact I.
      * intros q _. eapply good_sub; [|apply (good_map s_params _ _ (good_llt _ _ good_vlt (length (s_params q))))].
        intros a ((F & _) & H1 & H2). apply Nat.ltb_ge in H1, H2. split; auto. lia.
Qed.
(** With a NaN the order breaks: 1 ~ NaN and NaN ~ 2 but 1 < 2. *)
Definition NaN : Z := 9221120237041090560.
Theorem C20_nan_refuted : ~ strict_weak_order (fun v => ordinary v \/ v = VReal NaN) vlt.
Proof.
  intros [_ _ _ H]. destruct (H (VInt 1) (VReal NaN) (VInt 2)); simpl; auto. discriminate.
Qed.
(** Two states that differ only in NaN against a number are one key for std::map. *)
Theorem C20_nan_states_collide : forall nm r, state_lt (mkState nm [VReal NaN]) (mkState nm [VReal r]) = false /\
  state_lt (mkState nm [VReal r]) (mkState nm [VReal NaN]) = false.
Proof.
  intros nm r. destruct good_sltb as [X _].
  assert (I0 : sltb nm nm = false). { destruct (sltb nm nm) eqn:E; auto. pose proof (X nm nm I I E). congruence. }
  assert (N : rkey NaN = None) by reflexivity.
  assert (V1 : vlt (VReal NaN) (VReal r) = rlt NaN r) by reflexivity.
  assert (V2 : vlt (VReal r) (VReal NaN) = rlt r NaN) by reflexivity.
  assert (R1 : rlt NaN r = false) by (unfold rlt; rewrite N; reflexivity).
  assert (R2 : rlt r NaN = false) by (unfold rlt; rewrite N; destruct (rkey r); reflexivity).
  unfold state_lt. cbn [s_name s_params length]. rewrite I0. cbn [Nat.ltb Nat.leb params_lt]. rewrite V1, V2, R1, R2. auto.
Qed.

(** ** C19 *)
Lemma vec_eq_refl {T} (P : T -> Prop) eq l : (forall x, P x -> eq x x = true) -> Forall P l -> vec_eq eq l l = true.
Proof. intros H F. induction F; simpl; auto. rewrite H, IHF; auto. Qed.
Lemma vec_eq_sym {T} (eq : T -> T -> bool) : (forall x y, eq x y = eq y x) -> forall a b, vec_eq eq a b = vec_eq eq b a.
Proof. intros H. induction a; intros [|y b]; simpl; auto. rewrite H, IHa. auto. Qed.
Lemma vec_eq_trans {T} (eq : T -> T -> bool) : (forall x y z, eq x y = true -> eq y z = true -> eq x z = true) ->
  forall a b c, vec_eq eq a b = true -> vec_eq eq b c = true -> vec_eq eq a c = true.
Proof.
  intros H. induction a; intros [|y b] [|z c]; simpl; auto; try discriminate.
  rewrite !andb_true_iff. intros [] []. split; eauto.
Qed.
Lemma ext_eq_iff a b : ext_eq a b = true <-> a = b.
Proof. destruct a, b; simpl; split; intros; try congruence; try discriminate. apply Z.eqb_eq in H. congruence. injection H as ->. apply Z.eqb_refl. Qed.
Lemma req_sym x y : req x y = req y x.
Proof. unfold req, oext_eq. destruct (rkey x), (rkey y); auto. destruct e, e0; simpl; auto. apply Z.eqb_sym. Qed.
Lemma req_trans x y z : req x y = true -> req y z = true -> req x z = true.
Proof. unfold req, oext_eq. destruct (rkey x), (rkey y), (rkey z); try discriminate; rewrite !ext_eq_iff. congruence. Qed.
Lemma req_refl x : notNaN x -> req x x = true.
Proof. unfold notNaN, req, oext_eq. destruct (rkey x); [|congruence]. intros _. now apply ext_eq_iff. Qed.
Lemma seqb_iff a : forall b, seqb a b = true <-> a = b.
Proof.
  induction a; intros [|y b]; simpl; split; intros; try congruence; try discriminate.
  - apply andb_true_iff in H as [H1 H2]. apply Z.eqb_eq in H1. apply IHa in H2. congruence.
  - injection H as -> ->. apply andb_true_iff. split; [apply Z.eqb_refl|now apply IHa].
Qed.
Lemma seqb_sym a b : seqb a b = seqb b a.
Proof. destruct (seqb a b) eqn:E. apply seqb_iff in E. subst. symmetry. now apply seqb_iff. destruct (seqb b a) eqn:F; auto. apply seqb_iff in F. subst. assert (seqb a a = true) by now apply seqb_iff. congruence. Qed.
Lemma eqb_symb x y : Bool.eqb x y = Bool.eqb y x.
Proof. destruct x, y; auto. Qed.
Lemma eqb_transb x y z : Bool.eqb x y = true -> Bool.eqb y z = true -> Bool.eqb x z = true.
Proof. destruct x, y, z; auto. Qed.
Lemma Zeqb_trans x y z : (x =? y) = true -> (y =? z) = true -> (x =? z) = true.
Proof. rewrite !Z.eqb_eq. congruence. Qed.
Lemma arr_eq_sym {T} (eq : T -> T -> bool) : (forall x y, eq x y = eq y x) -> forall a b, arr_eq eq a b = arr_eq eq b a.
Proof. intros H a b. unfold arr_eq. now rewrite (vec_eq_sym Bool.eqb eqb_symb), (vec_eq_sym eq H). Qed.
Lemma arr_eq_trans {T} (eq : T -> T -> bool) : (forall x y z, eq x y = true -> eq y z = true -> eq x z = true) ->
  forall a b c, arr_eq eq a b = true -> arr_eq eq b c = true -> arr_eq eq a c = true.
Proof.
  intros H a b c. unfold arr_eq. rewrite !andb_true_iff. intros [] []. split.
  eapply (vec_eq_trans Bool.eqb eqb_transb); eauto. eapply vec_eq_trans; eauto.
Qed.
Lemma arr_eq_refl {T} (P : T -> Prop) eq a : (forall x, P x -> eq x x = true) -> Forall P (a_cont a) -> arr_eq eq a a = true.
Proof.
  intros H F. unfold arr_eq. apply andb_true_iff. split; [|eapply vec_eq_refl; eauto].
  apply (vec_eq_refl (fun _ => True)); [intros []; auto|]. apply Forall_forall. auto.
Qed.

(** Equality of known values in plain terms. *)
Definition veqK (a b : val) : bool :=
  match a, b with
  | VUnk s, VUnk t => (s =? t) || ((s =? INTEGER_TYPE) && (t =? REAL_TYPE)) || ((s =? REAL_TYPE) && (t =? INTEGER_TYPE))
  | VInt x, VInt y => x =? y
  | VInt x, VReal y => oext_eq (rkey y) (Some (ikey x))
  | VReal x, VInt y => oext_eq (rkey x) (Some (ikey y))
  | VReal x, VReal y => req x y
  | VBool x, VBool y => Bool.eqb x y
  | VNodeState x, VNodeState y => x =? y | VOutcome x, VOutcome y => x =? y
  | VFailure x, VFailure y => x =? y | VHandle x, VHandle y => x =? y
  | VStr x, VStr y => seqb x y
  | VBoolArr x, VBoolArr y => arr_eq Bool.eqb x y | VIntArr x, VIntArr y => arr_eq Z.eqb x y
  | VRealArr x, VRealArr y => arr_eq req x y | VStrArr x, VStrArr y => arr_eq seqb x y
  | _, _ => false
  end.
Lemma veq_veqK a b : veq a b = veqK a b.
Proof.
  destruct a as [s| | | | | | | | | | | |], b as [t| | | | | | | | | | | |]; try reflexivity.
  unfold veq, veqK, vtype, vknown, INTEGER_TYPE, REAL_TYPE. simpl.
  destruct (Z.eqb_spec s 2), (Z.eqb_spec s 3), (Z.eqb_spec t s), (Z.eqb_spec s t), (Z.eqb_spec t 3), (Z.eqb_spec t 2); simpl; auto; lia.
Qed.

Theorem C19_reflexive : forall v, ordinary v -> veq v v = true.
Proof.
  intros v O. rewrite veq_veqK. destruct v; simpl in *; rewrite ?Z.eqb_refl; auto.
  - destruct b; auto.
  - now apply req_refl.
  - now apply seqb_iff.
  - destruct O. apply (arr_eq_refl (fun _ => True)); auto. intros []; auto.
  - destruct O. apply (arr_eq_refl (fun _ => True)); auto. intros; apply Z.eqb_refl.
  - destruct O. apply (arr_eq_refl notNaN); auto. apply req_refl.
  - destruct O. apply (arr_eq_refl (fun _ => True)); auto. intros; now apply seqb_iff.
Qed.
Theorem C19_symmetric : forall a b, veq a b = veq b a.
Proof.
  intros a b. rewrite !veq_veqK. destruct a, b; simpl; auto; try apply Z.eqb_sym; try apply eqb_symb; try apply req_sym; try apply seqb_sym.
  - destruct (Z.eqb_spec t t0), (Z.eqb_spec t0 t); try congruence; simpl; auto. destruct (t =? INTEGER_TYPE), (t =? REAL_TYPE), (t0 =? INTEGER_TYPE), (t0 =? REAL_TYPE); auto.
  - apply arr_eq_sym, eqb_symb.
  - apply arr_eq_sym, Z.eqb_sym.
  - apply arr_eq_sym, req_sym.
  - apply arr_eq_sym, seqb_sym.
Qed.
Lemma ikey_inj x y : ikey x = ikey y -> x = y.
Proof. unfold ikey. intros E. injection E as E. apply Z.mul_reg_r in E; auto. assert (0 < 2 ^ 1074) by (apply Z.pow_pos_nonneg; lia). lia. Qed.
Lemma oeq_iff x e : oext_eq x (Some e) = true <-> x = Some e.
Proof. destruct x; simpl; [rewrite ext_eq_iff; split; congruence|split; discriminate]. Qed.
Lemma req_iff x y : req x y = true <-> exists e, rkey x = Some e /\ rkey y = Some e.
Proof. unfold req. destruct (rkey y) eqn:E; [rewrite oeq_iff|destruct (rkey x); simpl]; split; intros; eauto; try discriminate; try (destruct H as (e0 & ? & ?); congruence). Qed.
Theorem C19_transitive : forall a b c, veq a b = true -> veq b c = true -> veq a c = true.
Proof.
  intros a b c. rewrite !veq_veqK.
  destruct a, b; try discriminate; destruct c; try discriminate; simpl; try apply Zeqb_trans; try apply eqb_transb; try apply req_trans.
  - unfold INTEGER_TYPE, REAL_TYPE. destruct (Z.eqb_spec t t0), (Z.eqb_spec t0 t1), (Z.eqb_spec t t1), (Z.eqb_spec t 2), (Z.eqb_spec t 3), (Z.eqb_spec t0 2), (Z.eqb_spec t0 3), (Z.eqb_spec t1 2), (Z.eqb_spec t1 3); simpl; auto; try lia; try discriminate.
  - rewrite Z.eqb_eq, !oeq_iff. intros -> H. auto.
  - rewrite Z.eqb_eq, !oeq_iff. intros H1 H2. apply ikey_inj. congruence.
  - rewrite req_iff, !oeq_iff. intros H1 (e & H2 & H3). congruence.
  - rewrite Z.eqb_eq, !oeq_iff. intros H ->. auto.
  - rewrite req_iff, !oeq_iff. intros. eauto.
  - rewrite req_iff, !oeq_iff. intros (e & H2 & H3) H. congruence.
  - rewrite !seqb_iff. congruence.
  - apply arr_eq_trans, eqb_transb.
  - apply arr_eq_trans, Zeqb_trans.
  - apply arr_eq_trans, req_trans.
  - apply arr_eq_trans. intros x y z. rewrite !seqb_iff. congruence.
Qed.
(** Integers equal exactly the reals with that numeric value. *)
Theorem C19_numeric : forall n r, veq (VInt n) (VReal r) = true <-> rkey r = Some (Fin (n * 2 ^ 1074)).
Proof. intros. rewrite veq_veqK. simpl. apply oeq_iff. Qed.
(** Unknown never equals known; two unknowns are equal when of the same type or both numbers. *)
Theorem C19_unknown : forall t v, veq (VUnk t) v = true <->
  exists u, v = VUnk u /\ (t = u \/ (t = INTEGER_TYPE /\ u = REAL_TYPE) \/ (t = REAL_TYPE /\ u = INTEGER_TYPE)).
Proof.
  intros t v. rewrite veq_veqK. destruct v; simpl; split; intros H; try discriminate; try (destruct H as (u & E & _); discriminate).
  - exists t0. split; auto. rewrite !orb_true_iff, !andb_true_iff, !Z.eqb_eq in H. tauto.
  - destruct H as (u & E & H). injection E as ->. rewrite !orb_true_iff, !andb_true_iff, !Z.eqb_eq. tauto.
Qed.
(** States: equality of states is an equivalence too. *)
Theorem C19_state_equality : 
  (forall s, Forall ordinary (s_params s) -> state_eq s s = true) /\ (forall a b, state_eq a b = state_eq b a) /\
  (forall a b c, state_eq a b = true -> state_eq b c = true -> state_eq a c = true).
Proof.
  unfold state_eq. repeat split.
  - intros s F. apply andb_true_iff. split; [now apply seqb_iff|]. apply (vec_eq_refl ordinary); auto. apply C19_reflexive.
  - intros. rewrite seqb_sym. f_equal. apply vec_eq_sym, C19_symmetric.
  - intros a b c. rewrite !andb_true_iff, !seqb_iff. intros [-> ] [-> ]. split; auto. eapply vec_eq_trans; eauto. apply C19_transitive.
Qed.

(** ** Equality and order do not agree *)
(** getElement, ArrayImpl.cc:262-270. *)
Definition getElement {T} (a : arr T) (i : nat) : option T :=
  match nth_error (a_known a) i with Some true => nth_error (a_cont a) i | _ => None end.
(** Array equality looks at contents of unknown elements: arrays no reader can tell apart
    (same size, same elements, neither less than the other) compare unequal. *)
Theorem C19_hidden_contents_refuted : exists a b : arr Z,
  array_ok (fun _ => True) a /\ array_ok (fun _ => True) b /\
  length (a_known a) = length (a_known b) /\ (forall i, getElement a i = getElement b i) /\
  veq (VIntArr a) (VIntArr b) = false /\ vlt (VIntArr a) (VIntArr b) = false /\ vlt (VIntArr b) (VIntArr a) = false.
Proof.
  exists (mkArr [false; true] [1; 5]), (mkArr [false; true] [2; 5]). unfold array_ok. simpl.
  repeat split; auto. intros [|[|i]]; auto.
Qed.
(** Unknown Integer and unknown Real are "equal" and yet one is less than the other. *)
Theorem C20_equal_but_less_refuted :
  veq (VUnk INTEGER_TYPE) (VUnk REAL_TYPE) = true /\ vlt (VUnk INTEGER_TYPE) (VUnk REAL_TYPE) = true.
Proof. split; reflexivity. Qed.
(** Apart from these, order and equality agree on known scalars: exactly one of <, ==, > holds. *)
Definition scalar (v : val) : Prop :=
  match v with VUnk _ | VBoolArr _ | VIntArr _ | VRealArr _ | VStrArr _ => False | _ => True end.
Lemma sltb_total a : forall b, sltb a b = false -> sltb b a = false -> a = b.
Proof.
  induction a; intros [|y b]; simpl; auto; try discriminate.
  destruct (Z.ltb_spec a y), (Z.ltb_spec y a); try discriminate; try lia. intros. f_equal; [lia|auto].
Qed.
Theorem C20_trichotomy : forall a b, scalar a -> scalar b -> ordinary a -> ordinary b ->
  (veq a b = true <-> vlt a b = false /\ vlt b a = false).
Proof.
  intros a b Sa Sb Oa Ob. rewrite !vlt_lex by auto. rewrite veq_veqK. unfold lex.
  assert (N : forall x y, ext_eq x y = true <-> ext_lt x y = false /\ ext_lt y x = false).
  { intros [|x|] [|y|]; simpl; rewrite ?Z.eqb_eq, ?Z.ltb_ge; split; intros; intuition; try discriminate; lia. }
  assert (C : forall x y, (x =? y) = true <-> (x <? y) = false /\ (y <? x) = false) by (intros; rewrite Z.eqb_eq, !Z.ltb_ge; lia).
  destruct a; try contradiction; destruct b; try contradiction; try (simpl; split; [discriminate|intros []; discriminate]); cbn [rank veqK within vtype];
    rewrite ?Z.ltb_irrefl; try apply C.
  - unfold bool_lt. destruct b0, b; simpl; intuition; discriminate.
  - simpl in Ob. unfold notNaN in Ob. unfold oext_eq, oext_lt. destruct (rkey r); [|congruence]. rewrite N. tauto.
  - simpl in Oa. unfold notNaN in Oa. unfold oext_eq, oext_lt. destruct (rkey r); [|congruence]. rewrite N. tauto.
  - simpl in *. unfold notNaN in *. unfold req, rlt, oext_eq, oext_lt. destruct (rkey r), (rkey r0); try congruence. apply N.
  - rewrite seqb_iff. split; [intros ->|intros []; now apply sltb_total].
    destruct good_sltb as [X _]. destruct (sltb s0 s0) eqn:E; auto. pose proof (X s0 s0 I I E). congruence.
Qed.

(** Non-vacuity: mixed numbers, arrays, strings. *)
Example C20_ex : ordinary (VInt 2) /\ ordinary (VReal 4612811918334230528) (* 2.5 *) /\ vlt (VInt 2) (VReal 4612811918334230528) = true /\
  vlt (VReal 4612811918334230528) (VInt 3) = true /\ veq (VInt 3) (VReal 4613937818241073152) = true (* 3.0 *) /\
  vlt (VStr [97]) (VStr [97; 98]) = true /\ ordinary (VIntArr (mkArr [true] [4])) /\
  vlt (VIntArr (mkArr [false; true] [9; 4])) (VIntArr (mkArr [false; true] [1; 5])) = true.
Proof. unfold ordinary, notNaN, array_ok. repeat split; try reflexivity; try (vm_compute; discriminate). simpl. auto. Qed.

Print Assumptions C20_state_order_partial.
Print Assumptions C19_transitive.
Print Assumptions C20_trichotomy.

(** Assumptions *)
Print Assumptions C20_value_order_partial.
Print Assumptions C20_array_order_partial.
Print Assumptions C20_nan_refuted.
Print Assumptions C20_nan_states_collide.
Print Assumptions C19_reflexive.
Print Assumptions C19_symmetric.
Print Assumptions C19_numeric.
Print Assumptions C19_unknown.
Print Assumptions C19_state_equality.
Print Assumptions C19_hidden_contents_refuted.
Print Assumptions C20_equal_but_less_refuted.
