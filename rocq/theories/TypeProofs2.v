(** Proofs for TypeProps.v: evaluation of well-typed expressions. *)
From Coq Require Import ZArith List Bool Lia.
From Flocq Require Import Core BinarySingleNaN.
From Verif Require Import ValueModel OpModel FloatModel FloatBridge TypeModel TypeSpec TypeProofs.
Import ListNotations.
Open Scope Z_scope.

Definition RealLike (t : Z) : Prop := t = REAL_TYPE \/ t = DATE_TYPE \/ t = DURATION_TYPE.
Lemma realLike_spec t : realLike t = true <-> RealLike t.
Proof. unfold realLike, RealLike. rewrite !orb_true_iff, !Z.eqb_eq. tauto. Qed.

Record good (len : bool) (T : Z) (o : obj) : Prop := mkGood {
  g_type : o_type o = T \/ (RealLike T /\ (o_type o = INTEGER_TYPE \/ o_type o = REAL_TYPE));
  g_known : o_known o <> ETypeErr;
  g_B : T = BOOLEAN_TYPE -> o_B o <> ETypeErr;
  g_I : o_type o = INTEGER_TYPE -> o_I o <> ETypeErr;
  g_R : Numeric T -> len = false -> o_R o <> ETypeErr;
  g_S : T = STRING_TYPE -> o_S o <> ETypeErr;
  g_E : IsEnum T -> o_E o T <> ETypeErr;
  g_A : IsArray T -> o_A o <> ETypeErr /\
        forall e l, o_A o = EVal (e, l) -> ArrayOf e T /\ Forall (fun p => valueOf e (TVs (snd p))) l;
  g_val : o_val o <> ETypeErr /\ forall v, o_val o = EVal v -> valueFor T v }.

Ltac noerr := let H := fresh in intros H; discriminate H.
Lemma ebind_noerr {A B} (x : eres A) (f : A -> eres B) :
  x <> ETypeErr -> (forall a, x = EVal a -> f a <> ETypeErr) -> ebind x f <> ETypeErr.
Proof. destruct x; cbn; intros H F; try congruence. apply F. reflexivity. Qed.
Lemma ebind_val {A B} (x : eres A) (f : A -> eres B) b : ebind x f = EVal b -> exists a, x = EVal a /\ f a = EVal b.
Proof. destruct x; cbn; intros H; try discriminate. eauto. Qed.
Lemma knownOf_noerr {A} (x : eres A) : x <> ETypeErr -> knownOf x <> ETypeErr.
Proof. destruct x; cbn; congruence. Qed.

(** ** Leaves. *)
Ltac zr := repeat match goal with |- context [?a =? ?b] => destruct (Z.eqb_spec a b) end.
Lemma leaf_good t v : AnyType t -> (forall x, v = Some x -> valueOf t x) -> good false t (leafObj t v).
Proof.
  intros A V. constructor; cbn [leafObj o_type o_known o_B o_I o_R o_S o_E o_A o_val].
  - left. reflexivity.
  - noerr.
  - intros ->. cbn. destruct v as [[[]| |]|]; noerr.
  - intros ->. cbn. destruct v as [[[]| |]|]; noerr.
  - intros N _. unfold Numeric in N. destruct N as [->|N]; [cbn; destruct v as [[[]| |]|]; noerr|].
    apply realLike_spec in N. rewrite N. destruct (t =? INTEGER_TYPE); destruct v as [[[]| |]|]; noerr.
  - intros ->. cbn. destruct v as [[[]| |]|]; noerr.
  - intros I. apply enum_spec in I. rewrite Z.eqb_refl, I. cbn. destruct v as [[| |]|]; noerr.
  - intros I. pose proof I as I'. apply array_spec in I'. rewrite I'. destruct v as [[| |e l]|]; (split; [noerr|intros e0 l0 Q; try discriminate]).
    injection Q as <- <-. specialize (V _ eq_refl). inversion V; subst. auto.
  - destruct v as [x|]; cbn; (split; [noerr|intros x0 Q; try discriminate]). injection Q as <-. left. auto.
Qed.
Lemma look_good t ct v : UserType t -> lookupFits t ct v -> good false t (lookObj t ct v).
Proof.
  intros U L. unfold lookObj. destruct (Z.eqb_spec ct UNKNOWN_TYPE) as [->|NZ].
  - constructor; cbn; auto; try (intros; noerr); try (split; [noerr|intros; discriminate]).
    + intros I. exfalso. tcases U. tcases I. dest_or; discriminate.
  - destruct L as [->|[C V]]; [contradiction|].
    assert (A : AnyType ct).
    { destruct C as [->|[_ [-> | ->]]]; left; auto; right; left; unfold Numeric; auto. }
    pose proof (leaf_good ct v A V) as G.
    assert (NE : ~ IsEnum t). { intros I. tcases U. tcases I. dest_or; discriminate. }
    assert (NN : Numeric t -> Numeric ct).
    { intros N. destruct C as [->|[_ [-> | ->]]]; auto; [left|right; left]; reflexivity. }
    constructor; cbn [o_type o_known o_B o_I o_R o_S o_E o_A o_val].
    + destruct C as [->|[R I]]; auto.
    + apply (g_known _ _ _ G).
    + intros ->. apply (g_B _ _ _ G). destruct C as [->|[R _]]; auto. dest_or; discriminate.
    + intros ->. apply (g_I _ _ _ G). reflexivity.
    + intros N _. apply (g_R _ _ _ G); auto.
    + intros ->. apply (g_S _ _ _ G). destruct C as [->|[R _]]; auto. dest_or; discriminate.
    + intros I. contradiction.
    + intros I. destruct C as [->|[R _]]; [apply (g_A _ _ _ G); auto|]. unfold IsArray in I. dest_or; discriminate.
    + destruct (g_val _ _ _ G) as [V1 V2]. split; auto. intros x Q. specialize (V2 _ Q).
      destruct C as [->|[R I]]; auto. destruct V2 as [V2|[_ V2]]; [|right; auto].
      destruct I as [-> | ->]; inversion V2; subst.
      * right. eauto.
      * left. constructor. auto.
      * exfalso. match goal with H : IsEnum _ |- _ => unfold IsEnum in H; dest_or; discriminate end.
      * exfalso. match goal with H : ArrayOf _ _ |- _ => inversion H end.
      * left. constructor. exact R.
      * exfalso. match goal with H : IsEnum _ |- _ => unfold IsEnum in H; dest_or; discriminate end.
      * exfalso. match goal with H : ArrayOf _ _ |- _ => inversion H end.
Qed.

(** ** Array elements. *)
Lemma elem_good la li elt t a i : ArrayOf elt t -> good la t a -> good li INTEGER_TYPE i -> good false elt (elemObj a i).
Proof.
  intros AO Ga Gi. pose proof (ArrayOf_inv _ _ AO) as IA. destruct (ArrayOf_arrayOf _ _ AO) as (_ & IA' & EL).
  destruct (g_A _ _ _ Ga IA) as [A1 A2].
  assert (TI : o_type i = INTEGER_TYPE).
  { destruct (g_type _ _ _ Gi) as [H|[R _]]; auto. unfold RealLike in R. dest_or; discriminate. }
  pose proof (g_I _ _ _ Gi TI) as I1.
  assert (SC : selfCheck a i <> ETypeErr).
  { unfold selfCheck. apply ebind_noerr; auto. intros z _. destruct (z <? 0); [noerr|]. apply ebind_noerr; auto.
    intros [e l] _. destruct (nth_error l (Z.to_nat z)) as [[[] s]|]; noerr. }
  assert (SV : forall e s, selfCheck a i = EVal (e, s) -> e = elt /\ valueOf elt (TVs s)).
  { intros e s Q. unfold selfCheck in Q. apply ebind_val in Q as (z & _ & Q). destruct (z <? 0); [discriminate|].
    apply ebind_val in Q as ([e' l] & QA & Q). destruct (A2 _ _ QA) as [AO' F].
    destruct (nth_error l (Z.to_nat z)) as [[[] s']|] eqn:N; try discriminate. injection Q as <- <-.
    assert (e' = elt).
    { destruct (ArrayOf_arrayOf _ _ AO') as (_ & _ & <-). exact EL. }
    subst e'. split; auto. apply nth_error_In in N. rewrite Forall_forall in F. apply (F _ N). }
  assert (TT : o_type a = t).
  { destruct (g_type _ _ _ Ga) as [H|[R _]]; auto. exfalso. unfold RealLike, IsArray in *. dest_or; discriminate. }
  constructor; cbn [elemObj o_type o_known o_B o_I o_R o_S o_E o_A o_val].
  - left. rewrite TT. exact EL.
  - apply knownOf_noerr. exact SC.
  - intros ->. apply ebind_noerr; auto. intros [e s] Q. destruct (SV _ _ Q) as [-> _]. cbn. destruct s; noerr.
  - rewrite TT, EL. intros ->. apply ebind_noerr; auto. intros [e s] Q. destruct (SV _ _ Q) as [-> _]. cbn. destruct s; noerr.
  - intros N _. apply ebind_noerr; auto. intros [e s] Q. destruct (SV _ _ Q) as [-> _].
    destruct AO; try (exfalso; unfold Numeric in N; dest_or; discriminate); cbn; destruct s; noerr.
  - intros ->. apply ebind_noerr; auto. intros [e s] Q. destruct (SV _ _ Q) as [-> _]. cbn. destruct s; noerr.
  - intros I. exfalso. destruct AO; unfold IsEnum in I; dest_or; discriminate.
  - intros I. exfalso. destruct AO; unfold IsArray in I; dest_or; discriminate.
  - split.
    + apply ebind_noerr; auto. intros [e s] _. noerr.
    + intros v Q. apply ebind_val in Q as ([e s] & Q & V). destruct (SV _ _ Q) as [_ W]. injection V as <-. left. exact W.
Qed.

(** ** Operators. *)
Lemma consult_noerr {A} stop (rs : list (eres A)) : Forall (fun r => r <> ETypeErr) rs ->
  consult stop rs <> ETypeErr /\ forall l, consult stop rs = EVal l -> length l = length rs.
Proof.
  induction 1 as [|r rs N F [I1 I2]]; cbn.
  - split; [noerr|]. intros l Q. injection Q as <-. reflexivity.
  - destruct r as [a| | | |]; try (split; [congruence|intros; discriminate]).
    + destruct (stop (Some a)).
      * split; [noerr|]. intros l Q. injection Q as <-. cbn. rewrite map_length. reflexivity.
      * split; [apply ebind_noerr; auto; intros; noerr|]. intros l Q. apply ebind_val in Q as (l' & Q & W). injection W as <-. cbn. auto.
    + destruct (stop None).
      * split; [noerr|]. intros l Q. injection Q as <-. cbn. rewrite map_length. reflexivity.
      * split; [apply ebind_noerr; auto; intros; noerr|]. intros l Q. apply ebind_val in Q as (l' & Q & W). injection W as <-. cbn. auto.
Qed.
Lemma eofOp_noerr {A} (r : opres A) : r <> RError -> eofOp r <> ETypeErr.
Proof. destruct r; cbn; congruence. Qed.
Lemma ofOpt_noerr {A} (o : option A) : ofOpt o <> RError.
Proof. destruct o; noerr. Qed.
Lemma boolApply_noerr b l : (b = OpNot -> length l = 1%nat) -> boolApply b l <> RError.
Proof.
  intros H. assert (OL : forall k m, boolOrLoop k m <> RError).
  { intros k m. revert k. induction m as [|[[]|] m IH]; intros k; cbn; auto; [destruct k|]; noerr. }
  assert (AL : forall k m, boolAndLoop k m <> RError).
  { intros k m. revert k. induction m as [|[[]|] m IH]; intros k; cbn; auto; [destruct k|]; noerr. }
  assert (XL : forall k m, boolXorLoop k m <> RError).
  { intros k [|[|] m]; noerr. }
  destruct b.
  - specialize (H eq_refl). destruct l as [|x [|y l]]; try discriminate. cbn. destruct x; noerr.
  - destruct l as [|x [|y [|z l]]]; cbn [boolApply]; auto using ofOpt_noerr. destruct x as [[]|], y as [[]|]; noerr.
  - destruct l as [|x [|y [|z l]]]; cbn [boolApply]; auto using ofOpt_noerr. destruct x as [[]|], y as [[]|]; noerr.
  - destruct l as [|x [|y [|z l]]]; cbn [boolApply]; auto using ofOpt_noerr. destruct x as [[]|], y as [[]|]; noerr.
Qed.
Lemma mach_noerr z : mach z <> RError.
Proof. unfold mach. destruct (inInt z); noerr. Qed.
Lemma rbind_noerr {A B} (x : opres A) (f : A -> opres B) : x <> RError -> (forall a, f a <> RError) -> rbind x f <> RError.
Proof. destruct x; cbn; intros; auto; congruence. Qed.
Lemma intMach_noerr a x y : a <> IAbs -> intMach a x y <> RError.
Proof.
  intros H. destruct a; cbn; auto using mach_noerr; try noerr; try congruence.
  - destruct (y =? 0); [noerr|apply mach_noerr].
  - destruct (y =? 0); [noerr|]. apply rbind_noerr; [apply mach_noerr|intros; noerr].
Qed.
Lemma intLoop_noerr f acc l : (forall x y, f x y <> RError) -> intLoop f acc l <> RError.
Proof. intros H. revert acc. induction l as [|[x|] l IH]; intros acc; cbn; try noerr. apply rbind_noerr; auto. Qed.
Lemma intApply_noerr a l : arity a (length l) -> intApply a l <> RError.
Proof.
  intros H.
  assert (S : forall b, b <> IAbs -> forall x y, intStep b x y <> RError).
  { intros b Hb x y. destruct b; cbn [intStep]; try (apply intMach_noerr; exact Hb); try noerr. }
  assert (S2 : forall b, b <> IAbs -> forall x y, int2 (intMach b) x y <> RError).
  { intros b Hb [x|] [y|]; cbn; try noerr. apply intMach_noerr; auto. }
  destruct a; cbn in H.
  - destruct l as [|x [|y [|z l]]]; try (exfalso; apply H; reflexivity); cbn [intApply]; try (destruct x; apply ofOpt_noerr).
    + destruct x; apply S2; discriminate.
    + apply intLoop_noerr, S. discriminate.
  - destruct l as [|x [|y [|z l]]]; try (exfalso; apply H; reflexivity); cbn [intApply].
    + destruct x; [apply mach_noerr|noerr].
    + destruct x; apply S2; discriminate.
    + destruct x; [apply intLoop_noerr, S; discriminate|noerr].
  - destruct l as [|x [|y [|z l]]]; try (exfalso; apply H; reflexivity); cbn [intApply]; try (destruct x; apply ofOpt_noerr).
    + destruct x; apply S2; discriminate.
    + destruct x; [apply intLoop_noerr, S; discriminate|noerr].
  - destruct l as [|x [|y [|z l]]]; try discriminate. cbn [intApply]. destruct x; apply S2; discriminate.
  - destruct l as [|x [|y [|z l]]]; try discriminate. cbn [intApply]. destruct x; apply S2; discriminate.
  - destruct l as [|x [|y [|z l]]]; try (exfalso; apply H; reflexivity); cbn [intApply]; try (destruct x; apply ofOpt_noerr).
    + destruct x; apply S2; discriminate.
    + destruct x; [apply intLoop_noerr, S; discriminate|noerr].
  - destruct l as [|x [|y [|z l]]]; try (exfalso; apply H; reflexivity); cbn [intApply]; try (destruct x; apply ofOpt_noerr).
    + destruct x; apply S2; discriminate.
    + destruct x; [apply intLoop_noerr, S; discriminate|noerr].
  - destruct l as [|x [|y l]]; try discriminate. cbn [intApply]. destruct x as [x|]; [|noerr]. destruct (x <? 0); [apply mach_noerr|noerr].
Qed.
Lemma realMach_noerr a x y : a <> FAbs -> a <> FSqrt -> realMach a x y <> RError.
Proof. intros H H2. destruct a; cbn [realMach]; try noerr; try congruence; destruct (fis0 y); noerr. Qed.
Lemma realLoop_noerr f acc l : (forall x y, f x y <> RError) -> realLoop f acc l <> RError.
Proof. intros H. revert acc. induction l as [|[x|] l IH]; intros acc; cbn; try noerr. apply rbind_noerr; auto. Qed.
Lemma realApply_noerr a l : arity a (length l) -> realApply (realOf a) l <> RError.
Proof.
  intros H.
  assert (S : forall b, b <> FAbs -> b <> FSqrt -> forall x y, realStep b x y <> RError).
  { intros b Hb Hc x y. destruct b; cbn [realStep]; try (apply realMach_noerr; assumption); try noerr. }
  assert (S2 : forall b (x y : option fl), b <> FAbs -> b <> FSqrt ->
                 match x, y with Some u, Some v => realMach b u v | _, _ => RUnknown end <> RError).
  { intros b [x|] [y|] H1 H2; try noerr. apply realMach_noerr; auto. }
  destruct a; cbn in H.
  - destruct l as [|x [|y [|z l]]]; try (exfalso; apply H; reflexivity); cbn [realOf realApply]; try (destruct x; apply ofOpt_noerr).
    + destruct x, y; try noerr; apply realMach_noerr; discriminate.
    + apply realLoop_noerr, S; discriminate.
  - destruct l as [|x [|y [|z l]]]; try (exfalso; apply H; reflexivity); cbn [realOf realApply].
    + destruct x; noerr.
    + destruct x, y; try noerr; apply realMach_noerr; discriminate.
    + destruct x; [apply realLoop_noerr, S; discriminate|noerr].
  - destruct l as [|x [|y [|z l]]]; try (exfalso; apply H; reflexivity); cbn [realOf realApply]; try (destruct x; apply ofOpt_noerr).
    + destruct x, y; try noerr; apply realMach_noerr; discriminate.
    + destruct x; [apply realLoop_noerr, S; discriminate|noerr].
  - destruct l as [|x [|y [|z l]]]; try discriminate. cbn [realOf realApply]. destruct x, y; try noerr; apply realMach_noerr; discriminate.
  - destruct l as [|x [|y [|z l]]]; try discriminate. cbn [realOf realApply]. destruct x, y; try noerr; apply realMach_noerr; discriminate.
  - destruct l as [|x [|y [|z l]]]; try (exfalso; apply H; reflexivity); cbn [realOf realApply]; try (destruct x; apply ofOpt_noerr).
    + destruct x, y; try noerr; apply realMach_noerr; discriminate.
    + destruct x; [apply realLoop_noerr, S; discriminate|noerr].
  - destruct l as [|x [|y [|z l]]]; try (exfalso; apply H; reflexivity); cbn [realOf realApply]; try (destruct x; apply ofOpt_noerr).
    + destruct x, y; try noerr; apply realMach_noerr; discriminate.
    + destruct x; [apply realLoop_noerr, S; discriminate|noerr].
  - destruct l as [|x [|y l]]; try discriminate. cbn [realOf realApply]. destruct x; noerr.
Qed.
Lemma realToInt_noerr r : realToInt r <> RError.
Proof.
  unfold realToInt. destruct (_ || _); [noerr|]. destruct r as [[|k|]|]; try noerr. cbn. destruct (_ =? 0); noerr.
Qed.
Lemma toInt_noerr r : toInt r <> ETypeErr.
Proof. apply eofOp_noerr, realToInt_noerr. Qed.
Lemma read2_noerr {A} (get : obj -> eres A) f a b : get a <> ETypeErr -> get b <> ETypeErr -> read2 get f a b <> ETypeErr.
Proof. intros. unfold read2. apply ebind_noerr; auto. intros. apply ebind_noerr; auto. intros; noerr. Qed.
Lemma convRead_noerr c a : o_known a <> ETypeErr -> o_R a <> ETypeErr -> convRead c a <> ETypeErr.
Proof.
  intros. unfold convRead. apply ebind_noerr; auto. intros k _. destruct k; [|noerr]. apply ebind_noerr; auto. intros; noerr.
Qed.

(** A function object is good as soon as reading it as its operator's result type is. *)
Lemma fun_good p args T :
  operType p = T ->
  (T = BOOLEAN_TYPE -> evalB p args <> ETypeErr) -> (T = INTEGER_TYPE -> evalI p args <> ETypeErr) ->
  (T = REAL_TYPE -> evalR p args <> ETypeErr) -> (T = STRING_TYPE -> evalS p args <> ETypeErr) ->
  good (negb (hasCalc p)) T (funObj p args).
Proof.
  intros <- HB HI HR HS.
  assert (C : operType p = BOOLEAN_TYPE \/ operType p = INTEGER_TYPE \/ operType p = REAL_TYPE \/ operType p = STRING_TYPE).
  { destruct p as [| | | | | | | | | | |[]| |]; cbn; auto. }
  constructor; cbn [funObj o_type o_known o_B o_I o_R o_S o_E o_A o_val].
  - left. reflexivity.
  - destruct C as [E|[E|[E|E]]]; rewrite E in *; cbn; apply knownOf_noerr; auto.
  - intros E. rewrite E. cbn. auto.
  - intros E. rewrite E. cbn. auto.
  - intros N L. destruct C as [E|[E|[E|E]]]; rewrite E in *; cbn.
    + exfalso. apply (num_not_bool N).
    + destruct (hasCalc p); [|discriminate]. apply ebind_noerr; auto. intros; noerr.
    + auto.
    + exfalso. apply (num_not_string N).
  - intros E. rewrite E. cbn. auto.
  - intros I. exfalso. unfold IsEnum in I. destruct C as [E|[E|[E|E]]]; rewrite E in I; dest_or; discriminate.
  - intros I. exfalso. unfold IsArray in I. destruct C as [E|[E|[E|E]]]; rewrite E in I; dest_or; discriminate.
  - destruct C as [E|[E|[E|E]]]; rewrite E in *; cbn; (split; [apply ebind_noerr; auto; intros; noerr|]);
      intros v Q; apply ebind_val in Q as (x & _ & Q); injection Q as <-; left; constructor; auto.
Qed.

(** ** The main induction: on the typing derivation. *)
Lemma cType_obj_int o : good true INTEGER_TYPE o -> o_I o <> ETypeErr.
Proof.
  intros G. apply (g_I _ _ _ G). destruct (g_type _ _ _ G) as [H|[R _]]; auto. unfold RealLike in R. dest_or; discriminate.
Qed.
Lemma good_int l o : good l INTEGER_TYPE o -> o_type o = INTEGER_TYPE /\ o_I o <> ETypeErr.
Proof.
  intros G. assert (H : o_type o = INTEGER_TYPE).
  { destruct (g_type _ _ _ G) as [H|[R _]]; auto. unfold RealLike in R. dest_or; discriminate. }
  split; auto. apply (g_I _ _ _ G H).
Qed.
(** operands: length flag and type of each object *)
Inductive goods : list bool -> list Z -> list obj -> Prop :=
| gs_nil : goods [] [] []
| gs_cons l t o ls ts os : good l t o -> goods ls ts os -> goods (l :: ls) (t :: ts) (o :: os).
Lemma goods_len ls ts os : goods ls ts os -> length ts = length os /\ length ls = length os.
Proof. induction 1; cbn; intuition. Qed.

Lemma equal_noerr la lb ta tb a b :
  AnyType ta -> AnyType tb -> good la ta a -> good lb tb b -> ta = tb \/ (Numeric ta /\ Numeric tb) ->
  ta <> DATE_TYPE -> ta <> DURATION_TYPE ->
  (la = true \/ lb = true -> ta = INTEGER_TYPE /\ tb = INTEGER_TYPE) ->
  equalObj a b <> ETypeErr.
Proof.
  intros Aa Ab Ga Gb C D1 D2 L. unfold equalObj.
  assert (RL : RealLike ta -> ta = REAL_TYPE) by (unfold RealLike; intros; dest_or; congruence).
  destruct (Z.eqb_spec (o_type a) UNKNOWN_TYPE) as [|N0]; [noerr|].
  destruct (Z.eqb_spec (o_type a) BOOLEAN_TYPE) as [E|N1].
  { assert (ta = BOOLEAN_TYPE).
    { destruct (g_type _ _ _ Ga) as [H|[_ [H|H]]]; rewrite H in E; try discriminate. exact E. }
    subst ta. assert (tb = BOOLEAN_TYPE) by (destruct C as [->|[X _]]; auto; destruct (num_not_bool X)). subst tb.
    apply read2_noerr; [apply (g_B _ _ _ Ga)|apply (g_B _ _ _ Gb)]; reflexivity. }
  destruct ((o_type a =? INTEGER_TYPE) && (o_type b =? INTEGER_TYPE)) eqn:II.
  { apply andb_true_iff in II. rewrite !Z.eqb_eq in II. destruct II as [Ia Ib].
    apply read2_noerr; [apply (g_I _ _ _ Ga Ia)|apply (g_I _ _ _ Gb Ib)]. }
  destruct ((o_type a =? INTEGER_TYPE) || (o_type a =? REAL_TYPE)) eqn:IR.
  { rewrite orb_true_iff, !Z.eqb_eq in IR.
    assert (Na : Numeric ta).
    { destruct (g_type _ _ _ Ga) as [H|[H _]]; [rewrite H in IR; unfold Numeric; tauto|]. rewrite (RL H). right; left; reflexivity. }
    assert (Nb : Numeric tb) by (destruct C as [->|[_ X]]; auto).
    assert (LL : la = false /\ lb = false).
    { destruct la, lb; auto; destruct L as [-> ->]; auto; apply good_int in Ga as [Ta _]; apply good_int in Gb as [Tb _];
        rewrite Ta, Tb in II; discriminate. }
    destruct LL as [-> ->]. apply read2_noerr; [apply (g_R _ _ _ Ga Na)|apply (g_R _ _ _ Gb Nb)]; reflexivity. }
  assert (TT : o_type a = ta).
  { destruct (g_type _ _ _ Ga) as [H|[_ [H|H]]]; auto; rewrite H in IR; discriminate. }
  rewrite TT in *.
  assert (NN : ~ Numeric ta).
  { intros X. unfold Numeric in X. clear C. destruct X as [X|[X|[X|X]]]; rewrite X in *; [discriminate IR|discriminate IR|congruence|congruence]. }
  assert (tb = ta) by (destruct C as [->|[X _]]; auto; contradiction). subst tb.
  destruct (Z.eqb_spec ta STRING_TYPE) as [->|NS].
  { apply read2_noerr; [apply (g_S _ _ _ Ga)|apply (g_S _ _ _ Gb)]; reflexivity. }
  destruct (isArrayType ta) eqn:IA.
  { apply array_spec in IA. apply read2_noerr; [apply (g_A _ _ _ Ga IA)|apply (g_A _ _ _ Gb IA)]. }
  destruct (isEnumType ta) eqn:IE.
  { apply enum_spec in IE. apply read2_noerr; [apply (g_E _ _ _ Ga IE)|apply (g_E _ _ _ Gb IE)]. }
  exfalso. destruct Aa as [[X|[X|[X|X]]]|X]; try contradiction.
  - apply array_spec in X. congruence.
  - apply enum_spec in X. congruence.
Qed.

Lemma noLen_false (ls : list bool) : existsb (fun b => b) ls = false -> Forall (eq false) ls.
Proof. induction ls as [|[] ls IH]; cbn; intros H; constructor; auto; discriminate. Qed.

Lemma op_good d o ts T p ls os :
  Forall AnyType ts -> opSig d o ts T -> getOperator o ts d = Some p -> goods ls ts os ->
  (existsb (fun b => b) ls = true -> Forall (eq INTEGER_TYPE) ts /\ match o with NSqrt | NRealToInt | NConv _ => False | _ => True end) ->
  (match o, ts with NEq _, ta :: _ => ta <> DATE_TYPE /\ ta <> DURATION_TYPE | _, _ => True end) ->
  good (negb (hasCalc p)) T (funObj p os).
Proof.
  intros AT S G GS LEN EQ.
  destruct (sig_operator _ _ _ _ S) as (p' & G' & PT). rewrite G in G'. injection G' as <-.
  assert (LN : Forall (eq false) ls \/ (Forall (eq INTEGER_TYPE) ts /\ match o with NSqrt | NRealToInt | NConv _ => False | _ => True end)).
  { destruct (existsb (fun b => b) ls) eqn:X; [right; auto|left; apply noLen_false; exact X]. }
  clear LEN.
  apply fun_good; [exact PT| | | |]; intros TE; rewrite TE in *; clear TE.
  - (* Boolean *)
    inversion S; subst; cbn [getOperator] in G.
    + injection G as <-. inversion GS as [|? ? ? ? ? ? G1 GS']; subst. inversion GS'; subst. cbn [evalB map].
      destruct (consult_noerr (boolStop OpNot 1) [o_B o]) as [C1 C2]. { constructor; [apply (g_B _ _ _ G1); reflexivity|constructor]. }
      apply ebind_noerr; auto. intros vs Q. apply eofOp_noerr, boolApply_noerr. intros _. apply (C2 _ Q).
    + injection G as <-. cbn [evalB].
      destruct (consult_noerr (boolStop b (length os)) (map o_B os)) as [C1 C2].
      { clear - GS H0. induction GS as [|l t o ls ts os Go _ IH]; cbn; [constructor|]. inversion H0; subst.
        constructor; [apply (g_B _ _ _ Go); reflexivity|apply IH; assumption]. }
      apply ebind_noerr; auto. intros vs Q. apply eofOp_noerr, boolApply_noerr. intros ->. congruence.
    + injection G as <-. inversion GS as [|la ? ? ? ? ? G1 GS']; subst. inversion GS' as [|lb ? ? ? ? ? G2 GS2]; subst. inversion GS2; subst.
      inversion AT as [|? ? A1 AT']; subst. inversion AT' as [|? ? A2 _]; subst. destruct EQ as [E1 E2].
      cbn [evalB]. apply ebind_noerr; [|intros; noerr]. eapply equal_noerr; [exact A1|exact A2|exact G1|exact G2|assumption|assumption|assumption|].
      intros LL. destruct LN as [F|[F _]].
      * inversion F as [|? ? ? F']; subst. inversion F'; subst. destruct LL; discriminate.
      * inversion F as [|? ? ? F']; subst. inversion F'; subst. auto.
    + cbn [nth] in G. inversion GS as [|la ? ? ? ? ? G1 GS']; subst. inversion GS' as [|lb ? ? ? ? ? G2 GS2]; subst. inversion GS2; subst.
      destruct H as [[Na Nb]|[-> ->]].
      * destruct LN as [F|[F _]].
        { inversion F as [|? ? F1 F']; subst. inversion F' as [|? ? F2 _]; subst.
          destruct (comparisonType ta tb =? INTEGER_TYPE) eqn:CI.
          { assert (ta = INTEGER_TYPE /\ tb = INTEGER_TYPE).
            { unfold Numeric in Na, Nb. apply Z.eqb_eq in CI. clear - Na Nb CI. dest_or; try discriminate; auto. }
            destruct H as [-> ->]. injection G as <-. cbn. apply read2_noerr; [apply (good_int _ _ G1)|apply (good_int _ _ G2)]. }
          destruct (comparisonType_num _ _ Na Nb) as [CC|CC]; [rewrite CC in CI; discriminate|].
          rewrite CC in G. cbn in G. injection G as <-. cbn.
          apply read2_noerr; [apply (g_R _ _ _ G1)|apply (g_R _ _ _ G2)]; auto. }
        { inversion F as [|? ? F1 F']; subst. inversion F' as [|? ? F2 _]; subst. cbn in G. injection G as <-. cbn.
          apply read2_noerr; [apply (good_int _ _ G1)|apply (good_int _ _ G2)]. }
      * cbn in G. injection G as <-. cbn. apply read2_noerr; [apply (g_S _ _ _ G1)|apply (g_S _ _ _ G2)]; reflexivity.
    + injection G as <-. inversion GS as [|? ? ? ? ? ? G1 GS']; subst. inversion GS'; subst. cbn. apply (g_known _ _ _ G1).
    + injection G as <-. inversion GS as [|? ? ? ? ? ? G1 GS']; subst. inversion GS'; subst.
      destruct (g_A _ _ _ G1 H0) as [A1 _]. destruct H as [-> | ->]; cbn; (apply ebind_noerr; auto; intros [] _; noerr).
  - (* Integer *)
    inversion S; subst; cbn [getOperator] in G.
    + rewrite (common_int ts d (arity_nonempty _ _ H) H0) in G. cbn in G. injection G as <-. cbn [evalI].
      destruct (consult_noerr isNone (map o_I os)) as [C1 C2].
      { clear - GS H0. induction GS as [|l t o ls ts os Go _ IH]; cbn; [constructor|]. inversion H0; subst.
        constructor; [apply (good_int _ _ Go)|apply IH; assumption]. }
      apply ebind_noerr; auto. intros vs Q. apply eofOp_noerr, intApply_noerr. rewrite (C2 _ Q), map_length.
      rewrite <- (proj1 (goods_len _ _ _ GS)). exact H.
    + injection G as <-. inversion GS as [|? ? ? ? ? ? G1 GS']; subst. inversion GS'; subst.
      destruct LN as [F|[_ []]]. inversion F; subst. cbn. apply ebind_noerr; [apply (g_R _ _ _ G1); auto|intros; apply toInt_noerr].
    + destruct (Z.eqb_spec (conversionReturnType (nth 0 [t] UNKNOWN_TYPE) d) INTEGER_TYPE) as [CI|CI].
      2:{ destruct (_ =? REAL_TYPE); [|discriminate]. injection G as <-. discriminate PT. }
      injection G as <-. inversion GS as [|? ? ? ? ? ? G1 GS']; subst. inversion GS'; subst.
      destruct LN as [F|[_ []]]. inversion F; subst. cbn. apply ebind_noerr; [|intros; apply toInt_noerr].
      apply convRead_noerr; [apply (g_known _ _ _ G1)|apply (g_R _ _ _ G1); auto].
    + injection G as <-. inversion GS as [|? ? ? ? ? ? G1 GS']; subst. inversion GS'; subst.
      destruct (g_A _ _ _ G1 H0) as [A1 _]. destruct H as [-> | ->]; cbn; (apply ebind_noerr; auto; intros [] _; noerr).
    + injection G as <-. inversion GS as [|? ? ? ? ? ? G1 GS']; subst. inversion GS'; subst. cbn.
      apply ebind_noerr; [apply (g_S _ _ _ G1); reflexivity|intros; noerr].
  - (* Real *)
    inversion S; subst; cbn [getOperator] in G.
    + rewrite (common_real ts d H0 H1) in G. cbn in G. injection G as <-. cbn [evalR].
      destruct LN as [F|[F _]].
      2:{ exfalso. clear - F H1. induction H1; inversion F; subst; auto. }
      destruct (consult_noerr isNone (map o_R os)) as [C1 C2].
      { clear - GS H0 F. induction GS as [|l t o ls ts os Go _ IH]; cbn; [constructor|]. inversion H0; subst. inversion F; subst.
        constructor; [apply (g_R _ _ _ Go); auto|apply IH; assumption]. }
      apply ebind_noerr; auto. intros vs Q. apply eofOp_noerr, realApply_noerr. rewrite (C2 _ Q), map_length.
      rewrite <- (proj1 (goods_len _ _ _ GS)). exact H.
    + injection G as <-. inversion GS as [|? ? ? ? ? ? G1 GS']; subst. inversion GS'; subst.
      destruct LN as [F|[_ []]]. inversion F; subst. cbn [evalR map].
      destruct (consult_noerr isNone [o_R o]) as [C1 C2]. { constructor; [apply (g_R _ _ _ G1); auto|constructor]. }
      apply ebind_noerr; auto. intros vs Q. specialize (C2 _ Q). destruct vs as [|x [|]]; try discriminate.
      apply eofOp_noerr. cbn. destruct x as [x|]; [|noerr]. destruct (flt x fzero); noerr.
    + destruct (Z.eqb_spec (conversionReturnType (nth 0 [t] UNKNOWN_TYPE) d) INTEGER_TYPE) as [CI|CI].
      { injection G as <-. discriminate PT. }
      destruct (_ =? REAL_TYPE); [|discriminate]. injection G as <-. inversion GS as [|? ? ? ? ? ? G1 GS']; subst. inversion GS'; subst.
      destruct LN as [F|[_ []]]. inversion F; subst. cbn.
      apply convRead_noerr; [apply (g_known _ _ _ G1)|apply (g_R _ _ _ G1); auto].
  - (* String *)
    inversion S; subst; cbn [getOperator] in G. injection G as <-. cbn [evalS].
    destruct (consult_noerr isNone (map o_S os)) as [C1 C2].
    { clear - GS H. induction GS as [|l t o ls ts os Go _ IH]; cbn; [constructor|]. inversion H; subst.
      constructor; [apply (g_S _ _ _ Go); reflexivity|apply IH; assumption]. }
    apply ebind_noerr; auto. intros vs Q. destruct (allSome vs); noerr.
Qed.

Lemma isLength_hasCalc o ts d p : getOperator o ts d = Some p -> (isLength (XOp o []) = false -> operType p <> BOOLEAN_TYPE -> hasCalc p = true).
Proof.
  intros G L NB. destruct o as [b|a| | |c|n|c| |q| |]; cbn [getOperator] in G;
    repeat match type of G with (if ?b then _ else _) = _ => destruct b end; try discriminate G; try (injection G as <-); try reflexivity.
  - destruct q; try discriminate L; exfalso; apply NB; reflexivity.
  - discriminate L.
Qed.
Lemma good_weaken l T o : good l T o -> ~ Numeric T -> good false T o.
Proof. intros G N. destruct G. constructor; auto; intros X; contradiction. Qed.
Lemma good_true T o : good false T o -> good true T o.
Proof. intros G. destruct G. constructor; auto; discriminate. Qed.

Lemma sig_any d o ts T : opSig d o ts T -> AnyType T.
Proof. destruct 1; unfold AnyType, UserType, Numeric; auto 10. Qed.
Lemma hasType_any d e T : hasType d e T -> AnyType T.
Proof.
  destruct 1; auto.
  - left. right. right. right. eapply ArrayOf_inv; eauto.
  - left. exact H.
  - destruct H; left; unfold UserType, Numeric; auto 10.
  - eapply sig_any; eauto.
Qed.
Lemma eval_good_mut E :
  (forall d e T, hasType d e T -> clean e -> fits E e ->
     exists c, alloc e d = Made c /\ good (isLength e) T (objOf E c)) /\
  (forall args ts, typesOf args ts -> Forall clean args -> Forall (fits E) args ->
     exists cs, allMade (map (fun a => alloc a UNKNOWN_TYPE) args) = inl (Some cs) /\ map cType cs = ts
       /\ goods (map isLength args) ts (map (objOf E) cs)).
Proof.
  apply hasType_typesOf_ind.
  - intros d t i A _ F. exists (CLeaf t i). split; [reflexivity|]. apply leaf_good; auto.
  - intros d t i A _ F. exists (CLeaf t i). cbn. rewrite Z.eqb_refl. split; [reflexivity|]. apply leaf_good; auto.
  - intros d elt t i AO _ F. exists (CLeaf t i). destruct (ArrayOf_arrayOf _ _ AO) as (A1 & _). cbn. rewrite A1. split; [reflexivity|].
    apply leaf_good; [left; right; right; right; eapply ArrayOf_inv; eauto|]. intros x Q. apply (F x t Q AO).
  - intros d t i U _ F. exists (CLook t i). cbn. destruct (Z.eqb_spec t UNKNOWN_TYPE) as [|_].
    { apply UserType_nonzero in U. contradiction. }
    split; [reflexivity|]. apply look_good; auto.
  - intros d a idx elt t AO Ha IHa Hi IHi C F. cbn in C, F. destruct C as [Ca Ci]. destruct F as [Fa Fi].
    destruct (IHa Ca Fa) as (ca & A1 & G1). destruct (IHi Ci Fi) as (ci & A2 & G2).
    destruct (alloc_typed _ _ _ Ha) as (ca' & B1 & T1). rewrite A1 in B1. injection B1 as <-.
    destruct (alloc_typed _ _ _ Hi) as (ci' & B2 & T2). rewrite A2 in B2. injection B2 as <-.
    exists (CElem ca ci). cbn [alloc]. destruct (ArrayOf_arrayOf _ _ AO) as (_ & IA & _).
    rewrite A1, T1, IA. cbn [orb]. rewrite A2, T2. cbn. split; [reflexivity|]. eapply elem_good; eauto.
  - intros d o args ts T TS IH S C F. cbn in C, F. destruct C as (CL & CE & CA).
    change (allP clean args) in CA. change (allP (fits E) args) in F. apply allP_Forall in CA. apply allP_Forall in F.
    destruct (IH CA F) as (cs & A1 & T1 & GS). destruct (sig_operator _ _ _ _ S) as (p & G & PT).
    exists (CFun p cs). cbn [alloc]. rewrite A1, T1, G. split; [reflexivity|].
    assert (GG : good (negb (hasCalc p)) T (funObj p (map (objOf E) cs))).
    { apply typesOf_F2 in TS. eapply op_good; [|exact S|exact G|exact GS| |].
      - clear - TS. induction TS; constructor; auto. eapply hasType_any; eauto.
      - intros X. destruct CL as [CL1 CL2].
        { clear - X. induction args as [|x l IHl]; cbn in *; auto. destruct (isLength x); cbn in *; auto. }
        split; auto. clear - TS CL1. induction TS as [|x t l ts' H TS IHt]; constructor; inversion CL1; subst; auto.
        eapply hasType_unique; eauto.
      - destruct o; auto. destruct ts as [|ta ts]; auto. inversion TS as [|x y l l' H1 H2]; subst. destruct CE as [E1 E2].
        split; intros ->; contradiction. }
    cbn [objOf]. change ((fix map (l : list cexp) : list obj := _) cs) with (map (objOf E) cs) || idtac.
    destruct (isLength (XOp o args)) eqn:L.
    + destruct (hasCalc p); [apply good_true|]; exact GG.
    + assert (L' : isLength (XOp o []) = false) by (destruct o as [| | | | | | | |[]| |]; auto).
      pose proof (isLength_hasCalc _ _ _ _ G L') as HC. destruct (hasCalc p) eqn:HCp; [exact GG|].
      apply good_weaken in GG; auto. rewrite <- PT. intros N.
      assert (operType p <> BOOLEAN_TYPE) by (intros X; rewrite X in N; apply (num_not_bool N)).
      specialize (HC H). discriminate HC.
  - intros _ _. exists []. cbn. repeat split; constructor.
  - intros a args t ts Ha IHa TS IH C F. inversion C; subst. inversion F; subst.
    destruct IHa as (c & A1 & G1); auto. destruct IH as (cs & A2 & T2 & G2); auto.
    destruct (alloc_typed _ _ _ Ha) as (c' & B1 & T1). rewrite A1 in B1. injection B1 as <-.
    exists (c :: cs). cbn [map allMade]. rewrite A1, A2. cbn. rewrite T1, T2. repeat split; auto. constructor; auto.
Qed.
Lemma eval_good E d e T c : hasType d e T -> clean e -> fits E e -> alloc e d = Made c -> good (isLength e) T (objOf E c).
Proof.
  intros H C F A. destruct (proj1 (eval_good_mut E) _ _ _ H C F) as (c' & A' & G). rewrite A in A'. injection A' as <-. exact G.
Qed.
