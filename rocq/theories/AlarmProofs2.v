(** Proofs about wall-clock alarms: the interleaving machine of AlarmModel. *)
From Coq Require Import ZArith Reals List Bool Lia Lra.
From Flocq Require Import Core BinarySingleNaN.
From Verif Require Import FloatModel FloatProofs AlarmModel AlarmSpec AlarmProofs.
Import ListNotations.
Open Scope Z_scope.


Lemma upd {A} (l : list A) i x y : nth_error l i = Some x -> exists l1 l2, l = l1 ++ x :: l2 /\ firstn i l ++ y :: skipn (S i) l = l1 ++ y :: l2.
Proof.
  intros H. destruct (nth_error_split _ _ H) as (l1 & l2 & -> & L). exists l1, l2. split; [reflexivity|].
  subst i. rewrite firstn_app, Nat.sub_diag, firstn_all, firstn_O, app_nil_r. f_equal. f_equal.
  rewrite skipn_app. rewrite skipn_all2 by lia. replace (S (length l1) - length l1)%nat with 1%nat by lia. reflexivity.
Qed.
Definition shape (st : list frame) : Prop := st = [] \/ exists f k, st = f :: repeat Tm2 k /\ (isSet f = true -> (1 <= k)%nat).
Lemma shape_rep k : shape (repeat Tm2 k).
Proof. destruct k; [left; reflexivity|right; exists Tm2, k; split; [reflexivity|discriminate]]. Qed.
Lemma shape_step f k a t a' : shape (f :: k) -> fstep f k a = Some (t, a') -> shape t.
Proof.
  intros [H|(f0 & n & H & L)] E; [discriminate|]. inversion H; subst f0 k. clear H.
  destruct f; cbn [fstep isSet] in *.
  - destruct (d2ts billion d); [|discriminate]. inversion E; subst. right. destruct (tsLt _ _); eexists _, n; (split; [reflexivity|intros _; apply L; reflexivity]).
  - inversion E; subst. right. exists Tm0, n. split; [reflexivity|discriminate].
  - inversion E; subst. right. exists (SetT2 t0), n. split; [reflexivity|intros _; apply L; reflexivity].
  - inversion E; subst. apply shape_rep.
  - inversion E; subst. right. eexists _, n. split; [reflexivity|discriminate].
  - inversion E; subst. destruct (negb _ && _); right.
    + exists (SetT0 (a_next a')), (S n). split; [reflexivity|lia].
    + exists Tm2, n. split; [reflexivity|discriminate].
  - inversion E; subst. apply shape_rep.
Qed.
Lemma fstep_keep f k a t a' : fstep f k a = Some (t, a') -> a_clk a' = a_clk a /\ a_exec a' = a_exec a /\ a_cbs a' = a_cbs a.
Proof.
  destruct f; cbn [fstep]; intros E; try (inversion E; subst; cbn; auto; fail).
  destruct (d2ts billion d); [|discriminate]. inversion E; subst. auto.
Qed.

Lemma shapes_run l a a' : Forall shape (a_cbs a) -> arun l a = Some a' -> Forall shape (a_cbs a').
Proof.
  intros S E. destruct l; cbn [arun] in E.
  - destruct (a_clk a <=? c); inversion E; subst. exact S.
  - destruct (a_timer a); [|discriminate]. destruct (z <=? a_clk a); inversion E; subst. cbn. apply Forall_app. split; [exact S|].
    constructor; [|constructor]. right. exists Tm0, 0%nat. split; [reflexivity|discriminate].
  - destruct (a_exec a); inversion E; subst. exact S.
  - destruct (a_exec a) as [|f k]; [discriminate|]. destruct (fstep f k a) as [[t a1]|] eqn:F; inversion E; subst. cbn.
    apply fstep_keep in F as (_ & _ & ->). exact S.
  - destruct (nth_error (a_cbs a) i) as [[|f k]|] eqn:N; try discriminate. destruct (fstep f k a) as [[t a1]|] eqn:F; inversion E; subst. cbn.
    destruct (upd _ _ _ t N) as (l1 & l2 & E1 & E2). cbn [setCbs a_cbs] in *. change (match a_cbs a with [] => [] | _ :: l => skipn i l end) with (skipn (Datatypes.S i) (a_cbs a)). rewrite E2. rewrite E1 in S. apply Forall_app in S as [S1 S2]. inversion S2; subst.
    apply Forall_app. split; [exact S1|]. constructor; [eapply shape_step; eauto|assumption].
Qed.
Lemma clk_run l a a' : arun l a = Some a' -> a_clk a <= a_clk a'.
Proof.
  intros E. destruct l; cbn [arun] in E.
  - destruct (Z.leb_spec (a_clk a) c); inversion E; subst. exact H.
  - destruct (a_timer a); [|discriminate]. destruct (z <=? a_clk a); inversion E; subst. apply Z.le_refl.
  - destruct (a_exec a); inversion E; subst. apply Z.le_refl.
  - destruct (a_exec a) as [|f k]; [discriminate|]. destruct (fstep f k a) as [[t a1]|] eqn:F; inversion E; subst.
    apply fstep_keep in F as (H & _). cbn. lia.
  - destruct (nth_error (a_cbs a) i) as [[|f k]|] eqn:N; try discriminate. destruct (fstep f k a) as [[t a1]|] eqn:F; inversion E; subst.
    apply fstep_keep in F as (H & _). cbn. lia.
Qed.

(** ** The invariant after a request for [d] *)
Section D.
  Variables (d : fl) (t : ts) (T : Z) (notes0 : list Z).
  Hypothesis Hd2 : d2ts billion d = Some t.
  Hypothesis HT : T = total billion t.
  Hypothesis Hn : normal billion t.
  Hypothesis Hpos : tsEq t (0, 0) = false.
  Hypothesis Hrt : ts2d billion t = d.

  Definition okf (f : frame) : Prop := match f with SetT0 x => x = d | SetT1 t' | SetT2 t' => t' = t | _ => True end.
  Definition served (a : alarm) : Prop := exists new c, a_notes a = new ++ notes0 /\ In c new /\ T <= c.
  Definition pend (a : alarm) : Prop := served a \/ a_timer a = Some T \/ (T <= a_clk a /\ exists st, In st (a_cbs a) /\ st <> []).
  Definition phase (a : alarm) : Prop :=
    match a_exec a with
    | [] => pend a /\ (a_next a = fzero \/ a_next a = d)
    | [SetT0 x] => x = d
    | [SetP] => T <= a_clk a
    | [Tm0] | [Tm1 _] | [Tm2] => T <= a_clk a /\ a_next a = fzero
    | [SetT1 x] => x = t
    | [SetT2 x] => x = t /\ pend a
    | _ => False
    end.
  Record inv (a : alarm) : Prop := mkInv {
    i_clk : 0 <= a_clk a;
    i_shape : Forall shape (a_cbs a);
    i_frames : Forall (Forall okf) (a_cbs a);
    i_notes : exists new, a_notes a = new ++ notes0;
    i_phase : phase a }.

  Lemma pend_mono a a' : pend a -> a_clk a <= a_clk a' -> a_timer a' = a_timer a -> a_cbs a' = a_cbs a -> a_notes a' = a_notes a -> pend a'.
  Proof.
    intros P C Tm Cb N. destruct P as [(new & c & H)|[P|[P Q]]].
    - left. exists new, c. rewrite N. exact H.
    - right; left. congruence.
    - right; right. split; [lia|]. rewrite Cb. exact Q.
  Qed.
  Lemma past_lt c : 0 <= c -> tsLt t (clockTs c) = true -> T < c.
  Proof. intros H L. rewrite (tsLt_ok billion) in L by (auto; apply clockTs_normal; exact H). rewrite clockTs_total in L. apply Z.ltb_lt in L. lia. Qed.

  Lemma inv_run l a a' : inv a -> isAsk l = false -> raceFree a -> raceFree a' -> arun l a = Some a' -> inv a'.
  Proof.
    intros I NA RF RF' E. pose proof (shapes_run _ _ _ (i_shape _ I) E) as Sh. pose proof (clk_run _ _ _ E) as Ck.
    destruct I as [C0 S0 F0 [nw N0] P0]. destruct l; cbn [arun] in E; [| |discriminate| |].
    - (* tick *) destruct (Z.leb_spec (a_clk a) c); inversion E; subst. constructor; cbn; try assumption; [lia|exists nw; assumption|].
      revert P0. unfold phase. cbn [a_exec a_clk a_next].
      assert (PM : pend a -> pend (mkA c (a_timer a) (a_next a) (a_exec a) (a_cbs a) (a_notes a))) by (intros P; eapply pend_mono; [exact P|cbn; lia|reflexivity..]).
      destruct (a_exec a) as [|f [|g k]]; [intros [P Q]; auto|destruct f; try exact (fun x => x); intros; try (split; [lia|tauto]); try lia|destruct f; exact (fun x => x)].
      destruct P0 as [A B]. split; [exact A|auto].
    - (* fire *) destruct (a_timer a) as [z|] eqn:Tz; [|discriminate]. destruct (Z.leb_spec z (a_clk a)); inversion E; subst. constructor; cbn; try assumption; [|exists nw; assumption|].
      { apply Forall_app. split; [exact F0|]. repeat constructor. }
      revert P0. unfold phase. cbn [a_exec a_clk a_next].
      assert (PM : pend a -> pend (mkA (a_clk a) None (a_next a) (a_exec a) (a_cbs a ++ [[Tm0]]) (a_notes a))).
      { intros [P|[P|[P Q]]].
        - left. exact P.
        - right; right. rewrite Tz in P. inversion P; subst z. split; [assumption|]. exists [Tm0]. cbn. split; [apply in_or_app; right; left; reflexivity|discriminate].
        - right; right. split; [exact P|]. destruct Q as (st & Q1 & Q2). exists st. cbn. split; [apply in_or_app; left; exact Q1|exact Q2]. }
      destruct (a_exec a) as [|f [|g k]]; [intros [P Q]; auto|destruct f; try exact (fun x => x)|destruct f; exact (fun x => x)].
      intros [A B]. auto.
    - (* exec *) destruct (a_exec a) as [|f k] eqn:Ex; [discriminate|]. destruct (fstep f k a) as [[t' a1]|] eqn:Fs; inversion E; subst a'. clear E.
      assert (k = []) as ->. { unfold phase in P0. rewrite Ex in P0. destruct k; [reflexivity|destruct f; contradiction]. }
      pose proof (fstep_keep _ _ _ _ _ Fs) as (K1 & K2 & K3). cbn [setExec a_cbs a_clk] in *.
      unfold phase in P0. rewrite Ex in P0.
      destruct f; cbn [fstep] in Fs.
      + subst d0. rewrite Hd2 in Fs. inversion Fs; subst. constructor; cbn; try assumption; [exists nw; assumption|]. unfold phase. cbn.
        destruct (tsLt t (clockTs (a_clk a1))) eqn:L; [|reflexivity]. pose proof (past_lt _ C0 L). cbn. lia.
      + inversion Fs; subst. constructor; cbn; try assumption; [exists nw; assumption|]. unfold phase. cbn. auto.
      + subst t0. inversion Fs; subst. rewrite Hpos in *. constructor; cbn; try assumption; [exists nw; assumption|]. unfold phase. cbn.
        split; [reflexivity|]. right; left. cbn. rewrite HT. reflexivity.
      + destruct P0 as [-> P0]. inversion Fs; subst. constructor; cbn; try assumption; [exists nw; assumption|]. unfold phase. cbn.
        split; [eapply pend_mono; [exact P0|cbn; lia|reflexivity..]|right; exact Hrt].
      + inversion Fs; subst. constructor; cbn; try assumption. exists nw; assumption.
      + inversion Fs; subst. destruct P0 as [P0 P1]. rewrite P1. cbn [negb andb fis0 fzero]. change (fis0 fzero) with true. cbn [negb andb].
        constructor; cbn; try assumption; [exists nw; assumption|]. unfold phase. cbn. auto.
      + inversion Fs; subst. destruct P0 as [P0 P1]. constructor; cbn; try assumption; [exists (a_clk a :: nw); rewrite N0; reflexivity|]. unfold phase. cbn.
        split; [|left; exact P1]. left. exists (a_clk a :: nw), (a_clk a). cbn. rewrite N0. auto.
    - (* callback *) destruct (nth_error (a_cbs a) i) as [[|f k]|] eqn:N; try discriminate. destruct (fstep f k a) as [[t' a1]|] eqn:Fs; inversion E; subst a'. clear E.
      destruct (upd _ _ _ t' N) as (l1 & l2 & E1 & E2). change (match a_cbs a with [] => [] | _ :: l => skipn i l end) with (skipn (S i) (a_cbs a)) in *. rewrite E2 in *. cbn [setCbs a_cbs a_clk] in *.
      pose proof (fstep_keep _ _ _ _ _ Fs) as (K1 & K2 & K3).
      assert (Sf : shape (f :: k)) by (rewrite E1 in S0; apply Forall_app in S0 as [_ S0]; inversion S0; assumption).
      assert (Of : Forall okf (f :: k)) by (rewrite E1 in F0; apply Forall_app in F0 as [_ F1]; inversion F1; assumption).
      assert (Fr : Forall okf t' -> Forall (Forall okf) (l1 ++ t' :: l2)).
      { intros H. rewrite E1 in F0. apply Forall_app in F0 as [A B]. inversion B; subst. apply Forall_app. split; [exact A|constructor; assumption]. }
      assert (Ok : Forall okf k) by (inversion Of; assumption). assert (Of1 : okf f) by (inversion Of; assumption).
      assert (Ne : t' <> [] -> exists st, In st (l1 ++ t' :: l2) /\ st <> []) by (intros H; exists t'; split; [apply in_elt|exact H]).
      (* when the executive is setting the timer, the callback is not *)
      assert (Rc : a_exec a <> [] -> isSet f = false /\ forall g, In g t' -> isSet g = false).
      { intros X. split.
        - destruct RF as [R|R]; [contradiction|]. apply (R (f :: k)); [rewrite E1; apply in_elt|left; reflexivity].
        - intros g Hg. destruct RF' as [R|R]; [cbn in R; rewrite K2 in R; contradiction|]. apply (R t'); [cbn; apply in_elt|exact Hg]. }
      assert (PM : t' <> [] -> a_notes a1 = a_notes a -> (a_timer a1 = a_timer a \/ a_timer a1 = Some T) -> pend a -> pend (mkA (a_clk a1) (a_timer a1) (a_next a1) (a_exec a1) (l1 ++ t' :: l2) (a_notes a1))).
      { intros X Y Z [(new & c & P)|[P|[P Q]]].
        - left. exists new, c. cbn. rewrite Y. exact P.
        - right; left. cbn. destruct Z as [Z|Z]; congruence.
        - right; right. cbn. split; [lia|auto]. }
      assert (Cases : (Forall okf t' /\ (exists new, a_notes a1 = new ++ notes0)) /\ (phase a -> phase (setCbs (l1 ++ t' :: l2) a1))).
      { destruct f; cbn [fstep] in Fs.
        - (* SetT0 *) cbn in Of1. subst d0. rewrite Hd2 in Fs. inversion Fs; subst. split; [split; [constructor; [destruct (tsLt _ _); [exact I|reflexivity]|exact Ok]|exists nw; exact N0]|].
          unfold phase. cbn [setCbs a_exec a_next]. destruct (a_exec a1) as [|g k'] eqn:Ea; [|destruct (Rc ltac:(discriminate)); discriminate].
          intros [P Q]. split; [|exact Q]. apply PM; auto. discriminate.
        - (* SetP *) inversion Fs; subst. split; [split; [constructor; [exact I|exact Ok]|exists nw; exact N0]|].
          unfold phase. cbn [setCbs a_exec a_next]. destruct (a_exec a) as [|g k'] eqn:Ea; [|destruct (Rc ltac:(discriminate)); discriminate].
          intros [P Q]. split; [|left; reflexivity]. apply PM; auto. discriminate.
        - (* SetT1 *) cbn in Of1. subst t0. inversion Fs; subst. rewrite Hpos in *. split; [split; [constructor; [reflexivity|exact Ok]|exists nw; exact N0]|].
          unfold phase. cbn [setCbs a_exec a_next]. destruct (a_exec a) as [|g k'] eqn:Ea; [|destruct (Rc ltac:(discriminate)); discriminate].
          intros [P Q]. split; [|exact Q]. apply PM; auto; [discriminate|right; cbn; rewrite HT; reflexivity].
        - (* SetT2 *) cbn in Of1. subst t0. inversion Fs; subst. split; [split; [exact Ok|exists nw; exact N0]|].
          unfold phase. cbn [setCbs a_exec a_next]. destruct (a_exec a) as [|g k'] eqn:Ea; [|destruct (Rc ltac:(discriminate)); discriminate].
          intros [P Q]. split; [|right; exact Hrt]. apply PM; auto. destruct Sf as [X|(f0 & n & X & L)]; [discriminate|]. inversion X; subst. specialize (L eq_refl). destruct n; [lia|discriminate].
        - (* Tm0 *) inversion Fs; subst. split; [split; [constructor; [exact I|exact Ok]|exists nw; exact N0]|].
          unfold phase. cbn [setCbs a_exec a_next a_clk].
          assert (P' : pend a1 -> pend (setCbs (l1 ++ (Tm1 (getTime (a_clk a1)) :: k) :: l2) a1)) by (intros P; apply PM; auto; discriminate).
          destruct (a_exec a1) as [|g [|g' k']]; [intros [P Q]; auto|destruct g; try exact (fun x => x)|destruct g; exact (fun x => x)]. intros [A B]; auto.
        - (* Tm1 *) inversion Fs; subst. clear Fs.
          set (s := if negb (fis0 (a_next a1)) && flt now (a_next a1) then SetT0 (a_next a1) :: Tm2 :: k else Tm2 :: k) in *.
          assert (P' : pend a1 -> pend (setCbs (l1 ++ s :: l2) a1)) by (intros P; apply PM; auto; unfold s; destruct (_ && _); discriminate).
          assert (Sc : s = Tm2 :: k \/ (s = SetT0 (a_next a1) :: Tm2 :: k /\ fis0 (a_next a1) = false)).
          { unfold s. destruct (fis0 (a_next a1)); cbn [negb andb]; [left; reflexivity|]. destruct (flt now (a_next a1)); [right; split; reflexivity|left; reflexivity]. }
          clearbody s. assert (Os : phase a1 -> Forall okf s).
          { intros P. destruct Sc as [->|[-> B]]; [constructor; [exact I|exact Ok]|].
            constructor; [|constructor; [exact I|exact Ok]]. unfold phase in P. destruct (a_exec a1) as [|g k'] eqn:Ea.
            - destruct P as [_ [Q|Q]]; [|exact Q]. rewrite Q in B. discriminate.
            - destruct (Rc ltac:(discriminate)) as [_ R]. specialize (R _ (or_introl eq_refl)). discriminate R. }
          split; [split; [apply Os; exact P0|exists nw; exact N0]|].
          unfold phase. cbn [setCbs a_exec a_next a_clk].
          destruct (a_exec a1) as [|g [|g' k']]; [intros [P Q]; auto|destruct g; try exact (fun x => x)|destruct g; exact (fun x => x)]. intros [A B]; auto.
        - (* Tm2 *) inversion Fs; subst. split; [split; [exact Ok|exists (a_clk a :: nw); cbn; rewrite N0; reflexivity]|].
          unfold phase. cbn [setCbs a_exec a_next a_clk a_timer a_notes].
          assert (P' : pend a -> pend (mkA (a_clk a) (a_timer a) (a_next a) (a_exec a) (l1 ++ t' :: l2) (a_clk a :: a_notes a))).
          { intros [(new & c & P1 & P2 & P3)|[P|[P Q]]].
            - left. exists (a_clk a :: new), c. cbn. rewrite P1. auto.
            - right; left. exact P.
            - left. exists (a_clk a :: nw), (a_clk a). cbn. rewrite N0. auto. }
          destruct (a_exec a) as [|g [|g' k']]; [intros [P Q]; auto|destruct g; try exact (fun x => x)|destruct g; exact (fun x => x)]. intros [A B]; auto. }
      destruct Cases as [[Oc Nc] Pc]. constructor; cbn; try assumption; [lia|auto|]. apply Pc. exact P0.
  Qed.

  (** ** Once the deadline has passed, the machine settles *)
  Definition weight (f : frame) : nat :=
    match f with SetT0 _ => 7 | SetP => 4 | SetT1 _ => 6 | SetT2 _ => 1 | Tm0 => 3 | Tm1 now => if flt now d then 9 else 2 | Tm2 => 1 end.
  Definition weights (st : list frame) : nat := list_sum (map weight st).
  Definition mu (a : alarm) : nat :=
    (list_sum (map weights (a_cbs a)) + weights (a_exec a) + match a_timer a with Some _ => 4 | None => 0 end)%nat.
  Hypothesis Hlate : forall c, T <= c < 2 ^ 53 * billion -> flt (getTime c) d = false.

  Lemma fstep_mu f k a t' a1 : okf f -> T <= a_clk a < 2 ^ 53 * billion -> fstep f k a = Some (t', a1) ->
    (forall now, f = Tm1 now -> flt now d = false -> isSet (hd Tm2 t') = false) ->
    (weights t' + (match a_timer a1 with Some _ => 4 | None => 0 end) < weights (f :: k) + match a_timer a with Some _ => 4 | None => 0 end)%nat.
  Proof.
    intros O L E H. destruct f; cbn [fstep] in E.
    - cbn in O. subst d0. rewrite Hd2 in E. inversion E; subst. unfold weights, list_sum. destruct (tsLt _ _); cbn [map weight fold_right a_timer]; lia.
    - inversion E; subst. unfold weights, list_sum. cbn [map weight fold_right a_timer]. lia.
    - inversion E; subst. unfold weights, list_sum. cbn [map weight fold_right a_timer]. destruct (tsEq t0 _); destruct (a_timer a); lia.
    - inversion E; subst. unfold weights, list_sum. cbn [map weight fold_right a_timer]. lia.
    - inversion E; subst. unfold weights, list_sum. cbn [map weight fold_right]. rewrite (Hlate _ L). lia.
    - inversion E; subst. specialize (H _ eq_refl). unfold weights, list_sum. destruct (flt now d) eqn:B.
      + destruct (negb _ && _); cbn [map list_sum weight fold_right]; rewrite B; lia.
      + specialize (H eq_refl). destruct (negb _ && _); cbn [map list_sum weight fold_right hd isSet] in *; [discriminate|rewrite B; lia].
    - inversion E; subst. unfold weights, list_sum. cbn [map weight fold_right a_timer]. lia.
  Qed.
  Lemma sum_app l1 l2 : list_sum (map weights (l1 ++ l2)) = (list_sum (map weights l1) + list_sum (map weights l2))%nat.
  Proof. rewrite map_app. apply list_sum_app. Qed.
  Lemma inv_exec_ok a : inv a -> Forall okf (a_exec a).
  Proof.
    intros [_ _ _ _ P]. unfold phase in P. destruct (a_exec a) as [|f [|g k]]; [constructor| |destruct f; contradiction].
    constructor; [|constructor]. destruct f; cbn; tauto.
  Qed.
  Lemma mu_run l a a' : inv a -> T <= a_clk a < 2 ^ 53 * billion -> isAsk l = false -> raceFree a' -> arun l a = Some a' ->
    if isTick l then mu a' = mu a else (mu a' < mu a)%nat.
  Proof.
    intros I L NA RF E. pose proof (inv_exec_ok _ I) as Eo. destruct I as [_ _ F0 _ P0]. destruct l; cbn [arun] in E; [| |discriminate| |]; cbn [isTick].
    - destruct (a_clk a <=? c); inversion E; subst. reflexivity.
    - destruct (a_timer a) as [z|] eqn:Tz; [|discriminate]. destruct (z <=? a_clk a); inversion E; subst. unfold mu. cbn [a_cbs a_exec a_timer]. rewrite Tz, sum_app. cbn. lia.
    - destruct (a_exec a) as [|f k] eqn:Ex; [discriminate|]. destruct (fstep f k a) as [[t' a1]|] eqn:Fs; inversion E; subst a'. clear E.
      pose proof (fstep_keep _ _ _ _ _ Fs) as (K1 & K2 & K3). unfold mu. cbn [setExec a_cbs a_exec a_timer]. rewrite K3, Ex.
      assert (X := fstep_mu f k a t' a1 (Forall_inv Eo) L Fs). enough (weights t' + match a_timer a1 with Some _ => 4 | None => 0 end < weights (f :: k) + match a_timer a with Some _ => 4 | None => 0 end)%nat by lia.
      apply X. intros now -> _. cbn [fstep] in Fs. inversion Fs; subst. unfold phase in P0. rewrite Ex in P0. destruct k; [|contradiction]. destruct P0 as [_ P]. rewrite P. reflexivity.
    - destruct (nth_error (a_cbs a) i) as [[|f k]|] eqn:N; try discriminate. destruct (fstep f k a) as [[t' a1]|] eqn:Fs; inversion E; subst a'. clear E.
      destruct (upd _ _ _ t' N) as (l1 & l2 & E1 & E2). change (match a_cbs a with [] => [] | _ :: l => skipn i l end) with (skipn (S i) (a_cbs a)) in *. rewrite E2 in *.
      pose proof (fstep_keep _ _ _ _ _ Fs) as (K1 & K2 & K3). unfold mu. cbn [setCbs a_cbs a_exec a_timer]. rewrite K2, E1, !sum_app. cbn [map list_sum fold_right].
      assert (Of : okf f) by (rewrite E1 in F0; apply Forall_app in F0 as [_ F1]; inversion F1 as [|? ? H]; inversion H; assumption).
      assert (X := fstep_mu f k a t' a1 Of L Fs). enough (weights t' + match a_timer a1 with Some _ => 4 | None => 0 end < weights (f :: k) + match a_timer a with Some _ => 4 | None => 0 end)%nat.
      { unfold list_sum. lia. }
      apply X. intros now -> B. cbn [fstep] in Fs. inversion Fs; subst. destruct (a_exec a1) as [|g k'] eqn:Ex.
      + unfold phase in P0. rewrite Ex in P0. destruct P0 as [_ [Q|Q]]; rewrite Q; [reflexivity|]. rewrite B, andb_false_r. reflexivity.
      + destruct RF as [R|R]; [cbn in R; rewrite Ex in R; discriminate|].
        destruct (negb (fis0 (a_next a1)) && flt now (a_next a1)) eqn:B2; [|reflexivity]. change (isSet (SetT0 (a_next a1)) = false). apply (R (SetT0 (a_next a1) :: Tm2 :: k)); [cbn; apply in_elt|left; reflexivity].
  Qed.
  Lemma fstep_some f k a : okf f -> fstep f k a <> None.
  Proof. destruct f; cbn [fstep]; intros O; try discriminate. cbn in O. subst d0. rewrite Hd2. discriminate. Qed.
  Lemma not_stuck a : inv a -> quiet a \/ exists l a', isAsk l = false /\ isTick l = false /\ arun l a = Some a'.
  Proof.
    intros I. pose proof (inv_exec_ok _ I) as Eo. destruct I as [_ _ F0 _ _].
    destruct (a_exec a) as [|f k] eqn:Ex.
    2:{ right. pose proof (fstep_some f k a (Forall_inv Eo)) as X. destruct (fstep f k a) as [[t' a1]|] eqn:Fs; [|contradiction]. exists LExec. cbn [arun]. rewrite Ex, Fs. eauto. }
    assert (D : (forall st, In st (a_cbs a) -> st = []) \/ exists st, In st (a_cbs a) /\ st <> []).
    { clear. induction (a_cbs a) as [|s r [IH|(st & IH & IH')]]; [left; intros ? []| |right; exists st; split; [right; exact IH|exact IH']].
      destruct s; [left; intros st [<-|H]; auto|right; exists (f :: s); split; [left; reflexivity|discriminate]]. }
    destruct D as [D|(st & D1 & D2)].
    - destruct (a_timer a) as [z|] eqn:Tz; [|left; split; [exact Ex|split; [exact D|rewrite Tz; discriminate]]].
      destruct (Z.le_gt_cases z (a_clk a)) as [Le|Gt].
      + right. exists LFire. cbn [arun]. rewrite Tz. destruct (Z.leb_spec z (a_clk a)); [|lia]. eauto.
      + left. split; [exact Ex|split; [exact D|]]. intros z' H. rewrite Tz in H. inversion H; subst. exact Gt.
    - destruct st as [|f k]; [contradiction|]. destruct (In_nth_error _ _ D1) as [i N].
      pose proof (proj1 (Forall_forall _ _) F0 _ D1) as O. pose proof (fstep_some f k a (Forall_inv O)) as X. destruct (fstep f k a) as [[t' a1]|] eqn:Fs; [|contradiction].
      right. exists (LCb i). cbn [arun]. rewrite N, Fs. eauto.
  Qed.
End D.

Lemma aruns_app h1 h2 a : aruns (h1 ++ h2) a = match aruns h1 a with Some b => aruns h2 b | None => None end.
Proof. revert a. induction h1 as [|l r IH]; intros a; cbn; [reflexivity|]. destruct (arun l a); [apply IH|reflexivity]. Qed.
Lemma clk_runs h : forall a a', aruns h a = Some a' -> a_clk a <= a_clk a'.
Proof.
  induction h as [|l r IH]; cbn; intros a a' E; [inversion E; lia|]. destruct (arun l a) as [b|] eqn:R; [|discriminate].
  apply clk_run in R. apply IH in E. lia.
Qed.
Lemma shapes_runs h : forall a a', Forall shape (a_cbs a) -> aruns h a = Some a' -> Forall shape (a_cbs a').
Proof.
  induction h as [|l r IH]; cbn; intros a a' S E; [inversion E; subst; exact S|]. destruct (arun l a) as [b|] eqn:R; [|discriminate].
  eapply IH; [|exact E]. eapply shapes_run; eauto.
Qed.
Lemma rfa_cons l r a b : raceFreeAlong (l :: r) a -> arun l a = Some b -> raceFree a /\ raceFree b /\ raceFreeAlong r b.
Proof.
  intros H E. split; [apply (H [] (l :: r)); reflexivity|]. split.
  - apply (H [l] r); [reflexivity|]. cbn. rewrite E. reflexivity.
  - intros p q c -> R. apply (H (l :: p) q); [reflexivity|]. cbn. rewrite E. exact R.
Qed.

Record ready (d : fl) (t : ts) (T : Z) : Prop := mkReady {
  r_d2 : d2ts billion d = Some t; r_T : T = total billion t; r_n : normal billion t; r_pos : tsEq t (0, 0) = false; r_rt : ts2d billion t = d;
  r_late : forall c, T <= c < 2 ^ 53 * billion -> flt (getTime c) d = false /\ (B2R d <= B2R (getTime c))%R;
  r_near : (1000000000 * B2R d - 2 < IZR T < 1000000000 * B2R d + 1)%R }.
Lemma good_ready d : good d -> exists t T, ready d t T.
Proof.
  intros G. destruct (d2ts_good d G) as (s & n & D & Bs & Bn & R & Nr). exists (s, n), (total billion (s, n)).
  assert (Late : forall c, total billion (s, n) <= c < 2 ^ 53 * billion -> (B2R d <= B2R (getTime c))%R).
  { intros c H. assert (E : getTime (total billion (s, n)) = d).
    { unfold getTime, clockTs, total. cbn [fst snd]. rewrite (Z.add_comm (s * billion)). rewrite Z.div_add, Z.mod_add by discriminate.
      rewrite Z.div_small, Z.mod_small by exact Bn. exact R. }
    rewrite <- E. apply getTime_mono; [|lia]. split; [|lia]. unfold total, billion in *. cbn [fst snd]. nia. }
  constructor; try assumption; try reflexivity.
  - unfold normal. cbn [fst snd]. lia.
  - unfold tsEq. cbn [fst snd]. destruct (Z.eqb_spec s 0); [lia|reflexivity].
  - intros c H. pose proof (Late c H) as Lt. split; [|exact Lt].
    destruct (flt (getTime c) d) eqn:B; [|reflexivity]. exfalso.
    assert (Fc : is_finite (getTime c) = true).
    { unfold getTime, clockTs. pose proof (Z.mod_pos_bound c billion ltac:(reflexivity)). assert (0 <= c) by (unfold total, billion in *; cbn [fst snd] in *; nia).
      apply ts2d_ok; [|assumption]. split; [apply Z.div_pos; [assumption|reflexivity]|]. apply Z.div_lt_upper_bound; [reflexivity|]. unfold billion in *. lia. }
    unfold flt in B. rewrite (Bltb_correct 53 1024 _ _ Fc (proj1 G)) in B. apply Rlt_bool_true_iff in B || idtac. 
    destruct (Rlt_bool_spec (B2R (getTime c)) (B2R d)); [lra|discriminate].
Qed.
Lemma inv_ask d t T a a1 : ready d t T -> 0 <= a_clk a -> Forall shape (a_cbs a) -> arun (LAsk d) a = Some a1 -> raceFree a1 -> inv d t T (a_notes a1) a1.
Proof.
  intros R C S E RF. cbn [arun] in E. destruct (a_exec a) eqn:Ex; inversion E; subst. destruct RF as [X|X]; [discriminate|]. cbn in X. constructor; cbn; try assumption.
  - apply Forall_forall. intros st H1. apply Forall_forall. intros f H2. specialize (X st f H1 H2). destruct f; try discriminate; exact I.
  - exists []. reflexivity.
  - reflexivity.
Qed.
Lemma inv_runs d t T n0 h : forall a a', ready d t T -> inv d t T n0 a -> (forall l, In l h -> isAsk l = false) -> raceFreeAlong h a -> aruns h a = Some a' -> inv d t T n0 a'.
Proof.
  induction h as [|l r IH]; cbn [aruns]; intros a a' R I NA RF E; [inversion E; subst; exact I|].
  destruct (arun l a) as [b|] eqn:Rb; [|discriminate]. destruct (rfa_cons _ _ _ _ RF Rb) as (R1 & R2 & R3).
  eapply IH; [exact R| |intros; apply NA; right; assumption|exact R3|exact E].
  eapply (inv_run d t T n0); [apply R..|exact I|apply NA; left; reflexivity|exact R1|exact R2|exact Rb].
Qed.
Lemma mu_runs d t T n0 h : forall a a', ready d t T -> inv d t T n0 a -> T <= a_clk a -> a_clk a' < 2 ^ 53 * billion ->
  (forall l, In l h -> isAsk l = false) -> raceFreeAlong h a -> aruns h a = Some a' ->
  (length (filter (fun l => negb (isTick l)) h) + mu d a' <= mu d a)%nat.
Proof.
  induction h as [|l r IH]; cbn [aruns]; intros a a' R I L B NA RF E; [inversion E; subst; cbn; lia|].
  destruct (arun l a) as [b|] eqn:Rb; [|discriminate]. destruct (rfa_cons _ _ _ _ RF Rb) as (R1 & R2 & R3).
  pose proof (clk_run _ _ _ Rb) as C1. pose proof (clk_runs _ _ _ E) as C2.
  assert (NA1 : isAsk l = false) by (apply NA; left; reflexivity).
  assert (I' : inv d t T n0 b) by (eapply (inv_run d t T n0); [apply R..|exact I|exact NA1|exact R1|exact R2|exact Rb]).
  pose proof (IH _ _ R I' ltac:(lia) B ltac:(intros; apply NA; right; assumption) R3 E) as X.
  assert (Y : if isTick l then mu d b = mu d a else (mu d b < mu d a)%nat).
  { apply (mu_run d t T n0); try (apply R); try assumption. lia. }
  cbn [filter]. destruct (isTick l); cbn [negb length]; lia.
Qed.
