(** Proofs for C28. *)
From Coq Require Import Permutation.
From Verif Require Import InputModel InputSpec.

Fixpoint chain (nxt : nat -> option nat) (st : option nat) (l : list nat) : Prop :=
  match l with [] => st = None | p :: r => st = Some p /\ chain nxt (nxt p) r end.
Definition lastO (l : list nat) : option nat := match l with [] => None | x :: r => Some (last r x) end.
Record abs (s : shared) (Q F : list nat) : Prop := {
  b_get : chain (s_nxt s) (s_get s) Q;
  b_put : s_put s = lastO Q;
  b_free : chain (s_nxt s) (s_free s) F;
  b_nodup : NoDup (Q ++ F);
  b_lt : forall p, In p (Q ++ F) -> p < s_new s }.

Lemma upd_same {A} f i (x : A) : upd f i x i = x. Proof. unfold upd. now rewrite Nat.eqb_refl. Qed.
Lemma upd_other {A} f i (x : A) j : j <> i -> upd f i x j = f j. Proof. unfold upd. intros H. now rewrite (proj2 (Nat.eqb_neq _ _) H). Qed.
Lemma chain_ext n n' st l : (forall p, In p l -> n' p = n p) -> chain n st l -> chain n' st l.
Proof.
  revert st. induction l as [|p l IH]; cbn; auto. intros st E [-> C]. split; auto. rewrite E by auto. apply IH; auto.
Qed.
Lemma chain_upd n st l p x : ~ In p l -> chain n st l -> chain (upd n p x) st l.
Proof. intros N. apply chain_ext. intros q Hq. apply upd_other. intros ->. auto. Qed.
Lemma lastO_snoc l p : lastO (l ++ [p]) = Some p.
Proof. destruct l; cbn; auto. f_equal. apply last_last. Qed.
Lemma lastO_in l q : lastO l = Some q -> exists l', l = l' ++ [q].
Proof.
  destruct l as [|x l]; [discriminate|]. cbn. intros H. inversion H; subst; clear H. revert x. induction l as [|y l IH]; intros x.
  - exists []. auto.
  - destruct (IH y) as [l' E]. exists (x :: l'). cbn. change (match l with [] => y | _ :: _ => last l x end) with (last (y :: l) x).
    rewrite E. f_equal. f_equal. f_equal. rewrite last_last. destruct l'; inversion E; subst; auto.
Qed.
Lemma chain_app n st l q p : NoDup (l ++ [q]) -> ~ In p (l ++ [q]) -> chain n st (l ++ [q]) -> n p = None ->
  chain (upd n q (Some p)) st ((l ++ [q]) ++ [p]).
Proof.
  revert st. induction l as [|x l IH]; cbn; intros st N I C E.
  - destruct C as [-> C]. split; auto. rewrite upd_same. split; auto. rewrite upd_other; auto.
  - destruct C as [-> C]. inversion N; subst. split; auto. rewrite upd_other. 2:{ intros ->. apply H1. apply in_app_iff. right. now left. }
    apply IH; auto.
Qed.

Lemma NoDup_insert (p : nat) Q F : NoDup (Q ++ F) -> ~ In p (Q ++ F) -> NoDup (Q ++ p :: F).
Proof. intros N I. apply (Permutation_NoDup (Permutation_middle Q F p)). constructor; auto. Qed.
Lemma NoDup_app_l (Q F : list nat) : NoDup (Q ++ F) -> NoDup Q.
Proof. induction Q; cbn; intros N; constructor; inversion N; subst; auto. intros X. apply H1, in_app_iff. auto. Qed.
Lemma abs0 : abs shared0 [] []. Proof. constructor; cbn; auto. constructor. tauto. Qed.
Lemma abs_put s Q F p : abs s Q F -> ~ In p (Q ++ F) -> p < s_new s -> abs (put s p) (Q ++ [p]) F.
Proof.
  intros [G P R N L] I B. assert (IQ : ~ In p Q) by (intros X; apply I, in_app_iff; auto). assert (IF : ~ In p F) by (intros X; apply I, in_app_iff; auto).
  assert (ND : NoDup ((Q ++ [p]) ++ F)).
  { rewrite <- app_assoc. cbn [app]. apply NoDup_insert; auto. }
  assert (LT : forall x, In x ((Q ++ [p]) ++ F) -> x < s_new s).
  { intros x Hx. rewrite <- app_assoc in Hx. apply in_app_iff in Hx as [Hx|[<-|Hx]]; auto; apply L, in_app_iff; auto. }
  unfold put. cbn [s_put setNxt]. rewrite P. destruct Q as [|x Q'].
  - cbn in G. cbn. rewrite G. constructor; cbn; auto. { split; auto. now rewrite upd_same. } apply chain_upd; auto.
  - set (Q := x :: Q') in *. destruct (lastO Q) as [q|] eqn:LQ; [|discriminate LQ]. destruct (lastO_in _ _ LQ) as [l E].
    destruct G as [G1 G2]. cbn [s_get setPut setNxt]. rewrite G1.
    assert (qp : q <> p). { intros ->. apply IQ. rewrite E. apply in_app_iff. right. now left. }
    assert (NQ : NoDup Q). { apply NoDup_app_l in N. auto. }
    constructor; cbn [s_get s_put s_free s_nxt s_new setPut setNxt]; auto.
    + rewrite E. apply chain_app; rewrite <- ?E; auto; [|apply upd_same]. apply chain_upd; auto. cbn. auto.
    + now rewrite lastO_snoc.
    + apply chain_upd. { intros X. rewrite E in N. rewrite <- app_assoc in N. apply NoDup_remove_2 in N. apply N, in_app_iff. auto. } apply chain_upd; auto.
Qed.
Lemma abs_release s Q F p : abs s Q F -> ~ In p (Q ++ F) -> p < s_new s -> abs (release s p) Q (p :: F).
Proof.
  intros [G P R N L] I B. assert (IQ : ~ In p Q) by (intros X; apply I, in_app_iff; auto). assert (IF : ~ In p F) by (intros X; apply I, in_app_iff; auto).
  unfold release. constructor; cbn; auto.
  - apply chain_upd; auto. apply chain_upd; auto.
  - split; auto. rewrite upd_same. apply chain_upd; auto. apply chain_upd; auto.
  - apply NoDup_insert; auto.
  - intros x Hx. apply in_app_iff in Hx as [Hx|[<-|Hx]]; auto; apply L, in_app_iff; auto.
Qed.
Lemma abs_get s Q F : abs s Q F ->
  match Q with [] => get s = Some (s, None) | p :: Q' => exists s', get s = Some (s', Some p) /\ abs s' Q' F end.
Proof.
  intros [G P R N L]. destruct Q as [|p Q']; cbn in G; unfold get.
  - now rewrite G.
  - destruct G as [G1 G2]. rewrite G1. cbn [setGet s_get s_put s_nxt]. inversion N; subst.
    destruct Q' as [|x Q''].
    + cbn in G2. rewrite G2. rewrite P. cbn. rewrite Nat.eqb_refl. eexists. split; [reflexivity|]. constructor; cbn; auto. intros y Hy. apply L. cbn. auto.
    + destruct G2 as [G2 G3]. rewrite G2. eexists. split; [reflexivity|]. constructor; cbn; auto.
      * rewrite P. cbn. f_equal. destruct Q''; auto. cbn. clear. revert n. induction Q''; cbn; auto.
      * intros y Hy. apply L. cbn. auto.
Qed.
Lemma abs_alloc s Q F : abs s Q F ->
  match F with [] => allocate s = (fresh s, s_new s, true) /\ abs (fresh s) Q []
             | p :: F' => exists s', allocate s = (s', p, false) /\ abs s' Q F' /\ s_new s' = s_new s end.
Proof.
  intros [G P R N L]. destruct F as [|p F']; unfold allocate.
  - cbn in R. rewrite R. split; auto. unfold fresh. rewrite app_nil_r in *. constructor; cbn; rewrite ?app_nil_r; auto.
    + apply chain_upd; auto. intros X. apply L in X. lia.
    + intros p Hp. specialize (L p Hp). lia.
  - destruct R as [R1 R2]. rewrite R1. eexists. split; [reflexivity|]. split; auto. constructor; cbn; auto.
    + now apply NoDup_remove_1 in N.
    + intros y Hy. apply L. apply in_app_iff in Hy as [|]; apply in_app_iff; cbn; auto.
Qed.
Lemma flush_loop n : forall s Q F, chain (s_nxt s) (s_get s) Q -> chain (s_nxt s) (s_free s) F -> NoDup (Q ++ F) -> (forall p, In p (Q ++ F) -> p < s_new s) -> length Q <= n ->
  let r := flushLoop n s in snd r = Q /\ s_new (fst r) = s_new s /\ s_get (fst r) = None /\ chain (s_nxt (fst r)) (s_free (fst r)) (rev Q ++ F).
Proof.
  induction n as [|n IH]; intros s Q F G R N L B.
  - destruct Q; [|cbn in B; lia]. cbn in G. cbn. rewrite G. auto.
  - destruct Q as [|p Q]; cbn in G; cbn [flushLoop].
    + rewrite G. cbn. auto.
    + destruct G as [G1 G2]. rewrite G1. inversion N; subst. cbn in B.
      assert (IQ : ~ In p Q) by (intros X; apply H1, in_app_iff; auto). assert (IF : ~ In p F) by (intros X; apply H1, in_app_iff; auto).
      destruct (IH (release (setGet s (s_nxt s p)) p) Q (p :: F)) as (A1 & A2 & A3 & A4); cbn; auto; try lia.
      * apply chain_upd; auto. apply chain_upd; auto.
      * split; auto. rewrite upd_same. apply chain_upd; auto. apply chain_upd; auto.
      * apply NoDup_insert; auto.
      * intros x Hx. apply L. apply in_app_iff in Hx as [Hx|[<-|Hx]]; cbn; auto; right; apply in_app_iff; auto.
      * split; [now rewrite A1|]. split; auto. split; auto. cbn [rev]. now rewrite <- app_assoc.
Qed.
Lemma nodup_lt (l : list nat) n : NoDup l -> (forall p, In p l -> p < n) -> length l <= n.
Proof.
  intros N L. rewrite <- (seq_length n 0). apply NoDup_incl_length; auto. intros p Hp. apply in_seq. specialize (L p Hp). lia.
Qed.
Lemma abs_flush s Q F : abs s Q F -> exists s', flush s = (s', Q) /\ abs s' [] (rev Q ++ F) /\ s_new s' = s_new s.
Proof.
  intros [G P R N L]. unfold flush.
  destruct (flush_loop (S (s_new s)) s Q F) as (A1 & A2 & A3 & A4); auto.
  { assert (length Q <= s_new s); [|lia]. apply nodup_lt. apply NoDup_app_l in N; auto. intros p Hp. apply L, in_app_iff; auto. }
  rewrite A1. eexists. split; [reflexivity|]. split; auto. constructor; cbn [setPut s_get s_put s_free s_nxt s_new]; auto.
  - cbn [app]. apply (Permutation_NoDup (l := Q ++ F)); auto. apply Permutation_app_tail, Permutation_rev.
  - intros p Hp. cbn [app] in Hp. rewrite A2. apply L. apply in_app_iff in Hp as [Hp|Hp]; apply in_app_iff; auto. left. now apply in_rev.
Qed.
