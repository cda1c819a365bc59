(** C76: finalizers run once each, last registered first. *)
From Coq Require Import List Arith Lia.
From Verif Require Import FinalModel.
Import ListNotations.

(** What each run calls: everything registered since the run before it, newest first. *)
Fixpoint expected (l : list step) (pending : list nat) : list (list nat) :=
  match l with
  | [] => []
  | Add f :: r => expected r (f :: pending)
  | Run :: r => pending :: expected r []
  end.
(** The contents: the head's first [i] slots downwards, then full buckets. *)
Fixpoint down (b : bucket) (i : nat) : list nat := match i with O => [] | S i' => b i' :: down b i' end.
Definition contents (s : opstack) : list nat :=
  match o_buckets s with [] => [] | b :: r => down b (o_idx s) ++ flat_map (fun b => down b bucketSize) r end.
Lemma down_set b i f j : j <= i -> down (bset b i f) j = down b j.
Proof. induction j as [|j IH]; intros L; [reflexivity|]. cbn [down]. unfold bset at 1. destruct (Nat.eqb_spec j i); [lia|]. now rewrite IH by lia. Qed.
Lemma push_contents s f : (o_buckets s = [] \/ o_idx s <= bucketSize) -> contents (push s f) = f :: contents s /\ o_idx (push s f) <= bucketSize.
Proof.
  unfold push, contents. destruct (o_buckets s) as [|b r]; [intros _; split; [reflexivity|cbn; unfold bucketSize; lia]|]. intros [X|L]; [discriminate X|].
  destruct (Nat.eqb_spec (o_idx s) bucketSize) as [E|E]; cbn [o_buckets o_idx].
  - split; [|unfold bucketSize; lia]. cbn [flat_map down]. rewrite E. reflexivity.
  - split; [|lia]. cbn [down]. unfold bset at 1. rewrite Nat.eqb_refl, down_set by lia. reflexivity.
Qed.
Section Plain.
Variable adds : nat -> list nat.
Lemma runBucket_plain k s i : (forall f, In f (down (at_ k s) i) -> adds f = []) -> runBucket adds k i s = (down (at_ k s) i, s).
Proof.
  induction i as [|i IH]; intros H; [reflexivity|]. cbn [runBucket down]. rewrite (H (at_ k s i)) by (now left). cbn [fold_left]. rewrite IH by (intros f I; apply H; now right). reflexivity.
Qed.
Lemma nth_app_mid (A : Type) (l : list A) x d : nth (length l) (l ++ [x]) d = x.
Proof. rewrite app_nth2 by lia. now rewrite Nat.sub_diag. Qed.
Lemma runFrom_plain r : forall b i idx, (forall f, In f (down b i ++ flat_map (fun b => down b bucketSize) r) -> adds f = []) ->
  runFrom adds (length r) i {| o_buckets := b :: r; o_idx := idx |} = down b i ++ flat_map (fun b => down b bucketSize) r.
Proof.
  induction r as [|b' r IH]; intros b i idx H.
  - cbn [length runFrom]. assert (A : at_ 0 {| o_buckets := [b]; o_idx := idx |} = b) by reflexivity. rewrite runBucket_plain; rewrite A; [now rewrite app_nil_r|]. intros f I. apply H. now rewrite app_nil_r.
  - assert (A : at_ (length (b' :: r)) {| o_buckets := b :: b' :: r; o_idx := idx |} = b).
    { unfold at_. cbn [o_buckets]. change (b :: b' :: r) with ([b] ++ (b' :: r)). rewrite rev_app_distr. rewrite <- (rev_length (b' :: r)). apply nth_app_mid. }
    change (length (b' :: r)) with (S (length r)) in *. cbn [runFrom]. rewrite runBucket_plain; rewrite A; [|intros f I; apply H, in_or_app; now left]. cbn [o_buckets o_idx length].
    replace (S (S (length r)) - S (length r)) with 1 by lia. cbn [skipn]. rewrite IH; [reflexivity|]. intros f I. apply H, in_or_app. right. exact I.
Qed.
Lemma run_plain s : (forall f, In f (contents s) -> adds f = []) -> run adds s = (contents s, emptyStack).
Proof.
  unfold run, contents. destruct s as [bs idx]. cbn [o_buckets o_idx]. destruct bs as [|b r]; [reflexivity|]. intros H. f_equal. cbn [length]. rewrite Nat.sub_succ, Nat.sub_0_r. now apply runFrom_plain.
Qed.
(** For any program whose finalizers register none themselves: each run calls what was registered since the last run, each once, the newest
    first. *)
Theorem C76_lifo l : (forall f, In (Add f) l -> adds f = []) -> program adds l emptyStack = expected l [].
Proof.
  intros H. enough (X : forall s, (o_buckets s = [] \/ o_idx s <= bucketSize) -> (forall f, In f (contents s) -> adds f = []) -> program adds l s = expected l (contents s)) by (apply X; [now left|intros f []]).
  induction l as [|[f|] l IH]; intros s W P; [reflexivity| |].
  - cbn [program expected]. destruct (push_contents s f W) as [C L]. rewrite IH, C; [reflexivity|intros g I; apply H; now right|right; exact L|].
    rewrite C. intros g [<-|I]; [apply H; now left|now apply P].
  - cbn [program expected]. rewrite run_plain by exact P. rewrite IH; [reflexivity|intros g I; apply H; now right|now left|intros g []].
Qed.
End Plain.
(** A finalizer that registers another one while it runs: that one is lost. *)
Theorem C76_nested_lost_refuted : let adds := fun f => if Nat.eqb f 1 then [2] else [] in
  program adds [Add 1; Run; Run] emptyStack = [[1]; []].
Proof. reflexivity. Qed.
(** It may even take the place of one that was still to run: of ten number 4 is lost, of eleven number 5. *)
Theorem C76_nested_overwrites_refuted : let adds := fun f => if Nat.eqb f 7 then [50] else [] in
  program adds (map Add [1; 2; 3; 4; 5; 6; 7; 8; 9; 10] ++ [Run]) emptyStack = [[10; 9; 8; 7; 6; 5; 50; 3; 2; 1]] /\
  program adds (map Add [1; 2; 3; 4; 5; 6; 7; 8; 9; 10; 11] ++ [Run]) emptyStack = [[11; 10; 9; 8; 7; 6; 50; 4; 3; 2; 1]].
Proof. split; vm_compute; reflexivity. Qed.
(** Also where enough are registered by one to open a new bucket: the next one registered replaces number 10. *)
Theorem C76_nested_bucket_refuted : program (fun f => if Nat.eqb f 15 then seq 50 8 else if Nat.eqb f 14 then [90] else []) (map Add (seq 1 15) ++ [Run; Run]) emptyStack =
  [[15; 14; 13; 12; 11; 90; 9; 8; 7; 6; 5; 4; 3; 2; 1]; []].
Proof. vm_compute. reflexivity. Qed.
Theorem C76_example : program (fun _ => []) (map Add (seq 1 15) ++ [Run; Add 3; Add 3; Run]) emptyStack = [rev (seq 1 15); [3; 3]].
Proof. vm_compute. reflexivity. Qed.

(** Assumptions *)
Print Assumptions C76_lifo.
Print Assumptions C76_nested_lost_refuted.
Print Assumptions C76_nested_overwrites_refuted.
Print Assumptions C76_example.
Print Assumptions C76_nested_bucket_refuted.
