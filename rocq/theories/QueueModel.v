(** /repo/src/utils/LinkedQueue.hh: LinkedQueue and PriorityQueue at pointer level.
    Items are natural numbers; the intrusive 'next' pointers of all items form
    one heap shared by all queues.  Null is [None].  Outcomes: normal, failed
    assertTrue_1, null dereference, loop bound exhausted (model only).
    size_t arithmetic is modelled by natural numbers. *)
From Coq Require Export List Arith Bool Lia.
Export ListNotations.

Definition heap := nat -> option nat.
Definition hset (h : heap) (x : nat) (v : option nat) : heap := fun y => if Nat.eqb y x then v else h y.
Definition oeqb (a b : option nat) : bool :=
  match a, b with Some x, Some y => Nat.eqb x y | None, None => true | _, _ => false end.

(** LinkedQueue.hh:69-71. *)
Record lq : Type := mkQ { q_head : option nat; q_tail : option nat; q_count : nat }.
Inductive out (A : Type) : Type := Ok (a : A) | AssertFails | NullDeref | OutOfFuel.
Arguments Ok {A}. Arguments AssertFails {A}. Arguments NullDeref {A}. Arguments OutOfFuel {A}.

(** LinkedQueue(), 79-84. *)
Definition q0 : lq := mkQ None None 0.
(** front 91, size 99, empty 106. *)
Definition front (q : lq) : option nat := q_head q.
Definition size (q : lq) : nat := q_count q.
Definition isEmpty (q : lq) : bool := match q_head q with None => true | Some _ => false end.

(** pop, 141-161. *)
Definition pop (h : heap) (q : lq) : out (heap * lq) :=
  match q_head q with
  | None => Ok (h, q)
  | Some x =>
      if oeqb (q_head q) (q_tail q)
      then Ok (hset h x None, mkQ None None (pred (q_count q)))
      else match h x with
           | None => AssertFails
           | Some y => Ok (hset h x None, mkQ (Some y) (q_tail q) (pred (q_count q)))
           end
  end.

(** push, 166-178. *)
Definition push (h : heap) (q : lq) (item : nat) : out (heap * lq) :=
  match h item with
  | Some _ => AssertFails
  | None =>
      let h1 := hset h item None in
      if isEmpty q then Ok (h1, mkQ (Some item) (Some item) (S (q_count q)))
      else match q_tail q with
           | None => NullDeref
           | Some t => Ok (hset h1 t (Some item), mkQ (q_head q) (Some item) (S (q_count q)))
           end
  end.

(** insert_after, 183-198; [it] is the item the iterator points to. *)
Definition insert_after (h : heap) (q : lq) (it : option nat) (item : nat) : out (heap * lq) :=
  match it with
  | None => push h q item
  | Some x =>
      let nxt := h x in
      let h1 := hset (hset h x (Some item)) item nxt in
      Ok (h1, mkQ (q_head q) (match nxt with None => nxt | Some _ => q_tail q end) (S (q_count q)))
  end.

(** A "pointer to next pointer": &m_head or &(n->next). *)
Inductive cell : Type := CHead | CNext (n : nat).
Definition store (h : heap) (q : lq) (c : cell) (v : option nat) : heap * lq :=
  match c with
  | CHead => (h, mkQ v (q_tail q) (q_count q))
  | CNext n => (hset h n v, q)
  end.

(** The search loop shared by remove (210-220) and remove_if (262-275). *)
Fixpoint seek (fuel : nat) (h : heap) (p : nat -> bool) (prev : option nat) (c : cell) (cur : option nat)
  : out (option (option nat * cell * nat)) :=
  match cur with
  | None => Ok None
  | Some x =>
      if p x then Ok (Some (prev, c, x))
      else match fuel with
           | O => OutOfFuel
           | S f => seek f h p (Some x) (CNext x) (h x)
           end
  end.
(** remove_if, 253-282. *)
Definition remove_if (fuel : nat) (h : heap) (q : lq) (p : nat -> bool) : out (heap * lq * option nat) :=
  match seek fuel h p None CHead (q_head q) with
  | Ok None => Ok (h, q, None)
  | Ok (Some (prev, c, x)) =>
      let '(h1, q1) := store h q c (h x) in
      let t := if oeqb (Some x) (q_tail q1) then prev else q_tail q1 in
      Ok (hset h1 x None, mkQ (q_head q1) t (pred (q_count q1)), Some x)
  | AssertFails => AssertFails | NullDeref => NullDeref | OutOfFuel => OutOfFuel
  end.
(** remove, 204-228: the same loop with pointer equality. *)
Definition remove (fuel : nat) (h : heap) (q : lq) (item : nat) : out (heap * lq) :=
  match remove_if fuel h q (Nat.eqb item) with
  | Ok (h1, q1, _) => Ok (h1, q1)
  | AssertFails => AssertFails | NullDeref => NullDeref | OutOfFuel => OutOfFuel
  end.
(** find_if, 234-246. *)
Definition find_if (fuel : nat) (h : heap) (q : lq) (p : nat -> bool) : out (option nat) :=
  match seek fuel h p None CHead (q_head q) with
  | Ok None => Ok None
  | Ok (Some (_, _, x)) => Ok (Some x)
  | AssertFails => AssertFails | NullDeref => NullDeref | OutOfFuel => OutOfFuel
  end.

(** clear, 285-296. *)
Fixpoint clearLoop (fuel : nat) (h : heap) (cur : option nat) : out heap :=
  match cur with
  | None => Ok h
  | Some x => match fuel with O => OutOfFuel | S f => clearLoop f (hset h x None) (h x) end
  end.
Definition clear (fuel : nat) (h : heap) (q : lq) : out (heap * lq) :=
  match clearLoop fuel h (q_head q) with
  | Ok h1 => Ok (h1, q0)
  | AssertFails => AssertFails | NullDeref => NullDeref | OutOfFuel => OutOfFuel
  end.

(** Iteration begin() .. end() with operator++, 112-135, 331-346. *)
Fixpoint iterate (fuel : nat) (h : heap) (cur : option nat) : out (list nat) :=
  match cur with
  | None => Ok []
  | Some x =>
      match fuel with
      | O => OutOfFuel
      | S f => match iterate f h (h x) with
               | Ok l => Ok (x :: l)
               | AssertFails => AssertFails | NullDeref => NullDeref | OutOfFuel => OutOfFuel
               end
      end
  end.

(** PriorityQueue::insert, 465-495; [lt a b] is Compare()(a, b). *)
Definition insert (lt : nat -> nat -> bool) (fuel : nat) (h : heap) (q : lq) (item : nat) : out (heap * lq) :=
  match q_head q with
  | None => push h q item
  | Some _ =>
      match seek fuel h (fun c => lt item c) None CHead (q_head q) with
      | Ok (Some (_, c, x)) =>
          let h1 := hset h item (Some x) in
          let '(h2, q2) := store h1 q c (Some item) in
          Ok (h2, mkQ (q_head q2) (q_tail q2) (S (q_count q2)))
      | Ok None =>
          match q_tail q with
          | None => NullDeref
          | Some t => Ok (hset (hset h item None) t (Some item), mkQ (q_head q) (Some item) (S (q_count q)))
          end
      | AssertFails => AssertFails | NullDeref => NullDeref | OutOfFuel => OutOfFuel
      end
  end.

(** front_count, 499-515. *)
Fixpoint countLoop (lt : nat -> nat -> bool) (fuel : nat) (h : heap) (cur : nat) (result : nat) : out nat :=
  match h cur with
  | None => Ok result
  | Some nxt =>
      if lt cur nxt then Ok result
      else match fuel with O => OutOfFuel | S f => countLoop lt f h nxt (S result) end
  end.
Definition front_count (lt : nat -> nat -> bool) (fuel : nat) (h : heap) (q : lq) : out nat :=
  if q_count q <=? 1 then Ok (q_count q)
  else match q_head q with
       | None => NullDeref
       | Some x => countLoop lt fuel h x 1
       end.
