(** What a client of SimpleMap and SimpleSet expects: a finite map, a finite set, iterated in order.
    Nothing here mentions vectors or positions. *)
From Coq Require Import Arith List Bool.
From Verif Require Import MapModel.
Import ListNotations.

(** A strict total order with the equality test that goes with it. *)
Record total_order {K} (lt eqb : K -> K -> bool) : Prop := mkTO {
  to_irrefl : forall a, lt a a = false;
  to_trans : forall a b c, lt a b = true -> lt b c = true -> lt a c = true;
  to_total : forall a b, lt a b = true \/ a = b \/ lt b a = true;
  to_eq : forall a b, eqb a b = true <-> a = b
}.

Section MSpec.
  Variables (K V : Type) (lt eqb : K -> K -> bool) (dflt : V).
  (** The contents: a partial function.  [l] lists it in increasing order of keys, each once. *)
  Definition lists (f : K -> option V) (l : list (K * V)) : Prop :=
    (forall k v, In (k, v) l <-> f k = Some v)
    /\ (forall i j a b, nth_error l i = Some a -> nth_error l j = Some b -> i < j ->
        lt (fst a) (fst b) = true).
  Definition upd (f f' : K -> option V) (k : K) (v : V) : Prop :=
    f' k = Some v /\ forall k', k' <> k -> f' k' = f k'.
  Definition same (f f' : K -> option V) : Prop := forall k, f' k = f k.
  Definition mspec (f : K -> option V) (o : mop K V) (r : mout K V) (f' : K -> option V) : Prop :=
    match o with
    | MInsert _ _ k v =>
      match f k with
      | None => r = OBool _ _ true /\ upd f f' k v
      | Some _ => r = OBool _ _ false /\ same f f'        (* an existing entry is kept *)
      end
    | MAssign _ _ k v => r = OUnit _ _ /\ upd f f' k v
    | MIndex _ _ k =>
      match f k with
      | Some v => r = OVal _ _ v /\ same f f'
      | None => r = OVal _ _ dflt /\ upd f f' k dflt       (* reading an absent key creates it *)
      end
    | MConst _ _ k => r = OVal _ _ (match f k with Some v => v | None => dflt end) /\ same f f'
    | MFind _ _ k => r = OFind _ _ (match f k with Some v => Some (k, v) | None => None end) /\ same f f'
    | MSize _ _ => (exists l, lists f l /\ r = ONum _ _ (length l)) /\ same f f'
    | MEmpty _ _ => (exists b, r = OBool _ _ b /\ (b = true <-> forall k, f k = None)) /\ same f f'
    | MIter _ _ => (exists l, lists f l /\ r = OList _ _ l) /\ same f f'
    | MClear _ _ => r = OUnit _ _ /\ forall k, f' k = None
    end.
  Inductive mhist : (K -> option V) -> list (mop K V) -> list (mout K V) -> (K -> option V) -> Prop :=
  | mh_nil : forall f f', same f f' -> mhist f [] [] f'
  | mh_cons : forall f o r f1 os rs f2, mspec f o r f1 -> mhist f1 os rs f2 -> mhist f (o :: os) (r :: rs) f2.
End MSpec.

Section SSpec.
  Variables (K : Type) (lt : K -> K -> bool).
  Definition slists (f : K -> Prop) (l : list K) : Prop :=
    (forall k, In k l <-> f k)
    /\ (forall i j a b, nth_error l i = Some a -> nth_error l j = Some b -> i < j -> lt a b = true).
  Definition ssame (f f' : K -> Prop) : Prop := forall k, f' k <-> f k.
  Definition sspec (f : K -> Prop) (o : sop K) (r : sout K) (f' : K -> Prop) : Prop :=
    match o with
    | SInsert _ k => (exists b, r = PBool _ b /\ (b = true <-> ~ f k)) /\ (forall k', f' k' <-> k' = k \/ f k')
    | SErase _ k => (exists n, r = PNum _ n /\ (f k -> n = 1) /\ (~ f k -> n = 0)) /\ (forall k', f' k' <-> k' <> k /\ f k')
    | SContains _ k => (exists b, r = PBool _ b /\ (b = true <-> f k)) /\ ssame f f'
    | SFind _ k => (exists x, r = PFind _ x /\ (f k -> x = Some k) /\ (~ f k -> x = None)) /\ ssame f f'
    | SSize _ => (exists l, slists f l /\ r = PNum _ (length l)) /\ ssame f f'
    | SIter _ => (exists l, slists f l /\ r = PList _ l) /\ ssame f f'
    | SClear _ => r = PUnit _ /\ forall k, ~ f' k
    end.
  Inductive shist : (K -> Prop) -> list (sop K) -> list (sout K) -> (K -> Prop) -> Prop :=
  | sh_nil : forall f f', ssame f f' -> shist f [] [] f'
  | sh_cons : forall f o r f1 os rs f2, sspec f o r f1 -> shist f1 os rs f2 -> shist f (o :: os) (r :: rs) f2.
End SSpec.
