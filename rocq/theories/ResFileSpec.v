(** C75: what a resource hierarchy file says. *)
From Coq Require Import ZArith Reals List Bool String.
From Flocq Require Import Core BinarySingleNaN.
From Verif Require Import ValueModel FloatModel TypeModel UdpQueueModel LitModel LitSpec ResFileModel.
Import ListNotations.
Open Scope Z_scope.

Definition isBlank (c : Z) : Prop := In c [9; 10; 11; 12; 13; 32].
Definition word (w : str) : Prop := w <> [] /\ Forall (fun c => ~ isBlank c) w.
(** The words of a line. *)
Inductive hasWords : str -> list str -> Prop :=
| HW_nil b : blank b -> hasWords b []
| HW_cons b w t l : blank b -> word w -> t = [] \/ isBlank (hd 0 t) -> hasWords t l -> hasWords (b ++ w ++ t) (w :: l).
(** A number as a word: what it says (sign and magnitude), and the double that stands for it. *)
Definition says (w : str) (neg : bool) (r : R) : Prop := exists sg body, sign sg neg /\ realBody body r /\ w = sg ++ body.
Definition standsFor (x : fl) (neg : bool) (r : R) : Prop :=
  if Rlt_bool (Rabs (nearest r)) (bpow radix2 1024)
  then is_finite x = true /\ B2R x = (if neg then - nearest r else nearest r)%R
  else x = B754_infinity neg.
(** A word that does not begin like a number. *)
Definition noNumber (w : str) : Prop :=
  exists sg neg r, sign sg neg /\ w = sg ++ r /\ forall c q, r = c :: q -> ~ (exists d, digitChar c d /\ d < 10) /\ ~ In c [43; 45; 46; 105; 73; 110; 78].

(** An entry: a resource, how much there is of it, and its parts. *)
Record sentry := { se_name : str; se_max : bool * R; se_kids : list ((bool * R) * str) }.
Inductive kidsOf : list str -> list ((bool * R) * str) -> Prop :=
| KO_nil : kidsOf [] []
| KO_cons a neg r n l ks : says a neg r -> kidsOf l ks -> kidsOf (a :: n :: l) (((neg, r), n) :: ks).
(** What a line of words says: nothing, or an entry. *)
Inductive meaning : list str -> option sentry -> Prop :=
| M_blank : meaning [] None
| M_comment c l : meaning ((37 :: c) :: l) None
| M_entry n a neg r l ks : hd 0 n <> 37 -> says a neg r -> kidsOf l ks ->
    meaning (n :: a :: l) (Some {| se_name := n; se_max := (neg, r); se_kids := ks |}).
(** A line that says nothing: no amount, an amount that is no number, or the same for a part, or a part without a name. *)
Inductive senseless : list str -> Prop :=
| S_alone n : hd 0 n <> 37 -> senseless [n]
| S_amount n a l : hd 0 n <> 37 -> noNumber a -> senseless (n :: a :: l)
| S_part n a neg r l ks b m : hd 0 n <> 37 -> says a neg r -> kidsOf l ks -> noNumber b -> senseless (n :: a :: l ++ b :: m)
| S_noname n a neg r l ks b neg' r' : hd 0 n <> 37 -> says a neg r -> kidsOf l ks -> says b neg' r' -> senseless (n :: a :: l ++ [b]).

Definition text (ls : list str) : str :=
  match ls with [] => [] | l :: r => l ++ flat_map (fun x => 10 :: x) r end.
(** A line of text. *)
Definition plainLine (l : str) : Prop := Forall (fun c => c <> 10 /\ c <> 0) l.
Definition lineSays (l : str) (m : option sentry) : Prop := plainLine l /\ exists ws, hasWords l ws /\ meaning ws m.
Definition entries (ms : list (option sentry)) : list sentry := flat_map (fun m => match m with Some e => [e] | None => [] end) ms.
Definition same (e : rentry) (s : sentry) : Prop :=
  re_name e = se_name s /\ standsFor (re_max e) (fst (se_max s)) (snd (se_max s)) /\
  Forall2 (fun k t => snd k = snd t /\ standsFor (fst k) (fst (fst t)) (snd (fst t))) (re_kids e) (se_kids s).
