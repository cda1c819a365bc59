(** C79: what a simulator script says. *)
From Coq Require Import ZArith Reals List Bool String.
From Flocq Require Import Core BinarySingleNaN.
From Verif Require Import ValueModel FloatModel TypeModel UdpQueueModel LitModel LitSpec ResFileModel ResFileSpec ScriptModel.
Import ListNotations.
Open Scope Z_scope.

(** A line whose first character that is no blank, tab or carriage return is a letter or digit, and one that is not such. *)
Definition margin (b : str) : Prop := Forall (fun c => In c [9; 10; 13; 32]) b.
Definition alnum (c : Z) : Prop := exists d, digitChar c d.
Definition dataLine (l : str) : Prop := plainLine l /\ exists b c r, l = b ++ c :: r /\ margin b /\ alnum c.
Definition remark (l : str) : Prop :=
  plainLine l /\ (margin l \/ exists b c r, l = b ++ c :: r /\ margin b /\ ~ In c [9; 10; 13; 32] /\ ~ alnum c).
(** A delay: digits with at most one point, and the double strtod finds (C79_delay: the nearest one). *)
Definition delayIs (w : str) (x : fl) : Prop := (exists m k, mantissa 10 w m k) /\ strtod w = Some (x, []) /\ is_finite x = true.
(** The value a line is, by type: a literal as in a plan (C63), the line itself, the name of a command handle. *)
Inductive valueIs : Z -> str -> rval -> Prop :=
| VI_bool l b : parseBoolean l = Known b -> valueIs BOOLEAN_TYPE l (VVal (SB b))
| VI_int l z : parseInteger l = Known z -> valueIs INTEGER_TYPE l (VVal (SI z))
| VI_real l x : parseReal l = Known x -> valueIs REAL_TYPE l (VVal (SR x))
| VI_string l : valueIs STRING_TYPE l (VVal (SS l))
| VI_handle i : (1 <= i < 10)%nat -> valueIs COMMAND_HANDLE_TYPE (nameOf handleNames i) (VHandle i).
(** Names that mean nothing else. *)
Definition freeName (n : str) : Prop :=
  n <> chars "BEGIN_TELEMETRY" /\ n <> chars "BEGIN_COMMANDS" /\ n <> chars "Command" /\ parseValueType n = UNKNOWN_TYPE.
Definition undeclared (n : str) (tab : table) : Prop := ~ In n (map fst tab).

(** A script with declarations: what it says given the symbols [tab], and the symbols declared in the end. *)
Inductive scriptSays (tab : table) : list str -> list entry -> table -> Prop :=
| S_end : scriptSays tab [] [] tab
| S_remark l ls es tab' : remark l -> scriptSays tab ls es tab' -> scriptSays tab (l :: ls) es tab'
| S_lookup l ty n ws ls es tab' : dataLine l -> hasWords l (ty :: chars "Lookup" :: n :: ws) -> parseValueType ty <> UNKNOWN_TYPE -> undeclared n tab ->
    scriptSays (tab ++ [(n, (true, parseValueType ty))]) ls es tab' -> scriptSays tab (l :: ls) es tab'
| S_command l ty n ws ls es tab' : dataLine l -> hasWords l (ty :: chars "Command" :: n :: ws) -> parseValueType ty <> UNKNOWN_TYPE -> undeclared n tab ->
    scriptSays (tab ++ [(n, (false, parseValueType ty))]) ls es tab' -> scriptSays tab (l :: ls) es tab'
| S_command0 l n ws ls es tab' : dataLine l -> hasWords l (chars "Command" :: n :: ws) -> undeclared n tab ->
    scriptSays (tab ++ [(n, (false, UNKNOWN_TYPE))]) ls es tab' -> scriptSays tab (l :: ls) es tab'
| S_telemetry l n d ws x rs v ty y ls es tab' : dataLine l -> hasWords l (n :: d :: ws) -> freeName n -> In (n, (true, ty)) tab -> delayIs d x ->
    Forall remark rs -> dataLine v -> valueIs ty v y -> scriptSays tab ls es tab' -> scriptSays tab (l :: rs ++ v :: ls) (ETelemetry n x y :: es) tab'
| S_response l n i k d ws a b x rs v ty y ls es tab' : dataLine l -> hasWords l (n :: i :: k :: d :: ws) -> freeName n -> In (n, (false, ty)) tab ->
    numeral 10 i a -> a < 2 ^ 64 -> numeral 10 k b -> b < 2 ^ 32 -> delayIs d x ->
    Forall remark rs -> dataLine v -> valueIs ty v y -> scriptSays tab ls es tab' ->
    scriptSays tab (l :: rs ++ v :: ls) (EManager n :: ECommand n a b x y :: es) tab'.
(** An old script: all values are Reals; [tel]: telemetry, otherwise responses, until a line says otherwise. *)
Inductive saysOld : bool -> list str -> list entry -> Prop :=
| O_end tel : saysOld tel [] []
| O_remark tel l ls es : remark l -> saysOld tel ls es -> saysOld tel (l :: ls) es
| O_switch tel (t : bool) l ws ls es : dataLine l -> hasWords l (chars (if t then "BEGIN_TELEMETRY" else "BEGIN_COMMANDS") :: ws) -> saysOld t ls es -> saysOld tel (l :: ls) es
| O_telemetry l n d ws x rs v y ls es : dataLine l -> hasWords l (n :: d :: ws) -> n <> chars "BEGIN_TELEMETRY" -> n <> chars "BEGIN_COMMANDS" -> delayIs d x ->
    Forall remark rs -> dataLine v -> valueIs REAL_TYPE v y -> saysOld true ls es -> saysOld true (l :: rs ++ v :: ls) (ETelemetry n x y :: es)
| O_response l n i k d ws a b x rs v y ls es : dataLine l -> hasWords l (n :: i :: k :: d :: ws) -> n <> chars "BEGIN_TELEMETRY" -> n <> chars "BEGIN_COMMANDS" ->
    numeral 10 i a -> a < 2 ^ 64 -> numeral 10 k b -> b < 2 ^ 32 -> delayIs d x ->
    Forall remark rs -> dataLine v -> valueIs REAL_TYPE v y -> saysOld false ls es ->
    saysOld false (l :: rs ++ v :: ls) (EManager n :: ECommand n a b x y :: es).
