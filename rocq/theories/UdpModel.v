(** UDP messages: /repo/src/interfaces/UdpAdapter/udp-utils.cc, UdpAdapter.cc (parseMessageDefinition,
    buildUdpBuffer, executeDefaultCommand, handleUdpMessage), UdpEventLoop.cc (handleFDReady).
    Simplifications:
    - the XML of a <Parameter> is its three attributes, the type attribute already recognised or not;
      ports and peers are left out, a message's ports are taken as valid;
    - bytes and characters are Z, 0..255; a float is an IEEE binary32 without NaN payload;
    - an argument of a command is [None] when unknown;
    - the network is a boolean: whether send_message_connect could send. *)
From Coq Require Import ZArith List Bool.
From Flocq Require Import Core Binary Bits BinarySingleNaN.
From Verif Require Import ValueModel FloatModel TypeModel.
Import ListNotations.
Open Scope Z_scope.

(** ** udp-utils.cc *)
Definition f32 : Type := BinarySingleNaN.binary_float 24 128.
(** (float) of a double, rounding to nearest even. *)
Definition toF32 (x : fl) : f32 :=
  match x with
  | B754_zero s => B754_zero s
  | B754_infinity s => B754_infinity s
  | B754_nan => B754_nan
  | B754_finite s m e _ => binary_normalize 24 128 eq_refl eq_refl mode_NE (szm s m) e s
  end.
(** (double) of a float: exact. *)
Definition toF64 (x : f32) : fl :=
  match x with
  | B754_zero s => B754_zero s
  | B754_infinity s => B754_infinity s
  | B754_nan => B754_nan
  | B754_finite s m e _ => binary_normalize 53 1024 eq_refl eq_refl mode_NE (szm s m) e s
  end.
(** float_to_int32_t, int32_t_to_float :57-70: the bit pattern. *)
Definition f32Bits (x : f32) : Z := bits_of_b32 (BSN2B 24 128 default_nan_pl32 x).
Definition bitsF32 (b : Z) : f32 := B2BSN 24 128 (b32_of_bits b).
(** encode_int32_t :77-82, decode_int32_t :93-99: [serInt4], and *)
Definition unInt4 (bs : list Z) : Z :=
  match bs with b3 :: b2 :: b1 :: b0 :: _ => toInt32 (((b3 * 256 + b2) * 256 + b1) * 256 + b0) | _ => 0 end.
(** encode_short_int :85-90, decode_short_int :102-108. *)
Definition serInt2 (v : Z) : list Z := [byteAt 8 v; byteAt 0 v].
Definition toInt16 (u : Z) : Z := if u <? 2 ^ 15 then u else u - 2 ^ 16.
Definition unInt2 (bs : list Z) : Z := match bs with b1 :: b0 :: _ => toInt16 (b1 * 256 + b0) | _ => 0 end.
(** encode_float :111-114, decode_float :117-122. *)
Definition serF32 (x : f32) : list Z := serInt4 (f32Bits x).
Definition unF32 (bs : list Z) : f32 := bitsF32 (unInt4 bs mod 2 ^ 32).
(** decode_string :130-143: up to the first NUL. *)
Fixpoint untilNul (s : list Z) : list Z :=
  match s with [] => [] | c :: r => if c =? 0 then [] else c :: untilNul r end.

(** ** Message definitions, UdpAdapter.cc:96-135. *)
Inductive pty : Type := PInt | PFloat | PBool | PStr.
Record param : Type := mkParam { p_ty : pty; p_arr : bool; p_len : Z; p_elts : Z }.
Record udpMsg : Type := mkUdpMsg { m_params : list param; m_len : Z }.
(** Attributes type, bytes, elements of a <Parameter>; numbers as as_uint() delivers them. *)
Record pattr : Type := mkPattr { at_type : option (pty * bool); at_bytes : option Z; at_elts : option Z }.
(** One <Parameter>, parseMessageDefinition :661-743. *)
Definition parseParam (a : pattr) : option param :=
  match at_type a, at_bytes a with
  | Some (t, isArr), Some len =>
      if len =? 0 then None
      else if match t with
              | PInt | PFloat => negb ((len =? 2) || (len =? 4))
              | PBool => negb ((len =? 1) || (len =? 2) || (len =? 4))
              | PStr => false
              end then None
      else if isArr then
        match at_elts a with
        | Some n => if n =? 0 then None else Some {| p_ty := t; p_arr := true; p_len := len; p_elts := n |}
        | None => None
        end
      else match at_elts a with
           | Some _ => None
           | None => Some {| p_ty := t; p_arr := false; p_len := len; p_elts := 1 |}
           end
  | _, _ => None
  end.
(** msg.len += arg.len * arg.elements, :741-742; unsigned int. *)
Fixpoint parseParams (l : list pattr) (m : udpMsg) : option udpMsg :=
  match l with
  | [] => Some m
  | a :: r =>
      match parseParam a with
      | None => None
      | Some p => parseParams r {| m_params := m_params m ++ [p]; m_len := (m_len m + p_len p * p_elts p) mod 2 ^ 32 |}
      end
  end.
Definition parseMessage (l : list pattr) : option udpMsg := parseParams l {| m_params := []; m_len := 0 |}.

(** ** Sending *)
Definition eltCode (t : pty) : Z :=
  match t with PInt => INTEGER_TYPE | PFloat => REAL_TYPE | PBool => BOOLEAN_TYPE | PStr => STRING_TYPE end.
(** Byte counts buildUdpBuffer accepts, e.g. :1055-1070, 1078-1081, 1106-1109. *)
Definition lenOk (t : pty) (len : Z) : bool :=
  match t with
  | PInt => (len =? 2) || (len =? 4)
  | PFloat => len =? 4
  | PBool => (len =? 1) || (len =? 2) || (len =? 4)
  | PStr => true
  end.
Definition b2z (b : bool) : Z := if b then 1 else 0.
(** FLT_MAX as a double. *)
Definition fltMax : fl := @B754_finite 53 1024 false 9007198717870080 75 eq_refl.
(** The bytes written for one value; [None]: return -1.  bool :1046-1071, int :1073-1102, float :1104-1125,
    string :1127-1142 (no terminating NUL), and the same in the array cases. *)
Definition encScalar (t : pty) (len : Z) (v : sval) : option (list Z) :=
  if lenOk t len then
    match t, v with
    | PBool, SB b => Some (if len =? 1 then [b2z b] else if len =? 2 then serInt2 (b2z b) else serInt4 (b2z b))
    | PInt, SI z => if len =? 2 then (if (z <? - 2 ^ 15) || (2 ^ 15 - 1 <? z) then None else Some (serInt2 z)) else Some (serInt4 z)
    | PFloat, SR r => if flt r (fneg fltMax) || flt fltMax r then None else Some (serF32 (toF32 r))
    | PStr, SS s => if len <? Z.of_nat (length s) then None else Some s
    | _, _ => None
    end
  else None.
(** Result of buildUdpBuffer: the buffer and start_index; -1; a write outside the buffer. *)
Inductive wres : Type := WOk (buf : list Z) (idx : Z) | WFail | WOver.
Definition overwrite (buf : list Z) (i : nat) (bs : list Z) : list Z :=
  firstn i buf ++ bs ++ skipn (i + length bs) buf.
Definition put (t : pty) (len : Z) (v : sval) (buf : list Z) (idx : Z) : wres :=
  match encScalar t len v with
  | None => WFail
  | Some [] => WOk buf (toInt32 ((idx + len) mod 2 ^ 32))
  | Some bs =>
      if (idx <? 0) || (Z.of_nat (length buf) <? idx + Z.of_nat (length bs)) then WOver
      else WOk (overwrite buf (Z.to_nat idx) bs) (toInt32 ((idx + len) mod 2 ^ 32)) (* int += unsigned *)
  end.
(** The loops over array elements, :1166-1183, 1203-1224, 1250-1265, 1284-1299. *)
Fixpoint putElts (t : pty) (len : Z) (l : list (bool * sval)) (buf : list Z) (idx : Z) : wres :=
  match l with
  | [] => WOk buf idx
  | (k, v) :: r => if k : bool then
                     match put t len v buf idx with WOk b i => putElts t len r b i | x => x end
                   else WFail
  end.
(** One parameter, :1032-1309. *)
Definition putParam (p : param) (v : option tval) (buf : list Z) (idx : Z) : wres :=
  match v with
  | None => WFail
  | Some (TVs s) => if p_arr p then WFail else put (p_ty p) (p_len p) s buf idx
  | Some (TVa elt l) =>
      if p_arr p && (elt =? eltCode (p_ty p)) && lenOk (p_ty p) (p_len p) && (Z.of_nat (length l) =? p_elts p)
      then putElts (p_ty p) (p_len p) l buf idx else WFail
  | Some (TVe _ _) => WFail
  end.
Fixpoint putAll (ps : list param) (args : list (option tval)) (buf : list Z) (idx : Z) : wres :=
  match ps, args with
  | [], [] => WOk buf idx
  | p :: ps', a :: args' => match putParam p a buf idx with WOk b i => putAll ps' args' b i | x => x end
  | _, _ => WFail
  end.
(** buildUdpBuffer with skip_arg false, :1003-1317. *)
Definition buildUdpBuffer (m : udpMsg) (args : list (option tval)) (buf : list Z) : wres :=
  if (length args =? length (m_params m))%nat then putAll (m_params m) args buf 0 else WFail.
(** executeDefaultCommand, :241-295.  [CThrow]: new unsigned char[length] with a negative int;
    [CSent d ok]: datagram d handed to the network, which sent it or not; acknowledged COMMAND_SUCCESS;
    [CFailed]: COMMAND_FAILED. *)
Inductive cres : Type := CFailed | CSent (d : list Z) (ok : bool) | COver | CThrow.
Definition argType (v : option tval) : Z := match v with Some x => tvalType x | None => UNKNOWN_TYPE end.
Definition executeDefaultCommand (m : udpMsg) (args : list (option tval)) (net : bool) : cres :=
  match args with
  | [] => CFailed
  | a0 :: _ =>
      if argType a0 =? STRING_TYPE then
        if 2 ^ 31 <=? m_len m then CThrow
        else match buildUdpBuffer m args (repeat 0 (Z.to_nat (m_len m))) with
             | WOk b i => if i <? 0 then CFailed else CSent b net
             | WFail => CFailed
             | WOver => COver
             end
      else CFailed
  end.

(** ** Receiving *)
(** recvfrom into the listener's buffer of m_len bytes (UdpEventLoop.cc:542-565): the datagram, cut to that
    length, over what was there; a datagram of no bytes is ignored. *)
Definition recvInto (old d : list Z) : list Z := firstn (length old) d ++ skipn (length d) old.
(** How decoding ended: all parameters queued; return -1; a read outside the buffer; an exception. *)
Inductive hstat : Type := HDone | HFail | HOver | HThrow.
Definition readN (buf : list Z) (off n : Z) : option (list Z) :=
  if (off <? 0) || (Z.of_nat (length buf) <? off + n) then None
  else Some (firstn (Z.to_nat n) (skipn (Z.to_nat off) buf)).
Definition decScalar (t : pty) (len : Z) (buf : list Z) (off : Z) : sval + hstat :=
  match t with
  | PInt => if len =? 2 then match readN buf off 2 with Some bs => inl (SI (unInt2 bs)) | None => inr HOver end
            else if len =? 4 then match readN buf off 4 with Some bs => inl (SI (unInt4 bs)) | None => inr HOver end
            else inr HFail
  | PFloat => if len =? 4 then match readN buf off 4 with Some bs => inl (SR (toF64 (unF32 bs))) | None => inr HOver end
              else inr HFail
  | PBool => if len =? 1 then match readN buf off 1 with Some bs => inl (SB (negb (nth 0 bs 0 =? 0))) | None => inr HOver end
             else if len =? 2 then match readN buf off 2 with Some bs => inl (SB (negb (unInt2 bs =? 0))) | None => inr HOver end
             else if len =? 4 then match readN buf off 4 with Some bs => inl (SB (negb (unInt4 bs =? 0))) | None => inr HOver end
             else inr HFail
  | PStr => (* reads one byte after the other until a NUL or len bytes *)
      if off <? 0 then inr HOver
      else let rest := skipn (Z.to_nat off) buf in
           if existsb (Z.eqb 0) (firstn (Z.to_nat len) rest) || (len <=? Z.of_nat (length rest))
           then inl (SS (untilNul (firstn (Z.to_nat len) rest))) else inr HOver
  end.
Fixpoint decElts (t : pty) (len : Z) (n : nat) (buf : list Z) (off : Z) : list sval + hstat :=
  match n with
  | O => inl []
  | S n' => match decScalar t len buf off with
            | inr h => inr h
            | inl v => match decElts t len n' buf (off + len) with inl r => inl (v :: r) | inr h => inr h end
            end
  end.
Definition decParam (p : param) (buf : list Z) (off : Z) : tval + hstat :=
  if (2 ^ 31 <=? p_len p) || (2 ^ 31 <=? p_elts p) then inr HThrow   (* negative as int: reserve or the array constructor throws *)
  else if p_arr p then
    match decElts (p_ty p) (p_len p) (Z.to_nat (p_elts p)) buf off with
    | inl l => inl (TVa (eltCode (p_ty p)) (map (fun v => (true, v)) l))
    | inr h => inr h
    end
  else match decScalar (p_ty p) (p_len p) buf off with inl v => inl (TVs v) | inr h => inr h end.
(** handleUdpMessage, :826-993: the values queued for GetParameter, and how it ended. *)
Fixpoint decAll (ps : list param) (buf : list Z) (off : Z) : list tval * hstat :=
  match ps with
  | [] => ([], HDone)
  | p :: ps' =>
      match decParam p buf off with
      | inl v => let '(r, h) := decAll ps' buf (off + p_len p * p_elts p) in (v :: r, h)
      | inr h => ([], h)
      end
  end.
Definition handleUdpMessage (m : udpMsg) (buf : list Z) : list tval * hstat := decAll (m_params m) buf 0.
