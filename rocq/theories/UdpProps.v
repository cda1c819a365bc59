(** C60: UDP messages: what can be sent, what arrives, and that neither side leaves its buffer. *)
From Coq Require Import ZArith Reals List Bool Lia.
From Flocq Require Import Core BinarySingleNaN.
From Verif Require Import ValueModel FloatModel TypeModel UdpModel UdpSpec UdpProofs.
Import ListNotations.
Open Scope Z_scope.

Lemma accepted l m : Forall attrOk l -> parseMessage l = Some m -> totalSize (m_params m) < 2 ^ 31 ->
  Forall goodParam (m_params m) /\ m_len m = totalSize (m_params m) /\ 0 <= totalSize (m_params m).
Proof.
  intros A P T. destruct (parseMessage_good l m A P) as [G L]. pose proof (totalSize_nn _ G). rewrite Z.mod_small in L by lia. auto.
Qed.
(** Sending never writes outside the buffer nor throws, whatever the arguments; the datagram has the size the
    definition says. *)
Theorem C60_send_in_bounds l m args net :
  Forall attrOk l -> parseMessage l = Some m -> totalSize (m_params m) < 2 ^ 31 ->
  match executeDefaultCommand m args net with
  | CSent d ok => Z.of_nat (length d) = totalSize (m_params m) /\ ok = net
  | CFailed => True
  | COver | CThrow => False
  end.
Proof.
  intros A P T. destruct (accepted l m A P T) as (G & L & N). unfold executeDefaultCommand. destruct args as [|a0 r]; [exact I|].
  destruct (argType a0 =? STRING_TYPE); [|exact I]. rewrite L. destruct (Z.leb_spec (2 ^ 31) (totalSize (m_params m))); [lia|].
  rewrite build_img by auto. destruct (imgAll (m_params m) (a0 :: r)) as [im|] eqn:E; [|exact I].
  destruct (Z.ltb_spec (totalSize (m_params m)) 0); [exact I|]. split; [|reflexivity]. eapply imgAll_len; eauto.
Qed.
(** The command is sent exactly when its first argument is a String and every argument fits its parameter. *)
Theorem C60_sent_iff l m args net :
  Forall attrOk l -> parseMessage l = Some m -> totalSize (m_params m) < 2 ^ 31 -> Forall plexilArg args ->
  ((exists d, executeDefaultCommand m args net = CSent d net) <->
   (exists s r, args = Some (TVs (SS s)) :: r) /\ Forall2 sendable (m_params m) args).
Proof.
  intros A P T V. destruct (accepted l m A P T) as (G & L & N). pose proof (imgAll_sendable _ G args V) as S. unfold executeDefaultCommand. split.
  - intros [d H]. destruct args as [|a0 r]; [discriminate|]. destruct (Z.eqb_spec (argType a0) STRING_TYPE) as [E|E]; [|discriminate].
    rewrite L in H. destruct (Z.leb_spec (2 ^ 31) (totalSize (m_params m))); [lia|]. rewrite build_img in H by auto.
    destruct (imgAll (m_params m) (a0 :: r)) as [im|] eqn:I; [|discriminate]. split; [|apply S; discriminate].
    assert (X : Forall2 sendable (m_params m) (a0 :: r)) by (apply S; discriminate).
    inversion X as [|p ? ps ? X1 X2 X3]; subst. destruct X1 as [p v B C|p l0 B C D].
    + cbn in E. destruct v; try discriminate. eauto.
    + cbn in E. destruct (p_ty p); discriminate.
  - intros [(s & r & ->) H]. change (argType (Some (TVs (SS s))) =? STRING_TYPE) with true. cbv iota. rewrite L.
    destruct (Z.leb_spec (2 ^ 31) (totalSize (m_params m))); [lia|]. rewrite build_img by auto. apply S in H.
    destruct (imgAll (m_params m) (Some (TVs (SS s)) :: r)) as [im|]; [|congruence]. destruct (Z.ltb_spec (totalSize (m_params m)) 0); [lia|]. eauto.
Qed.
(** Arguments that do not fit are refused, also for messages a peer builds with the same function. *)
Theorem C60_built_iff l m args :
  Forall attrOk l -> parseMessage l = Some m -> totalSize (m_params m) < 2 ^ 31 -> Forall plexilArg args ->
  ((exists d i, buildUdpBuffer m args (repeat 0 (Z.to_nat (m_len m))) = WOk d i) <-> Forall2 sendable (m_params m) args).
Proof.
  intros A P T V. destruct (accepted l m A P T) as (G & L & N). pose proof (imgAll_sendable _ G args V) as S. rewrite L, build_img by auto.
  destruct (imgAll (m_params m) args).
  - split; eauto. intros _. apply S. discriminate.
  - split; [intros (d & i & H); discriminate|]. intros H. apply S in H. congruence.
Qed.
(** A datagram built for a message and received into a listener's buffer (whatever was in it before) is decoded
    to the arguments: Integers and Booleans unchanged, Reals rounded to binary32, Strings up to a NUL. *)
Lemma recv_full old d : length d = length old -> recvInto old d = d.
Proof. intros E. unfold recvInto. rewrite <- E, firstn_all, E, skipn_all, app_nil_r. reflexivity. Qed.
Theorem C60_round_trip l m args d i old :
  Forall attrOk l -> parseMessage l = Some m -> totalSize (m_params m) < 2 ^ 31 -> Forall plexilArg args ->
  buildUdpBuffer m args (repeat 0 (Z.to_nat (m_len m))) = WOk d i -> Z.of_nat (length old) = m_len m ->
  exists ws, handleUdpMessage m (recvInto old d) = (ws, HDone)
             /\ Forall2 (fun a w => exists v, a = Some v /\ arrives v w) args ws.
Proof.
  intros A P T V B O. destruct (accepted l m A P T) as (G & L & N). rewrite L, build_img in B by auto.
  destruct (imgAll (m_params m) args) as [im|] eqn:I; [|discriminate]. injection B as <- _. pose proof (imgAll_len _ G _ _ I) as Li.
  rewrite recv_full by lia. destruct (decAll_img _ G T args V im [] [] I) as (ws & D & W). cbn [app length] in D. rewrite app_nil_r in D.
  exists ws. split; [exact D|exact W].
Qed.
(** Values a binary32 can hold and Strings without NUL arrive unchanged. *)
Lemma arrives1_exact v w : exactly v -> arrives1 v w -> w = v.
Proof.
  intros E H. destruct H as [b|z|r r' F F' B S| |s s' rest C NI]; auto.
  - cbn in E. destruct E as [->|E]; [discriminate|]. f_equal. apply B2R_Bsign_inj; auto. rewrite B. unfold binary32Round. apply round_generic; auto.
    apply valid_rnd_N.
  - cbn in E. destruct C as [[-> _]|C]; auto. exfalso. apply E. rewrite C. apply in_or_app. right. left. reflexivity.
Qed.
Theorem C60_round_trip_exact l m args d i old :
  Forall attrOk l -> parseMessage l = Some m -> totalSize (m_params m) < 2 ^ 31 -> Forall plexilArg args ->
  (forall a, In a args -> match a with
                          | Some (TVs v) => exactly v
                          | Some (TVa _ l) => Forall (fun kv => exactly (snd kv)) l
                          | _ => True
                          end) ->
  buildUdpBuffer m args (repeat 0 (Z.to_nat (m_len m))) = WOk d i -> Z.of_nat (length old) = m_len m ->
  exists ws, handleUdpMessage m (recvInto old d) = (ws, HDone) /\ args = map Some ws.
Proof.
  intros A P T V X B O. pose proof (proj1 (C60_built_iff l m args A P T V) ltac:(eauto)) as S.
  destruct (C60_round_trip l m args d i old) as (ws & D & W); auto. exists ws. split; [exact D|].
  clear - X W S. revert X S. generalize (m_params m). induction W as [|a w args ws (v & -> & AR) W IH]; intros ps X S; [reflexivity|].
    inversion S as [|p ? ps' ? S1 S2]; subst. cbn [map]. f_equal; [|apply (IH ps'); [intros a Ha; apply X; right; exact Ha|exact S2]].
    f_equal. specialize (X (Some v) (or_introl eq_refl)). destruct AR as [v w AR|elt l l' AR].
    + f_equal. symmetry. apply arrives1_exact; auto.
    + f_equal. inversion S1 as [|? ? _ _ K]; subst. clear - AR X K. induction AR as [|[k v] [k' w] l l' [Z1 Z2] AR IH]; [reflexivity|].
      inversion X; subst. inversion K as [|? ? [K1 _] K2]; subst. cbn in *. subst. f_equal; [f_equal; symmetry; apply arrives1_exact; auto|auto].
Qed.
(** Whatever bytes arrive, however many, decoding stays within the buffer and does not throw; unless a parameter
    is a 2-byte Float, every parameter gets a value of its declared type. *)
Theorem C60_any_datagram l m old d :
  Forall attrOk l -> parseMessage l = Some m -> totalSize (m_params m) < 2 ^ 31 -> Z.of_nat (length old) = m_len m ->
  snd (handleUdpMessage m (recvInto old d)) <> HOver /\ snd (handleUdpMessage m (recvInto old d)) <> HThrow
  /\ (Forall (fun p => ~ (p_ty p = PFloat /\ p_len p = 2)) (m_params m) ->
      exists vs, handleUdpMessage m (recvInto old d) = (vs, HDone) /\ Forall2 hasParamType (m_params m) vs).
Proof.
  intros A P T O. destruct (accepted l m A P T) as (G & L & N).
  assert (E : Z.of_nat (length (recvInto old d)) = totalSize (m_params m)).
  { unfold recvInto. rewrite app_length, firstn_length, skipn_length. lia. }
  unfold handleUdpMessage. destruct (decAll_safe _ (recvInto old d) G T 0 ltac:(lia) ltac:(lia)) as (vs & h & D & H). rewrite D.
  split; [destruct H as [-> | ->]; discriminate|]. split; [destruct H as [-> | ->]; discriminate|]. intros NF. rewrite <- D.
  apply decAll_any; auto; lia.
Qed.
(** A 4-byte Integer and the bytes on the wire: big-endian two's complement. *)
Theorem C60_wire_int4 m z : m_params m = [mkParam PInt false 4 1] -> m_len m = 4 -> - 2 ^ 31 <= z < 2 ^ 31 ->
  exists b3 b2 b1 b0, buildUdpBuffer m [Some (TVs (SI z))] [0; 0; 0; 0] = WOk [b3; b2; b1; b0] 4
    /\ (0 <= b3 < 256 /\ 0 <= b2 < 256 /\ 0 <= b1 < 256 /\ 0 <= b0 < 256)
    /\ (((b3 * 256 + b2) * 256 + b1) * 256 + b0) mod 2 ^ 32 = z mod 2 ^ 32.
Proof.
  intros Hp Hl Hz. unfold buildUdpBuffer. rewrite Hp. exists (byteAt 24 z), (byteAt 16 z), (byteAt 8 z), (byteAt 0 z). split; [reflexivity|]. split.
  - assert (X : forall k, 0 <= k -> 0 <= byteAt k z < 256) by (intros k K; rewrite CodecProofs.byteAt_eq by exact K; apply Z.mod_pos_bound; lia).
    repeat split; apply X; lia.
  - pose proof (unInt4_ok z [] Hz) as E. unfold serInt4, unInt4 in E. cbn [app] in E. unfold toInt32 in E.
    set (u := ((byteAt 24 z * 256 + byteAt 16 z) * 256 + byteAt 8 z) * 256 + byteAt 0 z) in *. clearbody u. destruct (u <? 2 ^ 31); [congruence|].
    rewrite <- E, <- (Z_mod_plus_full (u - 2 ^ 32) 1). f_equal. lia.
Qed.

(** ** Where the code falls short *)
(** Sizes are summed in 32 bits and nothing checks for overflow: two String parameters of 2^31 bytes make a
    message of length 0, and sending it writes outside the buffer. *)
Theorem C60_size_overflow_refuted :
  exists l m args, Forall attrOk l /\ parseMessage l = Some m /\ Forall plexilArg args /\ Forall2 sendable (m_params m) args
                   /\ m_len m = 0 /\ executeDefaultCommand m args true = COver.
Proof.
  set (a := mkPattr (Some (PStr, false)) (Some (2 ^ 31)) None).
  set (p := mkParam PStr false (2 ^ 31) 1).
  exists [a; a], (mkUdpMsg [p; p] 0), [Some (TVs (SS [65])); Some (TVs (SS [66]))].
  assert (A : attrOk a). { split; cbn; intros n H; inversion H; lia. }
  assert (B : forall c, 0 <= c < 256 -> plexilArg (Some (TVs (SS [c])))) by (intros; repeat constructor; lia).
  assert (C : forall c, sendable p (Some (TVs (SS [c])))) by (intros; constructor; [reflexivity|constructor; cbn; lia]).
  split; [auto|]. split; [reflexivity|]. split; [constructor; [apply B; lia|constructor; [apply B; lia|constructor]]|]. split; [constructor; [apply C|constructor; [apply C|constructor]]|]. split; reflexivity.
Qed.
(** One String parameter of 2^31 bytes: the command throws instead of failing. *)
Theorem C60_huge_message_throws_refuted :
  exists l m args, Forall attrOk l /\ parseMessage l = Some m /\ Forall2 sendable (m_params m) args
                   /\ executeDefaultCommand m args true = CThrow.
Proof.
  set (a := mkPattr (Some (PStr, false)) (Some (2 ^ 31)) None).
  exists [a], (mkUdpMsg [mkParam PStr false (2 ^ 31) 1] (2 ^ 31)), [Some (TVs (SS [65]))].
  split; [constructor; [|constructor]; split; cbn; intros n H; inversion H; lia|]. split; [reflexivity|].
  split; [|reflexivity]. constructor; [|constructor]. constructor; [reflexivity|constructor; cbn; lia].
Qed.
(** A datagram shorter than the message is accepted and completed with bytes of the one before. *)
Theorem C60_short_datagram_refuted :
  exists m old d, m_len m = Z.of_nat (length old) /\ (length d < length old)%nat
    /\ handleUdpMessage m old = ([TVs (SI 7); TVs (SI 9)], HDone)
    /\ handleUdpMessage m (recvInto old d) = ([TVs (SI 1); TVs (SI 9)], HDone).
Proof.
  exists (mkUdpMsg [mkParam PInt false 4 1; mkParam PInt false 4 1] 8), [0; 0; 0; 7; 0; 0; 0; 9], [0; 0; 0; 1].
  split; [reflexivity|]. split; [cbn; lia|]. split; reflexivity.
Qed.
(** A message without parameters, or whose first parameter is not a String, can be defined but never sent. *)
Theorem C60_first_argument_refuted m net :
  executeDefaultCommand m [] net = CFailed
  /\ forall z r, executeDefaultCommand m (Some (TVs (SI z)) :: r) net = CFailed.
Proof. split; reflexivity. Qed.
(** A send the network refused is acknowledged like a successful one. *)
Theorem C60_network_failure_acked_refuted :
  exists m args d, executeDefaultCommand m args false = CSent d false /\ executeDefaultCommand m args true = CSent d true.
Proof. exists (mkUdpMsg [mkParam PStr false 2 1] 2), [Some (TVs (SS [65]))], [65; 0]. split; reflexivity. Qed.
(** 2-byte Floats pass the check of the definition but can neither be sent nor received. *)
Theorem C60_float2_refuted :
  exists l m, Forall attrOk l /\ parseMessage l = Some m
    /\ (forall v net, executeDefaultCommand m [Some (TVs (SS [])); Some v] net = CFailed)
    /\ (forall old d, Z.of_nat (length old) = m_len m -> snd (handleUdpMessage m (recvInto old d)) = HFail).
Proof.
  exists [mkPattr (Some (PStr, false)) (Some 1) None; mkPattr (Some (PFloat, false)) (Some 2) None],
         (mkUdpMsg [mkParam PStr false 1 1; mkParam PFloat false 2 1] 3).
  split; [constructor; [|constructor; [|constructor]]; (split; cbn; intros n H; inversion H; lia)|]. split; [reflexivity|]. split.
  - intros [[b|z|r|s]|t n|elt l] net; reflexivity.
  - intros old d E. assert (L : length (recvInto old d) = 3%nat). { unfold recvInto. cbn in E. rewrite app_length, firstn_length, skipn_length. lia. }
    destruct (recvInto old d) as [|c0 [|c1 [|c2 [|]]]]; try discriminate. cbn. destruct c0; reflexivity.
Qed.
(** A String containing a NUL is sent whole and arrives cut. *)
Theorem C60_nul_cuts_string_refuted :
  exists m d, buildUdpBuffer m [Some (TVs (SS [65; 0; 66]))] [0; 0; 0] = WOk d 3
              /\ handleUdpMessage m d = ([TVs (SS [65])], HDone).
Proof. exists (mkUdpMsg [mkParam PStr false 3 1] 3), [65; 0; 66]. split; reflexivity. Qed.

(** ** A case that meets the hypotheses *)
Definition half : fl := @B754_finite 53 1024 false 4503599627370496 (-53) eq_refl.
Theorem C60_example :
  let l := [mkPattr (Some (PStr, false)) (Some 6) None; mkPattr (Some (PInt, true)) (Some 2) (Some 3);
            mkPattr (Some (PBool, false)) (Some 1) None; mkPattr (Some (PFloat, false)) (Some 4) None] in
  let args := [Some (TVs (SS [103; 111])); Some (TVa INTEGER_TYPE [(true, SI 1); (true, SI (-2)); (true, SI 300)]);
               Some (TVs (SB true)); Some (TVs (SR half))] in
  exists m, parseMessage l = Some m /\ Forall attrOk l /\ totalSize (m_params m) = 17 /\ Forall plexilArg args
    /\ executeDefaultCommand m args true
       = CSent [103; 111; 0; 0; 0; 0; 0; 1; 255; 254; 1; 44; 1; 63; 0; 0; 0] true
    /\ let '(vs, h) := handleUdpMessage m [103; 111; 0; 0; 0; 0; 0; 1; 255; 254; 1; 44; 1; 63; 0; 0; 0] in
       h = HDone /\ map Some (firstn 3 vs) = firstn 3 args
       /\ match nth 3 vs (TVs (SB true)) with TVs (SR r) => B2SF r = B2SF half | _ => False end.
Proof.
  cbv zeta.
  exists (mkUdpMsg [mkParam PStr false 6 1; mkParam PInt true 2 3; mkParam PBool false 1 1; mkParam PFloat false 4 1] 17). split; [reflexivity|]. split.
  { do 4 (apply Forall_cons; [split; cbn; intros n H; inversion H; lia|]). apply Forall_nil. }
  split; [reflexivity|]. split.
  { repeat (apply Forall_cons || apply Forall_nil); constructor; repeat constructor; cbn; try lia. }
  split; [vm_compute; reflexivity|]. vm_compute. auto.
Qed.

(** Assumptions *)
Print Assumptions C60_send_in_bounds.
Print Assumptions C60_sent_iff.
Print Assumptions C60_built_iff.
Print Assumptions C60_round_trip.
Print Assumptions C60_round_trip_exact.
Print Assumptions C60_any_datagram.
Print Assumptions C60_wire_int4.
Print Assumptions C60_size_overflow_refuted.
Print Assumptions C60_huge_message_throws_refuted.
Print Assumptions C60_short_datagram_refuted.
Print Assumptions C60_first_argument_refuted.
Print Assumptions C60_network_failure_acked_refuted.
Print Assumptions C60_float2_refuted.
Print Assumptions C60_nul_cuts_string_refuted.
Print Assumptions C60_example.
