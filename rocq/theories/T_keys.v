(** T_keys.v -- claims C10-C15, C53: key codecs. *)
From Verif Require Import Base Spec M_ff M_codec P_codec P_keys.
Open Scope Z_scope.

(** C10: encode then decode.  The buffers pk, h0 hold arbitrary previous contents. *)
Theorem C10_pkey_encode_decode : forall lg h (pk h0 : list Z), falcon_lg lg ->
  length h = (2 ^ lg)%nat -> Forall lt14 h -> length pk = pkey_len lg -> length h0 = (2 ^ lg)%nat ->
  exists e, encode_pkey lg h pk = Ok e /\ length e = pkey_len lg /\ bytes e /\ nth 0 e 0 = Z.of_nat lg /\
   decode_pkey lg e h0 = Ok (true, h).
Proof. exact pk_round. Qed.
Print Assumptions C10_pkey_encode_decode.
Example C10_sat : pkey_len 9 = 897%nat /\ pkey_len 10 = 1793%nat /\ lt14 12288 /\
  pk_pack [1; 2; 3; 12288] = [1; 128; 0; 48; 0; 0; 192].
Proof. repeat split; vm_compute; congruence. Qed.

(** C11: decode then encode, header rejection. *)
Theorem C11_pkey_decode_encode : forall lg pk (h0 e0 : list Z), falcon_lg lg ->
  length pk = pkey_len lg -> bytes pk -> length h0 = (2 ^ lg)%nat -> length e0 = pkey_len lg ->
  (nth 0 pk 0 <> Z.of_nat lg -> decode_pkey lg pk h0 = Ok (false, repeat 0 (2 ^ lg))) /\
  (nth 0 pk 0 = Z.of_nat lg -> exists h, decode_pkey lg pk h0 = Ok (true, h) /\ length h = (2 ^ lg)%nat /\
     Forall lt14 h /\ encode_pkey lg h e0 = Ok pk).
Proof. exact pk_back. Qed.
Print Assumptions C11_pkey_decode_encode.
Example C11_sat : length (9 :: repeat 171 896) = pkey_len 9 /\ byte 171.
Proof. repeat split; vm_compute; congruence. Qed.

(** C12 (expected property fails): accepted public keys need not be canonical, and two different byte
    strings denote the same key modulo q.  See T_verify for the effect on verification. *)
Theorem C12_canonical_refuted : forall lg (h0 e0 : list Z), falcon_lg lg -> length h0 = (2 ^ lg)%nat -> length e0 = pkey_len lg ->
  exists pk h, length pk = pkey_len lg /\ bytes pk /\ decode_pkey lg pk h0 = Ok (true, h) /\ ~ Forall canon h.
Proof. exact pkey_noncanonical. Qed.
Print Assumptions C12_canonical_refuted.
Theorem C12_alias_refuted : forall lg (h0 e0 : list Z), falcon_lg lg -> length h0 = (2 ^ lg)%nat -> length e0 = pkey_len lg ->
  exists pk pk' h h', pk <> pk' /\ bytes pk /\ bytes pk' /\ length pk = pkey_len lg /\ length pk' = pkey_len lg /\
    decode_pkey lg pk h0 = Ok (true, h) /\ decode_pkey lg pk' h0 = Ok (true, h') /\ modq h = modq h'.
Proof. exact pkey_alias. Qed.
Print Assumptions C12_alias_refuted.

(** C13 and C15: the secret key round trip succeeds exactly on the representable range. *)
Theorem C13_skey_round_trip_iff_fits : forall lg f g F (sk f0 g0 F0 : list Z), falcon_lg lg ->
  length f = (2 ^ lg)%nat -> length g = (2 ^ lg)%nat -> length F = (2 ^ lg)%nat -> length sk = skey_len lg ->
  length f0 = (2 ^ lg)%nat -> length g0 = (2 ^ lg)%nat -> length F0 = (2 ^ lg)%nat ->
  exists e, encode_skey lg f g F sk = Ok e /\ length e = skey_len lg /\ bytes e /\ nth 0 e 0 = 80 + Z.of_nat lg /\
   (decode_skey lg e f0 g0 F0 = Ok (true, (f, g, F)) <->
    Forall (fits (skey_modulus lg)) f /\ Forall (fits (skey_modulus lg)) g /\ Forall (fits 256) F).
Proof. exact skey_round. Qed.
Print Assumptions C13_skey_round_trip_iff_fits.
Example C13_sat : skey_len 9 = 1281%nat /\ skey_len 10 = 2305%nat /\ fits (skey_modulus 9) (-32) /\ fits (skey_modulus 10) 15 /\
  fits 256 (-128) /\ sk_pack6 [-32; 31; 0; -1] = [224; 7; 252].
Proof. repeat split; vm_compute; congruence. Qed.

(** C14 *)
Theorem C14_skey_decode_encode : forall lg sk f0 g0 F0 e0, falcon_lg lg -> length sk = skey_len lg -> bytes sk ->
  length f0 = (2 ^ lg)%nat -> length g0 = (2 ^ lg)%nat -> length F0 = (2 ^ lg)%nat -> length e0 = skey_len lg ->
  (nth 0 sk 0 <> 80 + Z.of_nat lg ->
     decode_skey lg sk f0 g0 F0 = Ok (false, (repeat 0 (2 ^ lg), repeat 0 (2 ^ lg), repeat 0 (2 ^ lg)))) /\
  (nth 0 sk 0 = 80 + Z.of_nat lg -> exists f g F, decode_skey lg sk f0 g0 F0 = Ok (true, (f, g, F)) /\
     length f = (2 ^ lg)%nat /\ length g = (2 ^ lg)%nat /\ length F = (2 ^ lg)%nat /\
     Forall (fits (skey_modulus lg)) f /\ Forall (fits (skey_modulus lg)) g /\ Forall (fits 256) F /\
     encode_skey lg f g F e0 = Ok sk).
Proof. exact skey_back. Qed.
Print Assumptions C14_skey_decode_encode.
Example C14_sat : length (89 :: repeat 171 1280) = skey_len 9 /\ nth 0 (89 :: repeat 171 1280) 0 = 80 + Z.of_nat 9.
Proof. split; vm_compute; reflexivity. Qed.

(** C15 (expected property fails): out-of-range coefficients are silently changed. *)
Theorem C15_skey_lossless_refuted : forall lg (sk f0 g0 F0 : list Z), falcon_lg lg -> length sk = skey_len lg ->
  length f0 = (2 ^ lg)%nat -> length g0 = (2 ^ lg)%nat -> length F0 = (2 ^ lg)%nat ->
  exists f g F F' e, length f = (2 ^ lg)%nat /\ length g = (2 ^ lg)%nat /\ length F = (2 ^ lg)%nat /\
    encode_skey lg f g F sk = Ok e /\ decode_skey lg e f0 g0 F0 = Ok (true, (f, g, F')) /\ F' <> F.
Proof. exact skey_lossy. Qed.
Print Assumptions C15_skey_lossless_refuted.

(** C53: byte layout.  Bodies are little-endian bit strings: read as a little-endian number, the
    public key body is sum h_i 2^(14 i), etc. *)
Theorem C53_pkey_layout : forall lg h (pk : list Z), falcon_lg lg ->
  length h = (2 ^ lg)%nat -> Forall lt14 h -> length pk = pkey_len lg ->
  exists b, encode_pkey lg h pk = Ok (Z.of_nat lg :: b) /\ le_value 256 b = le_value (2 ^ 14) h.
Proof. exact pk_layout. Qed.
Print Assumptions C53_pkey_layout.
Theorem C53_skey_layout : forall lg f g F sk, falcon_lg lg ->
  length f = (2 ^ lg)%nat -> length g = (2 ^ lg)%nat -> length F = (2 ^ lg)%nat -> length sk = skey_len lg ->
  Forall (fits (skey_modulus lg)) f -> Forall (fits (skey_modulus lg)) g -> Forall (fits 256) F ->
  exists bf bg bF, encode_skey lg f g F sk = Ok (80 + Z.of_nat lg :: bf ++ bg ++ bF) /\
    (8 * length bf = skey_bits lg * 2 ^ lg)%nat /\ (8 * length bg = skey_bits lg * 2 ^ lg)%nat /\
    le_value 256 bf = le_value (skey_modulus lg) (map (fun x => x mod skey_modulus lg) f) /\
    le_value 256 bg = le_value (skey_modulus lg) (map (fun x => x mod skey_modulus lg) g) /\
    bF = map (fun x => x mod 256) F.
Proof. exact skey_layout. Qed.
Print Assumptions C53_skey_layout.
(** The Falcon specification packs 14-bit coefficients most significant bit first; this code does not. *)
Theorem C53_msb_first_refuted : exists h b, length h = 512%nat /\ Forall canon h /\
  encode_pkey 9 h (repeat 0 897) = Ok (9 :: b) /\ be_value 256 b <> be_value (2 ^ 14) h.
Proof.
  exists (repeat 0 511 ++ [1]). eexists. split; [vm_compute; reflexivity|]. split; [|split; [vm_compute; reflexivity|]].
  - apply Forall_forall. intros x Hx. apply in_app_or in Hx. unfold canon, q.
    destruct Hx as [Hx | [<- | []]]; [apply repeat_spec in Hx; subst x|]; lia.
  - vm_compute. discriminate.
Qed.
Print Assumptions C53_msb_first_refuted.
Example C53_sat : le_value 256 (pk_pack [1; 2; 3; 12288]) = le_value (2 ^ 14) [1; 2; 3; 12288] /\ Forall lt14 [1; 2; 3; 12288].
Proof. split; [reflexivity|]. repeat (apply Forall_cons; [vm_compute; split; congruence|]). apply Forall_nil. Qed.
