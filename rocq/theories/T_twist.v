(** T_twist.v -- C89: a second signature for the same message and salt. *)
From Coq Require Import Reals.
From Verif Require Import Base Spec SpecT SpecR SpecS SpecG SpecJ SpecM M_ff M_codec M_ntt M_sig M_verify M_float M_exact M_samp M_fft M_ntru M_tree P_vers P_twist.
From Verif Require P_key.
Open Scope R_scope.

(** C89 (refuted): "who has a signature of a message cannot produce another one that verifies". For each parameter set there is a function on
    signature bytes, the same for all keys and messages, that turns the signature returned by sign into other bytes with the same header and
    salt which verify accepts as well, with probability at least 0.999 (N = 512) and 0.9 (N = 1024). *)
Theorem C89_one_signature_refuted : forall lg, falcon_lg lg -> exists change : list Z -> list Z,
  forall f g F_ G_ h0 h pk0 pk, sound_key lg f g F_ G_ -> length h0 = (2 ^ lg)%nat -> compute_public_key lg f g h0 = Ok h -> length pk0 = pkey_len lg -> encode_pkey lg h pk0 = Ok pk ->
  forall skey, decode_skey lg skey (repeat 0%Z (2 ^ lg)) (repeat 0%Z (2 ^ lg)) (repeat 0%Z (2 ^ lg)) = Ok (true, (f, g, F_)) ->
  forall msg salt sig k m n mo, length salt = 40%nat -> bytes salt -> bytes sig -> (sig_bytes lg + 2 <= length sig)%nat -> (512 <= k)%nat -> (1 <= m)%nat -> (36 * k * 2 ^ lg * m <= n)%nat ->
  (if Nat.eqb lg 9 then 999 / 1000 else 9 / 10) <=
  prob (136 * k + n) (fun v => let xof := fun _ => stream (firstn (136 * k) v) in
    signs_twice (sign RF exact_table m k xof lg skey msg sig (stream (salt ++ skipn (136 * k) v))) (verify mo k xof lg pk msg) change 41).
Proof. exact twist_exists. Qed.
Print Assumptions C89_one_signature_refuted.

(** C89, function by name: decompress, write the first coefficient of absolute value at most 127 in the longer form, and pack again. *)
Theorem C89_twist : forall lg, falcon_lg lg ->
  forall f g F_ G_ h0 h pk0 pk, sound_key lg f g F_ G_ -> length h0 = (2 ^ lg)%nat -> compute_public_key lg f g h0 = Ok h -> length pk0 = pkey_len lg -> encode_pkey lg h pk0 = Ok pk ->
  forall skey, decode_skey lg skey (repeat 0%Z (2 ^ lg)) (repeat 0%Z (2 ^ lg)) (repeat 0%Z (2 ^ lg)) = Ok (true, (f, g, F_)) ->
  forall msg salt sig k m n mo, length salt = 40%nat -> bytes salt -> bytes sig -> (sig_bytes lg + 2 <= length sig)%nat -> (512 <= k)%nat -> (1 <= m)%nat -> (36 * k * 2 ^ lg * m <= n)%nat ->
  (if Nat.eqb lg 9 then 999 / 1000 else 9 / 10) <=
  prob (136 * k + n) (fun v => let xof := fun _ => stream (firstn (136 * k) v) in
    signs_twice (sign RF exact_table m k xof lg skey msg sig (stream (salt ++ skipn (136 * k) v))) (verify mo k xof lg pk msg) (twist lg) 41).
Proof. exact sign_twist. Qed.
Print Assumptions C89_twist.

(** a sound key for N = 512 with its encoded public and secret key, a salt and an output buffer *)
Example C89_sat : exists h skey pk, compute_public_key 9 P_key.kf P_key.kg (repeat 0%Z 512) = Ok h /\ encode_pkey 9 h (repeat 0%Z (pkey_len 9)) = Ok pk /\
    decode_skey 9 skey (repeat 0%Z 512) (repeat 0%Z 512) (repeat 0%Z 512) = Ok (true, (P_key.kf, P_key.kg, P_key.kF)) /\ sound_key 9 P_key.kf P_key.kg P_key.kF P_key.kG /\
    length (repeat 9%Z 40) = 40%nat /\ bytes (repeat 9%Z 40) /\ bytes (repeat 0%Z 668) /\ (sig_bytes 9 + 2 <= length (repeat 0%Z 668))%nat.
Proof. exact k_checks. Qed.
