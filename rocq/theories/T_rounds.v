(** T_rounds.v -- claim C102: the end-to-end test of signing in tests/test_signing.cpp.  Exact arithmetic in signing. *)
From Coq Require Import Reals.
From Verif Require Import Base Spec SpecR SpecS SpecG SpecJ SpecM SpecZ M_ff M_codec M_ntt M_sig M_verify M_float M_exact M_samp M_fft M_ntru M_tree M_test P_oob P_rounds.
From Verif Require P_key.
Open Scope R_scope.

(** C102: fix a sound secret key with its encoded public key, any messages, and a buffer of exactly the length of a signature, as in the test.  Let all bytes of the salts, of the
    extendable-output function and of the generator inside sign be uniformly random, and bound the attempts (m for a signature, k for each integer).  The loop with r rounds ends without a
    read outside the buffer with probability at most 0.881^r for N = 512 and 0.894^r for N = 1024, whatever its expectations say.  It passes with probability at least 0.839^r and 0.74^r *)
Theorem C102_rounds : forall lg, falcon_lg lg -> forall f g F_ G_ h0 h pk0 pk, sound_key lg f g F_ G_ -> length h0 = (2 ^ lg)%nat -> compute_public_key lg f g h0 = Ok h ->
  length pk0 = pkey_len lg -> encode_pkey lg h pk0 = Ok pk ->
  forall skey, decode_skey lg skey (repeat 0%Z (2 ^ lg)) (repeat 0%Z (2 ^ lg)) (repeat 0%Z (2 ^ lg)) = Ok (true, (f, g, F_)) ->
  forall msgs sig k m n mode, length sig = sig_bytes lg -> (512 <= k)%nat -> (1 <= m)%nat -> (36 * k * 2 ^ lg * m <= n)%nat -> forall r,
    let run := fun v => test_rounds RF exact_table mode m k lg pk skey msgs (piece_xof k n v) (piece_rng k n v) r sig in
    (if Nat.eqb lg 9 then 839 / 1000 else 74 / 100) ^ r <= prob (r * (40 + (136 * k + n))) (fun v => passed (run v)) /\
    prob (r * (40 + (136 * k + n))) (fun v => ended (run v)) <= (if Nat.eqb lg 9 then 881 / 1000 else 894 / 1000) ^ r.
Proof. exact test_bounds. Qed.
Print Assumptions C102_rounds.

(** C102: with its 1024 rounds the loop ends without a read outside the buffer with probability at most 2^-146.  It does read outside the buffer, before any of the bounds on the attempts is
    exhausted, with probability at least 0.99 for N = 512 and 0.52 for N = 1024 *)
Theorem C102_test : forall lg, falcon_lg lg -> forall f g F_ G_ h0 h pk0 pk, sound_key lg f g F_ G_ -> length h0 = (2 ^ lg)%nat -> compute_public_key lg f g h0 = Ok h ->
  length pk0 = pkey_len lg -> encode_pkey lg h pk0 = Ok pk ->
  forall skey, decode_skey lg skey (repeat 0%Z (2 ^ lg)) (repeat 0%Z (2 ^ lg)) (repeat 0%Z (2 ^ lg)) = Ok (true, (f, g, F_)) ->
  forall msgs sig k m n mode, length sig = sig_bytes lg -> (512 <= k)%nat -> (1 <= m)%nat -> (36 * k * 2 ^ lg * m <= n)%nat ->
    let run := fun v => test_rounds RF exact_table mode m k lg pk skey msgs (piece_xof k n v) (piece_rng k n v) 1024 sig in
    prob (1024 * (40 + (136 * k + n))) (fun v => ended (run v)) <= (/ 2) ^ 146 /\
    (if Nat.eqb lg 9 then 99 / 100 else 52 / 100) <= prob (1024 * (40 + (136 * k + n))) (fun v => read_outside (run v)).
Proof. exact test_1024. Qed.
Print Assumptions C102_test.

(** the generated key of P_key.v with its encodings, and a buffer *)
Example C102_sat : exists h skey pk, compute_public_key 9 P_key.kf P_key.kg (repeat 0%Z 512) = Ok h /\ encode_pkey 9 h (repeat 0%Z (pkey_len 9)) = Ok pk /\
    decode_skey 9 skey (repeat 0%Z 512) (repeat 0%Z 512) (repeat 0%Z 512) = Ok (true, (P_key.kf, P_key.kg, P_key.kF)) /\ sound_key 9 P_key.kf P_key.kg P_key.kF P_key.kG /\
    length (repeat 9%Z 40) = 40%nat /\ bytes (repeat 9%Z 40) /\ length (repeat 0%Z 666) = sig_bytes 9.
Proof. exact k_exact. Qed.
