(** T_ver.v -- claim C86: an honest signature is nearly always returned and accepted.  Exact arithmetic in signing. *)
From Coq Require Import Reals.
From Verif Require Import Base Spec SpecR SpecS SpecG SpecJ SpecM M_ff M_codec M_ntt M_sig M_verify M_float M_exact M_samp M_fft M_ntru M_tree P_ver P_vers.
From Verif Require P_key.
Open Scope R_scope.

(** C86: give every pair (s1, s2) of integer polynomials the weight exp(-|(s1, s2)|^2 / (2 sigma^2)).  The pairs with a coefficient of absolute value 1024 or more, whose
    encoding the decoder may refuse, carry at most 1/50000 of the sum of all weights for N = 512, and at most 1/20000 for N = 1024 *)
Theorem C86_large_coefficients : forall lg, falcon_lg lg ->
  let weight := fun s : list Z * list Z => exp (- (IZR (sqnorm (fst s) + sqnorm (snd s)) / (2 * (sigma_value RF lg * sigma_value RF lg)))) in
  exists W WB, 0 < W /\ total (fun s => length (fst s) = (2 ^ lg)%nat /\ length (snd s) = (2 ^ lg)%nat) weight W /\
    total (fun s => (length (fst s) = (2 ^ lg)%nat /\ length (snd s) = (2 ^ lg)%nat) /\ exists x, In x (fst s ++ snd s) /\ (1024 <= Z.abs x)%Z) weight WB /\
    WB <= (if Nat.eqb lg 9 then 1 / 50000 else 1 / 20000) * W.
Proof. exact big_share. Qed.
Print Assumptions C86_large_coefficients.

(** C86: fix a sound secret key with its encoded public key, a message and the 40 salt bytes.  Let the bytes of the extendable-output function and the bytes that follow the salt be
    uniformly random.  Then sign returns a signature, and verify, run with the same extendable-output function, accepts it, except with probability at most
    0.981^N + share + share' + 2N (2 / 2^34 + (11/12)^k) + 16^N / 8^(68 k), where share and share' are those of C85 and of above, and k bounds the blocks of hash output and the
    attempts for one integer.  mode: what an overflow of the int32_t norm does *)
Theorem C86_sign_then_verify : forall lg, falcon_lg lg -> forall f g F_ G_ h0 h pk0 pk, sound_key lg f g F_ G_ -> length h0 = (2 ^ lg)%nat -> compute_public_key lg f g h0 = Ok h ->
  length pk0 = pkey_len lg -> encode_pkey lg h pk0 = Ok pk ->
  forall skey, decode_skey lg skey (repeat 0%Z (2 ^ lg)) (repeat 0%Z (2 ^ lg)) (repeat 0%Z (2 ^ lg)) = Ok (true, (f, g, F_)) ->
  forall msg salt sig k m n mode, length salt = 40%nat -> bytes salt -> bytes sig -> (sig_bytes lg + 2 <= length sig)%nat -> (1 <= m)%nat -> (36 * k * 2 ^ lg * m <= n)%nat ->
    1 - (981 / 1000) ^ (2 ^ lg) - (if Nat.eqb lg 9 then 1 / 200000 else 1 / 80) - (if Nat.eqb lg 9 then 1 / 50000 else 1 / 20000) - (INR (2 * 2 ^ lg) * (2 / 2 ^ 34 + (11 / 12) ^ k) + 16 ^ 2 ^ lg / 8 ^ (68 * k))
      <= prob (136 * k + n) (fun v => let xof := fun _ => stream (firstn (136 * k) v) in
           signs_valid (sign RF exact_table m k xof lg skey msg sig (stream (salt ++ skipn (136 * k) v))) (verify mode k xof lg pk msg)).
Proof. exact sign_checks. Qed.
Print Assumptions C86_sign_then_verify.

(** C86: with k = 512 or more, that is at least 0.9999 for N = 512 and 0.987 for N = 1024 *)
Theorem C86_nearly_always : forall lg, falcon_lg lg -> forall f g F_ G_ h0 h pk0 pk, sound_key lg f g F_ G_ -> length h0 = (2 ^ lg)%nat -> compute_public_key lg f g h0 = Ok h ->
  length pk0 = pkey_len lg -> encode_pkey lg h pk0 = Ok pk ->
  forall skey, decode_skey lg skey (repeat 0%Z (2 ^ lg)) (repeat 0%Z (2 ^ lg)) (repeat 0%Z (2 ^ lg)) = Ok (true, (f, g, F_)) ->
  forall msg salt sig k m n mode, length salt = 40%nat -> bytes salt -> bytes sig -> (sig_bytes lg + 2 <= length sig)%nat -> (512 <= k)%nat -> (1 <= m)%nat -> (36 * k * 2 ^ lg * m <= n)%nat ->
    (if Nat.eqb lg 9 then 9999 / 10000 else 987 / 1000)
      <= prob (136 * k + n) (fun v => let xof := fun _ => stream (firstn (136 * k) v) in
           signs_valid (sign RF exact_table m k xof lg skey msg sig (stream (salt ++ skipn (136 * k) v))) (verify mode k xof lg pk msg)).
Proof. exact sign_checks_rare. Qed.
Print Assumptions C86_nearly_always.

(** the generated key of P_key.v with its encodings, a salt and a buffer *)
Example C86_sat : exists h skey pk, compute_public_key 9 P_key.kf P_key.kg (repeat 0%Z 512) = Ok h /\ encode_pkey 9 h (repeat 0%Z (pkey_len 9)) = Ok pk /\
    decode_skey 9 skey (repeat 0%Z 512) (repeat 0%Z 512) (repeat 0%Z 512) = Ok (true, (P_key.kf, P_key.kg, P_key.kF)) /\ sound_key 9 P_key.kf P_key.kg P_key.kF P_key.kG /\
    length (repeat 9%Z 40) = 40%nat /\ bytes (repeat 9%Z 40) /\ bytes (repeat 0%Z 668) /\ (sig_bytes 9 + 2 <= length (repeat 0%Z 668))%nat.
Proof. exact k_checks. Qed.
