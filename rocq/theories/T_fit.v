(** T_fit.v -- claim C85: signing nearly always succeeds at its first pass.  Exact arithmetic. *)
From Coq Require Import Reals.
From Verif Require Import Base Spec SpecR SpecS SpecG SpecJ SpecM M_ff M_codec M_ntt M_sig M_verify M_float M_exact M_samp M_fft M_ntru M_tree P_jcoset P_loops P_fitm P_fits.
From Verif Require P_key P_verifyx.
Open Scope R_scope.

(** C85: give every pair (s1, s2) of integer polynomials the weight exp(-|(s1, s2)|^2 / (2 sigma^2)).  The pairs whose s2 is too long for the compressed form of a signature
    carry at most 1/200000 of the sum of all weights for N = 512, and at most 1/80 for N = 1024 *)
Theorem C85_compressed_size : forall lg, falcon_lg lg ->
  let weight := fun s : list Z * list Z => exp (- (IZR (sqnorm (fst s) + sqnorm (snd s)) / (2 * (sigma_value RF lg * sigma_value RF lg)))) in
  exists W WU, 0 < W /\ total (fun s => length (fst s) = (2 ^ lg)%nat /\ length (snd s) = (2 ^ lg)%nat) weight W /\
    total (fun s => (length (fst s) = (2 ^ lg)%nat /\ length (snd s) = (2 ^ lg)%nat) /\ (body_len lg <= tot (snd s))%Z) weight WU /\
    WU <= (if Nat.eqb lg 9 then 1 / 200000 else 1 / 80) * W.
Proof. exact unfit_share. Qed.
Print Assumptions C85_compressed_size.

(** C85: fix a sound secret key, a message and the 40 salt bytes.  Let the bytes of the extendable-output function and the bytes that follow the salt be uniformly random.
    Then sign returns a signature within one pass of its loop, and so within any number m of passes, except with probability at most
    0.981^N + share + 2N (2 / 2^34 + (11/12)^k) + 16^N / 8^(68 k), where share is the 1/200000 or 1/80 of above, and k bounds the blocks of hash output and the attempts for one integer *)
Theorem C85_first_pass : forall lg, falcon_lg lg -> forall f g F_ G_ h0 h, sound_key lg f g F_ G_ -> length h0 = (2 ^ lg)%nat -> compute_public_key lg f g h0 = Ok h ->
  forall skey, decode_skey lg skey (repeat 0%Z (2 ^ lg)) (repeat 0%Z (2 ^ lg)) (repeat 0%Z (2 ^ lg)) = Ok (true, (f, g, F_)) ->
  forall msg salt sig k m n, length salt = 40%nat -> (sig_bytes lg <= length sig)%nat -> (1 <= m)%nat -> (36 * k * 2 ^ lg * m <= n)%nat ->
    1 - (981 / 1000) ^ (2 ^ lg) - (if Nat.eqb lg 9 then 1 / 200000 else 1 / 80) - (INR (2 * 2 ^ lg) * (2 / 2 ^ 34 + (11 / 12) ^ k) + 16 ^ 2 ^ lg / 8 ^ (68 * k))
      <= prob (136 * k + n) (fun v => signed (sign RF exact_table m k (fun _ => stream (firstn (136 * k) v)) lg skey msg sig (stream (salt ++ skipn (136 * k) v)))).
Proof. exact sign_fast. Qed.
Print Assumptions C85_first_pass.

(** C85: with k = 512 or more, that is at least 0.9999 for N = 512 and 0.987 for N = 1024 *)
Theorem C85_rarely_restarts : forall lg, falcon_lg lg -> forall f g F_ G_ h0 h, sound_key lg f g F_ G_ -> length h0 = (2 ^ lg)%nat -> compute_public_key lg f g h0 = Ok h ->
  forall skey, decode_skey lg skey (repeat 0%Z (2 ^ lg)) (repeat 0%Z (2 ^ lg)) (repeat 0%Z (2 ^ lg)) = Ok (true, (f, g, F_)) ->
  forall msg salt sig k m n, length salt = 40%nat -> (sig_bytes lg <= length sig)%nat -> (512 <= k)%nat -> (1 <= m)%nat -> (36 * k * 2 ^ lg * m <= n)%nat ->
    (if Nat.eqb lg 9 then 9999 / 10000 else 987 / 1000)
      <= prob (136 * k + n) (fun v => signed (sign RF exact_table m k (fun _ => stream (firstn (136 * k) v)) lg skey msg sig (stream (salt ++ skipn (136 * k) v)))).
Proof. exact sign_rare. Qed.
Print Assumptions C85_rarely_restarts.

(** the generated key of P_key.v with its encoding; a vector whose compressed form does not fit *)
Example C85_sat : (exists h skey, compute_public_key 9 P_key.kf P_key.kg (repeat 0%Z 512) = Ok h /\ bytes skey /\
    decode_skey 9 skey (repeat 0%Z 512) (repeat 0%Z 512) (repeat 0%Z 512) = Ok (true, (P_key.kf, P_key.kg, P_key.kF)) /\
    sound_key 9 P_key.kf P_key.kg P_key.kF P_key.kG /\ (forall a, byte_stream (P_verifyx.const_xof 7 a)) /\
    hashed (P_verifyx.const_xof 7 (repeat 9%Z 40 ++ [1; 2; 3]%Z)) 9 (repeat 7%Z 512)) /\
  let s := (repeat 0%Z 512, repeat 128%Z 512) in length (fst s) = 512%nat /\ length (snd s) = 512%nat /\ (body_len 9 <= tot (snd s))%Z.
Proof. split; [exact k_signs|exact unfit_example]. Qed.
