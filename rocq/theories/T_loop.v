(** T_loop.v -- claim C74: the distribution of the signatures that sign returns, restarts included.  Exact arithmetic. *)
From Coq Require Import Reals.
From Verif Require Import Base Spec SpecR SpecS SpecG SpecJ M_ff M_codec M_ntt M_sig M_verify M_float M_exact M_samp M_fft M_ntru M_tree P_jcoset P_loops.
From Verif Require P_key P_verifyx.
Open Scope R_scope.

(** C74: fix a sound secret key with public key h, a message, the 40 salt bytes and with them the hashed message c.  Give every pair (s1, s2) with
    s1 + s2 h = c modulo q the weight exp(-|(s1, s2)|^2 / (2 sigma^2)); let W be the sum of the weights of all pairs, WA of those that are short enough and whose s2
    compresses into the buffer, and omega s2 of those among them with a given s2.  When the bytes that follow the salt are uniformly random, sign returns the signature of
    s2 with probability omega s2 / WA: the total distance, all s2 counted, is at most 4 d / (WA / W) + (1 - WA / W + d)^m for d = 2N (2^-34 + (11/12)^k), where m
    bounds the number of passes of the loop and k the number of attempts of each integer sampling.  WA is positive. *)
Theorem C74_signature_law : forall lg, falcon_lg lg -> forall f g F_ G_, sound_key lg f g F_ G_ -> forall h0 h, length h0 = (2 ^ lg)%nat -> compute_public_key lg f g h0 = Ok h ->
  forall xof msg salt c skey sig, (forall a, byte_stream (xof a)) -> length salt = 40%nat -> hashed (xof (salt ++ msg)) lg c -> (sig_bytes lg <= length sig)%nat ->
  decode_skey lg skey (repeat 0%Z (2 ^ lg)) (repeat 0%Z (2 ^ lg)) (repeat 0%Z (2 ^ lg)) = Ok (true, (f, g, F_)) ->
  let weight := fun s : list Z * list Z => exp (- (IZR (sqnorm (fst s) + sqnorm (snd s)) / (2 * (sigma_value RF lg * sigma_value RF lg)))) in
  exists omega W WA k0, 0 < WA <= W /\ total (coset lg c h) weight W /\ total (signable lg c h) weight WA /\
    (forall s2, total (fun s1 => signable lg c h (s1, s2)) (fun s1 => weight (s1, s2)) (omega s2)) /\
    (forall k m n L, (k0 <= k)%nat -> (36 * k * 2 ^ lg * m <= n)%nat -> NoDup L ->
      lsum (fun s2 => Rabs (prob n (fun w => signs lg (sign RF exact_table m k xof lg skey msg sig (stream (salt ++ w))) s2) - omega s2 / WA)) L
        <= 4 * (INR (2 * 2 ^ lg) * (/ 2 ^ 34 + (11 / 12) ^ k)) / (WA / W) + (1 - WA / W + INR (2 * 2 ^ lg) * (/ 2 ^ 34 + (11 / 12) ^ k)) ^ m).
Proof. exact sign_law. Qed.
Print Assumptions C74_signature_law.

(** C74: signatures made with two sound secret keys of one public key have the same distribution, up to twice that distance *)
Theorem C74_key_free : forall lg, falcon_lg lg -> forall f g F_ G_ f' g' F_' G_' h0 h0' h xof msg salt c skey skey' sig sig',
  sound_key lg f g F_ G_ -> sound_key lg f' g' F_' G_' -> length h0 = (2 ^ lg)%nat -> length h0' = (2 ^ lg)%nat ->
  compute_public_key lg f g h0 = Ok h -> compute_public_key lg f' g' h0' = Ok h ->
  (forall a, byte_stream (xof a)) -> length salt = 40%nat -> hashed (xof (salt ++ msg)) lg c -> (sig_bytes lg <= length sig)%nat -> (sig_bytes lg <= length sig')%nat ->
  decode_skey lg skey (repeat 0%Z (2 ^ lg)) (repeat 0%Z (2 ^ lg)) (repeat 0%Z (2 ^ lg)) = Ok (true, (f, g, F_)) ->
  decode_skey lg skey' (repeat 0%Z (2 ^ lg)) (repeat 0%Z (2 ^ lg)) (repeat 0%Z (2 ^ lg)) = Ok (true, (f', g', F_')) ->
  let weight := fun s : list Z * list Z => exp (- (IZR (sqnorm (fst s) + sqnorm (snd s)) / (2 * (sigma_value RF lg * sigma_value RF lg)))) in
  exists W WA k0, 0 < WA <= W /\ total (coset lg c h) weight W /\ total (signable lg c h) weight WA /\
    (forall k m n L, (k0 <= k)%nat -> (36 * k * 2 ^ lg * m <= n)%nat -> NoDup L ->
      lsum (fun s2 => Rabs (prob n (fun w => signs lg (sign RF exact_table m k xof lg skey msg sig (stream (salt ++ w))) s2) -
                            prob n (fun w => signs lg (sign RF exact_table m k xof lg skey' msg sig' (stream (salt ++ w))) s2))) L
        <= 2 * (4 * (INR (2 * 2 ^ lg) * (/ 2 ^ 34 + (11 / 12) ^ k)) / (WA / W) + (1 - WA / W + INR (2 * 2 ^ lg) * (/ 2 ^ 34 + (11 / 12) ^ k)) ^ m)).
Proof. exact sign_key_free. Qed.
Print Assumptions C74_key_free.

(** the generated key of P_key.v, with its encoding, a message and a salt *)
Example C74_sat : exists h skey, compute_public_key 9 P_key.kf P_key.kg (repeat 0%Z 512) = Ok h /\ bytes skey /\
  decode_skey 9 skey (repeat 0%Z 512) (repeat 0%Z 512) (repeat 0%Z 512) = Ok (true, (P_key.kf, P_key.kg, P_key.kF)) /\
  sound_key 9 P_key.kf P_key.kg P_key.kF P_key.kG /\ (forall a, byte_stream (P_verifyx.const_xof 7 a)) /\
  hashed (P_verifyx.const_xof 7 (repeat 9%Z 40 ++ [1; 2; 3]%Z)) 9 (repeat 7%Z 512).
Proof. exact k_signs. Qed.
