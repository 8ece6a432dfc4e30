(** T_oob.v -- claim C92: signing into a buffer of exactly the length of a signature, and verifying it there, often reads outside the buffer.  Exact arithmetic in signing. *)
From Coq Require Import Reals.
From Verif Require Import Base Spec SpecR SpecS SpecG SpecJ SpecM SpecW M_ff M_codec M_ntt M_sig M_verify M_float M_exact M_samp M_fft M_ntru M_tree P_vers P_oob.
From Verif Require P_key P_res.
Open Scope R_scope.

(** C92: give every pair (s1, s2) of integer polynomials the weight exp(-|(s1, s2)|^2 / (2 sigma^2)).  The number of bits of the compressed form of s2 leaves each of the eight remainders
    modulo 8 with a share between 12/100 and 16/100 of the sum of all weights *)
Theorem C92_remainders : forall lg, falcon_lg lg ->
  let weight := fun s : list Z * list Z => exp (- (IZR (sqnorm (fst s) + sqnorm (snd s)) / (2 * (sigma_value RF lg * sigma_value RF lg)))) in
  exists W, 0 < W /\ total (fun s => length (fst s) = (2 ^ lg)%nat /\ length (snd s) = (2 ^ lg)%nat) weight W /\
    forall r, (0 <= r < 8)%Z -> exists Wr, total (fun s => (length (fst s) = (2 ^ lg)%nat /\ length (snd s) = (2 ^ lg)%nat) /\ (tot (snd s) mod 8 = r)%Z) weight Wr /\ 12 / 100 * W <= Wr <= 16 / 100 * W.
Proof. exact remainder_shares. Qed.
Print Assumptions C92_remainders.

(** C92: fix a sound secret key with its encoded public key, a message, the 40 salt bytes and a buffer of exactly the length of a signature, as in the two programs of the directory
    examples.  Let the bytes of the extendable-output function and the bytes that follow the salt be uniformly random.  Then sign returns a signature in that buffer on which verify
    reads outside the buffer, with probability at least 0.119 for N = 512 and 0.106 for N = 1024 *)
Theorem C92_outside : forall lg, falcon_lg lg -> forall f g F_ G_ h0 h pk0 pk, sound_key lg f g F_ G_ -> length h0 = (2 ^ lg)%nat -> compute_public_key lg f g h0 = Ok h ->
  length pk0 = pkey_len lg -> encode_pkey lg h pk0 = Ok pk ->
  forall skey, decode_skey lg skey (repeat 0%Z (2 ^ lg)) (repeat 0%Z (2 ^ lg)) (repeat 0%Z (2 ^ lg)) = Ok (true, (f, g, F_)) ->
  forall msg salt sig k m n mode, length salt = 40%nat -> bytes salt -> length sig = sig_bytes lg -> (512 <= k)%nat -> (1 <= m)%nat -> (36 * k * 2 ^ lg * m <= n)%nat ->
    (if Nat.eqb lg 9 then 119 / 1000 else 106 / 1000)
      <= prob (136 * k + n) (fun v => let xof := fun _ => stream (firstn (136 * k) v) in
           signs_outside (sign RF exact_table m k xof lg skey msg sig (stream (salt ++ skipn (136 * k) v))) (verify mode k xof lg pk msg)).
Proof. exact outside_often. Qed.
Print Assumptions C92_outside.

(** C92: and it returns a signature that verify accepts without leaving the buffer with probability at least 0.839 for N = 512 and 0.74 for N = 1024 *)
Theorem C92_inside : forall lg, falcon_lg lg -> forall f g F_ G_ h0 h pk0 pk, sound_key lg f g F_ G_ -> length h0 = (2 ^ lg)%nat -> compute_public_key lg f g h0 = Ok h ->
  length pk0 = pkey_len lg -> encode_pkey lg h pk0 = Ok pk ->
  forall skey, decode_skey lg skey (repeat 0%Z (2 ^ lg)) (repeat 0%Z (2 ^ lg)) (repeat 0%Z (2 ^ lg)) = Ok (true, (f, g, F_)) ->
  forall msg salt sig k m n mode, length salt = 40%nat -> bytes salt -> length sig = sig_bytes lg -> (512 <= k)%nat -> (1 <= m)%nat -> (36 * k * 2 ^ lg * m <= n)%nat ->
    (if Nat.eqb lg 9 then 839 / 1000 else 74 / 100)
      <= prob (136 * k + n) (fun v => let xof := fun _ => stream (firstn (136 * k) v) in
           signs_valid (sign RF exact_table m k xof lg skey msg sig (stream (salt ++ skipn (136 * k) v))) (verify mode k xof lg pk msg)).
Proof. exact inside_often. Qed.
Print Assumptions C92_inside.

(** the generated key of P_key.v with its encodings, a salt and a buffer *)
Example C92_sat : exists h skey pk, compute_public_key 9 P_key.kf P_key.kg (repeat 0%Z 512) = Ok h /\ encode_pkey 9 h (repeat 0%Z (pkey_len 9)) = Ok pk /\
    decode_skey 9 skey (repeat 0%Z 512) (repeat 0%Z 512) (repeat 0%Z 512) = Ok (true, (P_key.kf, P_key.kg, P_key.kF)) /\ sound_key 9 P_key.kf P_key.kg P_key.kF P_key.kG /\
    length (repeat 9%Z 40) = 40%nat /\ bytes (repeat 9%Z 40) /\ length (repeat 0%Z 666) = sig_bytes 9.
Proof. exact k_exact. Qed.
