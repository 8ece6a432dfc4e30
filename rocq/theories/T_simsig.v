(** T_simsig.v -- claim C90: hashed message and signature bytes together can be produced without the secret key.  Exact arithmetic. *)
From Coq Require Import Reals.
From Verif Require Import Base Spec SpecT SpecR SpecS SpecG SpecJ SpecM M_ff M_codec M_ntt M_sig M_verify M_float M_exact M_samp M_fft M_ntru M_tree P_vers P_simsig.
From Verif Require P_key.
Open Scope R_scope.

(** C90: experiment without secret key, for the public key h and a salt: draw (s1, s2) from the Gaussian of width sigma on all pairs of integer polynomials,
    answer with the point s1 + s2 h modulo q and with the bytes that encode s2 behind the header and the salt.  Let WD / W be the probability that a test D says
    yes to this answer.  For every sound key whose public key is h, and every message, D says yes to the hashed message and the signature returned by sign with
    the same probability up to 1/10000 (N = 512), or 13/1000 (N = 1024), when the bytes of the extendable-output function and of the generator are uniformly random. *)
Theorem C90_simulated_signature : forall lg, falcon_lg lg ->
  let weight := fun s : list Z * list Z => exp (- (IZR (sqnorm (fst s) + sqnorm (snd s)) / (2 * (sigma_value RF lg * sigma_value RF lg)))) in
  exists W, 0 < W /\ total (fun s => length (fst s) = (2 ^ lg)%nat /\ length (snd s) = (2 ^ lg)%nat) weight W /\
  forall h salt sig (D : list Z -> list Z -> bool), length salt = 40%nat -> bytes salt -> bytes sig -> (sig_bytes lg + 2 <= length sig)%nat ->
  exists WD, total (fun s => (length (fst s) = (2 ^ lg)%nat /\ length (snd s) = (2 ^ lg)%nat) /\ D (point_of lg h s) (bytes_of lg salt sig s) = true) weight WD /\
  forall f g F_ G_ h0, sound_key lg f g F_ G_ -> length h0 = (2 ^ lg)%nat -> compute_public_key lg f g h0 = Ok h ->
  forall skey, decode_skey lg skey (repeat 0%Z (2 ^ lg)) (repeat 0%Z (2 ^ lg)) (repeat 0%Z (2 ^ lg)) = Ok (true, (f, g, F_)) ->
  forall msg k m n, (512 <= k)%nat -> (1 <= m)%nat -> (36 * k * 2 ^ lg * m <= n)%nat ->
  Rabs (prob (136 * k + n) (fun v => let xof := fun _ => stream (firstn (136 * k) v) in
          sees D (hash_to_point k xof lg salt msg (repeat 0%Z (2 ^ lg))) (sign RF exact_table m k xof lg skey msg sig (stream (salt ++ skipn (136 * k) v)))) - WD / W)
    <= (if Nat.eqb lg 9 then 1 / 10000 else 13 / 1000).
Proof. exact sign_sim. Qed.
Print Assumptions C90_simulated_signature.

(** a sound key for N = 512 with its public and secret key bytes, a salt and an output buffer *)
Example C90_sat : exists h skey pk, compute_public_key 9 P_key.kf P_key.kg (repeat 0%Z 512) = Ok h /\ encode_pkey 9 h (repeat 0%Z (pkey_len 9)) = Ok pk /\
    decode_skey 9 skey (repeat 0%Z 512) (repeat 0%Z 512) (repeat 0%Z 512) = Ok (true, (P_key.kf, P_key.kg, P_key.kF)) /\ sound_key 9 P_key.kf P_key.kg P_key.kF P_key.kG /\
    length (repeat 9%Z 40) = 40%nat /\ bytes (repeat 9%Z 40) /\ bytes (repeat 0%Z 668) /\ (sig_bytes 9 + 2 <= length (repeat 0%Z 668))%nat.
Proof. exact k_checks. Qed.
