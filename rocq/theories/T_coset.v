(** T_coset.v -- claim C73: the vector that signing draws follows a distribution that depends on the public key and the message alone.  Exact arithmetic. *)
From Coq Require Import Reals.
From Verif Require Import Base Spec SpecR SpecS SpecG SpecJ M_ff M_sig M_verify M_float M_exact M_samp M_fft M_ntt M_ntru M_tree P_jcoset.
From Verif Require P_key.
Open Scope R_scope.

(** C73: let h be the public key of a sound secret key and c a hashed message.  The pairs (s1, s2) of integer polynomials with s1 = c - s2 h modulo q -- the
    ones that verification looks for -- get the weight exp(-|(s1, s2)|^2 / (2 sigma^2)).  The weights have a finite sum, and one pass of signing on
    uniformly random bytes draws each pair with probability weight / sum, up to a total distance of 2N (2^-34 + (11/12)^k). *)
Theorem C73_coset_gaussian : forall lg, falcon_lg lg -> forall f g F_ G_ h0 h B T0 T c t0 t1,
  sound_key lg f g F_ G_ -> length h0 = (2 ^ lg)%nat -> compute_public_key lg f g h0 = Ok h ->
  ((lg + 1) * 2 ^ lg <= length T0)%nat -> compute_matrix_B RF exact_table lg f g F_ G_ = Ok B -> compute_falcon_tree RF exact_table lg B T0 = Ok T ->
  length c = (2 ^ lg)%nat -> Forall canon c -> sign_target RF exact_table lg B c = Ok (t0, t1) ->
  let weight := fun s : list Z * list Z => exp (- (IZR (sqnorm (fst s) + sqnorm (snd s)) / (2 * (sigma_value RF lg * sigma_value RF lg)))) in
  exists W, 0 < W /\ total (coset lg c h) weight W /\
    forall k n L, (36 * k * 2 ^ lg <= n)%nat -> NoDup L -> Forall (coset lg c h) L ->
      lsum (fun s => Rabs (prob n (fun w => draws lg B t0 t1 (ff_sampling RF exact_table k lg 0 t0 t1 T 0 (sigma_min RF lg) (stream w) 0) s) - weight s / W)) L
        <= INR (2 * 2 ^ lg) * (/ 2 ^ 34 + (11 / 12) ^ k).
Proof. exact key_gauss. Qed.
Print Assumptions C73_coset_gaussian.

(** C73: two sound secret keys with one public key draw from the same distribution, up to 4N (2^-34 + (11/12)^k): what signing publishes about a
    message does not tell which of them is in use *)
Theorem C73_key_free : forall lg, falcon_lg lg -> forall f g F_ G_ f' g' F_' G_' h0 h0' h B T0 T B' T0' T' c t0 t1 t0' t1',
  sound_key lg f g F_ G_ -> sound_key lg f' g' F_' G_' -> length h0 = (2 ^ lg)%nat -> length h0' = (2 ^ lg)%nat ->
  compute_public_key lg f g h0 = Ok h -> compute_public_key lg f' g' h0' = Ok h ->
  ((lg + 1) * 2 ^ lg <= length T0)%nat -> compute_matrix_B RF exact_table lg f g F_ G_ = Ok B -> compute_falcon_tree RF exact_table lg B T0 = Ok T ->
  ((lg + 1) * 2 ^ lg <= length T0')%nat -> compute_matrix_B RF exact_table lg f' g' F_' G_' = Ok B' -> compute_falcon_tree RF exact_table lg B' T0' = Ok T' ->
  length c = (2 ^ lg)%nat -> Forall canon c -> sign_target RF exact_table lg B c = Ok (t0, t1) -> sign_target RF exact_table lg B' c = Ok (t0', t1') ->
  forall k n L, (36 * k * 2 ^ lg <= n)%nat -> NoDup L -> Forall (coset lg c h) L ->
    lsum (fun s => Rabs (prob n (fun w => draws lg B t0 t1 (ff_sampling RF exact_table k lg 0 t0 t1 T 0 (sigma_min RF lg) (stream w) 0) s) -
                         prob n (fun w => draws lg B' t0' t1' (ff_sampling RF exact_table k lg 0 t0' t1' T' 0 (sigma_min RF lg) (stream w) 0) s))) L
      <= INR (4 * 2 ^ lg) * (/ 2 ^ 34 + (11 / 12) ^ k).
Proof. exact key_free. Qed.
Print Assumptions C73_key_free.

(** a key with no zero entries to speak of: the generated key of P_key.v, and a second secret key with the same f, g -- so the same public key *)
Example C73_sat : sound_key 9 P_key.kf P_key.kg P_key.kF P_key.kG.
Proof. exact sound_k. Qed.
Example C73_key_free_sat : sound_key 9 P_key.kf P_key.kg (padd (2 ^ 9) P_key.kF P_key.kf) (padd (2 ^ 9) P_key.kG P_key.kg).
Proof. exact sound_k'. Qed.
