(** T_wide.v -- claim C75: the vector drawn by one pass of signing nearly always passes the test on the norm.  Exact arithmetic. *)
From Coq Require Import Reals.
From Verif Require Import Base Spec SpecR SpecS SpecG SpecJ M_ff M_codec M_ntt M_sig M_verify M_float M_exact M_samp M_fft M_ntru M_tree P_jcoset P_loops P_widek.
From Verif Require P_key P_verifyx.
Open Scope R_scope.

(** C75: fix a sound secret key, with its matrix B and its tree T, and a hashed message c with target (t0, t1).  When the bytes are uniformly random, one run of ff_sampling
    on the target leads to a vector with |s1|^2 + |s2|^2 <= beta^2 with probability at least 1 - 0.981^N - 2N (2^-34 + (11/12)^k), k bounding the attempts of each sampling *)
Theorem C75_norm_test : forall lg, falcon_lg lg -> forall f g F_ G_, sound_key lg f g F_ G_ -> forall h0 h, length h0 = (2 ^ lg)%nat -> compute_public_key lg f g h0 = Ok h ->
  forall B T0 T, ((lg + 1) * 2 ^ lg <= length T0)%nat -> compute_matrix_B RF exact_table lg f g F_ G_ = Ok B -> compute_falcon_tree RF exact_table lg B T0 = Ok T ->
  forall c t0 t1, length c = (2 ^ lg)%nat -> Forall canon c -> sign_target RF exact_table lg B c = Ok (t0, t1) ->
  forall k n, (36 * k * 2 ^ lg <= n)%nat ->
    1 - (981 / 1000) ^ (2 ^ lg) - INR (2 * 2 ^ lg) * (/ 2 ^ 34 + (11 / 12) ^ k)
      <= prob n (fun w => short_draw lg B t0 t1 (ff_sampling RF exact_table k lg 0 t0 t1 T 0 (sigma_min RF lg) (stream w) 0)).
Proof. exact pass_short. Qed.
Print Assumptions C75_norm_test.

(** C75: with 512 attempts or more, that is more than 9999 out of 10000 *)
Theorem C75_rarely_long : forall lg, falcon_lg lg -> forall f g F_ G_, sound_key lg f g F_ G_ -> forall h0 h, length h0 = (2 ^ lg)%nat -> compute_public_key lg f g h0 = Ok h ->
  forall B T0 T, ((lg + 1) * 2 ^ lg <= length T0)%nat -> compute_matrix_B RF exact_table lg f g F_ G_ = Ok B -> compute_falcon_tree RF exact_table lg B T0 = Ok T ->
  forall c t0 t1, length c = (2 ^ lg)%nat -> Forall canon c -> sign_target RF exact_table lg B c = Ok (t0, t1) ->
  forall k n, (512 <= k)%nat -> (36 * k * 2 ^ lg <= n)%nat ->
    9999 / 10000 < prob n (fun w => short_draw lg B t0 t1 (ff_sampling RF exact_table k lg 0 t0 t1 T 0 (sigma_min RF lg) (stream w) 0)).
Proof. exact pass_rare. Qed.
Print Assumptions C75_rarely_long.

(** C75: the same for the discrete Gaussian itself: the pairs with s1 + s2 h = c modulo q that are longer than beta carry at most 0.981^N of the weight
    exp(-|(s1, s2)|^2 / (2 sigma^2)) of all pairs *)
Theorem C75_long_mass : forall lg, falcon_lg lg -> forall f g F_ G_, sound_key lg f g F_ G_ -> forall h0 h, length h0 = (2 ^ lg)%nat -> compute_public_key lg f g h0 = Ok h ->
  forall c, length c = (2 ^ lg)%nat -> Forall canon c ->
  let weight := fun s : list Z * list Z => exp (- (IZR (sqnorm (fst s) + sqnorm (snd s)) / (2 * (sigma_value RF lg * sigma_value RF lg)))) in
  exists W WL, 0 < W /\ total (coset lg c h) weight W /\ total (too_long lg c h) weight WL /\ WL <= (981 / 1000) ^ (2 ^ lg) * W.
Proof. exact mass_any_long. Qed.
Print Assumptions C75_long_mass.

(** the generated key of P_key.v, the hash of a message, its matrix, tree and target *)
Example C75_sat : exists h B T t0 t1, compute_public_key 9 P_key.kf P_key.kg (repeat 0%Z 512) = Ok h /\ sound_key 9 P_key.kf P_key.kg P_key.kF P_key.kG /\
  compute_matrix_B RF exact_table 9 P_key.kf P_key.kg P_key.kF P_key.kG = Ok B /\ compute_falcon_tree RF exact_table 9 B (repeat Czero (10 * 512)) = Ok T /\
  Forall canon (repeat 7%Z 512) /\ sign_target RF exact_table 9 B (repeat 7%Z 512) = Ok (t0, t1).
Proof. exact k_pass. Qed.
