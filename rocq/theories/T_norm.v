(** T_norm.v -- claim C57: what ff_sampling samples is the squared norm of the signature vector.  Exact arithmetic. *)
From Coq Require Import Lra.
From Verif Require Import Base Spec SpecR SpecS M_ff M_sig M_verify M_float M_exact M_samp M_fft M_ntru M_tree P_leaf P_norm P_normx.
Open Scope R_scope.

(** C57: for every NTRU key, every integer target c and every random stream, ff_sampling calls the integer sampler 2N
    times, with the leaves of the tree, from the last to the first, each twice, as standard deviations; and the exponent of
    the joint density, sum (z - mu)^2 / (2 sigma_i^2), is the squared norm of the vector signing computes over 2 sigma^2.
    So the vector's density depends on its norm only. *)
Theorem C57_energy : forall lg, (1 <= lg <= 10)%nat -> forall f g F_ G_ : list Z,
  length f = (2 ^ lg)%nat -> length g = (2 ^ lg)%nat -> length F_ = (2 ^ lg)%nat -> length G_ = (2 ^ lg)%nat -> ntru (2 ^ lg) f g F_ G_ ->
  forall fuel smin rng c B T0 T t0 t1 pos z0 z1 pos' s0 s1 n0 n1, length c = (2 ^ lg)%nat -> ((lg + 1) * 2 ^ lg <= length T0)%nat ->
  compute_matrix_B RF exact_table lg f g F_ G_ = Ok B -> compute_falcon_tree RF exact_table lg B T0 = Ok T ->
  sign_target RF exact_table lg B c = Ok (t0, t1) ->
  ff_sampling RF exact_table fuel lg 0 t0 t1 T 0 smin rng pos = Ok (z0, z1, pos') ->
  sign_vector RF lg B t0 t1 z0 z1 = Ok (s0, s1) -> sqrd_norm_c RF lg s0 = Ok n0 -> sqrd_norm_c RF lg s1 = Ok n1 ->
  exists cs, length cs = (2 * 2 ^ lg)%nat /\ sampler_calls fuel smin rng cs pos pos' /\
    map stddev cs = flat_map (fun j => [fst (nth (lg * 2 ^ lg + j) T Czero); fst (nth (lg * 2 ^ lg + j) T Czero)]) (rev (seq 0 (2 ^ lg))) /\
    energy cs = (n0 + n1) / (2 * (sigma_value RF lg * sigma_value RF lg)).
Proof. exact norm_run. Qed.
Print Assumptions C57_energy.

(** The same for a signature that signing returns: (s1, s2) is the vector of C29, and the acceptance test is a bound on
    the exponent.  For keys that pass the test of key generation all standard deviations are in [leaf_lo, leaf_hi]. *)
Theorem C57_signature : forall lg, falcon_lg lg -> forall f g F_ G_ : list Z,
  length f = (2 ^ lg)%nat -> length g = (2 ^ lg)%nat -> length F_ = (2 ^ lg)%nat -> length G_ = (2 ^ lg)%nat -> ntru (2 ^ lg) f g F_ G_ ->
  forall xof, (forall a, byte_stream (xof a)) -> forall fuel sfuel B T0 T msg sig rng pos sig' pos', (sig_bytes lg <= length sig)%nat -> ((lg + 1) * 2 ^ lg = length T0)%nat ->
  compute_matrix_B RF exact_table lg f g F_ G_ = Ok B -> compute_falcon_tree RF exact_table lg B T0 = Ok T ->
  sign_bt RF exact_table fuel sfuel xof lg B T msg sig rng pos = Ok (sig', pos') ->
  let N := (2 ^ lg)%nat in
  let salt := map (fun i => rng (pos + i)%nat) (seq 0 40) in
  exists c z0 z1 s1 s2 body p cs, hashed (xof (salt ++ msg)) lg c /\ length z0 = N /\ length z1 = N /\
    s1 = psub N (psub N c (negacyclic N z0 g)) (negacyclic N z1 G_) /\ s2 = padd N (negacyclic N z0 f) (negacyclic N z1 F_) /\
    bits_of body = encs s2 ++ repeat false (Z.to_nat (body_len lg - tot s2)) /\ length body = (sig_bytes lg - 41)%nat /\
    sig' = ((48 + Z.of_nat lg)%Z :: salt) ++ body ++ skipn (sig_bytes lg) sig /\
    length cs = (2 * N)%nat /\ sampler_calls sfuel (sigma_min RF lg) rng cs p pos' /\
    energy cs = IZR (sqnorm s1 + sqnorm s2) / (2 * (sigma_value RF lg * sigma_value RF lg)) /\
    energy cs <= IZR (beta2 lg) / (2 * (sigma_value RF lg * sigma_value RF lg)) /\
    (gs_norm lg f g <= 117 / 100 * (117 / 100) * 12289 -> Forall (fun c => leaf_lo lg <= stddev c <= leaf_hi lg) cs).
Proof. exact sign_energy. Qed.
Print Assumptions C57_signature.
Example C57_sat : let k := cst (2 ^ 9) in ntru (2 ^ 9) (k 100%Z) (k 1%Z) (k 11%Z) (k 123%Z) /\ gs_norm 9 (k 100%Z) (k 1%Z) <= 117 / 100 * (117 / 100) * 12289.
Proof. exact key_100. Qed.
