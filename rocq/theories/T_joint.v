(** T_joint.v -- claim C71: the joint distribution of the integers ff_sampling returns.  Exact arithmetic. *)
From Coq Require Import Reals.
From Verif Require Import Base Spec SpecR SpecS SpecG SpecJ M_ff M_sig M_verify M_float M_exact M_samp M_fft M_ntru M_tree P_leaf P_jkey.
Open Scope R_scope.

(** C71: for a key that passes the test of key generation (for N = 512 the bound is the one that sigma_min stands for, which is lower by one part in
    10^9), any hashed message c and any random bytes, the pair of integer polynomials (z0, z1) that ff_sampling returns is distributed, up to a total
    distance of 2N (2^-35 + (11/12)^k), where k is the number of attempts allowed to each call of the integer sampler, as 2N discrete Gaussians: the
    probability of (z0, z1) is exp(-|(s1, s2)|^2 / (2 sigma^2)) over the product of the sums of the Gaussian weights at the centres of the 2N calls.
    Here s1 = c - z0 g - z1 G and s2 = z0 f + z1 F is the vector that signing computes from (z0, z1).
    The ideal probabilities add up to 1.  The sum of differences runs over any finite set of pairs; a run takes at most 36 k N random bytes, and fails to end with probability at most 2N (11/12)^k. *)
Theorem C71_joint : forall lg, falcon_lg lg -> forall f g F_ G_ : list Z,
  length f = (2 ^ lg)%nat -> length g = (2 ^ lg)%nat -> length F_ = (2 ^ lg)%nat -> length G_ = (2 ^ lg)%nat -> ntru (2 ^ lg) f g F_ G_ ->
  gs_norm lg f g <= 117 / 100 * (117 / 100) * 12289 ->
  lg = 10%nat \/ sigma_min RF lg * sigma_min RF lg * gs_norm lg f g <= sigma_value RF lg * sigma_value RF lg ->
  Forall (fun x => Z.abs x <= 27000)%Z F_ -> Forall (fun x => Z.abs x <= 27000)%Z G_ ->
  forall c B T0 T t0 t1, length c = (2 ^ lg)%nat -> Forall canon c -> ((lg + 1) * 2 ^ lg <= length T0)%nat ->
  compute_matrix_B RF exact_table lg f g F_ G_ = Ok B -> compute_falcon_tree RF exact_table lg B T0 = Ok T ->
  sign_target RF exact_table lg B c = Ok (t0, t1) ->
  exists I : list Z * list Z -> R,
    (forall a, length (fst a) = (2 ^ lg)%nat -> length (snd a) = (2 ^ lg)%nat -> exists cs Gs, length cs = (2 * 2 ^ lg)%nat /\
      map stddev cs = flat_map (fun j => [fst (nth (lg * 2 ^ lg + j) T Czero); fst (nth (lg * 2 ^ lg + j) T Czero)]) (rev (seq 0 (2 ^ lg))) /\
      Forall (fun k => sigma_min RF lg <= stddev k <= 18205 / 10000) cs /\
      Forall2 (fun k G => gauss_sum (stddev k) (centre k) G) cs Gs /\
      I a = exp (- (IZR (sqnorm (psub (2 ^ lg) (psub (2 ^ lg) c (negacyclic (2 ^ lg) (fst a) g)) (negacyclic (2 ^ lg) (snd a) G_)) +
                         sqnorm (padd (2 ^ lg) (negacyclic (2 ^ lg) (fst a) f) (negacyclic (2 ^ lg) (snd a) F_)))
                    / (2 * (sigma_value RF lg * sigma_value RF lg)))) / Rprod Gs) /\
    total (fun a => length (fst a) = (2 ^ lg)%nat /\ length (snd a) = (2 ^ lg)%nat) I 1 /\
    (forall k n L, (36 * k * 2 ^ lg <= n)%nat -> NoDup L -> Forall (fun a => length (fst a) = (2 ^ lg)%nat /\ length (snd a) = (2 ^ lg)%nat) L ->
      lsum (fun a => Rabs (prob n (fun w => samples lg (ff_sampling RF exact_table k lg 0 t0 t1 T 0 (sigma_min RF lg) (stream w) 0) a) - I a)) L
        <= INR (2 * 2 ^ lg) * (/ 2 ^ 35 + (11 / 12) ^ k)) /\
    (forall k n, (36 * k * 2 ^ lg <= n)%nat ->
      1 - INR (2 * 2 ^ lg) * (11 / 12) ^ k <= prob n (fun w => finishes (ff_sampling RF exact_table k lg 0 t0 t1 T 0 (sigma_min RF lg) (stream w) 0)) <= 1).
Proof. exact joint_run. Qed.
Print Assumptions C71_joint.
Example C71_sat : let k := cst (2 ^ 9) in ntru (2 ^ 9) (k 100%Z) (k 1%Z) (k 11%Z) (k 123%Z) /\ gs_norm 9 (k 100%Z) (k 1%Z) <= 117 / 100 * (117 / 100) * 12289 /\
  sigma_min RF 9 * sigma_min RF 9 * gs_norm 9 (k 100%Z) (k 1%Z) <= sigma_value RF 9 * sigma_value RF 9 /\
  Forall (fun x => Z.abs x <= 27000)%Z (k 11%Z) /\ Forall (fun x => Z.abs x <= 27000)%Z (k 123%Z).
Proof. exact joint_key. Qed.
