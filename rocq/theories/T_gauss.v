(** T_gauss.v -- claim C72: the samples of signing follow the discrete Gaussian on the lattice of the key.  Exact arithmetic. *)
From Coq Require Import Reals.
From Verif Require Import Base Spec SpecR SpecS SpecG SpecJ M_ff M_sig M_verify M_float M_exact M_samp M_fft M_ntru M_tree P_leaf P_theta P_jkey P_jgauss.
Open Scope R_scope.

(** C72, one coordinate: the sum of the Gaussian weights of the integers is the same for all centres, up to 2^-37, for the deviations signing uses *)
Theorem C72_centre_free : forall s c c' G G', 12778 / 10000 <= s <= 18205 / 10000 -> gauss_sum s c G -> gauss_sum s c' G' -> G * (1 - / 2 ^ 38) <= G' * (1 + / 2 ^ 38).
Proof. exact centre_free. Qed.
Print Assumptions C72_centre_free.
Example C72_centre_sat : exists G G', gauss_sum (3 / 2) 0 G /\ gauss_sum (3 / 2) (1 / 2) G'.
Proof. exact centre_sat. Qed.

(** C72: for a key that passes the test of key generation (as in C71), and any hashed message c, let the weight of a pair (z0, z1) of integer
    polynomials be exp(-|(s1, s2)|^2 / (2 sigma^2)), where s1 = c - z0 g - z1 G, s2 = z0 f + z1 F.  The weights have a finite sum, and the pair that
    ff_sampling returns on uniformly random bytes has each value with probability weight / sum, up to a total distance of 2N (2^-34 + (11/12)^k). *)
Theorem C72_lattice_gaussian : forall lg, falcon_lg lg -> forall f g F_ G_ : list Z,
  length f = (2 ^ lg)%nat -> length g = (2 ^ lg)%nat -> length F_ = (2 ^ lg)%nat -> length G_ = (2 ^ lg)%nat -> ntru (2 ^ lg) f g F_ G_ ->
  gs_norm lg f g <= 117 / 100 * (117 / 100) * 12289 ->
  lg = 10%nat \/ sigma_min RF lg * sigma_min RF lg * gs_norm lg f g <= sigma_value RF lg * sigma_value RF lg ->
  Forall (fun x => Z.abs x <= 27000)%Z F_ -> Forall (fun x => Z.abs x <= 27000)%Z G_ ->
  forall B T0 T, ((lg + 1) * 2 ^ lg <= length T0)%nat ->
  compute_matrix_B RF exact_table lg f g F_ G_ = Ok B -> compute_falcon_tree RF exact_table lg B T0 = Ok T ->
  forall c t0 t1, length c = (2 ^ lg)%nat -> Forall canon c -> sign_target RF exact_table lg B c = Ok (t0, t1) ->
  let pairN := fun a : list Z * list Z => length (fst a) = (2 ^ lg)%nat /\ length (snd a) = (2 ^ lg)%nat in
  let s1 := fun a : list Z * list Z => psub (2 ^ lg) (psub (2 ^ lg) c (negacyclic (2 ^ lg) (fst a) g)) (negacyclic (2 ^ lg) (snd a) G_) in
  let s2 := fun a : list Z * list Z => padd (2 ^ lg) (negacyclic (2 ^ lg) (fst a) f) (negacyclic (2 ^ lg) (snd a) F_) in
  let weight := fun a => exp (- (IZR (sqnorm (s1 a) + sqnorm (s2 a)) / (2 * (sigma_value RF lg * sigma_value RF lg)))) in
  exists Z, 0 < Z /\ total pairN weight Z /\
    forall k n L, (36 * k * 2 ^ lg <= n)%nat -> NoDup L -> Forall pairN L ->
      lsum (fun a => Rabs (prob n (fun w => samples lg (ff_sampling RF exact_table k lg 0 t0 t1 T 0 (sigma_min RF lg) (stream w) 0) a) - weight a / Z)) L
        <= INR (2 * 2 ^ lg) * (/ 2 ^ 34 + (11 / 12) ^ k).
Proof. exact lattice_gauss. Qed.
Print Assumptions C72_lattice_gaussian.

(** C72: the sum of the weights is the same for all messages, up to 2N 2^-34 *)
Theorem C72_mass : forall lg, falcon_lg lg -> forall f g F_ G_ : list Z,
  length f = (2 ^ lg)%nat -> length g = (2 ^ lg)%nat -> length F_ = (2 ^ lg)%nat -> length G_ = (2 ^ lg)%nat -> ntru (2 ^ lg) f g F_ G_ ->
  gs_norm lg f g <= 117 / 100 * (117 / 100) * 12289 ->
  lg = 10%nat \/ sigma_min RF lg * sigma_min RF lg * gs_norm lg f g <= sigma_value RF lg * sigma_value RF lg ->
  Forall (fun x => Z.abs x <= 27000)%Z F_ -> Forall (fun x => Z.abs x <= 27000)%Z G_ ->
  forall c c' W W', length c = (2 ^ lg)%nat -> Forall canon c -> length c' = (2 ^ lg)%nat -> Forall canon c' ->
  let pairN := fun a : list Z * list Z => length (fst a) = (2 ^ lg)%nat /\ length (snd a) = (2 ^ lg)%nat in
  let s1 := fun c (a : list Z * list Z) => psub (2 ^ lg) (psub (2 ^ lg) c (negacyclic (2 ^ lg) (fst a) g)) (negacyclic (2 ^ lg) (snd a) G_) in
  let s2 := fun a : list Z * list Z => padd (2 ^ lg) (negacyclic (2 ^ lg) (fst a) f) (negacyclic (2 ^ lg) (snd a) F_) in
  let weight := fun c a => exp (- (IZR (sqnorm (s1 c a) + sqnorm (s2 a)) / (2 * (sigma_value RF lg * sigma_value RF lg)))) in
  total pairN (weight c) W -> total pairN (weight c') W' -> W <= W' * (1 + INR (2 * 2 ^ lg) * / 2 ^ 34).
Proof. exact mass_any. Qed.
Print Assumptions C72_mass.
Example C72_sat : let k := cst (2 ^ 9) in ntru (2 ^ 9) (k 100%Z) (k 1%Z) (k 11%Z) (k 123%Z) /\ gs_norm 9 (k 100%Z) (k 1%Z) <= 117 / 100 * (117 / 100) * 12289 /\
  sigma_min RF 9 * sigma_min RF 9 * gs_norm 9 (k 100%Z) (k 1%Z) <= sigma_value RF 9 * sigma_value RF 9 /\
  Forall (fun x => Z.abs x <= 27000)%Z (k 11%Z) /\ Forall (fun x => Z.abs x <= 27000)%Z (k 123%Z).
Proof. exact joint_key. Qed.
