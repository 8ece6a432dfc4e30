(** T_sim.v -- claim C84: hashed message and signature vector together follow a law that needs no secret key.  Exact arithmetic. *)
From Coq Require Import Reals.
From Verif Require Import Base Spec SpecR SpecS SpecG SpecJ SpecH SpecM M_ff M_sig M_verify M_float M_exact M_samp M_fft M_ntt M_ntru M_tree P_sim.
From Verif Require P_key P_jcoset.
Open Scope R_scope.

(** C84: let h be the public key of a sound secret key.  The bytes of the extendable-output function and the bytes of the sampler are uniformly random.
    Then the pair of the hashed message c and the vector (s1, s2) that one pass of signing draws for it has the law of this experiment, for which only h
    is needed: draw (s1, s2) from the Gaussian of width sigma on all pairs of integer polynomials, and put c = s1 + s2 h modulo q.  The distance over all
    pairs is at most 2N (2 / 2^34 + (11/12)^k) + 16^N / 8^(68 j), for j blocks of hash output and k attempts per integer. *)
Theorem C84_simulation : forall lg, falcon_lg lg -> forall f g F_ G_ h0 h B T0 T,
  sound_key lg f g F_ G_ -> length h0 = (2 ^ lg)%nat -> compute_public_key lg f g h0 = Ok h ->
  ((lg + 1) * 2 ^ lg <= length T0)%nat -> compute_matrix_B RF exact_table lg f g F_ G_ = Ok B -> compute_falcon_tree RF exact_table lg B T0 = Ok T ->
  let weight := fun s : list Z * list Z => exp (- (IZR (sqnorm (fst s) + sqnorm (snd s)) / (2 * (sigma_value RF lg * sigma_value RF lg)))) in
  exists W, 0 < W /\ total (fun s => length (fst s) = (2 ^ lg)%nat /\ length (snd s) = (2 ^ lg)%nat) weight W /\
    forall salt msg poly j k n L, length poly = (2 ^ lg)%nat -> (36 * k * 2 ^ lg <= n)%nat -> NoDup L ->
      Forall (fun p => length (fst p) = (2 ^ lg)%nat /\ Forall canon (fst p) /\ coset lg (fst p) h (snd p)) L ->
      lsum (fun p => Rabs (prob (136 * j + n) (fun v => hashes_to (hash_to_point j (fun _ => stream (firstn (136 * j) v)) lg salt msg poly) (fst p) &&
                                                        pass_draws lg B T k (fst p) (skipn (136 * j) v) (snd p)) - weight (snd p) / W)) L
        <= INR (2 * 2 ^ lg) * (2 / 2 ^ 34 + (11 / 12) ^ k) + 16 ^ 2 ^ lg / 8 ^ (68 * j).
Proof. exact simulation. Qed.
Print Assumptions C84_simulation.

(** the generated key of P_key.v; and for every public key a hashed message with no zero entries to speak of, and a vector for it *)
Example C84_sat : sound_key 9 P_key.kf P_key.kg P_key.kF P_key.kG /\
  forall h, let c := tab (2 ^ 9) (fun i => (24 * Z.of_nat i)%Z) in length c = (2 ^ 9)%nat /\ Forall canon c /\ coset 9 c h (c, repeat 0%Z (2 ^ 9)).
Proof. split; [exact P_jcoset.sound_k|exact sim_example]. Qed.
