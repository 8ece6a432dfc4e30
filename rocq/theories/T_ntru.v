(** T_ntru.v -- claims C31-C36: NTRU equation solver and key generation.

    F and ztab (floating point operations and FFT table) are arbitrary: the claims hold however the floating
    point parts round. *)
From Coq Require Import SpecFloat.
From Verif Require Import Base Spec M_ff M_ntt M_codec M_float M_samp M_exact M_ieee M_fft M_ntru M_tree P_exact P_ntru P_ntru2 P_keygen.
Open Scope Z_scope.

(** C31 *)
Theorem C31_xgcd : forall x y, exists a b g, (forall fuel, (Z.to_nat (Z.abs y) <= fuel)%nat -> xgcd fuel x y = Ok (a, b, g)) /\
  a * x + b * y = g /\ Z.abs g = Z.gcd x y.
Proof. exact xgcd_total. Qed.
Print Assumptions C31_xgcd.
Example C31_sat : xgcd 10 240 46 = Ok (-9, 47, 2) /\ xgcd 10 (-7) 0 = Ok (1, 0, -7).
Proof. split; reflexivity. Qed.

(** C32 *)
Theorem C32_karatsuba : forall lg a b, length a = (2 ^ lg)%nat -> length b = (2 ^ lg)%nat ->
  exists c, karatsuba lg a b = Ok c /\ length c = (2 * 2 ^ lg)%nat /\
    forall k, (k < 2 * 2 ^ lg)%nat -> nth k c 0 = prodcoef (2 ^ lg) a b k.
Proof. exact karatsuba_spec. Qed.
Print Assumptions C32_karatsuba.
Theorem C32_karamul : forall lg a b, length a = (2 ^ lg)%nat -> length b = (2 ^ lg)%nat ->
  karamul lg a b = Ok (negacyclic (2 ^ lg) a b).
Proof. exact karamul_spec. Qed.
Print Assumptions C32_karamul.
Example C32_sat : karatsuba 2 [1; 2; 3; 4] [5; 6; 7; 8] = Ok [5; 16; 34; 60; 61; 52; 32; 0] /\
  karamul 2 [1; 2; 3; 4] [5; 6; 7; 8] = Ok [-56; -36; 2; 60].
Proof. split; reflexivity. Qed.

(** C33 *)
Theorem C33_lift : forall lg a, length a = (2 ^ lg)%nat -> M_ntru.lift lg a = Ok (at_x_squared (2 ^ lg) a).
Proof. exact lift_spec. Qed.
Print Assumptions C33_lift.
Theorem C33_galois_conjugate : forall lg a, length a = (2 ^ lg)%nat -> galois_conjugate lg a = Ok (at_minus_x (2 ^ lg) a).
Proof. exact galois_spec. Qed.
Print Assumptions C33_galois_conjugate.
Theorem C33_field_norm : forall lg a, length a = (2 ^ S lg)%nat ->
  exists n, field_norm (S lg) a = Ok n /\ length n = (2 ^ lg)%nat /\
    at_x_squared (2 ^ lg) n = negacyclic (2 ^ S lg) a (at_minus_x (2 ^ S lg) a).
Proof. exact field_norm_spec. Qed.
Print Assumptions C33_field_norm.
Theorem C33_lift_multiplicative : forall lg a b, length a = (2 ^ lg)%nat -> length b = (2 ^ lg)%nat ->
  at_x_squared (2 ^ lg) (negacyclic (2 ^ lg) a b) = negacyclic (2 ^ S lg) (at_x_squared (2 ^ lg) a) (at_x_squared (2 ^ lg) b).
Proof. exact lift_mult. Qed.
Print Assumptions C33_lift_multiplicative.
Example C33_sat : field_norm 2 [1; 2; 3; 4] = Ok [8; 18] /\ M_ntru.lift 1 [8; 18] = Ok [8; 0; 18; 0] /\
  galois_conjugate 2 [1; 2; 3; 4] = Ok [1; -2; 3; -4].
Proof. repeat split. Qed.

(** C34: a reported solution solves the equation exactly, and failure is reported exactly when the integer
    norms of f and g are not coprime. *)
Theorem C34_solution_correct : forall F (ztab : list (D F * D F)) fuel lg f g F' G',
  length f = (2 ^ lg)%nat -> length g = (2 ^ lg)%nat -> ntru_solve F ztab fuel lg f g = Ok (Some (F', G')) ->
  length F' = (2 ^ lg)%nat /\ length G' = (2 ^ lg)%nat /\ ntru (2 ^ lg) f g F' G'.
Proof. exact ntru_solve_ok. Qed.
Print Assumptions C34_solution_correct.
Theorem C34_failure_iff : forall F (ztab : list (D F * D F)) fuel lg f g r,
  length f = (2 ^ S lg)%nat -> length g = (2 ^ S lg)%nat -> ntru_solve F ztab fuel (S lg) f g = Ok r ->
  (r = None <-> Z.gcd (norm_to_Z (S lg) f) (norm_to_Z (S lg) g) <> 1).
Proof. exact ntru_solve_complete. Qed.
Print Assumptions C34_failure_iff.
(** Runs in IEEE double precision with (rounded) roots of unity. *)
Definition lit15 (m : Z) : D F64 := flit F64 m 15.
Definition ztab4 : list (D F64 * D F64) := [(lit15 1000000000000000, lit15 0); (lit15 0, lit15 1000000000000000);
 (lit15 707106781186548, lit15 707106781186548); (lit15 (-707106781186548), lit15 707106781186548)].
Example C34_sat : ntru_solve F64 ztab4 1000 1 [3; -1] [-5; 8] = Ok (Some ([620; 993], [374; 123])) /\
  ntru_solve F64 ztab4 1000 2 [2; 0; 0; 0] [4; 2; 6; 0] = Ok None.
Proof. split; vm_compute; reflexivity. Qed.

(** C35: the hypothesis says that adding a small integer to floor(0.0) and converting back is exact, which
    holds in IEEE arithmetic and in exact arithmetic (below).  The returned F, G satisfy the NTRU equation
    modulo 2^32 always, and exactly whenever their coefficients are at most 27000 in absolute value. *)
Theorem C35_ntru_gen : forall F (ztab : list (D F * D F)) fuel sfuel lg rng pos f0 g0 F0 G0 f g F_ G_ pos',
  (forall z, -18 <= z <= 19 -> to_i32 F (fadd F (fofz F z) (ffloor F (fofz F 0))) = Ok z) ->
  byte_stream rng -> falcon_lg lg ->
  length f0 = (2 ^ lg)%nat -> length g0 = (2 ^ lg)%nat -> length F0 = (2 ^ lg)%nat -> length G0 = (2 ^ lg)%nat ->
  ntru_gen F ztab fuel sfuel lg rng pos f0 g0 F0 G0 = Ok (f, g, F_, G_, pos') ->
  length f = (2 ^ lg)%nat /\ length g = (2 ^ lg)%nat /\ length F_ = (2 ^ lg)%nat /\ length G_ = (2 ^ lg)%nat /\
  Forall (fun x => -18 * (4096 / 2 ^ Z.of_nat lg) <= x <= 19 * (4096 / 2 ^ Z.of_nat lg)) f /\
  Forall (fun x => -18 * (4096 / 2 ^ Z.of_nat lg) <= x <= 19 * (4096 / 2 ^ Z.of_nat lg)) g /\
  (exists fi, length fi = (2 ^ lg)%nat /\ modq (negacyclic (2 ^ lg) f fi) = onep (2 ^ lg)) /\
  (forall k, (k < 2 ^ lg)%nat ->
    (2 ^ 32 | nth k (negacyclic (2 ^ lg) f G_) 0 - nth k (negacyclic (2 ^ lg) g F_) 0 - (if Nat.eqb k 0 then q else 0))) /\
  (Forall (fun x => Z.abs x <= 27000) F_ -> Forall (fun x => Z.abs x <= 27000) G_ -> ntru (2 ^ lg) f g F_ G_).
Proof. exact ntru_gen_spec. Qed.
Print Assumptions C35_ntru_gen.
Example C35_sat_ieee : forall z, -18 <= z <= 19 -> to_i32 F64 (fadd F64 (fofz F64 z) (ffloor F64 (fofz F64 0))) = Ok z.
Proof. exact small_exact_F64. Qed.
Example C35_sat_exact : forall z, -18 <= z <= 19 -> to_i32 RF (fadd RF (fofz RF z) (ffloor RF (fofz RF 0))) = Ok z.
Proof. exact small_exact_RF. Qed.

(** C36 *)
Theorem C36_keygen : forall F (ztab : list (D F * D F)) fuel sfuel lg rng pk0 sk0 pk sk (h0 f0 g0 F0 : list Z),
  (forall z, -18 <= z <= 19 -> to_i32 F (fadd F (fofz F z) (ffloor F (fofz F 0))) = Ok z) ->
  byte_stream rng -> falcon_lg lg -> length pk0 = pkey_len lg -> length sk0 = skey_len lg ->
  length h0 = (2 ^ lg)%nat -> length f0 = (2 ^ lg)%nat -> length g0 = (2 ^ lg)%nat -> length F0 = (2 ^ lg)%nat ->
  keygen_bytes F ztab fuel sfuel lg pk0 sk0 rng = Ok (pk, sk) ->
  length pk = pkey_len lg /\ bytes pk /\ nth 0 pk 0 = Z.of_nat lg /\
  length sk = skey_len lg /\ bytes sk /\ nth 0 sk 0 = 80 + Z.of_nat lg /\
  exists f g F_ G_ pos' h,
    ntru_gen F ztab fuel sfuel lg rng 0 (repeat 0 (2 ^ lg)) (repeat 0 (2 ^ lg)) (repeat 0 (2 ^ lg)) (repeat 0 (2 ^ lg)) = Ok (f, g, F_, G_, pos') /\
    decode_pkey lg pk h0 = Ok (true, h) /\ Forall canon h /\ modq (negacyclic (2 ^ lg) h f) = modq g /\
    (decode_skey lg sk f0 g0 F0 = Ok (true, (f, g, F_)) <->
      Forall (fits (skey_modulus lg)) f /\ Forall (fits (skey_modulus lg)) g /\ Forall (fits 256) F_).
Proof. exact keygen_spec. Qed.
Print Assumptions C36_keygen.
