(** T_genlaw.v -- claim C77: the distribution of the polynomials gen_poly draws, in binary64 arithmetic. *)
From Verif Require Import Base Spec SpecR SpecF SpecG SpecJ SpecK M_float M_ieee M_ntru P_near P_ieee P_ngen.
From Coq Require Import Reals.
Open Scope R_scope.

(** C77: on uniformly random bytes the coefficients gen_poly draws follow independent discrete Gaussians: the distance to their product is at most 2^-15 (plus the chance that some sampling loop is cut by the fuel). *)
Theorem C77_gen_poly : forall lg, falcon_lg lg -> forall fuel s G L n poly, s = val64 (sigma_fg F64) * sqrt (4096 / 2 ^ lg) -> gauss_sum s 0 G ->
  length poly = (2 ^ lg)%nat -> NoDup L -> Forall (fun v => length v = (2 ^ lg)%nat) L -> (4096 * (18 * fuel) <= n)%nat ->
  lsum (fun v => Rabs (prob n (fun w => yields (gen_poly F64 fuel lg (stream w) 0 poly) v) - Rprod (map (fun z => rho s 0 (IZR z) / G) v))) L <= / 2 ^ 15 + 4096 * (11 / 12) ^ fuel.
Proof. exact poly_law. Qed.
Print Assumptions C77_gen_poly.
Example C77_sat : exists s G L, s = val64 (sigma_fg F64) * sqrt (4096 / 2 ^ 9) /\ gauss_sum s 0 G /\ L = [repeat 0%Z 512; 1%Z :: repeat 0%Z 511] /\ NoDup L /\ Forall (fun v => length v = (2 ^ 9)%nat) L.
Proof. exact poly_sat. Qed.

(** the standard deviation is the one of the Falcon specification, 1.17 sqrt(q / 2N) *)
Theorem C77_deviation : forall lg, falcon_lg lg -> Rabs (val64 (sigma_fg F64) * sqrt (4096 / 2 ^ lg) - 117 / 100 * sqrt (12289 / (2 * 2 ^ lg))) <= / 10 ^ 13.
Proof. exact sfg_spec. Qed.
Print Assumptions C77_deviation.
