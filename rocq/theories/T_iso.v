(** T_iso.v -- claim C79: the number of attempts of samplerz reveals neither the centre nor the standard deviation. *)
From Coq Require Import Reals Lra SpecFloat.
From Verif Require Import Base Spec SpecR SpecF SpecG M_float M_exact M_ieee M_samp M_ntru P_iso.
Open Scope R_scope.

(** For each parameter set there is one acceptance probability a, at least 1/12, such that, for every double centre mu and every double standard
    deviation s between sigma_min and 1.8205, samplerz on uniformly random bytes ends within k attempts with probability 1 - (1-a)^k up to 2^-31,
    and the law of the number of attempts is geometric with parameter a up to 2^-27 in the sum of all the deviations. *)
Theorem C79_attempts : forall lg, falcon_lg lg -> exists a, 1 / 12 <= a <= 1 /\ forall mu s : spec_float,
  fin64 mu -> fin64 s -> (Z.abs (Rfloor (val64 mu)) <= 2147483000)%Z -> val64 (sigma_min F64 lg) <= val64 s -> val64 s <= 18205 / 10000 ->
  (forall k n, (18 * k <= n)%nat -> Rabs (prob n (fun w => ends (samplerz F64 k mu s (sigma_min F64 lg) (stream w) 0)) - (1 - (1 - a) ^ k)) <= / 2 ^ 31) /\
  forall m n, (18 * S m <= n)%nat ->
    sum_f_R0 (fun k => Rabs (prob n (fun w => ends (samplerz F64 (S k) mu s (sigma_min F64 lg) (stream w) 0) && negb (ends (samplerz F64 k mu s (sigma_min F64 lg) (stream w) 0))) - a * (1 - a) ^ k)) m <= / 2 ^ 27.
Proof. exact attempts_lg. Qed.
Print Assumptions C79_attempts.

(** two pairs (centre, deviation) that meet the hypotheses, and a byte string on which exactly two attempts are made *)
Example C79_sat : let mu := S754_finite true 8162774324609024 (-50) in let s := S754_finite false 6755399441055744 (-52) in
  let mu' := S754_finite false 4503599627370496 (-53) in let s' := S754_finite false 7881299347898368 (-52) in
  let sm := sigma_min F64 9 in let w := (repeat 255 15 ++ [15; 16; 17; 18; 19; 20; 21; 22])%Z in
  (fin64 mu /\ fin64 s /\ val64 mu = -29 / 4 /\ val64 s = 3 / 2 /\ (Z.abs (Rfloor (val64 mu)) <= 2147483000)%Z /\ val64 sm <= val64 s /\ val64 s <= 18205 / 10000) /\
  (fin64 mu' /\ fin64 s' /\ val64 mu' = 1 / 2 /\ val64 s' = 7 / 4 /\ (Z.abs (Rfloor (val64 mu')) <= 2147483000)%Z /\ val64 sm <= val64 s' /\ val64 s' <= 18205 / 10000) /\
  ends (samplerz F64 2 mu s sm (stream w) 0) && negb (ends (samplerz F64 1 mu s sm (stream w) 0)) = true.
Proof. exact iso_example. Qed.
Print Assumptions C79_sat.
