(** T_dist.v -- claim C70: the output distribution of samplerz on doubles. *)
From Coq Require Import Reals Lra SpecFloat.
From Verif Require P_gauss.
From Verif Require Import Base Spec SpecR SpecF SpecG M_float M_exact M_ieee M_samp P_ieee P_fsamp P_dist64.
Open Scope R_scope.

(** The table of the base sampler is the half-Gaussian of standard deviation 1.8205 on the naturals, scaled by 2^72: every entry but the first is
    the exact weight rounded down, and the first one takes up the at most nine units that the rounding leaves. *)
Theorem C70_table : exists S, infinite_sum (fun k => rho SpecG.smax 0 (INR k)) S /\ 1 <= S <= 3 /\
  (IZR (nth 0 pdt 0%Z) - 9 <= 2 ^ 72 * (rho SpecG.smax 0 0 / S) <= IZR (nth 0 pdt 0%Z)) /\
  forall k, (1 <= k < 19)%nat -> IZR (nth k pdt 0%Z) <= 2 ^ 72 * (rho SpecG.smax 0 (INR k) / S) < IZR (nth k pdt 0%Z) + 1.
Proof. exact P_gauss.table_gauss. Qed.
Print Assumptions C70_table.

(** On a uniformly random byte string, long enough for k attempts, samplerz returns v within k attempts with probability P v (1 - (1-a)^k), where the
    acceptance probability a of one attempt is at least 1/12, and P is the discrete Gaussian over all the integers, of the centre and standard
    deviation given by the doubles, up to a relative error of 2^-36 and an absolute one of 2^-59. *)
Theorem C70_distribution : forall mu s sm : spec_float, fin64 mu -> fin64 s -> fin64 sm -> (Z.abs (Rfloor (val64 mu)) <= 2147483000)%Z ->
  1 <= val64 sm -> val64 sm <= val64 s -> val64 s <= 18205 / 10000 ->
  exists (P : Z -> R) (a Gm Gp : R),
    infinite_sum (fun k => rho (val64 s) (val64 mu) (IZR (Rfloor (val64 mu) - Z.of_nat k))) Gm /\
    infinite_sum (fun k => rho (val64 s) (val64 mu) (IZR (Rfloor (val64 mu) + 1 + Z.of_nat k))) Gp /\
    1 / 12 <= a <= 1 /\
    (forall k n v, (18 * k <= n)%nat -> prob n (fun w => returns (samplerz F64 k mu s sm (stream w) 0) v) = P v * (1 - (1 - a) ^ k)) /\
    (forall k n, (18 * k <= n)%nat -> prob n (fun w => ends (samplerz F64 k mu s sm (stream w) 0)) = 1 - (1 - a) ^ k) /\
    forall v, Rabs (P v - rho (val64 s) (val64 mu) (IZR v) / (Gm + Gp)) <= / 2 ^ 36 * (rho (val64 s) (val64 mu) (IZR v) / (Gm + Gp)) + / 2 ^ 59.
Proof. exact samplerz_dist. Qed.
Print Assumptions C70_distribution.

(** sigma' = 1.5, sigma_min = 1.277833697, mu = -7.25, and a string on which the second proposal is accepted *)
Example C70_sat : let mu := S754_finite true 8162774324609024 (-50) in let s := S754_finite false 6755399441055744 (-52) in
  let sm := flit F64 1277833697 9 in
  fin64 mu /\ fin64 s /\ fin64 sm /\ val64 mu = -29 / 4 /\ val64 s = 3 / 2 /\ (Z.abs (Rfloor (val64 mu)) <= 2147483000)%Z /\
  1 <= val64 sm <= val64 s /\ val64 s <= 18205 / 10000 /\ returns (samplerz F64 3 mu s sm (stream (repeat 255%Z 15 ++ [15; 16; 17; 18; 19; 20; 21; 22]%Z)) 0) (-11) = true.
Proof. exact dist_example. Qed.
