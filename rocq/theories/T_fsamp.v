(** T_fsamp.v -- claim C67: samplerz in IEEE 754 binary64. *)
From Coq Require Import Lra SpecFloat.
From Verif Require Import Base Spec SpecR SpecF M_float M_exact M_ieee M_samp P_ieee P_fsamp.
Open Scope R_scope.

(** samplerz on doubles is rejection sampling whose acceptance probability for the proposal (z0, b) is th z0 b / 2^64, and this is within a relative
    error of 2^-39 (and 2^-63 absolutely) of (sigma_min/sigma') exp(-x), x computed with real numbers from the values of mu and sigma'; the result
    is floor(mu) plus the accepted value. *)
Theorem C67_samplerz : forall mu s sm : spec_float, fin64 mu -> fin64 s -> fin64 sm -> (Z.abs (Rfloor (val64 mu)) <= 2147483000)%Z ->
  1 / 1000 <= val64 sm -> val64 sm <= val64 s -> 1 <= val64 s <= 18205 / 10000 ->
  exists th : nat -> Z -> Z,
    (forall z0 b, (z0 < 19)%nat -> (b = 0 \/ b = 1)%Z ->
       let x := (IZR (zsigned z0 b) - (val64 mu - IZR (Rfloor (val64 mu)))) ^ 2 / (2 * val64 s ^ 2) - INR z0 ^ 2 / (2 * (18205 / 10000) ^ 2) in
       0 <= x /\ Rabs (IZR (th z0 b) / 2 ^ 64 - val64 sm / val64 s * exp (- x)) <= / 2 ^ 39 * exp (- x) + / 2 ^ 63) /\
    forall fuel g pos v pos', (forall i, byte (g i)) ->
      (samplerz F64 fuel mu s sm g pos = Ok (v, pos') <->
       exists k z, (k <= fuel)%nat /\ rejection (fun z0 b t => t = th z0 b) g k pos z pos' /\ v = (Rfloor (val64 mu) + z)%Z).
Proof. exact samplerz_64. Qed.
Print Assumptions C67_samplerz.

(** No conversion from double to an integer in samplerz is undefined -- in particular r = x - floor(x INV_LN2) LN2 is never negative, whatever the
    rounding -- even when sigma_min is larger than sigma', and the result is at most 19 from mu. *)
Theorem C67_defined : forall (mu s sm : spec_float) fuel g pos, fin64 mu -> fin64 s -> fin64 sm -> (Z.abs (Rfloor (val64 mu)) <= 2147483000)%Z ->
  0 <= val64 sm -> val64 sm <= 18 / 10 * val64 s -> 1 <= val64 s <= 18205 / 10000 -> (forall i, byte (g i)) -> samplerz F64 fuel mu s sm g pos <> UB.
Proof. exact samplerz_64_no_ub. Qed.
Print Assumptions C67_defined.
Theorem C67_near : forall (mu s sm : spec_float) fuel g pos v pos', fin64 mu -> (Z.abs (Rfloor (val64 mu)) <= 2147483000)%Z -> (forall i, byte (g i)) ->
  samplerz F64 fuel mu s sm g pos = Ok (v, pos') -> Rabs (IZR v - val64 mu) <= 19.
Proof. exact samplerz_64_near. Qed.
Print Assumptions C67_near.
(** ber_exp by itself: every double x in [0, 181] and ccs in [2^-20, 1] *)
Theorem C67_ber_exp : forall x ccs : spec_float, fin64 x -> fin64 ccs -> 0 <= val64 x <= 181 -> / 2 ^ 20 <= val64 ccs <= 1 ->
  exists t, ber_threshold F64 x ccs = Ok t /\ Rabs (IZR t / 2 ^ 64 - val64 ccs * exp (- val64 x)) <= / 2 ^ 43 * exp (- val64 x) + / 2 ^ 63.
Proof. exact threshold_64_pow. Qed.
Print Assumptions C67_ber_exp.

(** sigma' = 1.5, sigma_min = 1.277833697, mu = -7.25 and a run whose second proposal is accepted *)
Example C67_sat : let mu := S754_finite true 8162774324609024 (-50) in let s := S754_finite false 6755399441055744 (-52) in
  let sm := flit F64 1277833697 9 in
  fin64 mu /\ fin64 s /\ fin64 sm /\ val64 mu = -29 / 4 /\ val64 s = 3 / 2 /\ (Z.abs (Rfloor (val64 mu)) <= 2147483000)%Z /\
  1 / 1000 <= val64 sm <= val64 s /\ val64 s <= 18205 / 10000 /\ samplerz F64 3 mu s sm (fun i => if Nat.ltb i 15 then 255 else Z.of_nat i)%Z 0 = Ok ((-11)%Z, 22%nat).
Proof. exact samp_example. Qed.
