(** T_bytes.v -- claims C80, C81: how many random bytes ber_exp and samplerz consume. *)
From Coq Require Import Reals Lra SpecFloat.
From Verif Require Import Base Spec SpecR SpecF SpecG M_float M_exact M_ieee M_samp M_ntru P_bytes.
Open Scope R_scope.

(** Whatever the arguments and the arithmetic, a call of ber_exp that is defined consumes between 1 and 8 bytes, j of them with a probability that is the
    same for all the arguments: 255/256^j for j below 8, and 1/256^7 for j = 8. *)
Theorem C80_ber_exp : forall (F : fops) x ccs, (forall w, ber_exp F x ccs (stream w) 0 <> UB) -> forall n, (8 <= n)%nat ->
  (forall j, (1 <= j <= 7)%nat -> prob n (fun w => spent (ber_exp F x ccs (stream w) 0) j) = 255 / 256 ^ j) /\
  prob n (fun w => spent (ber_exp F x ccs (stream w) 0) 8) = 1 / 256 ^ 7.
Proof. exact ber_exp_law. Qed.
Print Assumptions C80_ber_exp.
(** x = 1/2 and ccs = 3/4 in binary64: defined, and a byte string on which two bytes decide *)
Example C80_sat : let x := S754_finite false 4503599627370496 (-53) in let ccs := S754_finite false 6755399441055744 (-53) in
  (forall w, ber_exp F64 x ccs (stream w) 0 <> UB) /\ spent (ber_exp F64 x ccs (stream [116; 7]%Z) 0) 2 = true /\ spent (ber_exp F64 x ccs (stream [117]%Z) 0) 1 = true.
Proof. exact bytes_example. Qed.

(** The total number of bytes that samplerz consumes does depend on the centre: the probability of consuming exactly 11 bytes, the least possible, is
    larger by at least 1/600 for the centre 31/32 than for the centre 5/64, with the same standard deviation 3/2 -- although the number of attempts
    has the same law up to 2^-27 (C79): acceptance and the number of bytes compared are not independent. *)
Theorem C81_bytes_refuted : exists mu mu' s : spec_float, fin64 mu /\ fin64 mu' /\ fin64 s /\ val64 mu = 5 / 64 /\ val64 mu' = 31 / 32 /\ val64 s = 3 / 2 /\
  forall k n, (1 <= k)%nat -> (18 * k <= n)%nat ->
    prob n (fun w => spent (samplerz F64 k mu s (sigma_min F64 9) (stream w) 0) 11) + 1 / 600 <= prob n (fun w => spent (samplerz F64 k mu' s (sigma_min F64 9) (stream w) 0) 11).
Proof. exact bytes_gap. Qed.
Print Assumptions C81_bytes_refuted.
