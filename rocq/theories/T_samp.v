(** T_samp.v -- theorems about u72.hpp and samplerz.hpp. *)
From Verif Require Import Base Spec M_float M_exact M_samp P_samp P_sampz P_exp P_exact.
From Coq Require Import Reals Lra.
Open Scope Z_scope.

(** C37: u72 addition, subtraction and negation are arithmetic modulo 2^72, < and > the numeric order. *)
Theorem C37_arith : forall a b : u72,
  0 <= hi a < 256 /\ 0 <= lo a < 2 ^ 64 -> 0 <= hi b < 256 /\ 0 <= lo b < 2 ^ 64 ->
  (let v x := val72 (hi x) (lo x) in
   v (add72 a b) = (v a + v b) mod 2 ^ 72 /\ v (sub72 a b) = (v a - v b) mod 2 ^ 72 /\ v (neg72 a) = (- v a) mod 2 ^ 72 /\
   lt72 a b = (v a <? v b) /\ gt72 a b = (v b <? v a)) /\
  (forall c, c = add72 a b \/ c = sub72 a b \/ c = neg72 a -> 0 <= hi c < 256 /\ 0 <= lo c < 2 ^ 64).
Proof. exact u72_arith. Qed.
Print Assumptions C37_arith.
Example C37_sat : add72 (mk72 255 18446744073709551615) (mk72 0 1) = mk72 0 0 /\ sub72 (mk72 1 0) (mk72 0 1) = mk72 0 18446744073709551615.
Proof. split; reflexivity. Qed.

(** C37: the byte conversions are the exact little/big endian encodings, each the inverse of the other. *)
Theorem C37_bytes : forall b, length b = 9%nat -> bytes b ->
  (exists a, from_le b = Ok a /\ to_le a = Ok b /\ val72 (hi a) (lo a) = le_value 256 b) /\
  (exists a, from_be b = Ok a /\ to_be a = Ok b /\ val72 (hi a) (lo a) = be_value 256 b).
Proof. exact u72_bytes. Qed.
Print Assumptions C37_bytes.
Theorem C37_bytes_inv : forall a, 0 <= hi a < 256 /\ 0 <= lo a < 2 ^ 64 ->
  (exists b, to_le a = Ok b /\ from_le b = Ok a /\ length b = 9%nat /\ bytes b) /\
  (exists b, to_be a = Ok b /\ from_be b = Ok a /\ length b = 9%nat /\ bytes b).
Proof. exact u72_bytes_inv. Qed.
Print Assumptions C37_bytes_inv.
Example C37_bytes_sat : from_le [1; 2; 3; 4; 5; 6; 7; 8; 9] = Ok (mk72 9 578437695752307201) /\
  from_be [1; 2; 3; 4; 5; 6; 7; 8; 9] = Ok (mk72 1 144964032628459529).
Proof. split; reflexivity. Qed.

(** C38: exactly pdt[i] of the 2^72 nine-byte inputs give i: they are enumerated by a bijection from [0, pdt[i]). *)
Theorem C38_base_sampler : forall i, (i < 19)%nat -> exists f : Z -> list Z,
  (forall k, 0 <= k < nth i pdt 0 -> length (f k) = 9%nat /\ bytes (f k) /\ base_sampler (f k) = Ok (Z.of_nat i)) /\
  (forall k k', 0 <= k < nth i pdt 0 -> 0 <= k' < nth i pdt 0 -> f k = f k' -> k = k') /\
  (forall b, length b = 9%nat -> bytes b -> base_sampler b = Ok (Z.of_nat i) -> exists k, 0 <= k < nth i pdt 0 /\ f k = b).
Proof. exact base_exact. Qed.
Print Assumptions C38_base_sampler.
Theorem C38_total : forall b, length b = 9%nat -> bytes b -> exists i, (i < 19)%nat /\ base_sampler b = Ok (Z.of_nat i).
Proof. exact base_total. Qed.
Print Assumptions C38_total.
Example C38_sat : base_sampler [0; 0; 0; 0; 0; 0; 0; 0; 0] = Ok 18 /\ base_sampler (repeat 255 9) = Ok 0 /\
  base_sampler [1; 0; 0; 0; 0; 0; 0; 0; 0] = Ok 17 /\ fold_right Z.add 0 pdt = 2 ^ 72 /\ length pdt = 19%nat.
Proof. vm_compute. repeat split. Qed.

(** C39: both branches of full_mul_u64 compute the exact 128-bit product; top_63_bits takes bits 63..125. *)
Theorem C39_full_mul : forall a b, 0 <= a < 2 ^ 64 -> 0 <= b < 2 ^ 64 ->
  (let '(h, l) := full_mul_u64 a b in 0 <= h < 2 ^ 64 /\ 0 <= l < 2 ^ 64 /\ h * 2 ^ 64 + l = a * b) /\
  full_mul_u64_arm a b = full_mul_u64 a b /\ top_63_bits (full_mul_u64 a b) = (a * b / 2 ^ 63) mod 2 ^ 63.
Proof. exact full_mul_all. Qed.
Print Assumptions C39_full_mul.
Example C39_sat : full_mul_u64 (2 ^ 64 - 1) (2 ^ 64 - 1) = (2 ^ 64 - 2, 1).
Proof. reflexivity. Qed.

(** C40: approx_exp's integer core.  For x = z1/2^63 in [0, 0.695] (0.695 > ln 2) and ccs = z2/2^63 in [0,1],
    the value is within 2^-51 of ccs exp(-x), apart from the corner x <= 2^-63, ccs = 1. *)
Theorem C40_exp_core : forall z1 z2, 0 <= z1 -> (IZR z1 <= 695 / 1000 * 2 ^ 63)%R -> 0 <= z2 <= 2 ^ 63 -> ~ (z1 <= 1 /\ z2 = 2 ^ 63) ->
  exists y, exp_core z1 z2 = Ok y /\ 0 <= y < 2 ^ 63 /\
    (Rabs (IZR y / 2 ^ 63 - IZR z2 / 2 ^ 63 * exp (- (IZR z1 / 2 ^ 63))) <= / 2 ^ 51)%R.
Proof. exact exp_core_accuracy. Qed.
Print Assumptions C40_exp_core.
(** In that corner the 63-bit mask drops the only bit set, and the result is 0 instead of 2^63. *)
Theorem C40_corner : forall z1, 0 <= z1 <= 1 -> exp_core z1 (2 ^ 63) = Ok 0.
Proof. exact exp_core_corner. Qed.
Print Assumptions C40_corner.
(** ber_exp is not affected: its threshold is correct everywhere, the wrap of 2*0-1 undoing the mask. *)
Theorem C40_threshold : forall x ccs : R, (0 <= x <= 2 ^ 60)%R -> (/ 2 ^ 20 <= ccs <= 1)%R ->
  exists t, ber_threshold RF x ccs = Ok t /\ (Rabs (IZR t / 2 ^ 64 - ccs * exp (- x)) <= / 2 ^ 48 * exp (- x) + / 2 ^ 63)%R.
Proof. exact threshold_accuracy. Qed.
Print Assumptions C40_threshold.
Example C40_sat : exp_core (2 ^ 62) (2 ^ 62) = Ok 2797128963144290736 /\ (IZR (2 ^ 62) <= 695 / 1000 * 2 ^ 63)%R.
Proof. split; [vm_compute; reflexivity|]. change (2 ^ 62) with 4611686018427387904. lra. Qed.

(** C41: ber_exp, whatever the floating point code before it computed as its threshold, accepts iff the next
    eight stream bytes as a big endian number are below the threshold, and reads only the bytes that decide. *)
Theorem C41_ber_exp : forall (F : fops) x ccs g pos t, (forall i, byte (g i)) -> ber_threshold F x ccs = Ok t ->
  0 <= t < 2 ^ 64 /\
  exists n, ber_exp F x ccs g pos = Ok (b2z (be_value 256 (bytes_at g pos 8) <? t), (pos + n)%nat) /\ decided_by g pos t n.
Proof. exact ber_exp_spec. Qed.
Print Assumptions C41_ber_exp.
Example C41_sat : ber_loop 8 0x0102030405060708 (fun i => nth i [1; 2; 3; 3; 9; 9; 9; 9] 0) 0 = (-1, 4%nat).
Proof. reflexivity. Qed.

(** C42: for any floating point behaviour samplerz is rejection sampling over the table's proposals. *)
Theorem C42_samplerz : forall (F : fops) fuel mu sigma' sigma_min g pos v pos', (forall i, byte (g i)) ->
  samplerz F fuel mu sigma' sigma_min g pos = Ok (v, pos') ->
  exists k z, (1 <= k <= fuel)%nat /\ (pos + 11 * k <= pos' <= pos + 18 * k)%nat /\ -18 <= z <= 19 /\
    to_i32 F (fadd F (fofz F z) (ffloor F mu)) = Ok v.
Proof. exact samplerz_range. Qed.
Print Assumptions C42_samplerz.
(** In exact arithmetic, proposal (z0, b) is accepted with probability th/2^64 for a th that is within the
    stated error of (sigma_min/sigma') exp(-x); the result is floor(mu) plus the accepted z. *)
Theorem C42_exact : forall mu sigma' sigma_min : R,
  (1 / 1000 <= sigma_min)%R -> (sigma_min <= sigma' <= 18205 / 10000)%R -> Z.abs (Rfloor mu) <= 2147483000 ->
  exists th : nat -> Z -> Z,
    (forall z0 b, (z0 < 19)%nat -> b = 0 \/ b = 1 ->
       let x := ((IZR (zsigned z0 b) - (mu - IZR (Rfloor mu))) ^ 2 / (2 * sigma' ^ 2) - INR z0 ^ 2 / (2 * (18205 / 10000) ^ 2))%R in
       (0 <= x)%R /\ (Rabs (IZR (th z0 b) / 2 ^ 64 - sigma_min / sigma' * exp (- x)) <= / 2 ^ 48 * exp (- x) + / 2 ^ 63)%R) /\
    forall fuel g pos v pos', (forall i, byte (g i)) ->
      (samplerz RF fuel mu sigma' sigma_min g pos = Ok (v, pos') <->
       exists k z, (k <= fuel)%nat /\ rejection (fun z0 b t => t = th z0 b) g k pos z pos' /\ v = Rfloor mu + z).
Proof. exact samplerz_exact_spec. Qed.
Print Assumptions C42_exact.
(** No cast in samplerz is undefined in exact arithmetic. *)
Theorem C42_defined : forall (mu sigma' sigma_min : R) fuel g pos,
  (1 / 1000 <= sigma_min)%R -> (sigma_min <= sigma' <= 18205 / 10000)%R -> Z.abs (Rfloor mu) <= 2147483000 ->
  (forall i, byte (g i)) -> samplerz RF fuel mu sigma' sigma_min g pos <> UB.
Proof. exact samplerz_no_ub. Qed.
Print Assumptions C42_defined.
Example C42_sat : (1 / 1000 <= 1277833697 / 1000000000)%R /\ (1277833697 / 1000000000 <= 15 / 10 <= 18205 / 10000)%R /\
  Z.abs (Rfloor (-1 / 2)) <= 2147483000 /\ (forall i : nat, byte (Z.of_nat i mod 256)).
Proof.
  split; [lra|]. split; [lra|]. split; [rewrite (Rfloor_eq _ (-1)); [cbn; lia|lra]|]. intros i. unfold byte. apply Z.mod_pos_bound. lia.
Qed.

(** C43: the array variant reads outside its array: after one rejected attempt it copies ten more bytes
    without looking at the length.  For every mu, sigma' and floating point behaviour. *)
Theorem C43_in_bounds_refuted : exists rbytes : list Z, bytes rbytes /\ length rbytes = 19%nat /\
  forall (F : fops) fuel mu sigma' sigma_min, (2 <= fuel)%nat -> samplerz_arr F fuel mu sigma' sigma_min rbytes (length rbytes) = UB.
Proof. exact samplerz_arr_oob_ex. Qed.
Print Assumptions C43_in_bounds_refuted.
(** When the bytes run out exactly at the end of an attempt it returns 0, whatever mu is. *)
Theorem C43_silent_zero : exists rbytes : list Z, bytes rbytes /\ length rbytes = 11%nat /\
  forall (mu sigma' sigma_min : R) fuel, (1 <= fuel)%nat -> (1 / 1000 <= sigma_min)%R -> (sigma_min <= sigma' <= 18205 / 10000)%R ->
  samplerz_arr RF fuel mu sigma' sigma_min rbytes (length rbytes) = Ok (0, 11%nat).
Proof. exact samplerz_arr_zero_ex. Qed.
Print Assumptions C43_silent_zero.
