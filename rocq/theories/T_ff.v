(** T_ff.v -- claims C01-C04: field arithmetic. *)
From Verif Require Import Base Spec M_ff P_ff.
Open Scope Z_scope.

(** C01 *)
Theorem C01_field_add_sub_neg :
  (forall v, 0 <= v < 2 ^ 16 -> ff v = v mod q) /\
  (forall a b, canon a -> canon b ->
     ff_add a b = (a + b) mod q /\ ff_addc a b = (a + b) mod q /\
     ff_sub a b = (a - b) mod q /\ ff_neg a = (- a) mod q).
Proof.
  exact (conj ff_correct (fun a b Ha Hb =>
    conj (ff_add_correct a b Ha Hb) (conj (ff_addc_correct a b Ha Hb)
      (conj (ff_sub_correct a b Ha Hb) (ff_neg_correct a Ha))))).
Qed.
Print Assumptions C01_field_add_sub_neg.
Example C01_sat : canon 12288 /\ canon 1 /\ ff_add 12288 1 = 0 /\ ff_sub 0 12288 = 1 /\ ff_neg 0 = 0.
Proof. unfold canon, q. repeat split; try reflexivity; discriminate. Qed.

(** C02 *)
Theorem C02_barrett_mul : forall a b, lt14 a -> lt14 b ->
  ff_mul a b = (a * b) mod q /\ ff_mulc a b = (a * b) mod q.
Proof. exact (fun a b Ha Hb => conj (ff_mul_correct a b Ha Hb) (ff_mulc_correct a b Ha Hb)). Qed.
Print Assumptions C02_barrett_mul.
Example C02_sat : lt14 16383 /\ ff_mul 16383 16383 = (16383 * 16383) mod q.
Proof. unfold lt14, q. repeat split; try reflexivity; discriminate. Qed.
(** The bound 2^14 matters: for arbitrary 16-bit operands the routine is wrong. *)
Theorem C02_full_range_refuted : exists a b, 0 <= a < 2 ^ 16 /\ 0 <= b < 2 ^ 16 /\ ff_mul a b <> (a * b) mod q.
Proof. exists 65535, 65535. vm_compute. intuition discriminate. Qed.
Print Assumptions C02_full_range_refuted.

(** C03 *)
Theorem C03_inverse_division :
  (forall x, canon x -> x <> 0 ->
     exists a b, xgcd16 x Q = Ok (a, b, 1) /\ a * x + b * q = 1 /\ Z.abs a < q) /\
  (forall a, canon a -> a <> 0 -> exists i, ff_inv a = Ok i /\ canon i /\ (a * i) mod q = 1) /\
  ff_inv 0 = Ok 0 /\
  (forall a b, canon a -> canon b -> b <> 0 ->
     exists c, ff_div a b = Ok c /\ canon c /\ (c * b) mod q = a
               /\ (forall c', canon c' -> (c' * b) mod q = a -> c' = c)) /\
  (forall a, canon a -> ff_div a 0 = Ok 0).
Proof.
  exact (conj xgcd16_correct (conj ff_inv_correct (conj ff_inv_0 (conj ff_div_correct ff_div_0)))).
Qed.
Print Assumptions C03_inverse_division.
Example C03_sat : canon 12288 /\ ff_inv 12288 = Ok 12288 /\ ff_div 5 7 = Ok 7023 /\ (7023 * 7) mod q = 5.
Proof. unfold canon, q. repeat split; try reflexivity; discriminate. Qed.

(** C04 *)
Theorem C04_power : forall a n, canon a -> 0 <= n < 2 ^ 64 -> ff_pow a n = (a ^ n) mod q.
Proof. exact (fun a n Ha Hn => ff_pow_correct a n Ha (proj1 Hn)). Qed.
Print Assumptions C04_power.
Example C04_sat : ff_pow 7 2048 = 1 /\ ff_pow 7 1024 = 12288 /\ ff_pow 49 0 = 1 /\ ff_pow 3 18446744073709551615 = 8193.
Proof. vm_compute. auto. Qed.

(** Comparison of canonical elements is equality (ff.hpp operator==), the shifts are not field
    multiplications by powers of two in general but are for l <= 2, random() is canonical. *)
Theorem ff_eq_iff : forall a b, canon a -> canon b -> ff_eq a b = true <-> a = b.
Proof. exact ff_eq_correct. Qed.
Print Assumptions ff_eq_iff.
Theorem ff_shl_is_mul_small : forall a l, canon a -> 0 <= l <= 2 -> ff_shl a l = Ok ((a * 2 ^ l) mod q).
Proof. exact ff_shl_exact. Qed.
Print Assumptions ff_shl_is_mul_small.
Theorem ff_shl_is_mul_refuted : exists a l, canon a /\ 0 <= l < 16 /\ exists r, ff_shl a l = Ok r /\ r <> (a * 2 ^ l) mod q.
Proof. exact ff_shl_not_mul. Qed.
Print Assumptions ff_shl_is_mul_refuted.
Theorem ff_random_in_range : forall draw, (forall i, 0 <= draw i < 2 ^ 16) -> canon (ff_random draw).
Proof. exact ff_random_canon. Qed.
Print Assumptions ff_random_in_range.
