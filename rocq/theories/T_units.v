(** T_units.v -- claim C101: how many polynomials modulo q pass the invertibility test of key generation. *)
From Verif Require Import Base Spec M_ff M_ntt P_units P_nttx.
Open Scope Z_scope.

(** C101: the polynomials with N coefficients in [0, q) that is_poly_invertible accepts are exactly (q - 1)^N of the q^N *)
Theorem C101_count : forall lg, falcon_lg lg -> exists L, NoDup L /\
  (forall f, In f L <-> length f = (2 ^ lg)%nat /\ Forall canon f /\ is_poly_invertible lg f = Ok true) /\ Z.of_nat (length L) = (q - 1) ^ Z.of_nat (2 ^ lg).
Proof. exact units. Qed.
Print Assumptions C101_count.
(** which is at least the share 1 - N/q *)
Theorem C101_share : forall lg, falcon_lg lg -> (q - 2 ^ Z.of_nat lg) * q ^ 2 ^ Z.of_nat lg <= q * (q - 1) ^ 2 ^ Z.of_nat lg.
Proof. exact units_most. Qed.
Print Assumptions C101_share.
(** members and non-members of the list *)
Example C101_sat : falcon_lg 9 /\ length (2 :: repeat 0 511) = (2 ^ 9)%nat /\ Forall canon (2 :: repeat 0 511) /\ is_poly_invertible 9 (2 :: repeat 0 511) = Ok true /\
  Forall canon (repeat 0 512) /\ is_poly_invertible 9 (repeat 0 512) = Ok false.
Proof.
  destruct invertible_examples as [E1 E2]. split; [left; reflexivity|]. split; [reflexivity|]. split; [constructor; [split; reflexivity || discriminate|apply Forall_rep; split; reflexivity || discriminate]|].
  split; [exact E1|]. split; [apply Forall_rep; split; reflexivity || discriminate|exact E2].
Qed.
