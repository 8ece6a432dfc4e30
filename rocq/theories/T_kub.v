(** T_kub.v -- claim C76: key generation is not free of undefined behaviour in binary64 arithmetic (refuted). *)
From Verif Require Import Base Spec SpecG SpecK M_float M_ieee M_table M_ntru M_tree P_kubx.
From Coq Require Import Reals.
Open Scope R_scope.

(** C76 (refuted): for N = 512 some random bytes lead keygen to undefined behaviour: they draw f = 1 + x^256 and g = 79 - 65 x^128 - 66 x^256 - 39 x^384, which pass
    both tests of ntru_gen; in the reduction of the fourth-degree step of ntru_solve the quotient is 0 / 0 at one point and a NaN is converted to an integer. *)
Theorem C76_keygen_defined_refuted : forall fuel pkey skey, exists sfuel rng, byte_stream rng /\ keygen_bytes F64 (source_table F64) (S fuel) sfuel 9 pkey skey rng = UB.
Proof. exact keygen_ub. Qed.
Print Assumptions C76_keygen_defined_refuted.

(** on uniformly random bytes this happens with positive probability, already in the first pass of ntru_gen's loop *)
Theorem C76_probability : exists sfuel n, forall fuel pkey skey, 0 < prob n (fun w => undefined (keygen_bytes F64 (source_table F64) (S fuel) sfuel 9 pkey skey (stream w))).
Proof. exact keygen_ub_prob. Qed.
Print Assumptions C76_probability.
