(** T_rand.v -- claim C99: the law of ff_t::random. *)
From Verif Require Import Base Spec SpecG M_ff P_rand.
From Coq Require Import Reals Lra.
Open Scope R_scope.

(** C99: when its 16-bit draws are uniformly random, random() returns each non-zero element with the same probability (1 - r)/q, and zero with that
    probability plus r, where r = (53247/65536)^1024 is the chance that all draws are rejected. *)
Theorem C99_random_law : forall v, canon v -> prob (2 * 2 ^ 10) (fun s => (ff_random (word16 (stream s)) =? v)%Z) =
  (1 - (53247 / 65536) ^ (2 ^ 10)) / 12289 + (if (v =? 0)%Z then (53247 / 65536) ^ (2 ^ 10) else 0).
Proof. exact random_law. Qed.
Print Assumptions C99_random_law.
(** and r is below 2^-256 *)
Theorem C99_rest : (53247 / 65536) ^ (2 ^ 10) < / 2 ^ 256.
Proof. exact rest_small. Qed.
Print Assumptions C99_rest.
Example C99_sat : canon 0 /\ canon 12288 /\ ff_random (word16 (stream [255; 255; 48; 0; 7; 7]%Z)) = 12288%Z.
Proof. split; [split; reflexivity || discriminate|]. split; [split; reflexivity || discriminate|reflexivity]. Qed.
