(** T_ntt.v -- claims C05-C09: number-theoretic transform, invertibility test, public key. *)
From Verif Require Import Base Spec M_ff M_ntt P_ntt P_nttx.
Open Scope Z_scope.

(** C05: forward transform evaluates at the odd powers of a primitive 2N-th root of unity.
    The roots are the right ones: point^N = -1 (so 2N-th roots), pairwise distinct. *)
Theorem C05_ntt_evaluates : forall lg a, falcon_lg lg -> length a = (2 ^ lg)%nat -> Forall lt14 a ->
  exists y, ntt lg a = Ok y /\ length y = (2 ^ lg)%nat /\ Forall lt14 y /\
    (forall p, (p < 2 ^ lg)%nat -> (nth p y 0) mod q = evalq (2 ^ lg) a (point lg p)) /\
    (Forall canon a -> forall p, (p < 2 ^ lg)%nat -> nth p y 0 = evalq (2 ^ lg) a (point lg p)).
Proof. exact ntt_spec. Qed.
Print Assumptions C05_ntt_evaluates.
Theorem C05_points_are_roots : forall lg, falcon_lg lg ->
  (forall p, (p < 2 ^ lg)%nat -> (point lg p ^ Z.of_nat (2 ^ lg)) mod q = (- 1) mod q) /\
  (forall p p', (p < 2 ^ lg)%nat -> (p' < 2 ^ lg)%nat -> (point lg p) mod q = (point lg p') mod q -> p = p').
Proof. exact points_spec. Qed.
Print Assumptions C05_points_are_roots.
Example C05_sat : falcon_lg 9 /\ length (repeat 16383 512) = (2 ^ 9)%nat /\ Forall lt14 (repeat 16383 512).
Proof. split; [left; reflexivity|]. split; [reflexivity|]. apply Forall_rep. unfold lt14; lia. Qed.

(** C06 *)
Theorem C06_ntt_intt_inverse : forall lg a, falcon_lg lg -> length a = (2 ^ lg)%nat -> Forall canon a ->
  (exists y, ntt lg a = Ok y /\ length y = (2 ^ lg)%nat /\ Forall canon y /\ intt lg y = Ok a) /\
  (exists b, intt lg a = Ok b /\ length b = (2 ^ lg)%nat /\ Forall canon b /\ ntt lg b = Ok a).
Proof. exact (fun lg a H1 H2 H3 => conj (intt_ntt lg a H1 H2 H3) (ntt_intt lg a H1 H2 H3)). Qed.
Print Assumptions C06_ntt_intt_inverse.
Example C06_sat : falcon_lg 10 /\ length (repeat 12288 1024) = (2 ^ 10)%nat /\ Forall canon (repeat 12288 1024).
Proof. split; [right; reflexivity|]. split; [vm_compute; reflexivity|]. apply Forall_rep. unfold canon, q; lia. Qed.

(** C07 *)
Theorem C07_ntt_product : forall lg a b c, falcon_lg lg ->
  length a = (2 ^ lg)%nat -> length b = (2 ^ lg)%nat -> length c = (2 ^ lg)%nat -> Forall lt14 a -> Forall lt14 b ->
  (ya <- ntt lg a ;; yb <- ntt lg b ;; yc <- poly_mul lg ya yb c ;; intt lg yc)
  = Ok (modq (negacyclic (2 ^ lg) a b)).
Proof. exact ntt_product. Qed.
Print Assumptions C07_ntt_product.
Example C07_sat : negacyclic 4 [1; 2; 3; 4] [0; 0; 0; 1] = [-2; -3; -4; 1] /\
  (falcon_lg 9 /\ length (repeat 16383 512) = (2 ^ 9)%nat /\ Forall lt14 (repeat 16383 512)).
Proof. split; [reflexivity|exact C05_sat]. Qed.

(** C08 *)
Theorem C08_invertibility_test : forall lg f, falcon_lg lg -> length f = (2 ^ lg)%nat -> Forall smallq f ->
  exists b, is_poly_invertible lg f = Ok b /\
   (b = true <-> exists g, length g = (2 ^ lg)%nat /\ modq (negacyclic (2 ^ lg) f g) = onep (2 ^ lg)).
Proof. exact is_poly_invertible_spec. Qed.
Print Assumptions C08_invertibility_test.
(** Both answers occur. *)
Example C08_sat : is_poly_invertible 9 (2 :: repeat 0 511) = Ok true /\ is_poly_invertible 9 (repeat 0 512) = Ok false.
Proof. exact invertible_examples. Qed.

(** C09 *)
Theorem C09_public_key : forall lg f g h0, falcon_lg lg ->
  length f = (2 ^ lg)%nat -> length g = (2 ^ lg)%nat -> length h0 = (2 ^ lg)%nat ->
  Forall smallq f -> Forall smallq g -> is_poly_invertible lg f = Ok true ->
  exists h, compute_public_key lg f g h0 = Ok h /\ length h = (2 ^ lg)%nat /\ Forall canon h /\
    modq (negacyclic (2 ^ lg) h f) = modq g /\
    (forall h', length h' = (2 ^ lg)%nat -> Forall canon h' -> modq (negacyclic (2 ^ lg) h' f) = modq g -> h' = h).
Proof. exact public_key_spec. Qed.
Print Assumptions C09_public_key.
Example C09_sat : is_poly_invertible 9 (2 :: repeat 0 511) = Ok true /\ Forall smallq (2 :: repeat 0 511) /\
  Forall smallq (1 :: -4 :: repeat 0 510).
Proof.
  split; [exact (proj1 C08_sat)|]. unfold smallq, q.
  split; [constructor; [lia|apply Forall_rep; lia]|constructor; [lia|constructor; [lia|apply Forall_rep; lia]]].
Qed.
