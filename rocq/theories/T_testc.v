(** T_testc.v -- claim C108: the end of the test of compressing signatures. *)
From Verif Require Import Base Spec M_ff M_codec M_sig P_sig P_nttx P_sigx P_decomp P_comp M_testc P_testc.
Open Scope Z_scope.

(** C108: a round of the test SignatureCompression draws again if the vector's encoding is too long; otherwise it passes exactly if all coefficients are below 1024 in
    absolute value; vectors with an encoding of more than 14 bits a coefficient make it write outside the encoder's buffer. *)
Theorem C108_passes : forall lg s2 sig x (dec : list Z), falcon_lg lg -> length s2 = (2 ^ lg)%nat -> length sig = sig_bytes lg -> bytes sig -> bytes x -> (2 <= length x)%nat -> length dec = (2 ^ lg)%nat ->
  (body_len lg <= tot s2 <= 14 * 2 ^ Z.of_nat lg -> test_sig_compression lg s2 sig x dec = Ok None) /\
  (tot s2 < body_len lg -> exists b, test_sig_compression lg s2 sig x dec = Ok (Some b) /\ (b = true <-> Forall (fun c => Z.abs c <= 1023) s2)) /\
  (14 * 2 ^ Z.of_nat lg < tot s2 -> test_sig_compression lg s2 sig x dec = UB).
Proof. exact test_sigc_ok. Qed.
Print Assumptions C108_passes.
(** The bound on the norm, which the test checks before, does not make it pass. *)
Theorem C108_short_vectors_refuted : forall lg sig x (dec : list Z), falcon_lg lg -> length sig = sig_bytes lg -> bytes sig -> bytes x -> (2 <= length x)%nat -> length dec = (2 ^ lg)%nat ->
  exists s2, length s2 = (2 ^ lg)%nat /\ sqnorm s2 <= beta2 lg /\ test_sig_compression lg s2 sig x dec = Ok (Some false).
Proof. exact test_sigc_fails. Qed.
Print Assumptions C108_short_vectors_refuted.
(** all three cases occur *)
Example C108_sat : tot (repeat (-3) 512) < body_len 9 /\ body_len 9 <= tot (repeat 300 512) <= 14 * 2 ^ Z.of_nat 9 /\ 14 * 2 ^ Z.of_nat 9 < tot (repeat 1000 512) /\
  test_sig_compression 9 (repeat (-3) 512) (repeat 1 666) [5; 6] (repeat 7 512) = Ok (Some true).
Proof. split; [vm_compute; reflexivity|]. split; [vm_compute; split; discriminate|]. split; vm_compute; reflexivity. Qed.
