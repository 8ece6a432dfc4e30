(** T_hash.v -- the law of hash_to_point on uniformly random bytes. *)
From Verif Require Import Base Spec SpecG SpecH M_ff M_verify P_hash.
From Coq Require Import Reals Lra.
Open Scope R_scope.

(** C83: when the output of the extendable-output function is uniformly random, every polynomial with N coefficients in
    [0, q) is the hash with the same probability, P(end) / q^N; and within k blocks hash_to_point ends with probability at
    least 1 - 16^N / 8^(68 k). *)
Theorem C83_uniform : forall lg salt msg poly k c, length poly = (2 ^ lg)%nat -> length c = (2 ^ lg)%nat -> Forall canon c ->
  prob (136 * k) (fun w => hashes_to (hash_to_point k (fun _ => stream w) lg salt msg poly) c) =
  prob (136 * k) (fun w => done (hash_to_point k (fun _ => stream w) lg salt msg poly)) / 12289 ^ 2 ^ lg /\
  1 - 16 ^ 2 ^ lg / 8 ^ (68 * k) <= prob (136 * k) (fun w => done (hash_to_point k (fun _ => stream w) lg salt msg poly)).
Proof. exact hash_law. Qed.
Print Assumptions C83_uniform.
Example C83_sat : length (repeat 0%Z (2 ^ 9)) = (2 ^ 9)%nat /\ Forall canon (tab (2 ^ 9) (fun i => (24 * Z.of_nat i)%Z)) /\
  length (tab (2 ^ 9) (fun i => (24 * Z.of_nat i)%Z)) = (2 ^ 9)%nat /\ 16 ^ 2 ^ 9 / 8 ^ (68 * 12) < / 2 ^ 64.
Proof.
  split; [reflexivity|]. split.
  - apply Forall_forall. intros x Hx. unfold tab in Hx. apply in_map_iff in Hx. destruct Hx as (i & <- & Hi). apply in_seq in Hi. unfold canon.
    change (2 ^ 9)%nat with 512%nat in Hi. change q with 12289%Z. lia.
  - split; [unfold tab; rewrite map_length, seq_length; reflexivity|].
    replace 16 with (2 ^ 4) by (cbn; lra). replace 8 with (2 ^ 3) by (cbn; lra). rewrite <- !pow_mult.
    change (2 ^ 9)%nat with 512%nat. replace (3 * (68 * 12))%nat with (4 * 512 + (64 + 336))%nat by reflexivity. rewrite !pow_add.
    set (a := 2 ^ (4 * 512)). assert (Ha : 0 < a) by (apply pow_lt; lra). assert (Hb : 0 < 2 ^ 64) by (apply pow_lt; lra).
    assert (Hc : 1 < 2 ^ 336) by (apply Rlt_pow_R1; [lra|lia]).
    replace (a / (a * (2 ^ 64 * 2 ^ 336))) with (/ 2 ^ 64 * / 2 ^ 336) by (field; lra).
    rewrite <- (Rmult_1_r (/ 2 ^ 64)) at 2. apply Rmult_lt_compat_l; [apply Rinv_0_lt_compat; exact Hb|]. rewrite <- Rinv_1. apply Rinv_lt_contravar; lra.
Qed.
