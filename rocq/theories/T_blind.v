(** T_blind.v -- claims C87 and C88: a signature that does not depend on the hash, when the output of the hash function is uniformly random.
    [prob n P] is the share of the byte strings of length n that satisfy P; [stream w] continues a byte string by zeros.  The hash reads its
    output in blocks of 136 bytes, at most k of them. *)
From Verif Require Import Base Spec SpecG SpecH M_ff M_codec M_sig M_verify P_ff P_ntt P_decomp P_comp P_sigx P_verifyx P_nttx P_blind P_forge.
From Coq Require Import Reals Lra.
Open Scope R_scope.

(** C87: without overflow, whatever the key, the message and the signature bytes *)
Theorem C87_guess_rejected : forall lg pk msg sig k, falcon_lg lg -> bytes pk -> length pk = pkey_len lg -> bytes sig -> (sig_bytes lg + 2 <= length sig)%nat ->
  prob (136 * k) (fun w => accepted (verify Strict k (fun _ => stream w) lg pk msg sig)) <= (1 / 11) ^ 2 ^ lg.
Proof. exact strict_blind. Qed.
Print Assumptions C87_guess_rejected.
(** a signature that is accepted for some hash *)
Example C87_sat : exists pk sig w, falcon_lg 9 /\ bytes pk /\ length pk = pkey_len 9 /\ bytes sig /\ (sig_bytes 9 + 2 <= length sig)%nat /\ bytes w /\ length w = (136 * 8)%nat /\
  accepted (verify Strict 8 (fun _ => stream w) 9 pk [] sig) = true.
Proof.
  destruct (zero_sig 9 (repeat 3%Z 40)) as (e & Le & Be & E0 & _ & H); [left; reflexivity|reflexivity|apply Forall_rep; unfold byte; lia|].
  destruct (H [0%Z; 0%Z]) as (A & _ & H0). exists (9%Z :: repeat 171%Z 896), (e ++ [0%Z; 0%Z]), (repeat 1%Z (136 * 8)).
  assert (B1 : bytes (9%Z :: repeat 171%Z 896)) by (apply Forall_cons; [unfold byte; lia|apply Forall_rep; unfold byte; lia]).
  assert (B2 : bytes (e ++ [0%Z; 0%Z])) by (apply Forall_app; split; [exact Be|repeat constructor; unfold byte; lia]).
  assert (B3 : bytes (repeat 1%Z (136 * 8))) by (apply Forall_rep; unfold byte; lia).
  assert (L2 : (sig_bytes 9 + 2 <= length (e ++ [0%Z; 0%Z]))%nat) by (rewrite app_length, Le; cbn [length]; lia).
  split; [left; reflexivity|]. split; [exact B1|]. split; [reflexivity|]. split; [exact B2|]. split; [exact L2|]. split; [exact B3|]. split; [apply repeat_length|].
  assert (HX : forall a : list Z, byte_stream ((fun _ => stream (repeat 1%Z (136 * 8))) a)) by (intros a; apply P_hash.stream_bytes; exact B3).
  destruct (verify_ok Strict 8 (fun _ => stream (repeat 1%Z (136 * 8))) 9 (9%Z :: repeat 171%Z 896) [] (e ++ [0%Z; 0%Z]) (or_introl eq_refl) HX B1 eq_refl B2 L2) as (_ & _ & _ & V).
  destruct (P_keys.pk_back 9 (9%Z :: repeat 171%Z 896) (repeat 0%Z (2 ^ 9)) (repeat 0%Z (pkey_len 9)) (or_introl eq_refl) eq_refl B1 (repeat_length _ _) (repeat_length _ _)) as [_ P2]. destruct (P2 eq_refl) as (h & Eh & _).
  rewrite (V h _ Eh H0 A).
  assert (EH : hash_to_point 8 (fun _ => stream (repeat 1%Z (136 * 8))) 9 (firstn 40 (skipn 1 (e ++ [0%Z; 0%Z]))) [] (repeat 0%Z (2 ^ 9)) = Ok (repeat 257%Z (2 ^ 9))) by (unfold hash_to_point; vm_compute; reflexivity).
  rewrite EH. cbn [bind]. rewrite vnorm_zero; [|apply repeat_length|apply Forall_rep; unfold canon, q; lia]. vm_compute. reflexivity.
Qed.

(** C88 (expected property fails): the build of the library adds the squared norm in a 32-bit integer.  With wrap-around there are, for each
    parameter set, signature bytes computed without any key that verification accepts, for every public key, every message and every salt, with
    probability at least 1/21 (Falcon-512), 1/140 (Falcon-1024). *)
Theorem C88_guess_rejected_refuted : forall lg, falcon_lg lg -> exists body, length body = (sig_bytes lg - 41)%nat /\ bytes body /\ forall pk msg salt x k,
  bytes pk -> length pk = pkey_len lg -> nth 0 pk 0%Z = Z.of_nat lg -> bytes salt -> length salt = 40%nat -> bytes x -> (2 <= length x)%nat -> (64 <= k)%nat ->
  (if Nat.eqb lg 9 then 1 / 21 else 1 / 140) <= prob (136 * k) (fun w => accepted (verify Wrap k (fun _ => stream w) lg pk msg ((48 + Z.of_nat lg)%Z :: salt ++ body ++ x))).
Proof. exact wrap_blind. Qed.
Print Assumptions C88_guess_rejected_refuted.
(** trying j salts, with independent hash outputs: the i-th run reads the i-th piece of w *)
Theorem C88_tries : forall lg, falcon_lg lg -> exists body, length body = (sig_bytes lg - 41)%nat /\ bytes body /\ forall pk msg x k (salt : nat -> list Z) j,
  bytes pk -> length pk = pkey_len lg -> nth 0 pk 0%Z = Z.of_nat lg -> (forall i, bytes (salt i) /\ length (salt i) = 40%nat) -> bytes x -> (2 <= length x)%nat -> (64 <= k)%nat ->
  1 - (1 - (if Nat.eqb lg 9 then 1 / 21 else 1 / 140)) ^ j <=
  prob (136 * k * j) (fun w => existsb (fun i => accepted (verify Wrap k (fun _ => stream (firstn (136 * k) (skipn (136 * k * i) w))) lg pk msg ((48 + Z.of_nat lg)%Z :: salt i ++ body ++ x))) (seq 0 j)).
Proof. exact wrap_tries. Qed.
Print Assumptions C88_tries.
(** forty attempts already succeed more often than not for Falcon-512 *)
Example C88_sat : falcon_lg 9 /\ bytes (9%Z :: repeat 171%Z 896) /\ length (9%Z :: repeat 171%Z 896) = pkey_len 9 /\ (forall i : nat, bytes (repeat (Z.of_nat i mod 256)%Z 40) /\ length (repeat (Z.of_nat i mod 256)%Z 40) = 40%nat) /\
  1 / 2 < 1 - (1 - 1 / 21) ^ 40.
Proof.
  split; [left; reflexivity|]. split; [apply Forall_cons; [unfold byte; lia|apply Forall_rep; unfold byte; lia]|]. split; [reflexivity|]. split.
  - intros i. split; [apply Forall_rep; unfold byte; apply Z.mod_pos_bound; lia|apply repeat_length].
  - assert (A : (1 - 1 / 21) ^ 8 <= 7 / 10) by lra. assert (B : ((1 - 1 / 21) ^ 8) ^ 5 <= (7 / 10) ^ 5) by (apply pow_incr; split; [apply pow_le; lra|exact A]). rewrite <- pow_mult in B. cbn [Nat.mul Nat.add] in B. lra.
Qed.
