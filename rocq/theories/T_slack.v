(** T_slack.v -- claim C93: how many readable bytes after the signature verification needs. *)
From Verif Require Import Base Spec SpecG SpecH M_ff M_codec M_sig M_verify P_ff P_ntt P_decomp P_comp P_sigx P_verifyx P_nttx P_blind P_forge P_slack.
Open Scope Z_scope.

(** C93: readable memory after the signature never changes an answer that was reached without it, whatever the length of the signature buffer *)
Theorem C93_more_memory : forall mo fuel xof lg pk msg e y b, verify mo fuel xof lg pk msg e = Ok b -> verify mo fuel xof lg pk msg (e ++ y) = Ok b.
Proof. exact verify_more. Qed.
Print Assumptions C93_more_memory.

(** C93: a signature that is accepted with some readable memory x after it is accepted with one readable byte after it, whatever that byte is *)
Theorem C93_one_enough : forall mo fuel xof lg pk msg e x b, falcon_lg lg -> length e = sig_bytes lg -> bytes e -> bytes x -> byte b ->
  verify mo fuel xof lg pk msg (e ++ x) = Ok true -> verify mo fuel xof lg pk msg (e ++ [b]) = Ok true.
Proof. exact verify_one. Qed.
Print Assumptions C93_one_enough.
(** a signature accepted for some hash, with two bytes after it *)
Example C93_one_sat : exists pk sig w, falcon_lg 9 /\ bytes pk /\ length pk = pkey_len 9 /\ bytes sig /\ (sig_bytes 9 + 2 <= length sig)%nat /\ bytes w /\ length w = (136 * 8)%nat /\
  accepted (verify Strict 8 (fun _ => stream w) 9 pk [] sig) = true.
Proof.
  destruct (zero_sig 9 (repeat 3%Z 40)) as (e & Le & Be & E0 & _ & H); [left; reflexivity|reflexivity|apply Forall_rep; unfold byte; lia|].
  destruct (H [0%Z; 0%Z]) as (A & _ & H0). exists (9%Z :: repeat 171%Z 896), (e ++ [0%Z; 0%Z]), (repeat 1%Z (136 * 8)).
  assert (B1 : bytes (9%Z :: repeat 171%Z 896)) by (apply Forall_cons; [unfold byte; lia|apply Forall_rep; unfold byte; lia]).
  assert (B2 : bytes (e ++ [0%Z; 0%Z])) by (apply Forall_app; split; [exact Be|repeat constructor; unfold byte; lia]).
  assert (B3 : bytes (repeat 1%Z (136 * 8))) by (apply Forall_rep; unfold byte; lia).
  assert (L2 : (sig_bytes 9 + 2 <= length (e ++ [0%Z; 0%Z]))%nat) by (rewrite app_length, Le; cbn [length]; lia).
  split; [left; reflexivity|]. split; [exact B1|]. split; [reflexivity|]. split; [exact B2|]. split; [exact L2|]. split; [exact B3|]. split; [apply repeat_length|].
  assert (HX : forall a : list Z, byte_stream ((fun _ => stream (repeat 1%Z (136 * 8))) a)) by (intros a; apply P_hash.stream_bytes; exact B3).
  destruct (verify_ok Strict 8 (fun _ => stream (repeat 1%Z (136 * 8))) 9 (9%Z :: repeat 171%Z 896) [] (e ++ [0%Z; 0%Z]) (or_introl eq_refl) HX B1 eq_refl B2 L2) as (_ & _ & _ & V).
  destruct (P_keys.pk_back 9 (9%Z :: repeat 171%Z 896) (repeat 0%Z (2 ^ 9)) (repeat 0%Z (pkey_len 9)) (or_introl eq_refl) eq_refl B1 (repeat_length _ _) (repeat_length _ _)) as [_ P2]. destruct (P2 eq_refl) as (h & Eh & _).
  rewrite (V h _ Eh H0 A).
  assert (EH : hash_to_point 8 (fun _ => stream (repeat 1%Z (136 * 8))) 9 (firstn 40 (skipn 1 (e ++ [0%Z; 0%Z]))) [] (repeat 0%Z (2 ^ 9)) = Ok (repeat 257%Z (2 ^ 9))) by (unfold hash_to_point; vm_compute; reflexivity).
  rewrite EH. cbn [bind]. rewrite vnorm_zero; [|apply repeat_length|apply Forall_rep; unfold canon, q; lia]. vm_compute. reflexivity.
Qed.

(** C93: but for a signature from elsewhere one byte is not enough: there are signature bytes on which verify, with one readable byte after them, reads outside that memory, for every
    message and every public key in the format of the library, while with two bytes or more it answers false *)
Theorem C93_two_needed : forall lg, falcon_lg lg -> exists e, length e = sig_bytes lg /\ bytes e /\
  forall mo fuel xof pk msg, bytes pk -> length pk = pkey_len lg -> nth 0 pk 0 = Z.of_nat lg ->
    (forall b, byte b -> verify mo fuel xof lg pk msg (e ++ [b]) = UB) /\
    (forall x, bytes x -> (2 <= length x)%nat -> verify mo fuel xof lg pk msg (e ++ x) = Ok false).
Proof. exact two_needed. Qed.
Print Assumptions C93_two_needed.
Example C93_two_sat : falcon_lg 9 /\ bytes (9 :: repeat 171 896) /\ length (9 :: repeat 171 896) = pkey_len 9 /\ nth 0 (9 :: repeat 171 896) 0 = Z.of_nat 9.
Proof. split; [left; reflexivity|]. split; [apply Forall_cons; [unfold byte; lia|apply Forall_rep; unfold byte; lia]|]. split; reflexivity. Qed.
