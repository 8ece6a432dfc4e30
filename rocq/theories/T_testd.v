(** T_testd.v -- claim C107: the test of decompressing random bytes. *)
From Verif Require Import Base Spec M_ff M_codec M_sig P_sig P_nttx P_sigx P_decomp P_comp M_testd P_testd.
Open Scope Z_scope.

(** C107: with two readable bytes after its buffer, the test SignatureDecompression ends, and passes exactly if the random bytes encode no vector, or encode it with
    code words of at most 16 bits, the remaining bits being 0. *)
Theorem C107_passes : forall lg sig0 x (sig1 s2 : list Z), falcon_lg lg -> length sig0 = sig_bytes lg -> bytes sig0 -> bytes x -> (2 <= length x)%nat ->
  length sig1 = sig_bytes lg -> length s2 = (2 ^ lg)%nat ->
  exists b, test_sig_decompression lg (sig0 ++ x) sig1 s2 = Ok b /\
    (b = true <-> forall s, accepts lg sig0 s -> exists ws z, Forall2 short_codeword ws s /\ body_bits lg sig0 = concat ws ++ repeat false z).
Proof. exact test_sigd_ok. Qed.
Print Assumptions C107_passes.
(** It does not pass for all random bytes: some decompress to a vector that is compressed to other bytes. *)
Theorem C107_all_bytes_refuted : forall lg (sig1 s2 x : list Z), falcon_lg lg -> length sig1 = sig_bytes lg -> length s2 = (2 ^ lg)%nat -> bytes x -> (2 <= length x)%nat ->
  exists sig0, length sig0 = sig_bytes lg /\ bytes sig0 /\ test_sig_decompression lg (sig0 ++ x) sig1 s2 = Ok false.
Proof. exact test_sigd_fails. Qed.
Print Assumptions C107_all_bytes_refuted.
(** And for some random bytes it reads outside the buffer it has allocated. *)
Theorem C107_in_bounds_refuted : forall lg (sig1 s2 : list Z), falcon_lg lg -> length s2 = (2 ^ lg)%nat ->
  exists sig0, length sig0 = sig_bytes lg /\ bytes sig0 /\ test_sig_decompression lg sig0 sig1 s2 = UB.
Proof. exact test_sigd_oob. Qed.
Print Assumptions C107_in_bounds_refuted.
(** the test also passes having decompressed something: bytes that compression produced *)
Definition zeros_sig : list Z := repeat 3 41 ++ concat (repeat [0; 128; 64; 32; 16; 8; 4; 2; 1] 64) ++ repeat 0 49.
Example C107_sat : length zeros_sig = 666%nat /\ decompress_sig 9 (zeros_sig ++ [0; 0]) (repeat 7 512) = Ok (true, repeat 0 512) /\
  test_sig_decompression 9 (zeros_sig ++ [0; 0]) (repeat 5 666) (repeat 7 512) = Ok true.
Proof. split; [reflexivity|]. split; vm_compute; reflexivity. Qed.
