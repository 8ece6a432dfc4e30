(** T_coll.v -- claim C96: two different accepted signatures with one salt and message give a short vector of the lattice of the public key. *)
From Verif Require Import Base Spec SpecT SpecV SpecX SpecR SpecG SpecJ SpecM M_ff M_codec M_sig M_verify P_verifyx P_coll.
Open Scope Z_scope.

(** C96: take two signatures with the same salt, both accepted for one message and one public key h, whose bodies stand for different vectors.  The difference of the two pairs of vectors which
    verify forms is a non-zero pair (u1, u2) with u1 + u2 h = 0 modulo q, of squared length at most four times the bound of verify. *)
Theorem C96_two_signatures : forall xof lg pk msg sig sig' h s2 s2', falcon_lg lg -> (forall a, byte_stream (xof a)) -> bytes pk -> length pk = pkey_len lg ->
  bytes sig -> (sig_bytes lg + 2 <= length sig)%nat -> bytes sig' -> (sig_bytes lg + 2 <= length sig')%nat -> decode_pkey lg pk (repeat 0 (2 ^ lg)) = Ok (true, h) ->
  firstn 40 (skipn 1 sig) = firstn 40 (skipn 1 sig') -> (exists fuel, verify Strict fuel xof lg pk msg sig = Ok true) -> (exists fuel, verify Strict fuel xof lg pk msg sig' = Ok true) ->
  decompress_sig lg sig (repeat 0 (2 ^ lg)) = Ok (true, s2) -> decompress_sig lg sig' (repeat 0 (2 ^ lg)) = Ok (true, s2') -> s2 <> s2' ->
  exists c, hashed (xof (firstn 40 (skipn 1 sig) ++ msg)) lg c /\
    let v := signed_vector lg h c s2 in let v' := signed_vector lg h c s2' in short_vector lg h (psub (2 ^ lg) (fst v) (fst v'), psub (2 ^ lg) (snd v) (snd v')) = true.
Proof. exact two_signatures. Qed.
Print Assumptions C96_two_signatures.

(** two accepted signatures with one salt, for a hash function with constant output and the public key 0 *)
Example C96_sat : exists pk h sig sig' s2 s2', bytes pk /\ length pk = pkey_len 9 /\ bytes sig /\ (sig_bytes 9 + 2 <= length sig)%nat /\ bytes sig' /\ (sig_bytes 9 + 2 <= length sig')%nat /\
  decode_pkey 9 pk (repeat 0 512) = Ok (true, h) /\ firstn 40 (skipn 1 sig) = firstn 40 (skipn 1 sig') /\
  (exists fuel, verify Strict fuel (const_xof 7) 9 pk [] sig = Ok true) /\ (exists fuel, verify Strict fuel (const_xof 7) 9 pk [] sig' = Ok true) /\
  decompress_sig 9 sig (repeat 0 512) = Ok (true, s2) /\ decompress_sig 9 sig' (repeat 0 512) = Ok (true, s2') /\ s2 <> s2'.
Proof. exact two_example. Qed.
