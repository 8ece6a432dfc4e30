(** M_testd.v -- the test of decompressing random bytes. *)
From Verif Require Import Base M_ff M_codec M_sig.
Open Scope Z_scope.

(** tests/test_encoding.cpp 244-281, test_sig_decompression<N>: sig0 holds the random bytes (and what memory follows them), sig1 and s2 what the malloc'ed arrays held.
    The answer says whether all expectations that are reached hold. *)
Definition test_sig_decompression (lg : nat) (sig0 sig1 s2 : list Z) : res bool :=
  '(decompressed, s2) <- decompress_sig lg sig0 s2 ;;
  if decompressed then
    '(compressed, sig1) <- compress_sig lg s2 sig1 ;;
    matches <- forn (sig_len lg - 41) 41 (fun i matches => x <- rd sig0 i ;; y <- rd sig1 i ;; Ok (matches && (x =? y))) true ;;
    Ok (compressed && matches)
  else Ok true.
