(** M_testc.v -- the end of the test of compressing signatures. *)
From Verif Require Import Base M_ff M_codec M_sig.
Open Scope Z_scope.

(** tests/test_encoding.cpp 191-207 and 229-230, test_sig_compression<N>: one round of its loop from the compression of s2 on, and what follows the loop.
    The sampled s2 is an argument, sig and dec_s2 are what the malloc'ed arrays held, x is the memory behind sig.
    None says that s2 is not compressed and the loop goes on; Some b says whether both expectations hold. *)
Definition test_sig_compression (lg : nat) (s2 sig x dec_s2 : list Z) : res (option bool) :=
  '(compressed, sig) <- compress_sig lg s2 sig ;;
  if compressed then
    '(decompressed, dec_s2) <- decompress_sig lg (sig ++ x) dec_s2 ;;
    matches <- forn (2 ^ lg) 0 (fun i matches => a <- rd s2 i ;; b <- rd dec_s2 i ;; Ok (matches && (a =? b))) true ;;
    Ok (Some (decompressed && matches))
  else Ok None.
