(** M_test.v -- the loop of the end-to-end test of signing. *)
From Verif Require Import Base M_sig M_verify M_float M_samp M_fft M_ntru M_tree.

(** tests/test_signing.cpp 30-39, the loop of test_keygen_sign_verify<N>, with r rounds left.  msgs i is the message, xofs i the extendable-output function and rngs i the generator inside
    sign of the round after which i rounds are left.  The buffer sig is used again in every round, as it was left.  The result says whether every expectation held; a read outside a buffer is UB *)
Fixpoint test_rounds (F : fops) (ztab : list (D F * D F)) (mode : ovf) (fuel sfuel lg : nat) (pkey skey : list Z) (msgs : nat -> list Z) (xofs : nat -> xof_t) (rngs : nat -> rng_t) (r : nat) (sig : list Z) : res bool :=
  match r with
  | O => Ok true
  | S r' =>
    '(signed, sig) <- sign F ztab fuel sfuel (xofs r') lg skey (msgs r') sig (rngs r') ;;
    verified <- verify mode sfuel (xofs r') lg pkey (msgs r') sig ;;
    rest <- test_rounds F ztab mode fuel sfuel lg pkey skey msgs xofs rngs r' sig ;;
    Ok (signed && verified && rest)
  end.
