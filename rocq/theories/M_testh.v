(** M_testh.v -- the test of multiplication and division of polynomials in the FFT domain. *)
From Verif Require Import Base M_float M_fft M_testg.

Section Test.
Variable F : fops.
Variable ztab : list (D F * D F).

(** tests/test_fft.cpp 11-65, test_fft<lgn> for the drawn coefficients of a and b; the answer says whether the expectation holds.
    memcpy is a copy of the list; the malloc'ed arrays are fresh arrays (a failing malloc is not modelled). *)
Definition test_fft (lg : nat) (draws_a draws_b : list Z) : res bool :=
  let n := (2 ^ lg)%nat in
  poly_a <- of_ints F lg draws_a ;;
  poly_b <- of_ints F lg draws_b ;;
  fft_a <- fft F ztab lg poly_a ;;
  fft_b <- fft F ztab lg poly_b ;;
  fft_c <- cpoly_mul F lg fft_a fft_b (fresh F n) ;;
  fft_d <- cpoly_div F lg fft_c fft_b (fresh F n) ;;
  poly_d <- ifft F ztab lg fft_d ;;
  poly_d <- round_re F n poly_d ;;
  flg <- differ F n poly_d poly_a ;;
  Ok (negb flg).
End Test.
