(** M_testg.v -- the test of splitting and merging polynomials in the FFT domain. *)
From Verif Require Import Base M_float M_fft.

Section Test.
Variable F : fops.
Variable ztab : list (D F * D F).
Notation C := (D F * D F)%type.

(** operator == on double (false on NaN, so it is <= in both directions), and on std::complex<double> (both components) *)
Definition feq (x y : D F) : bool := fle F x y && fle F y x.
Definition ceq (x y : C) : bool := feq (fst x) (fst y) && feq (snd x) (snd y).

(** tests/test_fft.cpp 77-90, split<lgn> *)
Definition csplit (lg : nat) (f f0 f1 : list C) : res (list C * list C) :=
  let hn := (2 ^ lg / 2)%nat in
  forn hn 0 (fun i '(f0, f1) => a <- rd f (2 * i) ;; f0 <- wr f0 i a ;; b <- rd f (2 * i + 1) ;; f1 <- wr f1 i b ;; Ok (f0, f1)) (f0, f1).

(** tests/test_fft.cpp 164-171, the loops that replace each entry by its rounded real part; the two halves, which the source rounds in one loop, are rounded one after the other *)
Definition round_re (n : nat) (v : list C) : res (list C) :=
  forn n 0 (fun i v => x <- rd v i ;; wr v i (cof F (fround F (fst x)))) v.

(** tests/test_fft.cpp 173-185, flg |= (u[i] != v[i]) for all i *)
Definition differ (n : nat) (u v : list C) : res bool :=
  forn n 0 (fun i flg => x <- rd u i ;; y <- rd v i ;; Ok (flg || negb (ceq x y))) false.

(** tests/test_fft.cpp 117-200, test_fft_split_merge<lgn> for the drawn coefficients; the answer says whether all three expectations hold.
    memcpy is a copy of the list; the malloc'ed arrays are fresh arrays (a failing malloc is not modelled). *)
Definition test_fft_split_merge (lg : nat) (draws : list Z) : res bool :=
  let n := (2 ^ lg)%nat in
  let hn := (2 ^ lg / 2)%nat in
  poly_f <- of_ints F lg draws ;;
  '(poly_f0, poly_f1) <- csplit lg poly_f (fresh F hn) (fresh F hn) ;;
  fft_f <- fft F ztab lg poly_f ;;
  '(fft_f0, fft_f1) <- split_fft F ztab lg fft_f (fresh F hn) (fresh F hn) ;;
  ifft_f0 <- ifft F ztab (lg - 1) fft_f0 ;;
  ifft_f1 <- ifft F ztab (lg - 1) fft_f1 ;;
  ifft_f <- merge_fft F ztab lg fft_f0 fft_f1 (fresh F n) ;;
  ifft_f <- ifft F ztab lg ifft_f ;;
  ifft_f0 <- round_re hn ifft_f0 ;;
  ifft_f1 <- round_re hn ifft_f1 ;;
  ifft_f <- round_re n ifft_f ;;
  flg0 <- differ hn ifft_f0 poly_f0 ;;
  flg1 <- differ hn ifft_f1 poly_f1 ;;
  flg2 <- differ n ifft_f poly_f ;;
  Ok (negb flg0 && negb flg1 && negb flg2).
End Test.
