(** M_check.v -- model of tests/check_ntru_eq.hpp: the check of the NTRU equation that the tests of the library rely on. *)
From Verif Require Import Base M_ff M_fft M_float M_samp M_codec M_tree.

Section Check.
Variable F : fops.
Variable ztab : list (D F * D F).

(** check_ntru_eq.hpp 13-71, check_ntru_eq<N>.  The eight malloc'ed arrays are fresh arrays (a failing malloc is not modelled). *)
Definition check_ntru_eq (lg : nat) (f g F_ G_ : list Z) : res bool :=
  let N := 2 ^ lg in
  f' <- of_ints F lg f ;; g' <- of_ints F lg g ;; F' <- of_ints F lg F_ ;; G' <- of_ints F lg G_ ;;
  f' <- fft F ztab lg f' ;; g' <- fft F ztab lg g' ;; F' <- fft F ztab lg F' ;; G' <- fft F ztab lg G' ;;
  fG <- cpoly_mul F lg f' G' (fresh F N) ;;
  gF <- cpoly_mul F lg g' F' (fresh F N) ;;
  fGgF <- cpoly_sub F lg fG gF (fresh F N) ;;
  fGgF <- ifft F ztab lg fGgF ;;
  '(_, flg) <- forn N 0 (fun i '(rs, flg) =>
     x <- rd fGgF i ;;
     y <- to_i32 F (fround F (fst x)) ;;
     rs <- wr rs i y ;;
     Ok (rs, flg && (if Nat.eqb i 0 then (y =? Q)%Z else (y =? 0)%Z))) (repeat 0%Z N, true) ;;
  Ok flg.
End Check.
