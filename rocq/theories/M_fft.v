(** M_fft.v -- fft.hpp and the complex-valued routines of polynomial.hpp, parametric in the floating point
    operations (M_float.v).

    A complex number is a pair.  [ztab] is the table POWERS_OF_zeta (fft.hpp 55-1080), a parameter of the model:
    in the "exact arithmetic" theorems it is instantiated by the exact roots of unity (exact_table in SpecR.v), and the decimal
    literals of the source are compared with these in T_table.v.

    Arrays that C++ declares without initialiser are modelled as arrays filled with 0+0i ([fresh]); no theorem
    depends on that value.  A pointer argument p of a routine that touches exactly p[0..n-1] is modelled by cutting
    that slice out ([rds]) and writing the result back ([wrs]), both bounds-checked.  [at_sub f l off n] is an
    in-place call f(l + off) of a routine working on n cells. *)
From Verif Require Import Base M_float M_xform M_codec.
Open Scope nat_scope.

Definition at_sub {A} (f : list A -> res (list A)) (l : list A) (off n : nat) : res (list A) :=
  p <- rds l off n ;; p <- f p ;; wrs l off p.

Section Fft.
Variable F : fops.
Notation C := (D F * D F)%type.

(** std::complex<double> operators (standard library, component-wise) *)
Definition cof (x : D F) : C := (x, fofz F 0).
Definition c0 : C := (fofz F 0, fofz F 0).
Definition cadd (x y : C) : C := (fadd F (fst x) (fst y), fadd F (snd x) (snd y)).
Definition csub (x y : C) : C := (fsub F (fst x) (fst y), fsub F (snd x) (snd y)).
Definition cneg (x : C) : C := (fneg F (fst x), fneg F (snd x)).
Definition cconj (x : C) : C := (fst x, fneg F (snd x)).
(** complex times double *)
Definition cscal (x : C) (s : D F) : C := (fmul F (fst x) s, fmul F (snd x) s).
Definition fresh (n : nat) : list C := repeat c0 n.

Variable ztab : list C.

(** fft.hpp 1090-1115, fft<LOG2N>, in place *)
Definition fft (lg : nat) (vec : list C) : res (list C) := ct C (fcmul F) csub cadd ztab lg vec.

(** fft.hpp 1126-1157, ifft<LOG2N>, in place *)
Definition ifft (lg : nat) (vec : list C) : res (list C) :=
  let inv_n := fdiv F (fofz F 1) (fofz F (Z.of_nat (2 ^ lg))) in
  gs C cadd csub (fcmul F) (map cneg ztab) (fun x => cscal x inv_n) lg vec.

(** the literal 0.5 *)
Definition half : D F := flit F 5 1.

(** fft.hpp 1164-1181, split_fft<LOG2N> *)
Definition split_fft (lg : nat) (f f0 f1 : list C) : res (list C * list C) :=
  let hN := 2 ^ lg / 2 in
  forn hN 0 (fun i '(f0, f1) =>
    z <- rd ztab (hN + i) ;;
    a <- rd f (2 * i) ;; b <- rd f (2 * i + 1) ;;
    f0 <- wr f0 i (cscal (cadd a b) half) ;;
    f1 <- wr f1 i (fcmul F (cscal (csub a b) half) (cconj z)) ;;
    Ok (f0, f1)) (f0, f1).

(** fft.hpp 1188-1205, merge_fft<LOG2N> *)
Definition merge_fft (lg : nat) (f0 f1 f : list C) : res (list C) :=
  let hN := 2 ^ lg / 2 in
  forn hN 0 (fun i f =>
    z <- rd ztab (hN + i) ;;
    a <- rd f0 i ;; b <- rd f1 i ;;
    f <- wr f (2 * i + 0) (cadd a (fcmul F b z)) ;;
    wr f (2 * i + 1) (csub a (fcmul F b z))) f.

(** fft.hpp 1210-1220, adj_poly<LOG2N>, in place *)
Definition adj_poly (lg : nat) (poly : list C) : res (list C) := mapw cconj (2 ^ lg) poly.

(** polynomial.hpp 12-23, add *)
Definition cpoly_add (lg : nat) (a b c : list C) : res (list C) := zipw (fun x y => Ok (cadd x y)) (2 ^ lg) a b c.
(** polynomial.hpp 28-38, add_to, in place *)
Definition cpoly_add_to (lg : nat) (a b : list C) : res (list C) :=
  forn (2 ^ lg) 0 (fun i v => x <- rd v i ;; y <- rd b i ;; wr v i (cadd x y)) a.
(** polynomial.hpp 69-80, sub *)
Definition cpoly_sub (lg : nat) (a b c : list C) : res (list C) := zipw (fun x y => Ok (csub x y)) (2 ^ lg) a b c.
(** polynomial.hpp 84-95, mul *)
Definition cpoly_mul (lg : nat) (a b c : list C) : res (list C) := zipw (fun x y => Ok (fcmul F x y)) (2 ^ lg) a b c.
(** polynomial.hpp 134-145, div *)
Definition cpoly_div (lg : nat) (a b c : list C) : res (list C) := zipw (fun x y => Ok (fcdiv F x y)) (2 ^ lg) a b c.

(** ntru_gen.hpp 72-84, sqrd_norm of a coefficient vector *)
Definition sqrd_norm_d (lg : nat) (poly : list (D F)) : res (D F) :=
  forn (2 ^ lg) 0 (fun i r => x <- rd poly i ;; Ok (fadd F r (fmul F x x))) (fofz F 0).

(** ntru_gen.hpp 90-103, sqrd_norm of an FFT vector *)
Definition sqrd_norm_c (lg : nat) (poly : list C) : res (D F) :=
  r <- forn (2 ^ lg) 0 (fun i r => x <- rd poly i ;; Ok (cadd r (fcmul F x (cconj x)))) c0 ;;
  Ok (fdiv F (fst r) (fofz F (Z.of_nat (2 ^ lg)))).

(** loop converting an array of integers to complex numbers: x[i] = cmplx{ static_cast<double>(p[i]) } *)
Definition of_ints (lg : nat) (p : list Z) : res (list C) :=
  forn (2 ^ lg) 0 (fun i v => x <- rd p i ;; wr v i (cof (fofz F x))) (fresh (2 ^ lg)).
(** the same with a negation: cmplx{ -static_cast<double>(p[i]) } *)
Definition of_ints_neg (lg : nat) (p : list Z) : res (list C) :=
  forn (2 ^ lg) 0 (fun i v => x <- rd p i ;; wr v i (cof (fneg F (fofz F x)))) (fresh (2 ^ lg)).

End Fft.
