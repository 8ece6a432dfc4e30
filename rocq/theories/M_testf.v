(** M_testf.v -- the tests of the field arithmetic and of the number theoretic transform. *)
From Verif Require Import Base M_ff M_ntt.
Open Scope Z_scope.

(** tests/test_ff.cpp 45-48: n times res = res * a *)
Fixpoint mul_times (n : nat) (a res : Z) : Z := match n with O => res | S n' => mul_times n' a (ff_mul res a) end.

(** tests/test_ff.cpp 17-51, one round of the test ArithmeticOverZq for the drawn elements a, b and the drawn exponent; the answer says whether all four expectations hold *)
Definition test_ff_round (a b : Z) (exp : nat) : res bool :=
  let c := ff_sub a b in
  let d := ff_neg b in
  let e := ff_add a d in
  let e1 := ff_eq c e in
  let f := ff_mul a b in
  g <- ff_div f b ;;
  let e2 := if ff_eq b ff_zero then ff_eq g ff_zero else ff_eq g a in
  h <- ff_inv a ;;
  let k := ff_mul h a in
  let e3 := if ff_eq a ff_zero then ff_eq k ff_zero else ff_eq k ff_one in
  let l := ff_pow a (Z.of_nat exp) in
  let e4 := ff_eq (mul_times exp a ff_one) l in
  Ok (e1 && e2 && e3 && e4).

(** tests/test_ntt.cpp 27-59, one pass of the loop of test_ntt<lgn> for the drawn polynomials: None is continue, Some flg is the break with flg *)
Definition test_ntt_pass (lg : nat) (poly_a poly_b : list Z) : res (option bool) :=
  let n := (2 ^ lg)%nat in
  ntt_a <- ntt lg poly_a ;;
  ntt_b <- ntt lg poly_b ;;
  can_invert <- forn n 0 (fun i flg => x <- rd ntt_b i ;; Ok (flg && negb (x =? 0))) true ;;
  if negb can_invert then Ok None
  else
    ntt_c <- poly_mul lg ntt_a ntt_b (repeat 0 n) ;;
    ntt_d <- poly_div lg ntt_c ntt_b (repeat 0 n) ;;
    poly_d <- intt lg ntt_d ;;
    flg <- forn n 0 (fun i flg => x <- rd poly_d i ;; y <- rd poly_a i ;; Ok (flg || negb (Z.lxor x y =? 0))) false ;;
    Ok (Some flg).

(** tests/test_ntt.cpp 26-69, test_ntt<lgn>: EXPECT_FALSE(flg); draws j are the polynomials of pass j, fuel replaces the unbounded while *)
Fixpoint test_ntt (fuel lg : nat) (draws : nat -> list Z * list Z) (j : nat) : res bool :=
  match fuel with
  | O => Fuel
  | S fuel' =>
    r <- test_ntt_pass lg (fst (draws j)) (snd (draws j)) ;;
    match r with None => test_ntt fuel' lg draws (S j) | Some flg => Ok (negb flg) end
  end.
