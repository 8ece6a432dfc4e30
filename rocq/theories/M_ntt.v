(** M_ntt.v -- model of include/ntt.hpp, the Z_q part of include/polynomial.hpp, and of the two
    routines built directly on them (is_poly_invertible, compute_public_key). *)
From Verif Require Import Base M_ff M_xform.
Open Scope Z_scope.

(** ntt.hpp 45-58, bit_rev<mbw> *)
Definition bit_rev (mbw v : nat) : nat :=
  fold_left (fun v_rev i =>
    let bit := Nat.land (Nat.shiftr v i) 1 in
    Nat.lxor v_rev (Nat.shiftl bit (mbw - 1 - i))) (seq 0 mbw) 0%nat.

(** ntt.hpp 18, 23: FALCON512_ζ, FALCON1024_ζ *)
Definition zeta (lg : nat) : Z := if Nat.eqb lg 9 then ff 49 else ff 7.

(** ntt.hpp 62-83: POWERS_OF_ζ_512 / POWERS_OF_ζ_1024 *)
Definition powers_of_zeta (lg : nat) : list Z :=
  tab (2 ^ lg) (fun i => ff_pow (zeta lg) (Z.of_nat (bit_rev lg i))).

(** ntt.hpp 88-109: NEG_POWERS_OF_ζ_* *)
Definition neg_powers_of_zeta (lg : nat) : list Z := map ff_neg (powers_of_zeta lg).

(** ntt.hpp 26, 29: INV_FALCON512_N, INV_FALCON1024_N = ff_t{N}.inv() (compile-time constants;
    the model of inv() cannot fail on them, see P_ntt.inv_n_ok) *)
Definition inv_n (lg : nat) : Z :=
  match ff_inv (ff (2 ^ Z.of_nat lg)) with Ok v => v | _ => 0 end.

(** ntt.hpp 120-150: ntt<LOG2N>; butterfly operations: ζ_exp * x (operator-star), y - tmp, y += tmp *)
Definition ntt (lg : nat) (poly : list Z) : res (list Z) :=
  ct Z ff_mul ff_sub ff_addc (powers_of_zeta lg) lg poly.

(** ntt.hpp 161-200: intt<LOG2N>; operations: +=, -, *=; final *= INV_N *)
Definition intt (lg : nat) (poly : list Z) : res (list Z) :=
  gs Z ff_addc ff_sub ff_mulc (neg_powers_of_zeta lg) (fun x => ff_mulc x (inv_n lg)) lg poly.

(** polynomial.hpp 43-52, add_to over Z_q: polya[i] += polyb[i] *)
Definition poly_add_to (lg : nat) (a b : list Z) : res (list Z) :=
  forn (2 ^ lg) 0 (fun i v => x <- rd v i ;; y <- rd b i ;; wr v i (ff_addc x y)) a.

(** polynomial.hpp 56-65, neg over Z_q *)
Definition poly_neg (lg : nat) (a : list Z) : res (list Z) := mapw ff_neg (2 ^ lg) a.

(** polynomial.hpp 99-110, mul over Z_q; c is the output buffer *)
Definition poly_mul (lg : nat) (a b c : list Z) : res (list Z) :=
  zipw (fun x y => Ok (ff_mul x y)) (2 ^ lg) a b c.

(** polynomial.hpp 119-130, div over Z_q *)
Definition poly_div (lg : nat) (a b c : list Z) : res (list Z) := zipw ff_div (2 ^ lg) a b c.

(** The conversion [static_cast<uint16_t>((x < 0) * q + x)] used in ntru_gen.hpp 53-56,
    keygen.hpp 83-86 (and decoding/verification); x is an int32_t. *)
Definition to_ff (x : Z) : Z := u16 (b2z (x <? 0) * Q + x).

(** for (i < N) tmp[i].v = to_ff(poly[i]); the local array starts with N default (zero) elements *)
Definition to_ff_poly (n : nat) (poly : list Z) (tmp : list Z) : res (list Z) :=
  forn n 0 (fun i v => x <- rd poly i ;; wr v i (to_ff x)) tmp.

(** ntru_gen.hpp 44-66, is_poly_invertible<LOG2N> *)
Definition is_poly_invertible (lg : nat) (poly : list Z) : res bool :=
  let N := (2 ^ lg)%nat in
  tmp <- to_ff_poly N poly (repeat 0 N) ;;
  tmp <- ntt lg tmp ;;
  forn N 0 (fun i flg => x <- rd tmp i ;; Ok (flg && negb (x =? 0))) true.

(** keygen.hpp 67-92, compute_public_key<N>; h is the caller's output array *)
Definition compute_public_key (lg : nat) (f g : list Z) (h : list Z) : res (list Z) :=
  let N := (2 ^ lg)%nat in
  '(f_, g_) <- forn N 0 (fun i (st : list Z * list Z) =>
       let '(f_, g_) := st in
       x <- rd f i ;; f_ <- wr f_ i (to_ff x) ;;
       y <- rd g i ;; g_ <- wr g_ i (to_ff y) ;; Ok (f_, g_)) (repeat 0 N, repeat 0 N) ;;
  f_ <- ntt lg f_ ;;
  g_ <- ntt lg g_ ;;
  h <- poly_div lg g_ f_ h ;;
  intt lg h.
