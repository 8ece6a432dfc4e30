(** M_verify.v -- model of hashing.hpp, verification.hpp and of the byte-level verify of falcon.hpp. *)
From Verif Require Import Base M_ff M_xform M_ntt M_codec M_sig.
Open Scope Z_scope.

(** SHAKE256 is a parameter: [xof absorbed i] is byte number i of the output stream after absorbing
    [absorbed] (the concatenation of the absorb calls, hashing.hpp 31-34).  Successive read calls
    continue the stream (sha3 submodule, not part of /repo). *)
Definition xof_t := list Z -> nat -> Z.

(** shake256::rate >> 3 (hashing.hpp 37): 1088 bits = 136 bytes *)
Definition rate_bytes : nat := 136.
(** hashing.hpp 26-29: kq = (65536 / q) * q *)
Definition kq : Z := u16 ((65536 / Q) * Q).

(** hashing.hpp 42-49, the for loop over one block; k iterations left, word offset 2*j in buf *)
Fixpoint hash_block (k : nat) (j : nat) (n : nat) (buf : list Z) (poly : list Z) (coeff_idx : nat) : res (list Z * nat) :=
  match k with
  | O => Ok (poly, coeff_idx)
  | S k' =>
    if Nat.ltb coeff_idx n then
      b0 <- rd buf (2 * j) ;;
      b1 <- rd buf (2 * j + 1) ;;
      let t := u16 (Z.lor (Z.shiftl b0 8) (Z.shiftl b1 0)) in
      if t <? kq then
        poly <- wr poly coeff_idx (ff t) ;;
        hash_block k' (S j) n buf poly (S coeff_idx)
      else hash_block k' (S j) n buf poly coeff_idx
    else Ok (poly, coeff_idx)
  end.

(** hashing.hpp 39-50: while (coeff_idx < n) { read; for ... }; [blk] blocks read so far *)
Fixpoint hash_loop (fuel : nat) (stream : nat -> Z) (blk n : nat) (poly : list Z) (coeff_idx : nat) : res (list Z) :=
  if Nat.ltb coeff_idx n then
    match fuel with
    | O => Fuel
    | S fuel' =>
      let buf := map (fun i => stream (rate_bytes * blk + i)%nat) (seq 0 rate_bytes) in
      '(poly, coeff_idx) <- hash_block (rate_bytes / 2) 0 n buf poly coeff_idx ;;
      hash_loop fuel' stream (S blk) n poly coeff_idx
    end
  else Ok poly.

(** hashing.hpp 17-51, hash_to_point<n> *)
Definition hash_to_point (fuel : nat) (xof : xof_t) (lg : nat) (salt msg poly : list Z) : res (list Z) :=
  hash_loop fuel (xof (salt ++ msg)) 0 (2 ^ lg) poly 0.

(** verification.hpp 61-66: normalisation of s1 *)
Definition qby2 : Z := Q / 2.
Definition normalize (v : Z) : Z :=
  let flg := b2z (v >=? qby2) in
  v - flg * Q.

(** verification.hpp 72-77: one of the two accumulation loops, int32_t arithmetic *)
Definition acc_sq (m : ovf) (n : nat) (a : list Z) (sqrd_norm : Z) : res Z :=
  forn n 0 (fun i s => x <- rd a i ;; p <- s32 m (x * x) ;; s32 m (s + p)) sqrd_norm.

(** verification.hpp 20-80, verify<N, β2>.  Local arrays start zeroed in the model (they are
    uninitialised in C++ but written before being read).  [m]: what signed overflow does. *)
Definition verify_h (m : ovf) (fuel : nat) (xof : xof_t) (lg : nat) (beta2 : Z) (h msg sig : list Z) : res bool :=
  let N := (2 ^ lg)%nat in
  '(decoded, salt, s2) <- decode_sig lg sig (repeat 0 40%nat) (repeat 0 N) ;;
  if negb decoded then Ok false
  else
    s2_ntt <- to_ff_poly N s2 (repeat 0 N) ;;
    c <- hash_to_point fuel xof lg salt msg (repeat 0 N) ;;
    c <- ntt lg c ;;
    s2_ntt <- ntt lg s2_ntt ;;
    h_ <- ntt lg h ;;
    s1 <- poly_mul lg s2_ntt h_ (repeat 0 N) ;;
    s1 <- poly_neg lg s1 ;;
    s1 <- poly_add_to lg s1 c ;;
    s1 <- intt lg s1 ;;
    normalized_s1 <- forn N 0 (fun i v => x <- rd s1 i ;; wr v i (normalize x)) (repeat 0 N) ;;
    sqrd_norm <- acc_sq m N s2 0 ;;
    sqrd_norm <- acc_sq m N normalized_s1 sqrd_norm ;;
    Ok (sqrd_norm <=? beta2).

(** falcon.hpp 244-245 *)
Definition beta2_values (lg : nat) : Z := if Nat.eqb lg 10 then 70265242 else 34034726.

(** falcon.hpp 229-249, verify<N> on byte strings *)
Definition verify (m : ovf) (fuel : nat) (xof : xof_t) (lg : nat) (pkey msg sig : list Z) : res bool :=
  '(decoded, h) <- decode_pkey lg pkey (repeat 0 (2 ^ lg)%nat) ;;
  if negb decoded then Ok false
  else verify_h m fuel xof lg (beta2_values lg) h msg sig.
