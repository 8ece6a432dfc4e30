(** M_sig.v -- model of compress_sig (encoding.hpp 169-230), decompress_sig and decode_sig
    (decoding.hpp 210-391).  Bit positions are integers (size_t; no wrap: they stay below 2^40). *)
From Verif Require Import Base M_ff M_codec.
Open Scope Z_scope.

(** array access with an integer index *)
Definition rdz {A} (l : list A) (i : Z) : res A := if i <? 0 then UB else rd l (Z.to_nat i).
Definition wrz {A} (l : list A) (i : Z) (v : A) : res (list A) := if i <? 0 then UB else wr l (Z.to_nat i) v.

(** sig_buf[pos >> 3] |= bit << (7 - (pos & 7)) *)
Definition or_bit (buf : list Z) (pos bit : Z) : res (list Z) :=
  let byte_idx := shr pos 3 in
  let from_bit := pos .& 7 in
  b <- rdz buf byte_idx ;;
  wrz buf byte_idx (u8 (b .| shl bit (7 - from_bit))).

(** std::abs on int32_t: undefined for INT32_MIN *)
Definition abs32 (x : Z) : res Z := if x =? -2147483648 then UB else Ok (Z.abs x).

(** encoding.hpp 184-224: body of the while loop for one coefficient; returns buffer and bit_idx.
    The 7-iteration and the k-iteration loops run over i = bit_idx, bit_idx+1, ... *)
Definition compress_coeff (s : Z) (st : list Z * Z) : res (list Z * Z) :=
  let '(buf, bit_idx) := st in
  (* 186-192 sign bit *)
  buf <- or_bit buf bit_idx (b2z (s <? 0) * 1) ;;
  let bit_idx := bit_idx + 1 in
  (* 195-206 low 7 bits *)
  coeff <- abs32 s ;;
  buf <- forn 7 0 (fun i buf =>
           let i' := Z.of_nat i in
           or_bit buf (bit_idx + i') (u8 (shr coeff (6 - i') .& 1))) buf ;;
  let bit_idx := bit_idx + 7 in
  (* 209-221 high bits in unary *)
  a <- abs32 s ;;
  let k := shr a 7 in
  buf <- forn (Z.to_nat k) 0 (fun i buf => or_bit buf (bit_idx + Z.of_nat i) 0) buf ;;
  let bit_idx := bit_idx + k in
  buf <- or_bit buf bit_idx 1 ;;
  Ok (buf, bit_idx + 1).

(** encoding.hpp 169-230, compress_sig<N, sbytelen>: returns (result, sig).
    [memset(sig_buf, 0, max * (bit_idx >= slen))] zeroes the whole buffer or nothing;
    [memcpy(sig + 41, sig_buf, sbytelen - 41)]. *)
Definition compress_sig (lg : nat) (poly_s sig : list Z) : res (bool * list Z) :=
  let N := (2 ^ lg)%nat in
  let sbytelen := sig_len lg in
  let slen := 8 * Z.of_nat sbytelen - (8 + 320) in
  let max_sbytelen := ((14 * N) / 8)%nat in
  '(buf, bit_idx) <- forn N 0 (fun i st => s <- rd poly_s i ;; compress_coeff s st)
                       (repeat 0 max_sbytelen, 0) ;;
  buf <- wrs buf 0 (repeat 0 (max_sbytelen * (if bit_idx >=? slen then 1 else 0))) ;;
  src <- rds buf 0 (sbytelen - (1 + 40)) ;;
  sig <- wrs sig (1 + 40) src ;;
  Ok (bit_idx <? slen, sig).

(** std::countl_zero on uint8_t *)
Definition clz8 (x : Z) : Z := if x =? 0 then 8 else 7 - Z.log2 x.

(** decoding.hpp 210-221 *)
Definition extract_8_contiguous_bits (bs : list Z) (bitoff : Z) : res Z :=
  let byte_at := shr bitoff 3 in
  let bit_at := bitoff .& 7 in
  b0 <- rdz bs byte_at ;;
  b1 <- rdz bs (byte_at + 1) ;;
  let word := u16 (shl b0 8 .| b1) in
  Ok (u8 (shr word (8 - bit_at))).

(** decoding.hpp 244-252 *)
Definition extract_rem_contiguous_bits_in_byte (bs : list Z) (bitoff : Z) : res Z :=
  let byte_at := shr bitoff 3 in
  let bit_at := bitoff .& 7 in
  b <- rdz bs byte_at ;;
  Ok (u8 (shl b bit_at)).

(** decoding.hpp 302-319: the loop over further 8-bit chunks; returns bit_idx.  (The variable k is
    accumulated there but never used afterwards, so it is not part of the state.)  Fuel: each
    iteration advances bit_idx, so slen iterations suffice (shown in P_sig). *)
Fixpoint long_run (fuel : nat) (sig : list Z) (slen bit_idx : Z) : res Z :=
  if bit_idx <? slen then
    match fuel with
    | O => Fuel
    | S fuel' =>
      let ebits := Z.min 8 (slen - bit_idx) in
      t <- (if ebits <? 8 then extract_rem_contiguous_bits_in_byte sig bit_idx
            else extract_8_contiguous_bits sig bit_idx) ;;
      let v := clz8 t in
      let bit_idx := bit_idx + ebits in
      if v <? ebits then Ok bit_idx else long_run fuel' sig slen bit_idx
    end
  else Ok bit_idx.

(** decoding.hpp 282-335: one coefficient; None means [failed] was set and the loop left. *)
Definition decompress_coeff (fuel : nat) (sig : list Z) (slen bit_idx : Z) : res (option (Z * Z)) :=
  r <- extract_8_contiguous_bits sig bit_idx ;;
  let sign_bit := shr r 7 in
  let coeff := r .& 127 in
  let bit_idx := bit_idx + 8 in
  t <- extract_8_contiguous_bits sig bit_idx ;;
  let k := clz8 t in
  '(coeff, bit_idx) <-
    (if k <? 8 then Ok (coeff + 128 * k, bit_idx + k)
     else b <- long_run fuel sig slen (bit_idx + k) ;; Ok (coeff, b)) ;;
  let coeff := if sign_bit =? 1 then - coeff else coeff in
  if (coeff =? 0) && (sign_bit =? 1) then Ok None
  else Ok (Some (coeff, bit_idx + 1)).

(** decoding.hpp 281-337: while ((coeff_idx < N) && (bit_idx < slen)).
    Result: (failed, bit_idx, coeff_idx, poly_s).  n = N - coeff_idx. *)
Fixpoint decompress_loop (n : nat) (fuel : nat) (sig : list Z) (slen bit_idx : Z) (coeff_idx : nat) (poly_s : list Z)
  : res (bool * Z * nat * list Z) :=
  match n with
  | O => Ok (false, bit_idx, coeff_idx, poly_s)
  | S n' =>
    if bit_idx <? slen then
      r <- decompress_coeff fuel sig slen bit_idx ;;
      match r with
      | None => Ok (true, bit_idx, coeff_idx, poly_s)
      | Some (coeff, bit_idx) =>
        poly_s <- wr poly_s coeff_idx coeff ;;
        decompress_loop n' fuel sig slen bit_idx (S coeff_idx) poly_s
      end
    else Ok (false, bit_idx, coeff_idx, poly_s)
  end.

(** decoding.hpp 342-356: trailing bits; returns failed *)
Fixpoint trailing_loop (fuel : nat) (sig : list Z) (slen bit_idx : Z) (failed : bool) : res bool :=
  if bit_idx <? slen then
    match fuel with
    | O => Fuel
    | S fuel' =>
      let ebits := Z.min 8 (slen - bit_idx) in
      t <- (if ebits =? 8 then extract_8_contiguous_bits sig bit_idx
            else extract_rem_contiguous_bits_in_byte sig bit_idx) ;;
      let v := clz8 t in
      trailing_loop fuel' sig slen (bit_idx + ebits) (failed || (v <? ebits))
    end
  else Ok failed.

(** decoding.hpp 267-361, decompress_sig<N, sbytelen>: [sig] is the readable memory starting at the
    signature (at least sbytelen bytes; the code may look further). *)
Definition decompress_sig (lg : nat) (sig poly_s : list Z) : res (bool * list Z) :=
  let N := (2 ^ lg)%nat in
  let sbytelen := sig_len lg in
  let slen := 8 * Z.of_nat sbytelen in
  let fuel := (sbytelen)%nat in
  '(failed, bit_idx, coeff_idx, poly_s) <- decompress_loop N fuel sig slen (8 + 320) 0 poly_s ;;
  let failed := failed || (bit_idx >=? slen) || Nat.ltb coeff_idx N in
  failed <- (if negb failed then trailing_loop fuel sig slen bit_idx failed else Ok failed) ;;
  poly_s <- wrs poly_s 0 (repeat 0 (N * (if failed then 1 else 0))) ;;
  Ok (negb failed, poly_s).

(** decoding.hpp 371-391, decode_sig<N>: (result, salt, s2) *)
Definition decode_sig (lg : nat) (sig salt s2 : list Z) : res (bool * list Z * list Z) :=
  hd <- rd sig 0 ;;
  if negb (hd =? (48 .| Z.of_nat lg)) then Ok (false, salt, s2)
  else
    '(decompressed, s2) <- decompress_sig lg sig s2 ;;
    if negb decompressed then Ok (false, salt, s2)
    else
      b <- rds sig 1 40 ;;
      salt <- wrs salt 0 b ;;
      Ok (true, salt, s2).
