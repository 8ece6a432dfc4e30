(** M_codec.v -- model of include/encoding.hpp and include/decoding.hpp (and utils.hpp lengths).

    Every pointer argument is a list; each access is bounds-checked (UB outside).  Input and output
    arrays never alias (__restrict). *)
From Verif Require Import Base M_ff.
Open Scope Z_scope.

(** ** Array helpers *)
(** read n consecutive cells starting at off *)
Fixpoint rds {A} (l : list A) (off n : nat) : res (list A) :=
  match n with
  | O => Ok []
  | S n' => x <- rd l off ;; xs <- rds l (S off) n' ;; Ok (x :: xs)
  end.
(** write the given values to consecutive cells starting at off *)
Fixpoint wrs {A} (l : list A) (off : nat) (vs : list A) : res (list A) :=
  match vs with
  | [] => Ok l
  | v :: vs' => l <- wr l off v ;; wrs l (S off) vs'
  end.
(** The packing loops of both files: iteration i < n reads the a cells src[soff + a*i ..] and writes
    the cells dst[doff + b*i ..] (b of them, computed by [op]).  Simplification: within one iteration
    all reads are done before the writes (sound because src and dst do not alias). *)
Definition group_map (a b n soff doff : nat) (op : list Z -> list Z) (src dst : list Z) : res (list Z) :=
  forn n 0 (fun i d => xs <- rds src (soff + a * i) a ;; wrs d (doff + b * i) (op xs)) dst.

(** static_cast<uint8_t>(x), << and >>, | on (promoted) non-negative ints, stored to uint8_t/uint16_t *)
Definition shl := Z.shiftl.
Definition shr := Z.shiftr.
Notation "a .| b" := (Z.lor a b) (at level 50, left associativity).
Notation "a .& b" := (Z.land a b) (at level 40, left associativity).

(** ** Lengths: utils.hpp 10-49 (std::bit_width(ff::Q) = 14) *)
Definition pkey_len (lg : nat) : nat := (1 + (2 ^ lg * 14) / 8)%nat.
Definition skey_bits (lg : nat) : nat := if Nat.eqb lg 9 then 6%nat else 5%nat.
Definition skey_len (lg : nat) : nat :=
  (1 + (2 ^ lg * skey_bits lg) / 8 + (2 ^ lg * skey_bits lg) / 8 + 2 ^ lg)%nat.
Definition sig_len (lg : nat) : nat := if Nat.eqb lg 9 then 666%nat else 1280%nat.

(** ** Public key *)
(** encoding.hpp 24-33: four coefficients to seven bytes *)
Definition pk_pack (h : list Z) : list Z :=
  match h with
  | [h0; h1; h2; h3] =>
    [ u8 h0;
      u8 (shl (u8 (h1 .& 3)) 6 .| shl (u8 (shr h0 8)) 0);
      u8 (shr h1 2);
      u8 (shl (u8 (h2 .& 15)) 4 .| shl (u8 (shr h1 10)) 0);
      u8 (shr h2 4);
      u8 (shl (u8 (h3 .& 63)) 2 .| shl (u8 (shr h2 12)) 0);
      u8 (shr h3 6) ]
  | _ => []
  end.

(** encoding.hpp 14-35, encode_pkey; the loop runs N/4 times (hoff = 4i, pkoff = 1+7i) *)
Definition encode_pkey (lg : nat) (h pkey : list Z) : res (list Z) :=
  pkey <- wr pkey 0 (Z.of_nat lg) ;;
  group_map 4 7 (2 ^ lg / 4) 0 1 pk_pack h pkey.

(** decoding.hpp 35-44: seven bytes to four coefficients (raw .v, no range check) *)
Definition pk_unpack (p : list Z) : list Z :=
  match p with
  | [p0; p1; p2; p3; p4; p5; p6] =>
    [ u16 (shl (p1 .& 63) 8 .| shl p0 0);
      u16 (shl (p3 .& 15) 10 .| shl p2 2 .| shl (shr p1 6) 0);
      u16 (shl (p5 .& 3) 12 .| shl p4 4 .| shl (shr p3 4) 0);
      u16 (shl p6 6 .| shl (shr p5 2) 0) ]
  | _ => []
  end.

(** decoding.hpp 20-48, decode_pkey; std::fill_n(h, N, 0) on a wrong header.  The loop
    [pkoff = 1; pkoff < pklen; pkoff += 7] runs (pklen-1)/7 = N/4 times. *)
Definition decode_pkey (lg : nat) (pkey h : list Z) : res (bool * list Z) :=
  hd <- rd pkey 0 ;;
  if negb (hd =? Z.of_nat lg) then
    h <- wrs h 0 (repeat 0 (2 ^ lg)) ;; Ok (false, h)
  else
    h <- group_map 7 4 ((pkey_len lg - 1) / 7) 1 0 pk_unpack pkey h ;; Ok (true, h).

(** ** Secret key *)
(** encoding.hpp 58-66 / 96-112: static_cast<uint8_t>((x < 0) * wrap_at + x), x : int32_t *)
Definition sk_u8 (wrap_at x : Z) : Z := u8 (b2z (x <? 0) * wrap_at + x).

(** encoding.hpp 57-71 (f) and 74-88 (g), N = 512 *)
Definition sk_pack6 (f : list Z) : list Z :=
  match f with
  | [x0; x1; x2; x3] =>
    let f0 := sk_u8 64 x0 in let f1 := sk_u8 64 x1 in let f2 := sk_u8 64 x2 in let f3 := sk_u8 64 x3 in
    [ u8 (shl f1 6 .| f0); u8 (shl f2 4 .| shr f1 2); u8 (shl f3 2 .| shr f2 4) ]
  | _ => []
  end.

(** encoding.hpp 95-119 (f) and 122-146 (g), N = 1024 *)
Definition sk_pack5 (f : list Z) : list Z :=
  match f with
  | [x0; x1; x2; x3; x4; x5; x6; x7] =>
    let f0 := sk_u8 32 x0 in let f1 := sk_u8 32 x1 in let f2 := sk_u8 32 x2 in let f3 := sk_u8 32 x3 in
    let f4 := sk_u8 32 x4 in let f5 := sk_u8 32 x5 in let f6 := sk_u8 32 x6 in let f7 := sk_u8 32 x7 in
    [ u8 (shl f1 5 .| f0); u8 (shl f3 7 .| shl f2 2 .| shr f1 3); u8 (shl f4 4 .| shr f3 1);
      u8 (shl f6 6 .| shl f5 1 .| shr f4 4); u8 (shl f7 3 .| shr f6 2) ]
  | _ => []
  end.

(** encoding.hpp 42-153, encode_skey.  skoff is tracked as in the code. *)
Definition encode_skey (lg : nat) (f g F skey : list Z) : res (list Z) :=
  let N := (2 ^ lg)%nat in
  skey <- wr skey 0 (80 .| Z.of_nat lg) ;;
  '(skoff, skey) <-
    (if Nat.eqb lg 9 then
       skey <- group_map 4 3 (N / 4) 0 1 sk_pack6 f skey ;;
       let skoff := (1 + 3 * (N / 4))%nat in
       skey <- group_map 4 3 (N / 4) 0 skoff sk_pack6 g skey ;;
       Ok ((skoff + 3 * (N / 4))%nat, skey)
     else
       skey <- group_map 8 5 (N / 8) 0 1 sk_pack5 f skey ;;
       let skoff := (1 + 5 * (N / 8))%nat in
       skey <- group_map 8 5 (N / 8) 0 skoff sk_pack5 g skey ;;
       Ok ((skoff + 5 * (N / 8))%nat, skey)) ;;
  (* encoding.hpp 150-152 *)
  group_map 1 1 N 0 skoff (map u8) F skey.

(** decoding.hpp 94-97 etc.: x - (x > max) * wrap_at *)
Definition sk_sign (wrap_at x : Z) : Z := x - b2z (x >? wrap_at / 2 - 1) * wrap_at.

(** decoding.hpp 88-98 / 100-110 *)
Definition sk_unpack6 (s : list Z) : list Z :=
  match s with
  | [s0; s1; s2] =>
    map (sk_sign 64)
    [ s0 .& 63; shl (s1 .& 15) 2 .| shr s0 6; shl (s2 .& 3) 4 .| shr s1 4; shr s2 2 ]
  | _ => []
  end.

(** decoding.hpp 124-142 / 144-162 *)
Definition sk_unpack5 (s : list Z) : list Z :=
  match s with
  | [s0; s1; s2; s3; s4] =>
    map (sk_sign 32)
    [ s0 .& 31; shl (s1 .& 3) 3 .| shr s0 5; shr s1 2 .& 31; shl (s2 .& 15) 1 .| shr s1 7;
      shl (s3 .& 1) 4 .| shr s2 4; shr s3 1 .& 31; shl (s4 .& 7) 2 .| shr s3 6; shr s4 3 ]
  | _ => []
  end.

(** decoding.hpp 59-173, decode_skey *)
Definition decode_skey (lg : nat) (skey f g F : list Z) : res (bool * (list Z * list Z * list Z)) :=
  let N := (2 ^ lg)%nat in
  hd <- rd skey 0 ;;
  if negb (hd =? (80 .| Z.of_nat lg)) then
    f <- wrs f 0 (repeat 0 N) ;; g <- wrs g 0 (repeat 0 N) ;; F <- wrs F 0 (repeat 0 N) ;;
    Ok (false, (f, g, F))
  else
    '(skoff, (f, g)) <-
      (if Nat.eqb lg 9 then
         f <- group_map 3 4 (N / 4) 1 0 sk_unpack6 skey f ;;
         let skoff := (1 + 3 * (N / 4))%nat in
         g <- group_map 3 4 (N / 4) skoff 0 sk_unpack6 skey g ;;
         Ok ((skoff + 3 * (N / 4))%nat, (f, g))
       else
         f <- group_map 5 8 (N / 8) 1 0 sk_unpack5 skey f ;;
         let skoff := (1 + 5 * (N / 8))%nat in
         g <- group_map 5 8 (N / 8) skoff 0 sk_unpack5 skey g ;;
         Ok ((skoff + 5 * (N / 8))%nat, (f, g))) ;;
    F <- group_map 1 1 N skoff 0 (map (sk_sign 256)) skey F ;;
    Ok (true, (f, g, F)).
