(** M_samp.v -- model of u72.hpp, prng.hpp and samplerz.hpp. *)
From Verif Require Import Base M_float.
Open Scope Z_scope.

(** ** u72.hpp *)
(** u72.hpp 14-23: two uint64_t limbs *)
Record u72 : Type := mk72 { hi : Z; lo : Z }.
Definition uint64_max : Z := 18446744073709551615.
Definition zero72 : u72 := mk72 0 0.
(** u72.hpp 29-36 *)
Definition add72 (a b : u72) : u72 :=
  let l := u64 (lo a + lo b) in
  let flg := lo a >? uint64_max - lo b in
  mk72 (Z.land (u64 (hi a + hi b + b2z flg)) 255) l.
(** u72.hpp 40-47 *)
Definition sub72 (a b : u72) : u72 :=
  let l := u64 (lo a - lo b) in
  let flg := lo a <? lo b in
  mk72 (Z.land (u64 (hi a - u64 (hi b + b2z flg))) 255) l.
(** u72.hpp 53 *)
Definition neg72 (a : u72) : u72 := sub72 zero72 a.
(** u72.hpp 57-66 *)
Definition gt72 (a b : u72) : bool :=
  let flg0 := hi a >? hi b in
  let flg1 := hi a =? hi b in
  let flg2 := hi a <? hi b in
  let flg3 := lo a >? lo b in
  flg0 || (flg1 && flg3) || (negb flg2 && negb flg1).
(** u72.hpp 70-73 *)
Definition lt72 (a b : u72) : bool := gt72 b a.
(** u72.hpp 77-87: hi = bytes[0], lo = OR of bytes[1+i] << 8(7-i) *)
Definition from_be (b : list Z) : res u72 :=
  h <- rd b 0 ;;
  l <- forn 8 0 (fun i l => x <- rd b (1 + i) ;; Ok (Z.lor l (u64 (Z.shiftl x (8 * Z.of_nat (7 - i)))))) 0 ;;
  Ok (mk72 h l).
(** u72.hpp 91-102 *)
Definition to_be (a : u72) : res (list Z) :=
  r <- wr (repeat 0 9) 0 (u8 (hi a)) ;;
  forn 8 0 (fun i r => wr r (1 + i) (u8 (Z.shiftr (lo a) (8 * Z.of_nat (7 - i))))) r.
(** u72.hpp 106-116 *)
Definition from_le (b : list Z) : res u72 :=
  h <- rd b 8 ;;
  l <- forn 8 0 (fun i l => x <- rd b i ;; Ok (Z.lor l (u64 (Z.shiftl x (8 * Z.of_nat i))))) 0 ;;
  Ok (mk72 h l).
(** u72.hpp 120-130 *)
Definition to_le (a : u72) : res (list Z) :=
  r <- forn 8 0 (fun i r => wr r i (u8 (Z.shiftr (lo a) (8 * Z.of_nat i)))) (repeat 0 9) ;;
  wr r 8 (u8 (hi a)).

(** ** prng.hpp *)
(** The generator's output is one infinite byte stream (SHAKE256 of the seed); its state is the number of
    bytes already read.  prng.hpp 37-40: read *)
Definition rng_t := nat -> Z.
Definition rng_read (g : rng_t) (pos len : nat) : list Z * nat := (map (fun i => g (pos + i)%nat) (seq 0 len), (pos + len)%nat).

(** ** samplerz.hpp *)
(** samplerz.hpp 33-51 *)
Definition PDT : list u72 :=
  [ mk72 92 579786965361551358; mk72 79 2650674819858381952; mk72 50 6151151332533475715; mk72 23 12418831121734727451;
    mk72 8 4319188200692788085; mk72 2 2177953700873134608; mk72 0 7432604049020375675; mk72 0 1045641569992574730;
    mk72 0 108788995549429682; mk72 0 8370422445201343; mk72 0 476288472308334; mk72 0 20042553305308;
    mk72 0 623729532807; mk72 0 14354889437; mk72 0 244322621; mk72 0 3075302; mk72 0 28626; mk72 0 197; mk72 0 1 ].
(** samplerz.hpp 54-64: ith_cumulative_distribution *)
Definition icd (i : nat) : u72 := fold_left add72 (firstn (S i) PDT) zero72.
(** samplerz.hpp 69-80 and 85-88 *)
Definition CDT : list u72 := map icd (seq 0 19).
Definition RCDT : list u72 := map neg72 CDT.
(** samplerz.hpp 102-108 *)
Definition Cexp : list Z :=
  [ 0x00000004741183A3; 0x00000036548CFC06; 0x0000024FDCBF140A; 0x0000171D939DE045; 0x0000D00CF58F6F84; 0x000680681CF796E3;
    0x002D82D8305B0FEA; 0x011111110E066FD0; 0x0555555555070F00; 0x155555555581FF00; 0x400000000002B400; 0x7FFFFFFFFFFF4800;
    0x8000000000000000 ].

(** samplerz.hpp 118-130: base_sampler(bytes) *)
Definition base_sampler (bytes : list Z) : res Z :=
  u <- from_le bytes ;;
  forn 18 0 (fun i z0 => r <- rd RCDT i ;; Ok (u32 (z0 + b2z (lt72 u r)))) 0.
(** samplerz.hpp 135-149: base_sampler(rng) *)
Definition base_sampler_rng (g : rng_t) (pos : nat) : res (Z * nat) :=
  let '(bytes, pos) := rng_read g pos 9 in
  z0 <- base_sampler bytes ;; Ok (z0, pos).

(** samplerz.hpp 159-206, the portable branch of full_mul_u64 *)
Definition full_mul_u64 (lhs rhs : Z) : Z * Z :=
  let lhs_hi := Z.shiftr lhs 32 in
  let lhs_lo := Z.land lhs 0xffffffff in
  let rhs_hi := Z.shiftr rhs 32 in
  let rhs_lo := Z.land rhs 0xffffffff in
  let hi := u64 (lhs_hi * rhs_hi) in
  let mid0 := u64 (lhs_hi * rhs_lo) in
  let mid1 := u64 (lhs_lo * rhs_hi) in
  let lo := u64 (lhs_lo * rhs_lo) in
  let mid0_hi := Z.shiftr mid0 32 in
  let mid0_lo := Z.land mid0 0xffffffff in
  let mid1_hi := Z.shiftr mid1 32 in
  let mid1_lo := Z.land mid1 0xffffffff in
  let t0 := Z.shiftr lo 32 in
  let t1 := u64 (u64 (t0 + mid0_lo) + mid1_lo) in
  let carry := Z.shiftr t1 32 in
  let res_hi := u64 (u64 (u64 (hi + mid0_hi) + mid1_hi) + carry) in
  let res_lo := u64 (u64 (lo + u64 (Z.shiftl mid0_lo 32)) + u64 (Z.shiftl mid1_lo 32)) in
  (res_hi, res_lo).
(** samplerz.hpp 165-174, the aarch64 branch with unsigned __int128 *)
Definition full_mul_u64_arm (lhs rhs : Z) : Z * Z :=
  let c := (lhs * rhs) mod 2 ^ 128 in (u64 (Z.shiftr c 64), u64 c).
(** samplerz.hpp 211-216 *)
Definition top_63_bits (v : Z * Z) : Z :=
  Z.lor (u64 (Z.shiftl (Z.land (fst v) (u64 (Z.shiftl 1 62) - 1)) 1)) (Z.shiftr (snd v) 63).

(** samplerz.hpp 224-242, the integer part of approx_exp: z1 = floor(2^63 x), z2 = floor(2^63 ccs) *)
Definition exp_core (z1 z2 : Z) : res Z :=
  y <- rd Cexp 0 ;;
  y <- forn 12 1 (fun u y => c <- rd Cexp u ;; Ok (u64 (c - top_63_bits (full_mul_u64 z1 y)))) y ;;
  Ok (top_63_bits (full_mul_u64 z2 y)).

(** samplerz.hpp 258-271 and 300-309: the byte comparison loop of ber_exp, k bytes left (i = 8 k before the
    decrement).  w = t0 - byte; left early when w <> 0. *)
Fixpoint ber_loop (k : nat) (z : Z) (g : rng_t) (pos : nat) : Z * nat :=
  match k with
  | O => (0, pos)   (* not reached: the do-while body runs at least once *)
  | S k' =>
    let i := 8 * Z.of_nat k' in
    let w := g pos - Z.land (Z.shiftr z i) 255 in
    if (w =? 0) && (0 <? i) then ber_loop k' z g (S pos) else (w, S pos)
  end.
(** the same loop on a byte array, samplerz.hpp 300-309; stops also when ridx = rblen *)
Fixpoint ber_loop_arr (k : nat) (z : Z) (rbytes : list Z) (off ridx rblen : nat) : res (Z * nat) :=
  match k with
  | O => Ok (0, ridx)
  | S k' =>
    let i := 8 * Z.of_nat k' in
    t0 <- rd rbytes (off + ridx) ;;
    let w := t0 - Z.land (Z.shiftr z i) 255 in
    if (w =? 0) && (0 <? i) && (Nat.ltb (S ridx) rblen) then ber_loop_arr k' z rbytes off (S ridx) rblen
    else Ok (w, S ridx)
  end.

Section Float.
Variable F : fops.
(** samplerz.hpp 15, 18, 27 *)
Definition LN2 : D F := flit F 6931471805599453 16.
Definition INV_LN2 : D F := fdiv F (fofz F 1) LN2.
Definition sigma_max : D F := flit F 18205 4.

(** samplerz.hpp 224-242 *)
Definition approx_exp (x ccs : D F) : res Z :=
  z1 <- to_u64 F (ffloor F (fmul F (fofz F 9223372036854775808) x)) ;;
  z2 <- to_u64 F (ffloor F (fmul F (fofz F 9223372036854775808) ccs)) ;;
  exp_core z1 z2.

(** samplerz.hpp 251-256: the 64-bit threshold of ber_exp *)
Definition ber_threshold (x ccs : D F) : res Z :=
  let s := ffloor F (fmul F x INV_LN2) in
  let r := fsub F x (fmul F s LN2) in
  s_ <- to_u64 F s ;;
  let s_ := Z.min s_ 63 in
  e <- approx_exp r ccs ;;
  Ok (Z.shiftr (u64 (2 * e - 1)) s_).
(** samplerz.hpp 248-272 *)
Definition ber_exp (x ccs : D F) (g : rng_t) (pos : nat) : res (Z * nat) :=
  z <- ber_threshold x ccs ;;
  let '(w, pos) := ber_loop 8 z g pos in
  Ok (b2z (w <? 0), pos).
(** samplerz.hpp 286-312 *)
Definition ber_exp_arr (x ccs : D F) (rbytes : list Z) (off rblen : nat) : res (Z * nat) :=
  z <- ber_threshold x ccs ;;
  '(w, ridx) <- ber_loop_arr 8 z rbytes off 0 rblen ;;
  Ok (b2z (w <? 0), ridx).

(** samplerz.hpp 340-352 / 387-399: the exponent x of one attempt *)
Definition exponent (r t0 t1 : D F) (z0 b : Z) : D F :=
  let z := fofz F (b + (2 * b - 1) * z0) in
  let t2 := fsub F z r in
  let t3 := fmul F t2 t2 in
  let t4 := fmul F t3 t0 in
  let t5 := fofz F (z0 * z0) in
  let t6 := fmul F t5 t1 in
  fsub F t4 t6.
Definition inv_2sq (s : D F) : D F := fdiv F (fofz F 1) (fmul F (fmul F (fofz F 2) s) s).

(** samplerz.hpp 318-358: samplerz(mu, sigma', sigma_min, rng) *)
Fixpoint samplerz_loop (fuel : nat) (mu r ccs t0 : D F) (g : rng_t) (pos : nat) : res (Z * nat) :=
  match fuel with
  | O => Fuel
  | S fuel' =>
    '(z0, pos) <- base_sampler_rng g pos ;;
    let v := g pos in
    let pos := S pos in
    let b := Z.land v 1 in
    let x := exponent r t0 (inv_2sq sigma_max) z0 b in
    '(t7, pos) <- ber_exp x ccs g pos ;;
    if t7 =? 1 then
      o <- to_i32 F (fadd F (fofz F (b + (2 * b - 1) * z0)) (ffloor F mu)) ;; Ok (o, pos)
    else samplerz_loop fuel' mu r ccs t0 g pos
  end.
Definition samplerz (fuel : nat) (mu sigma' sigma_min : D F) (g : rng_t) (pos : nat) : res (Z * nat) :=
  let r := fsub F mu (ffloor F mu) in
  let ccs := fdiv F sigma_min sigma' in
  samplerz_loop fuel mu r ccs (inv_2sq sigma') g pos.

(** samplerz.hpp 372-406: samplerz on a byte array *)
Fixpoint samplerz_arr_loop (fuel : nat) (mu r ccs t0 : D F) (rbytes : list Z) (rblen ridx : nat) : res (Z * nat) :=
  if Nat.ltb ridx rblen then
    match fuel with
    | O => Fuel
    | S fuel' =>
      tmp <- (if Nat.leb (ridx + 9) (length rbytes) then Ok (rev (firstn 9 (skipn ridx rbytes))) else UB) ;;
      let ridx := (ridx + 9)%nat in
      z0 <- base_sampler tmp ;;
      v <- rd rbytes ridx ;;
      let ridx := S ridx in
      let b := Z.land v 1 in
      let x := exponent r t0 (inv_2sq sigma_max) z0 b in
      '(t7, ulen) <- ber_exp_arr x ccs rbytes ridx (rblen - ridx) ;;
      let ridx := (ridx + ulen)%nat in
      if t7 =? 1 then
        o <- to_i32 F (fadd F (fofz F (b + (2 * b - 1) * z0)) (ffloor F mu)) ;; Ok (o, ridx)
      else samplerz_arr_loop fuel' mu r ccs t0 rbytes rblen ridx
    end
  else Ok (0, ridx).
(** rblen is a separate argument in C++; the array really has [length rbytes] bytes.  rblen - ridx is a
    size_t subtraction: it does not wrap, since ridx <= rblen there whenever rblen = length rbytes. *)
Definition samplerz_arr (fuel : nat) (mu sigma' sigma_min : D F) (rbytes : list Z) (rblen : nat) : res (Z * nat) :=
  let r := fsub F mu (ffloor F mu) in
  let ccs := fdiv F sigma_min sigma' in
  samplerz_arr_loop fuel mu r ccs (inv_2sq sigma') rbytes rblen 0.
End Float.
