(** M_ff.v -- model of include/ff.hpp: arithmetic of ff_t.

    An [ff_t] is modelled by the value of its only member [v] (ff.hpp 66), a [Z].
    C++ integral promotion: uint16_t operands are promoted to (32-bit) int, the result is
    truncated when stored in a uint16_t; [u16] marks every such store. *)
From Verif Require Import Base.
Open Scope Z_scope.

(** ff.hpp 13 (3 * (1 << 12) + 1) and 23. *)
Definition Q : Z := 12289.
Definition R : Z := 21843.

(** ff.hpp 69-76, constructor from uint16_t. *)
Definition ff (v : Z) : Z := if v <? Q then v else v mod Q.

(** ff.hpp 79, 82 *)
Definition ff_zero : Z := ff 0.
Definition ff_one : Z := ff 1.

(** ff.hpp 85-92, operator+ *)
Definition ff_add (a b : Z) : Z :=
  let t0 := u16 (a + b) in
  let flg := b2z (t0 >=? Q) in
  let t1 := u16 (t0 - flg * Q) in
  ff t1.

(** ff.hpp 96-103, operator+= (no constructor call, hence no final reduction) *)
Definition ff_addc (a b : Z) : Z :=
  let t0 := u16 (a + b) in
  let flg := b2z (t0 >=? Q) in
  u16 (t0 - flg * Q).

(** ff.hpp 113-117, unary operator- *)
Definition ff_neg (a : Z) : Z := ff (u16 (Q - a)).

(** ff.hpp 106-110, binary operator- *)
Definition ff_sub (a b : Z) : Z := ff_add a (ff_neg b).

(** ff.hpp 129-139 = 154-164, common body of operator* and operator*= *)
Definition barrett (a b : Z) : Z :=
  let t2 := u32 (u32 a * u32 b) in
  let t3 := u64 (t2 * R) in
  let t4 := u32 (t3 / 268435456) in
  let t5 := u32 (t4 * Q) in
  let t6 := u16 (u32 (t2 - t5)) in
  let flg := b2z (t6 >=? Q) in
  u16 (t6 - flg * Q).

(** ff.hpp 127-142, operator* *)
Definition ff_mul (a b : Z) : Z := ff (barrett a b).

(** ff.hpp 152-167, operator*= *)
Definition ff_mulc (a b : Z) : Z := barrett a b.

(** ff.hpp 38-53, one iteration of the while loop: state (old_r,r,old_s,s,old_t,t), all int16_t. *)
Definition xgcd16_step (st : Z * Z * Z * Z * Z * Z) : Z * Z * Z * Z * Z * Z :=
  let '(old_r, r, old_s, s, old_t, t) := st in
  let quotient := i16 (Z.quot old_r r) in
  (r, i16 (old_r - quotient * r), s, i16 (old_s - quotient * s), t, i16 (old_t - quotient * t)).

Fixpoint xgcd16_loop (fuel : nat) (st : Z * Z * Z * Z * Z * Z) : res (Z * Z * Z) :=
  let '(old_r, r, old_s, s, old_t, t) := st in
  if r =? 0 then Ok (old_s, old_t, old_r)
  else match fuel with
       | O => Fuel
       | S fuel' => xgcd16_loop fuel' (xgcd16_step st)
       end.

(** ff.hpp 31-60, xgcd; fuel 32 replaces the unbounded while (shown sufficient). *)
Definition xgcd16 (x y : Z) : res (Z * Z * Z) :=
  xgcd16_loop 32 (i16 x, i16 y, 1, 0, 0, 1).

(** ff.hpp 181-196, inv *)
Definition ff_inv (a : Z) : res Z :=
  let flg0 := b2z (a =? 0) in
  let t0 := u16 (a + flg0 * 1) in
  '(r0, _, _) <- xgcd16 t0 Q ;;
  let flg1 := b2z (r0 <? 0) in
  let t1 := u16 (flg1 * Q + r0) in
  let flg2 := b2z (t1 >=? Q) in
  let t2 := u16 (t1 - flg2 * Q) in
  let t3 := u16 (t2 - flg0 * 1) in
  Ok (ff t3).

(** ff.hpp 199-202, operator/ *)
Definition ff_div (a b : Z) : res Z :=
  i <- ff_inv b ;; Ok (ff_mul a i).

(** ff.hpp 209-227, operator^; the exponent is a size_t (64 bits).
    [till] = 64 - countl_zero n is the bit width of n. *)
Definition bit_width (n : Z) : nat := if n =? 0 then 0%nat else S (Z.to_nat (Z.log2 n)).

(** the for loop, ff.hpp 219-224; k iterations starting at index i *)
Fixpoint pow_loop (n : Z) (k : nat) (i : Z) (base res : Z) : Z :=
  match k with
  | O => res
  | S k' => let base' := ff_mul base base in
            pow_loop n k' (i + 1) base' (ff_mul res (if Z.testbit n i then base' else ff_one))
  end.

Definition ff_pow (a n : Z) : Z :=
  pow_loop n (bit_width n - 1)%nat 1 a (if Z.testbit n 0 then a else ff_one).

(** ff.hpp 230-248, comparisons; [!static_cast<bool>(v ^ rhs.v)] is [v == rhs.v]. *)
Definition ff_eq (a b : Z) : bool := Z.lxor a b =? 0.
Definition ff_ne (a b : Z) : bool := negb (ff_eq a b).
Definition ff_gt (a b : Z) : bool := a >? b.
Definition ff_ge (a b : Z) : bool := a >=? b.
Definition ff_lt (a b : Z) : bool := a <? b.
Definition ff_le (a b : Z) : bool := a <=? b.

(** ff.hpp 251-260, shifts by l < 32 (l >= 32 is undefined behaviour). *)
Definition ff_shl (a l : Z) : res Z := if (0 <=? l) && (l <? 32) then Ok (ff (u16 (Z.shiftl a l))) else UB.
Definition ff_shr (a l : Z) : res Z := if (0 <=? l) && (l <? 32) then Ok (ff (u16 (Z.shiftr a l))) else UB.

(** ff.hpp 263-279, random(): up to 1024 draws of a uint16_t; if none is below Q the result is 0. *)
Fixpoint ff_random_loop (k : nat) (draw : nat -> Z) (i : nat) : Z :=
  match k with
  | O => 0
  | S k' => let v := draw i in if v <? Q then v else ff_random_loop k' draw (S i)
  end.
Definition ff_random (draw : nat -> Z) : Z := ff_random_loop (2 ^ 10)%nat draw 0.
