(** M_float.v -- floating point operations as a parameter.

    Every model of code that computes with `double` takes a record [fops] of operations.  Theorems that
    quantify over [fops] hold for any floating point behaviour whatsoever (rounding, x87 excess precision,
    -ffast-math, NaN); theorems "in exact arithmetic" use the instance over the real numbers (M_exact.v). *)
From Verif Require Import Base.
Open Scope Z_scope.

Record fops : Type := mk_fops {
  D : Type;                       (* double *)
  fofz : Z -> D;                  (* conversion from an integer type *)
  fadd : D -> D -> D;
  fsub : D -> D -> D;
  fmul : D -> D -> D;
  fdiv : D -> D -> D;
  fneg : D -> D;
  fsqrt : D -> D;                 (* std::sqrt *)
  ffloor : D -> D;                (* std::floor *)
  fround : D -> D;                (* std::round *)
  fmax : D -> D -> D;             (* std::max *)
  fgt : D -> D -> bool;           (* operator> *)
  fle : D -> D -> bool;           (* operator<= *)
  ftrunc : D -> option Z;         (* the integer a cast truncates to; None: NaN or infinity *)
  (* std::complex<double> operator* and operator/: C++ leaves their evaluation (NaN recovery, scaling) to the
     implementation, so they are parameters of their own; a complex number is the pair (real, imaginary) *)
  fcmul : D * D -> D * D -> D * D;
  fcdiv : D * D -> D * D -> D * D
}.

(** A decimal literal m * 10^-k.  For m < 2^53 and k <= 22 the quotient of the two exactly
    representable integers, rounded to nearest, is the double closest to the literal. *)
Definition flit (F : fops) (m : Z) (k : Z) : D F := fdiv F (fofz F m) (fofz F (10 ^ k)).

(** conversions to integer types: undefined when the truncated value does not fit (C++ [conv.fpint]) *)
Definition to_range (F : fops) (lo hi : Z) (x : D F) : res Z :=
  match ftrunc F x with
  | Some v => if (lo <=? v) && (v <? hi) then Ok v else UB
  | None => UB
  end.
Definition to_u64 (F : fops) (x : D F) : res Z := to_range F 0 18446744073709551616 x.
Definition to_i32 (F : fops) (x : D F) : res Z := to_range F (-2147483648) 2147483648 x.
Definition to_i64 (F : fops) (x : D F) : res Z := to_range F (-9223372036854775808) 9223372036854775808 x.
