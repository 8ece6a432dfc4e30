(** M_ieee.v -- the floating point operations in IEEE 754 binary64 with round-to-nearest-even, from the standard
    library's axiom-free SpecFloat: the instance of fops that common compilers implement on x86-64 and AArch64
    without -ffast-math.  Used for concrete runs and for hypotheses about rounding. *)
From Coq Require Import SpecFloat.
From Verif Require Import Base M_float.
Open Scope Z_scope.

Definition sf_ofz (z : Z) : spec_float := binary_normalize 53 1024 z 0 false.
Definition sf_add := SFadd 53 1024.
Definition sf_sub := SFsub 53 1024.
Definition sf_mul := SFmul 53 1024.
Definition sf_div := SFdiv 53 1024.
(** std::floor and std::round: exact on doubles (the sign of a zero result is not modelled) *)
Definition sf_floor (x : spec_float) : spec_float :=
  match x with
  | S754_finite s m e => if e >=? 0 then x else sf_ofz ((if s then Z.neg m else Z.pos m) / 2 ^ (- e))
  | _ => x
  end.
Definition sf_round (x : spec_float) : spec_float :=
  match x with
  | S754_finite s m e => if e >=? 0 then x
      else let v := (2 * Z.pos m + 2 ^ (- e)) / 2 ^ (- e + 1) in sf_ofz (if s then - v else v)
  | _ => x
  end.
Definition sf_trunc (x : spec_float) : option Z :=
  match x with
  | S754_zero _ => Some 0
  | S754_finite s m e => let v := if e >=? 0 then Z.pos m * 2 ^ e else Z.pos m / 2 ^ (- e) in Some (if s then - v else v)
  | _ => None
  end.
(** std::max(a, b) is (a < b) ? b : a *)
Definition sf_max (a b : spec_float) : spec_float := if SFltb a b then b else a.

(** Complex product and quotient by the textbook formulas; the recovery steps that C++ libraries add for
    infinities and NaN, and the scaling some of them apply in divisions, are not modelled. *)
Definition F64 : fops := {|
  D := spec_float; fofz := sf_ofz; fadd := sf_add; fsub := sf_sub; fmul := sf_mul; fdiv := sf_div; fneg := SFopp;
  fsqrt := SFsqrt 53 1024; ffloor := sf_floor; fround := sf_round; fmax := sf_max;
  fgt := fun x y => SFltb y x; fle := SFleb; ftrunc := sf_trunc;
  fcmul := fun x y => (sf_sub (sf_mul (fst x) (fst y)) (sf_mul (snd x) (snd y)),
                       sf_add (sf_mul (fst x) (snd y)) (sf_mul (snd x) (fst y)));
  fcdiv := fun x y =>
    let d := sf_add (sf_mul (fst y) (fst y)) (sf_mul (snd y) (snd y)) in
    (sf_div (sf_add (sf_mul (fst x) (fst y)) (sf_mul (snd x) (snd y))) d,
     sf_div (sf_sub (sf_mul (snd x) (fst y)) (sf_mul (fst x) (snd y))) d) |}.
