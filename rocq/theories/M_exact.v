(** M_exact.v -- the floating point operations in exact real arithmetic: the instance of fops used by every
    theorem whose English statement says "in exact arithmetic".  Rounding is not modelled. *)
From Coq Require Export Reals.
From Verif Require Import Base M_float.
Open Scope R_scope.

(** std::floor, truncation towards zero, std::round (halves away from zero) *)
Definition Rfloor (x : R) : Z := Int_part x.
Definition Rtrunc (x : R) : Z := if Rle_dec 0 x then Rfloor x else (- Rfloor (- x))%Z.
Definition Rround (x : R) : Z := if Rle_dec 0 x then Rfloor (x + / 2) else (- Rfloor (- x + / 2))%Z.
Definition RF : fops := {|
  D := R; fofz := IZR; fadd := Rplus; fsub := Rminus; fmul := Rmult; fdiv := Rdiv; fneg := Ropp; fsqrt := sqrt;
  ffloor := fun x => IZR (Rfloor x); fround := fun x => IZR (Rround x); fmax := Rmax;
  fgt := fun x y => if Rlt_dec y x then true else false;
  fle := fun x y => if Rle_dec x y then true else false; ftrunc := fun x => Some (Rtrunc x);
  fcmul := fun x y => (fst x * fst y - snd x * snd y, fst x * snd y + snd x * fst y);
  fcdiv := fun x y => ((fst x * fst y + snd x * snd y) / (fst y * fst y + snd y * snd y),
                       (snd x * fst y - fst x * snd y) / (fst y * fst y + snd y * snd y)) |}.
