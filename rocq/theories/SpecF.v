(** SpecF.v -- vocabulary of the claims about rounded arithmetic: what the claims assume of `double`. *)
From Coq Require Import SpecFloat.
From Verif Require Import Base Spec SpecR M_float M_exact.
Open Scope R_scope.

(** unit roundoff 2^-53; absolute errors below [tiny] come from underflow; magnitudes below [huge] do not overflow *)
Definition ulp : R := / 9007199254740992.
Definition tiny : R := / 10 ^ 100.
Definition huge : R := 10 ^ 100.
(** Euclidean modulus *)
Definition Cmod (x : Cx) : R := sqrt (mod2 x).

(** What operations make of finite values, possibly infinities or NaN. *)
Inductive computed (F : fops) (fin : D F -> Prop) : D F -> Prop :=
| comp_fin x : fin x -> computed F fin x
| comp_add x y : computed F fin x -> computed F fin y -> computed F fin (fadd F x y)
| comp_mul x y : computed F fin x -> computed F fin y -> computed F fin (fmul F x y)
| comp_div x y : computed F fin x -> computed F fin y -> computed F fin (fdiv F x y)
| comp_neg x : computed F fin x -> computed F fin (fneg F x)
| comp_cmul_re x y : computed F fin (fst x) -> computed F fin (snd x) -> computed F fin (fst y) -> computed F fin (snd y) -> computed F fin (fst (fcmul F x y))
| comp_cmul_im x y : computed F fin (fst x) -> computed F fin (snd x) -> computed F fin (fst y) -> computed F fin (snd y) -> computed F fin (snd (fcmul F x y))
| comp_cdiv_re x y : computed F fin (fst x) -> computed F fin (snd x) -> computed F fin (fst y) -> computed F fin (snd y) -> computed F fin (fst (fcdiv F x y))
| comp_cdiv_im x y : computed F fin (fst x) -> computed F fin (snd x) -> computed F fin (fst y) -> computed F fin (snd y) -> computed F fin (snd (fcdiv F x y)).

(** The standard model of floating point arithmetic: [fin x] says that the double x is a finite number, [val x] is its value.
    Each operation, unless it overflows, returns the exact result with relative error at most 2^-53; std::complex products and
    quotients have a relative error of a few such units.  Nothing else is said of infinities and NaN.  P_ieee.v proves it of the binary64 operations F64, with textbook complex formulas;
    it also holds if products of complex numbers use fused multiply-add. *)
Record accurate (F : fops) (fin : D F -> Prop) (val : D F -> R) : Prop := mk_accurate {
  acc_int : forall z, (Z.abs z <= 2 ^ 53)%Z -> fin (fofz F z) /\ val (fofz F z) = IZR z;
  acc_lit : forall z, (Z.abs z <= 10 ^ 40)%Z -> fin (fofz F z) /\ Rabs (val (fofz F z) - IZR z) <= ulp * Rabs (IZR z);
  acc_neg : forall x, fin x -> fin (fneg F x) /\ val (fneg F x) = - val x;
  acc_add : forall x y, fin x -> fin y -> Rabs (val x) <= huge -> Rabs (val y) <= huge ->
    fin (fadd F x y) /\ Rabs (val (fadd F x y) - (val x + val y)) <= ulp * Rabs (val x + val y);
  acc_sub : forall x y, fin x -> fin y -> Rabs (val x) <= huge -> Rabs (val y) <= huge ->
    fin (fsub F x y) /\ Rabs (val (fsub F x y) - (val x - val y)) <= ulp * Rabs (val x - val y);
  acc_mul : forall x y, fin x -> fin y -> Rabs (val x) <= huge -> Rabs (val y) <= huge ->
    fin (fmul F x y) /\ Rabs (val (fmul F x y) - val x * val y) <= ulp * Rabs (val x * val y) + tiny;
  acc_div : forall x y, fin x -> fin y -> Rabs (val x) <= huge -> 1 <= Rabs (val y) ->
    fin (fdiv F x y) /\ Rabs (val (fdiv F x y) - val x / val y) <= ulp * Rabs (val x / val y) + tiny;
  acc_round : forall x, fin x -> Rabs (val x) <= 2147483648 -> fin (fround F x) /\ val (fround F x) = IZR (Rround (val x));
  acc_trunc : forall x, fin x -> ftrunc F x = Some (Rtrunc (val x));
  acc_le : forall x y, fin x -> fin y -> (fle F x y = true <-> val x <= val y);
  acc_cmul : forall x y, fin (fst x) -> fin (snd x) -> fin (fst y) -> fin (snd y) ->
    let X := (val (fst x), val (snd x)) in let Y := (val (fst y), val (snd y)) in Cmod X <= huge -> Cmod Y <= huge ->
    let z := fcmul F x y in fin (fst z) /\ fin (snd z) /\
    Cmod (Csub (val (fst z), val (snd z)) (Cmul X Y)) <= 3 * ulp * (Cmod X * Cmod Y) + tiny;
  acc_cdiv : forall x y, fin (fst x) -> fin (snd x) -> fin (fst y) -> fin (snd y) ->
    let X := (val (fst x), val (snd x)) in let Y := (val (fst y), val (snd y)) in Cmod X <= 10 ^ 50 -> / 10 ^ 50 <= Cmod Y <= 10 ^ 50 ->
    let z := fcdiv F x y in fin (fst z) /\ fin (snd z) /\
    Cmod (Csub (Cmul (val (fst z), val (snd z)) Y) X) <= 8 * ulp * Cmod X + tiny;
  acc_sqrt : forall x, fin x -> 0 <= val x -> fin (fsqrt F x) /\ Rabs (val (fsqrt F x) - sqrt (val x)) <= ulp * sqrt (val x) + tiny;
  acc_floor : forall x, fin x -> fin (ffloor F x) /\ val (ffloor F x) = IZR (Rfloor (val x));
  (* std::max(x, y) > t is false only if x <= t, and y <= t unless y is infinite or NaN *)
  acc_maxgt : forall x y t, fin x -> computed F fin y -> fin t -> fgt F (fmax F x y) t = false -> val x <= val t /\ (fin y -> val y <= val t)
}.

(** The table of roots of unity as doubles: each entry within 1.5e-15 of the exact root. *)
Definition table_near (F : fops) (fin : D F -> Prop) (val : D F -> R) (ztab : list (D F * D F)) : Prop :=
  length ztab = 1024%nat /\ forall k, (k < 1024)%nat -> let z := nth k ztab (fofz F 0, fofz F 0) in
    fin (fst z) /\ fin (snd z) /\ Cmod (Csub (val (fst z), val (snd z)) (nth k exact_table Czero)) <= 15 / 10000000000000000.

(** Euclidean norm of a complex vector; a vector of doubles whose entries are finite and whose values are at distance at most e from v *)
Definition vnorm (a : list Cx) : R := sqrt (Cnorm2 a).
Definition cval {F : fops} (val : D F -> R) (x : D F * D F) : Cx := (val (fst x), val (snd x)).
Definition approx (F : fops) (fin : D F -> Prop) (val : D F -> R) (l : list (D F * D F)) (v : list Cx) (e : R) : Prop :=
  length l = length v /\ Forall (fun x => fin (fst x) /\ fin (snd x)) l /\ vnorm (Cminus (length v) (map (cval val) l) v) <= e.

(** bounds on the moduli of the values of an integer polynomial at the roots of x^n + 1 *)
Definition values_le (lg : nat) (a : list Z) (b : R) : Prop := Forall (fun x => Cmod x <= b) (values lg (map Cz a)).
Definition values_ge (lg : nat) (a : list Z) (b : R) : Prop := Forall (fun x => b <= Cmod x) (values lg (map Cz a)).

(** binary64: the finite numbers in canonical form, and their values (-1)^s m 2^e *)
Definition fin64 (x : spec_float) : Prop :=
  SpecFloat.valid_binary 53 1024 x = true /\ match x with S754_infinity _ | S754_nan => False | _ => True end.
Definition val64 (x : spec_float) : R :=
  match x with S754_finite s m e => (if s then -1 else 1) * (IZR (Zpos m) * powerRZ 2 e) | _ => 0 end.
