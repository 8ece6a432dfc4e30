(** SpecR.v -- vocabulary of the claims about complex-valued code (exact arithmetic). *)
From Coq Require Export Reals.
From Verif Require Import Base Spec.
Open Scope R_scope.

(** complex numbers as pairs (real, imaginary) *)
Definition Cx : Type := (R * R)%type.
Definition Cadd (x y : Cx) : Cx := (fst x + fst y, snd x + snd y).
Definition Csub (x y : Cx) : Cx := (fst x - fst y, snd x - snd y).
Definition Cmul (x y : Cx) : Cx := (fst x * fst y - snd x * snd y, fst x * snd y + snd x * fst y).
Definition Copp (x : Cx) : Cx := (- fst x, - snd x).
Definition Cconj (x : Cx) : Cx := (fst x, - snd x).
Definition Czero : Cx := (0, 0).
Definition Cone : Cx := (1, 0).
(** e^(i t) *)
Definition cis (t : R) : Cx := (cos t, sin t).

(** value of a polynomial (coefficient list) at x *)
Fixpoint horner (a : list Cx) (x : Cx) : Cx :=
  match a with [] => Czero | c :: r => Cadd c (Cmul x (horner r x)) end.

(** the i-th evaluation point of the FFT of size 2^lg, a root of x^(2^lg) + 1 *)
Definition fft_point (lg i : nat) : Cx := cis (PI * INR (2 * brv lg i + 1) / INR (2 ^ lg)).

(** FFT form of a polynomial: its values at the evaluation points *)
Definition values (lg : nat) (a : list Cx) : list Cx := map (fun i => horner a (fft_point lg i)) (seq 0 (2 ^ lg)).

(** a real number, an integer, as a complex number *)
Definition Cof (x : R) : Cx := (x, 0).
Definition Cz (z : Z) : Cx := (IZR z, 0).

(** the table of roots of unity the source approximates: entry k is e^(i pi brv10(k) / 1024) *)
Definition exact_table : list Cx := map (fun k => cis (PI * INR (brv 10 k) / 1024)) (seq 0 1024).

(** ** Polynomials with complex coefficients modulo x^n + 1 *)
Fixpoint Csigma (n : nat) (f : nat -> Cx) : Cx := match n with O => Czero | S n' => Cadd (Csigma n' f) (f n') end.
Definition Cnegacyclic (n : nat) (a b : list Cx) : list Cx :=
  tab n (fun k => Csigma n (fun i => Cmul (nth i a Czero) (if Nat.leb i k then nth (k - i) b Czero else Copp (nth (n + k - i) b Czero)))).
(** even and odd coefficients (n of each), and the inverse operation *)
Definition evens (n : nat) (a : list Cx) : list Cx := tab n (fun i => nth (2 * i) a Czero).
Definition odds (n : nat) (a : list Cx) : list Cx := tab n (fun i => nth (2 * i + 1) a Czero).
Definition interleave (n : nat) (a b : list Cx) : list Cx := tab (2 * n) (fun k => nth (k / 2) (if Nat.even k then a else b) Czero).
(** a*(x) = conj a_0 - sum_(k>0) conj a_(n-k) x^k, the adjoint *)
Definition adjoint (n : nat) (a : list Cx) : list Cx :=
  tab n (fun k => if Nat.eqb k 0 then Cconj (nth 0 a Czero) else Copp (Cconj (nth (n - k) a Czero))).
(** sum of |a_i|^2 *)
Definition Cnorm2 (a : list Cx) : R := fold_right (fun x s => fst x * fst x + snd x * snd x + s) 0 a.
(** coefficientwise sum and difference, over all n coefficients *)
Definition Cplus (n : nat) (a b : list Cx) : list Cx := tab n (fun k => Cadd (nth k a Czero) (nth k b Czero)).
Definition Cminus (n : nat) (a b : list Cx) : list Cx := tab n (fun k => Csub (nth k a Czero) (nth k b Czero)).

(** ** Integer polynomials at the evaluation points *)
Definition poly_at (lg : nat) (f : list Z) (i : nat) : Cx := horner (map Cz f) (fft_point lg i).
Fixpoint Rsigma (n : nat) (f : nat -> R) : R := match n with O => 0 | S n' => Rsigma n' f + f n' end.
Definition mod2 (x : Cx) : R := fst x * fst x + snd x * snd x.
(** squared norm of the first row (g, -f) of the NTRU basis at the i-th point *)
Definition row_norm (lg : nat) (f g : list Z) (i : nat) : R := mod2 (poly_at lg f i) + mod2 (poly_at lg g i).
(** squared norm of the second Gram-Schmidt vector (q f^star/(f f^star + g g^star), q g^star/(f f^star + g g^star)) *)
Definition gs_second (lg : nat) (f g : list Z) : R :=
  Rsigma (2 ^ lg) (fun i => IZR (q * q) / row_norm lg f g i) / INR (2 ^ lg).
(** squared Gram-Schmidt norm of the NTRU basis *)
Definition gs_norm (lg : nat) (f g : list Z) : R := Rmax (IZR (sqnorm f + sqnorm g)) (gs_second lg f g).

(** range of standard deviations given to the sampler: [1.2778336968, 1.7493] for N = 512 and [1.298280334, 1.7773] for N = 1024
    (the code's sigma_min literals are 1.277833697 and 1.298280334, sigma_max is 1.8205) *)
Definition leaf_lo (lg : nat) : R := if Nat.eqb lg 10 then 1298280334 / 1000000000 else 12778336968 / 10000000000.
Definition leaf_hi (lg : nat) : R := if Nat.eqb lg 10 then 17773 / 10000 else 17493 / 10000.
