(** M_shake.v -- SHAKE256 after FIPS 202 (the sha3 submodule is not part of /repo; hashing.hpp 31-44 and prng.hpp 35-41 use it).
    Only used to instantiate the XOF argument of the models with the actual hash function. *)
From Verif Require Import Base.
Open Scope Z_scope.

(** a lane is a 64-bit integer; the state is the list of the lanes A[x, y] at index x + 5 y *)
Definition m64 : Z := 18446744073709551615.
Definition rotl (x n : Z) : Z := Z.lor (Z.land (Z.shiftl x n) m64) (Z.shiftr x (64 - n)).
Definition lane (A : list Z) (x y : nat) : Z := nth (x mod 5 + 5 * (y mod 5)) A 0.
Definition lanes (f : nat -> nat -> Z) : list Z := flat_map (fun y => map (fun x => f x y) (seq 0 5)) (seq 0 5).
(** FIPS 202, 3.2.1 *)
Definition theta (A : list Z) : list Z :=
  let C := map (fun x => Z.lxor (Z.lxor (Z.lxor (Z.lxor (lane A x 0) (lane A x 1)) (lane A x 2)) (lane A x 3)) (lane A x 4)) (seq 0 5) in
  let D := map (fun x => Z.lxor (nth ((x + 4) mod 5) C 0) (rotl (nth ((x + 1) mod 5) C 0) 1)) (seq 0 5) in
  lanes (fun x y => Z.lxor (lane A x y) (nth x D 0)).
(** 3.2.2: offsets modulo 64, index x + 5 y *)
Definition rho_offsets : list Z := [0; 1; 62; 28; 27; 36; 44; 6; 55; 20; 3; 10; 43; 25; 39; 41; 45; 15; 21; 8; 18; 2; 61; 56; 14].
(** 3.2.2 and 3.2.3: A'[x, y] = rotl A[x + 3 y, x] *)
Definition rho_pi (A : list Z) : list Z :=
  lanes (fun x y => rotl (lane A (x + 3 * y) x) (lane rho_offsets (x + 3 * y) x)).
(** 3.2.4 *)
Definition chi (A : list Z) : list Z :=
  lanes (fun x y => Z.lxor (lane A x y) (Z.land (Z.lxor (lane A (x + 1) y) m64) (lane A (x + 2) y))).
(** 3.2.5 *)
Definition iota (rc : Z) (A : list Z) : list Z := match A with a :: r => Z.lxor a rc :: r | [] => [] end.
Definition round_constants : list Z := [
  1; 32898; 9223372036854808714; 9223372039002292224; 32907; 2147483649; 9223372039002292353; 9223372036854808585;
  138; 136; 2147516425; 2147483658; 2147516555; 9223372036854775947; 9223372036854808713; 9223372036854808579;
  9223372036854808578; 9223372036854775936; 32778; 9223372039002259466; 9223372039002292353; 9223372036854808704; 2147483649; 9223372039002292232].
(** 3.3: Keccak-p[1600, 24] *)
Definition keccak_f (A : list Z) : list Z := fold_left (fun A rc => iota rc (chi (rho_pi (theta A)))) round_constants A.

(** little-endian bytes of a lane, and back *)
Definition lane_bytes (a : Z) : list Z := map (fun j => Z.land (Z.shiftr a (8 * Z.of_nat j)) 255) (seq 0 8).
Fixpoint le_value (b : list Z) : Z := match b with [] => 0 | x :: r => x + 256 * le_value r end.
Definition state_bytes (A : list Z) : list Z := flat_map lane_bytes A.
(** chapter 4 and 6.2: sponge with rate 136 bytes, suffix 1111, pad10*1 *)
Definition rate : nat := 136.
Definition pad (m : list Z) : list Z :=
  let k := (rate - length m mod rate)%nat in
  match k with
  | 1%nat => m ++ [159]
  | _ => m ++ [31] ++ repeat 0 (k - 2) ++ [128]
  end.
Definition absorb_block (A b : list Z) : list Z :=
  keccak_f (map (fun i => if Nat.ltb i 17 then Z.lxor (nth i A 0) (le_value (firstn 8 (skipn (8 * i) b))) else nth i A 0) (seq 0 25)).
Definition absorb (m : list Z) : list Z :=
  let p := pad m in fold_left (fun A i => absorb_block A (firstn rate (skipn (rate * i) p))) (seq 0 (length p / rate)) (repeat 0 25%nat).
(** byte number i of the output *)
Definition shake256 (m : list Z) (i : nat) : Z := nth (i mod rate) (state_bytes (Nat.iter (i / rate) keccak_f (absorb m))) 0.
