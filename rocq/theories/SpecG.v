(** SpecG.v -- vocabulary for the distribution of the integer sampler: Gaussian weights, and counting over byte strings. *)
From Verif Require Import Base Spec.
From Coq Require Import Reals.
Open Scope R_scope.

(** Gaussian weight of x for centre c and standard deviation s *)
Definition rho (s c x : R) : R := exp (- ((x - c) ^ 2 / (2 * s ^ 2))).
(** the largest standard deviation of the sampler *)
Definition smax : R := 18205 / 10000.
(** number of byte strings of length n that satisfy P *)
Fixpoint count (n : nat) (P : list Z -> bool) : Z :=
  match n with O => if P [] then 1%Z else 0%Z | S m => zsum 256 (fun b => count m (fun s => P (Z.of_nat b :: s))) end.
(** probability of P for a uniformly random byte string of length n *)
Definition prob (n : nat) (P : list Z -> bool) : R := IZR (count n P) / 256 ^ n.
(** a byte string as a stream, continued by zeros *)
Definition stream (s : list Z) : nat -> Z := fun i => nth i s 0%Z.
(** a run that ends normally with the value v *)
Definition returns (r : res (Z * nat)) (v : Z) : bool := match r with Ok (v', _) => (v' =? v)%Z | _ => false end.
(** a run that ends normally *)
Definition ends (r : res (Z * nat)) : bool := match r with Ok _ => true | _ => false end.
(** a run that ends normally after consuming j bytes of a stream read from its beginning *)
Definition spent (r : res (Z * nat)) (j : nat) : bool := match r with Ok (_, p) => Nat.eqb p j | _ => false end.
(** sum of the terms of a list *)
Definition lsum {A} (f : A -> R) (l : list A) : R := fold_right (fun a r => f a + r) 0 l.
(** G is the sum of the Gaussian weights of all integers *)
Definition gauss_sum (s c G : R) : Prop := is_lub (fun x => exists l : list Z, NoDup l /\ x = lsum (fun z => rho s c (IZR z)) l) G.
