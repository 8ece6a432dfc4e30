(** SpecT.v -- a change of signature bytes that needs no key: one small coefficient gets its second encoding (cf. C19). *)
From Verif Require Import Base Spec M_ff M_sig.
Open Scope Z_scope.
(** n bytes from a bit string, most significant bit first *)
Fixpoint pack (n : nat) (l : list bool) : list Z := match n with O => [] | S m => bv (firstn 8 l) :: pack m (skipn 8 l) end.
(** encoding of a vector in which the first coefficient of absolute value at most 127 is written with eight zero bits, a chunk that contains
    a one and a last bit, instead of the single stop bit *)
Fixpoint recode (s : list Z) : list bool :=
  match s with
  | [] => []
  | c :: r => if Z.abs c <=? 127 then ((c <? 0) :: low7 (Z.abs c) ++ repeat false 8 ++ true :: repeat false 8) ++ encs r else enc c ++ recode r
  end.
(** the changed signature: header, salt and what follows the signature are kept *)
Definition twist (lg : nat) (sig : list Z) : list Z :=
  match decompress_sig lg sig (repeat 0 (2 ^ lg)) with
  | Ok (true, s) => firstn 41 sig ++ pack (sig_bytes lg - 41) (recode s ++ repeat false (8 * (sig_bytes lg - 41))) ++ skipn (sig_bytes lg) sig
  | _ => sig
  end.
(** a run of sign that ends with a signature which the check v accepts, and also accepts after the change t, which keeps the first n bytes
    and alters the rest *)
Definition signs_twice (r : res (bool * list Z)) (v : list Z -> res bool) (t : list Z -> list Z) (n : nat) : bool :=
  match r with
  | Ok (true, e) => match v e, v (t e) with Ok true, Ok true => true | _, _ => false end && (if list_eq_dec Z.eq_dec (firstn n (t e)) (firstn n e) then true else false) && (if list_eq_dec Z.eq_dec (t e) e then false else true)
  | _ => false
  end.
(** the point s1 + s2 h modulo q which the vector (s1, s2) signs under the public key h *)
Definition point_of (lg : nat) (h : list Z) (s : list Z * list Z) : list Z := tab (2 ^ lg) (fun i => (nth i (fst s) 0 + nth i (negacyclic (2 ^ lg) (snd s) h) 0) mod q).
(** signature bytes for the salt and the vector (s1, s2), in the buffer sig *)
Definition bytes_of (lg : nat) (salt sig : list Z) (s : list Z * list Z) : list Z :=
  (48 + Z.of_nat lg :: salt) ++ pack (sig_bytes lg - 41) (encs (snd s) ++ repeat false (Z.to_nat (body_len lg - tot (snd s)))) ++ skipn (sig_bytes lg) sig.
(** a run in which hashing and signing end normally, and the test D says yes to the hashed message and the signature *)
Definition sees (D : list Z -> list Z -> bool) (hash : res (list Z)) (r : res (bool * list Z)) : bool :=
  match hash, r with Ok c, Ok (true, e) => D c e | _, _ => false end.
