(** SpecY.v -- changing a signature that one was given, and the short vectors this yields.  Exact arithmetic. *)
From Verif Require Import Base Spec SpecT SpecV SpecX SpecR SpecG SpecJ SpecM M_sig M_verify.
From Coq Require Import Reals.
(** a second signature: a number j and a signature sig, such that entry j was the answer e to a request for a signature, sig has the salt of e, verify accepts both for the message of the
    request, and they stand for different vectors; the table answers the hash inside verify *)
Definition altered (lg : nat) (pk : list Z) (k : nat) (A : view -> request) (F : view -> nat * list Z) (t : list (list Z * list Z)) (seen : view) : bool :=
  let '(j, sig) := F seen in
  let accepted := fun msg s => match verify Strict k (fun a => stream (known t a [])) lg pk msg s with Ok true => true | _ => false end in
  match nth_error seen j, A (skipn (S j) seen) with
  | Some (_, e), ask_sign msg _ =>
      (if list_eq_dec Z.eq_dec (firstn 40 (skipn 1 e)) (firstn 40 (skipn 1 sig)) then true else false) && accepted msg e && accepted msg sig &&
      match decompress_sig lg e (repeat 0%Z (2 ^ lg)), decompress_sig lg sig (repeat 0%Z (2 ^ lg)) with
      | Ok (_, s2), Ok (_, s2') => if list_eq_dec Z.eq_dec s2 s2' then false else true
      | _, _ => false
      end
  | _, _ => false
  end.
(** as [difference]; for an entry that has a signature, the difference between the vectors of the two signatures *)
Definition distance (lg : nat) (h : list Z) (F : view -> nat * list Z) (seen : view) (drawn : list (list Z * list Z)) : list Z * list Z :=
  let '(j, sig) := F seen in
  match nth j seen ([], []) with
  | (_, []) => difference lg h F seen drawn
  | (c, e) => match decompress_sig lg e (repeat 0%Z (2 ^ lg)), decompress_sig lg sig (repeat 0%Z (2 ^ lg)) with
              | Ok (_, s2), Ok (_, s2') => let s := signed_vector lg h c s2 in let s' := signed_vector lg h c s2' in (psub (2 ^ lg) (fst s') (fst s), psub (2 ^ lg) (snd s') (snd s))
              | _, _ => ([], [])
              end
  end.
