(** SpecA.v -- the byte orders of the two variants of the integer sampler: a concatenation of attempts of 11 to 18 bytes,
    the first nine bytes of each in the opposite order. *)
From Coq Require Import ZArith List.
Import ListNotations.
Inductive turned : list Z -> list Z -> Prop :=
| turned_nil : turned [] []
| turned_seg a r l l' : length a = 9%nat -> (2 <= length r <= 9)%nat -> turned l l' -> turned (a ++ r ++ l) (rev a ++ r ++ l').
