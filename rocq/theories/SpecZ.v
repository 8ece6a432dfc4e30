(** SpecZ.v -- vocabulary for claim C102. *)
From Verif Require Import Base SpecG.
(** of a list of bytes, cut into pieces of 40 + 136 k + n bytes, the piece with number i; its first 40 bytes and last n bytes; its 136 k bytes in between *)
Definition piece (k n : nat) (v : list Z) (i : nat) : list Z := firstn (40 + (136 * k + n)) (skipn (i * (40 + (136 * k + n))) v).
Definition piece_rng (k n : nat) (v : list Z) (i : nat) : nat -> Z := stream (firstn 40 (piece k n v i) ++ skipn (40 + 136 * k) (piece k n v i)).
Definition piece_xof (k n : nat) (v : list Z) (i : nat) : list Z -> nat -> Z := fun _ => stream (firstn (136 * k) (skipn 40 (piece k n v i))).
(** a run ended, with any result; ended with yes; stopped at a read outside a buffer *)
Definition ended (r : res bool) : bool := match r with Ok _ => true | _ => false end.
Definition passed (r : res bool) : bool := match r with Ok true => true | _ => false end.
Definition read_outside (r : res bool) : bool := match r with UB => true | _ => false end.
