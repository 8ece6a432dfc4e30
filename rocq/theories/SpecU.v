(** SpecU.v -- many signatures on messages that are chosen as one goes along, and the same experiment without the secret key.  Exact arithmetic. *)
From Verif Require Import Base Spec SpecT SpecR SpecG SpecJ SpecM M_verify M_float M_exact M_samp M_fft M_ntru M_tree.
From Coq Require Import Reals.
Open Scope R_scope.
(** what has been seen so far: hashed messages and signatures, the latest first *)
Notation history := (list (list Z * list Z)).
(** a way to go on: message, salt and output buffer of the next request, as a function of what has been seen *)
Notation strategy := (history -> list Z * list Z * list Z).
(** r requests, each with 136 k bytes of hash output and n bytes of the generator of its own; in the end the test D says yes or no *)
Fixpoint requests (lg : nat) (skey : list Z) (k m n : nat) (A : strategy) (D : history -> bool) (r : nat) (seen : history) (v : list Z) : bool :=
  match r with
  | O => D seen
  | S r' => let '(msg, salt, sig) := A seen in
            let w := firstn (136 * k + n) v in
            let xof := fun _ => stream (firstn (136 * k) w) in
            sees (fun c e => requests lg skey k m n A D r' ((c, e) :: seen) (skipn (136 * k + n) v))
                 (hash_to_point k xof lg salt msg (repeat 0%Z (2 ^ lg))) (sign RF exact_table m k xof lg skey msg sig (stream (salt ++ skipn (136 * k) w)))
  end.
(** x is the probability of yes when every request is answered with the point and the bytes of a vector (s1, s2) drawn from the Gaussian; W is the sum of all weights *)
Fixpoint simulated (lg : nat) (h : list Z) (W : R) (A : strategy) (D : history -> bool) (r : nat) (seen : history) (x : R) : Prop :=
  match r with
  | O => x = if D seen then 1 else 0
  | S r' => let '(msg, salt, sig) := A seen in
            exists y : list Z * list Z -> R, (forall s, simulated lg h W A D r' ((point_of lg h s, bytes_of lg salt sig s) :: seen) (y s)) /\
            total (fun s => length (fst s) = (2 ^ lg)%nat /\ length (snd s) = (2 ^ lg)%nat)
                  (fun s => exp (- (IZR (sqnorm (fst s) + sqnorm (snd s)) / (2 * (sigma_value RF lg * sigma_value RF lg)))) / W * y s) x
  end.
