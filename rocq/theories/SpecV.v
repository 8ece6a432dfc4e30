(** SpecV.v -- many requests, for hashes and for signatures, chosen as one goes along, with one table of the hash function; and the same experiment without the secret key.
    Exact arithmetic. *)
From Verif Require Import Base Spec SpecT SpecR SpecG SpecJ SpecM M_verify M_float M_exact M_samp M_fft M_ntru M_tree.
From Coq Require Import Reals.
Open Scope R_scope.
(** a request: the hash of salt and message, or a signature of a message, written into a buffer *)
Inductive request := ask_hash (salt msg : list Z) | ask_sign (msg sig : list Z).
(** what has been seen so far, the latest first: points and signatures (an empty one for requests of the first kind) *)
Notation view := (list (list Z * list Z)).
(** the entry of a table for the input a; the fresh value u if there is none *)
Fixpoint lookup (t : list (list Z * list Z)) (a : list Z) : option (list Z) :=
  match t with [] => None | (b, v) :: t' => if list_eq_dec Z.eq_dec a b then Some v else lookup t' a end.
Definition known (t : list (list Z * list Z)) (a u : list Z) : list Z := match lookup t a with Some v => v | None => u end.
(** r requests.  Each has 40 bytes of salt, 136 k bytes of hash output and n more bytes of the generator of its own.  The hash function answers inputs of the table t with the bytes
    there, and any other input with the fresh bytes; the input that was used enters the table.  In the end the test D says yes or no. *)
Fixpoint game (lg : nat) (skey : list Z) (k m n : nat) (A : view -> request) (D : view -> bool) (r : nat) (t : list (list Z * list Z)) (seen : view) (v : list Z) : bool :=
  match r with
  | O => D seen
  | S r' => let sa := firstn 40 v in
            let u := firstn (136 * k) (skipn 40 v) in
            let w := firstn n (skipn (136 * k) (skipn 40 v)) in
            let rest := skipn (136 * k + n) (skipn 40 v) in
            let xof := fun a => stream (known t a u) in
            match A seen with
            | ask_hash salt msg =>
                match hash_to_point k xof lg salt msg (repeat 0%Z (2 ^ lg)) with
                | Ok c => game lg skey k m n A D r' ((salt ++ msg, known t (salt ++ msg) u) :: t) ((c, []) :: seen) rest
                | _ => false
                end
            | ask_sign msg sig =>
                sees (fun c e => game lg skey k m n A D r' ((sa ++ msg, known t (sa ++ msg) u) :: t) ((c, e) :: seen) rest)
                     (hash_to_point k xof lg sa msg (repeat 0%Z (2 ^ lg))) (sign RF exact_table m k xof lg skey msg sig (stream (sa ++ w)))
            end
  end.
(** mean of f over the byte strings of length n *)
Fixpoint sum_to (n : nat) (f : nat -> R) : R := match n with O => 0 | S m => sum_to m f + f m end.
Fixpoint mean (n : nat) (f : list Z -> R) : R := match n with O => f [] | S m => sum_to 256 (fun b => mean m (fun s => f (Z.of_nat b :: s))) / 256 end.
(** x is the probability of yes when there is no secret key.  The table p holds points.  A hash of an input of the table is the point there, of another one the point made from fresh
    bytes.  A request for a signature is answered, for a random salt, with the point and the bytes of a vector (s1, s2) drawn from the Gaussian, and the point enters the table; W is
    the sum of all weights *)
Fixpoint ideal (lg : nat) (h : list Z) (W : R) (k : nat) (A : view -> request) (D : view -> bool) (r : nat) (p : list (list Z * list Z)) (seen : view) (x : R) : Prop :=
  match r with
  | O => x = if D seen then 1 else 0
  | S r' =>
      match A seen with
      | ask_hash salt msg =>
          match lookup p (salt ++ msg) with
          | Some c => ideal lg h W k A D r' ((salt ++ msg, c) :: p) ((c, []) :: seen) x
          | None => exists y : list Z -> R, (forall c, ideal lg h W k A D r' ((salt ++ msg, c) :: p) ((c, []) :: seen) (y c)) /\
              x = mean (136 * k) (fun u => match hash_to_point k (fun _ => stream u) lg salt msg (repeat 0%Z (2 ^ lg)) with Ok c => y c | _ => 0 end)
          end
      | ask_sign msg sig => exists z : list Z -> R,
          (forall sa, exists y : list Z * list Z -> R, (forall s, ideal lg h W k A D r' ((sa ++ msg, point_of lg h s) :: p) ((point_of lg h s, bytes_of lg sa sig s) :: seen) (y s)) /\
             total (fun s => length (fst s) = (2 ^ lg)%nat /\ length (snd s) = (2 ^ lg)%nat)
                   (fun s => exp (- (IZR (sqnorm (fst s) + sqnorm (snd s)) / (2 * (sigma_value RF lg * sigma_value RF lg)))) / W * y s) (z sa)) /\
          x = mean 40 z
      end
  end.
