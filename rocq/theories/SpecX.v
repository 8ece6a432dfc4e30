(** SpecX.v -- forging a signature after requests for hashes and signatures, and looking for short vectors of the public lattice with a forger.  Exact arithmetic. *)
From Verif Require Import Base Spec SpecT SpecV SpecR SpecG SpecJ SpecM M_sig M_verify M_float M_exact M_samp M_fft M_ntru M_tree.
From Coq Require Import Reals.
Open Scope R_scope.
(** r requests as in [game], except that a hash that is known already is not given again (the answer is empty).  In the end the test T says yes or no; it may look at the table *)
Fixpoint play (lg : nat) (skey : list Z) (k m n : nat) (A : view -> request) (T : list (list Z * list Z) -> view -> bool) (r : nat) (t : list (list Z * list Z)) (seen : view) (v : list Z) : bool :=
  match r with
  | O => T t seen
  | S r' => let sa := firstn 40 v in
            let u := firstn (136 * k) (skipn 40 v) in
            let w := firstn n (skipn (136 * k) (skipn 40 v)) in
            let rest := skipn (136 * k + n) (skipn 40 v) in
            let xof := fun a => stream (known t a u) in
            match A seen with
            | ask_hash salt msg =>
                match lookup t (salt ++ msg) with
                | Some _ => play lg skey k m n A T r' t (([], []) :: seen) rest
                | None => match hash_to_point k xof lg salt msg (repeat 0%Z (2 ^ lg)) with
                          | Ok c => play lg skey k m n A T r' ((salt ++ msg, u) :: t) ((c, []) :: seen) rest
                          | _ => false
                          end
                end
            | ask_sign msg sig =>
                sees (fun c e => play lg skey k m n A T r' ((sa ++ msg, known t (sa ++ msg) u) :: t) ((c, e) :: seen) rest)
                     (hash_to_point k xof lg sa msg (repeat 0%Z (2 ^ lg))) (sign RF exact_table m k xof lg skey msg sig (stream (sa ++ w)))
            end
  end.
(** a forgery: a number j and a signature sig, such that entry j was the answer to a request for the hash of a new input, its salt is the salt in sig, and verify accepts its message with sig;
    the table answers the hash inside verify *)
Definition forged (lg : nat) (pk : list Z) (k : nat) (A : view -> request) (F : view -> nat * list Z) (t : list (list Z * list Z)) (seen : view) : bool :=
  let '(j, sig) := F seen in
  match nth_error seen j, A (skipn (S j) seen) with
  | Some (_ :: _, []), ask_hash salt msg =>
      (if list_eq_dec Z.eq_dec salt (firstn 40 (skipn 1 sig)) then true else false) && match verify Strict k (fun a => stream (known t a [])) lg pk msg sig with Ok true => true | _ => false end
  | _, _ => false
  end.
(** u = (u1, u2) is a short non-zero vector of the public lattice: u1 + u2 h = 0 modulo q *)
Definition short_vector (lg : nat) (h : list Z) (u : list Z * list Z) : bool :=
  Nat.eqb (length (fst u)) (2 ^ lg) && Nat.eqb (length (snd u)) (2 ^ lg) && (if list_eq_dec Z.eq_dec (point_of lg h u) (repeat 0%Z (2 ^ lg)) then true else false) &&
  (0 <? sqnorm (fst u) + sqnorm (snd u))%Z && (sqnorm (fst u) + sqnorm (snd u) <=? 4 * beta2 lg)%Z.
(** the vector which a signature with second part s2 gives for the point c *)
Definition signed_vector (lg : nat) (h c s2 : list Z) : list Z * list Z := (map Spec.lift (s1_residues lg c s2 h), s2).
(** the difference between the vector of the forger's signature and the vector that was drawn for the same point *)
Definition difference (lg : nat) (h : list Z) (F : view -> nat * list Z) (seen : view) (drawn : list (list Z * list Z)) : list Z * list Z :=
  let '(j, sig) := F seen in
  let s := nth j drawn ([], []) in
  match decompress_sig lg sig (repeat 0%Z (2 ^ lg)) with
  | Ok (_, s2) => let s' := signed_vector lg h (fst (nth j seen ([], []))) s2 in (psub (2 ^ lg) (fst s') (fst s), psub (2 ^ lg) (snd s') (snd s))
  | _ => ([], [])
  end.
(** x is the probability of yes when there is no secret key and no hash function.  New hashes and signatures are answered with the point, or the point and the bytes, of a vector drawn from the
    Gaussian; p lists the inputs that are known, drawn the vectors, the latest first; W is the sum of all weights *)
Fixpoint solver (lg : nat) (h : list Z) (W : R) (A : view -> request) (E : view -> list (list Z * list Z) -> bool) (r : nat) (p : list (list Z)) (seen : view) (drawn : list (list Z * list Z)) (x : R) : Prop :=
  match r with
  | O => x = if E seen drawn then 1 else 0
  | S r' =>
      match A seen with
      | ask_hash salt msg =>
          if in_dec (list_eq_dec Z.eq_dec) (salt ++ msg) p then solver lg h W A E r' p (([], []) :: seen) (([], []) :: drawn) x
          else exists y : list Z * list Z -> R, (forall s, solver lg h W A E r' ((salt ++ msg) :: p) ((point_of lg h s, []) :: seen) (s :: drawn) (y s)) /\
             total (fun s => length (fst s) = (2 ^ lg)%nat /\ length (snd s) = (2 ^ lg)%nat)
                   (fun s => exp (- (IZR (sqnorm (fst s) + sqnorm (snd s)) / (2 * (sigma_value RF lg * sigma_value RF lg)))) / W * y s) x
      | ask_sign msg sig => exists z : list Z -> R,
          (forall sa, exists y : list Z * list Z -> R, (forall s, solver lg h W A E r' ((sa ++ msg) :: p) ((point_of lg h s, bytes_of lg sa sig s) :: seen) (s :: drawn) (y s)) /\
             total (fun s => length (fst s) = (2 ^ lg)%nat /\ length (snd s) = (2 ^ lg)%nat)
                   (fun s => exp (- (IZR (sqnorm (fst s) + sqnorm (snd s)) / (2 * (sigma_value RF lg * sigma_value RF lg)))) / W * y s) (z sa)) /\
          x = mean 40 z
      end
  end.
