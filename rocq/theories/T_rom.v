(** T_rom.v -- claim C94: hashes and signatures on request, with one table of the hash function, tell nothing about the secret key.  Exact arithmetic. *)
From Coq Require Import Reals.
From Verif Require Import Base Spec SpecT SpecV SpecR SpecS SpecG SpecJ SpecM M_ff M_codec M_ntt M_sig M_verify M_float M_exact M_samp M_fft M_ntru M_tree P_rom.
From Verif Require P_key.
Open Scope R_scope.

(** C94: somebody makes r requests, each for a hash of a salt and a message of their choice, or for a signature of a message of their choice; sign draws the salt.  All hashes go through one
    table: equal inputs have equal outputs, new inputs have uniformly random ones.  Every request may depend on all answers seen before, and in the end a test says yes or no.  Let x be the
    probability of yes in the experiment [ideal], which uses the public key h only (this determines x).  With the real sign, under any sound key whose public key is h, the probability
    differs from x by at most r (1/10000 + r/256^40) (N = 512) or r (13/1000 + r/256^40) (N = 1024). *)
Theorem C94_hash_and_sign_requests : forall lg, falcon_lg lg ->
  exists W, 0 < W /\ total (fun s => length (fst s) = (2 ^ lg)%nat /\ length (snd s) = (2 ^ lg)%nat) (fun s => exp (- (IZR (sqnorm (fst s) + sqnorm (snd s)) / (2 * (sigma_value RF lg * sigma_value RF lg))))) W /\
  forall h (A : view -> request) (D : view -> bool) k r, (512 <= k)%nat -> (forall seen, match A seen with ask_hash _ _ => True | ask_sign _ sig => bytes sig /\ (sig_bytes lg + 2 <= length sig)%nat end) ->
  exists x, (forall x', ideal lg h W k A D r [] [] x' <-> x' = x) /\ 0 <= x <= 1 /\
  forall f g F_ G_ h0, sound_key lg f g F_ G_ -> length h0 = (2 ^ lg)%nat -> compute_public_key lg f g h0 = Ok h ->
  forall skey, decode_skey lg skey (repeat 0%Z (2 ^ lg)) (repeat 0%Z (2 ^ lg)) (repeat 0%Z (2 ^ lg)) = Ok (true, (f, g, F_)) ->
  forall m n, (1 <= m)%nat -> (36 * k * 2 ^ lg * m <= n)%nat ->
  Rabs (prob (r * (40 + (136 * k + n))) (game lg skey k m n A D r [] []) - x) <= INR r * ((if Nat.eqb lg 9 then 1 / 10000 else 13 / 1000) + INR r / 256 ^ 40).
Proof. exact oracle_sim. Qed.
Print Assumptions C94_hash_and_sign_requests.

(** a strategy that asks in turn for a signature of all signatures seen so far and for a hash of the salt of the last one; and a sound key *)
Example C94_sat : let A : view -> request := fun seen => if Nat.even (length seen) then ask_sign (concat (map snd seen)) (repeat 0%Z 668) else ask_hash (firstn 40 (skipn 1 (concat (map snd seen)))) [] in
  (forall seen, match A seen with ask_hash _ _ => True | ask_sign _ sig => bytes sig /\ (sig_bytes 9 + 2 <= length sig)%nat end) /\ A [] = ask_sign [] (repeat 0%Z 668) /\ A [([], [])] = ask_hash [] [] /\
  exists h skey, compute_public_key 9 P_key.kf P_key.kg (repeat 0%Z 512) = Ok h /\
    decode_skey 9 skey (repeat 0%Z 512) (repeat 0%Z 512) (repeat 0%Z 512) = Ok (true, (P_key.kf, P_key.kg, P_key.kF)) /\ sound_key 9 P_key.kf P_key.kg P_key.kF P_key.kG.
Proof. exact oracle_example. Qed.
