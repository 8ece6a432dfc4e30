(** T_reduce.v -- claim C95: whoever forges signatures finds short vectors of the lattice of the public key.  Exact arithmetic. *)
From Coq Require Import Reals.
From Verif Require Import Base Spec SpecT SpecV SpecX SpecR SpecS SpecG SpecJ SpecM M_ff M_codec M_ntt M_sig M_verify M_float M_exact M_samp M_fft M_ntru M_tree P_reduce.
From Verif Require P_key.
Open Scope R_scope.

(** C95: somebody makes r requests for hashes and signatures of their choice, and then names one hash they asked for and a signature.  They succeed if verify accepts this signature for the message
    whose hash they asked for.  Let x be the probability that, in the experiment [solver], which uses the public key h only, the difference between the forger's vector and the vector drawn
    for the same point is a non-zero pair (u1, u2) with u1 + u2 h = 0 modulo q of squared length at most four times the bound of verify (this determines x).  With the real sign and the
    real verify, under any sound key whose public key is h, the forger's success has probability at most x + r (4/10000 + r/256^40) (N = 512) or x + r (52/1000 + r/256^40) (N = 1024). *)
Theorem C95_forging : forall lg, falcon_lg lg ->
  exists W, 0 < W /\ total (fun s => length (fst s) = (2 ^ lg)%nat /\ length (snd s) = (2 ^ lg)%nat) (fun s => exp (- (IZR (sqnorm (fst s) + sqnorm (snd s)) / (2 * (sigma_value RF lg * sigma_value RF lg))))) W /\
  forall h (A : view -> request) (F : view -> nat * list Z) k r, (512 <= k)%nat -> (forall seen, match A seen with ask_hash _ _ => True | ask_sign _ sig => bytes sig /\ (sig_bytes lg + 2 <= length sig)%nat end) ->
  (forall seen, bytes (snd (F seen)) /\ (sig_bytes lg + 2 <= length (snd (F seen)))%nat) ->
  exists x, (forall x', solver lg h W A (fun seen drawn => short_vector lg h (difference lg h F seen drawn)) r [] [] [] x' <-> x' = x) /\ 0 <= x <= 1 /\
  forall f g F_ G_ h0, sound_key lg f g F_ G_ -> length h0 = (2 ^ lg)%nat -> compute_public_key lg f g h0 = Ok h ->
  forall pk, bytes pk -> length pk = pkey_len lg -> decode_pkey lg pk (repeat 0%Z (2 ^ lg)) = Ok (true, h) ->
  forall skey, decode_skey lg skey (repeat 0%Z (2 ^ lg)) (repeat 0%Z (2 ^ lg)) (repeat 0%Z (2 ^ lg)) = Ok (true, (f, g, F_)) ->
  forall m n, (1 <= m)%nat -> (36 * k * 2 ^ lg * m <= n)%nat ->
  prob (r * (40 + (136 * k + n))) (play lg skey k m n A (forged lg pk k A F) r [] []) <= x + INR r * ((if Nat.eqb lg 9 then 4 / 10000 else 52 / 1000) + INR r / 256 ^ 40).
Proof. exact forger_solves. Qed.
Print Assumptions C95_forging.

(** a forger who asks in turn for a hash of the signatures seen so far and for a signature of the points seen so far, and then names the first hash; and a sound key *)
Example C95_sat : let A : view -> request := fun seen => if Nat.even (length seen) then ask_hash (repeat 3%Z 40) (concat (map snd seen)) else ask_sign (concat (map fst seen)) (repeat 0%Z 668) in
  let F : view -> nat * list Z := fun seen => (pred (length seen), 57%Z :: repeat 3%Z 40 ++ repeat 0%Z 627) in
  (forall seen, match A seen with ask_hash _ _ => True | ask_sign _ sig => bytes sig /\ (sig_bytes 9 + 2 <= length sig)%nat end) /\
  (forall seen, bytes (snd (F seen)) /\ (sig_bytes 9 + 2 <= length (snd (F seen)))%nat) /\ A [] = ask_hash (repeat 3%Z 40) [] /\
  exists h skey pk, compute_public_key 9 P_key.kf P_key.kg (repeat 0%Z 512) = Ok h /\ bytes pk /\ length pk = pkey_len 9 /\ decode_pkey 9 pk (repeat 0%Z 512) = Ok (true, h) /\
    decode_skey 9 skey (repeat 0%Z 512) (repeat 0%Z 512) (repeat 0%Z 512) = Ok (true, (P_key.kf, P_key.kg, P_key.kF)) /\ sound_key 9 P_key.kf P_key.kg P_key.kF P_key.kG.
Proof. exact forge_example. Qed.
