(** T_adapt.v -- claim C91: signatures on messages chosen as one goes along tell nothing about the secret key.  Exact arithmetic. *)
From Coq Require Import Reals.
From Verif Require Import Base Spec SpecT SpecU SpecR SpecS SpecG SpecJ SpecM M_ff M_codec M_ntt M_sig M_verify M_float M_exact M_samp M_fft M_ntru M_tree P_adapt.
From Verif Require P_key.
Open Scope R_scope.

(** C91: somebody makes r requests for signatures; message, salt and output buffer of each may depend on all hashed messages and signatures seen before.  In the
    end a test says yes or no.  Let x be the probability of yes when every request is answered by the experiment of C90, for which only the public key h is
    needed (this determines x).  With the real sign, under any sound key whose public key is h, the probability differs from x by at most r/10000 (N = 512) or
    13 r/1000 (N = 1024), when the bytes of hash output and generator are uniformly random for each request. *)
Theorem C91_adaptive_requests : forall lg, falcon_lg lg ->
  exists W, 0 < W /\ total (fun s => length (fst s) = (2 ^ lg)%nat /\ length (snd s) = (2 ^ lg)%nat) (fun s => exp (- (IZR (sqnorm (fst s) + sqnorm (snd s)) / (2 * (sigma_value RF lg * sigma_value RF lg))))) W /\
  forall h (A : strategy) (D : history -> bool) r, (forall seen, let '(msg, salt, sig) := A seen in length salt = 40%nat /\ bytes salt /\ bytes sig /\ (sig_bytes lg + 2 <= length sig)%nat) ->
  exists x, (forall x', simulated lg h W A D r [] x' <-> x' = x) /\ 0 <= x <= 1 /\
  forall f g F_ G_ h0, sound_key lg f g F_ G_ -> length h0 = (2 ^ lg)%nat -> compute_public_key lg f g h0 = Ok h ->
  forall skey, decode_skey lg skey (repeat 0%Z (2 ^ lg)) (repeat 0%Z (2 ^ lg)) (repeat 0%Z (2 ^ lg)) = Ok (true, (f, g, F_)) ->
  forall k m n, (512 <= k)%nat -> (1 <= m)%nat -> (36 * k * 2 ^ lg * m <= n)%nat ->
  Rabs (prob (r * (136 * k + n)) (requests lg skey k m n A D r []) - x) <= INR r * (if Nat.eqb lg 9 then 1 / 10000 else 13 / 1000).
Proof. exact adaptive_sim. Qed.
Print Assumptions C91_adaptive_requests.

(** a strategy that signs the signatures seen so far, each time with another salt; and a sound key *)
Example C91_sat : let A : strategy := fun seen => (concat (map snd seen), repeat (Z.of_nat (length seen) mod 256)%Z 40, repeat 0%Z 668) in
  (forall seen, let '(msg, salt, sig) := A seen in length salt = 40%nat /\ bytes salt /\ bytes sig /\ (sig_bytes 9 + 2 <= length sig)%nat) /\
  exists h skey, compute_public_key 9 P_key.kf P_key.kg (repeat 0%Z 512) = Ok h /\
    decode_skey 9 skey (repeat 0%Z 512) (repeat 0%Z 512) (repeat 0%Z 512) = Ok (true, (P_key.kf, P_key.kg, P_key.kF)) /\ sound_key 9 P_key.kf P_key.kg P_key.kF P_key.kG.
Proof. exact adapt_example. Qed.
