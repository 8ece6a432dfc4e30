(** T_verify.v -- claims C22-C28 (and C12, C19 at the level of verification): hashing and verification.
    Vocabulary (Spec.v): [accepted_words] the 16-bit big-endian words below 5q, [hashed] the point of a
    byte stream, [accepts] the vectors denoted by signature bytes, [vnorm] the squared norm of
    (c - s2 h mod q, s2).  The XOF is an arbitrary function from byte strings to infinite byte streams.
    [verify m fuel]: m says what signed overflow does (Strict: undefined behaviour, Wrap: two's
    complement); fuel bounds the number of blocks read by the rejection sampling loop. *)
From Verif Require Import Base Spec M_ff M_ntt M_codec M_sig M_verify P_ff P_ntt P_nttx P_keys P_decomp P_comp P_sigx P_verify P_verifyx.
Open Scope Z_scope.

(** C22 *)
Theorem C22_hash_to_point : forall (xof : list Z -> nat -> Z) lg salt msg, byte_stream (xof (salt ++ msg)) ->
  (forall fuel poly, length poly = (2 ^ lg)%nat ->
    (exists c, hash_to_point fuel xof lg salt msg poly = Ok c /\ hashed (xof (salt ++ msg)) lg c /\ length c = (2 ^ lg)%nat /\ Forall canon c) \/
    hash_to_point fuel xof lg salt msg poly = Fuel) /\
  (forall c, hashed (xof (salt ++ msg)) lg c -> exists fuel0, forall fuel poly, (fuel0 <= fuel)%nat -> length poly = (2 ^ lg)%nat ->
     hash_to_point fuel xof lg salt msg poly = Ok c).
Proof. exact hash_point_spec. Qed.
Print Assumptions C22_hash_to_point.
Theorem C22_hashed_unique : forall s lg c c', hashed s lg c -> hashed s lg c' -> c = c'.
Proof. exact hashed_unique. Qed.
Print Assumptions C22_hashed_unique.
(** a stream that alternates 65535 (rejected) and 12290 (accepted, reduced to 1) *)
Example C22_sat : let s := fun i => nth (i mod 4) [255; 255; 48; 2] 0 in byte_stream s /\ hashed s 3 (repeat 1 8).
Proof.
  cbv zeta. split; [|exists 16%nat; split; [vm_compute; repeat constructor|vm_compute; reflexivity]].
  intros i. assert (B : (i mod 4 < 4)%nat) by (apply Nat.mod_upper_bound; lia).
  destruct (i mod 4)%nat as [|[|[|[|k]]]]; cbn; lia.
Qed.

(** C23: exactly five of the 65536 words are accepted and reduced to r *)
Theorem C23_uniform : forall r, canon r ->
  let l := [r; r + q; r + 2 * q; r + 3 * q; r + 4 * q] in
  NoDup l /\ forall w, In w l <-> 0 <= w < 65536 /\ (w <? kq) = true /\ ff w = r.
Proof. exact residue_words. Qed.
Print Assumptions C23_uniform.
(** seen through hash_to_point: among streams that repeat one word, exactly five give the constant polynomial r *)
Theorem C23_hash : forall (xof : list Z -> nat -> Z) lg salt msg w r, byte_stream (xof (salt ++ msg)) ->
  (forall i, word16 (xof (salt ++ msg)) i = w) -> canon r ->
  ((exists fuel poly, length poly = (2 ^ lg)%nat /\ hash_to_point fuel xof lg salt msg poly = Ok (repeat r (2 ^ lg))) <->
   In w [r; r + q; r + 2 * q; r + 3 * q; r + 4 * q]).
Proof. exact hash_one_word. Qed.
Print Assumptions C23_hash.
Example C23_hash_sat : let s := fun i => nth (i mod 2) [240; 4] 0 in byte_stream s /\ (forall i, word16 s i = 61444) /\ canon 12288 /\
  In 61444 [12288; 12288 + q; 12288 + 2 * q; 12288 + 3 * q; 12288 + 4 * q].
Proof.
  cbv zeta. split; [|split; [|split; [unfold canon, q; lia|vm_compute; tauto]]].
  - intros i. pose proof (Nat.mod_upper_bound i 2 ltac:(lia)). destruct (i mod 2)%nat as [|[|k]]; cbn; lia.
  - intros i. unfold word16. replace (2 * i)%nat with (i * 2)%nat by lia. rewrite Nat.mod_mul by lia.
    rewrite Nat.add_comm, Nat.mod_add by lia. reflexivity.
Qed.
Example C23_sat : canon 12288 /\ ff 61444 = 12288 /\ (61444 <? kq) = true /\ (61445 <? kq) = false.
Proof. repeat split; vm_compute; congruence. Qed.

(** C24: complete description of verify.  The signature is followed by at least two readable bytes (C21). *)
Theorem C24_verify : forall m fuel xof lg pk msg sig, falcon_lg lg -> (forall a, byte_stream (xof a)) ->
  bytes pk -> length pk = pkey_len lg -> bytes sig -> (sig_bytes lg + 2 <= length sig)%nat ->
  (nth 0 pk 0 <> Z.of_nat lg -> verify m fuel xof lg pk msg sig = Ok false) /\
  (nth 0 sig 0 <> 48 + Z.of_nat lg -> verify m fuel xof lg pk msg sig = Ok false) /\
  ((forall s, ~ accepts lg sig s) -> verify m fuel xof lg pk msg sig = Ok false) /\
  (forall h s2, decode_pkey lg pk (repeat 0 (2 ^ lg)) = Ok (true, h) -> nth 0 sig 0 = 48 + Z.of_nat lg -> accepts lg sig s2 ->
    verify m fuel xof lg pk msg sig =
    (c <- hash_to_point fuel xof lg (firstn 40 (skipn 1 sig)) msg (repeat 0 (2 ^ lg)%nat) ;;
     match m with
     | Strict => if vnorm lg c s2 h <? 2147483648 then Ok (vnorm lg c s2 h <=? beta2 lg) else UB
     | Wrap => Ok (i32 (vnorm lg c s2 h) <=? beta2 lg)
     end)).
Proof. exact verify_ok. Qed.
Print Assumptions C24_verify.
Theorem C24_accepts_iff : forall xof lg pk msg sig, falcon_lg lg -> (forall a, byte_stream (xof a)) ->
  bytes pk -> length pk = pkey_len lg -> bytes sig -> (sig_bytes lg + 2 <= length sig)%nat ->
  ((exists fuel, verify Strict fuel xof lg pk msg sig = Ok true) <->
   exists h s2 c, decode_pkey lg pk (repeat 0 (2 ^ lg)) = Ok (true, h) /\ nth 0 sig 0 = 48 + Z.of_nat lg /\ accepts lg sig s2 /\
     hashed (xof (firstn 40 (skipn 1 sig) ++ msg)) lg c /\ vnorm lg c s2 h <= beta2 lg).
Proof. exact verify_true_iff. Qed.
Print Assumptions C24_accepts_iff.
(** the right-hand side is inhabited: s2 = 0 and a stream hashing to (7,7,...) *)
Example C24_sat : exists sig, length sig = 668%nat /\ bytes sig /\ nth 0 sig 0 = 57 /\ accepts 9 sig (repeat 0 512) /\
  byte_stream (const_xof 7 []) /\ hashed (const_xof 7 []) 9 (repeat 7 512) /\ forall h, vnorm 9 (repeat 7 512) (repeat 0 512) h <= beta2 9.
Proof.
  destruct (zero_sig 9 (repeat 3 40)) as (e & Le & Be & E0 & _ & H); [left; reflexivity|reflexivity|apply Forall_rep; unfold byte; lia|].
  destruct (H [1; 2]) as (A & _ & H0). exists (e ++ [1; 2]). split; [rewrite app_length, Le; reflexivity|].
  split; [apply Forall_app; split; [exact Be|repeat (apply Forall_cons; [unfold byte; lia|]); apply Forall_nil]|].
  split; [exact H0|]. split; [exact A|]. split; [apply const_xof_ok; lia|]. split; [apply const_hashed; lia|].
  intros h. change 512%nat with (2 ^ 9)%nat. rewrite vnorm_zero; [|apply repeat_length|apply Forall_rep; unfold canon, q; lia].
  vm_compute. congruence.
Qed.

(** C25 (expected property fails).  With two's complement wrap-around there is a signature, the same for
    every public key and every message, that is accepted although the norm exceeds the bound; under the
    C++ rules the same call has undefined behaviour.  The XOF is one on which the hash is constant; see
    T_shake.v for SHAKE256. *)
Theorem C25_sound_refuted : forall lg salt x, falcon_lg lg -> length salt = 40%nat -> bytes salt -> bytes x -> (2 <= length x)%nat ->
  exists xof sig fuel, (forall a, byte_stream (xof a)) /\ length sig = sig_bytes lg /\ bytes sig /\ firstn 40 (skipn 1 sig) = salt /\
   forall pk msg, bytes pk -> length pk = pkey_len lg -> nth 0 pk 0 = Z.of_nat lg ->
     verify Wrap fuel xof lg pk msg (sig ++ x) = Ok true /\ verify Strict fuel xof lg pk msg (sig ++ x) = UB /\
     forall h c, decode_pkey lg pk (repeat 0 (2 ^ lg)) = Ok (true, h) -> hashed (xof (salt ++ msg)) lg c ->
       accepts lg (sig ++ x) (repeat 0 (2 ^ lg)) /\ vnorm lg c (repeat 0 (2 ^ lg)) h >= 2147483648 /\ beta2 lg < 2147483648.
Proof. exact universal_forgery. Qed.
Print Assumptions C25_sound_refuted.
(** whatever the hash, a signature with s2 = 0 gets the same verdict under every key *)
Theorem C25_zero_s2_any_key : forall m fuel xof lg pk pk' msg sig, falcon_lg lg -> (forall a, byte_stream (xof a)) ->
  bytes pk -> length pk = pkey_len lg -> nth 0 pk 0 = Z.of_nat lg -> bytes pk' -> length pk' = pkey_len lg -> nth 0 pk' 0 = Z.of_nat lg ->
  bytes sig -> (sig_bytes lg + 2 <= length sig)%nat -> accepts lg sig (repeat 0 (2 ^ lg)) ->
  verify m fuel xof lg pk msg sig = verify m fuel xof lg pk' msg sig.
Proof. exact zero_s2_any_key. Qed.
Print Assumptions C25_zero_s2_any_key.
Example C25_sat : falcon_lg 10 /\ length (9 :: repeat 171 896) = pkey_len 9 /\ length (10 :: repeat 1 1792) = pkey_len 10.
Proof. split; [right; reflexivity|]. split; vm_compute; reflexivity. Qed.

(** C26 (expected property fails at 6144 only) *)
Theorem C26_lift_least : forall v k, canon v -> v <> 6144 -> Z.abs (lift v) <= Z.abs (v + k * q).
Proof. intros v k C N. rewrite lift_lift0 by assumption. apply lift0_least. exact C. Qed.
Print Assumptions C26_lift_least.
Theorem C26_normalize_is_lift : forall v, canon v -> normalize v = lift v.
Proof. exact normalize_lift. Qed.
Print Assumptions C26_normalize_is_lift.
Theorem C26_lift_least_refuted : exists v k, canon v /\ Z.abs (v + k * q) < Z.abs (normalize v).
Proof. exists 6144, 0. unfold canon, q. split; [lia|]. vm_compute. reflexivity. Qed.
Print Assumptions C26_lift_least_refuted.
(** Falcon-512: same verdict as with the least representative *)
Theorem C26_falcon512_unaffected : forall c s2 h, (vnorm 9 c s2 h <= beta2 9 <-> vnorm0 9 c s2 h <= beta2 9).
Proof. exact lift_512. Qed.
Print Assumptions C26_falcon512_unaffected.
(** Falcon-1024: a vector of norm exactly beta^2 is rejected *)
Theorem C26_falcon1024_refuted : exists c s2, length c = 1024%nat /\ Forall canon c /\ length s2 = 1024%nat /\
  forall h, vnorm0 10 c s2 h <= beta2 10 /\ ~ vnorm 10 c s2 h <= beta2 10.
Proof.
  exists edge_c, (repeat 0 (2 ^ 10)). split; [vm_compute; reflexivity|]. split.
  - unfold edge_c. apply Forall_app. split; [|apply Forall_rep; unfold canon, q; lia]. repeat (apply Forall_cons; [unfold canon, q; lia|]). apply Forall_nil.
  - split; [vm_compute; reflexivity|]. intros h. destruct (edge_norms h). lia.
Qed.
Print Assumptions C26_falcon1024_refuted.
Example C26_sat : canon 6145 /\ normalize 6145 = -6144 /\ normalize 6143 = 6143 /\ lift0 6144 = 6144.
Proof. repeat split; vm_compute; congruence. Qed.

(** C27, verification side: wrong headers are rejected, for every interpretation of overflow and even when
    the hash would not terminate *)
Theorem C27_wrong_header : forall m fuel xof lg pk msg sig, falcon_lg lg -> (forall a, byte_stream (xof a)) ->
  bytes pk -> length pk = pkey_len lg -> bytes sig -> (sig_bytes lg + 2 <= length sig)%nat ->
  nth 0 pk 0 <> Z.of_nat lg \/ nth 0 sig 0 <> 48 + Z.of_nat lg -> verify m fuel xof lg pk msg sig = Ok false.
Proof.
  intros m fuel xof lg pk msg sig Hlg Hx Bp Lp Bs Ls H.
  destruct (verify_ok m fuel xof lg pk msg sig Hlg Hx Bp Lp Bs Ls) as (V1 & V2 & _). destruct H; auto.
Qed.
Print Assumptions C27_wrong_header.
Example C27_sat : nth 0 (10 :: repeat 1 896) 0 <> Z.of_nat 9 /\ length (10 :: repeat 1 896) = pkey_len 9.
Proof. split; [vm_compute; congruence|vm_compute; reflexivity]. Qed.

(** C12 at the level of verification: two public keys that are equal modulo q are interchangeable. *)
Theorem C12_alias_same_verdict : forall m fuel xof lg pk pk' h h' msg sig, falcon_lg lg -> (forall a, byte_stream (xof a)) ->
  bytes pk -> length pk = pkey_len lg -> bytes pk' -> length pk' = pkey_len lg ->
  decode_pkey lg pk (repeat 0 (2 ^ lg)) = Ok (true, h) -> decode_pkey lg pk' (repeat 0 (2 ^ lg)) = Ok (true, h') -> modq h = modq h' ->
  bytes sig -> (sig_bytes lg + 2 <= length sig)%nat ->
  verify m fuel xof lg pk msg sig = verify m fuel xof lg pk' msg sig.
Proof. exact alias_verify. Qed.
Print Assumptions C12_alias_same_verdict.

(** C19 at the level of verification: the verdict depends on header, salt and denoted vector only, and any
    signature with a small coefficient and 17 spare bits has three distinct encodings with that verdict. *)
Theorem C19_same_s2_same_verdict : forall m fuel xof lg pk msg sig sig' s2, falcon_lg lg -> (forall a, byte_stream (xof a)) ->
  bytes pk -> length pk = pkey_len lg -> bytes sig -> (sig_bytes lg + 2 <= length sig)%nat -> bytes sig' -> (sig_bytes lg + 2 <= length sig')%nat ->
  firstn 41 sig = firstn 41 sig' -> accepts lg sig s2 -> accepts lg sig' s2 ->
  verify m fuel xof lg pk msg sig = verify m fuel xof lg pk msg sig'.
Proof. exact same_s2_verify. Qed.
Print Assumptions C19_same_s2_same_verdict.
Theorem C19_strong_unforgeability_refuted : forall lg pre a c r, falcon_lg lg -> length pre = 41%nat -> bytes pre ->
  length (a ++ c :: r) = (2 ^ lg)%nat -> Forall (fun x => Z.abs x <= 1023) (a ++ c :: r) -> Z.abs c <= 127 ->
  tot (a ++ c :: r) + 16 < body_len lg ->
  exists e e' e'', e <> e' /\ e <> e'' /\ e' <> e'' /\
   Forall (fun s => length s = sig_bytes lg /\ bytes s /\ firstn 41 s = pre /\
     forall m fuel xof pk msg x, (forall a, byte_stream (xof a)) -> bytes pk -> length pk = pkey_len lg -> bytes x -> (2 <= length x)%nat ->
      accepts lg (s ++ x) (a ++ c :: r) /\
      verify m fuel xof lg pk msg (s ++ x) = verify m fuel xof lg pk msg (e ++ x)) [e; e'; e''].
Proof.
  intros lg pre a c r Hlg Lpre Bpre L F Hc T.
  destruct (malleable lg pre a c r Hlg Lpre Bpre L F Hc T) as (e & e' & e'' & N1 & N2 & N3 & H). exists e, e', e''.
  split; [exact N1|]. split; [exact N2|]. split; [exact N3|].
  assert (A : forall s, In s [e; e'; e''] -> length s = sig_bytes lg /\ bytes s /\ firstn 41 s = pre /\
    forall x, bytes x -> (2 <= length x)%nat -> accepts lg (s ++ x) (a ++ c :: r)).
  { intros s Hs. rewrite Forall_forall in H. destruct (H s Hs) as (Ls & Bs & Ps & D). split; [exact Ls|]. split; [exact Bs|]. split; [exact Ps|].
    intros x Bx Lx. destruct (decompress_iff lg (s ++ x) (repeat 0 (2 ^ lg)%nat) Hlg) as (b & v & E & _ & A1 & _).
    { apply Forall_app; split; assumption. } { change (sig_len lg) with (sig_bytes lg). rewrite app_length. lia. } { apply repeat_length. }
    rewrite (D x (repeat 0 (2 ^ lg)%nat) Bx Lx (repeat_length _ _)) in E. assert (EV : v = a ++ c :: r /\ b = true) by (split; congruence).
    destruct EV as [-> ->]. apply A1. reflexivity. }
  apply Forall_forall. intros s Hs. destruct (A s Hs) as (Ls & Bs & Ps & D). destruct (A e (or_introl eq_refl)) as (Le & Be & Pe & De).
  split; [exact Ls|]. split; [exact Bs|]. split; [exact Ps|]. intros m fuel xof pk msg x Hx Bp Lp Bx Lx. split; [apply D; assumption|].
  assert (P41 : forall z y : list Z, length z = sig_bytes lg -> firstn 41 (z ++ y) = firstn 41 z).
  { intros z y Lz. rewrite firstn_app. destruct (sig_dims lg Hlg) as (D1 & _). replace (41 - length z)%nat with 0%nat by lia. rewrite firstn_O, app_nil_r. reflexivity. }
  apply same_s2_verify with (s2 := a ++ c :: r); try assumption.
  - apply Forall_app; split; assumption.
  - rewrite app_length. lia.
  - apply Forall_app; split; assumption.
  - rewrite app_length. lia.
  - rewrite !P41 by assumption. congruence.
  - apply D; assumption.
  - apply De; assumption.
Qed.
Print Assumptions C19_strong_unforgeability_refuted.

(** C28 *)
Theorem C28_completeness : forall lg f g F G h0 h pk0 pk z0 z1 c salt msg e x xof, falcon_lg lg -> (forall a, byte_stream (xof a)) ->
  length f = (2 ^ lg)%nat -> length g = (2 ^ lg)%nat -> length F = (2 ^ lg)%nat -> length G = (2 ^ lg)%nat ->
  Forall smallq f -> Forall smallq g -> length h0 = (2 ^ lg)%nat -> length pk0 = pkey_len lg ->
  ntru (2 ^ lg) f g F G -> is_poly_invertible lg f = Ok true -> compute_public_key lg f g h0 = Ok h -> encode_pkey lg h pk0 = Ok pk ->
  length salt = 40%nat -> bytes salt -> bytes x -> (2 <= length x)%nat -> hashed (xof (salt ++ msg)) lg c ->
  let N := (2 ^ lg)%nat in
  let s2 := padd N (negacyclic N z0 f) (negacyclic N z1 F) in
  let s1 := psub N (psub N c (negacyclic N z0 g)) (negacyclic N z1 G) in
  sqnorm s1 + sqnorm s2 <= beta2 lg -> Forall (fun v => Z.abs v <= 1023) s2 -> (lg = 10%nat -> ~ In 6144 s1) ->
  (exists r, length r = (sig_bytes lg - 41)%nat /\ bytes r /\ compress_sig lg s2 ((48 + Z.of_nat lg :: salt) ++ r) = Ok (true, e)) ->
  exists fuel0, forall fuel m, (fuel0 <= fuel)%nat -> verify m fuel xof lg pk msg (e ++ x) = Ok true.
Proof. exact completeness. Qed.
Print Assumptions C28_completeness.
Example C28_sat : exists f g F G h pk z0 z1 c salt e xof,
  (forall a, byte_stream (xof a)) /\ length f = 512%nat /\ length g = 512%nat /\ length F = 512%nat /\ length G = 512%nat /\
  Forall smallq f /\ Forall smallq g /\ ntru 512 f g F G /\ is_poly_invertible 9 f = Ok true /\
  compute_public_key 9 f g (repeat 0 512) = Ok h /\ encode_pkey 9 h (repeat 0 897) = Ok pk /\
  length salt = 40%nat /\ bytes salt /\ hashed (xof (salt ++ [1; 2; 3])) 9 c /\
  let s2 := padd 512 (negacyclic 512 z0 f) (negacyclic 512 z1 F) in
  let s1 := psub 512 (psub 512 c (negacyclic 512 z0 g)) (negacyclic 512 z1 G) in
  sqnorm s1 + sqnorm s2 <= beta2 9 /\ 100 <= sqnorm s2 /\ Forall (fun v => Z.abs v <= 1023) s2 /\
  exists r, length r = 625%nat /\ bytes r /\ compress_sig 9 s2 ((48 + 9 :: salt) ++ r) = Ok (true, e).
Proof. exact honest_example. Qed.
