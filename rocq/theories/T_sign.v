(** T_sign.v -- claims C27 (signing side), C29, C30, C49, C50 and C55: signing.

    C27 and C30 hold for any floating point behaviour F; the others are about exact arithmetic (RF, exact_table). *)
From Coq Require Import Lra.
From Verif Require Import Base Spec SpecR M_ff M_ntt M_codec M_sig M_verify M_float M_exact M_samp M_fft M_ntru M_tree P_leaf P_signb P_signx P_signv.
Open Scope Z_scope.

(** C27, signing side: a secret key with a wrong first byte is rejected and the signature buffer is left alone. *)
Theorem C27_sign_wrong_header : forall F (zt : list (D F * D F)) fuel sfuel xof lg skey msg sig rng, falcon_lg lg -> bytes skey -> length skey = skey_len lg ->
  nth 0 skey 0 <> 80 + Z.of_nat lg -> sign F zt fuel sfuel xof lg skey msg sig rng = Ok (false, sig).
Proof. exact sign_wrong_header. Qed.
Print Assumptions C27_sign_wrong_header.
Example C27_sign_sat : length (90 :: repeat 1 1280) = skey_len 9 /\ bytes (90 :: repeat 1 1280) /\ nth 0 (90 :: repeat 1 1280) 0 <> 80 + Z.of_nat 9.
Proof. split; [reflexivity|]. split; [constructor; [unfold byte; lia|apply P_nttx.Forall_rep; unfold byte; lia]|cbn; lia]. Qed.

(** C30: whatever the floating point code does, a returned signature is header, the 40 bytes read first, and the
    compressed form, zero padded, of a vector s2 that was rounded from a vector (s0, s1) whose computed norm passed
    the comparison with beta^2; nothing beyond sbytelen bytes is written. *)
Theorem C30_layout : forall F (zt : list (D F * D F)) fuel sfuel xof lg B T msg sig g pos sig' pos', falcon_lg lg -> (sig_bytes lg <= length sig)%nat ->
  sign_bt F zt fuel sfuel xof lg B T msg sig g pos = Ok (sig', pos') ->
  let salt := map (fun i => g (pos + i)%nat) (seq 0 40) in
  exists c t0 t1 s2 body, hash_to_point sfuel xof lg salt msg (repeat 0 (2 ^ lg)) = Ok c /\ sign_target F zt lg B c = Ok (t0, t1) /\
    (exists p z0 z1 s0 s1 n0 n1 s1',
      ff_sampling F zt sfuel lg 0 t0 t1 T 0 (sigma_min F lg) g p = Ok (z0, z1, pos') /\ sign_vector F lg B t0 t1 z0 z1 = Ok (s0, s1) /\
      sqrd_norm_c F lg s0 = Ok n0 /\ sqrd_norm_c F lg s1 = Ok n1 /\ fle F (fadd F n0 n1) (fofz F (beta2 lg)) = true /\
      ifft F zt lg s1 = Ok s1' /\ round_poly F lg s1' (repeat 0%Z (2 ^ lg)) = Ok s2) /\ length s2 = (2 ^ lg)%nat /\
    length body = (sig_bytes lg - 41)%nat /\ bytes body /\ tot s2 < body_len lg /\
    bits_of body = encs s2 ++ repeat false (Z.to_nat (body_len lg - tot s2)) /\
    sig' = (48 + Z.of_nat lg :: salt) ++ body ++ skipn (sig_bytes lg) sig.
Proof. exact sign_layout. Qed.
Print Assumptions C30_layout.

(** C49: for every tree, target and random stream. *)
Theorem C49_integral : forall lg fuel smin g (T t0 t1 : list Cx) off lvl pos z0 z1 pos', (lg <= 10)%nat -> length t0 = (2 ^ lg)%nat -> length t1 = (2 ^ lg)%nat ->
  ff_sampling RF exact_table fuel lg lvl t0 t1 T off smin g pos = Ok (z0, z1, pos') ->
  exists a0 a1 : list Z, length a0 = (2 ^ lg)%nat /\ length a1 = (2 ^ lg)%nat /\ z0 = values lg (map Cz a0) /\ z1 = values lg (map Cz a1).
Proof. exact ffsamp_values. Qed.
Print Assumptions C49_integral.

(** C29: for every solution of the NTRU equation, every tree T and random stream, the signature denotes
    s2 = z0 f + z1 F for integer vectors z0, z1, and s1 = c - z0 g - z1 G is such that (s1, s2) passes the bound. *)
Theorem C29_signing_algebra : forall lg, falcon_lg lg -> forall f g F_ G_ : list Z,
  length f = (2 ^ lg)%nat -> length g = (2 ^ lg)%nat -> length F_ = (2 ^ lg)%nat -> length G_ = (2 ^ lg)%nat -> ntru (2 ^ lg) f g F_ G_ ->
  forall xof, (forall a, byte_stream (xof a)) -> forall fuel sfuel B T msg sig rng pos sig' pos', (sig_bytes lg <= length sig)%nat ->
  compute_matrix_B RF exact_table lg f g F_ G_ = Ok B ->
  sign_bt RF exact_table fuel sfuel xof lg B T msg sig rng pos = Ok (sig', pos') ->
  let N := (2 ^ lg)%nat in
  let salt := map (fun i => rng (pos + i)%nat) (seq 0 40) in
  exists c z0 z1 s1 s2 body, hashed (xof (salt ++ msg)) lg c /\ length z0 = N /\ length z1 = N /\
    s1 = psub N (psub N c (negacyclic N z0 g)) (negacyclic N z1 G_) /\ s2 = padd N (negacyclic N z0 f) (negacyclic N z1 F_) /\
    sqnorm s1 + sqnorm s2 <= beta2 lg /\
    length body = (sig_bytes lg - 41)%nat /\ bytes body /\ tot s2 < body_len lg /\
    bits_of body = encs s2 ++ repeat false (Z.to_nat (body_len lg - tot s2)) /\
    sig' = (48 + Z.of_nat lg :: salt) ++ body ++ skipn (sig_bytes lg) sig.
Proof. exact sign_bt_vector. Qed.
Print Assumptions C29_signing_algebra.
Example C29_sat : let k := cst (2 ^ 9) in ntru (2 ^ 9) (k 100) (k 1) (k 11) (k 123).
Proof. exact (proj1 key_100). Qed.

(** C50 *)
Theorem C50_recompute_G : forall lg (f g F_ G_ out : list Z), (lg <= 10)%nat -> length f = (2 ^ lg)%nat -> length g = (2 ^ lg)%nat -> length F_ = (2 ^ lg)%nat -> length G_ = (2 ^ lg)%nat ->
  length out = (2 ^ lg)%nat -> ntru (2 ^ lg) f g F_ G_ -> Forall (fun x => -2147483648 <= x <= 2147483647) G_ ->
  (forall i, (i < 2 ^ lg)%nat -> poly_at lg f i <> Czero) -> recompute_G RF exact_table lg f g F_ out = Ok G_.
Proof. exact recompute_G_roots. Qed.
Print Assumptions C50_recompute_G.
(** in particular for every f that key generation can return: invertible modulo q *)
Theorem C50_generated : forall lg (f g F_ G_ out : list Z), (lg <= 10)%nat -> length f = (2 ^ lg)%nat -> length g = (2 ^ lg)%nat -> length F_ = (2 ^ lg)%nat -> length G_ = (2 ^ lg)%nat ->
  length out = (2 ^ lg)%nat -> ntru (2 ^ lg) f g F_ G_ -> Forall (fun x => -2147483648 <= x <= 2147483647) G_ ->
  (exists fi, length fi = (2 ^ lg)%nat /\ modq (negacyclic (2 ^ lg) f fi) = onep (2 ^ lg)) -> recompute_G RF exact_table lg f g F_ out = Ok G_.
Proof. exact recompute_G_unit. Qed.
Print Assumptions C50_generated.
Example C50_sat : ntru 2 [3; 2] [4; 1] [-1638; 411] [1230; -818] /\ modq (negacyclic 2 [3; 2] [8508; 6617]) = onep 2.
Proof. split; [|reflexivity]. intros k Hk. destruct k as [|[|k]]; [reflexivity|reflexivity|lia]. Qed.

(** C55: sign, then verify.  f, g, F are what the secret key decodes to, G their completion, h the public key of f, g.
    The two conditions at the end are those of C16 and C26. *)
Theorem C55_sign_then_verify : forall lg, falcon_lg lg -> forall f g F_ G_ : list Z,
  length f = (2 ^ lg)%nat -> length g = (2 ^ lg)%nat -> length F_ = (2 ^ lg)%nat -> length G_ = (2 ^ lg)%nat -> ntru (2 ^ lg) f g F_ G_ ->
  forall xof, (forall a, byte_stream (xof a)) -> Forall smallq f -> Forall smallq g -> is_poly_invertible lg f = Ok true ->
  Forall (fun x => -2147483648 <= x <= 2147483647) G_ ->
  forall fuel sfuel skey msg sig rng sig' b h0 h pk0 pk, bytes sig -> (sig_bytes lg + 2 <= length sig)%nat -> byte_stream rng ->
  length h0 = (2 ^ lg)%nat -> length pk0 = pkey_len lg -> compute_public_key lg f g h0 = Ok h -> encode_pkey lg h pk0 = Ok pk ->
  decode_skey lg skey (repeat 0 (2 ^ lg)) (repeat 0 (2 ^ lg)) (repeat 0 (2 ^ lg)) = Ok (true, (f, g, F_)) ->
  sign RF exact_table fuel sfuel xof lg skey msg sig rng = Ok (b, sig') ->
  b = true /\ let salt := map rng (seq 0 40) in
  exists c s1 s2 body, hashed (xof (salt ++ msg)) lg c /\ length s1 = (2 ^ lg)%nat /\ length s2 = (2 ^ lg)%nat /\
    modq s1 = s1_residues lg c s2 h /\ sqnorm s1 + sqnorm s2 <= beta2 lg /\
    bytes body /\ tot s2 < body_len lg /\ bits_of body = encs s2 ++ repeat false (Z.to_nat (body_len lg - tot s2)) /\
    sig' = (48 + Z.of_nat lg :: salt) ++ body ++ skipn (sig_bytes lg) sig /\
    (Forall (fun v => Z.abs v <= 1023) s2 -> (lg = 10%nat -> ~ In 6144 s1) ->
      exists fuel0, forall fuel m, (fuel0 <= fuel)%nat -> verify m fuel xof lg pk msg sig' = Ok true).
Proof. exact sign_verifies. Qed.
Print Assumptions C55_sign_then_verify.

(** the same for the byte strings key generation returns *)
Theorem C55_keygen_sign_verify : forall fk sfk fuel sfuel lg rngk rng pk0 sk0 pk sk xof msg sig sig' b f g F_ G_ p, falcon_lg lg ->
  (forall a, byte_stream (xof a)) -> byte_stream rngk -> byte_stream rng ->
  length pk0 = pkey_len lg -> length sk0 = skey_len lg -> bytes sig -> (sig_bytes lg + 2 <= length sig)%nat ->
  keygen_bytes RF exact_table fk sfk lg pk0 sk0 rngk = Ok (pk, sk) ->
  ntru_gen RF exact_table fk sfk lg rngk 0 (repeat 0 (2 ^ lg)) (repeat 0 (2 ^ lg)) (repeat 0 (2 ^ lg)) (repeat 0 (2 ^ lg)) = Ok (f, g, F_, G_, p) ->
  Forall (fits (skey_modulus lg)) f -> Forall (fits (skey_modulus lg)) g -> Forall (fits 256) F_ -> Forall (fun x => Z.abs x <= 27000) G_ ->
  sign RF exact_table fuel sfuel xof lg sk msg sig rng = Ok (b, sig') ->
  b = true /\ exists h, decode_pkey lg pk (repeat 0 (2 ^ lg)) = Ok (true, h) /\ let salt := map rng (seq 0 40) in
  exists c s1 s2 body, hashed (xof (salt ++ msg)) lg c /\ length s1 = (2 ^ lg)%nat /\ length s2 = (2 ^ lg)%nat /\
    modq s1 = s1_residues lg c s2 h /\ sqnorm s1 + sqnorm s2 <= beta2 lg /\
    bytes body /\ tot s2 < body_len lg /\ bits_of body = encs s2 ++ repeat false (Z.to_nat (body_len lg - tot s2)) /\
    sig' = (48 + Z.of_nat lg :: salt) ++ body ++ skipn (sig_bytes lg) sig /\
    (Forall (fun v => Z.abs v <= 1023) s2 -> (lg = 10%nat -> ~ In 6144 s1) ->
      exists fuel0, forall fuel m, (fuel0 <= fuel)%nat -> verify m fuel xof lg pk msg sig' = Ok true).
Proof. exact keygen_sign_verify. Qed.
Print Assumptions C55_keygen_sign_verify.
