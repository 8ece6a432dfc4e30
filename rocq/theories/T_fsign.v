(** T_fsign.v -- claims C63, C64, C65: signing in rounded arithmetic (any arithmetic that meets SpecF.accurate; C61_ieee: binary64 does). *)
From Coq Require Import Lra SpecFloat.
From Verif Require Import Base Spec SpecR SpecS SpecF M_ff M_ntt M_codec M_sig M_verify M_float M_exact M_ieee M_table M_samp M_fft M_ntru M_tree P_verifyx P_near P_ieee P_key P_live P_fkey P_fgsx.
Open Scope R_scope.

(** C63: the matrix B holds the transforms of g, -f, G, -F with small errors (Euclidean norm; the entries themselves can be as large as 10^5). *)
Theorem C63_matrix : forall F fin val, accurate F fin val -> forall ztab, table_near F fin val ztab -> forall lg, falcon_lg lg -> forall f g F_ G_ : list Z,
  length f = (2 ^ lg)%nat -> length g = (2 ^ lg)%nat -> length F_ = (2 ^ lg)%nat -> length G_ = (2 ^ lg)%nat ->
  (sqnorm f <= 17161)%Z -> (sqnorm g <= 17161)%Z -> (sqnorm F_ <= 16777216)%Z -> (sqnorm G_ <= 16777216)%Z ->
  exists w0 w1 w2 w3, compute_matrix_B F ztab lg f g F_ G_ = Ok (w0 ++ w1 ++ w2 ++ w3) /\
    approx F fin val w0 (values lg (map Cz g)) (1 / 10 ^ 10) /\ approx F fin val w1 (map Copp (values lg (map Cz f))) (1 / 10 ^ 10) /\
    approx F fin val w2 (values lg (map Cz G_)) (3 / 10 ^ 9) /\ approx F fin val w3 (map Copp (values lg (map Cz F_))) (3 / 10 ^ 9).
Proof. exact matrix_float. Qed.
Print Assumptions C63_matrix.

(** Whenever signing returns, the rounded polynomial s2 it encodes is exactly z0 f + z1 F for integer polynomials z0, z1, and the squared norm of
    (c - z0 g - z1 G, s2), computed exactly, is at most 53 above the bound the rounded test compares with.  Nothing is assumed of the tree T and
    of the random bytes; every key whose F fits its 8-bit encoding has sqnorm F <= 16777216. *)
Theorem C63_signature : forall F fin val, accurate F fin val -> forall ztab, table_near F fin val ztab -> forall lg, falcon_lg lg -> forall f g F_ G_ : list Z,
  length f = (2 ^ lg)%nat -> length g = (2 ^ lg)%nat -> length F_ = (2 ^ lg)%nat -> length G_ = (2 ^ lg)%nat ->
  (sqnorm f <= 17161)%Z -> (sqnorm g <= 17161)%Z -> (sqnorm F_ <= 16777216)%Z -> (sqnorm G_ <= 16777216)%Z -> ntru (2 ^ lg) f g F_ G_ ->
  forall xof fuel sfuel B T msg sig rng pos sig' pos', (forall a, byte_stream (xof a)) -> (sig_bytes lg <= length sig)%nat ->
  compute_matrix_B F ztab lg f g F_ G_ = Ok B -> sign_bt F ztab fuel sfuel xof lg B T msg sig rng pos = Ok (sig', pos') ->
  let salt := map (fun i => rng (pos + i)%nat) (seq 0 40) in
  exists c z0 z1 s1 s2 body, hashed (xof (salt ++ msg)) lg c /\ length z0 = (2 ^ lg)%nat /\ length z1 = (2 ^ lg)%nat /\
    s1 = psub (2 ^ lg) (psub (2 ^ lg) c (negacyclic (2 ^ lg) z0 g)) (negacyclic (2 ^ lg) z1 G_) /\ s2 = padd (2 ^ lg) (negacyclic (2 ^ lg) z0 f) (negacyclic (2 ^ lg) z1 F_) /\
    (sqnorm s1 + sqnorm s2 <= beta2 lg + 53)%Z /\
    length body = (sig_bytes lg - 41)%nat /\ bytes body /\ (tot s2 < body_len lg)%Z /\ bits_of body = encs s2 ++ repeat false (Z.to_nat (body_len lg - tot s2)) /\
    sig' = (48 + Z.of_nat lg :: salt)%Z ++ body ++ skipn (sig_bytes lg) sig.
Proof. exact wide_vector. Qed.
Print Assumptions C63_signature.

(** With tighter bounds on the key the exact norm is at most the bound. *)
Theorem C63_norm : forall F fin val, accurate F fin val -> forall ztab, table_near F fin val ztab -> forall lg, falcon_lg lg -> forall f g F_ G_ : list Z,
  length f = (2 ^ lg)%nat -> length g = (2 ^ lg)%nat -> length F_ = (2 ^ lg)%nat -> length G_ = (2 ^ lg)%nat ->
  (sqnorm f <= 17161)%Z -> (sqnorm g <= 17161)%Z -> (sqnorm F_ <= 2250000)%Z -> (sqnorm G_ <= 2250000)%Z ->
  values_le lg f 400 -> values_le lg g 400 -> values_le lg F_ 6000 -> values_le lg G_ 6000 -> ntru (2 ^ lg) f g F_ G_ ->
  forall xof, (forall a, byte_stream (xof a)) -> forall fuel sfuel B T msg sig rng pos sig' pos', (sig_bytes lg <= length sig)%nat ->
  compute_matrix_B F ztab lg f g F_ G_ = Ok B -> sign_bt F ztab fuel sfuel xof lg B T msg sig rng pos = Ok (sig', pos') ->
  let salt := map (fun i => rng (pos + i)%nat) (seq 0 40) in
  exists c z0 z1 s1 s2 body, hashed (xof (salt ++ msg)) lg c /\ length z0 = (2 ^ lg)%nat /\ length z1 = (2 ^ lg)%nat /\
    s1 = psub (2 ^ lg) (psub (2 ^ lg) c (negacyclic (2 ^ lg) z0 g)) (negacyclic (2 ^ lg) z1 G_) /\ s2 = padd (2 ^ lg) (negacyclic (2 ^ lg) z0 f) (negacyclic (2 ^ lg) z1 F_) /\
    (sqnorm s1 + sqnorm s2 <= beta2 lg)%Z /\
    length body = (sig_bytes lg - 41)%nat /\ bytes body /\ (tot s2 < body_len lg)%Z /\ bits_of body = encs s2 ++ repeat false (Z.to_nat (body_len lg - tot s2)) /\
    sig' = (48 + Z.of_nat lg :: salt)%Z ++ body ++ skipn (sig_bytes lg) sig.
Proof. exact strict_vector. Qed.
Print Assumptions C63_norm.

(** A key that meets all the hypotheses on f, g, F, G of this file, and a run of signing with it (in exact arithmetic, which meets the hypotheses
    on F and ztab). *)
Example C63_sat : falcon_lg 9 /\ length kf = 512%nat /\ length kg = 512%nat /\ length kF = 512%nat /\ length kG = 512%nat /\ ntru 512 kf kg kF kG /\
  (sqnorm kf <= 17161 /\ sqnorm kg <= 17161 /\ sqnorm kF <= 2250000 /\ sqnorm kG <= 2250000)%Z /\
  (values_le 9 kf 400 /\ values_le 9 kg 400 /\ values_le 9 kF 6000 /\ values_le 9 kG 6000) /\ values_ge 9 kf 24 /\ is_poly_invertible 9 kf = Ok true.
Proof.
  destruct k_all as (L1 & L2 & L3 & L4 & HN & _ & _ & _ & HI & _). split; [left; reflexivity|]. repeat (split; [assumption|]).
  split; [exact k_sq|]. split; [exact k_le|]. split; [exact k_ge|exact HI].
Qed.
Example C63_sat_run : accurate RF (fun _ => True) (fun x => x) /\ table_near RF (fun _ => True) (fun x => x) exact_table /\
  exists skey rng fuel sfuel sig', length skey = 1281%nat /\ bytes skey /\ byte_stream rng /\
  sign RF exact_table fuel sfuel (const_xof 7) 9 skey [1; 2; 3]%Z (repeat 0%Z 668) rng = Ok (true, sig').
Proof. split; [exact accurate_exact|]. split; [exact table_exact|exact k_run]. Qed.

(** C64: recompute_G in rounded arithmetic returns exactly the fourth polynomial of the key. *)
Theorem C64_recompute_G : forall F fin val, accurate F fin val -> forall ztab, table_near F fin val ztab -> forall lg f g F_ G_, falcon_lg lg ->
  length f = (2 ^ lg)%nat -> length g = (2 ^ lg)%nat -> length F_ = (2 ^ lg)%nat -> length G_ = (2 ^ lg)%nat -> ntru (2 ^ lg) f g F_ G_ ->
  (sqnorm f <= 17161)%Z -> (sqnorm g <= 17161)%Z -> (sqnorm F_ <= 16777216)%Z -> (sqnorm G_ <= 16777216)%Z -> values_ge lg f (1 / 1000) ->
  forall out, length out = (2 ^ lg)%nat -> recompute_G F ztab lg f g F_ out = Ok G_.
Proof. exact recompute_list. Qed.
Print Assumptions C64_recompute_G.
(** the example key, in binary64 with the literals of the source *)
Example C64_sat : recompute_G F64 (source_table F64) 9 kf kg kF (repeat 0%Z 512) = Ok kG.
Proof.
  destruct k_all as (L1 & L2 & L3 & L4 & HN & _). destruct k_sq as (S1 & S2 & S3 & S4).
  assert (M : values_ge 9 kf (1 / 1000)) by (eapply Forall_impl; [|exact k_ge]; intros x Hx; cbv beta in Hx; lra).
  apply (recompute_list F64 fin64 val64 accurate64 _ (source_near _ _ _ accurate64) 9 kf kg kF kG); try assumption; try apply repeat_length; try lia. left; reflexivity.
Qed.

(** C65: signing with an encoded key in rounded arithmetic, then verifying.  The conditions on the signature at the end are those of C16 and C26. *)
Theorem C65_sign_then_verify : forall F fin val, accurate F fin val -> forall ztab, table_near F fin val ztab -> forall lg, falcon_lg lg -> forall f g F_ G_ : list Z,
  length f = (2 ^ lg)%nat -> length g = (2 ^ lg)%nat -> length F_ = (2 ^ lg)%nat -> length G_ = (2 ^ lg)%nat ->
  (sqnorm f <= 17161)%Z -> (sqnorm g <= 17161)%Z -> (sqnorm F_ <= 2250000)%Z -> (sqnorm G_ <= 2250000)%Z ->
  values_le lg f 400 -> values_le lg g 400 -> values_le lg F_ 6000 -> values_le lg G_ 6000 -> ntru (2 ^ lg) f g F_ G_ ->
  forall xof, (forall a, byte_stream (xof a)) -> Forall smallq f -> Forall smallq g -> is_poly_invertible lg f = Ok true -> values_ge lg f (1 / 1000) ->
  forall fuel sfuel skey msg sig rng sig' b h0 h pk0 pk, bytes sig -> (sig_bytes lg + 2 <= length sig)%nat -> byte_stream rng ->
  length h0 = (2 ^ lg)%nat -> length pk0 = pkey_len lg -> compute_public_key lg f g h0 = Ok h -> encode_pkey lg h pk0 = Ok pk ->
  decode_skey lg skey (repeat 0%Z (2 ^ lg)) (repeat 0%Z (2 ^ lg)) (repeat 0%Z (2 ^ lg)) = Ok (true, (f, g, F_)) ->
  sign F ztab fuel sfuel xof lg skey msg sig rng = Ok (b, sig') ->
  b = true /\ let salt := map rng (seq 0 40) in
  exists c s1 s2 body, hashed (xof (salt ++ msg)) lg c /\ length s1 = (2 ^ lg)%nat /\ length s2 = (2 ^ lg)%nat /\
    modq s1 = s1_residues lg c s2 h /\ (sqnorm s1 + sqnorm s2 <= beta2 lg)%Z /\
    bytes body /\ (tot s2 < body_len lg)%Z /\ bits_of body = encs s2 ++ repeat false (Z.to_nat (body_len lg - tot s2)) /\
    sig' = (48 + Z.of_nat lg :: salt)%Z ++ body ++ skipn (sig_bytes lg) sig /\
    (Forall (fun v => Z.abs v <= 1023)%Z s2 -> (lg = 10%nat -> ~ In 6144%Z s1) ->
      exists fuel0, forall fuel m, (fuel0 <= fuel)%nat -> verify m fuel xof lg pk msg sig' = Ok true).
Proof. exact strict_bytes. Qed.
Print Assumptions C65_sign_then_verify.

(** the byte strings key generation returns *)
Theorem C65_keygen_sign_verify : forall F fin val, accurate F fin val ->
  (forall z, (-18 <= z <= 19)%Z -> to_i32 F (fadd F (fofz F z) (ffloor F (fofz F 0))) = Ok z) -> forall ztab, table_near F fin val ztab ->
  forall fk sfk fuel sfuel lg rngk rng pk0 sk0 pk sk xof msg sig sig' b f g F_ G_ p, falcon_lg lg ->
  (forall a, byte_stream (xof a)) -> byte_stream rngk -> byte_stream rng ->
  length pk0 = pkey_len lg -> length sk0 = skey_len lg -> bytes sig -> (sig_bytes lg + 2 <= length sig)%nat ->
  keygen_bytes F ztab fk sfk lg pk0 sk0 rngk = Ok (pk, sk) ->
  ntru_gen F ztab fk sfk lg rngk 0 (repeat 0%Z (2 ^ lg)) (repeat 0%Z (2 ^ lg)) (repeat 0%Z (2 ^ lg)) (repeat 0%Z (2 ^ lg)) = Ok (f, g, F_, G_, p) ->
  Forall (fits (skey_modulus lg)) f -> Forall (fits (skey_modulus lg)) g -> Forall (fits 256) F_ ->
  (sqnorm F_ <= 2250000)%Z -> (sqnorm G_ <= 2250000)%Z ->
  values_le lg f 400 -> values_le lg g 400 -> values_le lg F_ 6000 -> values_le lg G_ 6000 -> values_ge lg f (1 / 1000) ->
  sign F ztab fuel sfuel xof lg sk msg sig rng = Ok (b, sig') ->
  b = true /\ exists h, decode_pkey lg pk (repeat 0%Z (2 ^ lg)) = Ok (true, h) /\ let salt := map rng (seq 0 40) in
  exists c s1 s2 body, hashed (xof (salt ++ msg)) lg c /\ length s1 = (2 ^ lg)%nat /\ length s2 = (2 ^ lg)%nat /\
    modq s1 = s1_residues lg c s2 h /\ (sqnorm s1 + sqnorm s2 <= beta2 lg)%Z /\
    bytes body /\ (tot s2 < body_len lg)%Z /\ bits_of body = encs s2 ++ repeat false (Z.to_nat (body_len lg - tot s2)) /\
    sig' = (48 + Z.of_nat lg :: salt)%Z ++ body ++ skipn (sig_bytes lg) sig /\
    (Forall (fun v => Z.abs v <= 1023)%Z s2 -> (lg = 10%nat -> ~ In 6144%Z s1) ->
      exists fuel0, forall fuel m, (fuel0 <= fuel)%nat -> verify m fuel xof lg pk msg sig' = Ok true).
Proof. exact float_keygen_sign_verify2. Qed.
Print Assumptions C65_keygen_sign_verify.
