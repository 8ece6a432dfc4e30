(** T_fsafe.v -- claim C69: signing in IEEE 754 binary64 executes no undefined operation. *)
From Coq Require Import Lra.
From Verif Require Import Base Spec SpecR SpecF M_codec M_sig M_verify M_float M_exact M_ieee M_table M_samp M_fft M_ntru M_tree P_ieee P_near P_key P_fkey P_fsafe64.
Open Scope R_scope.

(** The sampler, as called by signing: a finite centre of absolute value below 2147480000 and a standard deviation between 1.27 and 1.79. *)
Theorem C69_samplerz : forall lg, falcon_lg lg -> forall fuel mu s rng pos, byte_stream rng -> fin64 mu -> fin64 s -> 127 / 100 <= val64 s <= 179 / 100 -> Rabs (val64 mu) <= 2147480000 ->
  samplerz F64 fuel mu s (sigma_min F64 lg) rng pos <> UB /\ forall v pos', samplerz F64 fuel mu s (sigma_min F64 lg) rng pos = Ok (v, pos') -> Rabs (IZR v - val64 mu) <= 19.
Proof. exact sampler64. Qed.
Print Assumptions C69_samplerz.

(** Signing with the matrix and the tree of a key: for every message, hash function, random stream, number of retries and buffer that holds a signature, no array access is out of bounds
    and no conversion of a floating-point number to an integer, shift or signed addition is undefined. *)
Theorem C69_sign_bt : forall lg f g F_ G_, falcon_lg lg ->
  length f = (2 ^ lg)%nat -> length g = (2 ^ lg)%nat -> length F_ = (2 ^ lg)%nat -> length G_ = (2 ^ lg)%nat -> ntru (2 ^ lg) f g F_ G_ -> gs_norm lg f g <= 168224122 / 10000 ->
  (sqnorm F_ <= 16777216)%Z -> (sqnorm G_ <= 16777216)%Z -> forall xof fuel sfuel B T0 T msg sig rng pos, (forall a, byte_stream (xof a)) -> byte_stream rng ->
  (sig_bytes lg <= length sig)%nat -> ((lg + 1) * 2 ^ lg <= length T0)%nat ->
  compute_matrix_B F64 (source_table F64) lg f g F_ G_ = Ok B -> compute_falcon_tree F64 (source_table F64) lg B T0 = Ok T ->
  sign_bt F64 (source_table F64) fuel sfuel xof lg B T msg sig rng pos <> UB.
Proof. exact sign_bt64. Qed.
Print Assumptions C69_sign_bt.

(** Signing with an encoded secret key: decoding, recomputing G, matrix, tree and signature; f has no complex value below 1/1000. *)
Theorem C69_sign : forall lg f g F_ G_, falcon_lg lg ->
  length f = (2 ^ lg)%nat -> length g = (2 ^ lg)%nat -> length F_ = (2 ^ lg)%nat -> length G_ = (2 ^ lg)%nat -> ntru (2 ^ lg) f g F_ G_ -> gs_norm lg f g <= 168224122 / 10000 ->
  (sqnorm F_ <= 16777216)%Z -> (sqnorm G_ <= 16777216)%Z -> values_ge lg f (1 / 1000) -> forall xof fuel sfuel skey msg sig rng, (forall a, byte_stream (xof a)) -> byte_stream rng ->
  (sig_bytes lg <= length sig)%nat ->
  decode_skey lg skey (repeat 0%Z (2 ^ lg)) (repeat 0%Z (2 ^ lg)) (repeat 0%Z (2 ^ lg)) = Ok (true, (f, g, F_)) ->
  sign F64 (source_table F64) fuel sfuel xof lg skey msg sig rng <> UB.
Proof. exact sign64. Qed.
Print Assumptions C69_sign.

(** The same for the bytes of a generated key whose coefficients fit their encoding. *)
Theorem C69_keygen_sign : forall fk sfk fuel sfuel lg rngk rng pk0 sk0 pk sk xof msg sig f g F_ G_ p, falcon_lg lg ->
  (forall a, byte_stream (xof a)) -> byte_stream rngk -> byte_stream rng ->
  length pk0 = pkey_len lg -> length sk0 = skey_len lg -> (sig_bytes lg <= length sig)%nat ->
  keygen_bytes F64 (source_table F64) fk sfk lg pk0 sk0 rngk = Ok (pk, sk) ->
  ntru_gen F64 (source_table F64) fk sfk lg rngk 0 (repeat 0%Z (2 ^ lg)) (repeat 0%Z (2 ^ lg)) (repeat 0%Z (2 ^ lg)) (repeat 0%Z (2 ^ lg)) = Ok (f, g, F_, G_, p) ->
  Forall (fits (skey_modulus lg)) f -> Forall (fits (skey_modulus lg)) g -> Forall (fits 256) F_ -> (sqnorm G_ <= 16777216)%Z -> values_ge lg f (1 / 1000) ->
  sign F64 (source_table F64) fuel sfuel xof lg sk msg sig rng <> UB.
Proof. exact keygen_sign64. Qed.
Print Assumptions C69_keygen_sign.

Example C69_sat : falcon_lg 9 /\ length kf = 512%nat /\ length kg = 512%nat /\ length kF = 512%nat /\ length kG = 512%nat /\ ntru 512 kf kg kF kG /\
  gs_norm 9 kf kg <= 168224122 / 10000 /\ (sqnorm kF <= 16777216)%Z /\ (sqnorm kG <= 16777216)%Z /\ values_ge 9 kf (1 / 1000).
Proof.
  split; [left; reflexivity|]. destruct k_length as (L1 & L2 & L3 & L4). repeat (split; [assumption|]). split; [exact k_ntru|]. split; [assert (G := k_gs); lra|].
  destruct k_sq as (_ & _ & S3 & S4). split; [eapply Z.le_trans; [eassumption|discriminate]|]. split; [eapply Z.le_trans; [eassumption|discriminate]|].
  eapply Forall_impl; [|exact k_ge]. intros x Hx. cbv beta in Hx. lra.
Qed.
