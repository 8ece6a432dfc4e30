(** T_def.v -- claim C58: signing executes no undefined operation.  Exact arithmetic. *)
From Coq Require Import Lra.
From Verif Require Import Base Spec SpecR SpecS M_ff M_ntt M_codec M_sig M_verify M_float M_exact M_samp M_fft M_ntru M_tree P_keygen P_leaf P_sign P_signv P_norm P_def P_defx.
Open Scope R_scope.

(** The integer sampler: with a standard deviation in [1/1000, 1.8205], a minimal one below twice that, and a centre whose
    floor leaves room in an int32_t, neither the conversions nor the shifts nor the int32_t additions are undefined,
    for every random stream and position; and a returned sample is within 19 of the centre. *)
Theorem C58_samplerz : forall mu s smin fuel rng pos, 1 / 1000 <= s <= 18205 / 10000 -> 0 <= smin < 2 * s ->
  (Z.abs (Rfloor mu) <= 2147483000)%Z -> byte_stream rng -> samplerz RF fuel mu s smin rng pos <> UB.
Proof. exact samplerz_def. Qed.
Print Assumptions C58_samplerz.
Theorem C58_samplerz_near : forall fuel mu s smin rng pos z p', byte_stream rng -> samplerz RF fuel mu s smin rng pos = Ok (z, p') -> Rabs (IZR z - mu) <= 19.
Proof. exact samplerz_near. Qed.
Print Assumptions C58_samplerz_near.

(** Signing with a matrix and tree: for every NTRU key that passes the norm test of key generation and whose F and G have
    coefficients of at most 27000 in absolute value (those of keys have at most 128), for every message, hash function,
    random stream and number of retries, no conversion, array access, addition or shift is undefined. *)
Theorem C58_sign_bt : forall lg, falcon_lg lg -> forall f g F_ G_ : list Z,
  length f = (2 ^ lg)%nat -> length g = (2 ^ lg)%nat -> length F_ = (2 ^ lg)%nat -> length G_ = (2 ^ lg)%nat -> ntru (2 ^ lg) f g F_ G_ ->
  gs_norm lg f g <= 117 / 100 * (117 / 100) * 12289 -> Forall (fun x => Z.abs x <= 27000)%Z F_ -> Forall (fun x => Z.abs x <= 27000)%Z G_ ->
  forall xof fuel sfuel B T0 T msg sig rng pos, (forall a, byte_stream (xof a)) -> byte_stream rng -> (sig_bytes lg <= length sig)%nat -> ((lg + 1) * 2 ^ lg <= length T0)%nat ->
  compute_matrix_B RF exact_table lg f g F_ G_ = Ok B -> compute_falcon_tree RF exact_table lg B T0 = Ok T ->
  sign_bt RF exact_table fuel sfuel xof lg B T msg sig rng pos <> UB.
Proof. exact sign_bt_defined. Qed.
Print Assumptions C58_sign_bt.

(** Signing with an encoded secret key: decoding, recomputing G, matrix, tree and signature. *)
Theorem C58_sign : forall lg, falcon_lg lg -> forall f g F_ G_ : list Z,
  length f = (2 ^ lg)%nat -> length g = (2 ^ lg)%nat -> length F_ = (2 ^ lg)%nat -> length G_ = (2 ^ lg)%nat -> ntru (2 ^ lg) f g F_ G_ ->
  gs_norm lg f g <= 117 / 100 * (117 / 100) * 12289 -> Forall (fun x => Z.abs x <= 27000)%Z F_ -> Forall (fun x => Z.abs x <= 27000)%Z G_ ->
  forall xof fuel sfuel skey msg sig rng, (forall a, byte_stream (xof a)) -> byte_stream rng -> (sig_bytes lg <= length sig)%nat ->
  is_poly_invertible lg f = Ok true ->
  decode_skey lg skey (repeat 0%Z (2 ^ lg)) (repeat 0%Z (2 ^ lg)) (repeat 0%Z (2 ^ lg)) = Ok (true, (f, g, F_)) ->
  sign RF exact_table fuel sfuel xof lg skey msg sig rng <> UB.
Proof. exact sign_defined. Qed.
Print Assumptions C58_sign.

(** The same for the bytes of a generated key; the conditions on the coefficients are those of C16 plus one on G. *)
Theorem C58_keygen_sign : forall fk sfk fuel sfuel lg rngk rng pk0 sk0 pk sk xof msg sig f g F_ G_ p, falcon_lg lg ->
  (forall a, byte_stream (xof a)) -> byte_stream rngk -> byte_stream rng ->
  length pk0 = pkey_len lg -> length sk0 = skey_len lg -> (sig_bytes lg <= length sig)%nat ->
  keygen_bytes RF exact_table fk sfk lg pk0 sk0 rngk = Ok (pk, sk) ->
  ntru_gen RF exact_table fk sfk lg rngk 0 (repeat 0%Z (2 ^ lg)) (repeat 0%Z (2 ^ lg)) (repeat 0%Z (2 ^ lg)) (repeat 0%Z (2 ^ lg)) = Ok (f, g, F_, G_, p) ->
  Forall (fits (skey_modulus lg)) f -> Forall (fits (skey_modulus lg)) g -> Forall (fits 256) F_ -> Forall (fun x => Z.abs x <= 27000)%Z G_ ->
  sign RF exact_table fuel sfuel xof lg sk msg sig rng <> UB.
Proof. exact keygen_sign_defined. Qed.
Print Assumptions C58_keygen_sign.

Example C58_sat : let k := cst (2 ^ 9) in ntru (2 ^ 9) (k 100%Z) (k 1%Z) (k 11%Z) (k 123%Z) /\ gs_norm 9 (k 100%Z) (k 1%Z) <= 117 / 100 * (117 / 100) * 12289 /\
  Forall (fun x => Z.abs x <= 27000)%Z (k 11%Z) /\ Forall (fun x => Z.abs x <= 27000)%Z (k 123%Z).
Proof. split; [apply key_100|]. split; [apply key_100|]. split; repeat constructor; discriminate. Qed.
Example C58_samplerz_sat : 1 / 1000 <= 15 / 10 <= 18205 / 10000 /\ 0 <= 1277833697 / 1000000000 < 2 * (15 / 10).
Proof. lra. Qed.
