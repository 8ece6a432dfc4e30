(** T_live.v -- claim C60: signing can succeed.  Exact arithmetic. *)
From Coq Require Import Lra.
From Verif Require Import Base Spec SpecR SpecS M_ff M_ntt M_codec M_sig M_verify M_float M_exact M_samp M_fft M_ntru M_tree P_verifyx P_leaf P_key P_live.
Open Scope R_scope.

(** Signing with a matrix and tree: whatever the message, the salt and the state the generator is in, there are 22 N random
    bytes after the salt with which the first attempt succeeds, in one attempt of one trial per sample and consuming exactly
    these bytes.  (Both random loops of the source, those of the sampler and of the norm test, end with positive probability.) *)
Theorem C60_sign_bt : forall lg, falcon_lg lg -> forall f g F_ G_ : list Z,
  length f = (2 ^ lg)%nat -> length g = (2 ^ lg)%nat -> length F_ = (2 ^ lg)%nat -> length G_ = (2 ^ lg)%nat -> ntru (2 ^ lg) f g F_ G_ ->
  gs_norm lg f g <= 16822 -> Forall (fun x => Z.abs x <= 27000)%Z F_ -> Forall (fun x => Z.abs x <= 27000)%Z G_ ->
  forall xof B T0 T msg salt c sig pos, (forall a, byte_stream (xof a)) -> length salt = 40%nat -> hashed (xof (salt ++ msg)) lg c ->
  (sig_bytes lg <= length sig)%nat -> ((lg + 1) * 2 ^ lg <= length T0)%nat ->
  compute_matrix_B RF exact_table lg f g F_ G_ = Ok B -> compute_falcon_tree RF exact_table lg B T0 = Ok T ->
  exists bs sfuel0, length bs = (22 * 2 ^ lg)%nat /\ bytes bs /\
    forall rng fuel sfuel, byte_stream rng -> map (fun i => rng (pos + i)%nat) (seq 0 40) = salt -> map (fun i => rng (pos + 40 + i)%nat) (seq 0 (22 * 2 ^ lg)) = bs -> (1 <= fuel)%nat -> (sfuel0 <= sfuel)%nat ->
    exists sig', sign_bt RF exact_table fuel sfuel xof lg B T msg sig rng pos = Ok (sig', (pos + 40 + 22 * 2 ^ lg)%nat).
Proof. exact sign_bt_can. Qed.
Print Assumptions C60_sign_bt.

(** Signing with an encoded secret key. *)
Theorem C60_sign : forall lg, falcon_lg lg -> forall f g F_ G_ : list Z,
  length f = (2 ^ lg)%nat -> length g = (2 ^ lg)%nat -> length F_ = (2 ^ lg)%nat -> length G_ = (2 ^ lg)%nat -> ntru (2 ^ lg) f g F_ G_ ->
  gs_norm lg f g <= 16822 -> Forall (fun x => Z.abs x <= 27000)%Z F_ -> Forall (fun x => Z.abs x <= 27000)%Z G_ ->
  forall xof skey msg salt c sig, (forall a, byte_stream (xof a)) -> length salt = 40%nat -> hashed (xof (salt ++ msg)) lg c ->
  (sig_bytes lg <= length sig)%nat -> is_poly_invertible lg f = Ok true ->
  decode_skey lg skey (repeat 0%Z (2 ^ lg)) (repeat 0%Z (2 ^ lg)) (repeat 0%Z (2 ^ lg)) = Ok (true, (f, g, F_)) ->
  exists bs sfuel0, length bs = (22 * 2 ^ lg)%nat /\ bytes bs /\
    forall rng fuel sfuel, byte_stream rng -> map (fun i => rng i) (seq 0 40) = salt -> map (fun i => rng (40 + i)%nat) (seq 0 (22 * 2 ^ lg)) = bs -> (1 <= fuel)%nat -> (sfuel0 <= sfuel)%nat ->
    exists sig', sign RF exact_table fuel sfuel xof lg skey msg sig rng = Ok (true, sig').
Proof. exact sign_can. Qed.
Print Assumptions C60_sign.

(** A key that meets the hypotheses of C29, C55, C58 and C60 (N = 512, coefficients of f and g at most 31 in absolute value), and a
    run of signing with its encoding that returns a signature. *)
Example C60_sat : length kf = 512%nat /\ length kg = 512%nat /\ length kF = 512%nat /\ length kG = 512%nat /\ ntru 512 kf kg kF kG /\ gs_norm 9 kf kg <= 16822 /\
  Forall (fun x => Z.abs x <= 68)%Z kF /\ Forall (fun x => Z.abs x <= 68)%Z kG /\ is_poly_invertible 9 kf = Ok true /\
  (exists skey, length skey = 1281%nat /\ bytes skey /\ decode_skey 9 skey (repeat 0%Z 512) (repeat 0%Z 512) (repeat 0%Z 512) = Ok (true, (kf, kg, kF))) /\
  forall a, byte_stream (const_xof 7 a) /\ hashed (const_xof 7 a) 9 (repeat 7%Z 512).
Proof. exact k_all. Qed.
Example C60_run : exists skey rng fuel sfuel sig', length skey = 1281%nat /\ bytes skey /\ byte_stream rng /\
  sign RF exact_table fuel sfuel (const_xof 7) 9 skey [1; 2; 3]%Z (repeat 0%Z 668) rng = Ok (true, sig').
Proof. exact k_run. Qed.
