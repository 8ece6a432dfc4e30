(** T_fgs.v -- claim C66: the Gram-Schmidt test of key generation in rounded arithmetic. *)
From Coq Require Import Lra.
From Verif Require Import Base Spec SpecR SpecF M_float M_exact M_ieee M_table M_samp M_fft M_ntru P_ntru2 P_near P_key P_fkey P_fgsx P_kubx.
Open Scope R_scope.

(** C66: a pair that passes the test has the exact norm the test is about, up to 10^-4. *)
Theorem C66_gs_test : forall F fin val, accurate F fin val -> forall ztab, table_near F fin val ztab -> forall lg f g v, (lg <= 10)%nat ->
  length f = (2 ^ lg)%nat -> length g = (2 ^ lg)%nat -> Forall (fun x => Z.abs x <= 200)%Z f -> Forall (fun x => Z.abs x <= 200)%Z g ->
  gram_schmidt_norm F ztab lg f g = Ok v -> fgt F v (gs_norm_threshold F) = false ->
  (sqnorm f + sqnorm g <= 16822)%Z /\ ((forall i, (i < 2 ^ lg)%nat -> 1 / 10 ^ 18 <= row_norm lg f g i) -> gs_norm lg f g <= 168224122 / 10000).
Proof. exact gs_test. Qed.
Print Assumptions C66_gs_test.
Example C66_sat : accurate RF (fun _ => True) (fun x => x) /\ table_near RF (fun _ => True) (fun x => x) exact_table /\ length kf = 512%nat /\ length kg = 512%nat /\
  Forall (fun x => Z.abs x <= 200)%Z kf /\ Forall (fun x => Z.abs x <= 200)%Z kg /\ (forall i, 1 / 10 ^ 18 <= row_norm 9 kf kg i) /\
  gram_schmidt_norm RF exact_table 9 kf kg = Ok (gs_norm 9 kf kg) /\ fgt RF (gs_norm 9 kf kg) (gs_norm_threshold RF) = false.
Proof. split; [exact accurate_exact|]. split; [exact table_exact|]. destruct k_length as (L1 & L2 & _). split; [exact L1|]. split; [exact L2|exact k_gs_sat]. Qed.

(** every key that key generation returns *)
Theorem C66_keygen : forall F fin val, accurate F fin val ->
  (forall z, (-18 <= z <= 19)%Z -> to_i32 F (fadd F (fofz F z) (ffloor F (fofz F 0))) = Ok z) -> forall ztab, table_near F fin val ztab ->
  forall fuel sfuel lg rng pos f0 g0 F0 G0 f g F_ G_ pos', byte_stream rng -> falcon_lg lg ->
  length f0 = (2 ^ lg)%nat -> length g0 = (2 ^ lg)%nat -> length F0 = (2 ^ lg)%nat -> length G0 = (2 ^ lg)%nat ->
  ntru_gen F ztab fuel sfuel lg rng pos f0 g0 F0 G0 = Ok (f, g, F_, G_, pos') ->
  (sqnorm f + sqnorm g <= 16822)%Z /\ (ntru (2 ^ lg) f g F_ G_ -> gs_norm lg f g <= 168224122 / 10000).
Proof. exact gen_gs_float. Qed.
Print Assumptions C66_keygen.

(** the converse, binary64: a pair whose exact norm is at most 16822.4 passes the test *)
Theorem C66_accepts : forall lg f g, (lg <= 10)%nat -> length f = (2 ^ lg)%nat -> length g = (2 ^ lg)%nat -> (forall i, (i < 2 ^ lg)%nat -> 0 < row_norm lg f g i) -> gs_norm lg f g <= 168224 / 10 ->
  exists v, gram_schmidt_norm F64 (source_table F64) lg f g = Ok v /\ fgt F64 v (gs_norm_threshold F64) = false.
Proof. exact gs_pass64. Qed.
Print Assumptions C66_accepts.
Example C66_accepts_sat : length kf = 512%nat /\ length kg = 512%nat /\ (forall i, 0 < row_norm 9 kf kg i) /\ gs_norm 9 kf kg <= 168224 / 10.
Proof. exact k_pass. Qed.
