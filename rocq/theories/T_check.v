(** T_check.v -- claim C100: the check of the NTRU equation in the tests of the library, in binary64. *)
From Verif Require Import Base Spec SpecR SpecF M_float M_exact M_ieee M_table M_samp M_fft M_ntru M_tree M_check P_key P_near P_live P_fkey P_ieee P_checkx P_check.
From Coq Require Import Reals.
Open Scope R_scope.

(** C100: on polynomials of the size of keys and somewhat beyond, the check ends, performs no undefined conversion, and returns true exactly if f G - g F = q modulo x^N + 1: rounding
    errors never turn its answer. *)
Theorem C100_check_exact : forall F fin val, accurate F fin val -> forall ztab, table_near F fin val ztab -> forall lg f g F_ G_, (lg <= 10)%nat ->
  length f = (2 ^ lg)%nat -> length g = (2 ^ lg)%nat -> length F_ = (2 ^ lg)%nat -> length G_ = (2 ^ lg)%nat ->
  (sqnorm f <= 300 * 300)%Z -> (sqnorm g <= 300 * 300)%Z -> (sqnorm F_ <= 100000 * 100000)%Z -> (sqnorm G_ <= 100000 * 100000)%Z ->
  exists b, check_ntru_eq F ztab lg f g F_ G_ = Ok b /\ (b = true <-> ntru (2 ^ lg) f g F_ G_).
Proof. exact check_ok. Qed.
Print Assumptions C100_check_exact.
(** The test NTRUGen of tests/test_ntru_gen.cpp passes for every random stream on which ntru_gen ends, if no coefficient of F and G exceeds 3125 (keys need 127). *)
Theorem C100_test_passes : forall F fin val, accurate F fin val -> (forall z, (-18 <= z <= 19)%Z -> to_i32 F (fadd F (fofz F z) (ffloor F (fofz F 0))) = Ok z) -> forall ztab, table_near F fin val ztab ->
  forall fuel sfuel lg rng pos f0 g0 F0 G0 f g F_ G_ pos', byte_stream rng -> falcon_lg lg ->
  length f0 = (2 ^ lg)%nat -> length g0 = (2 ^ lg)%nat -> length F0 = (2 ^ lg)%nat -> length G0 = (2 ^ lg)%nat ->
  ntru_gen F ztab fuel sfuel lg rng pos f0 g0 F0 G0 = Ok (f, g, F_, G_, pos') ->
  Forall (fun x => Z.abs x <= 3125)%Z F_ -> Forall (fun x => Z.abs x <= 3125)%Z G_ -> check_ntru_eq F ztab lg f g F_ G_ = Ok true.
Proof. exact check_generated. Qed.
Print Assumptions C100_test_passes.
(** binary64 with the literals of the source: the example key is accepted, zeros in place of F and G are rejected *)
Example C100_sat : accurate F64 fin64 val64 /\ table_near F64 fin64 val64 (source_table F64) /\ check_ntru_eq F64 (source_table F64) 9 kf kg kF kG = Ok true /\
  check_ntru_eq F64 (source_table F64) 9 kf kg (repeat 0%Z 512) (repeat 0%Z 512) = Ok false.
Proof. split; [exact accurate64|]. split; [exact (source_near _ _ _ accurate64)|]. split; [exact check_k|exact check_k_zero]. Qed.
Example C100_generated_sat : (forall z, (-18 <= z <= 19)%Z -> to_i32 F64 (fadd F64 (fofz F64 z) (ffloor F64 (fofz F64 0))) = Ok z) /\
  Forall (fun x => Z.abs x <= 3125)%Z kF /\ Forall (fun x => Z.abs x <= 3125)%Z kG.
Proof.
  split; [exact P_keygen.small_exact_F64|].
  assert (X : forall l, forallb (fun x => Z.abs x <=? 3125)%Z l = true -> Forall (fun x => Z.abs x <= 3125)%Z l).
  { intros l H. apply Forall_forall. intros x Hx. rewrite forallb_forall in H. apply Z.leb_le, H, Hx. }
  split; apply X; vm_compute; reflexivity.
Qed.
