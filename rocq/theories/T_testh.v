(** T_testh.v -- claim C105: the test of multiplication and division in the FFT domain, in binary64. *)
From Verif Require Import Base Spec SpecR SpecF M_float M_exact M_ieee M_table M_fft M_testh P_near P_live P_ieee P_testh P_testhz.
From Coq Require Import Reals.
Open Scope R_scope.

(** C105: for all drawn polynomials a, b with coefficients between -3 and 4, the expectation of test_fft holds if no value of b at a root of x^n + 1 is below 1.28e-10 in modulus. *)
Theorem C105_test : forall F fin val, accurate F fin val -> forall ztab, table_near F fin val ztab -> forall lg a b, (lg <= 10)%nat -> length a = (2 ^ lg)%nat -> length b = (2 ^ lg)%nat ->
  Forall (fun x => (-3 <= x <= 4)%Z) a -> Forall (fun x => (-3 <= x <= 4)%Z) b -> values_ge lg b (128 / 1000000000000) -> test_fft F ztab lg a b = Ok true.
Proof. exact test_fft_draws. Qed.
Print Assumptions C105_test.
(** It holds for all integer polynomials of Euclidean norm at most K <= 100000 if no value of b is below K / 10^12 in modulus *)
Theorem C105_norm : forall F fin val, accurate F fin val -> forall ztab, table_near F fin val ztab -> forall lg (K : Z) a b, (lg <= 10)%nat -> (1 <= K <= 100000)%Z ->
  length a = (2 ^ lg)%nat -> length b = (2 ^ lg)%nat -> (sqnorm a <= K * K)%Z -> (sqnorm b <= K * K)%Z -> values_ge lg b (IZR K / 1000000000000) -> test_fft F ztab lg a b = Ok true.
Proof. exact test_fft_ok. Qed.
Print Assumptions C105_norm.
(** If b is drawn zero, the test fails whatever a is: the quotients are NaN, which differs from everything *)
Theorem C105_zero : forall ztab lg a, table_near F64 fin64 val64 ztab -> (lg <= 10)%nat -> length a = (2 ^ lg)%nat -> Forall (fun x => (-3 <= x <= 4)%Z) a ->
  test_fft F64 ztab lg a (repeat 0%Z (2 ^ lg)) = Ok false.
Proof. exact test_fft_zero. Qed.
Print Assumptions C105_zero.
(** hence it does not pass for all draws, at either size of the test *)
Theorem C105_every_draw_refuted : forall ztab lg, table_near F64 fin64 val64 ztab -> falcon_lg lg -> exists a b, length a = (2 ^ lg)%nat /\ length b = (2 ^ lg)%nat /\
  Forall (fun x => (-3 <= x <= 4)%Z) a /\ Forall (fun x => (-3 <= x <= 4)%Z) b /\ test_fft F64 ztab lg a b = Ok false.
Proof. exact test_fft_zero_draws. Qed.
Print Assumptions C105_every_draw_refuted.
(** binary64 with the literals of the source, and a drawn divisor without small values *)
Example C105_sat : accurate F64 fin64 val64 /\ table_near F64 fin64 val64 (source_table F64) /\
  length (one_poly 9) = (2 ^ 9)%nat /\ Forall (fun x => (-3 <= x <= 4)%Z) (one_poly 9) /\ values_ge 9 (one_poly 9) (128 / 1000000000000).
Proof. split; [exact accurate64|]. split; [exact (source_near _ _ _ accurate64)|]. exact (one_draw 9). Qed.
(** a divisor that is not constant *)
Example C105_run : test_fft F64 (source_table F64) 2 [4; -3; 1; 2]%Z [-1; 2; 3; 0]%Z = Ok true.
Proof. vm_compute. reflexivity. Qed.
