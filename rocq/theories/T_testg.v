(** T_testg.v -- claim C104: the test of splitting and merging in the FFT domain passes whatever it draws, in binary64. *)
From Verif Require Import Base Spec SpecR SpecF M_float M_exact M_ieee M_table M_fft M_testg P_near P_live P_ieee P_testg.
From Coq Require Import Reals.
Open Scope R_scope.

(** C104: for every drawn polynomial with coefficients between -3 and 4, at every size of the template, all three expectations of test_fft_split_merge hold, and no access leaves an array. *)
Theorem C104_test : forall F fin val, accurate F fin val -> forall ztab, table_near F fin val ztab -> forall lg draws, (1 <= lg <= 10)%nat -> length draws = (2 ^ lg)%nat ->
  Forall (fun x => (-3 <= x <= 4)%Z) draws -> test_fft_split_merge F ztab lg draws = Ok true.
Proof. exact test_draws_ok. Qed.
Print Assumptions C104_test.
(** They hold for every integer polynomial of Euclidean norm at most 100000 *)
Theorem C104_norm : forall F fin val, accurate F fin val -> forall ztab, table_near F fin val ztab -> forall lg draws, (1 <= lg <= 10)%nat -> length draws = (2 ^ lg)%nat ->
  (sqnorm draws <= 100000 * 100000)%Z -> test_fft_split_merge F ztab lg draws = Ok true.
Proof. exact test_split_merge_ok. Qed.
Print Assumptions C104_norm.
(** binary64 with the literals of the source; a drawn polynomial; the answer is false on coefficients that binary64 cannot carry through the transforms *)
Example C104_sat : accurate F64 fin64 val64 /\ table_near F64 fin64 val64 (source_table F64) /\ Forall (fun x => (-3 <= x <= 4)%Z) [4; -3; 1; 2]%Z /\
  test_fft_split_merge F64 (source_table F64) 2 [4; -3; 1; 2]%Z = Ok true /\ test_fft_split_merge F64 (source_table F64) 2 [2 ^ 60; -3; 1; 2]%Z = Ok false.
Proof.
  split; [exact accurate64|]. split; [exact (source_near _ _ _ accurate64)|]. split; [repeat constructor; discriminate|]. split; vm_compute; reflexivity.
Qed.
