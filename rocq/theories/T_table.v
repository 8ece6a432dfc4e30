(** T_table.v -- claim C59: the decimal literals of the FFT table. *)
From Verif Require Import Base Spec SpecR M_float M_exact M_table P_table.
Open Scope R_scope.

(** C59: each of the 1024 pairs of literals is within 10^-15 (Euclidean distance) of the root of unity it stands for,
    e^(i pi brv10(k) / 1024).  All 1024 entries: this is the whole domain. *)
Theorem C59_table : length (source_table RF) = 1024%nat /\
  forall k, (k < 1024)%nat -> sqrt (mod2 (Csub (nth k (source_table RF) Czero) (cis (PI * INR (brv 10 k) / 1024)))) <= 1 / 1000000000000000.
Proof. exact (conj (source_length RF) source_distance). Qed.
Print Assumptions C59_table.
Example C59_sat : nth 4 (source_table RF) Czero = (9238795325112867 / IZR (10 ^ 16), 3826834323650898 / IZR (10 ^ 16)).
Proof. reflexivity. Qed.
