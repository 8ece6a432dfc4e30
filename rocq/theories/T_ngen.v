(** T_ngen.v -- claim C78: the distribution of the pair f, g that ntru_gen returns. *)
From Verif Require Import Base Spec SpecR SpecF SpecG SpecJ SpecK M_float M_ieee M_table M_ntru P_near P_ieee P_ngen.
From Coq Require Import Reals.
Open Scope R_scope.

(** C78: the probability K of each pair is that of two independent draws of gen_poly, times a constant c common to all pairs that pass the tests, and zero for the others. The constant is the sum of the powers of the
    probability that a pass is repeated, as for independent passes. Hence K is close to a product of discrete Gaussians restricted to those pairs. *)
Theorem C78_key_pair : forall ztab lg sfuel fuel, falcon_lg lg -> exists c, 1 <= c <= INR (S fuel) /\ forall f0 g0 F0 G0 n,
  length f0 = (2 ^ lg)%nat -> length g0 = (2 ^ lg)%nat -> length F0 = (2 ^ lg)%nat -> length G0 = (2 ^ lg)%nat -> (S fuel * (2 * (4096 * (18 * sfuel))) <= n)%nat ->
  let P f := prob n (fun w => yields (gen_poly F64 sfuel lg (stream w) 0 f0) f) in let P' g := prob n (fun w => yields (gen_poly F64 sfuel lg (stream w) 0 g0) g) in
  let K f g := prob n (fun w => keys (ntru_gen F64 ztab (S fuel) sfuel lg (stream w) 0 f0 g0 F0 G0) f g) in
  (forall f g, length f = (2 ^ lg)%nat -> length g = (2 ^ lg)%nat -> K f g = if kept F64 ztab sfuel lg f g then c * (P f * P' g) else 0) /\
  (forall L, NoDup L -> Forall (fun p => length (fst p) = (2 ^ lg)%nat /\ length (snd p) = (2 ^ lg)%nat) L -> (forall f g, length f = (2 ^ lg)%nat -> length g = (2 ^ lg)%nat -> P f * P' g <> 0 -> In (f, g) L) ->
    c = sum_f_R0 (fun i => lsum (fun p => if rejected F64 ztab sfuel lg (fst p) (snd p) then P (fst p) * P' (snd p) else 0) L ^ i) fuel) /\
  (forall s G L, s = val64 (sigma_fg F64) * sqrt (4096 / 2 ^ lg) -> gauss_sum s 0 G -> NoDup L -> Forall (fun p => length (fst p) = (2 ^ lg)%nat /\ length (snd p) = (2 ^ lg)%nat) L ->
    lsum (fun p => Rabs (K (fst p) (snd p) - if kept F64 ztab sfuel lg (fst p) (snd p) then c * (Rprod (map (fun z => rho s 0 (IZR z) / G) (fst p)) * Rprod (map (fun z => rho s 0 (IZR z) / G) (snd p))) else 0)) L <= c * (2 * (/ 2 ^ 15 + 4096 * (11 / 12) ^ sfuel))).
Proof. exact gen_final. Qed.
Print Assumptions C78_key_pair.
Example C78_sat : exists s G L, s = val64 (sigma_fg F64) * sqrt (4096 / 2 ^ 9) /\ gauss_sum s 0 G /\ L = [(repeat 0%Z 512, repeat 0%Z 512); (1%Z :: repeat 0%Z 511, repeat 0%Z 512)] /\ NoDup L /\
  Forall (fun p => length (fst p) = (2 ^ 9)%nat /\ length (snd p) = (2 ^ 9)%nat) L.
Proof. exact pair_sat. Qed.
(** a finite list of all pairs that can be drawn exists *)
Example C78_sat_list : forall lg sfuel n f0 g0, falcon_lg lg -> length f0 = (2 ^ lg)%nat -> length g0 = (2 ^ lg)%nat -> (4096 * (18 * sfuel) <= n)%nat -> exists L, NoDup L /\ Forall (fun p => length (fst p) = (2 ^ lg)%nat /\ length (snd p) = (2 ^ lg)%nat) L /\
  forall f g, length f = (2 ^ lg)%nat -> length g = (2 ^ lg)%nat -> prob n (fun w => yields (gen_poly F64 sfuel lg (stream w) 0 f0) f) * prob n (fun w => yields (gen_poly F64 sfuel lg (stream w) 0 g0) g) <> 0 -> In (f, g) L.
Proof. exact all_pairs. Qed.
(** the tests let pairs through (degree 4) *)
Example C78_kept : kept F64 (source_table F64) 40 2 [1; 0; 0; 0]%Z [100; 0; 0; 0]%Z = true.
Proof. exact kept_sat. Qed.
