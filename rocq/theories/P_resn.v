(** P_resn.v -- the shares of the first five bands of width 128 of a Gaussian integer, in numbers, for the two values of sigma. *)
From Verif Require Import Base Spec SpecR SpecS SpecG SpecJ M_float M_exact M_tree P_prob P_dist P_gsum P_tot P_theta P_wide P_fit P_fitn.
From Verif Require P_exp P_leaf.
From Coq Require Import Reals Lra.
Open Scope R_scope.

(** millionths *)
Definition shares (lg : nat) : list Z := if Nat.eqb lg 9 then [558253; 318271; 102208; 18485; 1873]%Z else [551029; 319500; 106156; 20217; 2197]%Z.
Definition band_mass (k : R) (j : nat) : R := match j with O => 1 + 2 * half k 127 | _ => 2 * rsum 128 (fun i => rho1 k (128 * Z.of_nat j + 64 - 64 + Z.of_nat i)) end.
(** the shares of the bands 128 j <= |z| < 128 (j + 1) *)
Lemma bands_9 TH : let k := / (2 * (sigma_value RF 9 * sigma_value RF 9)) in P_tot.tot (rho1 k) TH -> forall j, (j < 5)%nat -> IZR (nth j (shares 9) 0%Z) / 1000000 * TH <= band_mass k j.
Proof.
  intros k HT. assert (Ek : k = / (2 * ((165736617183 / 1000000000) * (165736617183 / 1000000000)))) by (unfold k; rewrite P_leaf.sigma_9; reflexivity).
  assert (K1 : 2275323 / 125000000000 <= k <= 3640517 / 200000000000). { rewrite Ek. lra. }
  clearbody k. clear Ek.
  assert (SQ : 12778 / 10000 <= sqrt (/ (2 * (16384 * k))) <= 25 / 10).
  { assert (A : (12778 / 10000) * (12778 / 10000) <= / (2 * (16384 * k)) <= 25 / 10 * (25 / 10)).
    { split.
      - rewrite <- (Rinv_inv ((12778 / 10000) * (12778 / 10000))). apply Rinv_le_contravar; lra.
      - rewrite <- (Rinv_inv (25 / 10 * (25 / 10))). apply Rinv_le_contravar; lra. }
    split; [rewrite <- (sqrt_square (12778 / 10000)) by lra|rewrite <- (sqrt_square (25 / 10)) by lra]; apply sqrt_le_1_alt; apply A. }
  set (u := exp (- (4096 * k))). assert (u1 : 46407691 / 50000000 <= u <= 46407697 / 50000000) by (apply (exp_between (4096 * k) (745577 / 10000000) (372789 / 5000000)); lra).
  assert (u2 : 861469513 / 1000000000 <= u ^ 2 <= 861469737 / 1000000000). { replace (u ^ 2) with (u * u) by ring. apply (mul_between _ _ (46407691 / 50000000) (46407697 / 50000000) (46407691 / 50000000) (46407697 / 50000000)); lra. }
  assert (u4 : 742129721 / 1000000000 <= u ^ 4 <= 185532527 / 250000000). { replace (u ^ 4) with (u ^ 2 * u ^ 2) by ring. apply (mul_between _ _ (861469513 / 1000000000) (861469737 / 1000000000) (861469513 / 1000000000) (861469737 / 1000000000)); lra. }
  assert (u8 : 275378261 / 500000000 <= u ^ 8 <= 275378549 / 500000000). { replace (u ^ 8) with (u ^ 4 * u ^ 4) by ring. apply (mul_between _ _ (742129721 / 1000000000) (185532527 / 250000000) (742129721 / 1000000000) (185532527 / 250000000)); lra. }
  assert (u9 : 511186769 / 1000000000 <= u ^ 9 <= 511187371 / 1000000000). { replace (u ^ 9) with (u ^ 8 * u) by ring. apply (mul_between _ _ (275378261 / 500000000) (275378549 / 500000000) (46407691 / 50000000) (46407697 / 50000000)); lra. }
  assert (u16 : 151666373 / 500000000 <= u ^ 16 <= 303333381 / 1000000000). { replace (u ^ 16) with (u ^ 8 * u ^ 8) by ring. apply (mul_between _ _ (275378261 / 500000000) (275378549 / 500000000) (275378261 / 500000000) (275378549 / 500000000)); lra. }
  assert (u25 : 77529843 / 500000000 <= u ^ 25 <= 77530097 / 500000000). { replace (u ^ 25) with (u ^ 16 * u ^ 9) by ring. apply (mul_between _ _ (151666373 / 500000000) (303333381 / 1000000000) (511186769 / 1000000000) (511187371 / 1000000000)); lra. }
  assert (u24 : 20882811 / 125000000 <= u ^ 24 <= 167063013 / 1000000000). { replace (u ^ 24) with (u ^ 16 * u ^ 8) by ring. apply (mul_between _ _ (151666373 / 500000000) (303333381 / 1000000000) (275378261 / 500000000) (275378549 / 500000000)); lra. }
  assert (u28 : 123982037 / 1000000000 <= u ^ 28 <= 30995623 / 250000000). { replace (u ^ 28) with (u ^ 24 * u ^ 4) by ring. apply (mul_between _ _ (20882811 / 125000000) (167063013 / 1000000000) (742129721 / 1000000000) (185532527 / 250000000)); lra. }
  assert (u36 : 13656783 / 200000000 <= u ^ 36 <= 34142119 / 500000000). { replace (u ^ 36) with (u ^ 28 * u ^ 8) by ring. apply (mul_between _ _ (123982037 / 1000000000) (30995623 / 250000000) (275378261 / 500000000) (275378549 / 500000000)); lra. }
  assert (u64 : 4232989 / 500000000 <= u ^ 64 <= 169321 / 20000000). { replace (u ^ 64) with (u ^ 36 * u ^ 28) by ring. apply (mul_between _ _ (13656783 / 200000000) (34142119 / 500000000) (123982037 / 1000000000) (30995623 / 250000000)); lra. }
  assert (u49 : 1619041 / 62500000 <= u ^ 49 <= 3238103 / 125000000). { replace (u ^ 49) with (u ^ 25 * u ^ 24) by ring. apply (mul_between _ _ (77529843 / 500000000) (77530097 / 500000000) (20882811 / 125000000) (167063013 / 1000000000)); lra. }
  assert (u17 : 140769723 / 500000000 <= u ^ 17 <= 281540073 / 1000000000). { replace (u ^ 17) with (u ^ 16 * u) by ring. apply (mul_between _ _ (151666373 / 500000000) (303333381 / 1000000000) (46407691 / 50000000) (46407697 / 50000000)); lra. }
  assert (u81 : 1191753 / 500000000 <= u ^ 81 <= 2383533 / 1000000000). { replace (u ^ 81) with (u ^ 64 * u ^ 17) by ring. apply (mul_between _ _ (4232989 / 500000000) (169321 / 20000000) (140769723 / 500000000) (281540073 / 1000000000)); lra. }
  assert (EE : exp (- (k * 16384)) = u ^ 4) by (unfold u; rewrite exp_pow; f_equal; simpl; ring).
  assert (ER : exp (- (k * 114688)) = u ^ 28) by (unfold u; rewrite exp_pow; f_equal; replace (INR 28) with 28 by (simpl; lra); ring).
  assert (P4 : (u ^ 4) ^ 4 = u ^ 16) by (rewrite <- pow_mult; reflexivity). assert (P9 : (u ^ 4) ^ 9 = u ^ 36) by (rewrite <- pow_mult; reflexivity). assert (P16 : (u ^ 4) ^ 16 = u ^ 64) by (rewrite <- pow_mult; reflexivity).
  assert (UD : exp (- (4096 * k)) = u) by reflexivity. clearbody u.
  assert (HU : TH <= 519307 / 1250).
  { assert (H := all_upper k ltac:(lra) TH HT SQ (u ^ 4) (eq_sym EE) ltac:(lra)). refine (upper_tot (u ^ 4) _ (185532527 / 250000000) (303333381 / 1000000000) (34142119 / 500000000) (169321 / 20000000) TH H _ _ _ _ _ _).
    - lra.
    - rewrite P4. lra.
    - rewrite P9. lra.
    - lra.
    - rewrite P16. lra.
    - lra. }
  assert (HH : 2886547 / 25000 <= half k 127).
  { assert (H := half_lb k ltac:(lra) 127). destruct z127 as (Z2 & Z4 & Z6). rewrite Z2, Z4, Z6 in H. change (IZR (Z.of_nat 127)) with 127 in H. replace (INR 127) with 127 in H by (simpl; lra).
    destruct (sq_between k (2275323 / 125000000000) (3640517 / 200000000000)) as [S2 S3]; [lra|lra|]. specialize (H ltac:(lra)). eapply Rle_trans; [|exact H]. clear - K1 S2 S3. set (A := k ^ 2) in *. set (B := k ^ 3) in *. lra. }
  assert (B1 : 330561 / 5000 <= rsum 128 (fun i => rho1 k (128 * Z.of_nat 1 + 64 - 64 + Z.of_nat i))).
  { change (128 * Z.of_nat 1 + 64)%Z with 192%Z. eapply (blk_num k 192 (2275323 / 125000000000) (3640517 / 200000000000) (742129721 / 1000000000) (511186769 / 1000000000)); [lia|lra|lra|lra| | |reflexivity|reflexivity| |].
    - rewrite (rho_pow k 2) by reflexivity. rewrite UD. cbn [Nat.mul Nat.add]. lra.
    - rewrite (rho_pow k 3) by reflexivity. rewrite UD. cbn [Nat.mul Nat.add]. lra.
    - lra.
    - lra. }
  assert (B2 : 21231 / 1000 <= rsum 128 (fun i => rho1 k (128 * Z.of_nat 2 + 64 - 64 + Z.of_nat i))).
  { change (128 * Z.of_nat 2 + 64)%Z with 320%Z. eapply (blk_num k 320 (2275323 / 125000000000) (3640517 / 200000000000) (151666373 / 500000000) (77529843 / 500000000)); [lia|lra|lra|lra| | |reflexivity|reflexivity| |].
    - rewrite (rho_pow k 4) by reflexivity. rewrite UD. cbn [Nat.mul Nat.add]. lra.
    - rewrite (rho_pow k 5) by reflexivity. rewrite UD. cbn [Nat.mul Nat.add]. lra.
    - lra.
    - lra. }
  assert (B3 : 19199 / 5000 <= rsum 128 (fun i => rho1 k (128 * Z.of_nat 3 + 64 - 64 + Z.of_nat i))).
  { change (128 * Z.of_nat 3 + 64)%Z with 448%Z. eapply (blk_num k 448 (2275323 / 125000000000) (3640517 / 200000000000) (13656783 / 200000000) (1619041 / 62500000)); [lia|lra|lra|lra| | |reflexivity|reflexivity| |].
    - rewrite (rho_pow k 6) by reflexivity. rewrite UD. cbn [Nat.mul Nat.add]. lra.
    - rewrite (rho_pow k 7) by reflexivity. rewrite UD. cbn [Nat.mul Nat.add]. lra.
    - lra.
    - lra. }
  assert (B4 : 973 / 2500 <= rsum 128 (fun i => rho1 k (128 * Z.of_nat 4 + 64 - 64 + Z.of_nat i))).
  { change (128 * Z.of_nat 4 + 64)%Z with 576%Z. eapply (blk_num k 576 (2275323 / 125000000000) (3640517 / 200000000000) (4232989 / 500000000) (1191753 / 500000000)); [lia|lra|lra|lra| | |reflexivity|reflexivity| |].
    - rewrite (rho_pow k 8) by reflexivity. rewrite UD. cbn [Nat.mul Nat.add]. lra.
    - rewrite (rho_pow k 9) by reflexivity. rewrite UD. cbn [Nat.mul Nat.add]. lra.
    - lra.
    - lra. }
  clear - HU HH B1 B2 B3 B4. intros j Hj. destruct j as [|[|[|[|[|]]]]]; [| | | | |lia]; cbn [shares Nat.eqb nth band_mass]; lra.
Qed.

Lemma bands_10 TH : let k := / (2 * (sigma_value RF 10 * sigma_value RF 10)) in P_tot.tot (rho1 k) TH -> forall j, (j < 5)%nat -> IZR (nth j (shares 10) 0%Z) / 1000000 * TH <= band_mass k j.
Proof.
  intros k HT. assert (Ek : k = / (2 * ((168388571447 / 1000000000) * (168388571447 / 1000000000)))) by (unfold k; rewrite P_leaf.sigma_10; reflexivity).
  assert (K1 : 8816877 / 500000000000 <= k <= 3526751 / 200000000000). { rewrite Ek. lra. }
  clearbody k. clear Ek.
  assert (SQ : 12778 / 10000 <= sqrt (/ (2 * (16384 * k))) <= 25 / 10).
  { assert (A : (12778 / 10000) * (12778 / 10000) <= / (2 * (16384 * k)) <= 25 / 10 * (25 / 10)).
    { split.
      - rewrite <- (Rinv_inv ((12778 / 10000) * (12778 / 10000))). apply Rinv_le_contravar; lra.
      - rewrite <- (Rinv_inv (25 / 10 * (25 / 10))). apply Rinv_le_contravar; lra. }
    split; [rewrite <- (sqrt_square (12778 / 10000)) by lra|rewrite <- (sqrt_square (25 / 10)) by lra]; apply sqrt_le_1_alt; apply A. }
  set (u := exp (- (4096 * k))). assert (u1 : 18606377 / 20000000 <= u <= 93031897 / 100000000) by (apply (exp_between (4096 * k) (361139 / 5000000) (722279 / 10000000)); lra).
  assert (u2 : 432746581 / 500000000 <= u ^ 2 <= 432746693 / 500000000). { replace (u ^ 2) with (u * u) by ring. apply (mul_between _ _ (18606377 / 20000000) (93031897 / 100000000) (18606377 / 20000000) (93031897 / 100000000)); lra. }
  assert (u4 : 749078413 / 1000000000 <= u ^ 4 <= 374539401 / 500000000). { replace (u ^ 4) with (u ^ 2 * u ^ 2) by ring. apply (mul_between _ _ (432746581 / 500000000) (432746693 / 500000000) (432746581 / 500000000) (432746693 / 500000000)); lra. }
  assert (u8 : 140279617 / 250000000 <= u ^ 8 <= 140279763 / 250000000). { replace (u ^ 8) with (u ^ 4 * u ^ 4) by ring. apply (mul_between _ _ (749078413 / 1000000000) (374539401 / 500000000) (749078413 / 1000000000) (374539401 / 500000000)); lra. }
  assert (u9 : 522019087 / 1000000000 <= u ^ 9 <= 522019699 / 1000000000). { replace (u ^ 9) with (u ^ 8 * u) by ring. apply (mul_between _ _ (140279617 / 250000000) (140279763 / 250000000) (18606377 / 20000000) (93031897 / 100000000)); lra. }
  assert (u16 : 62970787 / 200000000 <= u ^ 16 <= 314854591 / 1000000000). { replace (u ^ 16) with (u ^ 8 * u ^ 8) by ring. apply (mul_between _ _ (140279617 / 250000000) (140279763 / 250000000) (140279617 / 250000000) (140279763 / 250000000)); lra. }
  assert (u25 : 164359763 / 1000000000 <= u ^ 25 <= 164360299 / 1000000000). { replace (u ^ 25) with (u ^ 16 * u ^ 9) by ring. apply (mul_between _ _ (62970787 / 200000000) (314854591 / 1000000000) (522019087 / 1000000000) (522019699 / 1000000000)); lra. }
  assert (u24 : 176670357 / 1000000000 <= u ^ 24 <= 17667091 / 100000000). { replace (u ^ 24) with (u ^ 16 * u ^ 8) by ring. apply (mul_between _ _ (62970787 / 200000000) (314854591 / 1000000000) (140279617 / 250000000) (140279763 / 250000000)); lra. }
  assert (u28 : 2646799 / 20000000 <= u ^ 28 <= 66170217 / 500000000). { replace (u ^ 28) with (u ^ 24 * u ^ 4) by ring. apply (mul_between _ _ (176670357 / 1000000000) (17667091 / 100000000) (749078413 / 1000000000) (374539401 / 500000000)); lra. }
  assert (u36 : 74258389 / 1000000000 <= u ^ 36 <= 74258739 / 1000000000). { replace (u ^ 36) with (u ^ 28 * u ^ 8) by ring. apply (mul_between _ _ (2646799 / 20000000) (66170217 / 500000000) (140279617 / 250000000) (140279763 / 250000000)); lra. }
  assert (u64 : 9827351 / 1000000000 <= u ^ 64 <= 4913717 / 500000000). { replace (u ^ 64) with (u ^ 36 * u ^ 28) by ring. apply (mul_between _ _ (74258389 / 1000000000) (74258739 / 1000000000) (2646799 / 20000000) (66170217 / 500000000)); lra. }
  assert (u49 : 14518749 / 500000000 <= u ^ 49 <= 7259421 / 250000000). { replace (u ^ 49) with (u ^ 25 * u ^ 24) by ring. apply (mul_between _ _ (164359763 / 1000000000) (164360299 / 1000000000) (176670357 / 1000000000) (17667091 / 100000000)); lra. }
  assert (u17 : 5858291 / 20000000 <= u ^ 17 <= 292915199 / 1000000000). { replace (u ^ 17) with (u ^ 16 * u) by ring. apply (mul_between _ _ (62970787 / 200000000) (314854591 / 1000000000) (18606377 / 20000000) (93031897 / 100000000)); lra. }
  assert (u81 : 1439287 / 500000000 <= u ^ 81 <= 575721 / 200000000). { replace (u ^ 81) with (u ^ 64 * u ^ 17) by ring. apply (mul_between _ _ (9827351 / 1000000000) (4913717 / 500000000) (5858291 / 20000000) (292915199 / 1000000000)); lra. }
  assert (EE : exp (- (k * 16384)) = u ^ 4) by (unfold u; rewrite exp_pow; f_equal; simpl; ring).
  assert (ER : exp (- (k * 114688)) = u ^ 28) by (unfold u; rewrite exp_pow; f_equal; replace (INR 28) with 28 by (simpl; lra); ring).
  assert (P4 : (u ^ 4) ^ 4 = u ^ 16) by (rewrite <- pow_mult; reflexivity). assert (P9 : (u ^ 4) ^ 9 = u ^ 36) by (rewrite <- pow_mult; reflexivity). assert (P16 : (u ^ 4) ^ 16 = u ^ 64) by (rewrite <- pow_mult; reflexivity).
  assert (UD : exp (- (4096 * k)) = u) by reflexivity. clearbody u.
  assert (HU : TH <= 4220949 / 10000).
  { assert (H := all_upper k ltac:(lra) TH HT SQ (u ^ 4) (eq_sym EE) ltac:(lra)). refine (upper_tot (u ^ 4) _ (374539401 / 500000000) (314854591 / 1000000000) (74258739 / 1000000000) (4913717 / 500000000) TH H _ _ _ _ _ _).
    - lra.
    - rewrite P4. lra.
    - rewrite P9. lra.
    - lra.
    - rewrite P16. lra.
    - lra. }
  assert (HH : 5789667 / 50000 <= half k 127).
  { assert (H := half_lb k ltac:(lra) 127). destruct z127 as (Z2 & Z4 & Z6). rewrite Z2, Z4, Z6 in H. change (IZR (Z.of_nat 127)) with 127 in H. replace (INR 127) with 127 in H by (simpl; lra).
    destruct (sq_between k (8816877 / 500000000000) (3526751 / 200000000000)) as [S2 S3]; [lra|lra|]. specialize (H ltac:(lra)). eapply Rle_trans; [|exact H]. clear - K1 S2 S3. set (A := k ^ 2) in *. set (B := k ^ 3) in *. lra. }
  assert (B1 : 337149 / 5000 <= rsum 128 (fun i => rho1 k (128 * Z.of_nat 1 + 64 - 64 + Z.of_nat i))).
  { change (128 * Z.of_nat 1 + 64)%Z with 192%Z. eapply (blk_num k 192 (8816877 / 500000000000) (3526751 / 200000000000) (749078413 / 1000000000) (522019087 / 1000000000)); [lia|lra|lra|lra| | |reflexivity|reflexivity| |].
    - rewrite (rho_pow k 2) by reflexivity. rewrite UD. cbn [Nat.mul Nat.add]. lra.
    - rewrite (rho_pow k 3) by reflexivity. rewrite UD. cbn [Nat.mul Nat.add]. lra.
    - lra.
    - lra. }
  assert (B2 : 224041 / 10000 <= rsum 128 (fun i => rho1 k (128 * Z.of_nat 2 + 64 - 64 + Z.of_nat i))).
  { change (128 * Z.of_nat 2 + 64)%Z with 320%Z. eapply (blk_num k 320 (8816877 / 500000000000) (3526751 / 200000000000) (62970787 / 200000000) (164359763 / 1000000000)); [lia|lra|lra|lra| | |reflexivity|reflexivity| |].
    - rewrite (rho_pow k 4) by reflexivity. rewrite UD. cbn [Nat.mul Nat.add]. lra.
    - rewrite (rho_pow k 5) by reflexivity. rewrite UD. cbn [Nat.mul Nat.add]. lra.
    - lra.
    - lra. }
  assert (B3 : 10667 / 2500 <= rsum 128 (fun i => rho1 k (128 * Z.of_nat 3 + 64 - 64 + Z.of_nat i))).
  { change (128 * Z.of_nat 3 + 64)%Z with 448%Z. eapply (blk_num k 448 (8816877 / 500000000000) (3526751 / 200000000000) (74258389 / 1000000000) (14518749 / 500000000)); [lia|lra|lra|lra| | |reflexivity|reflexivity| |].
    - rewrite (rho_pow k 6) by reflexivity. rewrite UD. cbn [Nat.mul Nat.add]. lra.
    - rewrite (rho_pow k 7) by reflexivity. rewrite UD. cbn [Nat.mul Nat.add]. lra.
    - lra.
    - lra. }
  assert (B4 : 4637 / 10000 <= rsum 128 (fun i => rho1 k (128 * Z.of_nat 4 + 64 - 64 + Z.of_nat i))).
  { change (128 * Z.of_nat 4 + 64)%Z with 576%Z. eapply (blk_num k 576 (8816877 / 500000000000) (3526751 / 200000000000) (9827351 / 1000000000) (1439287 / 500000000)); [lia|lra|lra|lra| | |reflexivity|reflexivity| |].
    - rewrite (rho_pow k 8) by reflexivity. rewrite UD. cbn [Nat.mul Nat.add]. lra.
    - rewrite (rho_pow k 9) by reflexivity. rewrite UD. cbn [Nat.mul Nat.add]. lra.
    - lra.
    - lra. }
  clear - HU HH B1 B2 B3 B4. intros j Hj. destruct j as [|[|[|[|[|]]]]]; [| | | | |lia]; cbn [shares Nat.eqb nth band_mass]; lra.
Qed.
