(** P_fitn.v -- the exponential moment of the unary part of the compressed form, in numbers, for the two values of sigma. *)
From Verif Require Import Base Spec SpecR SpecS SpecG SpecJ M_float M_exact M_tree P_prob P_dist P_gsum P_tot P_theta P_wide P_fit.
From Verif Require P_exp P_leaf.
From Coq Require Import Reals Lra.
Open Scope R_scope.

Lemma exp_quint u : 0 <= u <= 1 -> 1 - u + u ^ 2 / 2 - u ^ 3 / 6 + u ^ 4 / 24 - u ^ 5 / 120 <= exp (- u) <= 1 - u + u ^ 2 / 2 - u ^ 3 / 6 + u ^ 4 / 24.
Proof.
  intros Hu. destruct (P_exp.exp_alt 2 u Hu) as [A B]. split; [eapply Rle_trans; [|exact A]|eapply Rle_trans; [exact B|]]; right; unfold sum_f_R0, tg_alt, P_exp.eterm; cbn [Nat.mul Nat.add]; simpl; field.
Qed.
Lemma exp_between y y1 y2 l h : 0 <= y1 <= y -> y <= y2 <= 1 -> l <= 1 - y2 + y2 ^ 2 / 2 - y2 ^ 3 / 6 + y2 ^ 4 / 24 - y2 ^ 5 / 120 -> 1 - y1 + y1 ^ 2 / 2 - y1 ^ 3 / 6 + y1 ^ 4 / 24 <= h -> l <= exp (- y) <= h.
Proof.
  intros H1 H2 L H. destruct (exp_quint y1 ltac:(lra)) as [_ A]. destruct (exp_quint y2 ltac:(lra)) as [B _]. assert (exp (- y) <= exp (- y1)) by (apply exp_le; lra). assert (exp (- y2) <= exp (- y)) by (apply exp_le; lra). lra.
Qed.
Lemma mul_between x y a b c d l h : 0 <= a -> a <= x <= b -> 0 <= c -> c <= y <= d -> l <= a * c -> b * d <= h -> l <= x * y <= h.
Proof. intros A X C Y L H. assert (a * c <= x * y) by (apply Rmult_le_compat; lra). assert (x * y <= b * d) by (apply Rmult_le_compat; lra). lra. Qed.

Lemma finish k TH x mu a0 a1 a2 tu c3 : 0 < k -> tot (rho1 k) TH -> 1 <= x -> x * exp (- (k * 114688)) < 1 ->
  a0 <= half k 127 -> a1 <= rsum 128 (fun i => rho1 k (128 * Z.of_nat 1 + 64 - 64 + Z.of_nat i)) -> a2 <= rsum 128 (fun i => rho1 k (128 * Z.of_nat 2 + 64 - 64 + Z.of_nat i)) ->
  TH <= tu -> (x ^ 3 - x ^ 2) / (1 - x * exp (- (k * 114688))) <= c3 -> 0 <= x ^ 2 + c3 - mu ->
  (x ^ 2 + c3 - mu) * tu <= (x - 1) * (1 + 2 * a0) + (x ^ 2 - x) * (1 + 2 * a0 + 2 * a1) + c3 * (1 + 2 * a0 + 2 * a1 + 2 * a2) ->
  forall V, NoDup V -> lsum (fun z => x ^ lev z * rho1 k z) V <= mu * TH.
Proof.
  intros k0 HT Hx HR H0 H1 H2 Ht Hc Hm HF V NV.
  assert (T1 := tail_core k TH HT 1 ltac:(lia)). assert (T2 := tail_core k TH HT 2 ltac:(lia)). assert (T3 := tail_core k TH HT 3 ltac:(lia)).
  assert (E2 := half_add k 1 ltac:(lia)). assert (E3 := half_add k 2 ltac:(lia)).
  change (128 * 1 - 1)%nat with 127%nat in *. set (B1 := rsum 128 (fun i => rho1 k (128 * Z.of_nat 1 + 64 - 64 + Z.of_nat i))) in *. set (B2 := rsum 128 (fun i => rho1 k (128 * Z.of_nat 2 + 64 - 64 + Z.of_nat i))) in *.
  assert (M := moment k k0 TH HT x _ _ _ Hx HR T1 T2 T3 V NV). assert (t30 : 0 <= TH - (1 + 2 * half k (128 * 3 - 1))) by (apply (T3 []); [constructor|intros z []]).
  rewrite E3, E2 in M, t30. set (c := (x ^ 3 - x ^ 2) / (1 - x * exp (- (k * 114688)))) in *. set (h := half k 127) in *.
  assert (C3 : c * (TH - (1 + 2 * (h + B1 + B2))) <= c3 * (TH - (1 + 2 * (h + B1 + B2)))) by (apply Rmult_le_compat_r; assumption).
  assert (X2 : 0 <= x ^ 2 - x) by (replace (x ^ 2 - x) with (x * (x - 1)) by ring; apply Rmult_le_pos; lra).
  assert (C0 : 0 <= c3). { apply Rle_trans with c; [|exact Hc]. unfold c. apply Rmult_le_pos; [replace (x ^ 3 - x ^ 2) with (x * (x ^ 2 - x)) by ring; apply Rmult_le_pos; lra|left; apply Rinv_0_lt_compat; lra]. }
  assert (F1 : (x ^ 2 + c3 - mu) * TH <= (x ^ 2 + c3 - mu) * tu) by (apply Rmult_le_compat_l; assumption).
  assert (G1 : (x - 1) * (1 + 2 * a0) <= (x - 1) * (1 + 2 * h)) by (apply Rmult_le_compat_l; lra).
  assert (G2 : (x ^ 2 - x) * (1 + 2 * a0 + 2 * a1) <= (x ^ 2 - x) * (1 + 2 * (h + B1))) by (apply Rmult_le_compat_l; lra).
  assert (G3 : c3 * (1 + 2 * a0 + 2 * a1 + 2 * a2) <= c3 * (1 + 2 * (h + B1 + B2))) by (apply Rmult_le_compat_l; lra).
  assert (N1 : (x - 1) * (TH - (1 + 2 * h)) = (x - 1) * TH - (x - 1) * (1 + 2 * h)) by ring.
  assert (N2 : (x ^ 2 - x) * (TH - (1 + 2 * (h + B1))) = (x ^ 2 - x) * TH - (x ^ 2 - x) * (1 + 2 * (h + B1))) by ring.
  assert (N3 : c3 * (TH - (1 + 2 * (h + B1 + B2))) = c3 * TH - c3 * (1 + 2 * (h + B1 + B2))) by ring.
  assert (N4 : (x ^ 2 + c3 - mu) * TH = TH + (x - 1) * TH + (x ^ 2 - x) * TH + c3 * TH - mu * TH) by ring. lra.
Qed.
(** the centre and the lower end of a block, powers of exp(-4096 k) *)
Lemma rho_pow k (n : nat) z : (z = 64 * Z.of_nat n)%Z -> rho1 k z = exp (- (4096 * k)) ^ (n * n).
Proof. intros ->. rewrite exp_pow. unfold rho1. f_equal. f_equal. rewrite mult_INR, mult_IZR, !INR_IZR_INZ. ring. Qed.
Lemma upper_tot E tu u4 u16 u36 u64 TH : TH <= 128 * (1 + / 2 ^ 36) * (1 + 2 * (E + E ^ 4 + E ^ 9 + E ^ 16 / (1 - E ^ 9))) -> E <= u4 -> E ^ 4 <= u16 -> 0 <= E ^ 9 <= u36 -> u36 < 1 -> 0 <= E ^ 16 <= u64 ->
  128 * (1 + / 68719476736) * (1 + 2 * (u4 + u16 + u36 + u64 / (1 - u36))) <= tu -> TH <= tu.
Proof.
  intros H H4 H16 H36 L H64 HF. eapply Rle_trans; [exact H|]. eapply Rle_trans; [|exact HF]. replace (2 ^ 36) with 68719476736 by (cbn; lra). apply Rmult_le_compat_l; [lra|].
  assert (A : E ^ 16 / (1 - E ^ 9) <= u64 / (1 - u36)). { apply Rmult_le_compat; [lra|left; apply Rinv_0_lt_compat; lra|lra|]. apply Rinv_le_contravar; lra. }
  lra.
Qed.
Lemma z127 : rsum 127 (fun i => IZR (Z.of_nat (S i)) ^ 2) = 690880 /\ rsum 127 (fun i => IZR (Z.of_nat (S i)) ^ 4) = 6738428992 /\ rsum 127 (fun i => IZR (Z.of_nat (S i)) ^ 6) = 78239578181440.
Proof. rewrite !rsum_pow. split; [reflexivity|]. split; reflexivity. Qed.
Lemma sq_between (k k1 k2 : R) : 0 <= k1 <= k -> k <= k2 -> k1 ^ 2 <= k ^ 2 <= k2 ^ 2 /\ k ^ 3 <= k2 ^ 3.
Proof. intros A B. split; [split; apply pow_incr; lra|apply pow_incr; lra]. Qed.
Lemma blk_num k m k1 k2 node cen a S0 S1 : (64 <= m)%Z -> 0 < k1 <= k -> k <= k2 -> k2 * 4096 <= 1 -> node <= rho1 k (m - 64) -> 0 <= cen <= rho1 k m ->
  S0 = (k1 * IZR m) ^ 2 -> S1 = (k2 * IZR m) ^ 2 -> 0 <= 126 + (4 * S0 - 2 * k2) * 85344 - 4 * k2 * S1 * 206447136 ->
  a <= node + cen * (1 + (126 + (4 * S0 - 2 * k2) * 85344 - 4 * k2 * S1 * 206447136)) -> a <= rsum 128 (fun i => rho1 k (m - 64 + Z.of_nat i)).
Proof.
  intros Hm H1 H2 H3 Hn Hc -> -> Hp Ha. assert (B := block_lb k ltac:(lra) m Hm ltac:(lra)). eapply Rle_trans; [|exact B]. eapply Rle_trans; [exact Ha|]. apply Rplus_le_compat; [exact Hn|].
  assert (m0 : 0 <= IZR m) by (apply IZR_le; lia). assert (A1 : (k1 * IZR m) ^ 2 <= (k * IZR m) ^ 2) by (apply pow_incr; split; [apply Rmult_le_pos; lra|apply Rmult_le_compat_r; lra]).
  assert (A2 : (k * IZR m) ^ 2 <= (k2 * IZR m) ^ 2) by (apply pow_incr; split; [apply Rmult_le_pos; lra|apply Rmult_le_compat_r; lra]).
  assert (A3 : k * (k * IZR m) ^ 2 <= k2 * (k2 * IZR m) ^ 2) by (apply Rmult_le_compat; [lra|apply pow2_ge_0|lra|exact A2]).
  apply Rmult_le_compat; [lra|lra|lra|lra].
Qed.

Lemma moment_9 TH : let k := / (2 * (sigma_value RF 9 * sigma_value RF 9)) in tot (rho1 k) TH -> forall V, NoDup V -> lsum (fun z => (13 / 10) ^ lev z * rho1 k z) V <= (119357 / 100000) * TH.
Proof.
  intros k HT. assert (Ek : k = / (2 * ((165736617183 / 1000000000) * (165736617183 / 1000000000)))) by (unfold k; rewrite P_leaf.sigma_9; reflexivity).
  assert (K1 : 2275323 / 125000000000 <= k <= 3640517 / 200000000000). { rewrite Ek. lra. }
  clearbody k. clear Ek.
  assert (SQ : 12778 / 10000 <= sqrt (/ (2 * (16384 * k))) <= 25 / 10).
  { assert (A : (12778 / 10000) * (12778 / 10000) <= / (2 * (16384 * k)) <= 25 / 10 * (25 / 10)).
    { split.
      - rewrite <- (Rinv_inv ((12778 / 10000) * (12778 / 10000))). apply Rinv_le_contravar; lra.
      - rewrite <- (Rinv_inv (25 / 10 * (25 / 10))). apply Rinv_le_contravar; lra. }
    split; [rewrite <- (sqrt_square (12778 / 10000)) by lra|rewrite <- (sqrt_square (25 / 10)) by lra]; apply sqrt_le_1_alt; apply A. }
  set (u := exp (- (4096 * k))). assert (u1 : 46407691 / 50000000 <= u <= 46407697 / 50000000) by (apply (exp_between (4096 * k) (745577 / 10000000) (372789 / 5000000)); lra).
  assert (u2 : 861469513 / 1000000000 <= u ^ 2 <= 861469737 / 1000000000). { replace (u ^ 2) with (u * u) by ring. apply (mul_between _ _ (46407691 / 50000000) (46407697 / 50000000) (46407691 / 50000000) (46407697 / 50000000)); lra. }
  assert (u4 : 742129721 / 1000000000 <= u ^ 4 <= 185532527 / 250000000). { replace (u ^ 4) with (u ^ 2 * u ^ 2) by ring. apply (mul_between _ _ (861469513 / 1000000000) (861469737 / 1000000000) (861469513 / 1000000000) (861469737 / 1000000000)); lra. }
  assert (u8 : 275378261 / 500000000 <= u ^ 8 <= 275378549 / 500000000). { replace (u ^ 8) with (u ^ 4 * u ^ 4) by ring. apply (mul_between _ _ (742129721 / 1000000000) (185532527 / 250000000) (742129721 / 1000000000) (185532527 / 250000000)); lra. }
  assert (u9 : 511186769 / 1000000000 <= u ^ 9 <= 511187371 / 1000000000). { replace (u ^ 9) with (u ^ 8 * u) by ring. apply (mul_between _ _ (275378261 / 500000000) (275378549 / 500000000) (46407691 / 50000000) (46407697 / 50000000)); lra. }
  assert (u16 : 151666373 / 500000000 <= u ^ 16 <= 303333381 / 1000000000). { replace (u ^ 16) with (u ^ 8 * u ^ 8) by ring. apply (mul_between _ _ (275378261 / 500000000) (275378549 / 500000000) (275378261 / 500000000) (275378549 / 500000000)); lra. }
  assert (u25 : 77529843 / 500000000 <= u ^ 25 <= 77530097 / 500000000). { replace (u ^ 25) with (u ^ 16 * u ^ 9) by ring. apply (mul_between _ _ (151666373 / 500000000) (303333381 / 1000000000) (511186769 / 1000000000) (511187371 / 1000000000)); lra. }
  assert (u24 : 20882811 / 125000000 <= u ^ 24 <= 167063013 / 1000000000). { replace (u ^ 24) with (u ^ 16 * u ^ 8) by ring. apply (mul_between _ _ (151666373 / 500000000) (303333381 / 1000000000) (275378261 / 500000000) (275378549 / 500000000)); lra. }
  assert (u28 : 123982037 / 1000000000 <= u ^ 28 <= 30995623 / 250000000). { replace (u ^ 28) with (u ^ 24 * u ^ 4) by ring. apply (mul_between _ _ (20882811 / 125000000) (167063013 / 1000000000) (742129721 / 1000000000) (185532527 / 250000000)); lra. }
  assert (u36 : 13656783 / 200000000 <= u ^ 36 <= 34142119 / 500000000). { replace (u ^ 36) with (u ^ 28 * u ^ 8) by ring. apply (mul_between _ _ (123982037 / 1000000000) (30995623 / 250000000) (275378261 / 500000000) (275378549 / 500000000)); lra. }
  assert (u64 : 4232989 / 500000000 <= u ^ 64 <= 169321 / 20000000). { replace (u ^ 64) with (u ^ 36 * u ^ 28) by ring. apply (mul_between _ _ (13656783 / 200000000) (34142119 / 500000000) (123982037 / 1000000000) (30995623 / 250000000)); lra. }
  assert (EE : exp (- (k * 16384)) = u ^ 4) by (unfold u; rewrite exp_pow; f_equal; simpl; ring).
  assert (ER : exp (- (k * 114688)) = u ^ 28) by (unfold u; rewrite exp_pow; f_equal; replace (INR 28) with 28 by (simpl; lra); ring).
  assert (P4 : (u ^ 4) ^ 4 = u ^ 16) by (rewrite <- pow_mult; reflexivity). assert (P9 : (u ^ 4) ^ 9 = u ^ 36) by (rewrite <- pow_mult; reflexivity). assert (P16 : (u ^ 4) ^ 16 = u ^ 64) by (rewrite <- pow_mult; reflexivity).
  assert (UD : exp (- (4096 * k)) = u) by reflexivity. clearbody u.
  refine (finish k TH (13 / 10) (119357 / 100000) (2886547 / 25000) (330561 / 5000) (21231 / 1000) (519307 / 1250) (30221 / 50000) _ HT _ _ _ _ _ _ _ _ _).
  - lra.
  - lra.
  - rewrite ER. lra.
  - assert (H := half_lb k ltac:(lra) 127). destruct z127 as (Z2 & Z4 & Z6). rewrite Z2, Z4, Z6 in H. change (IZR (Z.of_nat 127)) with 127 in H. replace (INR 127) with 127 in H by (simpl; lra).
    destruct (sq_between k (2275323 / 125000000000) (3640517 / 200000000000)) as [S2 S3]; [lra|lra|]. specialize (H ltac:(lra)). eapply Rle_trans; [|exact H]. clear - K1 S2 S3. set (A := k ^ 2) in *. set (B := k ^ 3) in *. lra.
  - change (128 * Z.of_nat 1 + 64)%Z with 192%Z. eapply (blk_num k 192 (2275323 / 125000000000) (3640517 / 200000000000) (742129721 / 1000000000) (511186769 / 1000000000)); [lia|lra|lra|lra| | |reflexivity|reflexivity| |].
    + rewrite (rho_pow k 2) by reflexivity. rewrite UD. cbn [Nat.mul Nat.add]. lra.
    + rewrite (rho_pow k 3) by reflexivity. rewrite UD. cbn [Nat.mul Nat.add]. lra.
    + lra.
    + lra.
  - change (128 * Z.of_nat 2 + 64)%Z with 320%Z. eapply (blk_num k 320 (2275323 / 125000000000) (3640517 / 200000000000) (151666373 / 500000000) (77529843 / 500000000)); [lia|lra|lra|lra| | |reflexivity|reflexivity| |].
    + rewrite (rho_pow k 4) by reflexivity. rewrite UD. cbn [Nat.mul Nat.add]. lra.
    + rewrite (rho_pow k 5) by reflexivity. rewrite UD. cbn [Nat.mul Nat.add]. lra.
    + lra.
    + lra.
  - assert (H := all_upper k ltac:(lra) TH HT SQ (u ^ 4) (eq_sym EE) ltac:(lra)). refine (upper_tot (u ^ 4) _ (185532527 / 250000000) (303333381 / 1000000000) (34142119 / 500000000) (169321 / 20000000) TH H _ _ _ _ _ _).
    + lra.
    + rewrite P4. lra.
    + rewrite P9. lra.
    + lra.
    + rewrite P16. lra.
    + lra.
  - rewrite ER. apply (Rmult_le_reg_r (1 - (13 / 10) * u ^ 28)); [lra|]. unfold Rdiv at 1. rewrite Rmult_assoc, Rinv_l by lra. lra.
  - lra.
  - lra.
Qed.

Lemma moment_10 TH : let k := / (2 * (sigma_value RF 10 * sigma_value RF 10)) in tot (rho1 k) TH -> forall V, NoDup V -> lsum (fun z => (9 / 8) ^ lev z * rho1 k z) V <= (107869 / 100000) * TH.
Proof.
  intros k HT. assert (Ek : k = / (2 * ((168388571447 / 1000000000) * (168388571447 / 1000000000)))) by (unfold k; rewrite P_leaf.sigma_10; reflexivity).
  assert (K1 : 8816877 / 500000000000 <= k <= 3526751 / 200000000000). { rewrite Ek. lra. }
  clearbody k. clear Ek.
  assert (SQ : 12778 / 10000 <= sqrt (/ (2 * (16384 * k))) <= 25 / 10).
  { assert (A : (12778 / 10000) * (12778 / 10000) <= / (2 * (16384 * k)) <= 25 / 10 * (25 / 10)).
    { split.
      - rewrite <- (Rinv_inv ((12778 / 10000) * (12778 / 10000))). apply Rinv_le_contravar; lra.
      - rewrite <- (Rinv_inv (25 / 10 * (25 / 10))). apply Rinv_le_contravar; lra. }
    split; [rewrite <- (sqrt_square (12778 / 10000)) by lra|rewrite <- (sqrt_square (25 / 10)) by lra]; apply sqrt_le_1_alt; apply A. }
  set (u := exp (- (4096 * k))). assert (u1 : 18606377 / 20000000 <= u <= 93031897 / 100000000) by (apply (exp_between (4096 * k) (361139 / 5000000) (722279 / 10000000)); lra).
  assert (u2 : 432746581 / 500000000 <= u ^ 2 <= 432746693 / 500000000). { replace (u ^ 2) with (u * u) by ring. apply (mul_between _ _ (18606377 / 20000000) (93031897 / 100000000) (18606377 / 20000000) (93031897 / 100000000)); lra. }
  assert (u4 : 749078413 / 1000000000 <= u ^ 4 <= 374539401 / 500000000). { replace (u ^ 4) with (u ^ 2 * u ^ 2) by ring. apply (mul_between _ _ (432746581 / 500000000) (432746693 / 500000000) (432746581 / 500000000) (432746693 / 500000000)); lra. }
  assert (u8 : 140279617 / 250000000 <= u ^ 8 <= 140279763 / 250000000). { replace (u ^ 8) with (u ^ 4 * u ^ 4) by ring. apply (mul_between _ _ (749078413 / 1000000000) (374539401 / 500000000) (749078413 / 1000000000) (374539401 / 500000000)); lra. }
  assert (u9 : 522019087 / 1000000000 <= u ^ 9 <= 522019699 / 1000000000). { replace (u ^ 9) with (u ^ 8 * u) by ring. apply (mul_between _ _ (140279617 / 250000000) (140279763 / 250000000) (18606377 / 20000000) (93031897 / 100000000)); lra. }
  assert (u16 : 62970787 / 200000000 <= u ^ 16 <= 314854591 / 1000000000). { replace (u ^ 16) with (u ^ 8 * u ^ 8) by ring. apply (mul_between _ _ (140279617 / 250000000) (140279763 / 250000000) (140279617 / 250000000) (140279763 / 250000000)); lra. }
  assert (u25 : 164359763 / 1000000000 <= u ^ 25 <= 164360299 / 1000000000). { replace (u ^ 25) with (u ^ 16 * u ^ 9) by ring. apply (mul_between _ _ (62970787 / 200000000) (314854591 / 1000000000) (522019087 / 1000000000) (522019699 / 1000000000)); lra. }
  assert (u24 : 176670357 / 1000000000 <= u ^ 24 <= 17667091 / 100000000). { replace (u ^ 24) with (u ^ 16 * u ^ 8) by ring. apply (mul_between _ _ (62970787 / 200000000) (314854591 / 1000000000) (140279617 / 250000000) (140279763 / 250000000)); lra. }
  assert (u28 : 2646799 / 20000000 <= u ^ 28 <= 66170217 / 500000000). { replace (u ^ 28) with (u ^ 24 * u ^ 4) by ring. apply (mul_between _ _ (176670357 / 1000000000) (17667091 / 100000000) (749078413 / 1000000000) (374539401 / 500000000)); lra. }
  assert (u36 : 74258389 / 1000000000 <= u ^ 36 <= 74258739 / 1000000000). { replace (u ^ 36) with (u ^ 28 * u ^ 8) by ring. apply (mul_between _ _ (2646799 / 20000000) (66170217 / 500000000) (140279617 / 250000000) (140279763 / 250000000)); lra. }
  assert (u64 : 9827351 / 1000000000 <= u ^ 64 <= 4913717 / 500000000). { replace (u ^ 64) with (u ^ 36 * u ^ 28) by ring. apply (mul_between _ _ (74258389 / 1000000000) (74258739 / 1000000000) (2646799 / 20000000) (66170217 / 500000000)); lra. }
  assert (EE : exp (- (k * 16384)) = u ^ 4) by (unfold u; rewrite exp_pow; f_equal; simpl; ring).
  assert (ER : exp (- (k * 114688)) = u ^ 28) by (unfold u; rewrite exp_pow; f_equal; replace (INR 28) with 28 by (simpl; lra); ring).
  assert (P4 : (u ^ 4) ^ 4 = u ^ 16) by (rewrite <- pow_mult; reflexivity). assert (P9 : (u ^ 4) ^ 9 = u ^ 36) by (rewrite <- pow_mult; reflexivity). assert (P16 : (u ^ 4) ^ 16 = u ^ 64) by (rewrite <- pow_mult; reflexivity).
  assert (UD : exp (- (4096 * k)) = u) by reflexivity. clearbody u.
  refine (finish k TH (9 / 8) (107869 / 100000) (5789667 / 50000) (337149 / 5000) (224041 / 10000) (4220949 / 10000) (4647 / 25000) _ HT _ _ _ _ _ _ _ _ _).
  - lra.
  - lra.
  - rewrite ER. lra.
  - assert (H := half_lb k ltac:(lra) 127). destruct z127 as (Z2 & Z4 & Z6). rewrite Z2, Z4, Z6 in H. change (IZR (Z.of_nat 127)) with 127 in H. replace (INR 127) with 127 in H by (simpl; lra).
    destruct (sq_between k (8816877 / 500000000000) (3526751 / 200000000000)) as [S2 S3]; [lra|lra|]. specialize (H ltac:(lra)). eapply Rle_trans; [|exact H]. clear - K1 S2 S3. set (A := k ^ 2) in *. set (B := k ^ 3) in *. lra.
  - change (128 * Z.of_nat 1 + 64)%Z with 192%Z. eapply (blk_num k 192 (8816877 / 500000000000) (3526751 / 200000000000) (749078413 / 1000000000) (522019087 / 1000000000)); [lia|lra|lra|lra| | |reflexivity|reflexivity| |].
    + rewrite (rho_pow k 2) by reflexivity. rewrite UD. cbn [Nat.mul Nat.add]. lra.
    + rewrite (rho_pow k 3) by reflexivity. rewrite UD. cbn [Nat.mul Nat.add]. lra.
    + lra.
    + lra.
  - change (128 * Z.of_nat 2 + 64)%Z with 320%Z. eapply (blk_num k 320 (8816877 / 500000000000) (3526751 / 200000000000) (62970787 / 200000000) (164359763 / 1000000000)); [lia|lra|lra|lra| | |reflexivity|reflexivity| |].
    + rewrite (rho_pow k 4) by reflexivity. rewrite UD. cbn [Nat.mul Nat.add]. lra.
    + rewrite (rho_pow k 5) by reflexivity. rewrite UD. cbn [Nat.mul Nat.add]. lra.
    + lra.
    + lra.
  - assert (H := all_upper k ltac:(lra) TH HT SQ (u ^ 4) (eq_sym EE) ltac:(lra)). refine (upper_tot (u ^ 4) _ (374539401 / 500000000) (314854591 / 1000000000) (74258739 / 1000000000) (4913717 / 500000000) TH H _ _ _ _ _ _).
    + lra.
    + rewrite P4. lra.
    + rewrite P9. lra.
    + lra.
    + rewrite P16. lra.
    + lra.
  - rewrite ER. apply (Rmult_le_reg_r (1 - (9 / 8) * u ^ 28)); [lra|]. unfold Rdiv at 1. rewrite Rmult_assoc, Rinv_l by lra. lra.
  - lra.
  - lra.
Qed.
