(** P_genx.v -- the polynomials drawn by gen_poly in binary64 arithmetic follow the discrete Gaussian of deviation 1.17 sqrt(q / 2N). *)
From Verif Require Import Base Spec SpecR SpecF SpecG SpecJ SpecK M_float M_exact M_ieee M_samp M_fft M_ntru P_codec P_near P_ieee P_float P_prob P_gsum P_tot P_theta P_conv P_convx P_genpoly P_kubx.
From Verif Require P_genlaw P_dist P_dist64 P_exact P_sampz.
From Coq Require Import Reals Lra SpecFloat.
Open Scope R_scope.

Section One.
Variable lg : nat.
Hypothesis Hlg : falcon_lg lg.
Notation mu := (fofz F64 0).
Notation sg := (sigma_fg F64).
Notation sm := (sigma_min F64 lg).
Notation th := (tg lg).
Notation P := (P_genlaw.pp (tg lg)).
Lemma val_sfg : val64 sg = sfg. Proof. apply val_fg. Qed.
Lemma P_near1 G : gauss_sum sfg 0 G -> forall v, Rabs (P v - gsd sfg G v) <= / 2 ^ 36 * gsd sfg G v + / 2 ^ 59.
Proof.
  intros HG. destruct (val_smin lg Hlg) as [F2 V2]. assert (V1 := val_sfg). assert (S1 : 143 / 100 <= sfg <= 144 / 100) by (unfold sfg; lra).
  destruct (P_dist.dist_all (val64 mu) (val64 sg) (val64 sm)) with (th := th) as (Gm & Gp & HGm & HGp & _ & B); [lra|rewrite V1; lra|rewrite V1; lra| | |].
  - intros z0 b Hz Hb. apply (P_prob.th_range F64 mu sg sm th (fun z b H1 H2 => proj1 (gen_thr lg Hlg z b H1 H2)) z0 b Hz Hb).
  - intros z0 b Hz Hb. split; [apply (P_exact.xval_range (val64 mu) (val64 sg) z0 b Hz Hb); rewrite V1; lra|apply gen_thr; assumption].
  - assert (T := P_gsum.two_sides (val64 mu) (val64 sg) Gm Gp HGm HGp). rewrite V1, val_zero in T. assert (E : Gm + Gp = G) by exact (tot_unique _ _ _ T HG). intros v. specialize (B v). rewrite floor_zero, V1, val_zero, E in B. exact B.
Qed.
Lemma P_nn v : 0 <= P v.
Proof.
  assert (A := pa_range lg Hlg). unfold P_genlaw.pp. apply Rmult_le_pos; [|left; apply Rinv_0_lt_compat; lra].
  destruct (Z_le_dec (-18) v) as [L1|L1], (Z_le_dec v 19) as [L2|L2]; try (left; apply (pg_pos lg Hlg); lia); right; symmetry; apply pg_out; lia.
Qed.
Lemma P_sum : lsum P z38 = 1.
Proof.
  assert (A := pa_range lg Hlg). unfold P_genlaw.pp, P_genlaw.z38. rewrite lsum_map. rewrite (P_gsum.lsum_ext _ (fun j => / pa th * pv th 0 (0 - 18 + Z.of_nat j)%Z)) by (intros j _; replace (0 - 18 + Z.of_nat j)%Z with (Z.of_nat j - 18)%Z by lia; unfold Rdiv; ring).
  rewrite lsum_scal, lsum_seq, (P_dist64.pv_sum F64 mu sg sm th 0 (fun z b H1 H2 => proj1 (gen_thr lg Hlg z b H1 H2)) gen_to). field. lra.
Qed.
Lemma P_l1 G : gauss_sum sfg 0 G -> l1 (convol P 1) (gsd sfg G) (/ 2 ^ 34).
Proof.
  intros HG l Nl. assert (PG : 0 < G) by (apply (th_pos (/ (2 * sfg ^ 2)) 0), th_gauss; [exact sfg_pos|exact HG]).
  assert (D0 : forall v, 0 <= gsd sfg G v) by (intros v; left; apply Rdiv_lt_0_compat; [apply exp_pos|exact PG]).
  assert (D1 : forall m, NoDup m -> lsum (gsd sfg G) m <= 1).
  { intros m Nm. unfold gsd. rewrite (P_gsum.lsum_ext _ (fun v => / G * rho sfg 0 (IZR v))) by (intros; unfold Rdiv; ring). rewrite lsum_scal. assert (K := tot_le _ _ m HG Nm). apply Rmult_le_reg_l with G; [exact PG|]. rewrite <- Rmult_assoc, Rinv_r, Rmult_1_l by lra. lra. }
  set (f := fun v => Rabs (convol P 1 v - gsd sfg G v)). set (out := filter (fun v => if in_dec Z.eq_dec v z38 then false else true) l).
  assert (No : NoDup out) by apply NoDup_filter, Nl. assert (Nz : NoDup z38) by apply P_genlaw.nodup_shift, seq_NoDup.
  assert (Io : forall v, In v out -> ~ In v z38) by (intros v Hv; apply filter_In in Hv; destruct (in_dec Z.eq_dec v z38); [destruct Hv; discriminate|assumption]).
  apply Rle_trans with (lsum f (z38 ++ out)).
  - apply lsum_incl; [exact Z.eq_dec|intros v; apply Rabs_pos|exact Nl|]. intros v Hv. left. apply in_or_app. destruct (in_dec Z.eq_dec v z38) as [I|I]; [left; exact I|right]. apply filter_In. split; [exact Hv|]. destruct (in_dec Z.eq_dec v z38); [contradiction|reflexivity].
  - rewrite lsum_app. rewrite (P_gsum.lsum_ext f (gsd sfg G) out).
    2: { intros v Hv. unfold f. rewrite (convol_1 _ P_nn). destruct (in_dec Z.eq_dec v z38) as [I|_]; [destruct (Io v Hv I)|]. rewrite Rabs_left1, Ropp_minus_distr by (specialize (D0 v); lra). ring. }
    assert (T := D1 (z38 ++ out) (NoDup_app _ _ Nz No (fun v H1 H2 => Io v H2 H1))). rewrite lsum_app in T.
    assert (U : 1 - lsum (gsd sfg G) z38 <= lsum f z38).
    { rewrite <- P_sum. replace (lsum P z38 - lsum (gsd sfg G) z38) with (lsum P z38 + (-1) * lsum (gsd sfg G) z38) by ring. rewrite <- lsum_scal, <- lsum_plus. apply lsum_le. intros v Hv. unfold f. rewrite (convol_1 _ P_nn). destruct (in_dec Z.eq_dec v z38); [|contradiction]. eapply Rle_trans; [apply Rle_abs|]. right. f_equal. ring. }
    assert (V : lsum f z38 <= / 2 ^ 35).
    { apply Rle_trans with (lsum (fun v => / 2 ^ 36 * gsd sfg G v + / 2 ^ 59) z38).
      - apply lsum_le. intros v Hv. unfold f. rewrite (convol_1 _ P_nn). destruct (in_dec Z.eq_dec v z38); [|contradiction]. apply P_near1, HG.
      - rewrite lsum_plus, lsum_scal, lsum_const. assert (K := D1 z38 Nz). assert (E : length z38 = 38%nat) by reflexivity. rewrite E. assert (/ 2 ^ 36 * lsum (gsd sfg G) z38 <= / 2 ^ 36 * 1) by (apply Rmult_le_compat_l; [left; apply Rinv_0_lt_compat, pow_lt|]; lra). replace (INR 38) with 38 by (simpl; lra). lra. }
    lra.
Qed.
Lemma gsd_sub1 s G : 0 < s -> gauss_sum s 0 G -> sub1 (gsd s G).
Proof.
  intros Hs HG. assert (PG : 0 < G) by (apply (th_pos (/ (2 * s ^ 2)) 0), th_gauss; [exact Hs|exact HG]). split; [intros v; left; apply Rdiv_lt_0_compat; [apply exp_pos|exact PG]|].
  intros m Nm. unfold gsd. rewrite (P_gsum.lsum_ext _ (fun v => / G * rho s 0 (IZR v))) by (intros; unfold Rdiv; ring). rewrite lsum_scal. assert (K := tot_le _ _ m HG Nm). apply Rmult_le_reg_l with G; [exact PG|]. rewrite <- Rmult_assoc, Rinv_r, Rmult_1_l by lra. lra.
Qed.
Notation k := (4096 / 2 ^ lg)%nat.
Lemma k_N : (k * 2 ^ lg = 4096)%nat. Proof. destruct Hlg as [-> | ->]; vm_compute; reflexivity. Qed.
Lemma coef_l1 s G : s = sfg * sqrt (4096 / 2 ^ lg) -> gauss_sum s 0 G -> l1 (convol P k) (gsd s G) (/ 2 ^ 15 / INR (2 ^ lg)).
Proof.
  intros Es HG l Nl. destruct (kfg_has 1 ltac:(lra) 0) as [G1 HG1]. assert (H1 : gauss_sum sfg 0 G1) by (apply th_gauss; [exact sfg_pos|]; rewrite Rmult_1_l in HG1; exact HG1).
  assert (K := sums P P_nn ltac:(rewrite P_sum; lra) G1 (/ 2 ^ 34) H1 ltac:(left; apply Rinv_0_lt_compat, pow_lt; lra) (P_l1 G1 H1) lg s G Hlg Es HG l Nl).
  eapply Rle_trans; [exact K|]. rewrite pow_INR. replace (INR 2) with 2 by (simpl; lra). destruct Hlg as [-> | ->]; lra.
Qed.
(** ** the law of gen_poly *)
Variable fuel : nat.
Lemma gen_exact poly v n : length poly = (2 ^ lg)%nat -> length v = (2 ^ lg)%nat -> (4096 * (18 * fuel) <= n)%nat -> prob n (fun w => yields (gen_poly F64 fuel lg (stream w) 0 poly) v) = wt lg fuel v.
Proof.
  intros Lp Lv Hn. rewrite prob_avg. rewrite <- (P_genlaw.law_prob P_genlaw.zl_dec _ _ v _ n (gl_law lg fuel Hlg v Lv)).
  - apply avg_ext. intros s _ Hs. rewrite (gen_glist F64 lg gen_to fuel (stream s) (P_genlaw.stream_byte s Hs) 0 poly Hlg Lp). unfold P_genlaw.contm, yields. destruct (P_genlaw.glist _ _ _ _ _ _ _ _ _) as [[v' p]| |]; [|reflexivity|reflexivity].
    change P_genlaw.zl_dec with (list_eq_dec Z.eq_dec). destruct (list_eq_dec Z.eq_dec v' v); reflexivity.
  - rewrite Nat.mul_assoc, (Nat.mul_comm (2 ^ lg)), k_N. exact Hn.
Qed.
Lemma ww_range : 0 <= P_genlaw.ww fuel th <= 1 /\ 1 - P_genlaw.ww fuel th <= (11 / 12) ^ fuel.
Proof.
  assert (A := pa_range lg Hlg). unfold P_genlaw.ww. assert (0 <= (1 - pa th) ^ fuel <= (11 / 12) ^ fuel) by (split; [apply pow_le; lra|apply pow_incr; lra]). assert ((11 / 12) ^ fuel <= 1) by (apply Rle_trans with (1 ^ fuel); [apply pow_incr; lra|rewrite pow1; lra]). lra.
Qed.
Lemma bernoulli x n : 0 <= x <= 1 -> 1 - INR n * x <= (1 - x) ^ n <= 1.
Proof.
  intros Hx. induction n as [|n IH]; [simpl; lra|]. rewrite S_INR. cbn [pow]. assert (0 <= (1 - x) ^ n) by (apply pow_le; lra). assert (Pn := pos_INR n). split; [|nra].
  apply Rle_trans with ((1 - x) * (1 - INR n * x)); [|apply Rmult_le_compat_l; lra]. assert (0 <= INR n * (x * x)) by (apply Rmult_le_pos; [exact Pn|apply Rmult_le_pos; lra]). lra.
Qed.
Lemma gen_l1 s G L n poly : s = sfg * sqrt (4096 / 2 ^ lg) -> gauss_sum s 0 G -> length poly = (2 ^ lg)%nat -> NoDup L -> Forall (fun v => length v = (2 ^ lg)%nat) L -> (4096 * (18 * fuel) <= n)%nat ->
  lsum (fun v => Rabs (prob n (fun w => yields (gen_poly F64 fuel lg (stream w) 0 poly) v) - Rprod (map (gsd s G) v))) L <= / 2 ^ 15 + 4096 * (11 / 12) ^ fuel.
Proof.
  intros Es HG Lp NL FL Hn. assert (Hs : 0 < s) by (rewrite Es; apply Rmult_lt_0_compat; [exact sfg_pos|apply sqrt_lt_R0; apply Rdiv_lt_0_compat; [lra|apply pow_lt; lra]]).
  set (W := P_genlaw.ww fuel th ^ 4096). assert (HW : 0 <= W <= 1 /\ 1 - W <= 4096 * (11 / 12) ^ fuel).
  { destruct ww_range as [R1 R2]. unfold W. set (w := P_genlaw.ww fuel th) in *. clearbody w. assert (B := bernoulli (1 - w) 4096 ltac:(lra)). replace (1 - (1 - w)) with w in B by ring. replace (INR 4096) with 4096 in B by (rewrite INR_IZR_INZ; reflexivity). assert (0 <= w ^ 4096) by (apply pow_le; lra). lra. }
  assert (SA := convol_sub1 P P_nn ltac:(rewrite P_sum; lra) k). assert (SB := gsd_sub1 s G Hs HG).
  assert (K := vec_l1 (convol P k) (gsd s G) (/ 2 ^ 15 / INR (2 ^ lg)) (2 ^ lg) SA SB ltac:(left; apply Rdiv_lt_0_compat; [apply Rinv_0_lt_compat, pow_lt; lra|apply lt_0_INR, Nat.neq_0_lt_0, Nat.pow_nonzero; discriminate]) (coef_l1 s G Es HG) L NL FL).
  assert (N0 : INR (2 ^ lg) <> 0) by (apply not_0_INR, Nat.pow_nonzero; discriminate). unfold Rdiv in K. rewrite (Rmult_comm (/ 2 ^ 15)), <- Rmult_assoc, Rinv_r, Rmult_1_l in K by exact N0.
  destruct (vec_sub1 (convol P k) (2 ^ lg) SA L NL FL) as [_ K1].
  apply Rle_trans with (lsum (fun v => (1 - W) * Rprod (map (convol P k) v) + Rabs (Rprod (map (convol P k) v) - Rprod (map (gsd s G) v))) L).
  - apply lsum_le. intros v Hv. rewrite Forall_forall in FL. rewrite (gen_exact poly v n Lp (FL v Hv) Hn). unfold wt. rewrite k_N. fold W. set (a := Rprod (map (convol P k) v)). set (b := Rprod (map (gsd s G) v)).
    assert (Pa : 0 <= a). { unfold a. clear - SA. induction v as [|z v IH]; unfold Rprod in *; cbn [map fold_right]; [lra|]. apply Rmult_le_pos; [apply SA|exact IH]. }
    replace (W * a - b) with (- ((1 - W) * a) + (a - b)) by ring. eapply Rle_trans; [apply Rabs_triang|]. rewrite Rabs_Ropp, (Rabs_pos_eq ((1 - W) * a)) by (apply Rmult_le_pos; lra). lra.
  - rewrite lsum_plus, lsum_scal. assert ((1 - W) * lsum (fun v => Rprod (map (convol P k) v)) L <= (1 - W) * 1) by (apply Rmult_le_compat_l; lra). lra.
Qed.
End One.
