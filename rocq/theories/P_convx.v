(** P_convx.v -- the coefficients of the key polynomials against the discrete Gaussian of deviation 1.17 sqrt(q / 2N). *)
From Verif Require Import Base Spec SpecG SpecJ SpecK P_prob P_gsum P_tot P_theta P_conv.
From Verif Require P_genlaw P_dist.
From Coq Require Import Reals Lra.
Open Scope R_scope.

(** ** k-fold convolutions *)
Section Convol.
Variable P : Z -> R.
Hypothesis P0 : forall z, 0 <= P z.
Hypothesis P1 : lsum P z38 <= 1.
Lemma convol_nn k : forall v, 0 <= convol P k v.
Proof. induction k as [|k IH]; intros v; cbn [convol]; [destruct (v =? 0)%Z; lra|]. apply lsum_pos. intros x. apply Rmult_le_pos; [apply P0|apply IH]. Qed.
Lemma convol_sub1 k : sub1 (convol P k).
Proof.
  split; [apply convol_nn|]. induction k as [|k IH]; intros l Nl.
  - cbn [convol]. destruct (in_dec Z.eq_dec 0%Z l) as [I|I].
    + rewrite (P_genlaw.lsum_one _ l 0%Z Nl I); [cbn; lra|]. intros a _ Ha. destruct (Z.eqb_spec a 0); [contradiction|reflexivity].
    + rewrite P_genlaw.lsum_zero; [lra|]. intros a Ha. destruct (Z.eqb_spec a 0) as [->|_]; [contradiction|reflexivity].
  - cbn [convol]. fold z38. rewrite lsum_swap. apply Rle_trans with (lsum P z38); [|exact P1]. apply lsum_le. intros x _. rewrite lsum_scal. rewrite <- (Rmult_1_r (P x)) at 2. apply Rmult_le_compat_l; [apply P0|].
    rewrite lsum_shift. apply IH, shift_nodup, Nl.
Qed.
Lemma convol_out k : forall v, ~ (-18 * Z.of_nat k <= v <= 19 * Z.of_nat k)%Z -> convol P k v = 0.
Proof.
  induction k as [|k IH]; intros v Hv; cbn [convol]; [destruct (Z.eqb_spec v 0); [lia|reflexivity]|]. fold z38. apply P_genlaw.lsum_zero. intros x Hx. apply z38_in in Hx. rewrite IH by lia. ring.
Qed.
Lemma convol_add a b : forall v L, NoDup L -> (forall x, (-18 * Z.of_nat a <= x <= 19 * Z.of_nat a)%Z -> In x L) -> convol P (a + b) v = lsum (fun x => convol P a x * convol P b (v - x)%Z) L.
Proof.
  induction a as [|a IH]; intros v L NL HL.
  - cbn [Nat.add convol]. rewrite (P_genlaw.lsum_one _ L 0%Z NL); [cbn [Z.eqb]; rewrite Z.sub_0_r; ring|apply HL; lia|]. intros x _ Hx. destruct (Z.eqb_spec x 0); [contradiction|ring].
  - cbn [Nat.add convol]. fold z38.
    rewrite (P_gsum.lsum_ext (fun x => lsum (fun y => P y * convol P a (x - y)) z38 * convol P b (v - x)) (fun x => lsum (fun y => P y * (convol P a (x - y)%Z * convol P b (v - y - (x - y))%Z)) z38)).
    + rewrite lsum_swap. apply P_gsum.lsum_ext. intros y Hy. apply z38_in in Hy. rewrite lsum_scal. f_equal. rewrite (lsum_shift (fun x => convol P a x * convol P b (v - y - x)) y L). apply IH; [apply shift_nodup, NL|].
      intros x Hx. apply in_map_iff. exists (x + y)%Z. split; [lia|]. apply HL. lia.
    + intros x _. rewrite Rmult_comm, <- lsum_scal. apply P_gsum.lsum_ext. intros y _. replace (v - y - (x - y))%Z with (v - x)%Z by lia. ring.
Qed.
Definition rng (k : nat) : list Z := vals (19 * k) 0.
Lemma rng_in k x : (-18 * Z.of_nat k <= x <= 19 * Z.of_nat k)%Z -> In x (rng k). Proof. intros H. apply vals_in. lia. Qed.
Lemma convol_1 v : convol P 1 v = if in_dec Z.eq_dec v z38 then P v else 0.
Proof.
  cbn [convol]. fold z38. destruct (in_dec Z.eq_dec v z38) as [I|I].
  - rewrite (P_genlaw.lsum_one _ z38 v); [|apply P_genlaw.nodup_shift, seq_NoDup|exact I|].
    + rewrite Z.sub_diag. cbn [Z.eqb]. ring.
    + intros x _ Hx. destruct (Z.eqb_spec (v - x) 0); [lia|ring].
  - apply P_genlaw.lsum_zero. intros x Hx. destruct (Z.eqb_spec (v - x) 0); [|ring]. exfalso. apply I. replace v with x by lia. exact Hx.
Qed.
Lemma convol_double k G G2 X Y h kk e : th kk 0 G -> th (kk / 2) 0 G2 -> th (2 * kk) 0 X -> th (2 * kk) (1 / 2) Y -> 0 <= h <= 1 / 100 -> dev (2 * kk) h -> 0 <= e ->
  l1 (convol P k) (dg kk G) e -> l1 (convol P (k + k)) (dg2 kk G2) (2 * e + 51 / 100 * h).
Proof.
  intros HG HG2 HX HY Hh HD He H l Nl. assert (K := P_conv.double kk G G2 X Y h HG HG2 HX HY Hh HD (convol P k) (rng k) e He (convol_sub1 k)).
  assert (K2 := K ltac:(intros x Hx; apply convol_out; intros I; apply Hx, rng_in, I) (vals_nodup _ _) H l Nl). cbv beta in K2.
  rewrite (P_gsum.lsum_ext _ (fun v => Rabs (lsum (fun x => convol P k x * convol P k (v - x)%Z) (rng k) - dg2 kk G2 v))); [exact K2|]. intros v _. rewrite (convol_add k k v (rng k) (vals_nodup _ _) (rng_in k)). reflexivity.
Qed.
End Convol.

(** ** numbers for sigma_fg *)
Definition sfg : R := 6453702425112088 / 4503599627370496.
Definition kfg : R := / (2 * sfg ^ 2).
Lemma kfg_range : 24347 / 100000 <= kfg <= 24349 / 100000.
Proof. unfold kfg, sfg. simpl. lra. Qed.
Lemma kfg_has c : / 16 <= c -> hasth (c * kfg).
Proof. intros Hc x. apply (th_exn 3). assert (K := kfg_range). assert (/ (2 * (18205 / 10000) ^ 2) <= 16 / 100) by (simpl; lra). assert (/ 16 * (24347 / 100000) <= c * kfg) by (apply Rmult_le_compat; lra). simpl. lra. Qed.
Lemma dev_32 : dev (32 * kfg) (72 / 100).
Proof.
  intros X Y HX HY. assert (K := kfg_range). set (k := 32 * kfg) in *. assert (Hk : 779104 / 100000 <= k <= 779168 / 100000) by (unfold k; lra). split.
  - assert (U := th_upper k 0 X ltac:(lra) ltac:(lra) HX). cbv zeta in U. assert (L := th_lower k (1 / 2) Y HY).
    assert (E0 : exp (- (k * 0 ^ 2)) = 1) by (replace (- (k * 0 ^ 2)) with 0 by ring; apply exp_0). rewrite E0 in U. replace (k * (1 - 0) ^ 2) with k in U by ring.
    assert (Q : 0 < exp (- k) <= 1 / 1000). { split; [apply exp_pos|]. apply Rle_trans with (exp (- (779104 / 100000))); [apply P_dist.exp_le; lra|]. apply (exp_ub _ (64 / 100)); lra. }
    assert (Q2 : 1425 / 10000 <= exp (- (k * (1 / 2) ^ 2))). { apply Rle_trans with (exp (- (19479 / 10000 + 1 / 10000))); [apply (exp_lb _ (88535 / 100000)); lra|]. apply P_dist.exp_le. simpl. lra. }
    replace (k * (1 - 1 / 2) ^ 2) with (k * (1 / 2) ^ 2) in L by field.
    set (q := exp (- k)) in *. assert (q / (1 - q) <= 2 * q). { apply Rmult_le_reg_r with (1 - q); [lra|]. unfold Rdiv. rewrite Rmult_assoc, Rinv_l by lra. nra. }
    assert (Q4 : 0 < q ^ 2 <= q) by (split; [apply pow_lt; lra|simpl; nra]). assert (q ^ 2 / (1 - q ^ 2) <= 2 * q ^ 2). { set (p := q ^ 2) in *. apply Rmult_le_reg_r with (1 - p); [lra|]. unfold Rdiv. rewrite Rmult_assoc, Rinv_l by lra. nra. }
    lra.
  - assert (E : hasth (2 * k)). { replace (2 * k) with (64 * kfg) by (unfold k; ring). apply kfg_has. lra. } destruct (E 0) as [M HM]. destruct (E (1 / 2)) as [m Hm].
    assert (SA := half_sq k X M m HX HM Hm). assert (SB := half_sq' k Y M m HY HM Hm). apply Rsqr_incr_0; [|left; exact (th_pos _ _ _ HY)|left; exact (th_pos _ _ _ HX)]. unfold Rsqr. rewrite SA, SB.
    assert (Sq : 0 <= (M - m) * (M - m)) by apply Rle_0_sqr. lra.
Qed.
Lemma dev_next c h h' : / 16 <= c -> dev (2 * c * kfg) h -> 0 <= h <= 1 -> 0 <= h' <= 1 -> h * h <= (1 - (1 - h') * (1 - h')) * (1 + (1 - h) * (1 - h)) -> dev (c * kfg) h'.
Proof.
  intros Hc D Hh Hh' Hn. apply (dev_step _ h h'); [rewrite <- Rmult_assoc; apply kfg_has; lra|exact Hh|exact Hh'|rewrite <- Rmult_assoc; exact D|exact Hn].
Qed.
Lemma dev_2 : dev (2 * kfg) (777 / 10 ^ 11).
Proof.
  assert (D16 : dev (16 * kfg) (28 / 100)) by (apply (dev_next 16 (72 / 100)); [lra|replace (2 * 16) with 32 by ring; exact dev_32|lra|lra|lra]).
  assert (D8 : dev (8 * kfg) (262 / 10000)) by (apply (dev_next 8 (28 / 100)); [lra|replace (2 * 8) with 16 by ring; exact D16|lra|lra|lra]).
  assert (D4 : dev (4 * kfg) (1762 / 10000000)) by (apply (dev_next 4 (262 / 10000)); [lra|replace (2 * 4) with 8 by ring; exact D8|lra|lra|lra]).
  apply (dev_next 2 (1762 / 10000000)); [lra|replace (2 * 2) with 4 by ring; exact D4|lra|lra|lra].
Qed.
Lemma dev_1 : dev (1 * kfg) (2 / 10 ^ 17).
Proof. apply (dev_next 1 (777 / 10 ^ 11)); [lra|rewrite Rmult_1_r; exact dev_2|lra|lra|lra]. Qed.
Lemma dev_half : dev (1 / 2 * kfg) (2 / 10 ^ 17).
Proof. apply (dev_next (1 / 2) (2 / 10 ^ 17)); [lra|replace (2 * (1 / 2)) with 1 by field; exact dev_1|lra|lra|lra]. Qed.

(** ** four and eight summands *)
Definition gsd (s G : R) (z : Z) : R := rho s 0 (IZR z) / G.
Lemma gz_rho s z : 0 < s -> gz (/ (2 * s ^ 2)) z = rho s 0 (IZR z).
Proof. intros H. unfold gz, rho. f_equal. f_equal. unfold Rdiv. ring. Qed.
Lemma dg_gsd s G z : 0 < s -> dg (/ (2 * s ^ 2)) G z = gsd s G z.
Proof. intros H. unfold dg, gsd. rewrite gz_rho by exact H. reflexivity. Qed.
Section Sums.
Variable P : Z -> R.
Hypothesis P0 : forall z, 0 <= P z.
Hypothesis P1 : lsum P z38 <= 1.
Variables G1 e : R.
Hypothesis HG1 : gauss_sum sfg 0 G1.
Hypothesis He : 0 <= e.
Hypothesis H1 : l1 (convol P 1) (gsd sfg G1) e.
Lemma sfg_pos : 0 < sfg. Proof. unfold sfg. lra. Qed.
Lemma sums2 G2 : th (kfg / 2) 0 G2 -> l1 (convol P 2) (dg2 kfg G2) (2 * e + 51 / 100 * (777 / 10 ^ 11)).
Proof.
  intros HG2. destruct (kfg_has 2 ltac:(lra) 0) as [X HX]. destruct (kfg_has 2 ltac:(lra) (1 / 2)) as [Y HY].
  apply (convol_double P P0 P1 1 G1 G2 X Y (777 / 10 ^ 11) kfg e); try assumption; [apply th_gauss; [exact sfg_pos|exact HG1]|lra|exact dev_2|].
  intros l Nl. rewrite (P_gsum.lsum_ext _ (fun v => Rabs (convol P 1 v - gsd sfg G1 v))); [apply H1, Nl|]. intros v _. unfold kfg. rewrite (dg_gsd sfg G1 v sfg_pos). reflexivity.
Qed.
Lemma sums4 G4 : th (kfg / 4) 0 G4 -> l1 (convol P 4) (fun v => gz (kfg / 4) v / G4) (4 * e + 4 / 10 ^ 9 * 2).
Proof.
  intros HG4. destruct (kfg_has (1 / 2) ltac:(lra) 0) as [G2 HG2]. replace (1 / 2 * kfg) with (kfg / 2) in HG2 by field. destruct (kfg_has 1 ltac:(lra) 0) as [X HX]. destruct (kfg_has 1 ltac:(lra) (1 / 2)) as [Y HY].
  assert (E1 : 1 * kfg = 2 * (kfg / 2)) by field. rewrite E1 in HX, HY. assert (E4 : kfg / 4 = kfg / 2 / 2) by field. assert (D := dev_1). rewrite E1 in D.
  assert (K := convol_double P P0 P1 2 G2 G4 X Y (2 / 10 ^ 17) (kfg / 2) (2 * e + 51 / 100 * (777 / 10 ^ 11)) HG2 ltac:(rewrite <- E4; exact HG4) HX HY ltac:(lra) D ltac:(lra) (sums2 G2 HG2)).
  intros l Nl. specialize (K l Nl). unfold dg2 in K. rewrite <- E4 in K. change (2 + 2)%nat with 4%nat in K. lra.
Qed.
Lemma sums8 G8 : th (kfg / 8) 0 G8 -> l1 (convol P 8) (fun v => gz (kfg / 8) v / G8) (8 * e + 16 / 10 ^ 9 * (101 / 100)).
Proof.
  intros HG8. destruct (kfg_has (1 / 4) ltac:(lra) 0) as [G4 HG4]. replace (1 / 4 * kfg) with (kfg / 4) in HG4 by field. destruct (kfg_has (1 / 2) ltac:(lra) 0) as [X HX]. destruct (kfg_has (1 / 2) ltac:(lra) (1 / 2)) as [Y HY].
  assert (E1 : 1 / 2 * kfg = 2 * (kfg / 4)) by field. rewrite E1 in HX, HY. assert (E8 : kfg / 8 = kfg / 4 / 2) by field. assert (D := dev_half). rewrite E1 in D.
  assert (K := convol_double P P0 P1 4 G4 G8 X Y (2 / 10 ^ 17) (kfg / 4) (4 * e + 4 / 10 ^ 9 * 2) HG4 ltac:(rewrite <- E8; exact HG8) HX HY ltac:(lra) D ltac:(lra) (sums4 G4 HG4)).
  intros l Nl. specialize (K l Nl). unfold dg2 in K. rewrite <- E8 in K. change (4 + 4)%nat with 8%nat in K. lra.
Qed.
Lemma sums lg s G : falcon_lg lg -> s = sfg * sqrt (4096 / 2 ^ lg) -> gauss_sum s 0 G -> l1 (convol P (4096 / 2 ^ lg)) (gsd s G) (8 * e + / 2 ^ 25 * (2 ^ 9 / 2 ^ lg)).
Proof.
  assert (Q : 16 / 10 ^ 9 * (101 / 100) <= / 2 ^ 25 * (2 ^ 9 / 2 ^ 9) /\ 4 / 10 ^ 9 * 2 <= / 2 ^ 25 * (2 ^ 9 / 2 ^ 10)) by (split; lra).
  assert (PS := sfg_pos).
  assert (K : forall c (v : Z), 0 < c -> kfg / c = / (2 * (sfg * sqrt c) ^ 2)). { intros c _ Hc. unfold kfg. rewrite Rpow_mult_distr. replace (sqrt c ^ 2) with c by (rewrite <- Rsqr_pow2, Rsqr_sqrt; lra). field. lra. }
  intros [-> | ->] -> HG l Nl.
  - replace (4096 / 2 ^ 9) with 8 in HG by (simpl; field). replace (4096 / 2 ^ 9) with 8 by (simpl; field). replace (4096 / 2 ^ 9)%nat with 8%nat by (vm_compute; reflexivity).
    assert (P8 : 0 < sfg * sqrt 8) by (apply Rmult_lt_0_compat; [exact PS|apply sqrt_lt_R0; lra]).
    assert (T : th (kfg / 8) 0 G) by (rewrite (K 8 0%Z) by lra; apply th_gauss; assumption). assert (S := sums8 G T l Nl). apply Rle_trans with (8 * e + 16 / 10 ^ 9 * (101 / 100)); [|lra]. eapply Rle_trans; [|exact S]. right. apply P_gsum.lsum_ext. intros v _. unfold gsd. rewrite (K 8 0%Z) by lra. rewrite gz_rho by exact P8. reflexivity.
  - replace (4096 / 2 ^ 10) with 4 in HG by (simpl; field). replace (4096 / 2 ^ 10) with 4 by (simpl; field). replace (4096 / 2 ^ 10)%nat with 4%nat by (vm_compute; reflexivity).
    assert (P4 : 0 < sfg * sqrt 4) by (apply Rmult_lt_0_compat; [exact PS|apply sqrt_lt_R0; lra]).
    assert (T : th (kfg / 4) 0 G) by (rewrite (K 4 0%Z) by lra; apply th_gauss; assumption). assert (S := sums4 G T l Nl). apply Rle_trans with (4 * e + 4 / 10 ^ 9 * 2); [|lra]. eapply Rle_trans; [|exact S]. right. apply P_gsum.lsum_ext. intros v _. unfold gsd. rewrite (K 4 0%Z) by lra. rewrite gz_rho by exact P4. reflexivity.
Qed.
End Sums.

(** ** vectors *)
Lemma vec_sub1 (A : Z -> R) n : sub1 A -> forall L, NoDup L -> Forall (fun v => length v = n) L -> 0 <= lsum (fun v => Rprod (map A v)) L <= 1.
Proof.
  intros HA. assert (PP : forall v, 0 <= Rprod (map A v)). { intros v. induction v as [|a v IH]; unfold Rprod in *; cbn [map fold_right]; [lra|]. apply Rmult_le_pos; [apply HA|exact IH]. }
  intros L NL FL. split; [apply lsum_pos, PP|]. revert L NL FL. induction n as [|n IH]; intros L NL FL.
  - apply Rle_trans with (lsum (fun v => Rprod (map A v)) [[]]).
    + apply lsum_incl; [exact P_genlaw.zl_dec|exact PP|exact NL|]. intros v Hv. rewrite Forall_forall in FL. apply FL in Hv. destruct v; [left; left; reflexivity|discriminate].
    + unfold lsum, Rprod. cbn. lra.
  - set (H := nodup Z.eq_dec (map (fun v => hd 0%Z v) L)). set (T := nodup P_genlaw.zl_dec (map (fun v => tl v) L)).
    apply Rle_trans with (lsum (fun v => Rprod (map A v)) (flat_map (fun a => map (cons a) T) H)).
    + apply lsum_incl; [exact P_genlaw.zl_dec|exact PP|exact NL|]. intros v Hv. left. assert (Lv := FL). rewrite Forall_forall in Lv. apply Lv in Hv as Hl. destruct v as [|a v]; [discriminate|].
      apply in_flat_map. exists a. split; [apply nodup_In, in_map_iff; exists (a :: v); split; [reflexivity|exact Hv]|]. apply in_map, nodup_In, in_map_iff. exists (a :: v). split; [reflexivity|exact Hv].
    + rewrite lsum_flat. apply Rle_trans with (lsum A H); [|apply HA, NoDup_nodup]. apply lsum_le. intros a _. rewrite lsum_map. rewrite (P_gsum.lsum_ext _ (fun v => A a * Rprod (map A v))) by reflexivity. rewrite lsum_scal. rewrite <- (Rmult_1_r (A a)) at 2.
      apply Rmult_le_compat_l; [apply HA|]. apply IH; [apply NoDup_nodup|]. apply Forall_forall. intros v Hv. apply nodup_In, in_map_iff in Hv. destruct Hv as (w & <- & Hw). rewrite Forall_forall in FL. apply FL in Hw. destruct w; [discriminate|]. injection Hw as Hw. exact Hw.
Qed.
Lemma vec_l1 (A B : Z -> R) e n : sub1 A -> sub1 B -> 0 <= e -> l1 A B e -> forall L, NoDup L -> Forall (fun v => length v = n) L -> lsum (fun v => Rabs (Rprod (map A v) - Rprod (map B v))) L <= INR n * e.
Proof.
  intros HA HB He H. assert (PP : forall v, 0 <= Rabs (Rprod (map A v) - Rprod (map B v))) by (intros v; apply Rabs_pos).
  assert (PB : forall v, 0 <= Rprod (map B v)). { intros v. induction v as [|a v IH]; unfold Rprod in *; cbn [map fold_right]; [lra|]. apply Rmult_le_pos; [apply HB|exact IH]. }
  induction n as [|n IH]; intros L NL FL.
  - apply Rle_trans with (lsum (fun v => Rabs (Rprod (map A v) - Rprod (map B v))) [[]]).
    + apply lsum_incl; [exact P_genlaw.zl_dec|exact PP|exact NL|]. intros v Hv. rewrite Forall_forall in FL. apply FL in Hv. destruct v; [left; left; reflexivity|discriminate].
    + unfold lsum, Rprod. cbn. rewrite Rminus_diag_eq, Rabs_R0 by reflexivity. lra.
  - set (Hd := nodup Z.eq_dec (map (fun v => hd 0%Z v) L)). set (T := nodup P_genlaw.zl_dec (map (fun v => tl v) L)).
    assert (FT : Forall (fun v => length v = n) T). { apply Forall_forall. intros v Hv. apply nodup_In, in_map_iff in Hv. destruct Hv as (w & <- & Hw). rewrite Forall_forall in FL. apply FL in Hw. destruct w; [discriminate|]. injection Hw as Hw. exact Hw. }
    apply Rle_trans with (lsum (fun v => Rabs (Rprod (map A v) - Rprod (map B v))) (flat_map (fun a => map (cons a) T) Hd)).
    + apply lsum_incl; [exact P_genlaw.zl_dec|exact PP|exact NL|]. intros v Hv. left. assert (Lv := FL). rewrite Forall_forall in Lv. apply Lv in Hv as Hl. destruct v as [|a v]; [discriminate|].
      apply in_flat_map. exists a. split; [apply nodup_In, in_map_iff; exists (a :: v); split; [reflexivity|exact Hv]|]. apply in_map, nodup_In, in_map_iff. exists (a :: v). split; [reflexivity|exact Hv].
    + rewrite lsum_flat. apply Rle_trans with (lsum (fun a => INR n * e * A a + Rabs (A a - B a)) Hd).
      * apply lsum_le. intros a _. rewrite lsum_map. apply Rle_trans with (lsum (fun v => A a * Rabs (Rprod (map A v) - Rprod (map B v)) + Rabs (A a - B a) * Rprod (map B v)) T).
        -- apply lsum_le. intros v _. change (Rprod (map A (a :: v))) with (A a * Rprod (map A v)). change (Rprod (map B (a :: v))) with (B a * Rprod (map B v)).
           replace (A a * Rprod (map A v) - B a * Rprod (map B v)) with (A a * (Rprod (map A v) - Rprod (map B v)) + (A a - B a) * Rprod (map B v)) by ring. eapply Rle_trans; [apply Rabs_triang|]. rewrite !Rabs_mult, (Rabs_pos_eq (A a)) by apply HA. rewrite (Rabs_pos_eq (Rprod (map B v))) by apply PB. lra.
        -- rewrite lsum_plus, !lsum_scal. assert (K1 := IH T (NoDup_nodup _ _) FT). destruct (vec_sub1 B n HB T (NoDup_nodup _ _) FT) as [_ K2].
           assert (K3 : A a * lsum (fun v => Rabs (Rprod (map A v) - Rprod (map B v))) T <= A a * (INR n * e)) by (apply Rmult_le_compat_l; [apply HA|exact K1]).
           assert (K4 : Rabs (A a - B a) * lsum (fun v => Rprod (map B v)) T <= Rabs (A a - B a) * 1) by (apply Rmult_le_compat_l; [apply Rabs_pos|exact K2]). lra.
      * rewrite lsum_plus, lsum_scal, S_INR. assert (K1 := proj2 HA Hd (NoDup_nodup _ _)). assert (K2 := H Hd (NoDup_nodup _ _)).
        assert (INR n * e * lsum A Hd <= INR n * e * 1) by (apply Rmult_le_compat_l; [apply Rmult_le_pos; [apply pos_INR|exact He]|exact K1]). lra.
Qed.
