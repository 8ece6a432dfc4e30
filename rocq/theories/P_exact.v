(** P_exact.v -- ber_exp and samplerz in exact real arithmetic. *)
From Verif Require Import Base Spec M_float M_exact M_samp P_ff P_xform P_codec P_samp P_sampz P_exp.
From Coq Require Import Reals Lra Psatz.
Open Scope R_scope.

Lemma Rfloor_spec x : IZR (Rfloor x) <= x < IZR (Rfloor x) + 1.
Proof. unfold Rfloor. destruct (base_Int_part x). lra. Qed.
Lemma Rfloor_eq x n : IZR n <= x < IZR n + 1 -> Rfloor x = n.
Proof.
  intros H. pose proof (Rfloor_spec x) as G. assert (A : (Rfloor x < n + 1)%Z) by (apply lt_IZR; rewrite plus_IZR; lra).
  assert (B : (n < Rfloor x + 1)%Z) by (apply lt_IZR; rewrite plus_IZR; lra). lia.
Qed.
Lemma Rfloor_IZR n : Rfloor (IZR n) = n.
Proof. apply Rfloor_eq. lra. Qed.
Lemma Rtrunc_IZR n : Rtrunc (IZR n) = n.
Proof. unfold Rtrunc. destruct (Rle_dec 0 (IZR n)); [apply Rfloor_IZR|]. rewrite <- opp_IZR, Rfloor_IZR. lia. Qed.
Lemma to_range_IZR l h n : (l <= n < h)%Z -> to_range RF l h (IZR n) = Ok n.
Proof. intros H. unfold to_range. cbn [ftrunc RF]. rewrite Rtrunc_IZR. destruct (Z.leb_spec l n), (Z.ltb_spec n h); try reflexivity; lia. Qed.

(** ** the literals *)
Definition Lit2 : R := 6931471805599453 / 10000000000000000.
Lemma LN2_R : LN2 RF = Lit2. Proof. reflexivity. Qed.
Lemma smax_R : sigma_max RF = 18205 / 10000. Proof. reflexivity. Qed.
(** rational points: b^n pev l (a/b) as an integer *)
Fixpoint hz (a b : Z) (l : list Z) : Z :=
  match l with [] => 0%Z | c :: l' => (c * b ^ Z.of_nat (length l) + a * hz a b l')%Z end.
Lemma pev_frac l a b : (0 < b)%Z -> IZR b ^ length l * pev l (IZR a / IZR b) = IZR (hz a b l).
Proof.
  intros Hb. assert (0 < IZR b) by (apply IZR_lt; exact Hb). induction l as [|c l IH]; [cbn; ring|].
  cbn [hz]. rewrite plus_IZR, !mult_IZR, <- IH, <- pow_IZR. unfold pev. cbn [fold_right length pow]. field. lra.
Qed.
Definition tcoef : list Z :=
  [6402373705728000; -6402373705728000; 3201186852864000; -1067062284288000; 266765571072000; -53353114214400; 8892185702400;
   -1270312243200; 158789030400; -17643225600; 1764322560; -160392960; 13366080; -1028160; 73440; -4896; 306; -18; 1]%Z.
Lemma Texp_pev x : pev tcoef x = 6402373705728000 * Texp x.
Proof.
  unfold Texp, tg_alt, eterm. cbn [sum_f_R0]. rewrite !zfact_ok.
  repeat match goal with |- context [zfact ?n] => let v := eval vm_compute in (zfact n) in change (zfact n) with v end.
  unfold pev, tcoef. cbn [fold_right]. field.
Qed.
Lemma exp_Lit2 : Rabs (2 * exp (- Lit2) - 1) <= 1 / 100000000000000000.
Proof.
  pose proof (Texp_exp Lit2 ltac:(unfold Lit2; lra)) as B. apply Rabs_le_inv in B. apply Rabs_le.
  assert (T : 0 <= Texp Lit2 - 1 / 2 <= 1 / 1000000000000000000 * 48 / 10); [|lra].
  clear B. pose proof (Texp_pev Lit2) as TP. pose proof (pev_frac tcoef 6931471805599453 10000000000000000 ltac:(lia)) as PF. change (6931471805599453 / 10000000000000000) with Lit2 in PF. rewrite TP in PF. clear TP.
  set (T := Texp Lit2) in *. clearbody T.
  assert (Q1 : (6402373705728000 * 10000000000000000 ^ 19 <= 2 * hz 6931471805599453 10000000000000000 tcoef)%Z) by (apply Z.leb_le; vm_compute; reflexivity).
  assert (Q2 : (10000000000000000000 * (2 * hz 6931471805599453 10000000000000000 tcoef - 6402373705728000 * 10000000000000000 ^ 19) <= 96 * (6402373705728000 * 10000000000000000 ^ 19))%Z) by (apply Z.leb_le; vm_compute; reflexivity).
  apply IZR_le in Q1. apply IZR_le in Q2. rewrite !mult_IZR in Q1. rewrite (mult_IZR 10000000000000000000), (mult_IZR 96), minus_IZR, (mult_IZR 2), (mult_IZR 6402373705728000) in Q2.
  rewrite <- PF in Q1, Q2.
  change (length tcoef) with 19%nat in *. rewrite pow_IZR in Q1. rewrite pow_IZR in Q2. change (Z.of_nat 19) with 19%Z in *.
  set (K := IZR (10000000000000000 ^ 19)) in *. assert (KP : 0 < K) by (apply IZR_lt; vm_compute; reflexivity). clearbody K.
  assert (Q1' : 0 <= K * (2 * T - 1)) by lra.
  assert (Q2' : K * (10000000000000000000 * (2 * T - 1) - 96) <= 0) by lra.
  split.
  - apply Rmult_le_reg_l with K; [exact KP|]. lra.
  - apply Rmult_le_reg_l with K; [exact KP|]. lra.
Qed.

Lemma exp_lip a d : 0 <= d -> 0 <= a -> exp (- a) - d <= exp (- (a + d)) <= exp (- a).
Proof.
  intros Hd Ha. replace (- (a + d)) with (- a + - d) by ring. rewrite exp_plus.
  assert (E1 : exp (- a) <= 1). { rewrite <- exp_0. destruct Ha as [Ha|<-]; [left; apply exp_increasing; lra|]. replace (-0) with 0 by ring. lra. }
  pose proof (exp_pos (- a)).
  assert (E2 : exp (- d) <= 1). { rewrite <- exp_0. destruct Hd as [Hd|<-]; [left; apply exp_increasing; lra|]. replace (-0) with 0 by ring. lra. }
  assert (E3 : 1 - d <= exp (- d)). { destruct (Req_dec d 0) as [->|N]; [replace (-0) with 0 by ring; rewrite exp_0; lra|]. left. replace (1 - d) with (1 + - d) by ring. apply exp_ineq1. lra. }
  split; nra.
Qed.
Lemma pow_near d n : 0 <= d -> INR n * d <= / 2 -> forall u, Rabs (u - 1) <= d -> Rabs (u ^ n - 1) <= 2 * INR n * d.
Proof.
  intros Hd. induction n as [|n IH]; intros Hn u Hu; [cbn; rewrite Rminus_diag_eq, Rabs_R0 by reflexivity; lra|].
  rewrite S_INR in *. pose proof (pos_INR n) as P. assert (Hn' : INR n * d <= / 2) by nra. specialize (IH Hn' u Hu).
  apply Rabs_le_inv in IH. apply Rabs_le_inv in Hu. apply Rabs_le. cbn [pow].
  replace (u * u ^ n - 1) with ((u - 1) * (u ^ n - 1) + (u - 1) + (u ^ n - 1)) by ring.
  set (a := u - 1) in *. set (b := u ^ n - 1) in *. assert (- d <= a * b <= d) by (split; nra). split; [|].
  - nra.
  - nra.
Qed.

Definition w64 : R := 18446744073709551616.
Lemma z_trunc_floor x : 0 <= x < 1 -> exists z, to_u64 RF (ffloor RF (fmul RF (fofz RF 9223372036854775808) x)) = Ok z /\ (0 <= z < 2 ^ 63)%Z /\ IZR z <= w63 * x < IZR z + 1.
Proof.
  intros H. exists (Rfloor (9223372036854775808 * x)). cbn [ffloor fmul fofz RF]. pose proof (Rfloor_spec (9223372036854775808 * x)) as G.
  assert (R : (0 <= Rfloor (9223372036854775808 * x) < 2 ^ 63)%Z).
  { split; [apply Z.lt_succ_r|]; apply lt_IZR; [rewrite succ_IZR|rewrite IZR_w63; unfold w63]; lra. }
  split; [|split; [exact R|exact G]]. apply to_range_IZR. lia.
Qed.
Lemma z_trunc_floor1 x : 0 <= x <= 1 -> exists z, to_u64 RF (ffloor RF (fmul RF (fofz RF 9223372036854775808) x)) = Ok z /\ (0 <= z <= 2 ^ 63)%Z /\ IZR z <= w63 * x < IZR z + 1.
Proof.
  intros H. exists (Rfloor (9223372036854775808 * x)). cbn [ffloor fmul fofz RF]. pose proof (Rfloor_spec (9223372036854775808 * x)) as G.
  assert (R : (0 <= Rfloor (9223372036854775808 * x) <= 2 ^ 63)%Z).
  { split; [apply Z.lt_succ_r; apply lt_IZR; rewrite succ_IZR; lra|]. apply le_IZR. rewrite IZR_w63. unfold w63. lra. }
  split; [|split; [exact R|exact G]]. apply to_range_IZR. lia.
Qed.

(** approx_exp on [0, Lit2), ccs in [2^-20, 1] *)
Lemma approx_exp_R r ccs : 0 <= r < Lit2 -> / 1048576 <= ccs <= 1 ->
  exists E, approx_exp RF r ccs = Ok (E mod 2 ^ 63)%Z /\ (1 <= E <= 2 ^ 63)%Z /\
    Rabs (IZR (2 * E - 1) / w64 - ccs * exp (- r)) <= 402 / 1000000000000000000.
Proof.
  intros Hr Hc. unfold approx_exp.
  destruct (z_trunc_floor r ltac:(unfold Lit2 in Hr; lra)) as (z1 & -> & B1 & F1). cbn [bind].
  destruct (z_trunc_floor1 ccs ltac:(lra)) as (z2 & -> & B2 & F2). cbn [bind].
  assert (X1 : IZR z1 / w63 <= r < IZR z1 / w63 + / w63) by (unfold w63 in *; lra).
  assert (X2 : IZR z2 / w63 <= ccs < IZR z2 / w63 + / w63) by (unfold w63 in *; lra).
  destruct (exp_core_error z1 z2 ltac:(lia) ltac:(unfold Lit2 in Hr; lra) B2) as (A & B & C).
  set (E := (z2 * hval z1 / 2 ^ 63)%Z) in *. exists E. split; [exact C|].
  set (c := IZR z2 / w63) in *. set (x := IZR z1 / w63) in *.
  assert (Hx : 0 <= x). { destruct B1 as [P _]. apply IZR_le in P. unfold x, w63. lra. }
  pose proof (exp_lip x (r - x) ltac:(lra) Hx) as L. replace (x + (r - x)) with r in L by ring.
  assert (Ex : exp (- x) <= 1). { pose proof (exp_lip 0 x ltac:(lra) ltac:(lra)) as L0. rewrite Ropp_0, exp_0, Rplus_0_l in L0. lra. }
  assert (Ex2 : 3 / 10 <= exp (- x)). { pose proof (exp_lip 0 x ltac:(lra) ltac:(lra)) as L0. rewrite Ropp_0, exp_0, Rplus_0_l in L0. unfold Lit2 in Hr. lra. }
  apply Rabs_le_inv in A.
  assert (D : - (3 / w63) <= ccs * exp (- r) - c * exp (- x) <= 3 / w63).
  { replace (ccs * exp (- r) - c * exp (- x)) with ((ccs - c) * exp (- x) + ccs * (exp (- r) - exp (- x))) by ring. unfold w63 in *. split; nra. }
  assert (Epos : (1 <= E)%Z).
  { assert (0 < IZR E); [|apply lt_IZR in H; lia].
    assert (c * exp (- x) >= / 2097152 * (3 / 10)) by (unfold w63 in *; nra). unfold w63 in *. lra. }
  split; [lia|]. rewrite minus_IZR, mult_IZR. apply Rabs_le. unfold w64, w63 in *. lra.
Qed.

Lemma shift_R k : IZR (2 ^ Z.of_nat k) = 2 ^ k.
Proof. symmetry. apply pow_IZR. Qed.

Lemma threshold_R x ccs : 0 <= x <= 1152921504606846976 -> / 1048576 <= ccs <= 1 ->
  exists t, ber_threshold RF x ccs = Ok t /\ Rabs (IZR t / w64 - ccs * exp (- x)) <= / 2 ^ 48 * exp (- x) + / 2 ^ 63.
Proof.
  intros Hx Hc. unfold ber_threshold. cbn [ffloor fmul fsub RF]. unfold INV_LN2. rewrite LN2_R. cbn [fdiv fofz RF].
  replace (x * (1 / Lit2)) with (x / Lit2) by (unfold Lit2; field).
  pose proof (Rfloor_spec (x / Lit2)) as G. set (s := Rfloor (x / Lit2)) in *.
  assert (S0 : (0 <= s)%Z). { apply Z.lt_succ_r, lt_IZR. rewrite succ_IZR. unfold Lit2 in *. lra. }
  assert (S1 : (s < 18446744073709551616)%Z). { apply lt_IZR. unfold Lit2 in *. lra. }
  unfold to_u64 at 1. rewrite to_range_IZR by lia. cbn [bind].
  set (r := x - IZR s * Lit2). assert (Hr : 0 <= r < Lit2). { unfold r. unfold Lit2 in *. lra. }
  destruct (approx_exp_R r ccs Hr Hc) as (E & -> & HE & A). cbn [bind].
  assert (U : (u64 (2 * (E mod 2 ^ 63) - 1) = 2 * E - 1)%Z).
  { unfold u64. change (2 ^ 63)%Z with 9223372036854775808%Z in *. lia. }
  rewrite U. eexists. split; [reflexivity|]. rewrite Z.shiftr_div_pow2 by lia.
  assert (Er : exp (- r) <= 1). { pose proof (exp_lip 0 r ltac:(lra) ltac:(lra)) as L0. rewrite Ropp_0, exp_0, Rplus_0_l in L0. lra. }
  assert (Er2 : 499 / 1000 <= exp (- r)).
  { pose proof exp_Lit2 as X. apply Rabs_le_inv in X. destruct (exp_lip r (Lit2 - r)) as [_ L0]; [lra|lra|]. replace (r + (Lit2 - r)) with Lit2 in L0 by ring. lra. }
  assert (Ns : exists n, s = Z.of_nat n) by (exists (Z.to_nat s); lia). destruct Ns as (n & Hn).
  assert (EX : exp (- x) = exp (- r) * exp (- Lit2) ^ n).
  { replace (- x) with (- r + INR n * - Lit2) by (unfold r; rewrite Hn, <- INR_IZR_INZ; ring). rewrite exp_plus. f_equal.
    clear. induction n as [|n IH]; [cbn; rewrite Rmult_0_l; apply exp_0|]. rewrite S_INR, Rmult_plus_distr_r, exp_plus, IH, Rmult_1_l. cbn [pow]. ring. }
  pose proof (exp_pos (- x)) as PX. apply Rabs_le_inv in A.
  destruct (Z.le_gt_cases s 63) as [C|C].
  - rewrite Z.min_l by exact C. pose proof (div_real (2 * E - 1) (2 ^ s) ltac:(apply Z.pow_pos_nonneg; lia)) as Dv.
    rewrite Hn in *. rewrite shift_R in Dv. set (P2 := 2 ^ n) in *.
    assert (HP : 1 <= P2) by (unfold P2; apply pow_R1_Rle; lra).
    assert (HN : INR n <= 63). { replace 63 with (INR 63) by (rewrite INR_IZR_INZ; reflexivity). apply le_INR. lia. }
    assert (W : Rabs ((2 * exp (- Lit2)) ^ n - 1) <= 2 * INR n * (1 / 100000000000000000)) by (apply pow_near; [lra|lra|exact exp_Lit2]).
    rewrite Rpow_mult_distr in W. fold P2 in W. apply Rabs_le_inv in W. set (L := exp (- Lit2) ^ n) in *.
    assert (W' : - (13 / 10000000000000000) <= P2 * L - 1 <= 13 / 10000000000000000) by (pose proof (pos_INR n); split; nra). clear W.
    set (t := IZR ((2 * E - 1) / 2 ^ Z.of_nat n)) in *. set (v := IZR (2 * E - 1)) in *. set (e := exp (- r)) in *. rewrite EX.
    assert (Dv' : v / w64 / P2 - / w64 <= t / w64 <= v / w64 / P2).
    { unfold w64. replace (v / 18446744073709551616 / P2) with (v / P2 / 18446744073709551616) by (field; lra). lra. }
    clear Dv. set (q := v / w64) in *. clearbody q t.
    assert (IP : 0 < / P2) by (apply Rinv_0_lt_compat; lra).
    assert (LL : L = / P2 + (P2 * L - 1) * / P2) by (field; lra).
    set (d := P2 * L - 1) in *. clearbody d. clearbody L. subst L. set (i := / P2) in *. replace (q / P2) with (q * i) in Dv' by reflexivity. clearbody i.
    assert (Q : - (402 / 1000000000000000000 * i) <= q * i - ccs * e * i <= 402 / 1000000000000000000 * i) by (split; nra).
    assert (CE : 0 <= ccs * e <= 1) by nra.
    assert (Z1 : - (13 / 10000000000000000 * i) <= ccs * e * (d * i) <= 13 / 10000000000000000 * i).
    { assert (- (13 / 10000000000000000 * i) <= d * i <= 13 / 10000000000000000 * i) by nra. split; nra. }
    assert (Z2 : 498 / 1000 * i <= e * (i + d * i)).
    { assert (D1 : - (13 / 10000000000000000 * i) <= d * i) by nra. set (k := i + d * i) in *. assert (499 / 1000 * k <= e * k) by (apply Rmult_le_compat_r; unfold k; lra). unfold k in *. lra. }
    apply Rabs_le. unfold w64 in *. replace (ccs * (e * (i + d * i))) with (ccs * e * i + ccs * e * (d * i)) by ring.
    set (A1 := ccs * e * i) in *. set (A2 := ccs * e * (d * i)) in *. set (A3 := q * i) in *. set (A4 := e * (i + d * i)) in *. set (A5 := t / 18446744073709551616) in *.
    clearbody A1 A2 A3 A4 A5. lra.
  - rewrite Z.min_r by lia.
    assert (T : (0 <= (2 * E - 1) / 2 ^ 63 <= 1)%Z). { change (2 ^ 63)%Z with 9223372036854775808%Z in *. lia. }
    assert (T' : 0 <= IZR ((2 * E - 1) / 2 ^ 63) <= 1) by (split; [apply (IZR_le 0)|apply (IZR_le _ 1)]; lia).
    set (t := IZR ((2 * E - 1) / 2 ^ 63)) in *. clearbody t.
    assert (XS : exp (- x) <= / 9223372036854775808 - / 18446744073709551616 + / 36893488147419103232 * 1 / 10).
    { rewrite EX. replace n with (64 + (n - 64))%nat by lia. rewrite pow_add.
      pose proof exp_Lit2 as X. apply Rabs_le_inv in X. pose proof (exp_pos (- Lit2)) as P1.
      assert (N64 : ((1 + 1 / 100000000000000000) / 2) ^ 64 <= / 18446744073709551616 * (1 + 1 / 1000)).
      { unfold Rdiv at 1. rewrite Rpow_mult_distr. pose proof (pow_near (1 / 100000000000000000) 64 ltac:(lra)) as PN.
        replace (INR 64) with 64 in PN by (rewrite INR_IZR_INZ; reflexivity). specialize (PN ltac:(lra) (1 + 1 / 100000000000000000)).
        replace (1 + 1 / 100000000000000000 - 1) with (1 / 100000000000000000) in PN by ring. rewrite Rabs_right in PN by lra. specialize (PN ltac:(lra)). apply Rabs_le_inv in PN.
        rewrite pow_inv. rewrite (pow_IZR 2 64). change (IZR (2 ^ Z.of_nat 64)) with 18446744073709551616.
        set (u := (1 + 1 / 100000000000000000) ^ 64) in *. clearbody u. lra. }
      assert (AA : exp (- Lit2) ^ 64 <= / 18446744073709551616 * (1 + 1 / 1000)) by (apply Rle_trans with (2 := N64); apply pow_incr; split; [left; exact P1|clear N64; lra]). clear N64.
      assert (exp (- Lit2) ^ (n - 64) <= 1). { rewrite <- (pow1 (n - 64)). apply pow_incr. lra. }
      assert (0 < exp (- Lit2) ^ (n - 64)) by (apply pow_lt; exact P1). assert (0 < exp (- Lit2) ^ 64) by (apply pow_lt; exact P1).
      set (a := exp (- Lit2) ^ 64) in *. set (b := exp (- Lit2) ^ (n - 64)) in *. clearbody a b.
      assert (AB : 0 <= a * b <= a * 1) by (split; [apply Rmult_le_pos; lra|apply Rmult_le_compat_l; lra]). pose proof (exp_pos (- r)).
      assert (exp (- r) * (a * b) <= 1 * (a * 1)) by (apply Rmult_le_compat; lra). lra. }
    apply Rabs_le. unfold w64. pose proof (exp_pos (- r)).
    assert (H0 : 0 <= ccs * exp (- x) <= exp (- x)) by (split; [apply Rmult_le_pos; lra|apply Rle_trans with (1 * exp (- x)); [apply Rmult_le_compat_r; lra|lra]]).
    set (y := ccs * exp (- x)) in *. clearbody y. set (z := exp (- x)) in *. clearbody z. clear - T' XS H0 PX.
    lra.
Qed.

(** ** samplerz *)
(** the exponent of a proposal: (z - r)^2 / (2 sigma'^2) - z0^2 / (2 sigma_max^2) *)
Definition xval (mu sigma' : R) (z0 : nat) (b : Z) : R :=
  (IZR (zsigned z0 b) - (mu - IZR (Rfloor mu))) ^ 2 / (2 * sigma' ^ 2) - INR z0 ^ 2 / (2 * (18205 / 10000) ^ 2).
Lemma exponent_R mu sigma' z0 b : b = 0%Z \/ b = 1%Z -> 0 < sigma' ->
  exponent RF (fsub RF mu (ffloor RF mu)) (inv_2sq RF sigma') (inv_2sq RF (sigma_max RF)) (Z.of_nat z0) b = xval mu sigma' z0 b.
Proof.
  intros Hb Hs. unfold exponent, inv_2sq, xval. rewrite smax_R. cbn [fsub fmul fofz fdiv ffloor RF]. rewrite <- signed_eq by exact Hb.
  rewrite mult_IZR, <- INR_IZR_INZ. match goal with |- @eq _ ?a ?b => change (@eq R a b) end. field. lra.
Qed.
Lemma xval_range mu sigma' z0 b : (z0 < 19)%nat -> b = 0%Z \/ b = 1%Z -> 1 / 1000 <= sigma' <= 18205 / 10000 -> 0 <= xval mu sigma' z0 b <= 200000000.
Proof.
  intros Hz Hb Hs. unfold xval. pose proof (Rfloor_spec mu) as G. set (r := mu - IZR (Rfloor mu)). assert (Hr : 0 <= r < 1) by (unfold r; lra). clearbody r.
  assert (HZ : 0 <= INR z0 <= 18). { split; [apply pos_INR|]. replace 18 with (INR 18) by (rewrite INR_IZR_INZ; reflexivity). apply le_INR. lia. }
  set (u := IZR (zsigned z0 b) - r).
  assert (Hu : INR z0 ^ 2 <= u ^ 2 <= 400).
  { unfold u, zsigned. destruct Hb as [->| ->]; cbn [Z.eqb Pos.eqb].
    - rewrite opp_IZR, <- INR_IZR_INZ. split; nra.
    - rewrite plus_IZR, <- INR_IZR_INZ. split; nra. }
  clearbody u. set (k := INR z0 ^ 2) in *. assert (0 <= k) by (unfold k; nra). clearbody k. set (v := u ^ 2) in *. clearbody v.
  assert (S1 : 0 < sigma' ^ 2) by nra. assert (S2 : 1 / 1000000 <= sigma' ^ 2 <= (18205 / 10000) ^ 2) by (split; nra).
  set (q := sigma' ^ 2) in *. clearbody q.
  assert (I1 : / (2 * (18205 / 10000) ^ 2) <= / (2 * q)) by (apply Rinv_le_contravar; lra).
  assert (I2 : / (2 * q) <= / (2 * (1 / 1000000))) by (apply Rinv_le_contravar; lra).
  assert (I0 : 0 < / (2 * (18205 / 10000) ^ 2)) by (apply Rinv_0_lt_compat; lra).
  unfold Rdiv. set (a := / (2 * q)) in *. set (c := / (2 * (18205 * / 10000) ^ 2)) in *. clearbody a.
  change (/ (2 * (18205 / 10000) ^ 2)) with c in *. clearbody c. replace (/ (2 * (1 / 1000000))) with 500000 in I2 by field.
  split.
  - assert (k * c <= v * a) by (apply Rmult_le_compat; lra). lra.
  - assert (v * a <= 400 * 500000) by (apply Rmult_le_compat; lra). assert (0 <= k * c) by (apply Rmult_le_pos; lra). lra.
Qed.

Lemma thr_R mu sigma' sigma_min z0 b : (z0 < 19)%nat -> b = 0%Z \/ b = 1%Z -> 1 / 1000 <= sigma_min -> sigma_min <= sigma' <= 18205 / 10000 ->
  exists t, thr RF mu sigma' sigma_min z0 b t /\
    Rabs (IZR t / w64 - sigma_min / sigma' * exp (- xval mu sigma' z0 b)) <= / 2 ^ 48 * exp (- xval mu sigma' z0 b) + / 2 ^ 63.
Proof.
  intros Hz Hb H1 H2. unfold thr. rewrite exponent_R by (assumption || lra).
  pose proof (xval_range mu sigma' z0 b Hz Hb ltac:(lra)) as HX. apply threshold_R; [lra|]. cbn [fdiv RF].
  assert (I : / (18205 / 10000) <= / sigma') by (apply Rinv_le_contravar; lra). assert (I2 : sigma' * / sigma' = 1) by (apply Rinv_r; lra).
  assert (0 < / sigma') by (apply Rinv_0_lt_compat; lra). replace (/ (18205 / 10000)) with (10000 / 18205) in I by field.
  unfold Rdiv. split; [|].
  - assert (1 / 1000 * (10000 / 18205) <= sigma_min * / sigma') by (apply Rmult_le_compat; lra). lra.
  - rewrite <- I2. apply Rmult_le_compat_r; lra.
Qed.

Definition th_of (mu sigma' sigma_min : R) (z0 : nat) (b : Z) : Z :=
  match ber_threshold RF (exponent RF (fsub RF mu (ffloor RF mu)) (inv_2sq RF sigma') (inv_2sq RF (sigma_max RF)) (Z.of_nat z0) b) (fdiv RF sigma_min sigma') with Ok t => t | _ => 0%Z end.

Lemma proposal_b g pos z0 b : proposal g pos z0 b -> (z0 < 19)%nat /\ (b = 0 \/ b = 1)%Z.
Proof. intros (A & _ & B). split; [exact A|]. pose proof (Z.mod_pos_bound (g (pos + 9)%nat) 2). lia. Qed.

Lemma rejection_ext (th th' : nat -> Z -> Z -> Prop) g k pos z pos' :
  (forall z0 b t, (z0 < 19)%nat -> (b = 0 \/ b = 1)%Z -> th z0 b t -> th' z0 b t) -> rejection th g k pos z pos' -> rejection th' g k pos z pos'.
Proof.
  intros H. induction 1.
  - destruct (proposal_b _ _ _ _ H0). apply rej_accept with t; auto.
  - destruct (proposal_b _ _ _ _ H0). apply rej_again with z0 b t n; auto.
Qed.

Lemma to_i32_R z mu : (-18 <= z <= 19)%Z -> (Z.abs (Rfloor mu) <= 2147483000)%Z -> to_i32 RF (fadd RF (fofz RF z) (ffloor RF mu)) = Ok (Rfloor mu + z)%Z.
Proof. intros Hz Hm. cbn [fadd fofz ffloor RF]. rewrite <- plus_IZR. unfold to_i32. rewrite to_range_IZR by lia. f_equal. lia. Qed.

Lemma samplerz_exact mu sigma' sigma_min : 1 / 1000 <= sigma_min -> sigma_min <= sigma' <= 18205 / 10000 -> (Z.abs (Rfloor mu) <= 2147483000)%Z ->
  exists th : nat -> Z -> Z,
    (forall z0 b, (z0 < 19)%nat -> (b = 0 \/ b = 1)%Z ->
       Rabs (IZR (th z0 b) / 2 ^ 64 - sigma_min / sigma' * exp (- xval mu sigma' z0 b)) <= / 2 ^ 48 * exp (- xval mu sigma' z0 b) + / 2 ^ 63) /\
    forall fuel g pos v pos', (forall i, byte (g i)) ->
      (samplerz RF fuel mu sigma' sigma_min g pos = Ok (v, pos') <->
       exists k z, (k <= fuel)%nat /\ rejection (fun z0 b t => t = th z0 b) g k pos z pos' /\ v = (Rfloor mu + z)%Z).
Proof.
  intros H1 H2 H3. exists (th_of mu sigma' sigma_min).
  assert (TH : forall z0 b, (z0 < 19)%nat -> (b = 0 \/ b = 1)%Z -> thr RF mu sigma' sigma_min z0 b (th_of mu sigma' sigma_min z0 b)).
  { intros z0 b Hz Hb. destruct (thr_R mu sigma' sigma_min z0 b Hz Hb H1 H2) as (t & E & _). unfold thr, th_of in *. rewrite E. reflexivity. }
  split.
  - intros z0 b Hz Hb. destruct (thr_R mu sigma' sigma_min z0 b Hz Hb H1 H2) as (t & E & B). pose proof (TH z0 b Hz Hb) as E'.
    unfold thr in E, E'. rewrite E in E'. injection E' as <-. replace (2 ^ 64) with w64 by (unfold w64; lra). exact B.
  - intros fuel g pos v pos' Hg. rewrite samplerz_ok by exact Hg. split; intros (k & z & Hk & Hr & Ho); exists k, z; (split; [exact Hk|]).
    + destruct (rejection_bounds _ _ _ _ _ _ Hr) as [_ Hz]. rewrite to_i32_R in Ho by assumption. injection Ho as <-. split; [|reflexivity].
      apply rejection_ext with (2 := Hr). intros z0 b t Hz0 Hb HT. pose proof (TH z0 b Hz0 Hb) as E. unfold thr in *. rewrite E in HT. injection HT as ->. reflexivity.
    + destruct (rejection_bounds _ _ _ _ _ _ Hr) as [_ Hz]. subst v. split; [|apply to_i32_R; assumption].
      apply rejection_ext with (2 := Hr). intros z0 b t Hz0 Hb ->. apply TH; assumption.
Qed.
Lemma samplerz_no_ub mu sigma' sigma_min fuel g pos : 1 / 1000 <= sigma_min -> sigma_min <= sigma' <= 18205 / 10000 -> (Z.abs (Rfloor mu) <= 2147483000)%Z ->
  (forall i, byte (g i)) -> samplerz RF fuel mu sigma' sigma_min g pos <> UB.
Proof.
  intros H1 H2 H3 Hg. unfold samplerz. revert pos. induction fuel as [|fuel IH]; intros pos; cbn [samplerz_loop]; [discriminate|].
  destruct (base_rng_ok g pos Hg) as (z0 & Hz0 & Hi & ->). cbn [bind]. rewrite land1.
  set (b := (g (pos + 9)%nat mod 2)%Z). assert (Hb : (b = 0 \/ b = 1)%Z) by (unfold b; pose proof (Z.mod_pos_bound (g (pos + 9)%nat) 2); lia).
  destruct (thr_R mu sigma' sigma_min z0 b Hz0 Hb H1 H2) as (t & E & _). unfold thr in E.
  destruct (ber_exp_ok RF _ _ g (S (pos + 9)) t Hg E) as (n & -> & _). cbn [bind]. rewrite <- (signed_eq z0 b Hb).
  destruct (_ =? 1)%Z; [|apply IH]. rewrite to_i32_R by (try apply signed_range; assumption). discriminate.
Qed.
Lemma samplerz_arr_zero fuel mu sigma' sigma_min : (1 <= fuel)%nat -> 1 / 1000 <= sigma_min -> sigma_min <= sigma' <= 18205 / 10000 ->
  samplerz_arr RF fuel mu sigma' sigma_min (repeat 255%Z 11) 11 = Ok (0%Z, 11%nat).
Proof.
  intros Hf H1 H2. destruct fuel as [|fuel]; [lia|]. unfold samplerz_arr. set (rb := repeat 255%Z 11).
  cbn [samplerz_arr_loop]. change (0 <? 11)%nat with true. cbv iota.
  change (0 + 9 <=? length rb)%nat with true. cbv iota. cbn [bind].
  change (rev (firstn 9 (skipn 0 rb))) with (repeat 255%Z 9). rewrite base_255. cbn [bind].
  change (rd rb (0 + 9)) with (Ok 255%Z). cbn [bind]. change (Z.land 255 1) with 1%Z. change (S (0 + 9)) with 10%nat.
  unfold ber_exp_arr. destruct (thr_R mu sigma' sigma_min 0 1 ltac:(lia) (or_intror eq_refl) H1 H2) as (t & E & _). unfold thr in E.
  change (Z.of_nat 0) with 0%Z in E. rewrite E. cbn [bind]. cbn [ber_loop_arr]. change (rd rb (10 + 0)) with (Ok 255%Z). cbn [bind].
  change (1 <? 11 - 10)%nat with false. rewrite Bool.andb_false_r. cbn [bind].
  rewrite land255. replace (255 - Z.shiftr t (8 * Z.of_nat 7) mod 256 <? 0)%Z with false by (symmetry; apply Z.ltb_ge; pose proof (Z.mod_pos_bound (Z.shiftr t (8 * Z.of_nat 7)) 256); lia).
  cbn [b2z Z.eqb]. destruct fuel; reflexivity.
Qed.

(** ** the statements of T_samp.v *)
Open Scope Z_scope.
Lemma u72_arith : forall a b : u72,
  0 <= hi a < 256 /\ 0 <= lo a < 2 ^ 64 -> 0 <= hi b < 256 /\ 0 <= lo b < 2 ^ 64 ->
  (let v x := val72 (hi x) (lo x) in
   v (add72 a b) = (v a + v b) mod 2 ^ 72 /\ v (sub72 a b) = (v a - v b) mod 2 ^ 72 /\ v (neg72 a) = (- v a) mod 2 ^ 72 /\
   lt72 a b = (v a <? v b) /\ gt72 a b = (v b <? v a)) /\
  (forall c, c = add72 a b \/ c = sub72 a b \/ c = neg72 a -> 0 <= hi c < 256 /\ 0 <= lo c < 2 ^ 64).
Proof.
  intros a b Ha Hb. destruct (add72_ok a b Ha Hb) as [A1 A2]. destruct (sub72_ok a b Ha Hb) as [S1 S2]. destruct (neg72_ok a Ha) as [N1 N2].
  pose proof (lt72_ok a b Ha Hb). pose proof (gt72_ok a b Ha Hb).
  split; [exact (conj A2 (conj S2 (conj N2 (conj H H0))))|]. intros c [->|[->| ->]]; assumption.
Qed.
Lemma u72_bytes b : length b = 9%nat -> bytes b ->
  (exists a, from_le b = Ok a /\ to_le a = Ok b /\ val72 (hi a) (lo a) = le_value 256 b) /\
  (exists a, from_be b = Ok a /\ to_be a = Ok b /\ val72 (hi a) (lo a) = be_value 256 b).
Proof.
  intros L B. destruct (to_from_le b L B) as (a & A1 & A2). destruct (to_from_be b L B) as (c & C1 & C2).
  destruct (from_le_ok b L B) as (a' & A3 & _ & A4). destruct (from_be_ok b L B) as (c' & C3 & _ & C4).
  rewrite A1 in A3. injection A3 as <-. rewrite C1 in C3. injection C3 as <-. split; [exists a|exists c]; auto.
Qed.
Lemma u72_bytes_inv a : 0 <= hi a < 256 /\ 0 <= lo a < 2 ^ 64 ->
  (exists b, to_le a = Ok b /\ from_le b = Ok a /\ length b = 9%nat /\ bytes b) /\
  (exists b, to_be a = Ok b /\ from_be b = Ok a /\ length b = 9%nat /\ bytes b).
Proof.
  intros H. destruct (from_to_le a H) as (b & B1 & B2). destruct (from_to_be a H) as (c & C1 & C2).
  destruct (to_le_ok a H) as (b' & B3 & B4 & B5 & _). destruct (to_be_ok a H) as (c' & C3 & C4 & C5 & _).
  rewrite B1 in B3. injection B3 as <-. rewrite C1 in C3. injection C3 as <-. split; [exists b|exists c]; auto.
Qed.
Lemma full_mul_all a b : 0 <= a < 2 ^ 64 -> 0 <= b < 2 ^ 64 ->
  (let '(h, l) := full_mul_u64 a b in 0 <= h < 2 ^ 64 /\ 0 <= l < 2 ^ 64 /\ h * 2 ^ 64 + l = a * b) /\
  full_mul_u64_arm a b = full_mul_u64 a b /\ top_63_bits (full_mul_u64 a b) = (a * b / 2 ^ 63) mod 2 ^ 63.
Proof. intros Ha Hb. split; [exact (full_mul_ok a b Ha Hb)|]. split; [exact (full_mul_arm_ok a b Ha Hb)|exact (mul_top_ok a b Ha Hb)]. Qed.
Lemma pow_w63 : (2 ^ 63)%R = w63. Proof. unfold w63. lra. Qed.
Lemma pow_w64 : (2 ^ 64)%R = w64. Proof. unfold w64. lra. Qed.
Definition c10 : list Z := [0x00000036548CFC06; 0x0000024FDCBF140A; 0x0000171D939DE045; 0x0000D00CF58F6F84; 0x000680681CF796E3;
  0x002D82D8305B0FEA; 0x011111110E066FD0; 0x0555555555070F00; 0x155555555581FF00; 0x400000000002B400].
Lemma exp_core_accuracy z1 z2 : 0 <= z1 -> (IZR z1 <= 695 / 1000 * 2 ^ 63)%R -> 0 <= z2 <= 2 ^ 63 -> ~ (z1 <= 1 /\ z2 = 2 ^ 63) ->
  exists y, exp_core z1 z2 = Ok y /\ 0 <= y < 2 ^ 63 /\
    (Rabs (IZR y / 2 ^ 63 - IZR z2 / 2 ^ 63 * exp (- (IZR z1 / 2 ^ 63))) <= / 2 ^ 51)%R.
Proof.
  intros H1 H2 H3 H4. rewrite pow_w63 in *.
  destruct (exp_core_error z1 z2 H1) as (A & B & C); [unfold w63 in *; lra|exact H3|].
  assert (Hz1 : 0 <= z1 < 2 ^ 63). { split; [exact H1|]. apply lt_IZR. rewrite IZR_w63. unfold w63 in *. lra. }
  assert (NE : z2 * hval z1 / 2 ^ 63 < 2 ^ 63).
  { destruct (exp_core_eq z1 z2 Hz1 H3) as [_ R]. apply Z.div_lt_upper_bound; [lia|].
    destruct (Z.eq_dec z2 (2 ^ 63)) as [->|N2]; [|change (2 ^ 63) with 9223372036854775808 in *; nia].
    assert (1 < z1) by (destruct (Z.le_gt_cases z1 1); [destruct H4; split; [assumption|reflexivity]|lia]).
    assert (hval z1 < 2 ^ 63); [|change (2 ^ 63) with 9223372036854775808 in *; nia].
    destruct (hval_fold z1 c10 (hd 0 Cexp) (hd 0 Cexp)) as [_ P]; [exact Hz1|vm_compute; split; discriminate|reflexivity| |].
    { repeat (apply Forall_cons; [vm_compute; discriminate|]). apply Forall_nil. }
    change (last c10 (hd 0 Cexp)) with 0x400000000002B400 in P. unfold hval. change (tl Cexp) with (c10 ++ [0x7FFFFFFFFFFF4800; 0x8000000000000000]).
    rewrite fold_left_app. set (y10 := fold_left (hstep z1) c10 (hd 0 Cexp)) in *. clearbody y10. cbn [fold_left]. unfold hstep.
    set (t := z1 * y10 / 2 ^ 63). assert (t <= z1).
    { unfold t. apply Z.div_le_upper_bound; [lia|]. change (2 ^ 63) with 9223372036854775808 in *. nia. }
    assert (0 <= t <= 0x400000000002B400).
    { unfold t. split; [apply Z.div_pos; nia|]. apply Z.div_le_upper_bound; [lia|]. change (2 ^ 63) with 9223372036854775808 in *. nia. }
    assert (0 < z1 * (0x7FFFFFFFFFFF4800 - t) / 2 ^ 63); [|change (2 ^ 63) with 9223372036854775808 in *; lia].
    apply Z.div_str_pos. clearbody t. change (2 ^ 63) with 9223372036854775808 in *. split; [lia|].
    destruct (Z.le_gt_cases 3 z1); [nia|]. assert (z1 = 2) by lia. subst z1. lia. }
  exists (z2 * hval z1 / 2 ^ 63). rewrite C, Z.mod_small by lia. split; [reflexivity|]. split; [lia|].
  eapply Rle_trans; [exact A|]. unfold w63. lra.
Qed.
Lemma exp_core_corner z1 : 0 <= z1 <= 1 -> exp_core z1 (2 ^ 63) = Ok 0.
Proof. intros H. assert (z1 = 0 \/ z1 = 1) as [->| ->] by lia; vm_compute; reflexivity. Qed.
Lemma threshold_accuracy x ccs : (0 <= x <= 2 ^ 60)%R -> (/ 2 ^ 20 <= ccs <= 1)%R ->
  exists t, ber_threshold RF x ccs = Ok t /\ (Rabs (IZR t / 2 ^ 64 - ccs * exp (- x)) <= / 2 ^ 48 * exp (- x) + / 2 ^ 63)%R.
Proof. intros Hx Hc. rewrite pow_w64. apply threshold_R; lra. Qed.
Lemma ber_exp_spec (F : fops) x ccs g pos t : (forall i, byte (g i)) -> ber_threshold F x ccs = Ok t ->
  0 <= t < 2 ^ 64 /\
  exists n, ber_exp F x ccs g pos = Ok (b2z (be_value 256 (bytes_at g pos 8) <? t), (pos + n)%nat) /\ decided_by g pos t n.
Proof. intros Hg E. split; [exact (threshold_range F _ _ _ E)|]. apply ber_exp_ok; assumption. Qed.
Lemma samplerz_exact_spec (mu sigma' sigma_min : R) :
  (1 / 1000 <= sigma_min)%R -> (sigma_min <= sigma' <= 18205 / 10000)%R -> Z.abs (Rfloor mu) <= 2147483000 ->
  exists th : nat -> Z -> Z,
    (forall z0 b, (z0 < 19)%nat -> b = 0 \/ b = 1 ->
       let x := ((IZR (zsigned z0 b) - (mu - IZR (Rfloor mu))) ^ 2 / (2 * sigma' ^ 2) - INR z0 ^ 2 / (2 * (18205 / 10000) ^ 2))%R in
       (0 <= x)%R /\ (Rabs (IZR (th z0 b) / 2 ^ 64 - sigma_min / sigma' * exp (- x)) <= / 2 ^ 48 * exp (- x) + / 2 ^ 63)%R) /\
    forall fuel g pos v pos', (forall i, byte (g i)) ->
      (samplerz RF fuel mu sigma' sigma_min g pos = Ok (v, pos') <->
       exists k z, (k <= fuel)%nat /\ rejection (fun z0 b t => t = th z0 b) g k pos z pos' /\ v = Rfloor mu + z).
Proof.
  intros H1 H2 H3. destruct (samplerz_exact mu sigma' sigma_min H1 H2 H3) as (th & A & B). exists th. split; [|exact B].
  intros z0 b Hz Hb. split; [|exact (A z0 b Hz Hb)]. apply (xval_range mu sigma' z0 b Hz Hb). split; [exact (Rle_trans _ _ _ H1 (proj1 H2))|exact (proj2 H2)].
Qed.
Lemma samplerz_arr_oob_ex : exists rbytes : list Z, bytes rbytes /\ length rbytes = 19%nat /\
  forall (F : fops) fuel mu sigma' sigma_min, (2 <= fuel)%nat -> samplerz_arr F fuel mu sigma' sigma_min rbytes (length rbytes) = UB.
Proof.
  exists (repeat 255 19). split; [repeat (apply Forall_cons; [unfold byte; lia|]); apply Forall_nil|]. split; [reflexivity|].
  intros F fuel mu s' sm H. apply samplerz_arr_oob. exact H.
Qed.
Lemma samplerz_arr_zero_ex : exists rbytes : list Z, bytes rbytes /\ length rbytes = 11%nat /\
  forall (mu sigma' sigma_min : R) fuel, (1 <= fuel)%nat -> (1 / 1000 <= sigma_min)%R -> (sigma_min <= sigma' <= 18205 / 10000)%R ->
  samplerz_arr RF fuel mu sigma' sigma_min rbytes (length rbytes) = Ok (0, 11%nat).
Proof.
  exists (repeat 255 11). split; [repeat (apply Forall_cons; [unfold byte; lia|]); apply Forall_nil|]. split; [reflexivity|].
  intros mu s' sm fuel H1 H2 H3. apply samplerz_arr_zero; assumption.
Qed.
