(** P_dist.v -- the output distribution of samplerz is close to the discrete Gaussian. *)
From Verif Require Import Base Spec SpecR SpecG M_float M_exact M_samp P_gauss P_prob.
From Verif Require P_exact.
From Coq Require Import Reals Lra.
Open Scope R_scope.

Lemma exp_le x y : x <= y -> exp x <= exp y.
Proof. intros [H| ->]; [left; apply exp_increasing; exact H|right; reflexivity]. Qed.
Lemma rho19_small : rho smax 0 (INR 19) <= / 2 ^ 78.
Proof.
  assert (K := proj1 (chain_ok 19 ltac:(lia))). rewrite <- rho_pow, ws_nth in K by lia. unfold nr in K. apply ab in K. assert (W := w_pos).
  apply (Rmult_le_reg_r (IZR w)); [exact W|]. assert (Z : ((fst (nth 19 ws (0, 0)) + snd (nth 19 ws (0, 0))) * 2 ^ 78 <= w)%Z) by (vm_compute; discriminate).
  apply IZR_le in Z. rewrite mult_IZR, plus_IZR in Z. change (2 ^ 78)%Z with (2 ^ Z.of_nat 78)%Z in Z. rewrite <- pow_IZR in Z.
  assert (P : 0 < 2 ^ 78) by (apply pow_lt; lra). set (p := 2 ^ 78) in *. apply (Rmult_le_reg_r p); [exact P|]. replace (/ p * IZR w * p) with (IZR w) by (field; lra). eapply Rle_trans; [|exact Z]. apply Rmult_le_compat_r; [lra|]. lra.
Qed.
(** a series dominated by the weights of the base sampler *)
Lemma dom_cv (f : nat -> R) : (forall k, 0 <= f k <= rho smax 0 (INR k)) -> exists l, infinite_sum f l /\ sum_f_R0 f 18 <= l <= sum_f_R0 f 18 + / 2 ^ 77.
Proof.
  intros H. set (u := sum_f_R0 f). assert (G0 : forall n m, (n <= m)%nat -> u n <= u m).
  { intros n m L. induction L as [|m L IH]; [lra|]. unfold u in *. cbn [sum_f_R0]. assert (X := H (S m)). lra. }
  assert (G : Un_growing u) by (intros n; apply G0; lia). assert (S19 := rho19_small). assert (E77 : / 2 ^ 77 = 2 * / 2 ^ 78) by (simpl; field).
  assert (B : forall n, u n <= u 18%nat + / 2 ^ 77).
  { intros n. eapply Rle_trans; [apply (G0 n (18 + n)%nat); lia|]. assert (T := tail_le n). assert (P := rho_pos smax 0 (INR 19)). assert (Q : 0 <= (1 / 2) ^ n) by (apply pow_le; lra).
    assert (Q' : 2 * rho smax 0 (INR 19) * (1 - (1 / 2) ^ n) <= 2 * rho smax 0 (INR 19) * 1) by (apply Rmult_le_compat_l; lra).
    assert (Y : forall m, u (18 + m)%nat - u 18%nat <= part (18 + m) - part 18).
    { induction m as [|m IH]; [rewrite Nat.add_0_r; lra|]. replace (18 + S m)%nat with (S (18 + m)) by lia. change (u (S (18 + m))) with (u (18 + m)%nat + f (S (18 + m))). change (part (S (18 + m))) with (part (18 + m) + rho smax 0 (INR (S (18 + m)))). assert (X := H (S (18 + m))). lra. }
    specialize (Y n). fold (part 18) (part (18 + n)) in T. lra. }
  assert (HB : bound (EUn u)) by (exists (u 18%nat + / 2 ^ 77); intros x [n ->]; apply B).
  assert (HE : exists x, EUn u x) by (exists (u 0%nat); exists 0%nat; reflexivity).
  destruct (completeness (EUn u) HB HE) as [l HS]. exists l. assert (CV := Un_cv_crit_lub u G l HS). split; [exact CV|]. destruct HS as [U L]. split; [apply U; exists 18%nat; reflexivity|apply L; intros x [n ->]; apply B].
Qed.
Lemma sum_rsum f n : sum_f_R0 f n = rsum (S n) f.
Proof. induction n as [|n IH]; [cbn; ring|]. change (sum_f_R0 f (S n)) with (sum_f_R0 f n + f (S n)). rewrite IH. reflexivity. Qed.
Lemma rsum_abs n f g d e : (forall i, (i < n)%nat -> Rabs (f i - g i) <= d * g i + e) -> Rabs (rsum n f - rsum n g) <= d * rsum n g + INR n * e.
Proof.
  intros H. induction n as [|n IH]; [cbn; rewrite Rminus_0_r, Rabs_R0; lra|]. cbn [rsum]. rewrite S_INR. specialize (IH ltac:(intros i Hi; apply H; lia)). assert (X := H n ltac:(lia)).
  replace (rsum n f + f n - (rsum n g + g n)) with ((rsum n f - rsum n g) + (f n - g n)) by ring. eapply Rle_trans; [apply Rabs_triang|]. lra.
Qed.

Section Dist.
Variables c s m : R.
Hypotheses (Hm : 1 <= m) (Hms : m <= s) (Hs : s <= 18205 / 10000).
Notation fl := (Rfloor c).
Variable th : nat -> Z -> Z.
Hypothesis TR : forall z0 b, (z0 < 19)%nat -> (b = 0 \/ b = 1)%Z -> (0 <= th z0 b < 2 ^ 64)%Z.
Hypothesis TB : forall z0 b, (z0 < 19)%nat -> (b = 0 \/ b = 1)%Z ->
  let x := (IZR (zsigned z0 b) - (c - IZR fl)) ^ 2 / (2 * s ^ 2) - INR z0 ^ 2 / (2 * (18205 / 10000) ^ 2) in
  0 <= x /\ Rabs (IZR (th z0 b) / 2 ^ 64 - m / s * exp (- x)) <= / 2 ^ 39 * exp (- x) + / 2 ^ 63.
Notation pv := (pv th fl).
Notation pa := (pa th).
Notation rv v := (rho s c (IZR v)).

Lemma left_dom k : 0 <= rv (fl - Z.of_nat k)%Z <= rho smax 0 (INR k).
Proof.
  split; [left; apply rho_pos|]. unfold rho, smax. assert (P := P_exact.Rfloor_spec c). rewrite minus_IZR, <- INR_IZR_INZ. assert (K := pos_INR k). apply exp_le. apply Ropp_le_contravar.
  assert (S0 : 0 < 2 * s ^ 2) by (assert (0 < s ^ 2) by (apply pow_lt; lra); lra).
  assert (S2 : s ^ 2 <= (18205 / 10000) ^ 2) by (apply pow_incr; lra).
  apply Rle_trans with (INR k ^ 2 / (2 * s ^ 2)).
  - rewrite Rminus_0_r. unfold Rdiv. apply Rmult_le_compat_l; [apply pow2_ge_0|]. apply Rinv_le_contravar; [exact S0|]. fold (18205 / 10000). lra.
  - unfold Rdiv. apply Rmult_le_compat_r; [left; apply Rinv_0_lt_compat; exact S0|]. replace ((IZR fl - INR k - c) ^ 2) with ((INR k + (c - IZR fl)) ^ 2) by ring. apply pow_incr. lra.
Qed.
Lemma right_dom k : 0 <= rv (fl + 1 + Z.of_nat k)%Z <= rho smax 0 (INR k).
Proof.
  split; [left; apply rho_pos|]. unfold rho, smax. assert (P := P_exact.Rfloor_spec c). rewrite !plus_IZR, <- INR_IZR_INZ. assert (K := pos_INR k). apply exp_le. apply Ropp_le_contravar.
  assert (S0 : 0 < 2 * s ^ 2) by (assert (0 < s ^ 2) by (apply pow_lt; lra); lra).
  assert (S2 : s ^ 2 <= (18205 / 10000) ^ 2) by (apply pow_incr; lra).
  apply Rle_trans with (INR k ^ 2 / (2 * s ^ 2)).
  - rewrite Rminus_0_r. unfold Rdiv. apply Rmult_le_compat_l; [apply pow2_ge_0|]. apply Rinv_le_contravar; [exact S0|]. fold (18205 / 10000). lra.
  - unfold Rdiv. apply Rmult_le_compat_r; [left; apply Rinv_0_lt_compat; exact S0|]. apply pow_incr. lra.
Qed.

Section Norm.
Variable S : R.
Hypothesis S1 : 1 <= S <= 3.
Hypothesis T0 : IZR (nth 0 pdt 0%Z) - 9 <= 2 ^ 72 * (rho smax 0 0 / S) <= IZR (nth 0 pdt 0%Z).
Hypothesis T1 : forall k, (1 <= k < 19)%nat -> IZR (nth k pdt 0%Z) <= 2 ^ 72 * (rho smax 0 (INR k) / S) < IZR (nth k pdt 0%Z) + 1.
Definition KK : R := m / s / (2 * S).
Definition qq (i : nat) (b : Z) : R := IZR (nth i pdt 0%Z) / 2 ^ 72 * (IZR (th i b) / 2 ^ 64) / 2.
Lemma KK_range : 9 / 100 <= KK <= 1 / 2.
Proof.
  unfold KK. assert (A : 54 / 100 <= m / s <= 1).
  { split; apply (Rmult_le_reg_r s); try lra; replace (m / s * s) with m by (field; lra); lra. }
  split; apply (Rmult_le_reg_r (2 * S)); try lra; replace (m / s / (2 * S) * (2 * S)) with (m / s) by (field; lra); lra.
Qed.
Lemma pdt_err i : (i < 19)%nat -> Rabs (IZR (nth i pdt 0%Z) / 2 ^ 72 - rho smax 0 (INR i) / S) <= 9 / 2 ^ 72.
Proof.
  intros Hi. assert (P : 0 < 2 ^ 72) by (apply pow_lt; lra). assert (B : - 9 <= IZR (nth i pdt 0%Z) - 2 ^ 72 * (rho smax 0 (INR i) / S) <= 9).
  { destruct i as [|i]; [change (INR 0) with 0; lra|]. assert (G := T1 (Datatypes.S i) ltac:(lia)). lra. }
  set (y := rho smax 0 (INR i) / S) in *. set (pd := IZR (nth i pdt 0%Z)) in *. set (p := 2 ^ 72) in *. replace (pd / p - y) with ((pd - p * y) / p) by (field; lra).
  unfold Rdiv. rewrite Rabs_mult, (Rabs_pos_eq (/ p)) by (left; apply Rinv_0_lt_compat; exact P). apply Rmult_le_compat_r; [left; apply Rinv_0_lt_compat; exact P|]. apply Rabs_le. lra.
Qed.
Lemma term_err i b : (i < 19)%nat -> (b = 0 \/ b = 1)%Z -> Rabs (qq i b - KK * rv (fl + zsigned i b)%Z) <= / 2 ^ 38 * (KK * rv (fl + zsigned i b)%Z) + / 2 ^ 63.
Proof.
  intros Hi Hb. destruct (TB i b Hi Hb) as [Hx B]. assert (R := TR i b Hi Hb). assert (Pe := pdt_err i Hi). unfold qq. set (x := (IZR (zsigned i b) - (c - IZR fl)) ^ 2 / (2 * s ^ 2) - INR i ^ 2 / (2 * (18205 / 10000) ^ 2)) in *.
  assert (ER : rho smax 0 (INR i) * exp (- x) = rv (fl + zsigned i b)%Z).
  { unfold rho, smax. rewrite <- exp_plus. f_equal. unfold x. rewrite plus_IZR. field. lra. }
  assert (E1 : 0 < exp (- x) <= 1). { split; [apply exp_pos|]. rewrite <- exp_0. apply exp_le. lra. }
  assert (M1 : 0 < rho smax 0 (INR i) <= 1). { split; [apply rho_pos|]. rewrite rho_pow. apply pow_range. }
  assert (T : 0 <= IZR (th i b) / 2 ^ 64 <= 1).
  { destruct R as [R0 R1]. apply (IZR_le 0) in R0. apply IZR_lt in R1. change (2 ^ 64)%Z with (2 ^ Z.of_nat 64)%Z in R1. rewrite <- pow_IZR in R1. assert (P : 0 < 2 ^ 64) by (apply pow_lt; lra).
    split; [apply Rmult_le_pos; [exact R0|left; apply Rinv_0_lt_compat; exact P]|]. apply (Rmult_le_reg_r (2 ^ 64)); [exact P|]. replace (IZR (th i b) / 2 ^ 64 * 2 ^ 64) with (IZR (th i b)) by (field; lra). lra. }
  rewrite <- ER. set (t := IZR (th i b) / 2 ^ 64) in *. set (pp := IZR (nth i pdt 0%Z) / 2 ^ 72) in *. set (M := rho smax 0 (INR i)) in *. set (e := exp (- x)) in *.
  assert (Me : 0 <= M * e) by (apply Rmult_le_pos; lra).
  assert (Ms : 1 / 2 <= m / s). { apply (Rmult_le_reg_r s); [lra|]. replace (m / s * s) with m by (field; lra). lra. }
  assert (IS : 1 / 3 <= / S <= 1). { split; apply (Rmult_le_reg_r S); try lra; rewrite Rinv_l; lra. }
  replace (pp * t / 2 - KK * (M * e)) with (/ 2 * ((pp - M / S) * t + M / S * (t - m / s * e))) by (unfold KK; field; lra).
  rewrite Rabs_mult, (Rabs_pos_eq (/ 2)) by lra.
  assert (A1 : Rabs ((pp - M / S) * t) <= 9 / 2 ^ 72). { rewrite Rabs_mult, (Rabs_pos_eq t) by lra. rewrite <- (Rmult_1_r (9 / 2 ^ 72)). apply Rmult_le_compat; try apply Rabs_pos; lra. }
  assert (A2 : Rabs (M / S * (t - m / s * e)) <= M / S * (/ 2 ^ 39 * e + / 2 ^ 63)). { rewrite Rabs_mult, (Rabs_pos_eq (M / S)) by (apply Rmult_le_pos; lra). apply Rmult_le_compat_l; [apply Rmult_le_pos; lra|exact B]. }
  assert (A3 : M / S <= 1). { unfold Rdiv. rewrite <- (Rmult_1_r 1). apply Rmult_le_compat; lra. }
  assert (A4 : 1 / 2 * (M * e / (2 * S)) <= KK * (M * e)). { unfold KK. replace (m / s / (2 * S) * (M * e)) with (m / s * (M * e / (2 * S))) by (field; lra). apply Rmult_le_compat_r; [|exact Ms]. unfold Rdiv. apply Rmult_le_pos; [exact Me|]. rewrite Rinv_mult. lra. }
  assert (A5 : M / S * (/ 2 ^ 39 * e + / 2 ^ 63) <= / 2 ^ 38 * (M * e / (2 * S)) + / 2 ^ 63).
  { assert (X : M / S * / 2 ^ 63 <= 1 * / 2 ^ 63) by (apply Rmult_le_compat_r; [left; apply Rinv_0_lt_compat, pow_lt; lra|exact A3]). replace (/ 2 ^ 38 * (M * e / (2 * S))) with (M / S * (/ 2 ^ 39 * e)) by (simpl; field; lra). lra. }
  eapply Rle_trans; [apply Rmult_le_compat_l; [lra|apply Rabs_triang]|].
  assert (N1 : 9 / 2 ^ 72 <= / 2 ^ 63) by (simpl; lra).
  assert (P38 : 0 < / 2 ^ 38) by (apply Rinv_0_lt_compat, pow_lt; lra). assert (A6 : / 2 ^ 38 * (1 / 2 * (M * e / (2 * S))) <= / 2 ^ 38 * (KK * (M * e))) by (apply Rmult_le_compat_l; lra).
  set (i38 := / 2 ^ 38) in *. set (i63 := / 2 ^ 63) in *. lra.
Qed.
(** every integer is a shift of fl by zsigned *)
Lemma pv_at i b : (i < 19)%nat -> (b = 0 \/ b = 1)%Z -> pv (fl + zsigned i b)%Z = qq i b.
Proof.
  clear TB TR T1 T0 S1. intros Hi Hb. unfold P_prob.pv. rewrite (rsum_one 19 i); [|exact Hi|].
  - unfold qq. destruct Hb as [->| ->]; unfold zsigned; cbn [Z.eqb Pos.eqb].
    + rewrite Z.eqb_refl. destruct (Z.eqb_spec (fl + (1 + Z.of_nat i)) (fl + - Z.of_nat i)); [lia|]. cbn [P_prob.ind]. field.
    + rewrite Z.eqb_refl. destruct (Z.eqb_spec (fl + - Z.of_nat i) (fl + (1 + Z.of_nat i))); [lia|]. cbn [P_prob.ind]. field.
  - intros j Hj N. destruct Hb as [->| ->]; unfold zsigned; cbn [Z.eqb Pos.eqb].
    + destruct (Z.eqb_spec (fl + - Z.of_nat j) (fl + - Z.of_nat i)); [lia|]. destruct (Z.eqb_spec (fl + (1 + Z.of_nat j)) (fl + - Z.of_nat i)); [lia|]. cbn [P_prob.ind]. field.
    + destruct (Z.eqb_spec (fl + - Z.of_nat j) (fl + (1 + Z.of_nat i))); [lia|]. destruct (Z.eqb_spec (fl + (1 + Z.of_nat j)) (fl + (1 + Z.of_nat i))); [lia|]. cbn [P_prob.ind]. field.
Qed.
Lemma pv_out v : ~ (-18 <= v - fl <= 19)%Z -> pv v = 0.
Proof.
  clear TB TR T1 T0 S1. intros H. unfold P_prob.pv. rewrite (rsum_ext 19 _ (fun _ => 0)); [rewrite rsum_const; ring|]. intros i Hi. unfold zsigned. cbn [Z.eqb Pos.eqb].
  destruct (Z.eqb_spec (fl + - Z.of_nat i) v); [lia|]. destruct (Z.eqb_spec (fl + (1 + Z.of_nat i)) v); [lia|]. cbn [P_prob.ind]. field.
Qed.
Lemma pa_qq : pa = rsum 19 (fun i => qq i 0) + rsum 19 (fun i => qq i 1).
Proof. rewrite <- rsum_plus. unfold P_prob.pa. apply rsum_ext. intros i _. unfold qq. field. Qed.
Lemma pa_le : pa <= 1.
Proof.
  unfold P_prob.pa. apply Rle_trans with (rsum 19 (fun i => IZR (nth i pdt 0%Z) / 2 ^ 72)).
  - assert (G : forall n, (n <= 19)%nat -> rsum n (fun i => IZR (nth i pdt 0%Z) / 2 ^ 72 * ((IZR (th i 0) / 2 ^ 64 + IZR (th i 1) / 2 ^ 64) / 2)) <= rsum n (fun i => IZR (nth i pdt 0%Z) / 2 ^ 72)); [|apply G; lia].
    induction n as [|n IH]; intros Hn; [cbn; lra|]. cbn [rsum]. specialize (IH ltac:(lia)).
    assert (T : forall b, (b = 0 \/ b = 1)%Z -> IZR (th n b) / 2 ^ 64 <= 1). { intros b Hb. destruct (TR n b ltac:(lia) Hb) as [_ R1]. apply IZR_lt in R1. change (2 ^ 64)%Z with (2 ^ Z.of_nat 64)%Z in R1. rewrite <- pow_IZR in R1. assert (P : 0 < 2 ^ 64) by (apply pow_lt; lra). apply (Rmult_le_reg_r (2 ^ 64)); [exact P|]. replace (IZR (th n b) / 2 ^ 64 * 2 ^ 64) with (IZR (th n b)) by (field; lra). lra. }
    assert (A := T 0%Z ltac:(lia)). assert (B := T 1%Z ltac:(lia)).
    assert (P0 : 0 <= IZR (nth n pdt 0%Z) / 2 ^ 72). { apply Rmult_le_pos; [|left; apply Rinv_0_lt_compat, pow_lt; lra]. apply (IZR_le 0). assert (F : Forall (fun x => 0 <= x)%Z pdt) by (repeat constructor; discriminate). rewrite Forall_forall in F. apply F, nth_In. cbn. lia. }
    assert (X : IZR (nth n pdt 0%Z) / 2 ^ 72 * ((IZR (th n 0) / 2 ^ 64 + IZR (th n 1) / 2 ^ 64) / 2) <= IZR (nth n pdt 0%Z) / 2 ^ 72 * 1) by (apply Rmult_le_compat_l; lra). lra.
  - right. rewrite (rsum_ext 19 _ (fun i => / 2 ^ 72 * IZR (nth i pdt 0%Z))) by (intros; unfold Rdiv; ring). rewrite rsum_scal, <- rsum_zsum. replace (zsum 19 (fun i => nth i pdt 0%Z)) with (2 ^ Z.of_nat 72)%Z by reflexivity. rewrite <- (pow_IZR 2 72). apply Rinv_l. apply pow_nonzero. lra.
Qed.
Lemma at_half y : 0 <= y <= 1 -> 1 / 2 <= exp (- (y ^ 2 / (2 * s ^ 2))).
Proof.
  intros Hy. assert (Q := exp_ineq1_le (- (y ^ 2 / (2 * s ^ 2)))). assert (S2 : 1 <= s ^ 2) by (rewrite <- (pow1 2); apply pow_incr; lra). assert (Y2 : y ^ 2 <= 1) by (rewrite <- (pow1 2); apply pow_incr; lra).
  assert (y ^ 2 / (2 * s ^ 2) <= 1 / 2). { apply (Rmult_le_reg_r (2 * s ^ 2)); [lra|]. replace (y ^ 2 / (2 * s ^ 2) * (2 * s ^ 2)) with (y ^ 2) by (field; lra). lra. } lra.
Qed.
Lemma dist_core : exists Gm Gp, infinite_sum (fun k => rv (fl - Z.of_nat k)%Z) Gm /\ infinite_sum (fun k => rv (fl + 1 + Z.of_nat k)%Z) Gp /\ 1 / 12 <= pa <= 1 /\
  forall v, Rabs (pv v / pa - rv v / (Gm + Gp)) <= / 2 ^ 36 * (rv v / (Gm + Gp)) + / 2 ^ 59.
Proof.
  destruct (dom_cv _ left_dom) as (Gm & C1 & L1 & U1). destruct (dom_cv _ right_dom) as (Gp & C2 & L2 & U2). exists Gm, Gp. split; [exact C1|]. split; [exact C2|].
  rewrite sum_rsum in L1, U1, L2, U2. set (W0 := rsum 19 (fun k => rv (fl - Z.of_nat k)%Z)) in *. set (W1 := rsum 19 (fun k => rv (fl + 1 + Z.of_nat k)%Z)) in *.
  assert (KR := KK_range). assert (PL := pa_le). assert (P38 : 0 < / 2 ^ 38) by (apply Rinv_0_lt_compat, pow_lt; lra).
  assert (Q0 : Rabs (rsum 19 (fun i => qq i 0) - KK * W0) <= / 2 ^ 38 * (KK * W0) + 19 * / 2 ^ 63).
  { unfold W0. rewrite <- rsum_scal. replace (19 * / 2 ^ 63) with (INR 19 * / 2 ^ 63) by (f_equal; simpl; lra). apply rsum_abs. intros i Hi. assert (E := term_err i 0 Hi ltac:(lia)). unfold zsigned in E. cbn [Z.eqb] in E. rewrite Z.add_opp_r in E. exact E. }
  assert (Q1 : Rabs (rsum 19 (fun i => qq i 1) - KK * W1) <= / 2 ^ 38 * (KK * W1) + 19 * / 2 ^ 63).
  { unfold W1. rewrite <- rsum_scal. replace (19 * / 2 ^ 63) with (INR 19 * / 2 ^ 63) by (f_equal; simpl; lra). apply rsum_abs. intros i Hi. assert (E := term_err i 1 Hi ltac:(lia)). unfold zsigned in E. cbn [Z.eqb Pos.eqb] in E. rewrite Z.add_assoc in E. exact E. }
  assert (B0 : 1 / 2 <= W0).
  { unfold W0. rewrite <- sum_rsum. apply Rle_trans with (sum_f_R0 (fun k => rv (fl - Z.of_nat k)%Z) 0).
    - cbn [sum_f_R0]. rewrite Z.sub_0_r. unfold rho. replace ((IZR fl - c) ^ 2) with ((c - IZR fl) ^ 2) by ring. apply at_half. assert (P := P_exact.Rfloor_spec c). lra.
    - generalize 18%nat. induction n as [|n IH]; [lra|]. eapply Rle_trans; [exact IH|]. change (sum_f_R0 (fun k => rv (fl - Z.of_nat k)%Z) (Datatypes.S n)) with (sum_f_R0 (fun k => rv (fl - Z.of_nat k)%Z) n + rv (fl - Z.of_nat (Datatypes.S n))%Z). assert (P := rho_pos s c (IZR (fl - Z.of_nat (Datatypes.S n)))). lra. }
  assert (B1 : 1 / 2 <= W1).
  { unfold W1. rewrite <- sum_rsum. apply Rle_trans with (sum_f_R0 (fun k => rv (fl + 1 + Z.of_nat k)%Z) 0).
    - cbn [sum_f_R0]. rewrite Z.add_0_r. unfold rho. rewrite plus_IZR. apply at_half. assert (P := P_exact.Rfloor_spec c). lra.
    - generalize 18%nat. induction n as [|n IH]; [lra|]. eapply Rle_trans; [exact IH|]. change (sum_f_R0 (fun k => rv (fl + 1 + Z.of_nat k)%Z) (Datatypes.S n)) with (sum_f_R0 (fun k => rv (fl + 1 + Z.of_nat k)%Z) n + rv (fl + 1 + Z.of_nat (Datatypes.S n))%Z). assert (P := rho_pos s c (IZR (fl + 1 + Z.of_nat (Datatypes.S n)))). lra. }
  assert (N38 : / 2 ^ 38 <= 1 / 100000000) by (simpl; lra). assert (N57 : 40 * / 2 ^ 63 <= / 2 ^ 57) by (simpl; lra). assert (N77 : 0 <= / 2 ^ 77 <= / 2 ^ 63) by (simpl; lra).
  assert (N57' : 0 <= / 2 ^ 57 <= 1 / 100000000000) by (simpl; lra). assert (N63 : 0 <= / 2 ^ 63 <= 1 / 100000000000) by (simpl; lra).
  set (G := Gm + Gp) in *. set (d := / 2 ^ 38) in *. set (i63 := / 2 ^ 63) in *. set (i57 := / 2 ^ 57) in *. set (i77 := / 2 ^ 77) in *.
  assert (G1 : 1 <= G) by (unfold G; lra).
  assert (GW : W0 + W1 <= G <= W0 + W1 + 2 * i77) by (unfold G; lra).
  assert (PA : Rabs (pa - KK * G) <= d * (KK * G) + i57).
  { rewrite pa_qq. apply ab in Q0. apply ab in Q1. assert (KG : KK * (W0 + W1) <= KK * G <= KK * (W0 + W1) + i77).
    { split; [apply Rmult_le_compat_l; lra|]. assert (KK * G <= KK * (W0 + W1 + 2 * i77)) by (apply Rmult_le_compat_l; lra). assert (KK * (2 * i77) <= 1 / 2 * (2 * i77)) by (apply Rmult_le_compat_r; lra). lra. }
    assert (DG : d * (KK * (W0 + W1)) <= d * (KK * G)) by (apply Rmult_le_compat_l; lra). apply Rabs_le. lra. }
  clear Q0 Q1. apply ab in PA. assert (KG : 9 / 100 <= KK * G) by (assert (9 / 100 * 1 <= KK * G) by (apply Rmult_le_compat; lra); lra).
  assert (DK : d * (KK * G) <= 1 / 100000000 * (KK * G)) by (apply Rmult_le_compat_r; lra).
  assert (AL : 999 / 1000 * (KK * G) <= pa) by lra. split; [lra|]. intros v.
  assert (RP := rho_pos s c (IZR v)). set (r := rv v) in *.
  assert (rG : 0 < r / G) by (apply Rmult_lt_0_compat; [exact RP|apply Rinv_0_lt_compat; lra]).
  destruct (Z_le_dec (-18) (v - fl)) as [H1|H1]; [destruct (Z_le_dec (v - fl) 19) as [H2|H2]|].
  - assert (PV : Rabs (pv v - KK * r) <= d * (KK * r) + i63).
    { destruct (Z_le_dec (v - fl) 0) as [H0|H0].
      - assert (E : v = (fl + zsigned (Z.to_nat (fl - v)) 0)%Z) by (unfold zsigned; cbn [Z.eqb]; lia). unfold r. rewrite E at 1 2 3. rewrite pv_at by lia. apply term_err; lia.
      - assert (E : v = (fl + zsigned (Z.to_nat (v - fl - 1)) 1)%Z) by (unfold zsigned; cbn [Z.eqb Pos.eqb]; lia). unfold r. rewrite E at 1 2 3. rewrite pv_at by lia. apply term_err; lia. }
    apply ab in PV. set (p := pv v) in *. assert (A0 : 0 < pa) by lra. set (a := pa) in *.
    replace (p / a - r / G) with ((p * G - a * r) / (a * G)) by (field; lra).
    assert (Num : Rabs (p * G - a * r) <= 2 * d * (KK * r * G) + i63 * G + i57 * r).
    { replace (p * G - a * r) with ((p - KK * r) * G + - ((a - KK * G) * r)) by ring. eapply Rle_trans; [apply Rabs_triang|]. rewrite Rabs_Ropp, !Rabs_mult, (Rabs_pos_eq G), (Rabs_pos_eq r) by lra.
      assert (X1 : Rabs (p - KK * r) * G <= (d * (KK * r) + i63) * G) by (apply Rmult_le_compat_r; [lra|apply Rabs_le; lra]). assert (X2 : Rabs (a - KK * G) * r <= (d * (KK * G) + i57) * r) by (apply Rmult_le_compat_r; [lra|apply Rabs_le; lra]). lra. }
    assert (aG : 0 < a * G) by (apply Rmult_lt_0_compat; lra).
    unfold Rdiv at 1. rewrite Rabs_mult, (Rabs_pos_eq (/ (a * G))) by (left; apply Rinv_0_lt_compat; exact aG). apply (Rmult_le_reg_r (a * G)); [exact aG|]. rewrite Rmult_assoc, Rinv_l, Rmult_1_r by lra. eapply Rle_trans; [exact Num|].
    replace ((/ 2 ^ 36 * (r / G) + / 2 ^ 59) * (a * G)) with (/ 2 ^ 36 * (a * r) + / 2 ^ 59 * a * G) by (field; lra).
    assert (E36 : / 2 ^ 36 = 4 * d) by (unfold d; simpl; field). assert (E59 : / 2 ^ 59 = 16 * i63) by (unfold i63; simpl; field). assert (E57 : i57 <= d / 100) by (unfold i57, d; simpl; lra). rewrite E36, E59.
    assert (Y1 : 999 / 1000 * (KK * G) * r <= a * r) by (apply Rmult_le_compat_r; lra).
    assert (Y2 : i57 * r <= d / 100 * r) by (apply Rmult_le_compat_r; lra).
    assert (Y3 : 9 / 100 * r <= KK * G * r) by (apply Rmult_le_compat_r; lra).
    assert (Y4 : i63 * G <= 16 * i63 * a * G). { apply Rmult_le_compat_r; [lra|]. assert (16 * i63 * (8 / 100) <= 16 * i63 * a) by (apply Rmult_le_compat_l; lra). lra. }
    assert (Y5 : d * (9 / 100 * r) <= d * (KK * G * r)) by (apply Rmult_le_compat_l; lra).
    assert (Y6 : d * (999 / 1000 * (KK * G) * r) <= d * (a * r)) by (apply Rmult_le_compat_l; lra). 
    replace (2 * d * (KK * r * G)) with (2 * (d * (KK * G * r))) by ring. replace (d * (999 / 1000 * (KK * G) * r)) with (999 / 1000 * (d * (KK * G * r))) in Y6 by field. replace (d * (9 / 100 * r)) with (9 / 100 * (d * r)) in Y5 by field. replace (d / 100 * r) with (d * r / 100) in Y2 by field. replace (4 * d * (a * r)) with (4 * (d * (a * r))) by ring.
    clear - Y2 Y4 Y5 Y6 A0 RP P38. set (u := d * (KK * G * r)) in *. set (v1 := d * r) in *. set (v2 := i57 * r) in *. assert (0 < v1) by (apply Rmult_lt_0_compat; lra). set (v3 := d * (a * r)) in *. set (v4 := i63 * G) in *. set (v5 := 16 * i63 * a * G) in *. lra.
  - rewrite pv_out by lia. unfold Rdiv at 1. rewrite Rmult_0_l. replace (0 - r / G) with (- (r / G)) by ring. rewrite Rabs_Ropp, Rabs_pos_eq by lra.
    assert (D := right_dom (Z.to_nat (v - fl - 1))). replace (fl + 1 + Z.of_nat (Z.to_nat (v - fl - 1)))%Z with v in D by lia.
    assert (M : rho smax 0 (INR (Z.to_nat (v - fl - 1))) <= rho smax 0 (INR 19)). { rewrite !rho_pow. assert (L : (19 * 19 <= Z.to_nat (v - fl - 1) * Z.to_nat (v - fl - 1))%nat) by (apply Nat.mul_le_mono; lia). replace (Z.to_nat (v - fl - 1) * Z.to_nat (v - fl - 1))%nat with (19 * 19 + (Z.to_nat (v - fl - 1) * Z.to_nat (v - fl - 1) - 19 * 19))%nat by lia. rewrite pow_add. assert (X := pow_range (19 * 19)). assert (Y := pow_range (Z.to_nat (v - fl - 1) * Z.to_nat (v - fl - 1) - 19 * 19)). rewrite <- (Rmult_1_r (tt ^ (19 * 19))) at 2. apply Rmult_le_compat_l; lra. }
    assert (S19 := rho19_small). fold r in D. assert (r / G <= r). { apply (Rmult_le_reg_r G); [lra|]. replace (r / G * G) with r by (field; lra). rewrite <- (Rmult_1_r r) at 1. apply Rmult_le_compat_l; lra. }
    assert (/ 2 ^ 78 <= / 2 ^ 59) by (apply Rinv_le_contravar; [apply pow_lt; lra|apply Rle_pow; [lra|lia]]). assert (0 < / 2 ^ 36) by (apply Rinv_0_lt_compat, pow_lt; lra). assert (0 < / 2 ^ 36 * (r / G)) by (apply Rmult_lt_0_compat; lra). lra.
  - rewrite pv_out by lia. unfold Rdiv at 1. rewrite Rmult_0_l. replace (0 - r / G) with (- (r / G)) by ring. rewrite Rabs_Ropp, Rabs_pos_eq by lra.
    assert (D := left_dom (Z.to_nat (fl - v))). replace (fl - Z.of_nat (Z.to_nat (fl - v)))%Z with v in D by lia.
    assert (M : rho smax 0 (INR (Z.to_nat (fl - v))) <= rho smax 0 (INR 19)). { rewrite !rho_pow. assert (L : (19 * 19 <= Z.to_nat (fl - v) * Z.to_nat (fl - v))%nat) by (apply Nat.mul_le_mono; lia). replace (Z.to_nat (fl - v) * Z.to_nat (fl - v))%nat with (19 * 19 + (Z.to_nat (fl - v) * Z.to_nat (fl - v) - 19 * 19))%nat by lia. rewrite pow_add. assert (X := pow_range (19 * 19)). assert (Y := pow_range (Z.to_nat (fl - v) * Z.to_nat (fl - v) - 19 * 19)). rewrite <- (Rmult_1_r (tt ^ (19 * 19))) at 2. apply Rmult_le_compat_l; lra. }
    assert (S19 := rho19_small). fold r in D. assert (r / G <= r). { apply (Rmult_le_reg_r G); [lra|]. replace (r / G * G) with r by (field; lra). rewrite <- (Rmult_1_r r) at 1. apply Rmult_le_compat_l; lra. }
    assert (/ 2 ^ 78 <= / 2 ^ 59) by (apply Rinv_le_contravar; [apply pow_lt; lra|apply Rle_pow; [lra|lia]]). assert (0 < / 2 ^ 36) by (apply Rinv_0_lt_compat, pow_lt; lra). assert (0 < / 2 ^ 36 * (r / G)) by (apply Rmult_lt_0_compat; lra). lra.
Qed.
End Norm.
Lemma dist_all : exists Gm Gp, infinite_sum (fun k => rv (fl - Z.of_nat k)%Z) Gm /\ infinite_sum (fun k => rv (fl + 1 + Z.of_nat k)%Z) Gp /\ 1 / 12 <= pa <= 1 /\
  forall v, Rabs (pv v / pa - rv v / (Gm + Gp)) <= / 2 ^ 36 * (rv v / (Gm + Gp)) + / 2 ^ 59.
Proof. destruct table_gauss as (S & _ & S1 & T0 & T1). exact (dist_core S S1 T0 T1). Qed.
End Dist.
