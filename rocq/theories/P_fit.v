(** P_fit.v -- the unary part of the compressed form of a Gaussian integer: its exponential moment, for one integer. *)
From Verif Require Import Base Spec SpecR SpecS SpecG SpecJ M_float M_exact P_prob P_dist P_gsum P_tot P_theta P_wide.
From Verif Require P_exp.
From Coq Require Import Reals Lra.
Open Scope R_scope.

(** ** exponentials *)
Lemma cosh_1 c : 1 <= cosh c.
Proof. unfold cosh. assert (A := exp_ineq1_le c). assert (B := exp_ineq1_le (- c)). lra. Qed.
Lemma sinh_le t : 0 <= t -> t <= sinh t.
Proof.
  intros [H|<-]; [|rewrite sinh_0; lra]. destruct (MVT_cor2 sinh cosh 0 t H (fun c _ => derivable_pt_lim_sinh c)) as (c & E & _). rewrite sinh_0 in E. assert (B := cosh_1 c).
  assert (1 * t <= cosh c * t) by (apply Rmult_le_compat_r; lra). lra.
Qed.
Lemma exp_pair y : 0 <= y -> 2 + y ^ 2 <= exp y + exp (- y).
Proof.
  intros H. assert (S := sinh_le (y / 2) ltac:(lra)). unfold sinh in S. set (u := exp (y / 2)) in *. set (v := exp (- (y / 2))) in *.
  assert (Eu : exp y = u * u) by (unfold u; rewrite <- exp_plus; f_equal; lra). assert (Ev : exp (- y) = v * v) by (unfold v; rewrite <- exp_plus; f_equal; lra).
  assert (Euv : u * v = 1) by (unfold u, v; rewrite <- exp_plus, <- exp_0; f_equal; lra). rewrite Eu, Ev.
  assert (Y : y * y <= (u - v) * (u - v)) by (apply Rmult_le_compat; lra). replace ((u - v) * (u - v)) with (u * u + v * v - 2 * (u * v)) in Y by ring. rewrite Euv in Y. lra.
Qed.
Lemma exp_cub u : 0 <= u <= 1 -> 1 - u + u ^ 2 / 2 - u ^ 3 / 6 <= exp (- u).
Proof.
  intros Hu. destruct (P_exp.exp_alt 1 u Hu) as [A _]. eapply Rle_trans; [|exact A]. right. unfold sum_f_R0, tg_alt, P_exp.eterm. cbn [Nat.mul Nat.add]. simpl. field.
Qed.

(** ** sums *)
Lemma rsum_rev n f : rsum n f = rsum n (fun i => f (n - 1 - i)%nat).
Proof.
  revert f. induction n as [|n IH]; intros f; [reflexivity|]. rewrite rsum_S_l. cbn [rsum]. rewrite (IH (fun j => f (S j))). replace (S n - 1 - n)%nat with 0%nat by lia. rewrite Rplus_comm. f_equal. apply rsum_ext. intros i Hi. f_equal. lia.
Qed.
Lemma rsum_centre n f : rsum (S n + S n) f = f 0%nat + (f (S n) + rsum n (fun d => f (n - d)%nat + f (S (S n) + d)%nat)).
Proof.
  rewrite rsum_app, rsum_plus. cbn [rsum]. rewrite rsum_S_l, (rsum_S_l n (fun i => f (S n + i)%nat)) || idtac.
  rewrite (rsum_rev n (fun d => f (n - d)%nat)).
  assert (E1 : rsum n f + f n = f 0%nat + rsum n (fun i => f (n - (n - 1 - i))%nat)).
  { change (rsum n f + f n) with (rsum (S n) f). rewrite rsum_S_l. f_equal. apply rsum_ext. intros i Hi. f_equal. lia. }
  assert (E2 : rsum n (fun i => f (S n + i)%nat) + f (S n + n)%nat = f (S n) + rsum n (fun d => f (S (S n) + d)%nat)).
  { change (rsum n (fun i => f (S n + i)%nat) + f (S n + n)%nat) with (rsum (S n) (fun i => f (S n + i)%nat)). rewrite rsum_S_l. rewrite Nat.add_0_r. f_equal. apply rsum_ext. intros i Hi. f_equal. lia. }
  rewrite E1, E2. ring.
Qed.

Section Fit.
Variable k : R.
Hypothesis k0 : 0 < k.
Definition rho1 (z : Z) : R := exp (- (k * IZR z ^ 2)).
Notation rho := rho1.
Lemma rho_pos z : 0 < rho z. Proof. apply exp_pos. Qed.
Lemma rho_opp z : rho (- z) = rho z. Proof. unfold rho1. rewrite opp_IZR. f_equal. ring. Qed.
Variable TH : R.
Hypothesis HT : tot rho TH.

(** the integers of absolute value below m + 1 *)
Definition core (m : nat) : list Z := 0%Z :: map (fun i => Z.of_nat (S i)) (seq 0 m) ++ map (fun i => (- Z.of_nat (S i))%Z) (seq 0 m).
Lemma core_in m z : In z (core m) -> (Z.abs z <= Z.of_nat m)%Z.
Proof. intros [<-|H]; [lia|]. apply in_app_iff in H. destruct H as [H|H]; apply in_map_iff in H; destruct H as (i & <- & Hi); apply in_seq in Hi; lia. Qed.
Lemma core_nodup m : NoDup (core m).
Proof.
  constructor.
  - intros H. apply in_app_iff in H. destruct H as [H|H]; apply in_map_iff in H; destruct H as (i & E & Hi); lia.
  - apply NoDup_app; [apply NoDup_map_inj; [intros; lia|apply seq_NoDup]|apply NoDup_map_inj; [intros; lia|apply seq_NoDup]|]. intros z H1 H2. apply in_map_iff in H1, H2. destruct H1 as (i & <- & _). destruct H2 as (i' & E & _). lia.
Qed.
Definition half (m : nat) : R := rsum m (fun i => rho (Z.of_nat (S i))).
Lemma core_sum m : lsum rho (core m) = 1 + 2 * half m.
Proof.
  unfold core. unfold lsum at 1. cbn [fold_right]. fold (lsum rho (map (fun i => Z.of_nat (S i)) (seq 0 m) ++ map (fun i => (- Z.of_nat (S i))%Z) (seq 0 m))). rewrite lsum_app, !lsum_map, !lsum_seq.
  rewrite (rsum_ext m (fun b => rho (- Z.of_nat (S b))) (fun i => rho (Z.of_nat (S i)))) by (intros; apply rho_opp). fold (half m).
  replace (rho 0) with 1; [lra|]. unfold rho1. replace (k * IZR 0 ^ 2) with 0 by ring. rewrite Ropp_0, exp_0. reflexivity.
Qed.
Definition tail (j : nat) (t : R) : Prop := forall V, NoDup V -> (forall z, In z V -> (128 * Z.of_nat j <= Z.abs z)%Z) -> lsum rho V <= t.
Lemma tail_core j : (1 <= j)%nat -> tail j (TH - (1 + 2 * half (128 * j - 1))).
Proof.
  intros Hj V NV HV. rewrite <- core_sum. assert (A : lsum rho (V ++ core (128 * j - 1)) <= TH); [|rewrite lsum_app in A; lra]. apply (tot_le _ _ _ HT). apply NoDup_app; [exact NV|apply core_nodup|].
  intros z H1 H2. apply HV in H1. apply core_in in H2. lia.
Qed.
Definition shr (z : Z) : Z := if (0 <? z)%Z then (z - 128)%Z else (z + 128)%Z.
Lemma tail_step j t : (1 <= j)%nat -> tail j t -> tail (S j) (exp (- (k * IZR (32768 * Z.of_nat j + 16384))) * t).
Proof.
  intros Hj HV V NV DV. apply Rle_trans with (lsum (fun z => exp (- (k * IZR (32768 * Z.of_nat j + 16384))) * rho (shr z)) V).
  - apply lsum_le. intros z Hz. apply DV in Hz. unfold rho1. rewrite <- exp_plus. apply exp_le. rewrite <- Ropp_plus_distr, <- Rmult_plus_distr_l. apply Ropp_le_contravar, Rmult_le_compat_l; [lra|].
    rewrite !pow_IZR, <- plus_IZR. apply IZR_le. change (Z.of_nat 2) with 2%Z. rewrite !Z.pow_2_r. unfold shr. destruct (Z.ltb_spec 0 z); nia.
  - rewrite lsum_scal. apply Rmult_le_compat_l; [left; apply exp_pos|]. rewrite <- (lsum_map rho shr). apply HV.
    + clear HV. induction NV as [|z V Hz NV IH]; [constructor|]. cbn [map]. constructor; [|apply IH; intros y Hy; apply DV; right; exact Hy]. intros H. apply in_map_iff in H. destruct H as (y & E & Hy). apply Hz.
      assert (A := DV z (or_introl eq_refl)). assert (B := DV y (or_intror Hy)). replace z with y; [exact Hy|]. unfold shr in E. destruct (Z.ltb_spec 0 z), (Z.ltb_spec 0 y); lia.
    + intros z H. apply in_map_iff in H. destruct H as (y & <- & Hy). apply DV in Hy. unfold shr. destruct (Z.ltb_spec 0 y); lia.
Qed.
Lemma tail_mono j t t' : t <= t' -> tail j t -> tail j t'.
Proof. intros H T V NV DV. eapply Rle_trans; [apply T; assumption|exact H]. Qed.
Lemma tail_geo t3 i : tail 3 t3 -> tail (3 + i) (exp (- (k * 114688)) ^ i * t3).
Proof.
  intros H. induction i as [|i IH]; [cbn [pow Nat.add]; rewrite Rmult_1_l; exact H|].
  assert (t30 : 0 <= exp (- (k * 114688)) ^ i * t3) by (apply (IH []); [constructor|intros z []]).
  replace (3 + S i)%nat with (S (3 + i)) by lia. eapply tail_mono; [|apply tail_step; [lia|exact IH]]. cbn [pow]. rewrite Rmult_assoc. apply Rmult_le_compat_r; [exact t30|].
  apply exp_le, Ropp_le_contravar, Rmult_le_compat_l; [lra|]. apply IZR_le. lia.
Qed.
(** levels *)
Lemma level_pow x n J : (n <= J)%nat -> x ^ n = 1 + rsum J (fun i => (x ^ S i - x ^ i) * P_prob.ind (Nat.leb (S i) n)).
Proof.
  intros H. assert (A : forall m, (m <= n)%nat -> 1 + rsum m (fun i => (x ^ S i - x ^ i) * P_prob.ind (Nat.leb (S i) n)) = x ^ m).
  { induction m as [|m IH]; intros Hm; [cbn; lra|]. cbn [rsum]. rewrite (proj2 (Nat.leb_le (S m) n)) by lia. cbn [P_prob.ind]. specialize (IH ltac:(lia)). lra. }
  replace J with (n + (J - n))%nat by lia. rewrite rsum_app. rewrite (rsum_ext (J - n) _ (fun _ => 0)).
  - rewrite rsum_const. rewrite <- (A n (le_n _)) at 1. ring.
  - intros i Hi. rewrite (proj2 (Nat.leb_gt (S (n + i)) n)) by lia. cbn [P_prob.ind]. ring.
Qed.
Definition lev (z : Z) : nat := Z.to_nat (Z.abs z / 128).
Lemma levels x V J : (forall z, In z V -> (lev z <= J)%nat) -> lsum (fun z => x ^ lev z * rho z) V = lsum rho V + rsum J (fun i => (x ^ S i - x ^ i) * lsum rho (filter (fun z => Nat.leb (S i) (lev z)) V)).
Proof.
  induction V as [|z V IH]; intros H.
  - unfold lsum. cbn [filter fold_right]. rewrite (rsum_ext J _ (fun _ => 0)) by (intros; ring). rewrite rsum_const. ring.
  - unfold lsum at 1 2. cbn [fold_right]. fold (lsum (fun z => x ^ lev z * rho z) V) (lsum rho V). rewrite IH by (intros y Hy; apply H; right; exact Hy).
    rewrite (level_pow x (lev z) J) by (apply H; left; reflexivity).
    assert (E : rsum J (fun i => (x ^ S i - x ^ i) * lsum rho (filter (fun z => Nat.leb (S i) (lev z)) (z :: V))) = rsum J (fun i => rho z * ((x ^ S i - x ^ i) * P_prob.ind (Nat.leb (S i) (lev z))) + (x ^ S i - x ^ i) * lsum rho (filter (fun z => Nat.leb (S i) (lev z)) V))).
    { apply rsum_ext. intros i Hi. cbn [filter]. destruct (Nat.leb (S i) (lev z)); cbn [P_prob.ind]; unfold lsum; cbn [fold_right]; ring. }
    rewrite E, rsum_plus, rsum_scal. ring.
Qed.
Lemma lev_max V : exists J, forall z, In z V -> (lev z <= J)%nat.
Proof. induction V as [|y V [J H]]; [exists 0%nat; intros z []|]. exists (J + lev y)%nat. intros z [->|Hz]; [lia|]. apply H in Hz. lia. Qed.
Lemma lev_filter i V z : In z (filter (fun z => Nat.leb (S i) (lev z)) V) -> (128 * Z.of_nat (S i) <= Z.abs z)%Z.
Proof. intros H. apply filter_In in H. destruct H as [_ H]. apply Nat.leb_le in H. unfold lev in H. assert (A := Z.mul_div_le (Z.abs z) 128 ltac:(lia)). assert (0 <= Z.abs z / 128)%Z by (apply Z.div_pos; lia). lia. Qed.
Lemma geo_le y n : 0 <= y < 1 -> rsum n (fun i => y ^ i) <= / (1 - y).
Proof.
  intros Hy. assert (E : rsum n (fun i => y ^ i) * (1 - y) = 1 - y ^ n) by (induction n as [|n IH]; [cbn; ring|]; cbn [rsum pow]; rewrite Rmult_plus_distr_r, IH; ring).
  apply (Rmult_le_reg_r (1 - y)); [lra|]. rewrite E, Rinv_l by lra. assert (0 <= y ^ n) by (apply pow_le; lra). lra.
Qed.
Lemma moment x t1 t2 t3 : 1 <= x -> x * exp (- (k * 114688)) < 1 -> tail 1 t1 -> tail 2 t2 -> tail 3 t3 -> forall V, NoDup V ->
  lsum (fun z => x ^ lev z * rho z) V <= TH + (x - 1) * t1 + (x ^ 2 - x) * t2 + (x ^ 3 - x ^ 2) / (1 - x * exp (- (k * 114688))) * t3.
Proof.
  intros Hx HR T1 T2 T3 V NV. set (R0 := exp (- (k * 114688))) in *. assert (R00 : 0 < R0) by apply exp_pos. destruct (lev_max V) as [J HJ].
  rewrite (levels x V (2 + J)) by (intros z Hz; apply HJ in Hz; lia). rewrite rsum_app. cbn [rsum].
  assert (t30 : 0 <= t3) by (apply (T3 []); [constructor|intros z []]).
  assert (F : forall i, NoDup (filter (fun z => Nat.leb (S i) (lev z)) V)) by (intros; apply NoDup_filter; exact NV).
  assert (x2 : x <= x * x) by (rewrite <- (Rmult_1_r x) at 1; apply Rmult_le_compat_l; lra).
  assert (A0 := tot_le _ _ V HT NV). assert (A1 := T1 _ (F 0%nat) (lev_filter 0 V)). assert (A2 := T2 _ (F 1%nat) (lev_filter 1 V)).
  assert (A3 : rsum J (fun i => (x ^ S (2 + i) - x ^ (2 + i)) * lsum rho (filter (fun z => Nat.leb (S (2 + i)) (lev z)) V)) <= (x ^ 3 - x ^ 2) / (1 - x * R0) * t3).
  { apply Rle_trans with (rsum J (fun i => ((x ^ 3 - x ^ 2) * t3) * (x * R0) ^ i)).
    - apply rsum_le_all. intros i _. replace (x ^ S (2 + i) - x ^ (2 + i)) with ((x ^ 3 - x ^ 2) * x ^ i) by (cbn [Nat.add pow]; ring). rewrite Rpow_mult_distr.
      replace ((x ^ 3 - x ^ 2) * t3 * (x ^ i * R0 ^ i)) with ((x ^ 3 - x ^ 2) * x ^ i * (R0 ^ i * t3)) by ring. apply Rmult_le_compat_l.
      + apply Rmult_le_pos; [|apply pow_le; lra]. replace (x ^ 3 - x ^ 2) with (x * (x * x - x)) by ring. apply Rmult_le_pos; lra.
      + apply (tail_geo t3 i T3); [apply F|]. intros z Hz. apply lev_filter in Hz. lia.
    - rewrite rsum_scal. replace ((x ^ 3 - x ^ 2) / (1 - x * R0) * t3) with ((x ^ 3 - x ^ 2) * t3 * / (1 - x * R0)) by (field; lra). apply Rmult_le_compat_l; [|apply geo_le; split; [apply Rmult_le_pos; lra|exact HR]].
      apply Rmult_le_pos; [|exact t30]. replace (x ^ 3 - x ^ 2) with (x * (x * x - x)) by ring. apply Rmult_le_pos; lra. }
  assert (B1 : (x ^ 1 - x ^ 0) * lsum rho (filter (fun z => Nat.leb 1 (lev z)) V) <= (x - 1) * t1) by (cbn [pow]; rewrite Rmult_1_r; apply Rmult_le_compat_l; lra).
  assert (B2 : (x ^ 2 - x ^ 1) * lsum rho (filter (fun z => Nat.leb 2 (lev z)) V) <= (x ^ 2 - x) * t2) by (cbn [pow]; rewrite !Rmult_1_r; apply Rmult_le_compat_l; lra).
  lra.
Qed.

(** ** the sum of all weights *)
Lemma all_upper : 12778 / 10000 <= sqrt (/ (2 * (16384 * k))) <= 25 / 10 -> forall E, E = exp (- (k * 16384)) -> E < 1 ->
  TH <= 128 * (1 + / 2 ^ 36) * (1 + 2 * (E + E ^ 4 + E ^ 9 + E ^ 16 / (1 - E ^ 9))).
Proof.
  intros Hs E HE E1. set (s := sqrt (/ (2 * (16384 * k)))) in *.
  assert (Es : / (2 * s ^ 2) = 16384 * k). { unfold s. rewrite pow2_sqrt by (left; apply Rinv_0_lt_compat; lra). field. lra. }
  assert (FW := free_wide s Hs). assert (HW := has_wide s ltac:(lra)). rewrite Es in FW, HW.
  destruct (fun_ex (fun j G => th (16384 * k) (- (INR j / 128)) G) (fun j => HW _) 128) as [G HG].
  assert (ET : TH = rsum 128 G).
  { apply (tot_unique _ _ _ HT). apply (tot_mod 128 ltac:(lia)). intros j Hj. eapply tot_ext; [|exact (HG j Hj)]. intros y. unfold rho1. cbv beta. f_equal. f_equal. rewrite plus_IZR, mult_IZR, (INR_IZR_INZ j). change (IZR (Z.of_nat 128)) with 128. field. }
  destruct (HW 0) as [G0 HG0]. assert (G0p := th_pos _ _ _ HG0).
  assert (P38 : 0 < / 2 ^ 38) by (apply Rinv_0_lt_compat, pow_lt; lra). assert (P36 : / 2 ^ 36 = 4 * / 2 ^ 38) by (field).
  assert (P38' : / 2 ^ 38 <= / 8). { apply Rinv_le_contravar; [lra|]. replace 8 with (2 ^ 3) by (cbn; lra). apply Rle_pow; [lra|lia]. }
  assert (Hj : forall j, (j < 128)%nat -> G j <= (1 + / 2 ^ 36) * G0).
  { intros j L. assert (X := FW _ _ _ _ (HG j L) HG0). set (e := / 2 ^ 38) in *. rewrite P36.
    apply (Rmult_le_reg_r (1 - e)); [lra|]. eapply Rle_trans; [exact X|]. replace ((1 + 4 * e) * G0 * (1 - e)) with (G0 * ((1 + 4 * e) * (1 - e))) by ring. apply Rmult_le_compat_l; [lra|].
    assert (0 <= e * (2 - 4 * e)) by (apply Rmult_le_pos; lra). lra. }
  rewrite ET. eapply Rle_trans; [apply (rsum_le_all 128 G (fun _ => (1 + / 2 ^ 36) * G0) Hj)|]. rewrite rsum_const. replace (INR 128) with 128 by (simpl; lra). rewrite <- Rmult_assoc. apply Rmult_le_compat_l; [lra|].
  assert (E0 : 0 < E) by (rewrite HE; apply exp_pos).
  assert (EP : forall z, exp (- (16384 * k * (IZR z - 0) ^ 2)) = E ^ Z.to_nat (z * z)).
  { intros z. rewrite HE, exp_pow. f_equal. f_equal. rewrite INR_IZR_INZ, Z2Nat.id by nia. rewrite mult_IZR. ring. }
  assert (E9 : 0 <= E ^ 9 < 1). { split; [apply pow_le; lra|]. apply pow_lt_1_compat; [lra|lia]. }
  assert (SM : forall n, rsum n (fun j => E ^ Z.to_nat (Z.of_nat (S j) * Z.of_nat (S j))) <= E + E ^ 4 + E ^ 9 + E ^ 16 / (1 - E ^ 9)).
  { intros n. apply Rle_trans with (rsum (3 + n) (fun j => E ^ Z.to_nat (Z.of_nat (S j) * Z.of_nat (S j)))).
    - rewrite Nat.add_comm, rsum_app. cbn [rsum]. assert (Q : forall a, 0 <= E ^ a) by (intros; apply pow_le; lra).
      assert (Q1 := Q (Z.to_nat (Z.of_nat (S (n + 0)) * Z.of_nat (S (n + 0))))). assert (Q2 := Q (Z.to_nat (Z.of_nat (S (n + 1)) * Z.of_nat (S (n + 1))))). assert (Q3 := Q (Z.to_nat (Z.of_nat (S (n + 2)) * Z.of_nat (S (n + 2))))). lra.
    - rewrite rsum_app. cbn [rsum]. change (Z.to_nat (Z.of_nat 1 * Z.of_nat 1)) with 1%nat. change (Z.to_nat (Z.of_nat 2 * Z.of_nat 2)) with 4%nat. change (Z.to_nat (Z.of_nat 3 * Z.of_nat 3)) with 9%nat. rewrite pow_1.
      assert (RS : rsum n (fun i => E ^ Z.to_nat (Z.of_nat (S (3 + i)) * Z.of_nat (S (3 + i)))) <= E ^ 16 / (1 - E ^ 9)); [|lra].
      apply Rle_trans with (rsum n (fun i => E ^ 16 * (E ^ 9) ^ i)).
      + apply rsum_le_all. intros i _. rewrite <- pow_mult, <- pow_add. replace (Z.to_nat (Z.of_nat (S (3 + i)) * Z.of_nat (S (3 + i)))) with (16 + 9 * i + (Z.to_nat (Z.of_nat (S (3 + i)) * Z.of_nat (S (3 + i))) - (16 + 9 * i)))%nat by nia.
        rewrite (pow_add E (16 + 9 * i)). rewrite <- (Rmult_1_r (E ^ (16 + 9 * i))) at 2. apply Rmult_le_compat_l; [apply pow_le; lra|]. rewrite <- (pow1 (Z.to_nat (Z.of_nat (S (3 + i)) * Z.of_nat (S (3 + i))) - (16 + 9 * i))). apply pow_incr. lra.
      + rewrite rsum_scal. apply Rmult_le_compat_l; [apply pow_le; lra|]. apply geo_le. exact E9. }
  apply (tot_ub _ _ _ HG0). intros l NL. destruct (vals_cover l 0) as [M HM].
  eapply Rle_trans; [apply (lsum_incl _ Z.eq_dec (fun z => Rlt_le _ _ (exp_pos _)) l (vals M 0) NL); intros z Hz; left; apply HM; exact Hz|].
  rewrite lsum_vals. rewrite rsum_S_l. cbn [Z.of_nat]. rewrite EP. change (Z.to_nat ((0 - 0) * (0 - 0))) with 0%nat. change (E ^ 0) with 1.
  rewrite (rsum_ext M _ (fun j => E ^ Z.to_nat (Z.of_nat (S j) * Z.of_nat (S j)))) by (intros j _; rewrite EP; f_equal; f_equal; lia).
  rewrite (rsum_ext (S M) _ (fun j => E ^ Z.to_nat (Z.of_nat (S j) * Z.of_nat (S j)))) by (intros j _; rewrite EP; f_equal; f_equal; lia).
  assert (A := SM M). assert (B := SM (S M)). lra.
Qed.

(** ** the sums of the weights near 0 *)
Lemma rsum_pow n p : rsum n (fun i => IZR (Z.of_nat (S i)) ^ p) = IZR (zsum n (fun i => Z.of_nat (S i) ^ Z.of_nat p)%Z).
Proof. rewrite rsum_zsum. apply rsum_ext. intros i _. apply pow_IZR. Qed.
Lemma half_lb m : k * IZR (Z.of_nat m) ^ 2 <= 1 ->
  INR m - k * rsum m (fun i => IZR (Z.of_nat (S i)) ^ 2) + k ^ 2 / 2 * rsum m (fun i => IZR (Z.of_nat (S i)) ^ 4) - k ^ 3 / 6 * rsum m (fun i => IZR (Z.of_nat (S i)) ^ 6) <= half m.
Proof.
  intros Hm. unfold half. replace (INR m) with (rsum m (fun _ => 1)) by (rewrite rsum_const; lra). rewrite <- !rsum_scal.
  assert (E : forall (f g h l : nat -> R), rsum m f - rsum m g + rsum m h - rsum m l = rsum m (fun i => f i - g i + h i - l i)).
  { intros. clear. induction m as [|n IH]; cbn [rsum]; [ring|]. rewrite <- IH. ring. }
  rewrite E. apply rsum_le_all. intros i Hi. set (z := IZR (Z.of_nat (S i))). assert (z0 : 0 <= z) by (apply IZR_le; lia). assert (zm : z <= IZR (Z.of_nat m)) by (apply IZR_le; lia).
  eapply Rle_trans; [|apply exp_cub].
  - fold z. right. field.
  - fold z. split; [apply Rmult_le_pos; [lra|apply pow_le; exact z0]|]. eapply Rle_trans; [|exact Hm]. apply Rmult_le_compat_l; [lra|]. apply pow_incr. lra.
Qed.
Lemma pair_lb (m d : Z) : (0 <= d)%Z -> (0 <= m)%Z -> k * IZR d ^ 2 <= 1 -> rho m * ((1 - k * IZR d ^ 2) * (2 + (2 * k * IZR m * IZR d) ^ 2)) <= rho (m - d) + rho (m + d).
Proof.
  intros Hd Hm H. assert (d0 : 0 <= IZR d) by (apply IZR_le; lia). assert (m0 : 0 <= IZR m) by (apply IZR_le; lia).
  assert (E : rho (m - d) + rho (m + d) = rho m * (exp (- (k * IZR d ^ 2)) * (exp (2 * k * IZR m * IZR d) + exp (- (2 * k * IZR m * IZR d))))).
  { unfold rho1. rewrite minus_IZR, plus_IZR. rewrite (Rmult_plus_distr_l (exp (- (k * IZR d ^ 2)))), Rmult_plus_distr_l, <- !exp_plus. f_equal; f_equal; ring. }
  rewrite E. apply Rmult_le_compat_l; [left; apply rho_pos|]. apply Rmult_le_compat; [lra| | |].
  - assert (0 <= (2 * k * IZR m * IZR d) ^ 2) by apply pow2_ge_0. lra.
  - assert (X := exp_ineq1_le (- (k * IZR d ^ 2))). lra.
  - apply exp_pair. repeat apply Rmult_le_pos; lra.
Qed.
Lemma block_lb m : (64 <= m)%Z -> k * 4096 <= 1 ->
  rho (m - 64) + rho m * (1 + (126 + (4 * (k * IZR m) ^ 2 - 2 * k) * 85344 - 4 * k * (k * IZR m) ^ 2 * 206447136)) <= rsum 128 (fun i => rho (m - 64 + Z.of_nat i)).
Proof.
  intros Hm Hk. rewrite (rsum_centre 63). change (Z.of_nat 0) with 0%Z. rewrite Z.add_0_r. replace (m - 64 + Z.of_nat 64)%Z with m by lia. apply Rplus_le_compat_l. rewrite Rmult_plus_distr_l, Rmult_1_r. apply Rplus_le_compat_l.
  assert (E2 : rsum 63 (fun i => IZR (Z.of_nat (S i)) ^ 2) = 85344) by (rewrite rsum_pow; reflexivity).
  assert (E4 : rsum 63 (fun i => IZR (Z.of_nat (S i)) ^ 4) = 206447136) by (rewrite rsum_pow; reflexivity).
  apply Rle_trans with (rsum 63 (fun d => rho m * ((1 - k * IZR (Z.of_nat (S d)) ^ 2) * (2 + (2 * k * IZR m * IZR (Z.of_nat (S d))) ^ 2)))).
  - right. rewrite rsum_scal. f_equal. rewrite <- E2, <- E4. replace 126 with (rsum 63 (fun _ => 2)) by (rewrite rsum_const; replace (INR 63) with 63 by (simpl; lra); lra).
    rewrite <- !rsum_scal. assert (X : forall n (f g h : nat -> R), rsum n f + rsum n g - rsum n h = rsum n (fun i => f i + g i - h i)).
    { intros n f g h. induction n as [|n IH]; cbn [rsum]; [ring|]. rewrite <- IH. ring. }
    rewrite X. apply rsum_ext. intros i _. ring.
  - apply rsum_le_all. intros d Hd. replace (m - 64 + Z.of_nat (63 - d))%Z with (m - Z.of_nat (S d))%Z by lia. replace (m - 64 + Z.of_nat (65 + d))%Z with (m + Z.of_nat (S d))%Z by lia. apply pair_lb; [lia|lia|].
    eapply Rle_trans; [|exact Hk]. apply Rmult_le_compat_l; [lra|]. rewrite pow_IZR. apply IZR_le. change (Z.of_nat 2) with 2%Z. nia.
Qed.
Lemma half_add j : (1 <= j)%nat -> half (128 * S j - 1) = half (128 * j - 1) + rsum 128 (fun i => rho (128 * Z.of_nat j + 64 - 64 + Z.of_nat i)).
Proof.
  intros Hj. replace (128 * S j - 1)%nat with ((128 * j - 1) + 128)%nat by lia. unfold half. rewrite rsum_app. f_equal. apply rsum_ext. intros i _. f_equal. lia.
Qed.
End Fit.
