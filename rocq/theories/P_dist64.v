(** P_dist64.v -- the distribution of samplerz in binary64. *)
From Verif Require Import Base Spec SpecR SpecF SpecG M_float M_exact M_ieee M_samp P_ieee P_fsamp P_gauss P_prob P_dist.
From Verif Require P_exact P_sampz.
From Coq Require Import Reals Lra SpecFloat.
Open Scope R_scope.

Lemma geom a k : a * rsum k (fun j => (1 - a) ^ j) = 1 - (1 - a) ^ k.
Proof. induction k as [|k IH]; [cbn; ring|]. cbn [rsum pow]. rewrite Rmult_plus_distr_l, IH. ring. Qed.
Section End.
Variables (F : fops) (mu sg sm : D F) (th : nat -> Z -> Z) (fl : Z).
Hypothesis TH : forall z0 b, (z0 < 19)%nat -> (b = 0 \/ b = 1)%Z -> P_sampz.thr F mu sg sm z0 b (th z0 b).
Hypothesis TO : forall z, (-18 <= z <= 19)%Z -> to_i32 F (fadd F (fofz F z) (ffloor F mu)) = Ok (fl + z)%Z.
Lemma ind_one x : (-18 <= x <= 19)%Z -> rsum 38 (fun j => P_prob.ind (fl + x =? fl - 18 + Z.of_nat j)%Z) = 1.
Proof.
  intros Hx. rewrite (rsum_one 38 (Z.to_nat (x + 18))); [|lia|].
  - destruct (Z.eqb_spec (fl + x) (fl - 18 + Z.of_nat (Z.to_nat (x + 18)))); [reflexivity|lia].
  - intros j Hj N. destruct (Z.eqb_spec (fl + x) (fl - 18 + Z.of_nat j)); [lia|reflexivity].
Qed.
Lemma pv_sum : rsum 38 (fun j => pv th fl (fl - 18 + Z.of_nat j)%Z) = pa th.
Proof.
  unfold pv, pa. rewrite rsum_swap. apply rsum_ext. intros i Hi. rewrite rsum_scal. f_equal. unfold Rdiv.
  assert (Z0 : (-18 <= zsigned i 0 <= 19)%Z) by (unfold zsigned; cbn [Z.eqb]; lia). assert (Z1 : (-18 <= zsigned i 1 <= 19)%Z) by (unfold zsigned; cbn [Z.eqb Pos.eqb]; lia).
  apply Rmult_eq_reg_l with 2; [|lra]. rewrite <- rsum_scal.
  rewrite (rsum_ext 38 _ (fun j => IZR (th i 0%Z) / 2 ^ 64 * P_prob.ind (fl + zsigned i 0 =? fl - 18 + Z.of_nat j)%Z + IZR (th i 1%Z) / 2 ^ 64 * P_prob.ind (fl + zsigned i 1 =? fl - 18 + Z.of_nat j)%Z)) by (intros; unfold Rdiv; field).
  rewrite rsum_plus, !rsum_scal, !ind_one by assumption. unfold Rdiv. field.
Qed.
Lemma ends_prob k n : (18 * k <= n)%nat -> prob n (fun w => ends (samplerz F k mu sg sm (stream w) 0)) = 1 - (1 - pa th) ^ k.
Proof.
  intros Hn. rewrite prob_avg. rewrite (avg_ext n _ (fun s => rsum 38 (fun j => P_prob.ind (hit F mu sg sm k (fl - 18 + Z.of_nat j)%Z s)))).
  - rewrite avg_rsum. rewrite (rsum_ext 38 _ (fun j => rsum k (fun j => (1 - pa th) ^ j) * pv th fl (fl - 18 + Z.of_nat j)%Z)).
    + rewrite rsum_scal, pv_sum, <- geom. ring.
    + intros j _. rewrite (hit_prob F mu sg sm th fl TH TO k _ n Hn). ring.
  - intros s _ Hs. assert (Hb : forall i, byte (stream s i)). { intros i. unfold stream. destruct (Nat.lt_ge_cases i (length s)) as [L|L]; [unfold bytes in Hs; rewrite Forall_forall in Hs; apply Hs, nth_In, L|rewrite nth_overflow by exact L; unfold byte; lia]. }
    destruct (samplerz F k mu sg sm (stream s) 0) as [[v pos]| |] eqn:E.
    + destruct (P_sampz.samplerz_range F k mu sg sm (stream s) 0 v pos Hb E) as (_ & z & _ & _ & Hz & T). rewrite TO in T by exact Hz. assert (v = (fl + z)%Z) as -> by congruence.
      rewrite (rsum_ext 38 _ (fun j => P_prob.ind (fl + z =? fl - 18 + Z.of_nat j)%Z)) by (intros j _; unfold hit; rewrite E; reflexivity). rewrite ind_one by exact Hz. reflexivity.
    + rewrite (rsum_ext 38 _ (fun _ => 0)) by (intros j _; unfold hit; rewrite E; reflexivity). rewrite rsum_const. cbn [ends P_prob.ind]. ring.
    + rewrite (rsum_ext 38 _ (fun _ => 0)) by (intros j _; unfold hit; rewrite E; reflexivity). rewrite rsum_const. cbn [ends P_prob.ind]. ring.
Qed.
End End.
Lemma samplerz_dist mu s sm : fin64 mu -> fin64 s -> fin64 sm -> (Z.abs (Rfloor (val64 mu)) <= 2147483000)%Z -> 1 <= val64 sm -> val64 sm <= val64 s ->
  val64 s <= 18205 / 10000 ->
  exists (P : Z -> R) (a Gm Gp : R),
    infinite_sum (fun k => rho (val64 s) (val64 mu) (IZR (Rfloor (val64 mu) - Z.of_nat k))) Gm /\
    infinite_sum (fun k => rho (val64 s) (val64 mu) (IZR (Rfloor (val64 mu) + 1 + Z.of_nat k))) Gp /\
    1 / 12 <= a <= 1 /\
    (forall k n v, (18 * k <= n)%nat -> prob n (fun w => returns (samplerz F64 k mu s sm (stream w) 0) v) = P v * (1 - (1 - a) ^ k)) /\
    (forall k n, (18 * k <= n)%nat -> prob n (fun w => ends (samplerz F64 k mu s sm (stream w) 0)) = 1 - (1 - a) ^ k) /\
    forall v, Rabs (P v - rho (val64 s) (val64 mu) (IZR v) / (Gm + Gp)) <= / 2 ^ 36 * (rho (val64 s) (val64 mu) (IZR v) / (Gm + Gp)) + / 2 ^ 59.
Proof.
  intros Fm Fs Fsm H0 H1 H2 H3. pose proof (mu_bound _ H0) as Hm. assert (H1' : 1 / 1000 <= val64 sm) by lra. assert (H3' : 1 <= val64 s <= 18205 / 10000) by lra.
  assert (TH : forall z0 b, (z0 < 19)%nat -> (b = 0 \/ b = 1)%Z -> P_sampz.thr F64 mu s sm z0 b (th_64 mu s sm z0 b)).
  { intros z0 b Hz Hb. destruct (thr_64 mu s sm z0 b Fm Fs Fsm Hm H1' H2 H3' Hz Hb) as (t & E & _). unfold P_sampz.thr, th_64 in *. rewrite E. reflexivity. }
  assert (TO : forall z, (-18 <= z <= 19)%Z -> to_i32 F64 (fadd F64 (fofz F64 z) (ffloor F64 mu)) = Ok (Rfloor (val64 mu) + z)%Z) by (intros z Hz; apply to_i32_64; assumption).
  assert (TR : forall z0 b, (z0 < 19)%nat -> (b = 0 \/ b = 1)%Z -> (0 <= th_64 mu s sm z0 b < 2 ^ 64)%Z) by (intros z0 b Hz Hb; apply (th_range F64 mu s sm _ TH z0 b Hz Hb)).
  destruct (dist_all (val64 mu) (val64 s) (val64 sm) H1 H2 H3 (th_64 mu s sm) TR) as (Gm & Gp & C1 & C2 & PA & D).
  { intros z0 b Hz Hb. split; [apply (P_exact.xval_range (val64 mu) (val64 s) z0 b Hz Hb); lra|].
    destruct (thr_64 mu s sm z0 b Fm Fs Fsm Hm H1' H2 H3' Hz Hb) as (t & E & B). pose proof (TH z0 b Hz Hb) as E'.
    unfold P_sampz.thr in E, E'. rewrite E in E'. assert (X : th_64 mu s sm z0 b = t) by congruence. rewrite X. exact B. }
  exists (fun v => pv (th_64 mu s sm) (Rfloor (val64 mu)) v / pa (th_64 mu s sm)), (pa (th_64 mu s sm)), Gm, Gp.
  split; [exact C1|]. split; [exact C2|]. split; [exact PA|]. split; [|split; [|exact D]]; [|intros k n Hn; apply (ends_prob F64 mu s sm _ _ TH TO k n Hn)].
  intros k n v Hn. rewrite prob_avg. rewrite <- geom. replace (pv (th_64 mu s sm) (Rfloor (val64 mu)) v / pa (th_64 mu s sm) * (pa (th_64 mu s sm) * rsum k (fun j => (1 - pa (th_64 mu s sm)) ^ j)))
    with (pv (th_64 mu s sm) (Rfloor (val64 mu)) v * rsum k (fun j => (1 - pa (th_64 mu s sm)) ^ j)) by (field; lra).
  apply (hit_prob F64 mu s sm _ _ TH TO k v n Hn).
Qed.
Lemma dist_example : let mu := S754_finite true 8162774324609024 (-50) in let s := S754_finite false 6755399441055744 (-52) in
  let sm := flit F64 1277833697 9 in
  fin64 mu /\ fin64 s /\ fin64 sm /\ val64 mu = -29 / 4 /\ val64 s = 3 / 2 /\ (Z.abs (Rfloor (val64 mu)) <= 2147483000)%Z /\
  1 <= val64 sm <= val64 s /\ val64 s <= 18205 / 10000 /\ returns (samplerz F64 3 mu s sm (stream (repeat 255%Z 15 ++ [15; 16; 17; 18; 19; 20; 21; 22]%Z)) 0) (-11) = true.
Proof.
  intros mu s sm. destruct samp_example as (H1 & H2 & H3 & H4 & H5 & H6 & [_ H7] & H8 & _). repeat (split; [assumption|]). split; [split; [|exact H7]|split; [exact H8|vm_compute; reflexivity]].
  assert (E : sm = S754_finite false 5754851361650663 (-52)) by (vm_compute; reflexivity). rewrite E, val_neg by reflexivity. change (IZR (2 ^ (- -52))) with 4503599627370496. lra.
Qed.
