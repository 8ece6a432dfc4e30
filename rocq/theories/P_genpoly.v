(** P_genpoly.v -- distribution of the polynomials drawn by gen_poly: the code as a sequence of sums of samples, and binary64. *)
From Verif Require Import Base Spec SpecR SpecG SpecF SpecJ SpecK M_float M_exact M_ieee M_samp M_fft M_ntru P_codec P_samp P_sampz P_prob P_joint P_ieee P_fsamp P_dist P_dist64 P_genlaw.
From Verif Require P_exact.
From Coq Require Import Reals Lra SpecFloat.
Open Scope R_scope.

Lemma lsum_split {A} (h : A -> R) l1 x l2 : lsum h (l1 ++ x :: l2) = lsum h l1 + (h x + lsum h l2).
Proof. unfold lsum. induction l1 as [|y l1 IH]; cbn [fold_right app]; [ring|]. rewrite IH. ring. Qed.

Section Code.
Variable F : fops.
Variable lg : nat.
Notation mu := (fofz F 0).
Notation sg := (sigma_fg F).
Notation sm := (sigma_min F lg).
Hypothesis TO : forall z, (-18 <= z <= 19)%Z -> to_i32 F (fadd F (fofz F z) (ffloor F mu)) = Ok (0 + z)%Z.
Variable fuel : nat.
Variable g : rng_t.
Hypothesis Hg : forall i, byte (g i).
Lemma coeff_gsum k : forall i acc pos, (Z.abs acc + 19 * Z.of_nat k <= 1000000)%Z ->
  forn k i (fun _ '(r, pos) => '(z, pos) <- samplerz F fuel mu sg sm g pos ;; r <- s32 Strict (r + z) ;; Ok (r, pos)) (acc, pos) = gsum F mu sg sm fuel k acc g pos.
Proof.
  induction k as [|k IH]; intros i acc pos H; cbn [forn gsum]; [reflexivity|]. unfold cbind. fold (one F mu sg sm fuel g pos).
  destruct (one F mu sg sm fuel g pos) as [[z p]| |] eqn:E; cbn [bind]; [|reflexivity|reflexivity]. apply (one_range F mu sg sm TO fuel) in E; [|exact Hg].
  unfold s32. assert (Hb : ((-2147483648 <=? acc + z) && (acc + z <? 2147483648))%Z%bool = true) by lia. rewrite Hb. cbn [bind]. apply IH. lia.
Qed.
Lemma upd_app (a b : list Z) x v i : length a = i -> upd (a ++ x :: b) i v = a ++ v :: b.
Proof. revert i. induction a as [|y a IH]; intros [|i] L; cbn in *; try discriminate; [reflexivity|]. f_equal. apply IH. lia. Qed.
Lemma poly_glist k n : (Z.of_nat k <= 1000)%Z -> forall i a b pos, length a = i -> length b = n ->
  forn n i (fun i '(poly, pos) => '(r, pos) <- gen_coeff F fuel lg k g pos ;; poly <- wr poly i r ;; Ok (poly, pos)) (a ++ b, pos) = ('(l, p) <- glist F mu sg sm fuel k n g pos ;; Ok (a ++ l, p)).
Proof.
  intros Hk. induction n as [|n IH]; intros i a b pos La Lb; [destruct b; [reflexivity|discriminate]|]. destruct b as [|x b]; [discriminate|]. injection Lb as Lb. cbn [forn glist]. unfold cbind at 1.
  unfold gen_coeff at 1. rewrite (coeff_gsum k 0 0 pos) by lia. destruct (gsum F mu sg sm fuel k 0 g pos) as [[r p]| |]; cbn [bind]; [|reflexivity|reflexivity].
  rewrite wr_Ok by (rewrite app_length; cbn [length]; lia). cbn [bind]. rewrite (upd_app a b x r i La). change (a ++ r :: b) with (a ++ [r] ++ b). rewrite app_assoc.
  rewrite IH; [|rewrite app_length; cbn [length]; lia|exact Lb]. unfold cbind, ret. destruct (glist F mu sg sm fuel k n g p) as [[l p']| |]; cbn [bind]; [|reflexivity|reflexivity]. rewrite <- app_assoc. reflexivity.
Qed.
Lemma gen_glist pos poly : falcon_lg lg -> length poly = (2 ^ lg)%nat -> gen_poly F fuel lg g pos poly = glist F mu sg sm fuel (4096 / 2 ^ lg) (2 ^ lg) g pos.
Proof.
  intros Hlg L. unfold gen_poly. assert (Hk : (Z.of_nat (4096 / 2 ^ lg) <= 1000)%Z) by (destruct Hlg as [-> | ->]; vm_compute; congruence).
  etransitivity; [exact (poly_glist _ _ Hk 0 [] poly pos eq_refl L)|]. destruct (glist F mu sg sm fuel (4096 / 2 ^ lg) (2 ^ lg) g pos) as [[l p]| |]; reflexivity.
Qed.
End Code.

(** ** binary64 *)
Lemma val_zero : val64 (fofz F64 0) = 0. Proof. apply (int64_ok 0). lia. Qed.
Lemma fin_zero : fin64 (fofz F64 0). Proof. apply (int64_ok 0). lia. Qed.
Lemma val_fg : fin64 (sigma_fg F64) /\ val64 (sigma_fg F64) = 6453702425112088 / 4503599627370496.
Proof. assert (E : sigma_fg F64 = S754_finite false 6453702425112088 (-52)) by (vm_compute; reflexivity). rewrite E. split; [split; reflexivity|]. rewrite val_neg by reflexivity. change (IZR (2 ^ (- -52))) with 4503599627370496. lra. Qed.
Lemma val_smin lg : falcon_lg lg -> fin64 (sigma_min F64 lg) /\ 12778 / 10000 <= val64 (sigma_min F64 lg) <= 12983 / 10000.
Proof.
  intros [-> | ->].
  - assert (E : sigma_min F64 9 = S754_finite false 5754851361650663 (-52)) by (vm_compute; reflexivity). rewrite E. split; [split; reflexivity|]. rewrite val_neg by reflexivity. change (IZR (2 ^ (- -52))) with 4503599627370496. lra.
  - assert (E : sigma_min F64 10 = S754_finite false 5846934828424843 (-52)) by (vm_compute; reflexivity). rewrite E. split; [split; reflexivity|]. rewrite val_neg by reflexivity. change (IZR (2 ^ (- -52))) with 4503599627370496. lra.
Qed.
Lemma exp_neg_pow n : exp (- INR n) = exp (- (1)) ^ n.
Proof. induction n as [|n IH]; [cbn [INR pow]; rewrite Ropp_0; apply exp_0|]. rewrite S_INR. cbn [pow]. rewrite <- IH, <- exp_plus. f_equal. ring. Qed.
Lemma exp_40 : / 2 ^ 61 <= exp (- INR 40).
Proof.
  assert (E1 : 35 / 100 <= exp (- (1))).
  { assert (E : exp (- (1)) = exp (- (1 / 16)) ^ 16) by (cbn [pow]; rewrite Rmult_1_r, <- !exp_plus; f_equal; lra). rewrite E. apply Rle_trans with ((15 / 16) ^ 16); [simpl; lra|]. apply pow_incr. assert (K := exp_ineq1_le (- (1 / 16))). lra. }
  rewrite exp_neg_pow. apply Rle_trans with ((35 / 100) ^ 40); [|apply pow_incr; lra]. 
  replace 40%nat with (4 * (2 * 5))%nat by reflexivity. rewrite !pow_mult. apply Rle_trans with ((15 / 1000) ^ 10); [|rewrite <- pow_mult; apply pow_incr; simpl; lra].
  simpl. lra.
Qed.
Section Pos.
Variable lg : nat.
Hypothesis Hlg : falcon_lg lg.
Notation mu := (fofz F64 0).
Notation sg := (sigma_fg F64).
Notation sm := (sigma_min F64 lg).
Definition tg : nat -> Z -> Z := th_64 mu sg sm.
Lemma floor_zero : Rfloor (val64 mu) = 0%Z. Proof. rewrite val_zero. apply (floor_int 0). Qed.
Lemma gen_thr z0 b : (z0 < 19)%nat -> (b = 0 \/ b = 1)%Z -> thr F64 mu sg sm z0 b (tg z0 b) /\
  Rabs (IZR (tg z0 b) / 2 ^ 64 - val64 sm / val64 sg * exp (- P_exact.xval (val64 mu) (val64 sg) z0 b)) <= / 2 ^ 39 * exp (- P_exact.xval (val64 mu) (val64 sg) z0 b) + / 2 ^ 63.
Proof.
  intros Hz Hb. destruct val_fg as [F1 V1]. destruct (val_smin lg Hlg) as [F2 V2].
  destruct (thr_64 mu sg sm z0 b fin_zero F1 F2) as (t & E & B); try assumption; [rewrite val_zero, Rabs_R0; lra|lra|rewrite V1; lra|rewrite V1; lra|].
  assert (Et : tg z0 b = t) by (unfold P_sampz.thr in E; unfold tg, th_64; rewrite E; reflexivity). rewrite Et. split; [exact E|exact B].
Qed.
Lemma gen_to z : (-18 <= z <= 19)%Z -> to_i32 F64 (fadd F64 (fofz F64 z) (ffloor F64 mu)) = Ok (0 + z)%Z.
Proof. intros Hz. assert (K := to_i32_64 z mu fin_zero Hz ltac:(rewrite floor_zero; lia)). rewrite floor_zero in K. exact K. Qed.
Lemma tg_pos z0 b : (z0 < 19)%nat -> (b = 0 \/ b = 1)%Z -> (0 < tg z0 b)%Z.
Proof.
  intros Hz Hb. destruct (gen_thr z0 b Hz Hb) as [_ B]. destruct val_fg as [_ V1]. destruct (val_smin lg Hlg) as [_ V2].
  assert (X : P_exact.xval (val64 mu) (val64 sg) z0 b <= INR 40).
  { unfold P_exact.xval. rewrite floor_zero, val_zero, V1. replace (IZR (zsigned z0 b) - (0 - 0)) with (IZR (zsigned z0 b)) by ring.
    assert (Hi : 0 <= INR z0 <= 18) by (split; [apply pos_INR|replace 18 with (INR 18) by (simpl; lra); apply le_INR; lia]).
    assert (Zb : IZR (zsigned z0 b) ^ 2 <= (INR z0 + 1) ^ 2). { unfold zsigned. destruct Hb as [-> | ->]; cbn [Z.eqb Pos.eqb]; [rewrite opp_IZR|rewrite plus_IZR]; rewrite <- INR_IZR_INZ; [|right; ring]. cbn [pow]. rewrite !Rmult_1_r. replace (- INR z0 * - INR z0) with (INR z0 * INR z0) by ring. apply Rmult_le_compat; lra. }
    set (i := INR z0) in *. clearbody i. set (zz := IZR (zsigned z0 b) ^ 2) in *. clearbody zz. replace (INR 40) with 40 by (simpl; lra).
    replace (zz / (2 * (6453702425112088 / 4503599627370496) ^ 2)) with (zz * (1 / (2 * (6453702425112088 / 4503599627370496) ^ 2))) by (unfold Rdiv; ring).
    replace (i ^ 2 / (2 * (18205 / 10000) ^ 2)) with (i ^ 2 * (1 / (2 * (18205 / 10000) ^ 2))) by (unfold Rdiv; ring).
    assert (C1 : 0 <= 1 / (2 * (6453702425112088 / 4503599627370496) ^ 2) <= 2436 / 10000) by (simpl; lra). assert (C2 : 1508 / 10000 <= 1 / (2 * (18205 / 10000) ^ 2)) by (simpl; lra).
    set (c1 := 1 / (2 * (6453702425112088 / 4503599627370496) ^ 2)) in *. set (c2 := 1 / (2 * (18205 / 10000) ^ 2)) in *. clearbody c1 c2. assert (I2 : 0 <= i ^ 2 <= 18 * i) by (cbn [pow]; rewrite Rmult_1_r; split; [apply Rmult_le_pos; lra|apply Rmult_le_compat_r; lra]).
    assert (K1 : zz * c1 <= (i + 1) ^ 2 * (2436 / 10000)) by (apply Rle_trans with ((i + 1) ^ 2 * c1); [apply Rmult_le_compat_r; lra|apply Rmult_le_compat_l; [apply pow2_ge_0|lra]]).
    assert (K2 : i ^ 2 * (1508 / 10000) <= i ^ 2 * c2) by (apply Rmult_le_compat_l; lra). replace ((i + 1) ^ 2) with (i ^ 2 + 2 * i + 1) in K1 by ring. lra. }
  assert (E : / 2 ^ 61 <= exp (- P_exact.xval (val64 mu) (val64 sg) z0 b)) by (eapply Rle_trans; [exact exp_40|]; apply exp_le; lra).
  set (e := exp _) in *. clearbody e. assert (R0 : 88 / 100 <= val64 sm / val64 sg) by (rewrite V1; lra). set (r := val64 sm / val64 sg) in *. clearbody r.
  apply Rinv_abs in B. assert (P61 : 0 < / 2 ^ 61) by (apply Rinv_0_lt_compat, pow_lt; lra). assert (E63 : / 2 ^ 63 = / 4 * / 2 ^ 61) by (rewrite <- Rinv_mult; f_equal; simpl; ring).
  assert (E39 : / 2 ^ 39 <= / 100) by (apply Rinv_le_contravar; simpl; lra). assert (K1 : 88 / 100 * e <= r * e) by (apply Rmult_le_compat_r; lra). assert (K2 : / 2 ^ 39 * e <= / 100 * e) by (apply Rmult_le_compat_r; lra).
  apply lt_IZR. apply Rmult_lt_reg_r with (/ 2 ^ 64); [apply Rinv_0_lt_compat, pow_lt; lra|]. rewrite Rmult_0_l. unfold Rdiv in B. lra.
Qed.
Lemma pdt_pos : forallb (fun i => (0 <? nth i pdt 0)%Z) (seq 0 19) = true. Proof. reflexivity. Qed.
Lemma pg_pos z : (-18 <= z <= 19)%Z -> 0 < pv tg 0 z.
Proof.
  intros Hz. assert (K : forall i b, (i < 19)%nat -> (b = 0 \/ b = 1)%Z -> 0 < pv tg 0 (zsigned i b)).
  { intros i b Hi Hb. assert (PV := pv_at (val64 mu) tg i b Hi Hb). rewrite floor_zero in PV. cbn [Z.add] in PV. change (0 + zsigned i b)%Z with (zsigned i b) in PV. rewrite PV. unfold qq.
    assert (P1 : (0 < nth i pdt 0)%Z). { apply Z.ltb_lt. assert (Fb := pdt_pos). rewrite forallb_forall in Fb. apply (Fb i). apply in_seq. lia. }
    assert (P2 := tg_pos i b Hi Hb). apply IZR_lt in P1, P2. assert (0 < 2 ^ 72) by (apply pow_lt; lra). assert (0 < 2 ^ 64) by (apply pow_lt; lra).
    apply Rdiv_lt_0_compat; [|lra]. apply Rmult_lt_0_compat; apply Rdiv_lt_0_compat; assumption. }
  destruct (Z_le_gt_dec z 0) as [L|G].
  - replace z with (zsigned (Z.to_nat (- z)) 0) by (unfold zsigned; cbn [Z.eqb]; lia). apply K; [lia|left; reflexivity].
  - replace z with (zsigned (Z.to_nat (z - 1)) 1) by (unfold zsigned; cbn [Z.eqb Pos.eqb]; lia). apply K; [lia|right; reflexivity].
Qed.
Lemma pg_out z : ~ (-18 <= z <= 19)%Z -> pv tg 0 z = 0.
Proof. intros H. assert (K := pv_out (val64 mu) tg z). rewrite floor_zero in K. apply K. rewrite Z.sub_0_r. exact H. Qed.
Lemma pa_range : 1 / 12 <= pa tg <= 1.
Proof.
  destruct val_fg as [F1 V1]. destruct (val_smin lg Hlg) as [F2 V2].
  destruct (dist_all (val64 mu) (val64 sg) (val64 sm)) with (th := tg) as (Gm & Gp & _ & _ & PA & _); [lra|rewrite V1; lra|rewrite V1; lra| | |exact PA].
  - intros z0 b Hz Hb. apply (th_range F64 mu sg sm tg (fun z b H1 H2 => proj1 (gen_thr z b H1 H2)) z0 b Hz Hb).
  - intros z0 b Hz Hb. split; [apply (P_exact.xval_range (val64 mu) (val64 sg) z0 b Hz Hb); rewrite V1; lra|apply gen_thr; assumption].
Qed.
Lemma convol_pos (P : Z -> R) k : (forall z, (-18 <= z <= 19)%Z -> 0 < P z) -> (forall z, 0 <= P z) -> (forall v, 0 <= convol P k v) /\ forall v, (-18 * Z.of_nat k <= v <= 19 * Z.of_nat k)%Z -> 0 < convol P k v.
Proof.
  intros HP HN. induction k as [|k [IN IP]]; [split; intros v; cbn [convol]; [destruct (v =? 0)%Z; lra|intros Hv; destruct (Z.eqb_spec v 0); [lra|lia]]|]. cbn [convol]. fold z38.
  assert (Nn : forall v (l : list Z), 0 <= lsum (fun x => P x * convol P k (v - x)) l). { intros v l. induction l as [|x l IHl]; unfold lsum in *; cbn [fold_right]; [lra|]. assert (0 <= P x * convol P k (v - x)) by (apply Rmult_le_pos; [apply HN|apply IN]). lra. }
  split; [intros v; apply Nn|]. intros v Hv. set (x := Z.max (-18) (Z.min 19 (v + 18 * Z.of_nat k))).
  assert (Hx : In x z38) by (apply z38_in; unfold x; lia). destruct (in_split _ _ Hx) as (l1 & l2 & E). rewrite E.
  assert (SS : lsum (fun x => P x * convol P k (v - x)) (l1 ++ x :: l2) = lsum (fun x => P x * convol P k (v - x)) l1 + (P x * convol P k (v - x) + lsum (fun x => P x * convol P k (v - x)) l2)).
  { apply (lsum_split (fun x => P x * convol P k (v - x))). }
  rewrite SS. assert (N1 := Nn v l1). assert (N2 := Nn v l2). assert (0 < P x * convol P k (v - x)) by (apply Rmult_lt_0_compat; [apply HP|apply IP]; unfold x; lia). lra.
Qed.
End Pos.
