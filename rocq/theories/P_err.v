(** P_err.v -- rounding errors of complex operations, of the FFT and of merge_fft, in Euclidean norm. *)
From Verif Require Import Base Ring Poly Spec SpecR SpecF M_xform P_xform M_float M_exact M_fft P_brv P_cplx P_fft P_l2.
From Coq Require Import Ring_theory Ring Lra Psatz.
Open Scope R_scope.

Lemma ulp_val : ulp = 1 / 9007199254740992. Proof. unfold ulp. lra. Qed.
Lemma tiny_pos : 0 < tiny. Proof. unfold tiny. apply Rinv_0_lt_compat, pow_lt. lra. Qed.
Lemma huge_big : 1 <= huge. Proof. unfold huge. apply pow_R1_Rle. lra. Qed.
Lemma tiny_huge : tiny * huge = 1. Proof. unfold tiny, huge. field. Qed.
(** a convenient small number: tiny is much smaller *)
Definition th : R := 1 / 10 ^ 40.
Lemma th_pos : 0 < th. Proof. unfold th. apply Rdiv_lt_0_compat; [lra|apply pow_lt; lra]. Qed.
Lemma tiny_th : tiny * 10 ^ 60 = th.
Proof. unfold tiny, th. replace (10 ^ 100) with (10 ^ 60 * 10 ^ 40) by (rewrite <- pow_add; reflexivity). field. Qed.

(** ** one layer of butterflies in exact arithmetic *)
Lemma Rsigma_split a b g : Rsigma (a + b) g = Rsigma a g + Rsigma b (fun i => g (a + i)%nat).
Proof.
  induction b as [|b IH]; [rewrite Nat.add_0_r; cbn [Rsigma]; ring|]. rewrite Nat.add_succ_r. cbn [Rsigma]. rewrite IH. ring.
Qed.
Lemma Rsigma_blocks M len g : Rsigma (M * (2 * len)) g = Rsigma M (fun b => Rsigma len (fun j => g (b * (2 * len) + j)%nat + g (b * (2 * len) + len + j)%nat)).
Proof.
  induction M as [|M IH]; [reflexivity|]. replace (S M * (2 * len))%nat with (M * (2 * len) + (len + len))%nat by lia. rewrite Rsigma_split. cbn [Rsigma]. rewrite IH.
  f_equal. rewrite Rsigma_split, <- Rsigma_add. apply Rsigma_ext. intros i Hi. f_equal. f_equal. lia.
Qed.
Definition bf (len : nat) (z : nat -> Cx) (v : nat -> Cx) (p : nat) : Cx :=
  let b := (p / (2 * len))%nat in
  if (p mod (2 * len) <? len)%nat then Cadd (v p) (Cmul (z b) (v (p + len)%nat)) else Csub (v (p - len)%nat) (Cmul (z b) (v p)).
(** the element that is multiplied *)
Definition bw (len : nat) (v : nat -> Cx) (p : nat) : Cx := if (p mod (2 * len) <? len)%nat then v (p + len)%nat else v p.
(** inverse butterflies *)
Definition bi (len : nat) (z : nat -> Cx) (v : nat -> Cx) (p : nat) : Cx :=
  let b := (p / (2 * len))%nat in
  if (p mod (2 * len) <? len)%nat then Cadd (v p) (v (p + len)%nat) else Cmul (Csub (v (p - len)%nat) (v p)) (z b).
Lemma blk_lo b len j : (j < len)%nat -> ((b * (2 * len) + j) / (2 * len) = b)%nat /\ ((b * (2 * len) + j) mod (2 * len) <? len = true)%nat.
Proof. intros H. rewrite div_block, mod_block by lia. split; [reflexivity|]. apply Nat.ltb_lt. exact H. Qed.
Lemma blk_hi b len j : (j < len)%nat -> ((b * (2 * len) + len + j) / (2 * len) = b)%nat /\ ((b * (2 * len) + len + j) mod (2 * len) <? len = false)%nat.
Proof. intros H. replace (b * (2 * len) + len + j)%nat with (b * (2 * len) + (len + j))%nat by lia. rewrite div_block, mod_block by lia. split; [reflexivity|]. apply Nat.ltb_ge. lia. Qed.
Lemma mod2_para x y z : mod2 z = 1 -> mod2 (Cadd x (Cmul z y)) + mod2 (Csub x (Cmul z y)) = 2 * (mod2 x + mod2 y).
Proof. intros H. replace (2 * (mod2 x + mod2 y)) with (2 * (mod2 x + mod2 z * mod2 y)) by (rewrite H; ring). unfold mod2, Cadd, Csub, Cmul. cbn [fst snd]. ring. Qed.
Lemma sqrt2_pos : 0 < sqrt 2. Proof. apply sqrt_lt_R0. lra. Qed.
Lemma sqrt2_sq : sqrt 2 * sqrt 2 = 2. Proof. apply sqrt_sqrt. lra. Qed.
Lemma bf_norm n M len z v : n = (M * (2 * len))%nat -> (forall b, (b < M)%nat -> mod2 (z b) = 1) -> nrm n (bf len z v) = sqrt 2 * nrm n v.
Proof.
  intros -> Hz. assert (P := nrm_pos (M * (2 * len)) v). assert (P2 := sqrt2_pos).
  assert (E : nrm (M * (2 * len)) (bf len z v) * nrm (M * (2 * len)) (bf len z v) = (sqrt 2 * nrm (M * (2 * len)) v) * (sqrt 2 * nrm (M * (2 * len)) v)).
  { replace (sqrt 2 * nrm (M * (2 * len)) v * (sqrt 2 * nrm (M * (2 * len)) v)) with (sqrt 2 * sqrt 2 * (nrm (M * (2 * len)) v * nrm (M * (2 * len)) v)) by ring.
    rewrite sqrt2_sq, !nrm_sq, !Rsigma_blocks, <- Rsigma_mul. apply Rsigma_ext. intros b Hb. rewrite <- Rsigma_mul. apply Rsigma_ext. intros j Hj.
    unfold bf. destruct (blk_lo b len j Hj) as [E1 E2]. destruct (blk_hi b len j Hj) as [E3 E4]. rewrite E1, E2, E3, E4.
    replace (b * (2 * len) + len + j - len)%nat with (b * (2 * len) + j)%nat by lia. replace (b * (2 * len) + j + len)%nat with (b * (2 * len) + len + j)%nat by lia.
    apply mod2_para, Hz, Hb. }
  apply Rsqr_inj in E; [exact E|apply nrm_pos|apply Rmult_le_pos; lra].
Qed.
Lemma bi_norm n M len z v : n = (M * (2 * len))%nat -> (forall b, (b < M)%nat -> mod2 (z b) = 1) -> nrm n (bi len z v) = sqrt 2 * nrm n v.
Proof.
  intros -> Hz. assert (P := nrm_pos (M * (2 * len)) v). assert (P2 := sqrt2_pos).
  assert (E : nrm (M * (2 * len)) (bi len z v) * nrm (M * (2 * len)) (bi len z v) = (sqrt 2 * nrm (M * (2 * len)) v) * (sqrt 2 * nrm (M * (2 * len)) v)).
  { replace (sqrt 2 * nrm (M * (2 * len)) v * (sqrt 2 * nrm (M * (2 * len)) v)) with (sqrt 2 * sqrt 2 * (nrm (M * (2 * len)) v * nrm (M * (2 * len)) v)) by ring.
    rewrite sqrt2_sq, !nrm_sq, !Rsigma_blocks, <- Rsigma_mul. apply Rsigma_ext. intros b Hb. rewrite <- Rsigma_mul. apply Rsigma_ext. intros j Hj.
    unfold bi. destruct (blk_lo b len j Hj) as [E1 E2]. destruct (blk_hi b len j Hj) as [E3 E4]. rewrite E1, E2, E3, E4.
    replace (b * (2 * len) + len + j - len)%nat with (b * (2 * len) + j)%nat by lia. replace (b * (2 * len) + j + len)%nat with (b * (2 * len) + len + j)%nat by lia.
    specialize (Hz b Hb). generalize (v (b * (2 * len) + j)%nat) (v (b * (2 * len) + len + j)%nat). intros x y.
    replace (mod2 (Cmul (Csub x y) (z b))) with (mod2 (z b) * mod2 (Csub x y)) by (unfold mod2, Cmul; cbn [fst snd]; ring). rewrite Hz. unfold mod2, Cadd, Csub. cbn [fst snd]. ring. }
  apply Rsqr_inj in E; [exact E|apply nrm_pos|apply Rmult_le_pos; lra].
Qed.
Lemma bw_norm n M len v : n = (M * (2 * len))%nat -> nrm n (bw len v) <= sqrt 2 * nrm n v.
Proof.
  intros ->. assert (P := nrm_pos (M * (2 * len)) v). assert (P2 := sqrt2_pos). apply sq_le; [apply Rmult_le_pos; lra|].
  replace (sqrt 2 * nrm (M * (2 * len)) v * (sqrt 2 * nrm (M * (2 * len)) v)) with (sqrt 2 * sqrt 2 * (nrm (M * (2 * len)) v * nrm (M * (2 * len)) v)) by ring.
  rewrite sqrt2_sq, !nrm_sq, !Rsigma_blocks, <- Rsigma_mul. apply Rsigma_le. intros b Hb. rewrite <- Rsigma_mul. apply Rsigma_le. intros j Hj.
  unfold bw. destruct (blk_lo b len j Hj) as [E1 E2]. destruct (blk_hi b len j Hj) as [E3 E4]. rewrite E2, E4.
  replace (b * (2 * len) + j + len)%nat with (b * (2 * len) + len + j)%nat by lia. assert (Q1 := mod2_pos (v (b * (2 * len) + j)%nat)). lra.
Qed.
Lemma bf_lin len z v w p : Csub (bf len z v p) (bf len z w p) = bf len z (fun i => Csub (v i) (w i)) p.
Proof. unfold bf. destruct (_ <? _)%nat; apply Cx_eq; cx; ring. Qed.
Lemma bi_lin len z v w p : Csub (bi len z v p) (bi len z w p) = bi len z (fun i => Csub (v i) (w i)) p.
Proof. unfold bi. destruct (_ <? _)%nat; apply Cx_eq; cx; ring. Qed.

Section Err.
Variable F : fops.
Variable fin : D F -> Prop.
Variable val : D F -> R.
Hypothesis A : accurate F fin val.
Notation C := (D F * D F)%type.
Definition cv (x : C) : Cx := (val (fst x), val (snd x)).
Definition cfin (x : C) : Prop := fin (fst x) /\ fin (snd x).
Notation d := (c0 F).

Lemma Cm_Cmod x : Cm x = Cmod x. Proof. reflexivity. Qed.
Lemma cv_fst x b : Cm (cv x) <= b -> Rabs (val (fst x)) <= b.
Proof. intros H. eapply Rle_trans; [apply (Cm_fst (cv x))|exact H]. Qed.
Lemma cv_snd x b : Cm (cv x) <= b -> Rabs (val (snd x)) <= b.
Proof. intros H. eapply Rle_trans; [apply (Cm_snd (cv x))|exact H]. Qed.
Lemma c0_ok : cfin d /\ cv d = Czero.
Proof. destruct (acc_int _ _ _ A 0%Z ltac:(cbv; discriminate)) as [H1 H2]. unfold cfin, cv, c0. cbn [fst snd]. rewrite H2. split; [split; exact H1|reflexivity]. Qed.
Lemma cof_int z : (Z.abs z <= 2 ^ 53)%Z -> cfin (cof F (fofz F z)) /\ cv (cof F (fofz F z)) = Cz z.
Proof.
  intros Hz. destruct (acc_int _ _ _ A z Hz) as [H1 H2]. destruct (acc_int _ _ _ A 0%Z ltac:(cbv; discriminate)) as [H3 H4].
  unfold cfin, cv, cof, Cz. cbn [fst snd]. rewrite H2, H4. split; [split; assumption|reflexivity].
Qed.
Lemma cneg_ok x : cfin x -> cfin (cneg F x) /\ cv (cneg F x) = Copp (cv x).
Proof.
  intros [H1 H2]. destruct (acc_neg _ _ _ A _ H1) as [H3 H4]. destruct (acc_neg _ _ _ A _ H2) as [H5 H6].
  unfold cfin, cv, cneg, Copp. cbn [fst snd]. rewrite H4, H6. split; [split; assumption|reflexivity].
Qed.
Lemma cadd_err x y : cfin x -> cfin y -> Cm (cv x) <= huge -> Cm (cv y) <= huge ->
  cfin (cadd F x y) /\ Cm (Csub (cv (cadd F x y)) (Cadd (cv x) (cv y))) <= ulp * Cm (Cadd (cv x) (cv y)).
Proof.
  intros [H1 H2] [H3 H4] Hx Hy. destruct (acc_add _ _ _ A _ _ H1 H3 (cv_fst _ _ Hx) (cv_fst _ _ Hy)) as [F1 E1].
  destruct (acc_add _ _ _ A _ _ H2 H4 (cv_snd _ _ Hx) (cv_snd _ _ Hy)) as [F2 E2].
  split; [split; assumption|]. apply Cm_comp; [rewrite ulp_val; lra|exact E1|exact E2].
Qed.
Lemma csub_err x y : cfin x -> cfin y -> Cm (cv x) <= huge -> Cm (cv y) <= huge ->
  cfin (csub F x y) /\ Cm (Csub (cv (csub F x y)) (Csub (cv x) (cv y))) <= ulp * Cm (Csub (cv x) (cv y)).
Proof.
  intros [H1 H2] [H3 H4] Hx Hy. destruct (acc_sub _ _ _ A _ _ H1 H3 (cv_fst _ _ Hx) (cv_fst _ _ Hy)) as [F1 E1].
  destruct (acc_sub _ _ _ A _ _ H2 H4 (cv_snd _ _ Hx) (cv_snd _ _ Hy)) as [F2 E2].
  split; [split; assumption|]. apply Cm_comp; [rewrite ulp_val; lra|exact E1|exact E2].
Qed.
Lemma cmul_err x y : cfin x -> cfin y -> Cm (cv x) <= huge -> Cm (cv y) <= huge ->
  cfin (fcmul F x y) /\ Cm (Csub (cv (fcmul F x y)) (Cmul (cv x) (cv y))) <= 3 * ulp * (Cm (cv x) * Cm (cv y)) + tiny.
Proof.
  intros [H1 H2] [H3 H4] Hx Hy. destruct (acc_cmul _ _ _ A x y H1 H2 H3 H4 Hx Hy) as [F1 [F2 E]]. split; [split; assumption|exact E].
Qed.
Lemma cdiv_err x y : cfin x -> cfin y -> Cm (cv x) <= 10 ^ 50 -> / 10 ^ 50 <= Cm (cv y) <= 10 ^ 50 ->
  cfin (fcdiv F x y) /\ Cm (Csub (Cmul (cv (fcdiv F x y)) (cv y)) (cv x)) <= 8 * ulp * Cm (cv x) + tiny.
Proof.
  intros [H1 H2] [H3 H4] Hx Hy. destruct (acc_cdiv _ _ _ A x y H1 H2 H3 H4 Hx Hy) as [F1 [F2 E]]. split; [split; assumption|exact E].
Qed.
Lemma cscal_err x s : cfin x -> fin s -> Cm (cv x) <= huge -> Rabs (val s) <= huge ->
  cfin (cscal F x s) /\ Cm (Csub (cv (cscal F x s)) (Cscal (cv x) (val s))) <= ulp * (Cm (cv x) * Rabs (val s)) + 2 * tiny.
Proof.
  intros [H1 H2] Hs Hx Hy. destruct (acc_mul _ _ _ A _ _ H1 Hs (cv_fst _ _ Hx) Hy) as [F1 E1]. destruct (acc_mul _ _ _ A _ _ H2 Hs (cv_snd _ _ Hx) Hy) as [F2 E2].
  split; [split; assumption|]. set (W := Cscal (cv x) (val s)).
  assert (EW : Cm W = Cm (cv x) * Rabs (val s)).
  { unfold W, Cm. replace (mod2 (Cscal (cv x) (val s))) with (mod2 (cv x) * Rsqr (val s)) by (unfold mod2, Cscal, Rsqr; cbn [fst snd]; ring).
    rewrite sqrt_mult, sqrt_Rsqr_abs; [reflexivity|apply mod2_pos|apply Rle_0_sqr]. }
  rewrite <- EW. set (e := Csub (cv (cscal F x s)) W).
  assert (G1 : Rabs (fst e) <= ulp * Rabs (fst W) + tiny) by exact E1. assert (G2 : Rabs (snd e) <= ulp * Rabs (snd W) + tiny) by exact E2.
  clearbody e W. assert (T := tiny_pos).
  assert (N : Cm e <= ulp * Cm W + Cm (tiny, tiny)).
  { assert (U : 0 <= ulp) by (rewrite ulp_val; lra). replace (ulp * Cm W) with (Cm (ulp * fst W, ulp * snd W)).
    2:{ unfold Cm. replace (mod2 (ulp * fst W, ulp * snd W)) with (Rsqr ulp * mod2 W) by (unfold mod2, Rsqr; cbn [fst snd]; ring).
        rewrite sqrt_mult, sqrt_Rsqr; [reflexivity|exact U|apply Rle_0_sqr|apply mod2_pos]. }
    eapply Rle_trans; [|apply (Rle_trans _ (Cm (Cadd (Rabs (ulp * fst W), Rabs (ulp * snd W)) (tiny, tiny))) _ )]; [|apply Rle_refl|].
    2:{ eapply Rle_trans; [apply Cm_tri|]. apply Rplus_le_compat_r. right. unfold Cm. f_equal. unfold mod2. cbn [fst snd]. rewrite <- !Rabs_mult, !Rabs_right; [reflexivity| |]; apply Rle_ge, Rle_0_sqr. }
    apply Cm_le; [apply Cm_pos|]. rewrite Cm_sq. unfold mod2, Cadd. cbn [fst snd]. rewrite !Rabs_mult, (Rabs_right ulp) by lra.
    assert (Sq : forall t, t * t = Rabs t * Rabs t) by (intros t; rewrite <- Rabs_mult, Rabs_right; [reflexivity|apply Rle_ge, Rle_0_sqr]). rewrite (Sq (fst e)), (Sq (snd e)).
    pose proof (Rabs_pos (fst e)). pose proof (Rabs_pos (snd e)). apply Rplus_le_compat; apply Rmult_le_compat; assumption. }
  assert (N2 : Cm (tiny, tiny) <= 2 * tiny). { eapply Rle_trans; [apply (Cm_two _ tiny tiny)|lra]; cbn [fst snd]; rewrite Rabs_right; lra. }
  lra.
Qed.

(** ** vectors *)
Definition X (l : list C) (i : nat) : Cx := cv (nth i l d).
Definition L (y : list Cx) (i : nat) : Cx := nth i y Czero.
Definition vfin (n : nat) (l : list C) : Prop := length l = n /\ forall i, (i < n)%nat -> cfin (nth i l d).
Definition apx (n : nat) (l : list C) (y : nat -> Cx) (e : R) : Prop := vfin n l /\ nrm n (fun i => Csub (X l i) (y i)) <= e.

Lemma apx_weak n l y e e' : apx n l y e -> e <= e' -> apx n l y e'.
Proof. intros [H1 H2] H. split; [exact H1|lra]. Qed.
Lemma apx_ext n l y y' e : (forall i, (i < n)%nat -> y i = y' i) -> apx n l y e -> apx n l y' e.
Proof. intros H [H1 H2]. split; [exact H1|]. rewrite (nrm_ext n _ (fun i => Csub (X l i) (y i))); [exact H2|]. intros i Hi. rewrite H by exact Hi. reflexivity. Qed.
Lemma apx_nrm n l y e : apx n l y e -> nrm n (X l) <= nrm n y + e.
Proof. intros [_ H]. pose proof (nrm_le_add n (X l) y). lra. Qed.
Lemma apx_sup n l y e b i : apx n l y e -> (i < n)%nat -> nrm n y <= b -> Cm (X l i) <= b + e.
Proof. intros H Hi Hb. pose proof (apx_nrm _ _ _ _ H). pose proof (nrm_comp n (X l) i Hi). lra. Qed.
Lemma apx_point n l y e i : apx n l y e -> (i < n)%nat -> Cm (Csub (X l i) (y i)) <= e.
Proof. intros [_ H] Hi. eapply Rle_trans; [apply (nrm_comp n (fun i => Csub (X l i) (y i)) i Hi)|exact H]. Qed.
(** two steps: rounding, then propagation *)
Lemma apx_step n l y y' e e' : vfin n l -> nrm n (fun i => Csub (X l i) (y i)) <= e -> nrm n (fun i => Csub (y i) (y' i)) <= e' -> apx n l y' (e + e').
Proof.
  intros V H1 H2. split; [exact V|]. eapply Rle_trans; [|apply Rplus_le_compat; [exact H1|exact H2]]. eapply Rle_trans; [|apply nrm_tri]. apply nrm_le. intros i Hi. right. f_equal.
  unfold Csub, Cadd. cbn [fst snd]. f_equal; ring.
Qed.

(** ** layers of the transforms *)
Variable ztab : list C.
Hypothesis Z : table_near F fin val ztab.
Definition ep : R := 2 / 1000000000000000.
Lemma tab_entry k : (k < 1024)%nat -> let z := nth k exact_table Czero in let z' := nth k ztab d in
  cfin z' /\ Cm z = 1 /\ Cm (Csub (cv z') z) <= 15 / 10000000000000000.
Proof.
  intros Hk z z'. destruct Z as [_ H]. destruct (H k Hk) as [H1 [H2 H3]]. split; [split; assumption|]. split; [|exact H3].
  unfold z. rewrite table_nth, zeta_pow by exact Hk. unfold Cm, mod2, cis. cbn [fst snd]. assert (E := sin2_cos2 (PI * INR (brv 10 k) / 1024)). unfold Rsqr in E. rewrite Rplus_comm, E. apply sqrt_1.
Qed.
Lemma huge_40 x : x <= 10 ^ 41 -> x <= huge.
Proof. intros H. eapply Rle_trans; [exact H|]. unfold huge. apply Rle_pow; [lra|lia]. Qed.
Lemma mulz_err z z' y : cfin z' -> cfin y -> Cm z = 1 -> Cm (Csub (cv z') z) <= 15 / 10000000000000000 -> Cm (cv y) <= 10 ^ 41 ->
  cfin (fcmul F z' y) /\ Cm (Csub (cv (fcmul F z' y)) (Cmul z (cv y))) <= 1835 / 1000000000000000000 * Cm (cv y) + tiny.
Proof.
  intros Hz Hy Z1 Z2 By. assert (Bz : Cm (cv z') <= 1001 / 1000). { pose proof (Cm_le_add (cv z') z). lra. }
  destruct (cmul_err z' y Hz Hy) as [G1 G2]; [apply huge_40; eapply Rle_trans; [exact Bz|]; assert (1 <= 10 ^ 40) by (apply pow_R1_Rle; lra); cbn [pow] in *; lra|apply huge_40; exact By|].
  split; [exact G1|]. set (m := cv (fcmul F z' y)) in *.
  assert (T : Cm (Csub m (Cmul z (cv y))) <= Cm (Csub m (Cmul (cv z') (cv y))) + Cm (Csub (cv z') z) * Cm (cv y)).
  { rewrite <- Cm_mul. eapply Rle_trans; [|apply Cm_tri]. right. f_equal. apply Cx_eq; cx; ring. }
  pose proof (Cm_pos (cv y)) as P. rewrite ulp_val in G2.
  assert (Q1 : Cm (Csub (cv z') z) * Cm (cv y) <= 15 / 10000000000000000 * Cm (cv y)) by (apply Rmult_le_compat_r; assumption).
  assert (Q2 : Cm (cv z') * Cm (cv y) <= 1001 / 1000 * Cm (cv y)) by (apply Rmult_le_compat_r; assumption).
  lra.
Qed.
Lemma ct_point z z' x y : cfin z' -> cfin x -> cfin y -> Cm z = 1 -> Cm (Csub (cv z') z) <= 15 / 10000000000000000 -> Cm (cv x) <= 10 ^ 40 -> Cm (cv y) <= 10 ^ 40 ->
  (cfin (cadd F x (fcmul F z' y)) /\ Cm (Csub (cv (cadd F x (fcmul F z' y))) (Cadd (cv x) (Cmul z (cv y)))) <= ulp * Cm (Cadd (cv x) (Cmul z (cv y))) + 1836 / 1000000000000000000 * Cm (cv y) + 2 * tiny) /\
  (cfin (csub F x (fcmul F z' y)) /\ Cm (Csub (cv (csub F x (fcmul F z' y))) (Csub (cv x) (Cmul z (cv y)))) <= ulp * Cm (Csub (cv x) (Cmul z (cv y))) + 1836 / 1000000000000000000 * Cm (cv y) + 2 * tiny).
Proof.
  intros Hz Hx Hy Z1 Z2 Bx By. assert (P40 : 1 <= 10 ^ 40) by (apply pow_R1_Rle; lra). assert (T := tiny_pos). assert (P41 : 10 ^ 41 = 10 * 10 ^ 40) by reflexivity.
  assert (T1 : tiny <= 1). { pose proof tiny_huge. pose proof huge_big. nra. }
  destruct (mulz_err z z' y Hz Hy Z1 Z2) as [M1 M2]; [lra|]. set (m := fcmul F z' y) in *. pose proof (Cm_pos (cv y)) as Py. pose proof (Cm_pos (cv x)) as Px.
  assert (Ezy : Cm (Cmul z (cv y)) = Cm (cv y)) by (rewrite Cm_mul, Z1; ring).
  assert (Bm : Cm (cv m) <= 10 ^ 41). { pose proof (Cm_le_add (cv m) (Cmul z (cv y))). lra. }
  rewrite ulp_val in *. split.
  - destruct (cadd_err x m Hx M1) as [G1 G2]; [apply huge_40; lra|apply huge_40; exact Bm|]. split; [exact G1|].
    assert (T2 : Cm (Csub (cv (cadd F x m)) (Cadd (cv x) (Cmul z (cv y)))) <= Cm (Csub (cv (cadd F x m)) (Cadd (cv x) (cv m))) + Cm (Csub (cv m) (Cmul z (cv y)))).
    { eapply Rle_trans; [|apply Cm_tri]. right. f_equal. apply Cx_eq; cx; ring. }
    assert (T3 : Cm (Cadd (cv x) (cv m)) <= Cm (Cadd (cv x) (Cmul z (cv y))) + Cm (Csub (cv m) (Cmul z (cv y)))).
    { eapply Rle_trans; [|apply Cm_tri]. right. f_equal. apply Cx_eq; cx; ring. }
    rewrite ulp_val in G2. lra.
  - destruct (csub_err x m Hx M1) as [G1 G2]; [apply huge_40; lra|apply huge_40; exact Bm|]. split; [exact G1|].
    assert (T2 : Cm (Csub (cv (csub F x m)) (Csub (cv x) (Cmul z (cv y)))) <= Cm (Csub (cv (csub F x m)) (Csub (cv x) (cv m))) + Cm (Csub (cv m) (Cmul z (cv y)))).
    { rewrite (Cm_swap (cv m)). eapply Rle_trans; [|apply Cm_tri]. right. f_equal. apply Cx_eq; cx; ring. }
    assert (T3 : Cm (Csub (cv x) (cv m)) <= Cm (Csub (cv x) (Cmul z (cv y))) + Cm (Csub (cv m) (Cmul z (cv y)))).
    { rewrite (Cm_swap (cv m)). eapply Rle_trans; [|apply Cm_tri]. right. f_equal. apply Cx_eq; cx; ring. }
    rewrite ulp_val in G2. lra.
Qed.
Lemma gs_point z z' x y : cfin z' -> cfin x -> cfin y -> Cm z = 1 -> Cm (Csub (cv z') z) <= 15 / 10000000000000000 -> Cm (cv x) <= 10 ^ 40 -> Cm (cv y) <= 10 ^ 40 ->
  (cfin (cadd F x y) /\ Cm (Csub (cv (cadd F x y)) (Cadd (cv x) (cv y))) <= 1948 / 1000000000000000000 * Cm (Cadd (cv x) (cv y)) + 2 * tiny) /\
  (cfin (fcmul F (csub F x y) z') /\ Cm (Csub (cv (fcmul F (csub F x y) z')) (Cmul (Csub (cv x) (cv y)) z)) <= 1948 / 1000000000000000000 * Cm (Cmul (Csub (cv x) (cv y)) z) + 2 * tiny).
Proof.
  intros Hz Hx Hy Z1 Z2 Bx By. assert (P40 : 1 <= 10 ^ 40) by (apply pow_R1_Rle; lra). assert (T := tiny_pos). assert (P41 : 10 ^ 41 = 10 * 10 ^ 40) by reflexivity.
  split.
  - destruct (cadd_err x y Hx Hy) as [G1 G2]; [apply huge_40; lra|apply huge_40; lra|]. split; [exact G1|]. rewrite ulp_val in G2. pose proof (Cm_pos (Cadd (cv x) (cv y))). lra.
  - destruct (csub_err x y Hx Hy) as [G1 G2]; [apply huge_40; lra|apply huge_40; lra|]. set (w := csub F x y) in *. set (W := Csub (cv x) (cv y)) in *.
    assert (BW : Cm W <= 2 * 10 ^ 40) by (unfold W; pose proof (Cm_sub (cv x) (cv y)); lra). pose proof (Cm_pos W) as PW. rewrite ulp_val in G2.
    assert (Bw : Cm (cv w) <= 1001 / 1000 * Cm W) by (pose proof (Cm_le_add (cv w) W); lra).
    assert (Bz : Cm (cv z') <= 1001 / 1000). { pose proof (Cm_le_add (cv z') z). lra. }
    destruct (cmul_err w z' G1 Hz) as [M1 M2]; [apply huge_40; lra|apply huge_40; lra|]. split; [exact M1|]. rewrite ulp_val in M2.
    rewrite Cm_mul, Z1, Rmult_1_r.
    assert (T1 : Cm (Csub (cv (fcmul F w z')) (Cmul W z)) <= Cm (Csub (cv (fcmul F w z')) (Cmul (cv w) (cv z'))) + (Cm (Csub (cv w) W) * Cm (cv z') + Cm W * Cm (Csub (cv z') z))).
    { rewrite <- !Cm_mul. eapply Rle_trans; [|apply Rplus_le_compat_l; apply Cm_tri]. eapply Rle_trans; [|apply Cm_tri]. right. f_equal. apply Cx_eq; cx; ring. }
    pose proof (Cm_pos (cv z')) as Pz. pose proof (Cm_pos (cv w)) as Pw.
    assert (Q1 : Cm (Csub (cv w) W) * Cm (cv z') <= (1 / 9007199254740992 * Cm W) * (1001 / 1000)) by (apply Rmult_le_compat; [apply Cm_pos|exact Pz|exact G2|exact Bz]).
    assert (Q2 : Cm W * Cm (Csub (cv z') z) <= Cm W * (15 / 10000000000000000)) by (apply Rmult_le_compat_l; assumption).
    assert (Q3 : Cm (cv w) * Cm (cv z') <= (1001 / 1000 * Cm W) * (1001 / 1000)) by (apply Rmult_le_compat; assumption).
    lra.
Qed.

Notation ctl := (ctF C d (fcmul F) (csub F) (cadd F) ztab).
Notation cte := (ctF Cx Czero Cmul Csub Cadd exact_table).
Notation gsl := (gsF C d (cadd F) (csub F) (fcmul F) (map (cneg F) ztab)).
Notation gse := (gsF Cx Czero Cadd Csub Cmul (map Copp exact_table)).
Lemma blk_bound lg l p : (l < lg)%nat -> (p < 2 ^ lg)%nat -> (p / (2 * 2 ^ l) < 2 ^ (lg - 1 - l))%nat.
Proof. intros Hl Hp. apply Nat.div_lt_upper_bound; [pose proof (pow2_pos l); lia|]. rewrite (pow2_blocks lg l Hl) in Hp. lia. Qed.
Lemma blk_in lg l p : (l < lg)%nat -> (p < 2 ^ lg)%nat -> (p mod (2 * 2 ^ l) < 2 ^ l)%nat -> (p + 2 ^ l < 2 ^ lg)%nat.
Proof.
  intros Hl Hp Hm. assert (E := Nat.div_mod p (2 * 2 ^ l) ltac:(pose proof (pow2_pos l); lia)). assert (B := blk_bound lg l p Hl Hp). rewrite (pow2_blocks lg l Hl). nia.
Qed.
Lemma blk_in2 l p : (p mod (2 * 2 ^ l) < 2 ^ l)%nat \/ (2 ^ l <= p)%nat.
Proof. destruct (Nat.lt_ge_cases (p mod (2 * 2 ^ l)) (2 ^ l)); [left; assumption|right]. pose proof (Nat.mod_le p (2 * 2 ^ l) ltac:(pose proof (pow2_pos l); lia)). lia. Qed.
Lemma pow_1024 lg : (lg <= 10)%nat -> (2 ^ lg <= 1024)%nat.
Proof. intros H. change 1024%nat with (2 ^ 10)%nat. apply Nat.pow_le_mono_r; lia. Qed.
Lemma pow_half lg l : (l < lg)%nat -> (2 * 2 ^ (lg - 1 - l) <= 2 ^ lg)%nat.
Proof. intros H. replace (2 * 2 ^ (lg - 1 - l))%nat with (2 ^ (lg - l))%nat by (replace (lg - l)%nat with (S (lg - 1 - l)) by lia; reflexivity). apply Nat.pow_le_mono_r; lia. Qed.
Lemma cte_bf lg l y p : (l < lg)%nat -> length y = (2 ^ lg)%nat -> (p < 2 ^ lg)%nat ->
  L (cte lg l y) p = bf (2 ^ l) (fun b => nth (2 ^ (lg - 1 - l) + b) exact_table Czero) (L y) p.
Proof.
  intros Hl Ly Hp. unfold L, ctF. rewrite nth_tab by lia. unfold bfly, bf. destruct (_ <? _)%nat; reflexivity.
Qed.
Lemma gse_bi lg l y p : (l < lg)%nat -> length y = (2 ^ lg)%nat -> (p < 2 ^ lg)%nat ->
  L (gse lg l y) p = bi (2 ^ l) (fun b => nth (2 * 2 ^ (lg - 1 - l) - 1 - b) (map Copp exact_table) Czero) (L y) p.
Proof.
  intros Hl Ly Hp. unfold L, gsF. rewrite nth_tab by lia. unfold bfly, bi. destruct (_ <? _)%nat; reflexivity.
Qed.
Lemma ntab_entry k : (k < 1024)%nat -> let z := nth k (map Copp exact_table) Czero in let z' := nth k (map (cneg F) ztab) d in
  cfin z' /\ Cm z = 1 /\ Cm (Csub (cv z') z) <= 15 / 10000000000000000.
Proof.
  intros Hk. cbn zeta. destruct (tab_entry k Hk) as [H1 [H2 H3]]. destruct (cneg_ok _ H1) as [H4 H5].
  rewrite (nth_indep _ Czero (Copp Czero)) by (rewrite map_length, table_length; exact Hk). rewrite map_nth.
  rewrite (nth_indep _ d (cneg F d)) by (rewrite map_length; destruct Z as [-> _]; exact Hk). rewrite map_nth.
  split; [exact H4|]. split; [rewrite Cm_opp; exact H2|]. rewrite H5, <- Cm_opp. match goal with |- Cm ?a <= _ => replace a with (Csub (cv (nth k ztab d)) (nth k exact_table Czero)) by (apply Cx_eq; cx; ring) end. exact H3.
Qed.
Lemma sqrt_1024 n : (n <= 1024)%nat -> sqrt (INR n) <= 32.
Proof.
  intros H. replace 32 with (sqrt (32 * 32)) by (apply sqrt_square; lra). apply sqrt_le_1_alt. replace (32 * 32) with (INR 1024) by (rewrite INR_IZR_INZ; simpl; lra). apply le_INR, H.
Qed.
Lemma tiny_small K : th <= K -> 1000 * tiny <= 1 / 10 ^ 30 * K.
Proof.
  intros H. apply Rle_trans with (1 / 10 ^ 30 * th); [|apply Rmult_le_compat_l; [left; apply Rdiv_lt_0_compat; [lra|apply pow_lt; lra]|exact H]].
  unfold th, tiny. replace (10 ^ 100) with (10 ^ 30 * 10 ^ 40 * 10 ^ 30) by (rewrite <- !pow_add; reflexivity). assert (1000 <= 10 ^ 30) by (rewrite <- (pow_1 1000); apply Rle_trans with (10 ^ 3); [lra|apply Rle_pow; [lra|lia]]).
  assert (P3 : 0 < 10 ^ 30) by (apply pow_lt; lra). assert (P4 : 0 < 10 ^ 40) by (apply pow_lt; lra). generalize dependent (10 ^ 30). generalize dependent (10 ^ 40). intros a Ha b Hb Hb'.
  replace (1000 * / (b * a * b)) with ((1 / b * (1 / a)) * (1000 / b)) by (field; lra). rewrite <- (Rmult_1_r (1 / b * (1 / a))) at 2. apply Rmult_le_compat_l.
  - apply Rmult_le_pos; left; apply Rdiv_lt_0_compat; lra.
  - apply (Rmult_le_reg_r b); [exact Hb'|]. unfold Rdiv. rewrite Rmult_assoc, Rinv_l by lra. lra.
Qed.
Lemma pow30 : 1 / 10 ^ 30 <= 1 / 1000000000000000000000000000000. Proof. right. f_equal. simpl. ring. Qed.
Lemma ct_layer_err lg l v y e K : (lg <= 10)%nat -> (l < lg)%nat -> length y = (2 ^ lg)%nat -> apx (2 ^ lg) v (L y) e -> nrm (2 ^ lg) (L y) <= K -> 0 <= e <= K / 1000 -> th <= K <= 10 ^ 39 ->
  apx (2 ^ lg) (ctl lg l v) (L (cte lg l y)) (sqrt 2 * (e + ep * K)) /\ nrm (2 ^ lg) (L (cte lg l y)) <= sqrt 2 * K.
Proof.
  intros Hlg Hl Ly Ha HK He [K1 K2]. assert (V := Ha). destruct V as [[Lv Fv] Hn].
  set (n := (2 ^ lg)%nat) in *. set (z := fun b => nth (2 ^ (lg - 1 - l) + b) exact_table Czero).
  assert (B1024 : (n <= 1024)%nat) by (apply pow_1024; exact Hlg). assert (Ph := pow_half lg l Hl). fold n in Ph.
  assert (Hz : forall b, (b < 2 ^ (lg - 1 - l))%nat -> mod2 (z b) = 1).
  { intros b Hb. destruct (tab_entry (2 ^ (lg - 1 - l) + b)) as [_ [H _]]; [lia|]. rewrite <- Cm_sq. unfold z. rewrite H. ring. }
  assert (En : n = (2 ^ (lg - 1 - l) * (2 * 2 ^ l))%nat) by (apply pow2_blocks, Hl).
  assert (S2 := sqrt2_pos). assert (T := tiny_pos).
  assert (Nx : nrm n (X v) <= 1001 / 1000 * K) by (pose proof (apx_nrm _ _ _ _ Ha); lra).
  assert (Bx : forall i, (i < n)%nat -> Cm (X v i) <= 10 ^ 40).
  { intros i Hi. pose proof (nrm_comp n (X v) i Hi). assert (10 ^ 40 = 10 * 10 ^ 39) by reflexivity. assert (0 < 10 ^ 39) by (apply pow_lt; lra). lra. }
  assert (NB : nrm n (bf (2 ^ l) z (L y)) = sqrt 2 * nrm n (L y)) by (apply (bf_norm n _ _ z (L y) En Hz)).
  assert (Ext : forall p, (p < n)%nat -> L (cte lg l y) p = bf (2 ^ l) z (L y) p) by (intros p Hp; apply cte_bf; assumption).
  split.
  2:{ rewrite (nrm_ext n _ _ Ext), NB. apply Rmult_le_compat_l; lra. }
  assert (Pt : forall p, (p < n)%nat -> cfin (nth p (ctl lg l v) d) /\ Cm (Csub (X (ctl lg l v) p) (bf (2 ^ l) z (X v) p)) <= ulp * Cm (bf (2 ^ l) z (X v) p) + 1836 / 1000000000000000000 * Cm (bw (2 ^ l) (X v) p) + 2 * tiny).
  { intros p Hp. unfold X, ctF. rewrite nth_tab by lia. unfold bfly, bf, bw. assert (Bb := blk_bound lg l p Hl Hp). set (b := (p / (2 * 2 ^ l))%nat) in *.
    destruct (tab_entry (2 ^ (lg - 1 - l) + b)) as [Z1 [Z2 Z3]]; [lia|]. fold (z b) in Z2, Z3.
    destruct (Nat.ltb_spec (p mod (2 * 2 ^ l)) (2 ^ l)) as [Hm|Hm].
    - assert (Hp2 := blk_in lg l p Hl Hp Hm). fold n in Hp2. apply (ct_point (z b) _ (nth p v d) (nth (p + 2 ^ l) v d)); [exact Z1|apply Fv; exact Hp|apply Fv; exact Hp2|exact Z2|exact Z3|apply Bx; exact Hp|apply Bx; exact Hp2].
    - assert (Hp2 : (p - 2 ^ l < n)%nat) by lia. apply (ct_point (z b) _ (nth (p - 2 ^ l) v d) (nth p v d)); [exact Z1|apply Fv; exact Hp2|apply Fv; exact Hp|exact Z2|exact Z3|apply Bx; exact Hp2|apply Bx; exact Hp]. }
  apply (apx_ext n _ (bf (2 ^ l) z (L y))); [intros p Hp; symmetry; apply Ext, Hp|].
  assert (V2 : vfin n (ctl lg l v)) by (split; [rewrite ctF_length; exact Lv|intros i Hi; apply (Pt i Hi)]).
  assert (R1 : nrm n (fun p => Csub (X (ctl lg l v) p) (bf (2 ^ l) z (X v) p)) <= sqrt 2 * (ep * K)).
  { set (w := fun p => (ulp * Cm (bf (2 ^ l) z (X v) p) + 1836 / 1000000000000000000 * Cm (bw (2 ^ l) (X v) p), 0)).
    assert (Cw : forall p, Cm (w p) = ulp * Cm (bf (2 ^ l) z (X v) p) + 1836 / 1000000000000000000 * Cm (bw (2 ^ l) (X v) p)).
    { intros p. unfold w, Cm at 1, mod2. cbn [fst snd]. rewrite Rmult_0_l, Rplus_0_r. apply sqrt_square. pose proof (Cm_pos (bf (2 ^ l) z (X v) p)). pose proof (Cm_pos (bw (2 ^ l) (X v) p)). rewrite ulp_val. lra. }
    assert (N1 := nrm_bound n (fun p => Csub (X (ctl lg l v) p) (bf (2 ^ l) z (X v) p)) w 1 (2 * tiny) ltac:(lra) ltac:(lra)).
    assert (N2 : nrm n w <= ulp * nrm n (bf (2 ^ l) z (X v)) + 1836 / 1000000000000000000 * nrm n (bw (2 ^ l) (X v))).
    { unfold nrm at 1. eapply Rle_trans; [apply (rn_mono n _ (fun p => ulp * Cm (bf (2 ^ l) z (X v) p) + 1836 / 1000000000000000000 * Cm (bw (2 ^ l) (X v) p))); intros i Hi; rewrite Cw; split; [pose proof (Cm_pos (bf (2 ^ l) z (X v) i)); pose proof (Cm_pos (bw (2 ^ l) (X v) i)); rewrite ulp_val; lra|apply Rle_refl]|].
      eapply Rle_trans; [apply rn_tri|]. rewrite !rn_scal by (rewrite ?ulp_val; lra). apply Rle_refl. }
    assert (N3 := bf_norm n _ _ z (X v) En Hz). assert (N4 := bw_norm n _ _ (X v) En). rewrite N3 in N2.
    eapply Rle_trans; [apply N1; intros i Hi; rewrite Cw; destruct (Pt i Hi) as [_ H]; lra|].
    assert (Sn := sqrt_1024 n B1024). assert (Sn0 := sqrt_pos (INR n)). assert (Ts := tiny_small K K1).
    assert (S1 : 1 <= sqrt 2) by (rewrite <- sqrt_1 at 1; apply sqrt_le_1_alt; lra).
    assert (U1 : 2 * tiny * sqrt (INR n) <= 1000 * tiny) by nra.
    assert (U2 : sqrt 2 * nrm n (X v) <= sqrt 2 * (1001 / 1000 * K)) by (apply Rmult_le_compat_l; lra).
    assert (U3 : 1 * K <= sqrt 2 * K) by (apply Rmult_le_compat_r; [pose proof th_pos; lra|exact S1]).
    rewrite ulp_val in N2. unfold ep. pose proof pow30. assert (1 / 10 ^ 30 * K <= 1 / 1000000000000000000000000000000 * K) by (apply Rmult_le_compat_r; [pose proof th_pos; lra|assumption]).
    generalize dependent (1 / 10 ^ 30 * K). intros t30 Ts U4.
    replace (sqrt 2 * (2 / 1000000000000000 * K)) with (2 / 1000000000000000 * (sqrt 2 * K)) by ring.
    replace (sqrt 2 * (1001 / 1000 * K)) with (1001 / 1000 * (sqrt 2 * K)) in U2 by ring. lra. }
  assert (R2 : nrm n (fun p => Csub (bf (2 ^ l) z (X v) p) (bf (2 ^ l) z (L y) p)) <= sqrt 2 * e).
  { rewrite (nrm_ext n _ (bf (2 ^ l) z (fun i => Csub (X v i) (L y i)))) by (intros; apply bf_lin). rewrite (bf_norm n _ _ z _ En Hz). apply Rmult_le_compat_l; [lra|exact Hn]. }
  eapply apx_weak; [apply (apx_step n _ _ _ _ _ V2 R1 R2)|]. lra.
Qed.
Lemma gs_layer_err lg l v y e K : (lg <= 10)%nat -> (l < lg)%nat -> length y = (2 ^ lg)%nat -> apx (2 ^ lg) v (L y) e -> nrm (2 ^ lg) (L y) <= K -> 0 <= e <= K / 1000 -> th <= K <= 10 ^ 39 ->
  apx (2 ^ lg) (gsl lg l v) (L (gse lg l y)) (sqrt 2 * (e + ep * K)) /\ nrm (2 ^ lg) (L (gse lg l y)) <= sqrt 2 * K.
Proof.
  intros Hlg Hl Ly Ha HK He [K1 K2]. assert (V := Ha). destruct V as [[Lv Fv] Hn].
  set (n := (2 ^ lg)%nat) in *. set (z := fun b => nth (2 * 2 ^ (lg - 1 - l) - 1 - b) (map Copp exact_table) Czero).
  assert (B1024 : (n <= 1024)%nat) by (apply pow_1024; exact Hlg). assert (Ph := pow_half lg l Hl). fold n in Ph.
  assert (Hz : forall b, (b < 2 ^ (lg - 1 - l))%nat -> mod2 (z b) = 1).
  { intros b Hb. destruct (ntab_entry (2 * 2 ^ (lg - 1 - l) - 1 - b)) as [_ [H _]]; [lia|]. rewrite <- Cm_sq. unfold z. rewrite H. ring. }
  assert (En : n = (2 ^ (lg - 1 - l) * (2 * 2 ^ l))%nat) by (apply pow2_blocks, Hl).
  assert (S2 := sqrt2_pos). assert (T := tiny_pos).
  assert (Nx : nrm n (X v) <= 1001 / 1000 * K) by (pose proof (apx_nrm _ _ _ _ Ha); lra).
  assert (Bx : forall i, (i < n)%nat -> Cm (X v i) <= 10 ^ 40).
  { intros i Hi. pose proof (nrm_comp n (X v) i Hi). assert (10 ^ 40 = 10 * 10 ^ 39) by reflexivity. assert (0 < 10 ^ 39) by (apply pow_lt; lra). lra. }
  assert (NB : nrm n (bi (2 ^ l) z (L y)) = sqrt 2 * nrm n (L y)) by (apply (bi_norm n _ _ z (L y) En Hz)).
  assert (Ext : forall p, (p < n)%nat -> L (gse lg l y) p = bi (2 ^ l) z (L y) p) by (intros p Hp; apply gse_bi; assumption).
  split.
  2:{ rewrite (nrm_ext n _ _ Ext), NB. apply Rmult_le_compat_l; lra. }
  assert (Pt : forall p, (p < n)%nat -> cfin (nth p (gsl lg l v) d) /\ Cm (Csub (X (gsl lg l v) p) (bi (2 ^ l) z (X v) p)) <= 1948 / 1000000000000000000 * Cm (bi (2 ^ l) z (X v) p) + 2 * tiny).
  { intros p Hp. unfold X, gsF. rewrite nth_tab by lia. unfold bfly, bi. assert (Bb := blk_bound lg l p Hl Hp). set (b := (p / (2 * 2 ^ l))%nat) in *.
    destruct (ntab_entry (2 * 2 ^ (lg - 1 - l) - 1 - b)) as [Z1 [Z2 Z3]]; [lia|]. fold (z b) in Z2, Z3.
    destruct (Nat.ltb_spec (p mod (2 * 2 ^ l)) (2 ^ l)) as [Hm|Hm].
    - assert (Hp2 := blk_in lg l p Hl Hp Hm). fold n in Hp2. apply (gs_point (z b) (nth (2 * 2 ^ (lg - 1 - l) - 1 - b) (map (cneg F) ztab) d) (nth p v d) (nth (p + 2 ^ l) v d)); [exact Z1|apply Fv; exact Hp|apply Fv; exact Hp2|exact Z2|exact Z3|apply Bx; exact Hp|apply Bx; exact Hp2].
    - assert (Hp2 : (p - 2 ^ l < n)%nat) by lia. apply (gs_point (z b) (nth (2 * 2 ^ (lg - 1 - l) - 1 - b) (map (cneg F) ztab) d) (nth (p - 2 ^ l) v d) (nth p v d)); [exact Z1|apply Fv; exact Hp2|apply Fv; exact Hp|exact Z2|exact Z3|apply Bx; exact Hp2|apply Bx; exact Hp]. }
  apply (apx_ext n _ (bi (2 ^ l) z (L y))); [intros p Hp; symmetry; apply Ext, Hp|].
  assert (V2 : vfin n (gsl lg l v)) by (split; [rewrite gsF_length; exact Lv|intros i Hi; apply (Pt i Hi)]).
  assert (R1 : nrm n (fun p => Csub (X (gsl lg l v) p) (bi (2 ^ l) z (X v) p)) <= sqrt 2 * (ep * K)).
  { assert (N1 := nrm_bound n (fun p => Csub (X (gsl lg l v) p) (bi (2 ^ l) z (X v) p)) (bi (2 ^ l) z (X v)) (1948 / 1000000000000000000) (2 * tiny) ltac:(lra) ltac:(lra)).
    rewrite (bi_norm n _ _ z (X v) En Hz) in N1.
    eapply Rle_trans; [apply N1; intros i Hi; apply (Pt i Hi)|].
    assert (Sn := sqrt_1024 n B1024). assert (Sn0 := sqrt_pos (INR n)). assert (Ts := tiny_small K K1).
    assert (S1 : 1 <= sqrt 2) by (rewrite <- sqrt_1 at 1; apply sqrt_le_1_alt; lra).
    assert (U1 : 2 * tiny * sqrt (INR n) <= 1000 * tiny) by nra.
    assert (U2 : sqrt 2 * nrm n (X v) <= sqrt 2 * (1001 / 1000 * K)) by (apply Rmult_le_compat_l; lra).
    assert (U3 : 1 * K <= sqrt 2 * K) by (apply Rmult_le_compat_r; [pose proof th_pos; lra|exact S1]).
    unfold ep. pose proof pow30. assert (1 / 10 ^ 30 * K <= 1 / 1000000000000000000000000000000 * K) by (apply Rmult_le_compat_r; [pose proof th_pos; lra|assumption]).
    generalize dependent (1 / 10 ^ 30 * K). intros t30 Ts U4.
    replace (sqrt 2 * (2 / 1000000000000000 * K)) with (2 / 1000000000000000 * (sqrt 2 * K)) by ring.
    replace (sqrt 2 * (1001 / 1000 * K)) with (1001 / 1000 * (sqrt 2 * K)) in U2 by ring. lra. }
  assert (R2 : nrm n (fun p => Csub (bi (2 ^ l) z (X v) p) (bi (2 ^ l) z (L y) p)) <= sqrt 2 * e).
  { rewrite (nrm_ext n _ (bi (2 ^ l) z (fun i => Csub (X v i) (L y i)))) by (intros; apply bi_lin). rewrite (bi_norm n _ _ z _ En Hz). apply Rmult_le_compat_l; [lra|exact Hn]. }
  eapply apx_weak; [apply (apx_step n _ _ _ _ _ V2 R1 R2)|]. lra.
Qed.

(** ** whole transforms *)
Definition s2 (k : nat) : R := sqrt 2 ^ k.
Lemma s2_pos k : 0 < s2 k. Proof. apply pow_lt, sqrt2_pos. Qed.
Lemma s2_1 k : 1 <= s2 k. Proof. apply pow_R1_Rle. rewrite <- sqrt_1 at 1. apply sqrt_le_1_alt. lra. Qed.
Lemma s2_sq k : s2 k * s2 k = INR (2 ^ k).
Proof. unfold s2. rewrite <- Rpow_mult_distr, sqrt2_sq, pow_INR. f_equal. Qed.
Lemma s2_sqrt k : s2 k = sqrt (INR (2 ^ k)).
Proof. rewrite <- s2_sq, sqrt_square; [reflexivity|left; apply s2_pos]. Qed.
Lemma s2_32 k : (k <= 10)%nat -> s2 k <= 32.
Proof. intros H. rewrite s2_sqrt. apply sqrt_1024, pow_1024, H. Qed.
Lemma s2_S k : s2 (S k) = sqrt 2 * s2 k. Proof. reflexivity. Qed.
Lemma s2_mono k k' : (k <= k')%nat -> s2 k <= s2 k'.
Proof. intros H. apply Rle_pow; [rewrite <- sqrt_1 at 1; apply sqrt_le_1_alt; lra|exact H]. Qed.
Lemma ct_iter_err lg k : (lg <= 10)%nat -> (k <= lg)%nat -> forall v y e K, length y = (2 ^ lg)%nat -> apx (2 ^ lg) v (L y) e -> nrm (2 ^ lg) (L y) <= K -> 0 <= e -> e + INR k * ep * K <= K / 1000 ->
  th <= K -> s2 k * K <= 10 ^ 39 ->
  apx (2 ^ lg) (ct_iter C d (fcmul F) (csub F) (cadd F) ztab lg k v) (L (ct_iter Cx Czero Cmul Csub Cadd exact_table lg k y)) (s2 k * (e + INR k * ep * K)).
Proof.
  intros Hlg. induction k as [|k IH]; intros Hk v y e K Ly Ha HK He E1 K1 K2.
  - cbn [ct_iter]. eapply apx_weak; [exact Ha|]. unfold s2. simpl. lra.
  - cbn [ct_iter]. assert (S2 := sqrt2_pos). assert (Sk := s2_1 k). assert (T := th_pos). rewrite s2_S in K2 |- *. rewrite S_INR in *. pose proof (pos_INR k) as Pk.
    assert (S1 : 1 <= sqrt 2) by (rewrite <- sqrt_1 at 1; apply sqrt_le_1_alt; lra).
    assert (Ep : 0 <= INR k * ep * K) by (unfold ep; apply Rmult_le_pos; [apply Rmult_le_pos|]; lra). assert (Ep1 : 0 <= ep * K) by (unfold ep; apply Rmult_le_pos; lra).
    assert (K0 : 1 * K <= sqrt 2 * K) by (apply Rmult_le_compat_r; lra).
    assert (K3 : sqrt 2 * K <= s2 k * (sqrt 2 * K)). { rewrite <- (Rmult_1_l (sqrt 2 * K)) at 1. apply Rmult_le_compat_r; lra. }
    replace (s2 k * (sqrt 2 * K)) with (sqrt 2 * s2 k * K) in K3 by ring.
    replace ((INR k + 1) * ep * K) with (INR k * ep * K + ep * K) in * by ring.
    destruct (ct_layer_err lg k v y e K Hlg ltac:(lia) Ly Ha HK) as [G1 G2]; [lra|split; lra|].
    eapply apx_weak; [apply (IH ltac:(lia) (ctl lg k v) (cte lg k y) (sqrt 2 * (e + ep * K)) (sqrt 2 * K))|].
    + rewrite ctF_length; exact Ly.
    + exact G1.
    + exact G2.
    + apply Rmult_le_pos; lra.
    + replace (sqrt 2 * (e + ep * K) + INR k * ep * (sqrt 2 * K)) with (sqrt 2 * (e + (INR k * ep * K + ep * K))) by ring. replace (sqrt 2 * K / 1000) with (sqrt 2 * (K / 1000)) by (unfold Rdiv; ring). apply Rmult_le_compat_l; lra.
    + lra.
    + lra.
    + right. ring.
Qed.
Lemma gs_iter_err lg k : (lg <= 10)%nat -> (k <= lg)%nat -> forall v y e K, length y = (2 ^ lg)%nat -> apx (2 ^ lg) v (L y) e -> nrm (2 ^ lg) (L y) <= K -> 0 <= e -> e + INR k * ep * K <= K / 1000 ->
  th <= K -> s2 k * K <= 10 ^ 39 ->
  apx (2 ^ lg) (gs_iter C d (cadd F) (csub F) (fcmul F) (map (cneg F) ztab) lg k v) (L (gs_iter Cx Czero Cadd Csub Cmul (map Copp exact_table) lg k y)) (s2 k * (e + INR k * ep * K)) /\
  nrm (2 ^ lg) (L (gs_iter Cx Czero Cadd Csub Cmul (map Copp exact_table) lg k y)) <= s2 k * K.
Proof.
  intros Hlg. induction k as [|k IH]; intros Hk v y e K Ly Ha HK He E1 K1 K2.
  - cbn [gs_iter]. unfold s2. cbn [pow INR]. split; [eapply apx_weak; [exact Ha|]|]; lra.
  - cbn [gs_iter]. assert (S2 := sqrt2_pos). assert (Sk := s2_1 k). assert (T := th_pos). rewrite s2_S in K2 |- *. rewrite S_INR in *. pose proof (pos_INR k) as Pk.
    assert (S1 : 1 <= sqrt 2) by (rewrite <- sqrt_1 at 1; apply sqrt_le_1_alt; lra).
    assert (Ep : 0 <= INR k * ep * K) by (unfold ep; apply Rmult_le_pos; [apply Rmult_le_pos|]; lra). assert (Ep1 : 0 <= ep * K) by (unfold ep; apply Rmult_le_pos; lra).
    replace ((INR k + 1) * ep * K) with (INR k * ep * K + ep * K) in * by ring.
    assert (P1 : 1 * K <= s2 k * K) by (apply Rmult_le_compat_r; lra).
    assert (K3 : 1 * (s2 k * K) <= sqrt 2 * (s2 k * K)) by (apply Rmult_le_compat_r; lra).
    replace (sqrt 2 * (s2 k * K)) with (sqrt 2 * s2 k * K) in K3 by ring.
    destruct (IH ltac:(lia) v y e K Ly Ha HK He ltac:(lra) K1 ltac:(lra)) as [G1 G2].
    destruct (gs_layer_err lg k _ (gs_iter Cx Czero Cadd Csub Cmul (map Copp exact_table) lg k y) _ (s2 k * K) Hlg ltac:(lia) ltac:(rewrite gs_iter_length; exact Ly) G1 G2) as [H1 H2].
    + split; [apply Rmult_le_pos; lra|]. replace (s2 k * K / 1000) with (s2 k * (K / 1000)) by (unfold Rdiv; ring). apply Rmult_le_compat_l; lra.
    + split; lra.
    + split; [eapply apx_weak; [exact H1|]; right; ring|]. rewrite Rmult_assoc. exact H2.
Qed.
Lemma ep_lg lg K : (lg <= 10)%nat -> 0 <= K -> 0 <= INR lg * ep * K /\ INR lg * ep * K <= K / 2000.
Proof.
  intros H HK. assert (H1 : INR lg <= 10) by (replace 10 with (INR 10) by (simpl; lra); apply le_INR, H). pose proof (pos_INR lg).
  assert (0 <= ep * K) by (unfold ep; apply Rmult_le_pos; lra). rewrite Rmult_assoc. split; [apply Rmult_le_pos; lra|].
  apply Rle_trans with (10 * (ep * K)); [apply Rmult_le_compat_r; lra|]. unfold ep. lra.
Qed.
(** the forward transform of an approximation of v *)
Lemma fft_err lg l v e K : (lg <= 10)%nat -> length v = (2 ^ lg)%nat -> apx (2 ^ lg) l (L v) e -> nrm (2 ^ lg) (L v) <= K -> 0 <= e <= K / 2000 -> th <= K <= 10 ^ 37 ->
  exists w, fft F ztab lg l = Ok w /\ apx (2 ^ lg) w (ev (cpof (2 ^ lg) v)) (s2 lg * (e + INR lg * ep * K)).
Proof.
  intros Hlg Lv Ha HK He [K1 K2]. assert (Ll : length l = (2 ^ lg)%nat) by apply Ha. assert (B := pow_1024 lg Hlg).
  destruct Z as [Lz _]. eexists. split; [unfold fft; apply (ct_ok C d); [exact Ll|lia]|].
  assert (E : ct_iter Cx Czero Cmul Csub Cadd exact_table lg lg v = ft (cpof (2 ^ lg) v)).
  { assert (E := fft_ok lg v Hlg Lv). unfold fft in E. change (ct Cx Cmul Csub Cadd exact_table lg v = Ok (ft (cpof (2 ^ lg) v))) in E.
    rewrite (ct_ok Cx Czero) in E by (rewrite ?table_length; lia). injection E as E. exact E. }
  assert (T := th_pos). destruct (ep_lg lg K Hlg ltac:(lra)) as [E1 E2].
  assert (G := ct_iter_err lg lg Hlg (le_n _) l v e K Lv Ha HK ltac:(lra) ltac:(lra) K1).
  rewrite E in G. apply (apx_ext _ _ (L (ft (cpof (2 ^ lg) v)))); [intros i Hi; apply nth_ft, Hi|]. apply G.
  pose proof (s2_32 lg Hlg). pose proof (s2_pos lg). apply Rle_trans with (32 * 10 ^ 37); [apply Rmult_le_compat; lra|]. replace (10 ^ 39) with (100 * 10 ^ 37) by (cbn [pow]; ring). assert (0 < 10 ^ 37) by (apply pow_lt; lra). lra.
Qed.
(** the inverse transform of an approximation of the values of p *)
Lemma ifft_err lg l (p : cpv (2 ^ lg)) e K : (lg <= 10)%nat -> apx (2 ^ lg) l (ev p) e -> nrm (2 ^ lg) (ev p) <= K -> 0 <= e <= K / 2000 -> th <= K <= 10 ^ 37 ->
  exists w, ifft F ztab lg l = Ok w /\ apx (2 ^ lg) w (cc p) ((e + INR (S lg) * ep * K) / s2 lg).
Proof.
  intros Hlg Ha HK He [K1 K2]. assert (Ll : length l = (2 ^ lg)%nat) by apply Ha. assert (B := pow_1024 lg Hlg).
  assert (Ha2 : apx (2 ^ lg) l (L (ft p)) e) by (apply (apx_ext _ _ (ev p)); [intros i Hi; symmetry; apply nth_ft, Hi|exact Ha]).
  assert (HK2 : nrm (2 ^ lg) (L (ft p)) <= K) by (rewrite (nrm_ext _ _ (ev p)); [exact HK|intros i Hi; apply nth_ft, Hi]).
  assert (Lz : length ztab = 1024%nat) by apply Z. set (s := fdiv F (fofz F 1) (fofz F (Z.of_nat (2 ^ lg)))).
  exists (map (fun x => cscal F x s) (gs_iter C d (cadd F) (csub F) (fcmul F) (map (cneg F) ztab) lg lg l)).
  split; [unfold ifft; apply (gs_ok C d); rewrite ?map_length; lia|].
  assert (T := th_pos). destruct (ep_lg lg K Hlg ltac:(lra)) as [E1 E2]. pose proof (s2_32 lg Hlg) as S32. pose proof (s2_pos lg) as Sp. pose proof (s2_1 lg) as S1.
  assert (K37 : s2 lg * K <= 32 * 10 ^ 37) by (apply Rmult_le_compat; lra). assert (P37 : 0 < 10 ^ 37) by (apply pow_lt; lra). assert (P39 : 10 ^ 39 = 100 * 10 ^ 37) by (cbn [pow]; ring).
  destruct (gs_iter_err lg lg Hlg (le_n _) l (ft p) e K (ft_length _ _) Ha2 HK2 ltac:(lra) ltac:(lra) K1 ltac:(lra)) as [G1 G2].
  set (n := (2 ^ lg)%nat) in *. set (v := gs_iter C d (cadd F) (csub F) (fcmul F) (map (cneg F) ztab) lg lg l) in *. set (y := gs_iter Cx Czero Cadd Csub Cmul (map Copp exact_table) lg lg (ft p)) in *.
  assert (Ly : length y = n) by (unfold y; rewrite gs_iter_length; apply ft_length).
  assert (Ey : forall i, (i < n)%nat -> cc p i = Cscal (L y i) (inv2 lg)).
  { assert (E := ifft_ok lg p Hlg). unfold ifft in E. change (gs Cx Cadd Csub Cmul (map Copp exact_table) (fun x => Cscal x (inv2 lg)) lg (ft p) = Ok (cpl p)) in E.
    rewrite (gs_ok Cx Czero) in E by (rewrite ?map_length, ?table_length, ?ft_length; lia). fold y in E. assert (E' : map (fun x => Cscal x (inv2 lg)) y = cpl p) by (injection E as E; exact E).
    intros i Hi. unfold pc. rewrite <- E'. rewrite (nth_indep _ Czero (Cscal Czero (inv2 lg))) by (rewrite map_length, Ly; exact Hi). rewrite (map_nth (fun x => Cscal x (inv2 lg))). reflexivity. }
  destruct G1 as [[Lv Fv] Gn]. assert (Hn : (0 < n)%nat) by apply pow2_pos.
  (* the factor *)
  assert (Nr : 1 <= INR n <= 1024). { split; [replace 1 with (INR 1) by reflexivity; apply le_INR; lia|]. replace 1024 with (INR 1024) by (rewrite INR_IZR_INZ; simpl; lra). apply le_INR, B. }
  assert (Zn : (Z.abs (Z.of_nat n) <= 2 ^ 53)%Z). { assert (Z.of_nat n <= 1024)%Z by lia. change (2 ^ 53)%Z with 9007199254740992%Z. lia. }
  destruct (acc_int _ _ _ A _ Zn) as [I1 I2]. destruct (acc_int _ _ _ A 1%Z ltac:(cbv; discriminate)) as [I3 I4]. rewrite <- INR_IZR_INZ in I2.
  destruct (acc_div _ _ _ A (fofz F 1) (fofz F (Z.of_nat n)) I3 I1) as [D1 D2].
  { rewrite I4, Rabs_right by lra. apply huge_big. } { rewrite I2, Rabs_right by lra. lra. }
  fold s in D1, D2. rewrite I2, I4 in D2. assert (T0 := tiny_pos).
  assert (Ti : tiny <= 1 / 1000000 * ulp * (1 / INR n)).
  { assert (T1 := tiny_small th (Rle_refl _)). assert (tiny <= 1 / 10 ^ 40).
    { assert (1 / 10 ^ 30 <= 1). { apply (Rmult_le_reg_r (10 ^ 30)); [apply pow_lt; lra|]. unfold Rdiv. rewrite Rmult_assoc, Rinv_l by (apply pow_nonzero; lra). assert (1 <= 10 ^ 30) by (apply pow_R1_Rle; lra). lra. }
      assert (1 / 10 ^ 30 * th <= 1 * th) by (apply Rmult_le_compat_r; lra). unfold th in *. lra. }
    assert (N1 : 1 / 1024 <= 1 / INR n) by (unfold Rdiv; rewrite !Rmult_1_l; apply Rinv_le_contravar; lra).
    assert (M1 : 1 / 1000000 * ulp * (1 / 1024) <= 1 / 1000000 * ulp * (1 / INR n)) by (apply Rmult_le_compat_l; [rewrite ulp_val|]; lra). eapply Rle_trans; [|exact M1]. eapply Rle_trans; [exact H|]. rewrite ulp_val. cbn [pow]. lra. }
  assert (In : 0 < 1 / INR n) by (apply Rdiv_lt_0_compat; lra). rewrite (Rabs_right (1 / INR n)) in D2 by lra. rewrite ulp_val in *.
  assert (Sv : Rabs (val s) <= 1001 / 1000 * (1 / INR n)). { replace (val s) with ((val s - 1 / INR n) + 1 / INR n) by ring. eapply Rle_trans; [apply Rabs_triang|]. rewrite (Rabs_right (1 / INR n)) by lra. lra. }
  assert (In1 : 1 / INR n <= 1). { apply (Rmult_le_reg_r (INR n)); [lra|]. unfold Rdiv. rewrite Rmult_1_l, Rinv_l; lra. }
  assert (Svh : Rabs (val s) <= huge) by (pose proof huge_big; unfold huge in *; apply huge_40; assert (1 <= 10 ^ 40) by (apply pow_R1_Rle; lra); replace (10 ^ 41) with (10 * 10 ^ 40) by reflexivity; lra).
  assert (Nv : nrm n (X v) <= 1001 / 1000 * (s2 lg * K)).
  { pose proof (nrm_le_add n (X v) (L y)). assert (s2 lg * (e + INR lg * ep * K) <= s2 lg * (K / 1000)) by (apply Rmult_le_compat_l; lra). lra. }
  assert (Bv : forall i, (i < n)%nat -> Cm (X v i) <= 10 ^ 39) by (intros i Hi; pose proof (nrm_comp n (X v) i Hi); lra).
  assert (Pt : forall i, (i < n)%nat -> cfin (nth i (map (fun x => cscal F x s) v) d) /\ Cm (Csub (X (map (fun x => cscal F x s) v) i) (Cscal (X v i) (inv2 lg))) <= 3 / 9007199254740992 * (1 / INR n) * Cm (X v i) + 2 * tiny).
  { intros i Hi. assert (En : nth i (map (fun x => cscal F x s) v) d = cscal F (nth i v d) s).
    { rewrite (nth_indep _ d (cscal F d s)) by (rewrite map_length; lia). apply (map_nth (fun x => cscal F x s)). }
    destruct (cscal_err (nth i v d) s (Fv i Hi) D1) as [G1 G3]; [apply huge_40; fold (X v i); specialize (Bv i Hi); replace (10 ^ 41) with (100 * 10 ^ 39) by (cbn [pow]; ring); lra|exact Svh|].
    unfold X. rewrite En. split; [exact G1|]. fold (X v i) in *. pose proof (Cm_pos (X v i)) as Pv. rewrite ulp_val in G3.
    assert (T3 : Cm (Csub (cv (cscal F (nth i v d) s)) (Cscal (X v i) (inv2 lg))) <= Cm (Csub (cv (cscal F (nth i v d) s)) (Cscal (X v i) (val s))) + Cm (X v i) * Rabs (val s - 1 / INR n)).
    { replace (Cm (X v i) * Rabs (val s - 1 / INR n)) with (Cm (Cscal (X v i) (val s - 1 / INR n))).
      - eapply Rle_trans; [|apply Cm_tri]. right. f_equal. rewrite inv2_val. fold n. apply Cx_eq; unfold Cscal; cx; unfold Rdiv; ring.
      - unfold Cm. replace (mod2 (Cscal (X v i) (val s - 1 / INR n))) with (mod2 (X v i) * Rsqr (val s - 1 / INR n)) by (unfold mod2, Cscal, Rsqr; cbn [fst snd]; ring).
        rewrite sqrt_mult, sqrt_Rsqr_abs; [reflexivity|apply mod2_pos|apply Rle_0_sqr]. }
    assert (Q1 : Cm (X v i) * Rabs (val s - 1 / INR n) <= Cm (X v i) * (11 / 10 / 9007199254740992 * (1 / INR n))) by (apply Rmult_le_compat_l; lra).
    assert (Q2 : Cm (X v i) * Rabs (val s) <= Cm (X v i) * (1001 / 1000 * (1 / INR n))) by (apply Rmult_le_compat_l; lra).
    assert (Q3 : 0 <= Cm (X v i) * (1 / INR n)) by (apply Rmult_le_pos; lra). lra. }
  apply (apx_ext n _ (fun i => Cscal (L y i) (inv2 lg))); [intros i Hi; symmetry; apply Ey, Hi|].
  assert (V2 : vfin n (map (fun x => cscal F x s) v)) by (split; [rewrite map_length; exact Lv|intros i Hi; apply (Pt i Hi)]).
  assert (Sinv : forall x, s2 lg * x * (1 / INR n) = x / s2 lg) by (intros x; unfold n; rewrite <- s2_sq; field; lra).
  assert (R1 : nrm n (fun i => Csub (X (map (fun x => cscal F x s) v) i) (Cscal (X v i) (inv2 lg))) <= ep * K / s2 lg).
  { eapply Rle_trans; [apply (nrm_bound n _ (X v) (3 / 9007199254740992 * (1 / INR n)) (2 * tiny)); [lra|lra|intros i Hi; apply (Pt i Hi)]|].
    assert (Sn := sqrt_1024 n B). assert (Sn0 := sqrt_pos (INR n)). assert (Ts := tiny_small K K1).
    assert (U1 : 2 * tiny * sqrt (INR n) <= 100 * tiny) by nra.
    assert (U2 : 3 / 9007199254740992 * (1 / INR n) * nrm n (X v) <= 3 / 9007199254740992 * (1 / INR n) * (1001 / 1000 * (s2 lg * K))) by (apply Rmult_le_compat_l; lra).
    replace (3 / 9007199254740992 * (1 / INR n) * (1001 / 1000 * (s2 lg * K))) with (3003 / 9007199254740992000 * (s2 lg * K * (1 / INR n))) in U2 by (field; lra).
    rewrite Sinv in U2. replace (ep * K / s2 lg) with (ep * (K / s2 lg)) by (unfold Rdiv; ring).
    assert (U3 : K / 32 <= K / s2 lg) by (unfold Rdiv; apply Rmult_le_compat_l; [lra|apply Rinv_le_contravar; lra]).
    pose proof pow30. assert (1 / 10 ^ 30 * K <= 1 / 1000000000000000000000000000000 * K) by (apply Rmult_le_compat_r; lra).
    generalize dependent (1 / 10 ^ 30 * K). intros t30 Ts U4. unfold ep. lra. }
  assert (R2 : nrm n (fun i => Csub (Cscal (X v i) (inv2 lg)) (Cscal (L y i) (inv2 lg))) <= (e + INR lg * ep * K) / s2 lg).
  { rewrite <- Sinv. eapply Rle_trans; [|rewrite Rmult_comm; apply Rmult_le_compat_l; [lra|exact Gn]].
    eapply Rle_trans; [apply (nrm_bound n _ (fun i => Csub (X v i) (L y i)) (1 / INR n) 0); [lra|lra|]|right; ring].
    intros i Hi. right. replace (Csub (Cscal (X v i) (inv2 lg)) (Cscal (L y i) (inv2 lg))) with (Cmul (1 / INR n, 0) (Csub (X v i) (L y i))).
    - rewrite Cm_mul. replace (Cm (1 / INR n, 0)) with (1 / INR n); [ring|]. unfold Cm, mod2. cbn [fst snd]. rewrite Rmult_0_l, Rplus_0_r, sqrt_square by lra. reflexivity.
    - rewrite inv2_val. fold n. apply Cx_eq; unfold Cscal; cx; unfold Rdiv; ring. }
  eapply apx_weak; [apply (apx_step n _ _ _ _ _ V2 R1 R2)|]. rewrite S_INR. right. field. lra.
Qed.
End Err.
