(** P_float.v -- fft, ifft and products of integer polynomials in rounded arithmetic: the statements of T_float. *)
From Verif Require Import Base Ring Poly Spec SpecR SpecF M_xform P_xform M_codec P_codec M_float M_exact M_samp M_fft M_ntru P_ntru M_tree P_brv P_cplx P_fft P_tree P_treex P_gs P_sign P_signx P_l2 P_err P_ferr.
From Coq Require Import Ring_theory Ring Lra Psatz.
Open Scope R_scope.

Lemma Cnorm2_sigma (a : list Cx) : Cnorm2 a = Rsigma (length a) (fun i => mod2 (nth i a Czero)).
Proof.
  assert (S : forall n f, Rsigma (S n) f = f 0%nat + Rsigma n (fun i => f (S i))).
  { induction n as [|n IH]; intros f; [cbn; ring|]. change (Rsigma (S (S n)) f) with (Rsigma (S n) f + f (S n)). rewrite IH. change (Rsigma (S n) (fun i => f (S i))) with (Rsigma n (fun i => f (S i)) + f (S n)). ring. }
  induction a as [|x a IH]; [reflexivity|]. cbn [length]. rewrite S. change (Cnorm2 (x :: a)) with (fst x * fst x + snd x * snd x + Cnorm2 a). rewrite IH. reflexivity.
Qed.
Lemma vnorm_nrm (a : list Cx) : vnorm a = nrm (length a) (L a).
Proof. unfold vnorm. rewrite Cnorm2_sigma. apply (f_equal sqrt). apply Rsigma_ext. intros i _. symmetry. apply Cm_sq. Qed.

Section Fl.
Variable F : fops.
Variable fin : D F -> Prop.
Variable val : D F -> R.
Hypothesis A : accurate F fin val.
Notation C := (D F * D F)%type.
Lemma approx_apx (l : list C) v e : approx F fin val l v e <-> apx F fin val (length v) l (L v) e.
Proof.
  assert (E : length l = length v -> vnorm (Cminus (length v) (map (cval val) l) v) = nrm (length v) (fun i => Csub (X F val l i) (L v i))).
  { intros Ll. rewrite vnorm_nrm. unfold Cminus at 1. rewrite tab_length. apply nrm_ext. intros i Hi. unfold Cminus, L. rewrite nth_tab by exact Hi. f_equal.
    rewrite (nth_indep _ Czero (cval val (c0 F))) by (rewrite map_length; lia). rewrite map_nth. reflexivity. }
  split.
  - intros (H1 & H2 & H3). rewrite E in H3 by exact H1. split; [split; [exact H1|]|exact H3]. intros i Hi. rewrite Forall_forall in H2. apply H2, nth_In. lia.
  - intros [[H1 H2] H3]. split; [exact H1|]. split; [|rewrite E by exact H1; exact H3]. apply Forall_forall. intros x Hx. apply (In_nth _ _ (c0 F)) in Hx. destruct Hx as [i [Hi <-]]. apply H2. lia.
Qed.
Variable ztab : list C.
Hypothesis HZ : table_near F fin val ztab.

Lemma fft_approx lg l v e K : (lg <= 10)%nat -> length v = (2 ^ lg)%nat -> approx F fin val l v e -> vnorm v <= K -> 0 <= e <= K / 2000 -> / 10 ^ 40 <= K <= 10 ^ 37 ->
  exists w, fft F ztab lg l = Ok w /\ approx F fin val w (values lg v) (sqrt (INR (2 ^ lg)) * (e + INR lg * (2 / 10 ^ 15) * K)).
Proof.
  intros Hlg Lv Ha HK He Hk. apply approx_apx in Ha. rewrite vnorm_nrm in HK. rewrite Lv in *.
  destruct (fft_err F fin val A ztab HZ lg l v e K Hlg Lv Ha HK He) as (w & E & Hw); [unfold th; lra|]. exists w. split; [exact E|].
  apply approx_apx. rewrite values_ft by exact Lv. rewrite ft_length. rewrite <- s2_sqrt.
  apply (apx_ext _ _ _ _ _ (ev (cpof (2 ^ lg) v))); [intros i Hi; symmetry; apply nth_ft, Hi|]. eapply apx_weak; [exact Hw|]. right. unfold ep. simpl pow. lra.
Qed.
Lemma ifft_approx lg l v e K : (lg <= 10)%nat -> length v = (2 ^ lg)%nat -> approx F fin val l (values lg v) e -> vnorm (values lg v) <= K -> 0 <= e <= K / 2000 -> / 10 ^ 40 <= K <= 10 ^ 37 ->
  exists w, ifft F ztab lg l = Ok w /\ approx F fin val w v ((e + (INR lg + 1) * (2 / 10 ^ 15) * K) / sqrt (INR (2 ^ lg))).
Proof.
  intros Hlg Lv Ha HK He Hk. rewrite values_ft in * by exact Lv. apply approx_apx in Ha. rewrite vnorm_nrm in HK. rewrite ft_length in *.
  set (p := cpof (2 ^ lg) v) in *.
  destruct (ifft_err F fin val A ztab HZ lg l p e K Hlg) as (w & E & Hw); [apply (apx_ext _ _ _ _ _ (L (ft p))); [intros i Hi; apply nth_ft, Hi|exact Ha]| |exact He|unfold th; lra|].
  { rewrite (nrm_ext _ _ (L (ft p))); [exact HK|]. intros i Hi. symmetry. apply nth_ft, Hi. }
  exists w. split; [exact E|]. apply approx_apx. rewrite Lv, <- s2_sqrt.
  apply (apx_ext _ _ _ _ _ (cc p)); [intros i Hi; unfold p; apply pc_ofl, Hi|]. eapply apx_weak; [exact Hw|]. right. rewrite S_INR. unfold ep. f_equal. simpl pow. lra.
Qed.

(** integer vectors *)
Definition small31 (x : Z) : Prop := (-2147483647 <= x <= 2147483647)%Z.
Lemma small31_nth (a : list Z) i : Forall small31 a -> small31 (nth i a 0%Z).
Proof.
  intros H. destruct (Nat.lt_ge_cases i (length a)) as [Hi|Hi]; [rewrite Forall_forall in H; apply H, nth_In, Hi|]. rewrite nth_overflow by exact Hi. unfold small31. lia.
Qed.
Lemma small31_nrm lg (a : list Z) : (lg <= 10)%nat -> Forall small31 a -> nrm (2 ^ lg) (cc (emb (ofl Z 0%Z (2 ^ lg) a))) <= 68719476736.
Proof.
  intros Hlg H. eapply Rle_trans; [apply (nrm_sup _ _ 2147483647 ltac:(lra))|].
  - intros i Hi. rewrite emb_c, pc_ofl by exact Hi. unfold Cz. assert (S := small31_nth a i H). unfold small31 in S. unfold Cm, mod2. cbn [fst snd]. rewrite Rmult_0_l, Rplus_0_r.
    replace (IZR (nth i a 0%Z) * IZR (nth i a 0%Z)) with (Rsqr (IZR (nth i a 0%Z))) by reflexivity. rewrite sqrt_Rsqr_abs, <- abs_IZR. apply IZR_le. lia.
  - assert (S := sqrt_1024 _ (pow_1024 lg Hlg)). apply Rle_trans with (32 * 2147483647); [apply Rmult_le_compat_r; lra|lra].
Qed.
(** the transform of an integer vector of norm at most K *)
Lemma fft_ints lg (a : list Z) K : (lg <= 10)%nat -> length a = (2 ^ lg)%nat -> (forall i, (i < 2 ^ lg)%nat -> Z.abs (nth i a 0%Z) <= 2 ^ 53)%Z ->
  nrm (2 ^ lg) (cc (emb (ofl Z 0%Z (2 ^ lg) a))) <= K -> 1 <= K <= 10 ^ 30 ->
  exists l w, of_ints F lg a = Ok l /\ fft F ztab lg l = Ok w /\ apx F fin val (2 ^ lg) w (ev (emb (ofl Z 0%Z (2 ^ lg) a))) (s2 lg * (INR lg * ep * K)).
Proof.
  intros Hlg La Ba HK Hk. destruct (of_ints_apx F fin val A lg a La Ba) as (l & E & Hl).
  assert (P : 10 ^ 30 <= 10 ^ 37) by (apply Rle_pow; [lra|lia]). assert (T := th_pos).
  assert (T1 : th <= 1). { unfold th. apply (Rmult_le_reg_r (10 ^ 40)); [apply pow_lt; lra|]. unfold Rdiv. rewrite Rmult_assoc, Rinv_l by (apply pow_nonzero; lra). assert (1 <= 10 ^ 40) by (apply pow_R1_Rle; lra). lra. }
  destruct (fft_err F fin val A ztab HZ lg l (cpl (emb (ofl Z 0%Z (2 ^ lg) a))) 0 K Hlg) as (w & Ew & Hw); [apply pl_length|exact Hl|exact HK|lra|lra|].
  exists l, w. split; [exact E|]. split; [exact Ew|]. rewrite (ofl_pl Cx Czero) in Hw. eapply apx_weak; [exact Hw|lra].
Qed.
Lemma fft_ints_neg lg (a : list Z) K : (lg <= 10)%nat -> length a = (2 ^ lg)%nat -> (forall i, (i < 2 ^ lg)%nat -> Z.abs (nth i a 0%Z) <= 2 ^ 53)%Z ->
  nrm (2 ^ lg) (cc (emb (ofl Z 0%Z (2 ^ lg) a))) <= K -> 1 <= K <= 10 ^ 30 ->
  exists l w, of_ints_neg F lg a = Ok l /\ fft F ztab lg l = Ok w /\ apx F fin val (2 ^ lg) w (ev (cpopp (emb (ofl Z 0%Z (2 ^ lg) a)))) (s2 lg * (INR lg * ep * K)).
Proof.
  intros Hlg La Ba HK Hk. destruct (of_ints_neg_apx F fin val A lg a La Ba) as (l & E & Hl).
  assert (P : 10 ^ 30 <= 10 ^ 37) by (apply Rle_pow; [lra|lia]). assert (T := th_pos).
  assert (T1 : th <= 1). { unfold th. apply (Rmult_le_reg_r (10 ^ 40)); [apply pow_lt; lra|]. unfold Rdiv. rewrite Rmult_assoc, Rinv_l by (apply pow_nonzero; lra). assert (1 <= 10 ^ 40) by (apply pow_R1_Rle; lra). lra. }
  destruct (fft_err F fin val A ztab HZ lg l (cpl (cpopp (emb (ofl Z 0%Z (2 ^ lg) a)))) 0 K Hlg) as (w & Ew & Hw); [apply pl_length|exact Hl| |lra|lra|].
  { eapply Rle_trans; [|exact HK]. apply nrm_le. intros i Hi. right. change (L (cpl (cpopp (emb (ofl Z 0%Z (2 ^ lg) a)))) i) with (cc (cpopp (emb (ofl Z 0%Z (2 ^ lg) a))) i). rewrite pc_opp by exact Hi. apply Cm_opp. }
  exists l, w. split; [exact E|]. split; [exact Ew|]. rewrite (ofl_pl Cx Czero) in Hw. eapply apx_weak; [exact Hw|lra].
Qed.
Lemma lg_ep lg : (lg <= 10)%nat -> 0 <= INR lg * ep <= 2 / 100000000000000.
Proof. intros H. assert (H1 : INR lg <= 10) by (replace 10 with (INR 10) by (simpl; lra); apply le_INR, H). pose proof (pos_INR lg). unfold ep. lra. Qed.
Lemma th_1 : th <= 1.
Proof. unfold th. apply (Rmult_le_reg_r (10 ^ 40)); [apply pow_lt; lra|]. unfold Rdiv. rewrite Rmult_assoc, Rinv_l by (apply pow_nonzero; lra). assert (1 <= 10 ^ 40) by (apply pow_R1_Rle; lra). lra. Qed.
Lemma tiny_1 : tiny <= 1 / 1000000000000000000000000000000.
Proof. pose proof (tiny_small 1 th_1). pose proof pow30. pose proof tiny_pos. lra. Qed.

(** every vector of int32 survives the round trip *)
Lemma round_trip lg (a out : list Z) : (lg <= 10)%nat -> length a = (2 ^ lg)%nat -> length out = (2 ^ lg)%nat -> Forall (fun x => -2147483647 <= x <= 2147483647)%Z a ->
  (l <- of_ints F lg a ;; l <- fft F ztab lg l ;; l <- ifft F ztab lg l ;; round_poly F lg l out) = Ok a.
Proof.
  intros Hlg La Lo Ha. set (p := ofl Z 0%Z (2 ^ lg) a). set (K := 68719476736).
  assert (NK : nrm (2 ^ lg) (cc (emb p)) <= K) by (apply small31_nrm; assumption).
  assert (P30 : 68719476736 * 32 <= 10 ^ 30) by (simpl; lra). assert (P37 : 10 ^ 30 <= 10 ^ 37) by (apply Rle_pow; [lra|lia]).
  destruct (fft_ints lg a K Hlg La) as (l & w & E1 & E2 & Hw); [intros i _; assert (S := small31_nth a i Ha); unfold small31 in S; change (2 ^ 53)%Z with 9007199254740992%Z; lia|exact NK|unfold K in *; lra|].
  rewrite E1. cbn [bind]. rewrite E2. cbn [bind]. destruct (lg_ep lg Hlg) as [L1 L2]. pose proof (s2_32 lg Hlg) as S32. pose proof (s2_1 lg) as S1.
  assert (Sl : 0 <= s2 lg * (INR lg * ep * K) <= s2 lg * K / 2000).
  { split; [apply Rmult_le_pos; [lra|apply Rmult_le_pos; unfold K; lra]|]. replace (s2 lg * K / 2000) with (s2 lg * (K / 2000)) by field. apply Rmult_le_compat_l; unfold K; lra. }
  destruct (ifft_err F fin val A ztab HZ lg w (emb p) _ (s2 lg * K) Hlg Hw) as (v & E3 & Hv); [rewrite nrm_ev; apply Rmult_le_compat_l; lra|exact Sl| |].
  { pose proof th_1. unfold K in *. split; [nra|]. apply Rle_trans with (32 * 68719476736); [apply Rmult_le_compat_r; lra|lra]. }
  rewrite E3. cbn [bind]. rewrite <- (pl_ofl Z 0%Z (2 ^ lg) a La). fold p.
  apply (round_apx F fin val A lg p v _ out Hv); [|exact Lo|unfold p; rewrite pl_ofl by exact La; exact Ha].
  replace ((s2 lg * (INR lg * ep * K) + INR (S lg) * ep * (s2 lg * K)) / s2 lg) with ((2 * (INR lg * ep) + ep) * K) by (rewrite S_INR; field; lra).
  unfold K, ep in *. lra.
Qed.

(** products of integer polynomials *)
Lemma nrm_coeff lg (a : list Z) i : (i < 2 ^ lg)%nat -> Rabs (IZR (nth i a 0%Z)) <= nrm (2 ^ lg) (cc (emb (ofl Z 0%Z (2 ^ lg) a))).
Proof.
  intros Hi. eapply Rle_trans; [|apply (nrm_comp _ _ i Hi)]. rewrite emb_c, pc_ofl by exact Hi. apply (Cm_fst (Cz (nth i a 0%Z))).
Qed.
Lemma coeff_53 lg (a : list Z) K : nrm (2 ^ lg) (cc (emb (ofl Z 0%Z (2 ^ lg) a))) <= K -> K <= 9007199254740992 -> forall i, (i < 2 ^ lg)%nat -> (Z.abs (nth i a 0%Z) <= 2 ^ 53)%Z.
Proof. intros H HK i Hi. pose proof (nrm_coeff lg a i Hi). apply le_IZR. rewrite abs_IZR. change (2 ^ 53)%Z with 9007199254740992%Z. lra. Qed.
Lemma sqnorm_nrm lg (a : list Z) : length a = (2 ^ lg)%nat -> let n := nrm (2 ^ lg) (cc (emb (ofl Z 0%Z (2 ^ lg) a))) in n * n = IZR (sqnorm a).
Proof. intros La n. unfold n. rewrite nrm_emb, pl_ofl by exact La. reflexivity. Qed.
Lemma fft_product lg (a b out : list Z) : (lg <= 10)%nat -> length a = (2 ^ lg)%nat -> length b = (2 ^ lg)%nat -> length out = (2 ^ lg)%nat ->
  (1 <= sqnorm a)%Z -> (1 <= sqnorm b)%Z -> (sqnorm a * sqnorm b <= 10 ^ 22)%Z -> Forall (fun x => -2147483647 <= x <= 2147483647)%Z (negacyclic (2 ^ lg) a b) ->
  (x <- of_ints F lg a ;; y <- of_ints F lg b ;; x <- fft F ztab lg x ;; y <- fft F ztab lg y ;; w <- cpoly_mul F lg x y (fresh F (2 ^ lg)) ;;
   w <- ifft F ztab lg w ;; round_poly F lg w out) = Ok (negacyclic (2 ^ lg) a b).
Proof.
  intros Hlg La Lb Lo Qa Qb Qab Hr. set (pa := ofl Z 0%Z (2 ^ lg) a). set (pb := ofl Z 0%Z (2 ^ lg) b).
  set (Ka := nrm (2 ^ lg) (cc (emb pa))). set (Kb := nrm (2 ^ lg) (cc (emb pb))).
  assert (Sa : Ka * Ka = IZR (sqnorm a)) by (apply sqnorm_nrm, La). assert (Sb : Kb * Kb = IZR (sqnorm b)) by (apply sqnorm_nrm, Lb).
  assert (Pa : 0 <= Ka) by apply nrm_pos. assert (Pb : 0 <= Kb) by apply nrm_pos.
  assert (Ga : 1 <= Ka) by (apply sq_le; [exact Pa|]; rewrite Sa, Rmult_1_r; apply IZR_le; exact Qa).
  assert (Gb : 1 <= Kb) by (apply sq_le; [exact Pb|]; rewrite Sb, Rmult_1_r; apply IZR_le; exact Qb).
  assert (Pab : 1 * 1 <= Ka * Kb) by (apply Rmult_le_compat; lra).
  assert (Gab : Ka * Kb <= 100000000000).
  { apply sq_le; [lra|]. replace (Ka * Kb * (Ka * Kb)) with (Ka * Ka * (Kb * Kb)) by ring. rewrite Sa, Sb, <- mult_IZR. apply IZR_le in Qab. rewrite Z.pow_pos_fold in Qab || idtac. eapply Rle_trans; [exact Qab|]. change (10 ^ 22)%Z with 10000000000000000000000%Z. lra. }
  assert (Ua : Ka <= 100000000000) by (assert (Ka * 1 <= Ka * Kb) by (apply Rmult_le_compat_l; lra); lra).
  assert (Ub : Kb <= 100000000000) by (assert (1 * Kb <= Ka * Kb) by (apply Rmult_le_compat_r; lra); lra).
  assert (P30 : 10000000000000000000000 <= 10 ^ 30) by (simpl; lra). assert (P37 : 10 ^ 30 <= 10 ^ 37) by (apply Rle_pow; [lra|lia]). assert (P40 : 10 ^ 37 <= big) by (apply Rle_pow; [lra|lia]).
  destruct (fft_ints lg a Ka Hlg La (coeff_53 lg a Ka (Rle_refl _) ltac:(lra)) (Rle_refl _) ltac:(lra)) as (l1 & x & E1 & E3 & Hx).
  destruct (fft_ints lg b Kb Hlg Lb (coeff_53 lg b Kb (Rle_refl _) ltac:(lra)) (Rle_refl _) ltac:(lra)) as (l2 & y & E2 & E4 & Hy).
  rewrite E1, E2. cbn [bind]. rewrite E3. cbn [bind]. rewrite E4. cbn [bind]. clear E1 E2 E3 E4 l1 l2.
  destruct (lg_ep lg Hlg) as [L1 L2]. pose proof (s2_32 lg Hlg) as S32. pose proof (s2_1 lg) as S1. set (r := s2 lg) in *. set (m := INR lg * ep) in *.
  assert (M1 : 0 <= m * Ka <= Ka) by (split; [apply Rmult_le_pos; lra|rewrite <- (Rmult_1_l Ka) at 2; apply Rmult_le_compat_r; lra]).
  assert (M2 : 0 <= m * Kb <= Kb) by (split; [apply Rmult_le_pos; lra|rewrite <- (Rmult_1_l Kb) at 2; apply Rmult_le_compat_r; lra]).
  assert (RA : 0 <= r * Ka <= 32 * 100000000000) by (split; [apply Rmult_le_pos|apply Rmult_le_compat]; lra).
  assert (RB : 0 <= r * Kb <= 32 * 100000000000) by (split; [apply Rmult_le_pos|apply Rmult_le_compat]; lra).
  assert (RA' : 0 <= r * (m * Ka) <= 32 * 100000000000) by (split; [apply Rmult_le_pos|apply Rmult_le_compat]; lra).
  assert (RB' : 0 <= r * (m * Kb) <= 32 * 100000000000) by (split; [apply Rmult_le_pos|apply Rmult_le_compat]; lra).
  destruct (mul_apx F fin val A lg x y (ev (emb pa)) (ev (emb pb)) (r * (m * Ka)) (r * (m * Kb)) (r * Ka) (r * Kb) (fresh F (2 ^ lg)) Hlg Hx Hy) as (w & Ew & Hw); try lra.
  { rewrite nrm_ev. apply Rle_refl. } { intros i Hi. eapply Rle_trans; [apply (nrm_comp _ _ i Hi)|]. rewrite nrm_ev. apply Rle_refl. } { apply repeat_length. }
  rewrite Ew. cbn [bind]. set (P := r * r * (Ka * Kb)) in *.
  assert (RR : 1 * 1 <= r * r <= 32 * 32) by (split; apply Rmult_le_compat; lra).
  assert (PP : 1 * 1 <= P <= 1024 * 100000000000) by (unfold P; split; [apply Rmult_le_compat; lra|apply Rmult_le_compat; lra]).
  assert (T := tiny_1). assert (T0 := tiny_pos).
  assert (Eb : r * (m * Ka) * (r * Kb + r * (m * Kb)) + r * Ka * (r * (m * Kb)) + 3 * ulp * ((r * Ka + r * (m * Ka)) * (r * Kb + r * (m * Kb))) + 32 * tiny <= 41 / 1000000000000000 * P).
  { replace (r * (m * Ka) * (r * Kb + r * (m * Kb)) + r * Ka * (r * (m * Kb)) + 3 * ulp * ((r * Ka + r * (m * Ka)) * (r * Kb + r * (m * Kb))) + 32 * tiny)
      with ((m * (2 + m) + 3 * ulp * ((1 + m) * (1 + m))) * P + 32 * tiny) by (unfold P; ring).
    assert (m * (2 + m) <= 2 / 100000000000000 * (2 + 1 / 1000)) by (apply Rmult_le_compat; lra).
    assert ((1 + m) * (1 + m) <= (1 + 1 / 1000) * (1 + 1 / 1000)) by (apply Rmult_le_compat; lra).
    assert ((m * (2 + m) + 3 * ulp * ((1 + m) * (1 + m))) * P <= 405 / 10000000000000000 * P) by (apply Rmult_le_compat_r; [lra|rewrite ulp_val; lra]). lra. }
  apply (apx_weak _ _ _ _ _ _ _ _ Hw) in Eb. clear Hw. rename Eb into Hw.
  set (pp := Poly.pmul Z 0%Z Z.add Z.mul Z.opp pa pb : zpv (2 ^ lg)).
  assert (Hw' : apx F fin val (2 ^ lg) w (ev (emb pp)) (41 / 1000000000000000 * P)).
  { apply (apx_ext _ _ _ _ _ (fun i => Cmul (ev (emb pa) i) (ev (emb pb) i))); [|exact Hw]. intros i Hi. unfold pp. rewrite emb_mul, ev_mul. reflexivity. }
  destruct (ifft_err F fin val A ztab HZ lg w (emb pp) _ P Hlg Hw') as (v & Ev & Hv); [| lra | pose proof th_1; lra |].
  { rewrite (nrm_ext _ _ (fun i => Cmul (ev (emb pa) i) (ev (emb pb) i))); [|intros i Hi; unfold pp; rewrite emb_mul, ev_mul; reflexivity].
    eapply Rle_trans; [apply (nrm_mul _ _ _ (r * Kb)); [lra|]|]. { intros i Hi. eapply Rle_trans; [apply (nrm_comp _ _ i Hi)|]. rewrite nrm_ev. apply Rle_refl. }
    rewrite nrm_ev. unfold P. right. fold Ka. fold r. ring. }
  rewrite Ev. cbn [bind]. rewrite negacyclic_zmul. fold pa pb pp. rewrite negacyclic_zmul in Hr. fold pa pb pp in Hr.
  apply (round_apx F fin val A lg pp v _ out Hv); [|exact Lo|exact Hr].
  rewrite S_INR. replace ((41 / 1000000000000000 * P + (INR lg + 1) * ep * P) / s2 lg) with ((41 / 1000000000000000 + m + ep) * (r * (Ka * Kb))) by (unfold P, m; fold r; field; lra).
  assert (RK : 1 * 1 <= r * (Ka * Kb) <= 32 * 100000000000) by (split; apply Rmult_le_compat; lra).
  assert ((41 / 1000000000000000 + m + ep) * (r * (Ka * Kb)) <= 63 / 1000000000000000 * (32 * 100000000000)) by (apply Rmult_le_compat; unfold ep; lra). lra.
Qed.
End Fl.
