(** P_fnorm.v -- the norm test of signing in rounded arithmetic; the matrix B and products with its blocks. *)
From Verif Require Import Base Ring Poly Spec SpecR SpecF M_xform P_xform M_codec P_codec M_float M_exact P_exact M_samp M_fft M_ntru P_ntru M_tree P_brv P_cplx P_fft P_tree P_treex P_gs P_sign P_l2 P_err P_ferr P_float P_fmerge.
From Coq Require Import Ring_theory Ring Lra Psatz.
Open Scope R_scope.

Section Nrm.
Variable F : fops.
Variable fin : D F -> Prop.
Variable val : D F -> R.
Hypothesis A : accurate F fin val.
Notation C := (D F * D F)%type.
Notation d := (c0 F).
Notation cv := (cv F val).
Notation X := (X F val).
Notation apx := (apx F fin val).
Notation vfin := (vfin F fin).
Notation cfin := (cfin F fin).

Lemma cconj_ok x : cfin x -> cfin (cconj F x) /\ cv (cconj F x) = Cconj (cv x).
Proof. intros [H1 H2]. destruct (acc_neg _ _ _ A _ H2) as [H3 H4]. split; [split; assumption|]. unfold P_err.cv, cconj, Cconj. cbn [fst snd]. rewrite H4. reflexivity. Qed.
Lemma Cm_real x : 0 <= x -> Cm (x, 0) = x.
Proof. intros H. unfold Cm, mod2. cbn [fst snd]. rewrite Rmult_0_l, Rplus_0_r. apply sqrt_square, H. Qed.
Lemma norm_sum lg (s : list C) : (lg <= 10)%nat -> vfin (2 ^ lg) s -> nrm (2 ^ lg) (X s) <= 10 ^ 30 ->
  exists r, forn (2 ^ lg) 0 (fun i r => x <- rd s i ;; Ok (cadd F r (fcmul F x (cconj F x)))) d = Ok r /\
    cfin r /\ Cm (Csub (cv r) (nrm (2 ^ lg) (X s) * nrm (2 ^ lg) (X s), 0)) <= 1 / 1000000000000 * (nrm (2 ^ lg) (X s) * nrm (2 ^ lg) (X s)) + 5000 * tiny.
Proof.
  intros Hlg [Ls Fs] HN. assert (B := pow_1024 lg Hlg). set (n := (2 ^ lg)%nat) in *. assert (T := tiny_pos). assert (T1 := tiny_1).
  set (S := fun j => Rsigma j (fun i => mod2 (X s i))). assert (S0 : forall j, 0 <= S j) by (intros j; apply Rsigma_pos; intros; apply mod2_pos).
  assert (P30 : 0 < 10 ^ 30) by (apply pow_lt; lra). assert (P61 : 10 ^ 61 = 10 * (10 ^ 30 * 10 ^ 30)) by (rewrite <- pow_add; reflexivity).
  assert (Sn : S n = nrm n (X s) * nrm n (X s)) by (symmetry; apply nrm_sq).
  assert (SB : S n <= 10 ^ 30 * 10 ^ 30) by (rewrite Sn; apply Rmult_le_compat; try apply nrm_pos; assumption).
  assert (P60 : 1 <= 10 ^ 30 * 10 ^ 30) by (rewrite <- pow_add; apply pow_R1_Rle; lra).
  assert (H61 : 10 * (10 ^ 30 * 10 ^ 30) <= huge) by (rewrite <- P61; unfold huge; apply Rle_pow; [lra|lia]).
  assert (Sm : forall j, (j <= n)%nat -> S j <= S n).
  { intros j Hj. unfold S. replace n with (j + (n - j))%nat by lia. rewrite Rsigma_split. assert (0 <= Rsigma (n - j) (fun i => mod2 (X s (j + i)%nat))) by (apply Rsigma_pos; intros; apply mod2_pos). lra. }
  destruct (forn_inv (fun j r => cfin r /\ Cm (Csub (cv r) (S j, 0)) <= INR j * (8 * ulp * S j) + INR j * (4 * tiny)) n 0
    (fun i r => x <- rd s i ;; Ok (cadd F r (fcmul F x (cconj F x)))) d) as (r & E & H1 & H2).
  - destruct (c0_ok F fin val A) as [H1 H2]. split; [exact H1|]. rewrite H2. cbn [INR]. unfold S. cbn [Rsigma]. replace (Csub Czero (0, 0)) with Czero by (apply Cx_eq; cx; ring). rewrite Cm_zero. lra.
  - intros j r Hj [Fr Hr]. cbn [Nat.add] in Hj. assert (Hj' : (j < n)%nat) by lia. rewrite (rd_Ok s j d) by lia. cbn [bind]. eexists. split; [reflexivity|].
    set (x := nth j s d). assert (Fx : cfin x) by (apply Fs, Hj'). destruct (cconj_ok x Fx) as [Fc Ec].
    set (m := mod2 (X s j)). assert (M0 : 0 <= m) by apply mod2_pos. assert (Mx : Cm (cv x) * Cm (cv x) = m) by apply Cm_sq. assert (SS : S (Datatypes.S j) = S j + m) by reflexivity.
    assert (Bx : Cm (cv x) <= huge).
    { apply Rle_trans with (10 ^ 30); [eapply Rle_trans; [apply (nrm_comp n (X s) j Hj')|exact HN]|]. unfold huge. apply Rle_pow; [lra|lia]. }
    destruct (cmul_err F fin val A x (cconj F x) Fx Fc Bx) as [Fp Hp]; [rewrite Ec, Cm_conj; exact Bx|]. set (p := fcmul F x (cconj F x)) in *.
    rewrite Ec, Cm_conj, Mx in Hp. replace (Cmul (cv x) (Cconj (cv x))) with (m, 0) in Hp by (symmetry; unfold m, P_err.X; fold x; apply Cx_eq; unfold mod2; cx; ring).
    assert (JB : 0 <= INR j <= 1024) by (split; [apply pos_INR|]; replace 1024 with (INR 1024) by (rewrite INR_IZR_INZ; simpl; lra); apply le_INR; lia).
    assert (SJ := S0 j). assert (SL : S j + m <= 10 ^ 30 * 10 ^ 30) by (rewrite <- SS; eapply Rle_trans; [apply Sm; lia|exact SB]).
    assert (Q1 : 0 <= INR j * (8 * ulp * S j) <= 1024 * (8 * ulp * S j)) by (rewrite ulp_val; split; [apply Rmult_le_pos; lra|apply Rmult_le_compat_r; lra]).
    assert (Q2 : 0 <= INR j * (8 * ulp * m)) by (rewrite ulp_val; apply Rmult_le_pos; lra).
    assert (Q3 : 0 <= INR j * (4 * tiny) <= 1024 * (4 * tiny)) by (split; [apply Rmult_le_pos; lra|apply Rmult_le_compat_r; lra]).
    assert (CS : Cm (S j, 0) = S j) by (apply Cm_real; exact SJ). assert (CM : Cm (m, 0) = m) by (apply Cm_real; exact M0). assert (CSM : Cm (S j + m, 0) = S j + m) by (apply Cm_real; lra).
    assert (Br : Cm (cv r) <= huge). { pose proof (Cm_le_add (cv r) (S j, 0)). rewrite ulp_val in *. lra. }
    assert (Bp : Cm (cv p) <= huge). { pose proof (Cm_le_add (cv p) (m, 0)). rewrite ulp_val in *. lra. }
    destruct (cadd_err F fin val A r p Fr Fp Br Bp) as [G1 G2]. split; [exact G1|]. rewrite SS.
    assert (T2 : Cm (Csub (Cadd (cv r) (cv p)) (S j + m, 0)) <= Cm (Csub (cv r) (S j, 0)) + Cm (Csub (cv p) (m, 0))).
    { eapply Rle_trans; [|apply Cm_tri]. right. f_equal. apply Cx_eq; cx; ring. }
    assert (T3 : Cm (Csub (cv (cadd F r p)) (S j + m, 0)) <= Cm (Csub (cv (cadd F r p)) (Cadd (cv r) (cv p))) + Cm (Csub (Cadd (cv r) (cv p)) (S j + m, 0))).
    { eapply Rle_trans; [|apply Cm_tri]. right. f_equal. apply Cx_eq; cx; ring. }
    assert (T4 := Cm_le_add (Cadd (cv r) (cv p)) (S j + m, 0)).
    rewrite S_INR. replace ((INR j + 1) * (8 * ulp * (S j + m)) + (INR j + 1) * (4 * tiny)) with (INR j * (8 * ulp * S j) + INR j * (8 * ulp * m) + 8 * ulp * S j + 8 * ulp * m + INR j * (4 * tiny) + 4 * tiny) by ring.
    rewrite ulp_val in *. lra.
  - cbn [Nat.add] in H2. exists r. split; [exact E|]. split; [exact H1|]. rewrite <- Sn.
    assert (JB : 0 <= INR n <= 1024) by (split; [apply pos_INR|]; replace 1024 with (INR 1024) by (rewrite INR_IZR_INZ; simpl; lra); apply le_INR; lia).
    assert (SJ := S0 n). assert (INR n * (8 * ulp * S n) <= 1024 * (8 * ulp * S n)) by (rewrite ulp_val; apply Rmult_le_compat_r; lra).
    assert (INR n * (4 * tiny) <= 1024 * (4 * tiny)) by (apply Rmult_le_compat_r; lra). rewrite ulp_val in *. lra.
Qed.
Lemma norm_apx lg (s : list C) : (lg <= 10)%nat -> vfin (2 ^ lg) s -> nrm (2 ^ lg) (X s) <= 10 ^ 30 ->
  let v := nrm (2 ^ lg) (X s) * nrm (2 ^ lg) (X s) / INR (2 ^ lg) in
  exists r, sqrd_norm_c F lg s = Ok r /\ fin r /\ Rabs (val r - v) <= 2 / 1000000000000 * v + 10000 * tiny.
Proof.
  intros Hlg V HN v. destruct (norm_sum lg s Hlg V HN) as (r & E & Fr & Hr). unfold sqrd_norm_c. rewrite E. cbn [bind]. eexists. split; [reflexivity|].
  assert (B := pow_1024 lg Hlg). assert (B1 : (1 <= 2 ^ lg)%nat) by (pose proof (pow2_pos lg); lia). set (n := (2 ^ lg)%nat) in *. set (S := nrm n (X s) * nrm n (X s)) in *.
  assert (S0 : 0 <= S) by (apply Rmult_le_pos; apply nrm_pos). assert (T := tiny_pos). assert (T1 := tiny_1).
  assert (P30 : 0 < 10 ^ 30) by (apply pow_lt; lra). assert (P61 : 10 ^ 61 = 10 * (10 ^ 30 * 10 ^ 30)) by (rewrite <- pow_add; reflexivity).
  assert (SB : S <= 10 ^ 30 * 10 ^ 30) by (apply Rmult_le_compat; try apply nrm_pos; assumption).
  assert (P60 : 1 <= 10 ^ 30 * 10 ^ 30) by (rewrite <- pow_add; apply pow_R1_Rle; lra).
  assert (H61 : 10 * (10 ^ 30 * 10 ^ 30) <= huge) by (rewrite <- P61; unfold huge; apply Rle_pow; [lra|lia]).
  assert (H1 : Rabs (val (fst r) - S) <= 1 / 1000000000000 * S + 5000 * tiny) by (eapply Rle_trans; [apply (Cm_fst (Csub (cv r) (S, 0)))|exact Hr]).
  destruct (acc_int _ _ _ A (Z.of_nat n)) as [H2 H3]; [change (2 ^ 53)%Z with 9007199254740992%Z; lia|]. rewrite <- INR_IZR_INZ in H3.
  assert (N1 : 1 <= INR n) by (replace 1 with (INR 1) by reflexivity; apply le_INR; exact B1). set (x := val (fst r)) in *.
  assert (BX : Rabs x <= (1 + 1 / 1000000000000) * S + 5000 * tiny). { replace x with (x - S + S) by ring. eapply Rle_trans; [apply Rabs_triang|]. rewrite (Rabs_pos_eq S) by exact S0. lra. }
  destruct (acc_div _ _ _ A (fst r) (fofz F (Z.of_nat n))) as [H4 H5]; [apply Fr|exact H2|fold x; lra|rewrite H3, Rabs_pos_eq; lra|]. split; [exact H4|]. rewrite H3 in H5. fold x in H5.
  set (z := val (fdiv F (fst r) (fofz F (Z.of_nat n)))) in *. set (w := / INR n) in *. assert (W : 0 < w <= 1). { unfold w. split; [apply Rinv_0_lt_compat; lra|]. rewrite <- Rinv_1. apply Rinv_le_contravar; lra. }
  unfold v, Rdiv in *. fold w in H5 |- *. 
  assert (Q1 : Rabs (x * w - S * w) <= (1 / 1000000000000 * S + 5000 * tiny) * w). { replace (x * w - S * w) with ((x - S) * w) by ring. rewrite Rabs_mult, (Rabs_pos_eq w) by lra. apply Rmult_le_compat_r; lra. }
  assert (Q2 : Rabs (x * w) <= ((1 + 1 / 1000000000000) * S + 5000 * tiny) * w). { rewrite Rabs_mult, (Rabs_pos_eq w) by lra. apply Rmult_le_compat_r; lra. }
  assert (Q3 : 0 <= S * w) by (apply Rmult_le_pos; lra). assert (Q4 : 0 <= tiny * w <= tiny * 1) by (split; [apply Rmult_le_pos; lra|apply Rmult_le_compat_l; lra]).
  replace (z - S * w) with (z - x * w + (x * w - S * w)) by ring. eapply Rle_trans; [apply Rabs_triang|]. rewrite ulp_val in H5. lra.
Qed.
(** the test n0 + n1 <= b *)
Lemma norm_test lg (s0 s1 : list C) n0 n1 (b : Z) : (lg <= 10)%nat -> vfin (2 ^ lg) s0 -> vfin (2 ^ lg) s1 -> nrm (2 ^ lg) (X s0) <= 10 ^ 30 -> nrm (2 ^ lg) (X s1) <= 10 ^ 30 ->
  (0 <= b <= 1000000000)%Z -> sqrd_norm_c F lg s0 = Ok n0 -> sqrd_norm_c F lg s1 = Ok n1 -> fle F (fadd F n0 n1) (fofz F b) = true ->
  nrm (2 ^ lg) (X s0) * nrm (2 ^ lg) (X s0) + nrm (2 ^ lg) (X s1) * nrm (2 ^ lg) (X s1) <= INR (2 ^ lg) * (IZR b + 1 / 100).
Proof.
  intros Hlg V0 V1 N0 N1 Hb E0 E1 H. destruct (norm_apx lg s0 Hlg V0 N0) as (r0 & E0' & F0 & H0). destruct (norm_apx lg s1 Hlg V1 N1) as (r1 & E1' & F1 & H1).
  assert (r0 = n0) by congruence. assert (r1 = n1) by congruence. subst r0 r1. assert (B1 : (1 <= 2 ^ lg)%nat) by (pose proof (pow2_pos lg); lia).
  assert (I1 : 1 <= INR (2 ^ lg)) by (replace 1 with (INR 1) by reflexivity; apply le_INR; exact B1).
  assert (P0 : 0 <= nrm (2 ^ lg) (X s0) * nrm (2 ^ lg) (X s0) <= 10 ^ 30 * 10 ^ 30) by (split; [apply Rmult_le_pos|apply Rmult_le_compat]; try apply nrm_pos; assumption).
  assert (P1 : 0 <= nrm (2 ^ lg) (X s1) * nrm (2 ^ lg) (X s1) <= 10 ^ 30 * 10 ^ 30) by (split; [apply Rmult_le_pos|apply Rmult_le_compat]; try apply nrm_pos; assumption).
  set (S0 := nrm (2 ^ lg) (X s0) * nrm (2 ^ lg) (X s0)) in *. set (S1 := nrm (2 ^ lg) (X s1) * nrm (2 ^ lg) (X s1)) in *.
  assert (W : 0 < / INR (2 ^ lg) <= 1). { split; [apply Rinv_0_lt_compat; lra|]. rewrite <- Rinv_1. apply Rinv_le_contravar; lra. }
  assert (Q0 : 0 <= S0 / INR (2 ^ lg) <= S0) by (unfold Rdiv; split; [apply Rmult_le_pos; lra|rewrite <- (Rmult_1_r S0) at 2; apply Rmult_le_compat_l; lra]).
  assert (Q1 : 0 <= S1 / INR (2 ^ lg) <= S1) by (unfold Rdiv; split; [apply Rmult_le_pos; lra|rewrite <- (Rmult_1_r S1) at 2; apply Rmult_le_compat_l; lra]).
  set (v0 := S0 / INR (2 ^ lg)) in *. set (v1 := S1 / INR (2 ^ lg)) in *.
  assert (ES : S0 + S1 = INR (2 ^ lg) * (v0 + v1)) by (unfold v0, v1; field; lra). rewrite ES. apply Rmult_le_compat_l; [lra|].
  assert (T := tiny_pos). assert (T1 := tiny_1).
  assert (P61 : 10 ^ 61 = 10 * (10 ^ 30 * 10 ^ 30)) by (rewrite <- pow_add; reflexivity). assert (P60 : 1 <= 10 ^ 30 * 10 ^ 30) by (rewrite <- pow_add; apply pow_R1_Rle; lra).
  assert (H61 : 10 * (10 ^ 30 * 10 ^ 30) <= huge) by (rewrite <- P61; unfold huge; apply Rle_pow; [lra|lia]).
  assert (A0 : Rabs (val n0) <= huge). { replace (val n0) with (val n0 - v0 + v0) by ring. eapply Rle_trans; [apply Rabs_triang|]. rewrite (Rabs_pos_eq v0) by lra. lra. }
  assert (A1 : Rabs (val n1) <= huge). { replace (val n1) with (val n1 - v1 + v1) by ring. eapply Rle_trans; [apply Rabs_triang|]. rewrite (Rabs_pos_eq v1) by lra. lra. }
  destruct (acc_add _ _ _ A n0 n1 F0 F1 A0 A1) as [Fa Ha]. destruct (acc_int _ _ _ A b) as [Fb Eb]; [change (2 ^ 53)%Z with 9007199254740992%Z; lia|].
  apply (acc_le _ _ _ A _ _ Fa Fb) in H. rewrite Eb in H.
  assert (Bb : 0 <= IZR b <= 1000000000) by (split; [apply (IZR_le 0)|apply IZR_le]; lia).
  set (x := val n0 + val n1) in *. set (y := val (fadd F n0 n1)) in *.
  assert (HX : x <= IZR b + 1 / 1000).
  { apply Rnot_lt_le. intros L. assert (PX : 0 < x) by lra. rewrite (Rabs_pos_eq x) in Ha by lra. rewrite ulp_val in Ha. assert (K := Rle_abs (- (y - x))). rewrite Rabs_Ropp in K. lra. }
  assert (K0 := Rle_abs (- (val n0 - v0))). assert (K1 := Rle_abs (- (val n1 - v1))). rewrite Rabs_Ropp in K0, K1. unfold x in HX. lra.
Qed.
End Nrm.
