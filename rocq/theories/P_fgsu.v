(** P_fgsu.v -- pairs with a Gram-Schmidt norm clearly below the bound pass the test of key generation, in rounded arithmetic. *)
From Verif Require Import Base Ring Poly Spec SpecR SpecF M_xform P_xform M_codec P_codec M_float M_exact P_exact M_samp M_fft M_ntru P_ntru M_tree P_brv P_cplx P_fft P_tree P_treex P_gs P_sign P_l2 P_err P_ferr P_near P_float P_fmerge P_fnorm P_signx P_fsign P_fsv P_fgs P_live.
From Coq Require Import Ring_theory Ring Lra Psatz.
Open Scope R_scope.

Lemma rsum_term n : forall (a : nat -> R) i, (forall j, (j < n)%nat -> 0 <= a j) -> (i < n)%nat -> a i <= Rsigma n a.
Proof.
  induction n as [|n IH]; intros a i H Hi; [lia|]. cbn [Rsigma]. assert (H1 := H n (Nat.lt_succ_diag_r n)). destruct (Nat.eq_dec i n) as [->|Ne].
  - assert (0 <= Rsigma n a) by (apply Rsigma_pos; intros; apply H; lia). lra.
  - specialize (IH a i (fun j Hj => H j (Nat.lt_lt_succ_r _ _ Hj)) ltac:(lia)). lra.
Qed.
Lemma rsum_up n : forall (a b : nat -> R) c, (forall i, (i < n)%nat -> a i <= c * b i) -> Rsigma n a <= c * Rsigma n b.
Proof.
  induction n as [|n IH]; intros a b c H; cbn [Rsigma]; [lra|]. assert (H1 := H n (Nat.lt_succ_diag_r n)). specialize (IH a b c (fun j Hj => H j (Nat.lt_lt_succ_r _ _ Hj))). lra.
Qed.

Section Gs.
Variable F : fops.
Variable fin : D F -> Prop.
Variable val : D F -> R.
Hypothesis A : accurate F fin val.
Notation C := (D F * D F)%type.
Notation d := (c0 F).
Notation cv := (cv F val).
Notation X := (X F val).
Notation apx := (apx F fin val).
Notation cfin := (cfin F fin).

Lemma quot_up x s r : cfin x -> cfin s -> Cm (cv x) <= 10000 -> 1 <= r <= 1000000000000000 -> Cm (Csub (cv s) (r, 0)) <= 1 / 1000000000000000 * r ->
  let z := fcdiv F (cconj F x) s in cfin z /\ mod2 (cv z) <= (1 + 1 / 10000000000000) * (mod2 (cv x) * (/ r * / r)) + 1 / 100000000000000000000000000000000.
Proof.
  intros Fx Fs Bx Hr Hs z. assert (T := tiny_pos). assert (T1 := tiny_50). assert (X0 := Cm_pos (cv x)).
  assert (Cr : Cm (r, 0) = r) by (apply Cm_real; lra). assert (S1 := Cm_le_add (cv s) (r, 0)). assert (S2 := Cm_le_add (r, 0) (cv s)). rewrite (Cm_swap (r, 0)) in S2.
  destruct (cconj_ok F fin val A x Fx) as [Fc Ec].
  assert (S50 : / 10 ^ 50 <= 1 / 100000000000000000000) by (replace (10 ^ 50) with (100000000000000000000 * 10 ^ 30) by (simpl; ring); rewrite Rinv_mult; assert (0 < / 10 ^ 30 <= 1) by (split; [apply Rinv_0_lt_compat, pow_lt; lra|rewrite <- Rinv_1; apply Rinv_le_contravar; [lra|apply pow_R1_Rle; lra]]); lra).
  assert (B50 : 10000000000000000 <= 10 ^ 50) by (simpl; lra).
  destruct (cdiv_err F fin val A (cconj F x) s Fc Fs) as [G1 G2]; [rewrite Ec, Cm_conj; lra|lra|]. fold z in G1, G2. rewrite Ec, Cm_conj in G2. split; [exact G1|].
  assert (U1 := Cm_le_add (Cmul (cv z) (cv s)) (Cconj (cv x))). rewrite Cm_mul, Cm_conj in U1.
  assert (Z0 := Cm_pos (cv z)). rewrite <- !Cm_sq. set (zz := Cm (cv z)) in *. set (a := Cm (cv x)) in *. set (sn := Cm (cv s)) in *. rewrite ulp_val in *.
  assert (K2 : zz * ((1 - 1 / 1000000000000000) * r) <= zz * sn) by (apply Rmult_le_compat_l; lra).
  assert (RW : r * / r = 1) by (field; lra). assert (W : 0 < / r <= 1) by (split; [apply Rinv_0_lt_compat; lra|rewrite <- Rinv_1; apply Rinv_le_contravar; lra]). set (w := / r) in *.
  assert (K3 : zz * r <= (1 + 1 / 50000000000000) * a + 2 * tiny) by lra.
  assert (K4 : zz <= (1 + 1 / 50000000000000) * (a * w) + 2 * tiny).
  { replace zz with (zz * r * w) by (rewrite Rmult_assoc, RW; ring). apply Rle_trans with (((1 + 1 / 50000000000000) * a + 2 * tiny) * w); [apply Rmult_le_compat_r; lra|].
    assert (2 * tiny * w <= 2 * tiny * 1) by (apply Rmult_le_compat_l; lra). lra. }
  assert (A0 : 0 <= a * w <= 10000) by (split; [apply Rmult_le_pos; lra|]; replace 10000 with (10000 * 1) by ring; apply Rmult_le_compat; lra).
  replace (a * a * (w * w)) with (a * w * (a * w)) by ring. set (u := a * w) in *.
  assert (K5 : zz * zz <= ((1 + 1 / 50000000000000) * u + 2 * tiny) * ((1 + 1 / 50000000000000) * u + 2 * tiny)) by (apply Rmult_le_compat; lra).
  assert (K6 : u * tiny <= 10000 * tiny) by (apply Rmult_le_compat_r; lra). assert (K7 : tiny * tiny <= 1 * tiny) by (apply Rmult_le_compat_r; lra).
  assert (0 <= u * u) by (apply Rmult_le_pos; lra). lra.
Qed.

Section Key.
Variable ztab : list C.
Hypothesis HZ : table_near F fin val ztab.
Variable lg : nat.
Hypothesis Hlg : (lg <= 10)%nat.
Notation N := (2 ^ lg)%nat.
Notation pe a := (emb (ofl Z 0%Z N a)).
Variables f g : list Z.
Hypotheses (Lf : length f = N) (Lg : length g = N).
Hypothesis HP : forall i, (i < N)%nat -> 0 < row_norm lg f g i.
Hypothesis HG : gs_norm lg f g <= 168224 / 10.

Lemma gs_rows i : (i < N)%nat -> 8 <= row_norm lg f g i.
Proof.
  intros Hi. assert (H2 : gs_second lg f g <= 168224 / 10) by (eapply Rle_trans; [apply Rmax_r|exact HG]). unfold gs_second in H2.
  assert (N1 : 1 <= INR N <= 1024) by (split; [replace 1 with (INR 1) by reflexivity; apply le_INR; assert (Hp := pow2_pos lg); lia|]; replace 1024 with (INR 1024) by (rewrite INR_IZR_INZ; simpl; lra); apply le_INR, pow_1024, Hlg).
  assert (RI : forall j, (j < N)%nat -> 0 <= IZR (q * q) / row_norm lg f g j) by (intros j Hj; change (IZR (q * q)) with 151019521; left; apply Rdiv_lt_0_compat; [lra|apply HP, Hj]).
  assert (TI := rsum_term N _ i RI Hi). cbv beta in TI. set (S := Rsigma N _) in *. assert (S <= 168224 / 10 * 1024).
  { replace S with (S / INR N * INR N) by (field; lra). assert (0 <= S) by (specialize (RI i Hi); lra). apply Rmult_le_compat; try lra. apply Rmult_le_pos; [lra|left; apply Rinv_0_lt_compat; lra]. }
  change (IZR (q * q)) with 151019521 in TI. specialize (HP i Hi). apply Rnot_lt_le. intros L. assert (/ 8 < / row_norm lg f g i) by (apply Rinv_lt_contravar; [lra|exact L]). unfold Rdiv in TI. lra.
Qed.
Lemma gs_pass : exists x y, gram_schmidt_norm F ztab lg f g = Ok (fmax F x y) /\ fin x /\ fin y /\ fin (gs_norm_threshold F) /\ val x <= val (gs_norm_threshold F) /\ val y <= val (gs_norm_threshold F).
Proof.
  assert (T := tiny_pos). assert (T1 := tiny_50). assert (Sf : (0 <= sqnorm f)%Z) by apply sqnorm_pos. assert (Sg : (0 <= sqnorm g)%Z) by apply sqnorm_pos.
  assert (HS : (sqnorm f + sqnorm g <= 16822)%Z). { apply Z.lt_succ_r, lt_IZR. rewrite succ_IZR. apply Rle_lt_trans with (168224 / 10); [|simpl; lra]. eapply Rle_trans; [apply Rmax_l|exact HG]. }
  assert (CB : forall a : list Z, length a = N -> (sqnorm a <= 16822)%Z -> forall i, (i < N)%nat -> (Z.abs (nth i a 0%Z) <= 200)%Z).
  { intros a La Ha i Hi. assert (Ii : In (nth i a 0%Z) a) by (apply nth_In; rewrite La; exact Hi). assert (K := sqnorm_coeff a _ Ii). clear - K Ha. set (x := nth i a 0%Z) in *. clearbody x. nia. }
  destruct (normd_apx F fin val A lg f Hlg Lf (CB f Lf ltac:(lia))) as (n0 & E0 & F0 & H0 & S0). destruct (normd_apx F fin val A lg g Hlg Lg (CB g Lg ltac:(lia))) as (n1 & E1 & F1 & H1 & S1).
  destruct (trans_apx F fin val A ztab HZ lg Hlg f 130 Lf (nrm_list lg f 130 Lf ltac:(lia) ltac:(lia)) ltac:(lra)) as (lf & wf & E2 & _ & E3 & A3).
  destruct (trans_apx F fin val A ztab HZ lg Hlg g 130 Lg (nrm_list lg g 130 Lg ltac:(lia) ltac:(lia)) ltac:(lra)) as (lgg & wg & E4 & _ & E5 & A5).
  set (e := 64 / 100000000000000 * 130) in *. assert (He : 0 <= e <= 84 / 1000000000000) by (unfold e; lra).
  assert (Sup : forall a w, nrm N (cc (pe a)) <= 130 -> apx N w (ev (pe a)) e -> forall i, (i < N)%nat -> Cm (X w i) <= 10000 /\ Cm (Csub (X w i) (ev (pe a) i)) <= e /\ Cm (ev (pe a) i) <= 4160).
  { intros a w Ha Aw i Hi. assert (P1 := apx_point F fin val N w _ e i Aw Hi). assert (P2 := ev_sup lg Hlg a 130 i Ha Hi). assert (P3 := Cm_le_add (X w i) (ev (pe a) i)). lra. }
  assert (Pf := Sup f wf (nrm_list lg f 130 Lf ltac:(lia) ltac:(lia)) A3). assert (Pg := Sup g wg (nrm_list lg g 130 Lg ltac:(lia) ltac:(lia)) A5). clear Sup.
  assert (V3 := proj1 A3). assert (V5 := proj1 A5). destruct V3 as [L3 V3]. destruct V5 as [L5 V5].
  set (r := fun i => mod2 (X wf i) + mod2 (X wg i)).
  assert (ER : forall i, row_norm lg f g i = mod2 (ev (pe f) i) + mod2 (ev (pe g) i)). { intros i. rewrite dd_row by assumption. reflexivity. }
  assert (Rlo : forall i, (i < N)%nat -> row_norm lg f g i * (1 - 2 / 10000000) <= r i <= 1000000000 /\ 7 <= r i).
  { intros i Hi. assert (R8 := gs_rows i Hi). destruct (Pf i Hi) as (Q1 & Q2 & Q3). destruct (Pg i Hi) as (G1 & G2 & G3). assert (Q4 := Cm_mod2 _ _ Q1). assert (Q5 := Cm_mod2 _ _ G1).
    rewrite Cm_swap in Q2, G2. assert (Q := row_close _ _ _ _ e Q2 G2). rewrite <- ER in Q. fold (r i) in Q. unfold r in *.
    assert (2 * e * (Cm (ev (pe f) i) + Cm (ev (pe g) i)) <= 2 * (84 / 1000000000000) * 8320) by (apply Rmult_le_compat; try lra; assert (K1 := Cm_pos (ev (pe f) i)); assert (K2 := Cm_pos (ev (pe g) i)); lra). lra. }
  assert (PT : forall i, (i < N)%nat -> cfin (nth i (quot F lg wf wf wg) d) /\ cfin (nth i (quot F lg wg wf wg) d) /\
    mod2 (X (quot F lg wf wf wg) i) + mod2 (X (quot F lg wg wf wg) i) <= (1 + 2 / 10000000000000) * / r i).
  { intros i Hi. destruct (Pf i Hi) as (Q1 & _). destruct (Pg i Hi) as (G1 & _). destruct (Rlo i Hi) as [RL R7].
    destruct (sum_point F fin val A (nth i wf d) (nth i wg d) (r i) (V3 i Hi) (V5 i Hi)) as [U1 U2]; [change (Cm (X wf i) <= 10000000); lra|change (Cm (X wg i) <= 10000000); lra|reflexivity|lra|]. rewrite <- (nth_sums F lg wf wg i L3 L5 Hi) in U1, U2.
    destruct (quot_up (nth i wf d) _ (r i) (V3 i Hi) U1) as (W1 & W2); [exact Q1|lra|exact U2|].
    destruct (quot_up (nth i wg d) _ (r i) (V5 i Hi) U1) as (W3 & W4); [exact G1|lra|exact U2|].
    rewrite <- (nth_quot F lg wf wf wg i L3 Hi) in W1, W2. rewrite <- (nth_quot F lg wg wf wg i L5 Hi) in W3, W4.
    split; [exact W1|]. split; [exact W3|]. unfold P_err.X in *. eapply Rle_trans; [apply Rplus_le_compat; [exact W2|exact W4]|].
    assert (RW : r i * / r i = 1) by (field; lra). assert (W : 1 / 1000000000 <= / r i). { replace (1 / 1000000000) with (/ 1000000000) by lra. apply Rinv_le_contravar; lra. }
    assert (EQ : mod2 (cv (nth i wf d)) * (/ r i * / r i) + mod2 (cv (nth i wg d)) * (/ r i * / r i) = / r i). { transitivity (r i * / r i * / r i); [unfold r, P_err.X; ring|rewrite RW; ring]. }
    set (u := mod2 (cv (nth i wf d)) * (/ r i * / r i)) in *. set (u' := mod2 (cv (nth i wg d)) * (/ r i * / r i)) in *. lra. }
  assert (B0 : forall i, (i < N)%nat -> Cm (X (quot F lg wf wf wg) i) <= 1 /\ Cm (X (quot F lg wg wf wg) i) <= 1).
  { intros i Hi. destruct (PT i Hi) as (_ & _ & Q). destruct (Rlo i Hi) as [_ R7]. assert (W : / r i <= / 7) by (apply Rinv_le_contravar; lra). assert (0 < / r i) by (apply Rinv_0_lt_compat; lra).
    assert (M1 := mod2_pos (X (quot F lg wf wf wg) i)). assert (M2 := mod2_pos (X (quot F lg wg wf wg) i)).
    assert (K : forall c, mod2 c <= 1 -> Cm c <= 1). { intros c Hc. rewrite <- Cm_sq in Hc. assert (P := Cm_pos c). nra. } split; apply K; lra. }
  assert (SQ : 0 <= sqrt (INR N) <= 32) by (split; [apply sqrt_pos|apply sqrt_1024, pow_1024, Hlg]).
  assert (P30 : 32 <= 10 ^ 30) by (simpl; lra).
  destruct (norm_apx F fin val A lg (quot F lg wf wf wg) Hlg) as (m0 & E6 & F6 & H6); [split; [apply vop_length|intros i Hi; apply PT, Hi]| |].
  { eapply Rle_trans; [apply (nrm_sup N _ 1 ltac:(lra)); intros i Hi; apply B0, Hi|lra]. }
  destruct (norm_apx F fin val A lg (quot F lg wg wf wg) Hlg) as (m1 & E7 & F7 & H7); [split; [apply vop_length|intros i Hi; apply PT, Hi]| |].
  { eapply Rle_trans; [apply (nrm_sup N _ 1 ltac:(lra)); intros i Hi; apply B0, Hi|lra]. }
  rewrite nrm_sq in H6, H7.
  exists (fadd F n0 n1), (fmul F (fmul F (fofz F M_ff.Q) (fofz F M_ff.Q)) (fadd F m0 m1)).
  split; [apply (gsn_raw F ztab lg f g lf lgg wf wg n0 n1 m0 m1 Lf Lg E2 E4 E3 E5 L3 L5 E0 E1 E6 E7)|].
  destruct (threshold_apx F fin val A) as [FT ET]. apply Rabs_le_inv in ET. assert (H8 : 1000000000000000 <= huge) by (apply huge_40; simpl; lra).
  apply Rabs_le_inv in H0, H1. destruct (acc_add _ _ _ A n0 n1 F0 F1) as [Fa Ha]; [apply Rabs_le; lra|apply Rabs_le; lra|]. split; [exact Fa|].
  set (RR := Rsigma N (fun i => / r i)). set (Z0 := Rsigma N (fun i => mod2 (X (quot F lg wf wf wg) i))) in *. set (Z1 := Rsigma N (fun i => mod2 (X (quot F lg wg wf wg) i))) in *.
  assert (P0 : 0 <= Z0) by (apply Rsigma_pos; intros; apply mod2_pos). assert (P1 : 0 <= Z1) by (apply Rsigma_pos; intros; apply mod2_pos).
  assert (SU : Z0 + Z1 <= (1 + 2 / 10000000000000) * RR).
  { unfold Z0, Z1, RR. rewrite <- Rsigma_add. apply rsum_up. intros i Hi. apply PT, Hi. }
  assert (N1 : 1 <= INR N <= 1024) by (split; [replace 1 with (INR 1) by reflexivity; apply le_INR; assert (Hp := pow2_pos lg); lia|]; replace 1024 with (INR 1024) by (rewrite INR_IZR_INZ; simpl; lra); apply le_INR, pow_1024, Hlg).
  assert (W : 0 < / INR N <= 1) by (split; [apply Rinv_0_lt_compat; lra|rewrite <- Rinv_1; apply Rinv_le_contravar; lra]). unfold Rdiv in H6, H7. set (w := / INR N) in *.
  assert (H2 : gs_second lg f g <= 168224 / 10) by (eapply Rle_trans; [apply Rmax_r|exact HG]). unfold gs_second in H2. unfold Rdiv at 1 in H2. fold w in H2.
  assert (UP : RR <= (1 + 3 / 10000000) / 151019521 * Rsigma N (fun i => IZR (q * q) / row_norm lg f g i)).
  { unfold RR. apply rsum_up. intros i Hi. destruct (Rlo i Hi) as [RL R7]. assert (R8 := gs_rows i Hi). change (IZR (q * q)) with 151019521.
    apply Rle_trans with (/ (row_norm lg f g i * (1 - 2 / 10000000))); [apply Rinv_le_contravar; lra|]. rewrite Rinv_mult.
    assert (0 < / row_norm lg f g i) by (apply Rinv_0_lt_compat; lra). replace ((1 + 3 / 10000000) / 151019521 * (151019521 / row_norm lg f g i)) with (/ row_norm lg f g i * (1 + 3 / 10000000)) by (field; lra).
    apply Rmult_le_compat_l; lra. }
  set (GG := Rsigma N (fun i => IZR (q * q) / row_norm lg f g i)) in *.
  assert (RW : RR * w <= (1 + 3 / 10000000) / 151019521 * (168224 / 10)). { apply Rle_trans with ((1 + 3 / 10000000) / 151019521 * GG * w); [apply Rmult_le_compat_r; lra|]. rewrite Rmult_assoc. apply Rmult_le_compat_l; lra. }
  assert (R0 : 0 <= RR) by (assert (P2 : 0 <= Z0 + Z1) by lra; lra).
  assert (ZW : Z0 * w + Z1 * w <= (1 + 2 / 10000000000000) * (RR * w)). { rewrite <- Rmult_plus_distr_r. replace ((1 + 2 / 10000000000000) * (RR * w)) with ((1 + 2 / 10000000000000) * RR * w) by ring. apply Rmult_le_compat_r; lra. }
  assert (V0 : 0 <= Z0 * w) by (apply Rmult_le_pos; lra). assert (V1 : 0 <= Z1 * w) by (apply Rmult_le_pos; lra). set (t0 := Z0 * w) in *. set (t1 := Z1 * w) in *.
  apply Rabs_le_inv in H6, H7. destruct (acc_add _ _ _ A m0 m1 F6 F7) as [Fb Hb]; [apply Rabs_le; lra|apply Rabs_le; lra|]. set (s := val (fadd F m0 m1)) in *.
  assert (AB : Rabs (val m0 + val m1) <= 1) by (apply Rabs_le; lra).
  assert (Sb : Rabs (s - (val m0 + val m1)) <= 1 / 1000000000000000) by (eapply Rle_trans; [exact Hb|]; rewrite ulp_val; lra). apply Rabs_le_inv in Sb.
  destruct (acc_int _ _ _ A M_ff.Q ltac:(simpl; unfold M_ff.Q; lia)) as [FQ EQ]. change (IZR M_ff.Q) with 12289 in EQ.
  destruct (acc_mul _ _ _ A _ _ FQ FQ) as [FQQ HQQ]; [rewrite EQ; apply Rabs_le; lra|rewrite EQ; apply Rabs_le; lra|]. rewrite EQ in HQQ. set (qq := val (fmul F (fofz F M_ff.Q) (fofz F M_ff.Q))) in *.
  rewrite (Rabs_pos_eq (12289 * 12289)) in HQQ by lra. rewrite ulp_val in HQQ. apply Rabs_le_inv in HQQ. assert (QQ : 151019520999999 / 1000000 <= qq <= 151019521000001 / 1000000) by lra.
  assert (SB : - (1 / 1000000000000) <= s <= (1 + 4 / 10000000) / 151019521 * (168224 / 10)) by lra.
  destruct (acc_mul _ _ _ A _ _ FQQ Fb) as [FY HY]; [fold qq; apply Rabs_le; lra|fold s; apply Rabs_le; lra|]. fold qq s in HY. split; [exact FY|]. split; [exact FT|]. split.
  - assert (Rabs (val n0 + val n1) <= 20000) by (apply Rabs_le; assert (IZR (sqnorm f) + IZR (sqnorm g) <= 16822) by (rewrite <- plus_IZR; apply IZR_le; exact HS); lra).
    assert (ulp * Rabs (val n0 + val n1) <= ulp * 20000) by (apply Rmult_le_compat_l; [rewrite ulp_val; lra|assumption]). apply Rabs_le_inv in Ha. rewrite ulp_val in *.
    assert (IZR (sqnorm f) + IZR (sqnorm g) <= 16822) by (rewrite <- plus_IZR; apply IZR_le; exact HS). lra.
  - assert (QS : qq * s <= 151019521000001 / 1000000 * ((1 + 4 / 10000000) / 151019521 * (168224 / 10))).
    { destruct (Rle_dec 0 s); [apply Rmult_le_compat; lra|]. apply Rle_trans with 0; [|lra]. assert (0 <= qq * (- s)) by (apply Rmult_le_pos; lra). lra. }
    assert (QL : - 1 <= qq * s). { assert (0 <= qq * (s + 1 / 1000000000000)) by (apply Rmult_le_pos; lra). lra. }
    assert (AQ : Rabs (qq * s) <= 20000) by (apply Rabs_le; lra). assert (ulp * Rabs (qq * s) <= ulp * 20000) by (apply Rmult_le_compat_l; [rewrite ulp_val; lra|assumption]).
    apply Rabs_le_inv in HY. rewrite ulp_val in *. lra.
Qed.
End Key.
End Gs.
