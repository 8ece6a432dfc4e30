(** P_fsign.v -- signing in rounded arithmetic: errors of the matrix B, of the target and of the signature vector. *)
From Verif Require Import Base Ring Poly Spec SpecR SpecF M_ff M_xform P_xform M_codec P_codec M_float M_exact P_exact M_samp M_fft M_ntru P_ntru M_tree P_brv P_cplx P_fft P_tree P_treex P_gs P_sign P_signb P_signx P_l2 P_err P_ferr P_float P_fmerge P_fnorm.
From Coq Require Import Ring_theory Ring Lra Psatz.
Open Scope R_scope.

Section Sgn.
Variable F : fops.
Variable fin : D F -> Prop.
Variable val : D F -> R.
Hypothesis A : accurate F fin val.
Notation C := (D F * D F)%type.
Notation d := (c0 F).
Notation cv := (cv F val).
Notation X := (X F val).
Notation apx := (apx F fin val).
Notation vfin := (vfin F fin).
Notation cfin := (cfin F fin).
Variable ztab : list C.
Hypothesis HZ : table_near F fin val ztab.
Variable lg : nat.
Hypothesis Hlg : (lg <= 10)%nat.
Notation N := (2 ^ lg)%nat.
Notation zl a := (ofl Z 0%Z N a).
Notation pe a := (emb (zl a)).

Lemma ints_length a l : of_ints F lg a = Ok l -> length l = N.
Proof.
  intros H. unfold of_ints in H. apply forn_len in H; [rewrite H; apply repeat_length|]. intros i s s' Hs.
  apply bind_Ok in Hs. destruct Hs as [x [_ Hs]]. apply wr_len in Hs. exact Hs.
Qed.
Lemma ints_neg_length a l : of_ints_neg F lg a = Ok l -> length l = N.
Proof.
  intros H. unfold of_ints_neg in H. apply forn_len in H; [rewrite H; apply repeat_length|]. intros i s s' Hs.
  apply bind_Ok in Hs. destruct Hs as [x [_ Hs]]. apply wr_len in Hs. exact Hs.
Qed.
(** the transform of an integer vector of norm at most K, with a numeric bound *)
Lemma trans_apx (a : list Z) K : length a = N -> nrm N (cc (pe a)) <= K -> 1 <= K <= 1000000000000 ->
  exists l w, of_ints F lg a = Ok l /\ length l = N /\ fft F ztab lg l = Ok w /\ apx N w (ev (pe a)) (64 / 100000000000000 * K).
Proof.
  intros La HK Hk. assert (P30 : 1000000000000 <= 10 ^ 30) by (simpl; lra).
  destruct (fft_ints F fin val A ztab HZ lg a K Hlg La (coeff_53 lg a K HK ltac:(lra)) HK ltac:(lra)) as (l & w & E1 & E2 & H). exists l, w. split; [exact E1|]. split; [apply (ints_length a), E1|]. split; [exact E2|].
  destruct (lg_ep lg Hlg). eapply apx_weak; [exact H|]. assert (S := s2_32 lg Hlg). assert (S0 := s2_pos lg). apply Rle_trans with (32 * (2 / 100000000000000 * K)); [|lra]. apply Rmult_le_compat; [lra|apply Rmult_le_pos; lra|lra|apply Rmult_le_compat_r; lra].
Qed.
Lemma trans_neg_apx (a : list Z) K : length a = N -> nrm N (cc (pe a)) <= K -> 1 <= K <= 1000000000000 ->
  exists l w, of_ints_neg F lg a = Ok l /\ length l = N /\ fft F ztab lg l = Ok w /\ apx N w (ev (cpopp (pe a))) (64 / 100000000000000 * K).
Proof.
  intros La HK Hk. assert (P30 : 1000000000000 <= 10 ^ 30) by (simpl; lra).
  destruct (fft_ints_neg F fin val A ztab HZ lg a K Hlg La (coeff_53 lg a K HK ltac:(lra)) HK ltac:(lra)) as (l & w & E1 & E2 & H). exists l, w. split; [exact E1|]. split; [apply (ints_neg_length a), E1|]. split; [exact E2|].
  destruct (lg_ep lg Hlg). eapply apx_weak; [exact H|]. assert (S := s2_32 lg Hlg). assert (S0 := s2_pos lg). apply Rle_trans with (32 * (2 / 100000000000000 * K)); [|lra]. apply Rmult_le_compat; [lra|apply Rmult_le_pos; lra|lra|apply Rmult_le_compat_r; lra].
Qed.
Lemma ev_sup (a : list Z) K i : nrm N (cc (pe a)) <= K -> (i < N)%nat -> Cm (ev (pe a) i) <= 32 * K.
Proof.
  intros HK Hi. eapply Rle_trans; [apply (nrm_comp N _ i Hi)|]. rewrite nrm_ev. assert (S := s2_32 lg Hlg). assert (S0 := s2_pos lg). apply Rmult_le_compat; try lra. apply nrm_pos.
Qed.

Variables f g F_ G_ : list Z.
Hypotheses (Lf : length f = N) (Lg : length g = N) (LF : length F_ = N) (LG : length G_ = N).
(** kf, kF: bounds on the norms of (f, g) and (F, G); Sf, SF: bounds on the entries of their transforms *)
Variables kf kF : R.
Hypotheses (Hkf : 1 <= kf <= 131) (HkF : 1 <= kF <= 4096).
Hypotheses (Nf : nrm N (cc (pe f)) <= kf) (Ng : nrm N (cc (pe g)) <= kf) (NF : nrm N (cc (pe F_)) <= kF) (NG : nrm N (cc (pe G_)) <= kF).
Definition e1 : R := 64 / 100000000000000 * kf.
Definition e2 : R := 64 / 100000000000000 * kF.
Definition blocks (B : list C) : Prop := exists w0 w1 w2 w3, B = w0 ++ w1 ++ w2 ++ w3 /\
  apx N w0 (ev (pe g)) e1 /\ apx N w1 (ev (cpopp (pe f))) e1 /\ apx N w2 (ev (pe G_)) e2 /\ apx N w3 (ev (cpopp (pe F_))) e2.
Lemma matrix_B_apx : exists B, compute_matrix_B F ztab lg f g F_ G_ = Ok B /\ blocks B.
Proof.
  destruct (trans_apx g kf Lg Ng ltac:(lra)) as (l0 & w0 & E0 & L0 & T0 & A0). destruct (trans_neg_apx f kf Lf Nf ltac:(lra)) as (l1 & w1 & E1 & L1 & T1 & A1).
  destruct (trans_apx G_ kF LG NG ltac:(lra)) as (l2 & w2 & E2 & L2 & T2 & A2). destruct (trans_neg_apx F_ kF LF NF ltac:(lra)) as (l3 & w3 & E3 & L3 & T3 & A3).
  assert (M0 : length w0 = N) by apply A0. assert (M1 : length w1 = N) by apply A1. assert (M2 : length w2 = N) by apply A2. assert (M3 : length w3 = N) by apply A3.
  exists (w0 ++ w1 ++ w2 ++ w3). split.
  - unfold compute_matrix_B. rewrite E0, E1, E2, E3. cbn [bind].
    assert (Ef : fresh F (4 * N) = repeat d N ++ repeat d N ++ repeat d N ++ repeat d N). { unfold fresh. rewrite <- !repeat_app. f_equal. lia. }
    rewrite Ef. set (r := repeat d N). assert (Lr : length r = N) by apply repeat_length.
    rewrite (wrs4_0 F N) by assumption. cbn [bind]. rewrite (wrs4_1 F N) by assumption. cbn [bind]. rewrite (wrs4_2 F N) by assumption. cbn [bind]. rewrite (wrs4_3 F N) by assumption. cbn [bind]. unfold at_sub.
    rewrite (rds4_0 F N) by assumption. cbn [bind]. rewrite T0. cbn [bind]. rewrite (wrs4_0 F N) by assumption. cbn [bind].
    rewrite (rds4_1 F N) by assumption. cbn [bind]. rewrite T1. cbn [bind]. rewrite (wrs4_1 F N) by assumption. cbn [bind].
    rewrite (rds4_2 F N) by assumption. cbn [bind]. rewrite T2. cbn [bind]. rewrite (wrs4_2 F N) by assumption. cbn [bind].
    rewrite (rds4_3 F N) by assumption. cbn [bind]. rewrite T3. cbn [bind]. rewrite (wrs4_3 F N) by assumption. reflexivity.
  - exists w0, w1, w2, w3. split; [reflexivity|]. unfold e1, e2. split; [eapply apx_weak; [exact A0|lra]|]. split; [eapply apx_weak; [exact A1|lra]|]. split; [eapply apx_weak; [exact A2|lra]|eapply apx_weak; [exact A3|lra]].
Qed.

(** a product with a block of B *)
Lemma mul_block (a o w0 w1 w2 w3 : list C) : length a = N -> length o = N -> length w0 = N -> length w1 = N -> length w2 = N -> length w3 = N ->
  let B := w0 ++ w1 ++ w2 ++ w3 in
  (forall y, cpoly_mul F lg a w0 o = Ok y -> length y = N -> mul_at F lg a 0 B 0 o 0 = Ok y) /\
  (forall y, cpoly_mul F lg a w1 o = Ok y -> length y = N -> mul_at F lg a 0 B N o 0 = Ok y) /\
  (forall y, cpoly_mul F lg a w2 o = Ok y -> length y = N -> mul_at F lg a 0 B (2 * N) o 0 = Ok y) /\
  (forall y, cpoly_mul F lg a w3 o = Ok y -> length y = N -> mul_at F lg a 0 B (3 * N) o 0 = Ok y).
Proof.
  intros La Lo M0 M1 M2 M3 B.
  assert (R0 : forall v : list C, length v = N -> rds v 0 N = Ok v) by (intros v Lv; rewrite rds_ok by lia; f_equal; apply slice_all; exact Lv).
  assert (W0 : forall v : list C, length v = N -> wrs o 0 v = Ok v). { intros v Lv. assert (W := wrs_app v [] o []). cbn [app length] in W. rewrite !app_nil_r in W. apply W. congruence. }
  unfold mul_at, B. repeat split; intros y E Ly; rewrite (R0 a) by exact La; cbn [bind]; [rewrite (rds4_0 F N)|rewrite (rds4_1 F N)|rewrite (rds4_2 F N)|rewrite (rds4_3 F N)]; try assumption; cbn [bind];
  rewrite (R0 o) by exact Lo; cbn [bind]; rewrite E; cbn [bind]; apply W0; exact Ly.
Qed.

(** ** the target *)
Definition T0 (c : list Z) (i : nat) : Cx := ev (tp0 lg F_ c) i.
Definition T1 (c : list Z) (i : nat) : Cx := ev (tp1 lg f c) i.
Lemma div_q x : cfin x -> Cm (cv x) <= 10 ^ 40 ->
  let z := fcdiv F x (cof F (fofz F M_ff.Q)) in
  cfin z /\ Cm (Csub (cv z) (Cscal (cv x) (/ 12289))) <= 8 * ulp / 12289 * Cm (cv x) + tiny.
Proof.
  intros Fx Bx z. destruct (cof_int F fin val A M_ff.Q) as [Fq Eq]; [unfold M_ff.Q; change (2 ^ 53)%Z with 9007199254740992%Z; lia|].
  assert (Mq : Cm (cv (cof F (fofz F M_ff.Q))) = 12289) by (rewrite Eq; unfold Cz, M_ff.Q; apply Cm_real; lra).
  assert (P : 1 <= 10 ^ 40) by (apply pow_R1_Rle; lra). assert (P50 : 10 ^ 50 = 10000000000 * 10 ^ 40) by (change 50%nat with (10 + 40)%nat; rewrite pow_add; simpl; lra).
  destruct (cdiv_err F fin val A x (cof F (fofz F M_ff.Q)) Fx Fq) as [G1 G2]; [lra| |].
  { rewrite Mq. split; [|lra]. apply Rle_trans with (/ 1); [apply Rinv_le_contravar; lra|lra]. }
  split; [exact G1|]. fold z in G2. rewrite Eq in G2. unfold Cz, M_ff.Q in G2.
  replace (Csub (cv z) (Cscal (cv x) (/ 12289))) with (Cmul (Csub (Cmul (cv z) (12289, 0)) (cv x)) (/ 12289, 0)) by (apply Cx_eq; cx; unfold Cscal; cbn [fst snd]; field).
  rewrite Cm_mul, (Cm_real (/ 12289)) by lra. pose proof tiny_pos. pose proof (Cm_pos (cv x)). lra.
Qed.
Lemma Cm_scal x s : 0 <= s -> Cm (Cscal x s) = s * Cm x.
Proof. intros H. replace (Cscal x s) with (Cmul x (s, 0)) by (apply Cx_eq; cx; unfold Cscal; cbn [fst snd]; ring). rewrite Cm_mul, Cm_real by exact H. ring. Qed.
Lemma nrm_scal n y s : 0 <= s -> nrm n (fun i => Cscal (y i) s) = s * nrm n y.
Proof. intros H. unfold nrm. rewrite <- rn_scal by exact H. unfold rn. f_equal. apply Rsigma_ext. intros i _. rewrite Cm_scal by exact H. reflexivity. Qed.
Lemma div_q_apx (l : list C) y e K : apx N l y e -> nrm N y <= K -> K + e <= big ->
  apx N (tab N (fun i => fcdiv F (nth i l d) (cof F (fofz F M_ff.Q)))) (fun i => Cscal (y i) (/ 12289)) (e / 12289 + 8 * ulp / 12289 * (K + e) + 32 * tiny).
Proof.
  intros H HK HB. assert (V := proj1 H). assert (U : 0 <= ulp) by (rewrite ulp_val; lra). assert (T := tiny_pos).
  assert (P : forall i, (i < N)%nat -> cfin (fcdiv F (nth i l d) (cof F (fofz F M_ff.Q))) /\ Cm (Csub (cv (fcdiv F (nth i l d) (cof F (fofz F M_ff.Q)))) (Cscal (X l i) (/ 12289))) <= 8 * ulp / 12289 * Cm (X l i) + tiny).
  { intros i Hi. apply div_q; [apply V, Hi|]. eapply Rle_trans; [apply (apx_sup F fin val N l y e K i H Hi HK)|exact HB]. }
  set (w := tab N _). assert (Vw : vfin N w) by (split; [apply tab_length|]; intros i Hi; unfold w; rewrite nth_tab by exact Hi; apply P, Hi).
  assert (Sn := sqrt_1024 N (pow_1024 lg Hlg)). assert (Sn0 := sqrt_pos (INR N)). assert (N1 := apx_nrm F fin val _ _ _ _ H).
  assert (R1 : nrm N (fun i => Csub (X w i) (Cscal (X l i) (/ 12289))) <= 8 * ulp / 12289 * (K + e) + 32 * tiny).
  { eapply Rle_trans; [apply (nrm_bound N _ (X l) (8 * ulp / 12289) tiny); [lra|lra|]|].
    - intros i Hi. unfold P_err.X at 1, w. rewrite nth_tab by exact Hi. apply P, Hi.
    - apply Rplus_le_compat; [apply Rmult_le_compat_l; lra|rewrite Rmult_comm; apply Rmult_le_compat_r; lra]. }
  assert (R2 : nrm N (fun i => Csub (Cscal (X l i) (/ 12289)) (Cscal (y i) (/ 12289))) <= e / 12289).
  { rewrite (nrm_ext N _ (fun i => Cscal (Csub (X l i) (y i)) (/ 12289))) by (intros; apply Cx_eq; cx; unfold Cscal; cbn [fst snd]; ring). rewrite nrm_scal by lra. unfold Rdiv. rewrite Rmult_comm. apply Rmult_le_compat_r; [lra|apply H]. }
  eapply apx_weak; [apply (apx_step F fin val N w _ _ _ _ Vw R1 R2)|lra].
Qed.
Lemma neg_apx (l : list C) n y e : apx n l y e -> apx n (tab n (fun i => cneg F (nth i l d))) (fun i => Copp (y i)) e.
Proof.
  intros H. assert (V := proj1 H). assert (P : forall i, (i < n)%nat -> cfin (cneg F (nth i l d)) /\ cv (cneg F (nth i l d)) = Copp (X l i)) by (intros i Hi; apply (cneg_ok F fin val A), V, Hi).
  split; [split; [apply tab_length|intros i Hi; rewrite nth_tab by exact Hi; apply P, Hi]|].
  eapply Rle_trans; [|apply H]. apply nrm_le. intros i Hi. unfold P_err.X at 1. rewrite nth_tab by exact Hi. rewrite (proj2 (P i Hi)). rewrite <- Cm_opp. right. f_equal. apply Cx_eq; cx; ring.
Qed.

Variables Sf SF : R.
Hypotheses (HSf : 0 <= Sf <= 4192) (HSF : 0 <= SF <= 131072).
Hypotheses (Uf : forall i, (i < N)%nat -> Cm (ev (pe f) i) <= Sf) (Ug : forall i, (i < N)%nat -> Cm (ev (pe g) i) <= Sf).
Hypotheses (UF : forall i, (i < N)%nat -> Cm (ev (pe F_) i) <= SF) (UG : forall i, (i < N)%nat -> Cm (ev (pe G_) i) <= SF).
Variable B : list C.
Hypothesis HB : blocks B.
(** errors and sizes of the target coordinates, for a transform with entries at most S and error e *)
Definition mT (S e : R) : R := 64 / 100000000000000 * 393216 * (S + e) + 12582912 * e + 3 * ulp * ((12582912 + 64 / 100000000000000 * 393216) * (S + e)) + 32 * tiny.
Definition dT (S e : R) : R := mT S e / 12289 + 8 * ulp / 12289 * (S * 12582912 + mT S e) + 32 * tiny.
Definition nT (S : R) : R := S * 12582912 / 12289.
Lemma e1_b : 0 <= e1 <= 1. Proof. unfold e1. lra. Qed.
Lemma e2_b : 0 <= e2 <= 1. Proof. unfold e2. lra. Qed.
Lemma mT_b S e : 0 <= S <= 131072 -> 0 <= e <= 1 -> 0 <= mT S e <= 20000000.
Proof. intros HS He. assert (T := tiny_pos). assert (Tn := tiny_1). unfold mT. rewrite ulp_val. lra. Qed.
Lemma big_13 : 10000000000000 <= big. Proof. unfold big; simpl; lra. Qed.
Lemma target_apx (c : list Z) : length c = N -> (forall i, (i < N)%nat -> 0 <= nth i c 0 < 12289)%Z ->
  exists t0 t1, sign_target F ztab lg B c = Ok (t0, t1) /\ apx N t0 (T0 c) (dT SF e2) /\ apx N t1 (T1 c) (dT Sf e1) /\
    nrm N (T0 c) <= nT SF /\ nrm N (T1 c) <= nT Sf.
Proof.
  intros Lc Hc. destruct HB as (w0 & w1 & w2 & w3 & EB & A0 & A1 & A2 & A3).
  assert (M0 : length w0 = N) by apply A0. assert (M1 : length w1 = N) by apply A1. assert (M2 : length w2 = N) by apply A2. assert (M3 : length w3 = N) by apply A3.
  assert (Nc : nrm N (cc (pe c)) <= 393216).
  { eapply Rle_trans; [apply (nrm_sup N _ 12288); [lra|]|].
    - intros i Hi. rewrite emb_c, pc_ofl by exact Hi. specialize (Hc i Hi). unfold Cz. rewrite Cm_real by (apply (IZR_le 0); lia). apply IZR_le. lia.
    - assert (S := sqrt_1024 N (pow_1024 lg Hlg)). assert (sqrt (INR N) * 12288 <= 32 * 12288) by (apply Rmult_le_compat_r; lra). lra. }
  destruct (trans_apx c 393216 Lc Nc ltac:(lra)) as (l & w & E1 & _ & E2 & Hw). assert (Lw : length w = N) by apply Hw.
  unfold sign_target. rewrite E1. cbn [bind]. rewrite E2. cbn [bind]. assert (Lfr : length (fresh F N) = N) by apply repeat_length.
  destruct (mul_block w (fresh F N) w0 w1 w2 w3 Lw Lfr M0 M1 M2 M3) as (_ & B1 & _ & B3).
  assert (S32 := s2_32 lg Hlg). assert (S0 := s2_pos lg). assert (T := tiny_pos). assert (Tn := tiny_1).
  assert (Kc : nrm N (ev (pe c)) <= 12582912) by (rewrite nrm_ev; apply Rle_trans with (32 * 393216); [apply Rmult_le_compat; try lra; apply nrm_pos|lra]).
  assert (Bg := big_13).
  assert (Sf' : forall i, (i < N)%nat -> Cm (ev (cpopp (pe f)) i) <= Sf) by (intros i Hi; rewrite ev_opp', Cm_opp; apply Uf, Hi).
  assert (SF' : forall i, (i < N)%nat -> Cm (ev (cpopp (pe F_)) i) <= SF) by (intros i Hi; rewrite ev_opp', Cm_opp; apply UF, Hi).
  assert (Z1 := e1_b). assert (Z2 := e2_b).
  destruct (mul_apx F fin val A lg w w3 (ev (pe c)) (ev (cpopp (pe F_))) _ _ 12582912 SF (fresh F N) Hlg Hw A3 Kc SF') as (m3 & E3 & H3); try lra; try exact Lfr.
  destruct (mul_apx F fin val A lg w w1 (ev (pe c)) (ev (cpopp (pe f))) _ _ 12582912 Sf (fresh F N) Hlg Hw A1 Kc Sf') as (m1 & E4 & H4); try lra; try exact Lfr.
  assert (G3 : length m3 = N) by apply H3. assert (G1 : length m1 = N) by apply H4.
  rewrite EB. rewrite (B3 _ E3 G3). cbn [bind]. rewrite (B1 _ E4 G1). cbn [bind]. fold (mT SF e2) in H3. fold (mT Sf e1) in H4.
  assert (Q3 := mT_b SF e2 HSF Z2). assert (Q1 := mT_b Sf e1 ltac:(lra) Z1).
  assert (N3 : nrm N (fun i => Cmul (ev (pe c) i) (ev (cpopp (pe F_)) i)) <= SF * 12582912) by (eapply Rle_trans; [apply (nrm_mul N _ _ SF); [lra|exact SF']|]; apply Rmult_le_compat_l; lra).
  assert (N1 : nrm N (fun i => Cmul (ev (pe c) i) (ev (cpopp (pe f)) i)) <= Sf * 12582912) by (eapply Rle_trans; [apply (nrm_mul N _ _ Sf); [lra|exact Sf']|]; apply Rmult_le_compat_l; lra).
  assert (D3 := div_q_apx m3 _ _ _ H3 N3 ltac:(lra)). assert (D1 := neg_apx _ _ _ _ (div_q_apx m1 _ _ _ H4 N1 ltac:(lra))). fold (dT SF e2) in D3. fold (dT Sf e1) in D1.
  set (t0 := tab N (fun i => fcdiv F (nth i m3 d) (cof F (fofz F M_ff.Q)))) in *. set (u1 := tab N (fun i => fcdiv F (nth i m1 d) (cof F (fofz F M_ff.Q)))) in *. set (t1 := tab N (fun i => cneg F (nth i u1 d))) in *.
  exists t0, t1. split.
  - unfold t0. replace t1 with (tab N (fun i => cneg F (fcdiv F (nth i m1 d) (cof F (fofz F M_ff.Q))))) by (unfold t1, u1; apply tab_ext; intros i Hi; rewrite nth_tab by exact Hi; reflexivity).
    apply (fill2_ok d N _ m3 m1 _ _ G3 G1). intros i u v Hi Lu Lv Hu Hv.
    rewrite (rd_Ok _ i d) by lia. cbn [bind]. rewrite wr_Ok by lia. cbn [bind]. rewrite (rd_Ok _ i d) by lia. cbn [bind]. rewrite wr_Ok by lia. cbn [bind]. rewrite Hu, Hv. reflexivity.
  - assert (X3 : forall i, (i < N)%nat -> Cscal (Cmul (ev (pe c) i) (ev (cpopp (pe F_)) i)) (/ 12289) = T0 c i).
    { intros i Hi. unfold T0, tp0, kq. rewrite !ev_mul, ev_cst. generalize (Cmul (ev (pe c) i) (ev (cpopp (pe F_)) i)). intros [x y]. apply Cx_eq; unfold Cof; cx; unfold Cscal; cbn [fst snd]; ring. }
    assert (X1 : forall i, (i < N)%nat -> Copp (Cscal (Cmul (ev (pe c) i) (ev (cpopp (pe f)) i)) (/ 12289)) = T1 c i).
    { intros i Hi. unfold T1, tp1, kq. rewrite !ev_opp', !ev_mul, !ev_opp', ev_cst. generalize (ev (pe c) i) (ev (pe f) i). intros [x y] [u v]. apply Cx_eq; unfold Cof; cx; unfold Cscal; cbn [fst snd]; ring. }
    split; [apply (apx_ext F fin val _ _ _ _ _ X3 D3)|]. split; [apply (apx_ext F fin val _ _ _ _ _ X1 D1)|]. unfold nT. split.
    + rewrite <- (nrm_ext N _ _ X3), nrm_scal by lra. lra.
    + rewrite <- (nrm_ext N _ _ X1). apply Rle_trans with (nrm N (fun i => Cscal (Cmul (ev (pe c) i) (ev (cpopp (pe f)) i)) (/ 12289))); [apply nrm_le; intros; rewrite Cm_opp; lra|]. rewrite nrm_scal by lra. lra.
Qed.

(** the signature vector: u0, u1 bound the errors of t0 - z0 and t1 - z1, D0, D1 their exact norms *)
Definition wE (u D : R) : R := u + ulp * (D + u).
Definition ve (u D S e : R) : R := wE u D * (S + e) + D * e + 3 * ulp * ((D + wE u D) * (S + e)) + 32 * tiny.
Definition EE (u0 D0 u1 D1 : R) : R := ve u0 D0 Sf e1 + ve u1 D1 SF e2 + ulp * (D0 * Sf + ve u0 D0 Sf e1 + (D1 * SF + ve u1 D1 SF e2)).
Definition lin (d0 d1 v0 v1 : nat -> Cx) (i : nat) : Cx := Cadd (Cmul (d0 i) (v0 i)) (Cmul (d1 i) (v1 i)).
Lemma wE_b u D : 0 <= u <= 2 -> 0 <= D <= 10000000000000 -> 0 <= wE u D <= 10000.
Proof. intros Hu HD. unfold wE. rewrite ulp_val. lra. Qed.
Lemma prod_b a b x y : 0 <= a <= x -> 0 <= b <= y -> 0 <= a * b <= x * y.
Proof. intros Ha Hb. split; [apply Rmult_le_pos; lra|apply Rmult_le_compat; lra]. Qed.
Lemma ve_b u D S e : 0 <= u <= 2 -> 0 <= D <= 10000000000000 -> 0 <= S <= 131072 -> 0 <= e <= 1 -> 0 <= ve u D S e <= 10 ^ 20 /\ 0 <= D * S <= 10 ^ 20.
Proof.
  intros Hu HD HS He. assert (W := wE_b u D Hu HD). assert (T := tiny_pos). assert (Tn := tiny_1).
  destruct (prod_b (wE u D) (S + e) 10000 131073 ltac:(lra) ltac:(lra)). destruct (prod_b D e 10000000000000 1 ltac:(lra) ltac:(lra)).
  destruct (prod_b (D + wE u D) (S + e) 10000000010000 131073 ltac:(lra) ltac:(lra)). destruct (prod_b D S 10000000000000 131072 ltac:(lra) ltac:(lra)).
  unfold ve. rewrite ulp_val. simpl. lra.
Qed.
Lemma big_21 : 10 ^ 21 <= big. Proof. unfold big; simpl; lra. Qed.
Lemma vector_apx (t0 t1 z0 z1 : list C) y0 y1 v0 v1 a0 a1 b0 b1 D0 D1 : apx N t0 y0 a0 -> apx N t1 y1 a1 -> apx N z0 v0 b0 -> apx N z1 v1 b1 ->
  0 <= a0 <= 1 -> 0 <= a1 <= 1 -> 0 <= b0 <= 1 -> 0 <= b1 <= 1 ->
  nrm N y0 <= 10000000000000 -> nrm N y1 <= 10000000000000 -> nrm N v0 <= 10000000000000 -> nrm N v1 <= 10000000000000 ->
  nrm N (fun i => Csub (y0 i) (v0 i)) <= D0 -> nrm N (fun i => Csub (y1 i) (v1 i)) <= D1 -> D0 <= 10000000000000 -> D1 <= 10000000000000 ->
  let d0 := fun i => Csub (y0 i) (v0 i) in let d1 := fun i => Csub (y1 i) (v1 i) in
  exists s0 s1, sign_vector F lg B t0 t1 z0 z1 = Ok (s0, s1) /\
    apx N s0 (lin d0 d1 (ev (pe g)) (ev (pe G_))) (EE (a0 + b0) D0 (a1 + b1) D1) /\
    apx N s1 (lin d0 d1 (ev (cpopp (pe f))) (ev (cpopp (pe F_)))) (EE (a0 + b0) D0 (a1 + b1) D1).
Proof.
  intros Ht0 Ht1 Hz0 Hz1 Ra0 Ra1 Rb0 Rb1 Ny0 Ny1 Nv0 Nv1 ND0 ND1 RD0 RD1 d0 d1. destruct HB as (w0 & w1 & w2 & w3 & EB & A0 & A1 & A2 & A3).
  assert (M0 : length w0 = N) by apply A0. assert (M1 : length w1 = N) by apply A1. assert (M2 : length w2 = N) by apply A2. assert (M3 : length w3 = N) by apply A3.
  assert (Lfr : length (fresh F N) = N) by apply repeat_length. assert (Bg := big_21). assert (P20 : 1000000000000000 <= 10 ^ 20) by (simpl; lra). assert (P21 : 10 ^ 21 = 10 * 10 ^ 20) by (simpl; ring).
  assert (U : 0 <= ulp) by (rewrite ulp_val; lra).
  fold d0 in ND0. fold d1 in ND1. assert (Pd0 := nrm_pos N d0). assert (Pd1 := nrm_pos N d1).
  destruct (sub_apx F fin val A lg t0 z0 y0 v0 _ _ _ _ (fresh F N) Ht0 Hz0 Ny0 Nv0) as (q0 & E0 & H0); try lra; try exact Lfr.
  destruct (sub_apx F fin val A lg t1 z1 y1 v1 _ _ _ _ (fresh F N) Ht1 Hz1 Ny1 Nv1) as (q1 & E1 & H1); try lra; try exact Lfr.
  fold d0 in H0. fold d1 in H1.
  apply (apx_weak F fin val _ _ _ _ (wE (a0 + b0) D0)) in H0; [|unfold wE; apply Rplus_le_compat_l, Rmult_le_compat_l; lra].
  apply (apx_weak F fin val _ _ _ _ (wE (a1 + b1) D1)) in H1; [|unfold wE; apply Rplus_le_compat_l, Rmult_le_compat_l; lra].
  assert (W0 := wE_b (a0 + b0) D0 ltac:(lra) ltac:(lra)). assert (W1 := wE_b (a1 + b1) D1 ltac:(lra) ltac:(lra)). assert (Z1 := e1_b). assert (Z2 := e2_b).
  assert (Q0 : length q0 = N) by apply H0. assert (Q1 : length q1 = N) by apply H1.
  assert (Sf' : forall i, (i < N)%nat -> Cm (ev (cpopp (pe f)) i) <= Sf) by (intros i Hi; rewrite ev_opp', Cm_opp; apply Uf, Hi).
  assert (SF' : forall i, (i < N)%nat -> Cm (ev (cpopp (pe F_)) i) <= SF) by (intros i Hi; rewrite ev_opp', Cm_opp; apply UF, Hi).
  destruct (mul_block q0 (fresh F N) w0 w1 w2 w3 Q0 Lfr M0 M1 M2 M3) as (B00 & B01 & _ & _).
  destruct (mul_apx F fin val A lg q0 w0 d0 (ev (pe g)) _ _ D0 Sf (fresh F N) Hlg H0 A0 ND0 Ug) as (m0 & F0 & I0); try lra; try exact Lfr.
  destruct (mul_apx F fin val A lg q0 w1 d0 (ev (cpopp (pe f))) _ _ D0 Sf (fresh F N) Hlg H0 A1 ND0 Sf') as (m1 & F1 & I1); try lra; try exact Lfr.
  destruct (mul_apx F fin val A lg q1 w2 d1 (ev (pe G_)) _ _ D1 SF (fresh F N) Hlg H1 A2 ND1 UG) as (m2 & F2 & I2); try lra; try exact Lfr.
  assert (K2 : length m2 = N) by apply I2.
  destruct (mul_apx F fin val A lg q1 w3 d1 (ev (cpopp (pe F_))) _ _ D1 SF m2 Hlg H1 A3 ND1 SF') as (m3 & F3 & I3); try lra; try exact K2.
  destruct (mul_block q1 (fresh F N) w0 w1 w2 w3 Q1 Lfr M0 M1 M2 M3) as (_ & _ & B12 & _).
  destruct (mul_block q1 m2 w0 w1 w2 w3 Q1 K2 M0 M1 M2 M3) as (_ & _ & _ & B13).
  fold (ve (a0 + b0) D0 Sf e1) in I0, I1. fold (ve (a1 + b1) D1 SF e2) in I2, I3.
  destruct (ve_b (a0 + b0) D0 Sf e1) as [V0 V0']; try lra. destruct (ve_b (a1 + b1) D1 SF e2) as [V1 V1']; try lra.
  assert (Mm : forall dd v S DD, 0 <= S -> nrm N dd <= DD -> (forall i, (i < N)%nat -> Cm (v i) <= S) -> nrm N (fun i => Cmul (dd i) (v i)) <= DD * S).
  { intros dd v S DD HS Hd Hv. eapply Rle_trans; [apply (nrm_mul N _ _ S HS Hv)|]. rewrite Rmult_comm. apply Rmult_le_compat_r; lra. }
  destruct (add_to_apx F fin val A lg m0 m2 _ _ _ _ (D0 * Sf) (D1 * SF) I0 I2) as (s0 & G0 & J0); [apply Mm; lra || assumption|apply Mm; lra || assumption|lra|lra|].
  destruct (add_to_apx F fin val A lg m1 m3 _ _ _ _ (D0 * Sf) (D1 * SF) I1 I3) as (s1 & G1 & J1); [apply Mm; lra || assumption|apply Mm; lra || assumption|lra|lra|].
  exists s0, s1. split; [|split; [exact J0|exact J1]].
  unfold sign_vector. rewrite E0. cbn [bind]. rewrite E1. cbn [bind]. rewrite EB. rewrite (B00 _ F0) by apply I0. cbn [bind]. rewrite (B12 _ F2) by apply I2. cbn [bind]. rewrite G0. cbn [bind].
  rewrite (B01 _ F1) by apply I1. cbn [bind]. rewrite (B13 _ F3) by apply I3. cbn [bind]. rewrite G1. reflexivity.
Qed.

Hypothesis HN : ntru N f g F_ G_.
Section Run.
Variable c : list Z.
Variables a0 a1 : zpv N.
Notation dd0 := (fun i => Csub (T0 c i) (ev (emb a0) i)).
Notation dd1 := (fun i => Csub (T1 c i) (ev (emb a1) i)).
Lemma lin0 i : lin dd0 dd1 (ev (pe g)) (ev (pe G_)) i = ev (emb (sv0 lg g G_ c a0 a1)) i.
Proof.
  assert (E : Csub (Cmul (ev (pe f) i) (ev (pe G_) i)) (Cmul (ev (pe g) i) (ev (pe F_) i)) = Cz q) by apply (ntru_ev lg f g F_ G_ HN).
  unfold lin, sv0. rewrite !emb_sub, !emb_mul. unfold T0, T1, tp0, tp1, kq. rewrite ?ev_sub, ?ev_opp', ?ev_mul, ?ev_opp', ?ev_cst.
  revert E. generalize (ev (pe f) i) (ev (pe g) i) (ev (pe F_) i) (ev (pe G_) i) (ev (pe c) i) (ev (emb a0) i) (ev (emb a1) i).
  intros [f1 f2] [g1 g2] [F1 F2] [G1 G2] [c1 c2] [x1 x2] [y1 y2] E. apply (f_equal fst) in E as Er. apply (f_equal snd) in E as Ei. clear E.
  unfold Cz, Csub, Cmul, q in Er, Ei. cbn [fst snd] in Er, Ei.
  apply Cx_eq; unfold Cof; cx.
  - transitivity (/ 12289 * (c1 * (f1 * G1 - f2 * G2 - (g1 * F1 - g2 * F2)) - c2 * (f1 * G2 + f2 * G1 - (g1 * F2 + g2 * F1))) - (x1 * g1 - x2 * g2) - (y1 * G1 - y2 * G2)); [ring|]. rewrite Er, Ei. field.
  - transitivity (/ 12289 * (c2 * (f1 * G1 - f2 * G2 - (g1 * F1 - g2 * F2)) + c1 * (f1 * G2 + f2 * G1 - (g1 * F2 + g2 * F1))) - (x1 * g2 + x2 * g1) - (y1 * G2 + y2 * G1)); [ring|]. rewrite Er, Ei. field.
Qed.
Lemma lin1 i : lin dd0 dd1 (ev (cpopp (pe f))) (ev (cpopp (pe F_))) i = ev (emb (sv1 lg f F_ a0 a1)) i.
Proof.
  unfold lin, sv1. rewrite emb_add, !emb_mul. unfold T0, T1, tp0, tp1, kq. rewrite ?ev_add, ?ev_opp', ?ev_mul, ?ev_opp', ?ev_cst.
  generalize (ev (pe f) i) (ev (pe F_) i) (ev (pe c) i) (ev (emb a0) i) (ev (emb a1) i).
  intros [f1 f2] [F1 F2] [c1 c2] [x1 x2] [y1 y2]. apply Cx_eq; unfold Cof; cx; ring.
Qed.
(** the differences t - z are recovered from the signature vector *)
Lemma dd0_of i : dd0 i = Copp (Cscal (Cadd (Cmul (lin dd0 dd1 (ev (pe g)) (ev (pe G_)) i) (ev (pe F_) i)) (Cmul (lin dd0 dd1 (ev (cpopp (pe f))) (ev (cpopp (pe F_))) i) (ev (pe G_) i))) (/ 12289)).
Proof.
  assert (E : Csub (Cmul (ev (pe f) i) (ev (pe G_) i)) (Cmul (ev (pe g) i) (ev (pe F_) i)) = Cz q) by apply (ntru_ev lg f g F_ G_ HN).
  unfold lin. rewrite !ev_opp'. revert E. generalize (ev (pe f) i) (ev (pe g) i) (ev (pe F_) i) (ev (pe G_) i) (Csub (T0 c i) (ev (emb a0) i)) (Csub (T1 c i) (ev (emb a1) i)).
  intros [f1 f2] [g1 g2] [F1 F2] [G1 G2] [x1 x2] [y1 y2] E. apply (f_equal fst) in E as Er. apply (f_equal snd) in E as Ei. clear E.
  unfold Cz, Csub, Cmul, q in Er, Ei. cbn [fst snd] in Er, Ei. apply Cx_eq; cx; unfold Cscal; cbn [fst snd].
  - transitivity (/ 12289 * (x1 * (f1 * G1 - f2 * G2 - (g1 * F1 - g2 * F2)) - x2 * (f1 * G2 + f2 * G1 - (g1 * F2 + g2 * F1)))); [rewrite Er, Ei; field|ring].
  - transitivity (/ 12289 * (x2 * (f1 * G1 - f2 * G2 - (g1 * F1 - g2 * F2)) + x1 * (f1 * G2 + f2 * G1 - (g1 * F2 + g2 * F1)))); [rewrite Er, Ei; field|ring].
Qed.
Lemma dd1_of i : dd1 i = Cscal (Cadd (Cmul (lin dd0 dd1 (ev (pe g)) (ev (pe G_)) i) (ev (pe f) i)) (Cmul (lin dd0 dd1 (ev (cpopp (pe f))) (ev (cpopp (pe F_))) i) (ev (pe g) i))) (/ 12289).
Proof.
  assert (E : Csub (Cmul (ev (pe f) i) (ev (pe G_) i)) (Cmul (ev (pe g) i) (ev (pe F_) i)) = Cz q) by apply (ntru_ev lg f g F_ G_ HN).
  unfold lin. rewrite !ev_opp'. revert E. generalize (ev (pe f) i) (ev (pe g) i) (ev (pe F_) i) (ev (pe G_) i) (Csub (T0 c i) (ev (emb a0) i)) (Csub (T1 c i) (ev (emb a1) i)).
  intros [f1 f2] [g1 g2] [F1 F2] [G1 G2] [x1 x2] [y1 y2] E. apply (f_equal fst) in E as Er. apply (f_equal snd) in E as Ei. clear E.
  unfold Cz, Csub, Cmul, q in Er, Ei. cbn [fst snd] in Er, Ei. apply Cx_eq; cx; unfold Cscal; cbn [fst snd].
  - transitivity (/ 12289 * (y1 * (f1 * G1 - f2 * G2 - (g1 * F1 - g2 * F2)) - y2 * (f1 * G2 + f2 * G1 - (g1 * F2 + g2 * F1)))); [rewrite Er, Ei; field|ring].
  - transitivity (/ 12289 * (y2 * (f1 * G1 - f2 * G2 - (g1 * F1 - g2 * F2)) + y1 * (f1 * G2 + f2 * G1 - (g1 * F2 + g2 * F1)))); [rewrite Er, Ei; field|ring].
Qed.
Definition DD (S W : R) : R := S * (2 * W) / 12289.
Lemma comb_bound (s0 s1 v0 v1 : nat -> Cx) S W : 0 <= S -> nrm N s0 <= W -> nrm N s1 <= W -> (forall i, (i < N)%nat -> Cm (v0 i) <= S) -> (forall i, (i < N)%nat -> Cm (v1 i) <= S) ->
  nrm N (fun i => Cscal (Cadd (Cmul (s0 i) (v0 i)) (Cmul (s1 i) (v1 i))) (/ 12289)) <= DD S W.
Proof.
  intros HS H0 H1 V0 V1. rewrite nrm_scal by lra. unfold DD. assert (X0 := nrm_mul N s0 v0 S HS V0). assert (X1 := nrm_mul N s1 v1 S HS V1). assert (Tr := nrm_tri N (fun i => Cmul (s0 i) (v0 i)) (fun i => Cmul (s1 i) (v1 i))).
  assert (S * nrm N s0 <= S * W) by (apply Rmult_le_compat_l; lra). assert (S * nrm N s1 <= S * W) by (apply Rmult_le_compat_l; lra). lra.
Qed.
Lemma dd_bound W : nrm N (ev (emb (sv0 lg g G_ c a0 a1))) <= W -> nrm N (ev (emb (sv1 lg f F_ a0 a1))) <= W -> nrm N dd0 <= DD SF W /\ nrm N dd1 <= DD Sf W.
Proof.
  intros H0 H1. rewrite <- (nrm_ext N _ _ (fun i _ => lin0 i)) in H0. rewrite <- (nrm_ext N _ _ (fun i _ => lin1 i)) in H1. split.
  - rewrite (nrm_ext N _ _ (fun i _ => dd0_of i)). eapply Rle_trans; [|apply (comb_bound _ _ _ _ SF W ltac:(lra) H0 H1 UF UG)]. apply nrm_le. intros i _. rewrite Cm_opp. apply Rle_refl.
  - rewrite (nrm_ext N _ _ (fun i _ => dd1_of i)). apply (comb_bound _ _ _ _ Sf W ltac:(lra) H0 H1 Uf Ug).
Qed.
End Run.

(** numeric conditions: Ea bounds the error of the signature vector before the norm test, Eb after it *)
Definition zE (K : R) : R := 2 / 100000000000000 * K + 1 / 100000000000000000000.
Definition K41 : R := 2199023255552.
Definition good (Ea Eb : R) : Prop := dT SF e2 <= 1 /\ dT Sf e1 <= 1 /\ 0 <= Ea <= 20000 /\ 0 <= Eb <= 1 / 10 /\
  EE (dT SF e2 + zE K41) (nT SF + K41) (dT Sf e1 + zE K41) (nT Sf + K41) <= Ea /\
  EE (dT SF e2 + zE (nT SF + DD SF (268400 + Ea))) (DD SF (268400 + Ea)) (dT Sf e1 + zE (nT Sf + DD Sf (268400 + Ea))) (DD Sf (268400 + Ea)) <= Eb.
Lemma int_apx_K z (a : zpv N) K : int_apx F fin val lg z a -> nrm N (ev (emb a)) <= K -> apx N z (ev (emb a)) (zE K) /\ nrm N (ev (emb a)) <= K41.
Proof.
  intros [H1 H2] HK. destruct (xh_bound lg Hlg) as [_ Xh]. destruct (lg_ep lg Hlg) as [L0 L1]. assert (P0 := nrm_pos N (ev (emb a))). split.
  - eapply apx_weak; [exact H1|]. unfold zE. assert (INR lg * ep * nrm N (ev (emb a)) <= 2 / 100000000000000 * K) by (apply Rmult_le_compat; lra).
    replace (1 / 100000000000000000000) with (1 / 10 ^ 20) by (simpl; lra). lra.
  - eapply Rle_trans; [exact H2|]. assert (P : 2 ^ lg <= 2 ^ 10) by (apply Rle_pow; [lra|lia]). replace (2 ^ 10) with 1024 in P by (simpl; ring). unfold K41. lra.
Qed.
Lemma dT_pos S e : 0 <= S <= 131072 -> 0 <= e <= 1 -> 0 <= dT S e.
Proof. intros HS He. assert (M := mT_b S e HS He). assert (T := tiny_pos). unfold dT. rewrite ulp_val. lra. Qed.
Lemma lin_bound d0 d1 v0 v1 D S : 0 <= S -> nrm N d0 <= D -> nrm N d1 <= D -> (forall i, (i < N)%nat -> Cm (v0 i) <= S) -> (forall i, (i < N)%nat -> Cm (v1 i) <= S) ->
  nrm N (lin d0 d1 v0 v1) <= 2 * (S * D).
Proof.
  intros HS H0 H1 V0 V1. assert (X0 := nrm_mul N d0 v0 S HS V0). assert (X1 := nrm_mul N d1 v1 S HS V1).
  assert (Tr : nrm N (lin d0 d1 v0 v1) <= nrm N (fun i => Cmul (d0 i) (v0 i)) + nrm N (fun i => Cmul (d1 i) (v1 i))) by apply nrm_tri.
  assert (S * nrm N d0 <= S * D) by (apply Rmult_le_compat_l; lra). assert (S * nrm N d1 <= S * D) by (apply Rmult_le_compat_l; lra). lra.
Qed.
Lemma step_float Ea Eb sfuel T cc0 smin b rng p pos' z0 z1 t0 t1 : good Ea Eb -> length cc0 = N -> (forall i, (i < N)%nat -> 0 <= nth i cc0 0 < 12289)%Z -> (0 <= b <= 68700 * Z.of_nat N)%Z ->
  sign_target F ztab lg B cc0 = Ok (t0, t1) ->
  ff_sampling F ztab sfuel lg 0 t0 t1 T 0 smin rng p = Ok (z0, z1, pos') ->
  exists s0 s1 n0 n1, sign_vector F lg B t0 t1 z0 z1 = Ok (s0, s1) /\ sqrd_norm_c F lg s0 = Ok n0 /\ sqrd_norm_c F lg s1 = Ok n1 /\
  (fle F (fadd F n0 n1) (fofz F b) = true -> exists s1' s2 z0 z1, ifft F ztab lg s1 = Ok s1' /\ round_poly F lg s1' (repeat 0%Z N) = Ok s2 /\ length z0 = N /\ length z1 = N /\
   s2 = Spec.padd N (negacyclic N z0 f) (negacyclic N z1 F_) /\
   IZR (sqnorm (Spec.psub N (Spec.psub N cc0 (negacyclic N z0 g)) (negacyclic N z1 G_)) + sqnorm s2) <= IZR b + 742 * Eb + 2 * (Eb * Eb) + 1 / 100).
Proof.
  intros (Gd0 & Gd1 & GEa & GEb & GA & GB) Lc Hc Hb Ht E1.
  destruct (target_apx cc0 Lc Hc) as (t0' & t1' & Et & At0 & At1 & Nt0 & Nt1). rewrite Et in Ht. injection Ht as -> ->.
  destruct (ffsamp_apx F fin val A ztab HZ _ _ _ _ _ _ _ _ _ _ _ _ _ Hlg E1) as (a0 & a1 & I0 & I1).
  destruct (int_apx_K z0 a0 K41 I0) as [Z0 B0]; [destruct (int_apx_K z0 a0 _ I0 (Rle_refl _)); assumption|]. destruct (int_apx_K z1 a1 K41 I1) as [Z1 B1]; [destruct (int_apx_K z1 a1 _ I1 (Rle_refl _)); assumption|].
  assert (Zd0 := dT_pos SF e2 HSF e2_b). assert (Zd1 := dT_pos Sf e1 ltac:(lra) e1_b).
  assert (BT0 : nT SF <= 135000000) by (unfold nT; lra). assert (BT1 : nT Sf <= 135000000) by (unfold nT; lra).
  assert (NS := nrm_sub N (T0 cc0) (ev (emb a0))). assert (NS1 := nrm_sub N (T1 cc0) (ev (emb a1))).
  assert (V1 : exists s0 s1, sign_vector F lg B t0 t1 z0 z1 = Ok (s0, s1) /\ apx N s0 (lin (fun i => Csub (T0 cc0 i) (ev (emb a0) i)) (fun i => Csub (T1 cc0 i) (ev (emb a1) i)) (ev (pe g)) (ev (pe G_))) Ea /\ apx N s1 (lin (fun i => Csub (T0 cc0 i) (ev (emb a0) i)) (fun i => Csub (T1 cc0 i) (ev (emb a1) i)) (ev (cpopp (pe f))) (ev (cpopp (pe F_)))) Ea).
  { destruct (vector_apx t0 t1 z0 z1 _ _ _ _ _ _ _ _ (nT SF + K41) (nT Sf + K41) At0 At1 Z0 Z1) as (x0 & x1 & Ex & H0 & H1); try (unfold zE, K41 in *; lra).
    exists x0, x1. split; [exact Ex|]. split; eapply apx_weak; [exact H0|exact GA|exact H1|exact GA]. }
  destruct V1 as (x0 & x1 & Ex & H0 & H1). rename x0 into s0. rename x1 into s1. exists s0, s1.
  assert (Bpre : nrm N (X s0) <= 10 ^ 30 /\ nrm N (X s1) <= 10 ^ 30).
  { assert (P30 : 1000000000000000000000000000000 <= 10 ^ 30) by (simpl; lra). split.
    - eapply Rle_trans; [apply (apx_nrm F fin val _ _ _ _ H0)|]. assert (Lb := lin_bound (fun i => Csub (T0 cc0 i) (ev (emb a0) i)) (fun i => Csub (T1 cc0 i) (ev (emb a1) i)) (ev (pe g)) (ev (pe G_)) 10000000000000 131072 ltac:(lra) ltac:(unfold K41 in *; lra) ltac:(unfold K41 in *; lra)).
      eapply Rle_trans; [apply Rplus_le_compat_r, Lb|lra]; intros i Hi; [specialize (Ug i Hi)|specialize (UG i Hi)]; lra.
    - eapply Rle_trans; [apply (apx_nrm F fin val _ _ _ _ H1)|]. assert (Lb := lin_bound (fun i => Csub (T0 cc0 i) (ev (emb a0) i)) (fun i => Csub (T1 cc0 i) (ev (emb a1) i)) (ev (cpopp (pe f))) (ev (cpopp (pe F_))) 10000000000000 131072 ltac:(lra) ltac:(unfold K41 in *; lra) ltac:(unfold K41 in *; lra)).
      eapply Rle_trans; [apply Rplus_le_compat_r, Lb|lra]; intros i Hi; rewrite ev_opp', Cm_opp; [specialize (Uf i Hi)|specialize (UF i Hi)]; lra. }
  apply (apx_ext F fin val _ _ _ _ _ (fun i _ => lin0 cc0 a0 a1 i)) in H0. apply (apx_ext F fin val _ _ _ _ _ (fun i _ => lin1 cc0 a0 a1 i)) in H1.
  set (q0 := sv0 lg g G_ cc0 a0 a1) in *. set (q1 := sv1 lg f F_ a0 a1) in *.
  assert (N1024 := pow_1024 lg Hlg). assert (Npos : (1 <= N)%nat) by (apply Nat.neq_0_lt_0, Nat.pow_nonzero; lia). 
  assert (NR : 1 <= INR N <= 1024) by (split; [apply (le_INR 1); exact Npos|replace 1024 with (INR 1024) by (simpl; lra); apply le_INR; exact N1024]).
  assert (Hb' : 0 <= IZR b <= 68700 * INR N). { rewrite INR_IZR_INZ, <- mult_IZR. split; apply IZR_le; lia. }
  destruct (norm_apx F fin val A lg s0 Hlg (proj1 H0) (proj1 Bpre)) as (n0 & E3 & _). destruct (norm_apx F fin val A lg s1 Hlg (proj1 H1) (proj2 Bpre)) as (n1 & E4 & _).
  exists n0, n1. split; [exact Ex|]. split; [exact E3|]. split; [exact E4|]. intros E5.
  assert (NT := norm_test F fin val A lg s0 s1 n0 n1 b Hlg (proj1 H0) (proj1 H1) (proj1 Bpre) (proj2 Bpre) ltac:(lia) E3 E4 E5).
  set (x := nrm N (X s0)) in *. set (y := nrm N (X s1)) in *. assert (Px : 0 <= x) by apply nrm_pos. assert (Py : 0 <= y) by apply nrm_pos.
  assert (NT2 : x * x + y * y <= 6870001 / 100 * (INR N * INR N)).
  { eapply Rle_trans; [exact NT|]. apply Rle_trans with (INR N * (6870001 / 100 * INR N)); [apply Rmult_le_compat_l; lra|lra]. }
  assert (NN : INR N * INR N <= 1024 * 1024) by (apply Rmult_le_compat; lra).
  assert (Bx : x <= 268400) by (apply sq_le; [lra|]; pose proof (Rle_0_sqr y) as Sy; unfold Rsqr in Sy; lra).
  assert (By : y <= 268400) by (apply sq_le; [lra|]; pose proof (Rle_0_sqr x) as Sx; unfold Rsqr in Sx; lra).
  assert (Bxy : x + y <= 3707 / 10 * INR N).
  { apply sq_le; [lra|]. pose proof (Rle_0_sqr (x - y)) as Sy. unfold Rsqr in Sy. assert (0 <= INR N * INR N) by (apply Rmult_le_pos; lra). lra. }
  assert (W0 : forall l (r : zpv N) E, apx N l (ev (emb r)) E -> nrm N (ev (emb r)) <= nrm N (X l) + E).
  { intros l r E H. eapply Rle_trans; [apply (nrm_le_add N _ (X l))|]. apply Rplus_le_compat_l. eapply Rle_trans; [|apply H]. apply nrm_le. intros i _. rewrite Cm_swap. apply Rle_refl. }
  destruct (dd_bound cc0 a0 a1 (268400 + Ea)) as [Db0 Db1]; [eapply Rle_trans; [apply (W0 _ _ _ H0)|fold x; lra]|eapply Rle_trans; [apply (W0 _ _ _ H1)|fold y; lra]|].
  assert (Na0 : nrm N (ev (emb a0)) <= nT SF + DD SF (268400 + Ea)).
  { eapply Rle_trans; [apply (nrm_le_add N _ (T0 cc0))|]. apply Rplus_le_compat; [exact Nt0|]. eapply Rle_trans; [|exact Db0]. apply nrm_le. intros i _. rewrite Cm_swap. apply Rle_refl. }
  assert (Na1 : nrm N (ev (emb a1)) <= nT Sf + DD Sf (268400 + Ea)).
  { eapply Rle_trans; [apply (nrm_le_add N _ (T1 cc0))|]. apply Rplus_le_compat; [exact Nt1|]. eapply Rle_trans; [|exact Db1]. apply nrm_le. intros i _. rewrite Cm_swap. apply Rle_refl. }
  destruct (int_apx_K z0 a0 _ I0 Na0) as [Y0 _]. destruct (int_apx_K z1 a1 _ I1 Na1) as [Y1 _].
  assert (RD0 : 0 <= DD SF (268400 + Ea) <= 10000000). { destruct (prod_b SF (2 * (268400 + Ea)) 131072 600000 ltac:(lra) ltac:(lra)). unfold DD. lra. }
  assert (RD1 : 0 <= DD Sf (268400 + Ea) <= 10000000). { destruct (prod_b Sf (2 * (268400 + Ea)) 131072 600000 ltac:(lra) ltac:(lra)). unfold DD. lra. }
  assert (RT0 : 0 <= nT SF) by (unfold nT; lra). assert (RT1 : 0 <= nT Sf) by (unfold nT; lra).
  destruct (vector_apx t0 t1 z0 z1 _ _ _ _ _ _ _ _ (DD SF (268400 + Ea)) (DD Sf (268400 + Ea)) At0 At1 Y0 Y1) as (x0 & x1 & Ex' & H0' & H1'); try (unfold zE, K41 in *; lra).
  rewrite Ex in Ex'. injection Ex' as <- <-.
  apply (apx_ext F fin val _ _ _ _ _ (fun i _ => lin0 cc0 a0 a1 i)) in H0'. apply (apx_ext F fin val _ _ _ _ _ (fun i _ => lin1 cc0 a0 a1 i)) in H1'. fold q0 in H0'. fold q1 in H1'.
  apply (apx_weak F fin val _ _ _ _ Eb) in H0'; [|exact GB]. apply (apx_weak F fin val _ _ _ _ Eb) in H1'; [|exact GB].
  assert (R0 := W0 _ _ _ H0'). assert (R1 := W0 _ _ _ H1'). fold x in R0. fold y in R1.
  assert (S1 := s2_1 lg). assert (SS := s2_sq lg).
  destruct (ifft_err F fin val A ztab HZ lg s1 (emb q1) Eb 300000 Hlg H1') as (s1'' & Ei & Hi'); [lra|lra|pose proof th_1; assert (1000000 <= 10 ^ 37) by (simpl; lra); lra|].
  rename s1'' into s1'. assert (Lep : INR (S lg) * ep <= 22 / 1000000000000000).
  { assert (INR (S lg) <= 11) by (replace 11 with (INR 11) by (simpl; lra); apply le_INR; lia). unfold ep. lra. }
  assert (Ei2 : (Eb + INR (S lg) * ep * 300000) / P_err.s2 lg < 1 / 2).
  { apply (Rmult_lt_reg_r (P_err.s2 lg)); [lra|]. unfold Rdiv at 1. rewrite Rmult_assoc, Rinv_l by lra. lra. }
  assert (Nq : forall r : zpv N, nrm N (ev (emb r)) * nrm N (ev (emb r)) = INR N * IZR (sqnorm (pl Z N r))).
  { intros r. rewrite nrm_ev, <- nrm_emb, <- SS. ring. }
  exists s1', (pl Z N q1), (pl Z _ a0), (pl Z _ a1). split; [exact Ei|]. split; [apply (round_apx F fin val A lg q1 s1' _ (repeat 0%Z N) Hi' Ei2 (repeat_length _ _))|].
  2: { split; [apply pl_length|]. split; [apply pl_length|].
    assert (Ew1 : pl Z N q1 = Spec.padd N (negacyclic N (pl Z N a0) f) (negacyclic N (pl Z N a1) F_)).
    { unfold q1, sv1. rewrite pl_padd, !negacyclic_zmul, !ofl_pl. reflexivity. }
    assert (Ew0 : pl Z N q0 = Spec.psub N (Spec.psub N cc0 (negacyclic N (pl Z N a0) g)) (negacyclic N (pl Z N a1) G_)).
    { unfold q0, sv0. rewrite !pl_psub, !negacyclic_zmul, !ofl_pl, pl_ofl by exact Lc. reflexivity. }
    split; [exact Ew1|]. rewrite <- Ew0. rewrite plus_IZR.
    apply (Rmult_le_reg_l (INR N)); [lra|]. rewrite Rmult_plus_distr_l, <- !Nq.
    assert (Q0 : nrm N (ev (emb q0)) * nrm N (ev (emb q0)) <= (x + Eb) * (x + Eb)) by (apply Rmult_le_compat; try apply nrm_pos; lra).
    assert (Q1 : nrm N (ev (emb q1)) * nrm N (ev (emb q1)) <= (y + Eb) * (y + Eb)) by (apply Rmult_le_compat; try apply nrm_pos; lra).
    assert (Q2 : Eb * (x + y) <= Eb * (3707 / 10 * INR N)) by (apply Rmult_le_compat_l; lra).
    assert (Q3 : 0 <= Eb * Eb) by (apply Rmult_le_pos; lra). assert (Q4 : 1 * (Eb * Eb) <= INR N * (Eb * Eb)) by (apply Rmult_le_compat_r; lra). assert (Q5 : 0 <= Eb * INR N) by (apply Rmult_le_pos; lra). lra. }
  { rewrite Forall_forall. intros v Hv. assert (X1 := sqnorm_coeff _ _ Hv). assert (X2 := Nq q1).
    assert (X3 : nrm N (ev (emb q1)) * nrm N (ev (emb q1)) <= 300000 * 300000) by (apply Rmult_le_compat; try apply nrm_pos; lra).
    assert (X4 : IZR (sqnorm (pl Z N q1)) <= 300000 * 300000). { assert (0 <= IZR (sqnorm (pl Z N q1))) by (apply (IZR_le 0); apply sqnorm_pos). assert (1 * IZR (sqnorm (pl Z N q1)) <= INR N * IZR (sqnorm (pl Z N q1))) by (apply Rmult_le_compat_r; lra). lra. }
    rewrite <- mult_IZR in X4. apply le_IZR in X4. nia. }
Qed.
Lemma accepted_float Ea Eb sfuel T cc0 smin b rng pos' s2 t0 t1 : good Ea Eb -> length cc0 = N -> (forall i, (i < N)%nat -> 0 <= nth i cc0 0 < 12289)%Z -> (0 <= b <= 68700 * Z.of_nat N)%Z ->
  sign_target F ztab lg B cc0 = Ok (t0, t1) ->
  accepted F ztab sfuel lg B T t0 t1 smin b rng pos' s2 ->
  exists z0 z1, length z0 = N /\ length z1 = N /\
   s2 = Spec.padd N (negacyclic N z0 f) (negacyclic N z1 F_) /\
   IZR (sqnorm (Spec.psub N (Spec.psub N cc0 (negacyclic N z0 g)) (negacyclic N z1 G_)) + sqnorm s2) <= IZR b + 742 * Eb + 2 * (Eb * Eb) + 1 / 100.
Proof.
  intros Hg Lc Hc Hb Ht (p & z0 & z1 & s0 & s1 & n0 & n1 & s1' & E1 & E2 & E3 & E4 & E5 & E6 & E7).
  destruct (step_float Ea Eb sfuel T cc0 smin b rng p pos' z0 z1 t0 t1 Hg Lc Hc Hb Ht E1) as (r0 & r1 & m0 & m1 & G2 & G3 & G4 & G5).
  rewrite E2 in G2. injection G2 as <- <-. rewrite E3 in G3. injection G3 as <-. rewrite E4 in G4. injection G4 as <-.
  destruct (G5 E5) as (r1' & r2 & y0 & y1 & G6 & G7 & G8). rewrite E6 in G6. injection G6 as <-. rewrite E7 in G7. injection G7 as <-. exists y0, y1. exact G8.
Qed.
End Sgn.
