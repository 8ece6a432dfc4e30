(** P_fG.v -- recompute_G in rounded arithmetic returns G. *)
From Verif Require Import Base Ring Poly Spec SpecR SpecF M_ff M_xform P_xform M_codec P_codec M_float M_exact P_exact M_samp M_fft M_ntru P_ntru M_tree P_brv P_cplx P_fft P_tree P_treex P_gs P_sign P_signb P_signx P_l2 P_err P_ferr P_float P_fmerge P_fnorm P_fsign.
From Coq Require Import Ring_theory Ring Lra Psatz.
Open Scope R_scope.

Section Rec.
Variable F : fops.
Variable fin : D F -> Prop.
Variable val : D F -> R.
Hypothesis A : accurate F fin val.
Notation C := (D F * D F)%type.
Notation d := (c0 F).
Notation cv := (cv F val).
Notation X := (X F val).
Notation apx := (apx F fin val).
Notation vfin := (vfin F fin).
Notation cfin := (cfin F fin).
Variable ztab : list C.
Hypothesis HZ : table_near F fin val ztab.
Variable lg : nat.
Hypothesis Hlg : (lg <= 10)%nat.
Notation N := (2 ^ lg)%nat.
Notation zl a := (ofl Z 0%Z N a).
Notation pe a := (emb (zl a)).
Variables f g F_ G_ : list Z.
Hypotheses (Lf : length f = N) (Lg : length g = N) (LF : length F_ = N) (LG : length G_ = N).
Hypotheses (Nf : nrm N (cc (pe f)) <= 131) (Ng : nrm N (cc (pe g)) <= 131) (NF : nrm N (cc (pe F_)) <= 4096) (NG : nrm N (cc (pe G_)) <= 4096).
Hypothesis HN : ntru N f g F_ G_.
Hypothesis Hmin : forall i, (i < N)%nat -> 1 / 1000 <= Cm (ev (pe f) i).

Lemma q_apx : apx N (repeat (cof F (fofz F M_ff.Q)) N) (fun _ => Cz q) 0 /\ nrm N (fun _ => Cz q) <= 393248.
Proof.
  destruct (cof_int F fin val A M_ff.Q) as [Fq Eq]; [unfold M_ff.Q; change (2 ^ 53)%Z with 9007199254740992%Z; lia|].
  assert (Sn := sqrt_1024 N (pow_1024 lg Hlg)). split.
  - split; [split; [apply repeat_length|]|].
    + intros i Hi. rewrite (nth_indep _ d (cof F (fofz F M_ff.Q))) by (rewrite repeat_length; exact Hi). rewrite nth_repeat. exact Fq.
    + eapply Rle_trans; [apply (nrm_sup N _ 0 (Rle_refl _))|lra]. intros i Hi. unfold P_err.X. rewrite (nth_indep _ d (cof F (fofz F M_ff.Q))) by (rewrite repeat_length; exact Hi). rewrite nth_repeat, Eq.
      replace (Csub (Cz M_ff.Q) (Cz q)) with Czero by (unfold M_ff.Q, q; apply Cx_eq; unfold Cz; cx; ring). rewrite Cm_zero. apply Rle_refl.
  - eapply Rle_trans; [apply (nrm_sup N _ 12289); [lra|]|].
    + intros i Hi. unfold Cz, q. rewrite Cm_real by lra. lra.
    + assert (sqrt (INR N) * 12289 <= 32 * 12289) by (apply Rmult_le_compat_r; lra). lra.
Qed.
Lemma recompute_G_apx (out : list Z) : length out = N -> recompute_G F ztab lg f g F_ out = Ok G_.
Proof.
  intros Lo. unfold recompute_G.
  destruct (trans_apx F fin val A ztab HZ lg Hlg f 131 Lf Nf ltac:(lra)) as (lf & wf & E1 & _ & T1 & Af).
  destruct (trans_apx F fin val A ztab HZ lg Hlg g 131 Lg Ng ltac:(lra)) as (lg' & wg & E2 & _ & T2 & Ag).
  destruct (trans_apx F fin val A ztab HZ lg Hlg F_ 4096 LF NF ltac:(lra)) as (lF & wF & E3 & _ & T3 & AF).
  rewrite E1, E2, E3. cbn [bind]. rewrite T1, T2, T3. cbn [bind].
  assert (Lfr : length (fresh F N) = N) by apply repeat_length. assert (S32 := s2_32 lg Hlg). assert (S0 := s2_pos lg). assert (Tp := tiny_pos). assert (Tn := tiny_1). assert (Bg := big_13).
  assert (Kg : nrm N (ev (pe g)) <= 4192) by (rewrite nrm_ev; apply Rle_trans with (32 * 131); [apply Rmult_le_compat; try lra; apply nrm_pos|lra]).
  assert (SF : forall i, (i < N)%nat -> Cm (ev (pe F_) i) <= 131072) by (intros i Hi; eapply Rle_trans; [apply (ev_sup lg Hlg F_ 4096 i NF Hi)|lra]).
  assert (SG : forall i, (i < N)%nat -> Cm (ev (pe G_) i) <= 131072) by (intros i Hi; eapply Rle_trans; [apply (ev_sup lg Hlg G_ 4096 i NG Hi)|lra]).
  destruct (mul_apx F fin val A lg wg wF (ev (pe g)) (ev (pe F_)) _ _ 4192 131072 (fresh F N) Hlg Ag AF Kg SF) as (m & Em & Hm); try lra; try exact Lfr.
  rewrite Em. cbn [bind]. apply (apx_weak F fin val _ _ _ _ (23 / 1000000)) in Hm; [|rewrite ulp_val; lra].
  assert (Nm : nrm N (fun i => Cmul (ev (pe g) i) (ev (pe F_) i)) <= 549453824) by (eapply Rle_trans; [apply (nrm_mul N _ _ 131072 ltac:(lra) SF)|]; lra).
  destruct q_apx as [Hq Nq].
  destruct (add_to_apx F fin val A lg m _ _ _ _ _ _ _ Hm Hq Nm Nq) as (s & Es & Hs); [lra|lra|]. rewrite Es. cbn [bind].
  apply (apx_weak F fin val _ _ _ _ (24 / 1000000)) in Hs; [|rewrite ulp_val; lra].
  assert (EG : forall i, (i < N)%nat -> Cadd (Cmul (ev (pe g) i) (ev (pe F_) i)) (Cz q) = Cmul (ev (pe f) i) (ev (pe G_) i)).
  { intros i Hi. rewrite <- (ntru_ev lg f g F_ G_ HN i). change (ofl Z 0%Z N) with (zof N). generalize (ev (emb (zof N f)) i) (ev (emb (zof N g)) i) (ev (emb (zof N F_)) i) (ev (emb (zof N G_)) i). intros [? ?] [? ?] [? ?] [? ?]. apply Cx_eq; cx; ring. }
  assert (Ns : nrm N (fun i => Cadd (Cmul (ev (pe g) i) (ev (pe F_) i)) (Cz q)) <= 549900000) by (eapply Rle_trans; [apply nrm_tri|]; lra).
  assert (Ns' := apx_nrm F fin val _ _ _ _ Hs).
  apply (apx_ext F fin val _ _ _ _ _ EG) in Hs.
  assert (Vs := proj1 Hs). assert (Vf := proj1 Af). assert (Lwf : length wf = N) by apply Af. assert (Ls : length s = N) by apply Hs.
  assert (ED : cpoly_div F lg s wf (fresh F N) = Ok (tab N (fun i => fcdiv F (nth i s d) (nth i wf d)))).
  { unfold cpoly_div. apply (zipw_ok (fun x y => Ok (fcdiv F x y)) (fcdiv F) N s wf (fresh F N) d d); try (symmetry; assumption); reflexivity. }
  rewrite ED. cbn [bind]. set (w := tab N _).
  assert (Lo1 : forall i, (i < N)%nat -> 1 / 1001 <= Cm (X wf i)).
  { intros i Hi. pose proof (apx_point F fin val _ _ _ _ i Af Hi). pose proof (Cm_le_add (ev (pe f) i) (X wf i)). rewrite Cm_swap in H0. specialize (Hmin i Hi). lra. }
  assert (P40 : 10000000000000 <= 10 ^ 50) by (simpl; lra).
  assert (P : forall i, (i < N)%nat -> cfin (fcdiv F (nth i s d) (nth i wf d)) /\ Cm (Csub (Cmul (cv (fcdiv F (nth i s d) (nth i wf d))) (X wf i)) (X s i)) <= 8 * ulp * Cm (X s i) + tiny).
  { intros i Hi. apply (cdiv_err F fin val A); [apply Vs, Hi|apply Vf, Hi| |].
    - eapply Rle_trans; [apply (nrm_comp N (X s) i Hi)|]. lra.
    - fold (X wf i). split; [apply Rle_trans with (1 / 1001); [|apply Lo1, Hi]|].
      + apply Rle_trans with (/ 10000000000000); [apply Rinv_le_contravar; lra|lra].
      + eapply Rle_trans; [apply (apx_sup F fin val N wf _ _ (32 * 131) i Af Hi)|lra]. rewrite nrm_ev. apply Rmult_le_compat; try lra. apply nrm_pos. }
  assert (Aw : apx N w (ev (pe G_)) (37 / 1000)).
  { split; [split; [apply tab_length|intros i Hi; unfold w; rewrite nth_tab by exact Hi; apply P, Hi]|].
    set (u := fun i => Cmul (Csub (X w i) (ev (pe G_) i)) (X wf i)).
    assert (H1 : nrm N (fun i => Csub (X w i) (ev (pe G_) i)) <= 1001 * nrm N u).
    { eapply Rle_trans; [apply (nrm_bound N _ u 1001 0); [lra|lra|]|lra]. intros i Hi. unfold u. rewrite Cm_mul. specialize (Lo1 i Hi). pose proof (Cm_pos (Csub (X w i) (ev (pe G_) i))).
      assert (Cm (Csub (X w i) (ev (pe G_) i)) * (1 / 1001) <= Cm (Csub (X w i) (ev (pe G_) i)) * Cm (X wf i)) by (apply Rmult_le_compat_l; lra). lra. }
    assert (H2 : nrm N (fun i => Csub (Cmul (X w i) (X wf i)) (X s i)) <= 8 * ulp * 549900001 + 32 * tiny).
    { assert (Sn := sqrt_1024 N (pow_1024 lg Hlg)). eapply Rle_trans; [apply (nrm_bound N _ (X s) (8 * ulp) tiny); [rewrite ulp_val; lra|lra|]|].
      - intros i Hi. unfold P_err.X at 1. unfold w. rewrite nth_tab by exact Hi. apply P, Hi.
      - apply Rplus_le_compat; [apply Rmult_le_compat_l; [rewrite ulp_val|]; lra|rewrite Rmult_comm; apply Rmult_le_compat_r; lra]. }
    assert (H3 : nrm N (fun i => Cmul (Csub (X wf i) (ev (pe f) i)) (ev (pe G_) i)) <= 131072 * (64 / 100000000000000 * 131)).
    { eapply Rle_trans; [apply (nrm_mul N _ _ 131072 ltac:(lra) SG)|]. apply Rmult_le_compat_l; [lra|]. apply Af. }
    assert (H4 : nrm N u <= nrm N (fun i => Csub (Cmul (X w i) (X wf i)) (X s i)) + (nrm N (fun i => Csub (X s i) (Cmul (ev (pe f) i) (ev (pe G_) i))) + nrm N (fun i => Cmul (Csub (X wf i) (ev (pe f) i)) (ev (pe G_) i)))).
    { assert (Q1 := nrm_sub N (fun i => Csub (X s i) (Cmul (ev (pe f) i) (ev (pe G_) i))) (fun i => Cmul (Csub (X wf i) (ev (pe f) i)) (ev (pe G_) i))).
      assert (Q2 := nrm_tri N (fun i => Csub (Cmul (X w i) (X wf i)) (X s i)) (fun i => Csub (Csub (X s i) (Cmul (ev (pe f) i) (ev (pe G_) i))) (Cmul (Csub (X wf i) (ev (pe f) i)) (ev (pe G_) i)))).
      rewrite (nrm_ext N u (fun i => Cadd (Csub (Cmul (X w i) (X wf i)) (X s i)) (Csub (Csub (X s i) (Cmul (ev (pe f) i) (ev (pe G_) i))) (Cmul (Csub (X wf i) (ev (pe f) i)) (ev (pe G_) i))))); [lra|].
      intros i Hi. unfold u. generalize (X w i) (X wf i) (X s i) (ev (pe f) i) (ev (pe G_) i). intros [? ?] [? ?] [? ?] [? ?] [? ?]. apply Cx_eq; cx; ring. }
    assert (H5 := proj2 Hs). rewrite ulp_val in H2. lra. }
  destruct (ifft_err F fin val A ztab HZ lg w (pe G_) (37 / 1000) 131072 Hlg Aw) as (r & Er & Hr).
  { rewrite nrm_ev. apply Rle_trans with (32 * 4096); [apply Rmult_le_compat; try lra; apply nrm_pos|lra]. } { lra. } { pose proof th_1. assert (1000000 <= 10 ^ 37) by (simpl; lra). lra. }
  rewrite Er. cbn [bind]. assert (S1 := s2_1 lg).
  assert (Lep : INR (S lg) * ep <= 22 / 1000000000000000). { assert (INR (S lg) <= 11) by (replace 11 with (INR 11) by (simpl; lra); apply le_INR; lia). unfold ep. lra. }
  assert (Ei2 : (37 / 1000 + INR (S lg) * ep * 131072) / s2 lg < 1 / 2).
  { apply (Rmult_lt_reg_r (s2 lg)); [lra|]. unfold Rdiv at 1. rewrite Rmult_assoc, Rinv_l by lra. lra. }
  rewrite (round_apx F fin val A lg (zl G_) r _ out Hr Ei2 Lo); [rewrite pl_ofl by exact LG; reflexivity|].
  rewrite pl_ofl by exact LG. rewrite Forall_forall. intros v Hv. assert (X1 := sqnorm_coeff _ _ Hv). assert (X2 := sqnorm_nrm lg G_ LG). cbv zeta in X2.
  assert (X3 : nrm N (cc (pe G_)) * nrm N (cc (pe G_)) <= 4096 * 4096) by (apply Rmult_le_compat; try apply nrm_pos; lra). rewrite X2, <- mult_IZR in X3. apply le_IZR in X3. nia.
Qed.
End Rec.
