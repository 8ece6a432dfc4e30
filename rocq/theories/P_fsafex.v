(** P_fsafex.v -- ff_sampling in rounded arithmetic: one node of the recursion. *)
From Verif Require Import Base Ring Poly Spec SpecR SpecF M_xform P_xform M_codec P_codec M_float M_exact P_exact M_samp M_fft M_ntru P_ntru M_tree P_brv P_cplx P_fft P_tree P_treex P_gs P_sign P_norm P_l2 P_err P_ferr P_near P_float P_fmerge P_fnorm P_fgs P_ftree P_fsafe.
From Coq Require Import Ring_theory Ring Lra Psatz.
Open Scope R_scope.

Section Run.
Variable F : fops.
Variable fin : D F -> Prop.
Variable val : D F -> R.
Hypothesis A : accurate F fin val.
Notation C := (D F * D F)%type.
Notation d := (c0 F).
Notation cv := (cv F val).
Notation X := (X F val).
Notation apx := (apx F fin val).
Notation vfin := (vfin F fin).
Notation cfin := (cfin F fin).
Notation int_apx := (int_apx F fin val).
Variable ztab : list C.
Hypothesis HZ : table_near F fin val ztab.
Variable fuel : nat.
Variable smin : D F.
Variable g : rng_t.
Variable T : list C.
Notation run h lvl t0 t1 off pos := (ff_sampling F ztab fuel h lvl t0 t1 T off smin g pos).

(** the run of a subtree from float inputs whose polynomial q is within al of the real polynomial p *)
Definition cl (h lvl off : nat) (dv : nat -> R) (W k M : R) : Prop := forall (p q : cpv (2 ^ S h)) (t0 t1 : list C) al pos,
  creal p -> vfin (2 ^ h) t0 -> vfin (2 ^ h) t1 -> (forall i, (i < 2 ^ h)%nat -> X t0 i = @ev h (pev Cx Czero q) i) -> (forall i, (i < 2 ^ h)%nat -> X t1 i = @ev h (pod Cx Czero q) i) ->
  wn (2 ^ S h) dv (fun i => Csub (ev q i) (ev p i)) <= al -> al <= 100000 -> nrm (2 ^ S h) (ev p) <= M ->
  run h lvl t0 t1 off pos <> UB /\ forall z0 z1 pos', run h lvl t0 t1 off pos = Ok (z0, z1, pos') ->
    exists a0 a1 : zpv (2 ^ h), int_apx h z0 a0 /\ int_apx h z1 a1 /\ wn (2 ^ S h) dv (fun i => Csub (ev p i) (@ev (S h) (pint (emb a0) (emb a1)) i)) <= W + k * al.

Lemma vfin_apx0 n l y : vfin n l -> (forall i, (i < n)%nat -> X l i = y i) -> apx n l y 0.
Proof.
  intros V H. split; [exact V|]. rewrite (nrm_ext n _ (fun _ => Czero)) by (intros i Hi; rewrite H by exact Hi; apply Cx_eq; cx; ring).
  eapply Rle_trans; [apply (nrm_sup n _ 0 (Rle_refl _)); intros; rewrite Cm_zero; lra|]. lra.
Qed.
Lemma nrm_minus n f h : nrm n f <= nrm n h + nrm n (fun i => Csub (h i) (f i)).
Proof.
  eapply Rle_trans; [apply (nrm_le_add n f h)|]. right. f_equal. unfold nrm, rn. f_equal. apply Rsigma_ext. intros i Hi. f_equal; (unfold Cm; f_equal; unfold mod2, Csub; cbn [fst snd]; ring).
Qed.
Lemma wn_sub_tri n w (a b c : nat -> Cx) : wn n w (fun i => Csub (a i) (c i)) <= wn n w (fun i => Csub (a i) (b i)) + wn n w (fun i => Csub (b i) (c i)).
Proof. eapply Rle_trans; [|apply wn_tri]. right. apply wn_ext. intros i Hi. apply Cx_eq; cx; ring. Qed.
Lemma nrm_sub_tri n (a b c : nat -> Cx) : nrm n (fun i => Csub (a i) (c i)) <= nrm n (fun i => Csub (a i) (b i)) + nrm n (fun i => Csub (b i) (c i)).
Proof. eapply Rle_trans; [|apply nrm_tri]. right. apply nrm_ext. intros i Hi. apply Cx_eq; cx; ring. Qed.

Lemma node_run h lvl off da db (l : list C) (pl : cpv (2 ^ S h)) ka Lm lam W k M0 M1 :
  (S h <= 10)%nat -> inr (2 ^ S h) da -> inr (2 ^ S h) db -> rds T off (2 ^ S h) = Ok l -> vfin (2 ^ S h) l -> herm pl ->
  0 <= ka -> 0 <= lam -> 1 <= Lm <= 70000 -> 0 <= W -> 0 <= k ->
  (forall i, (i < 2 ^ S h)%nat -> sqrt (da i) * Cm (Csub (X l i) (ev pl i)) <= ka * sqrt (db i)) ->
  (forall i, (i < 2 ^ S h)%nat -> Cm (X l i) <= Lm) -> (forall i, (i < 2 ^ S h)%nat -> Cm (ev pl i) <= lam * sqrt (db i)) ->
  cl h (S lvl) (off + 2 ^ lvl * 2 ^ S h + 2 ^ h) db W k M1 -> cl h (S lvl) (off + 2 ^ lvl * 2 ^ S h) da W k (M0 + lam * 2700000) ->
  forall (p0 p1 q0 q1 : cpv (2 ^ S h)) (t0 t1 : list C) x y pos, let ep' := Lm / 18 in
  herm p0 -> herm p1 -> nrm (2 ^ S h) (ev p0) <= M0 -> nrm (2 ^ S h) (ev p1) <= M1 -> vfin (2 ^ S h) t0 -> vfin (2 ^ S h) t1 ->
  (forall i, (i < 2 ^ S h)%nat -> X t0 i = ev q0 i) -> (forall i, (i < 2 ^ S h)%nat -> X t1 i = ev q1 i) -> nrm (2 ^ S h) (ev q0) <= 400000000 -> nrm (2 ^ S h) (ev q1) <= 400000000 ->
  wn (2 ^ S h) db (fun i => Csub (ev q1 i) (ev p1 i)) <= y -> wn (2 ^ S h) da (fun i => Cadd (Csub (ev q0 i) (ev p0 i)) (Cmul (Csub (ev q1 i) (ev p1 i)) (ev pl i))) <= x ->
  y + ep' <= 100000 -> W + k * (y + ep') <= 2700000 -> x + ka * (y + (W + k * (y + ep'))) + ep' <= 100000 ->
  run (S h) lvl t0 t1 off pos <> UB /\ forall z0 z1 pos', run (S h) lvl t0 t1 off pos = Ok (z0, z1, pos') ->
    exists a0 a1 : zpv (2 ^ S h), int_apx (S h) z0 a0 /\ int_apx (S h) z1 a1 /\
      wn (2 ^ S h) db (fun i => Csub (ev p1 i) (ev (emb a1) i)) <= W + k * (y + ep') /\
      wn (2 ^ S h) da (fun i => Cadd (Csub (ev p0 i) (ev (emb a0) i)) (Cmul (Csub (ev p1 i) (ev (emb a1) i)) (ev pl i))) <= W + k * (x + ka * (y + (W + k * (y + ep'))) + ep').
Proof.
  intros Hh Ia Ib Rl Fl Hpl Hka Hlam HLm HW Hk Kl Ll Lpl CR CL p0 p1 q0 q1 t0 t1 x y pos ep' Hp0 Hp1 N0 N1 V0 V1 E0 E1 Q0 Q1 Hy Hx B1 B2 B3.
  set (N := (2 ^ S h)%nat) in *. assert (U := ulp_val). assert (T0 := tiny_pos). assert (T1 := tiny_30).
  assert (Big : 10 ^ 13 <= big) by (unfold big; apply Rle_pow; [lra|lia]). replace (10 ^ 13) with 10000000000000 in Big by (simpl; lra).
  assert (y0 : 0 <= y) by (eapply Rle_trans; [apply wn_pos|exact Hy]).
  cbn [ff_sampling]. fold N. rewrite Rl. cbn [bind]. rewrite !(half_pow2 h : (N / 2)%nat = (2 ^ h)%nat).
  (* the right half *)
  destruct (split_poly F fin val A ztab HZ h t1 (fresh F (2 ^ h)) (fresh F (2 ^ h)) q1 400000000 Hh V1 E1 Q1 ltac:(lra) (repeat_length _ _) (repeat_length _ _)) as (u0 & u1 & q1' & ES & Vu0 & Vu1 & Eu0 & Eu1 & S1).
  rewrite ES. cbn [bind]. fold N in S1.
  assert (W1 : wn N db (fun i => Csub (ev q1' i) (ev p1 i)) <= y + ep').
  { eapply Rle_trans; [apply (wn_sub_tri _ _ _ (ev q1))|]. assert (G := wn_nrm N db (fun i => Csub (ev q1' i) (ev q1 i)) Ib). unfold ep'. lra. }
  destruct (CR p1 q1' u0 u1 (y + ep') pos (herm_real _ _ Hh Hp1) Vu0 Vu1 Eu0 Eu1 W1 B1 N1) as [UR OR]. clear CR.
  destruct (run h (S lvl) u0 u1 (off + 2 ^ lvl * N + 2 ^ h) pos) as [[[zr0 zr1] pr]| |]; [|contradiction UR; reflexivity|cbn [bind]; split; [discriminate|intros ? ? ? H; discriminate H]]. clear UR. cbn [bind].
  destruct (OR zr0 zr1 pr eq_refl) as (a & b & Ia' & Ib' & WR). clear OR.
  destruct (merge_int' F fin val A ztab HZ h zr0 zr1 (fresh F N) a b Hh Ia' Ib' (repeat_length _ _)) as (m1 & a1 & EM & Ea1 & I1). rewrite EM. cbn [bind].
  set (Y := W + k * (y + ep')) in *. assert (WA : wn N db (fun i => Csub (ev p1 i) (ev (emb a1) i)) <= Y).
  { eapply Rle_trans; [|exact WR]. right. apply wn_ext. intros i Hi. change (@ev (S h) (@emb N a1) i) with (@ev (S h) (@emb (2 ^ S h) a1) i). rewrite Ea1. reflexivity. }
  (* the correction *)
  assert (D1 : nrm N (fun i => Csub (ev p1 i) (ev (emb a1) i)) <= 918000) by (eapply Rle_trans; [apply (nrm_wn N db _ Ib)|]; lra).
  assert (ep0 : 0 <= ep') by (unfold ep'; lra).
  assert (D2 : nrm N (fun i => Csub (ev q1 i) (ev p1 i)) <= 34000) by (eapply Rle_trans; [apply (nrm_wn N db _ Ib)|]; lra).
  assert (D3 : nrm N (fun i => Csub (ev q1 i) (ev (emb a1) i)) <= 952000) by (eapply Rle_trans; [apply (nrm_sub_tri _ _ (ev p1))|]; lra).
  assert (D4 : nrm N (ev (emb a1)) <= 401000000) by (eapply Rle_trans; [apply (nrm_minus N _ (ev q1))|]; lra).
  assert (AZ : apx N m1 (ev (emb a1)) (81 / 10000000)).
  { assert (I1a := proj1 I1). eapply apx_weak; [exact I1a|]. fold N. change (@emb (2 ^ S h) a1) with (@emb N a1). destruct (xh_bound (S h) Hh) as [_ Xh]. destruct (lg_ep (S h) Hh) as [L0 L1]. assert (P0 := nrm_pos N (ev (emb a1))). assert (E20 : 1 / 10 ^ 20 = 1 / 100000000000000000000) by (simpl; lra). rewrite E20 in Xh.
    assert (G : INR (S h) * ep * nrm N (ev (emb a1)) <= 2 / 100000000000000 * 401000000) by (apply Rmult_le_compat; assumption).
    eapply Rle_trans; [apply Rplus_le_compat; [exact G|exact Xh]|]. lra. }
  assert (A1 := vfin_apx0 N t1 _ V1 E1). assert (A0 := vfin_apx0 N t0 _ V0 E0). assert (AL := vfin_apx0 N l (X l) Fl (fun i Hi => eq_refl)).
  destruct (sub_apx F fin val A (S h) t1 m1 (ev q1) (ev (emb a1)) 0 (81 / 10000000) 400000000 401000000 (fresh F N) A1 AZ Q1 D4 ltac:(lra) ltac:(lra) (repeat_length _ _)) as (m2 & EB & A2). fold N in A2. rewrite EB. cbn [bind].
  assert (A2' : apx N m2 (fun i => Csub (ev q1 i) (ev (emb a1) i)) (82 / 10000000)) by (eapply apx_weak; [exact A2|]; rewrite U; clear - D3; set (zz := nrm N _) in *; lra). clear A2.
  destruct (mul_apx F fin val A (S h) m2 l _ (X l) (82 / 10000000) 0 952000 Lm (fresh F N) Hh A2' AL D3 Ll ltac:(lra) ltac:(lra) ltac:(lra) ltac:(lra) ltac:(lra) (repeat_length _ _)) as (m3 & EC & A3). fold N in A3. rewrite EC. cbn [bind].
  assert (A3' : apx N m3 (fun i => Cmul (Csub (ev q1 i) (ev (emb a1) i)) (X l i)) (83 / 10000000 * Lm)) by (eapply apx_weak; [exact A3|]; rewrite U; lra). clear A3.
  assert (D5 : nrm N (fun i => Cmul (Csub (ev q1 i) (ev (emb a1) i)) (X l i)) <= 952000 * Lm).
  { eapply Rle_trans; [apply (nrm_mul N _ _ Lm); [lra|exact Ll]|]. rewrite Rmult_comm. apply Rmult_le_compat_r; lra. }
  destruct (add_apx F fin val A (S h) t0 m3 (ev q0) _ 0 (83 / 10000000 * Lm) 400000000 (952000 * Lm) m2 A0 A3' Q0 D5 ltac:(lra) ltac:(lra) ltac:(apply A2')) as (m4 & ED & A4). fold N in A4. rewrite ED. cbn [bind].
  assert (A4' : apx N m4 (fun i => Cadd (ev q0 i) (Cmul (Csub (ev q1 i) (ev (emb a1) i)) (X l i))) (84 / 10000000 * Lm)) by (eapply apx_weak; [exact A4|]; rewrite U; lra). clear A4.
  destruct (ft_surj (S h) (tab N (X m4)) Hh (tab_length _ _)) as [q2 Eq2].
  assert (V2 : forall i, (i < N)%nat -> X m4 i = ev q2 i). { intros i Hi. rewrite <- (nth_ft (S h) q2 i Hi), <- Eq2. symmetry. exact (nth_tab N (X m4) i Czero Hi). }
  destruct A4' as [V4 A4]. rewrite (nrm_ext N _ (fun i => Csub (ev q2 i) (Cadd (ev q0 i) (Cmul (Csub (ev q1 i) (ev (emb a1) i)) (X l i))))) in A4 by (intros i Hi; rewrite V2 by exact Hi; reflexivity).
  set (QQ := fun i => Cadd (ev q0 i) (Cmul (Csub (ev q1 i) (ev (emb a1) i)) (X l i))) in *.
  assert (D6 : nrm N QQ <= 400000000 + 952000 * Lm) by (eapply Rle_trans; [apply nrm_tri|]; lra).
  assert (D7 : nrm N (ev q2) <= 400000000 + 952001 * Lm) by (eapply Rle_trans; [apply (nrm_le_add N _ QQ)|]; eapply Rle_trans; [apply Rplus_le_compat; [exact D6|exact A4]|]; lra).
  (* the left half *)
  destruct (split_poly F fin val A ztab HZ h m4 (fresh F (2 ^ h)) (fresh F (2 ^ h)) q2 (400000000 + 952001 * Lm) Hh V4 V2 D7 ltac:(lra) (repeat_length _ _) (repeat_length _ _)) as (v0 & v1 & q2' & ES' & Vv0 & Vv1 & Ev0 & Ev1 & S2).
  rewrite ES'. cbn [bind]. fold N in S2.
  set (p0' := cpadd p0 (cpmul (cpsub p1 (emb a1)) pl)).
  assert (Hp' : herm p0') by (apply herm_add; [exact Hp0|]; apply herm_mul; [|exact Hpl]; apply herm_sub; [exact Hp1|apply herm_emb]).
  assert (WM : wn N db (fun i => Csub (ev q1 i) (ev (emb a1) i)) <= y + Y) by (eapply Rle_trans; [apply (wn_sub_tri _ _ _ (ev p1))|]; lra).
  assert (W2 : wn N da (fun i => Csub (ev q2' i) (ev p0' i)) <= x + ka * (y + Y) + ep').
  { assert (G1 : wn N da (fun i => Csub (ev q2' i) (QQ i)) <= ep').
    { eapply Rle_trans; [apply (wn_nrm N da _ Ia)|]. assert (G := nrm_sub_tri N (ev q2') (ev q2) QQ). change (nrm N (fun i => Csub (ev q2 i) (QQ i)) <= 84 / 10000000 * Lm) in A4. unfold ep'. lra. }
    assert (G2 : wn N da (fun i => Cmul (Csub (ev q1 i) (ev (emb a1) i)) (Csub (X l i) (ev pl i))) <= ka * (y + Y)).
    { eapply Rle_trans; [apply (wn_le N N da db _ (fun i => Csub (ev q1 i) (ev (emb a1) i)) ka Hka eq_refl)|apply Rmult_le_compat_l; assumption].
      intros i Hi. rewrite Cm_mul. assert (G := Kl i Hi). assert (P := Cm_pos (Csub (ev q1 i) (ev (emb a1) i))). assert (G' := Rmult_le_compat_r _ _ _ P G). lra. }
    eapply Rle_trans; [|apply Rplus_le_compat; [apply Rplus_le_compat; [exact Hx|exact G2]|exact G1]]. eapply Rle_trans; [|apply Rplus_le_compat_r, wn_tri]. eapply Rle_trans; [|apply wn_tri].
    right. apply wn_ext. intros i Hi. unfold p0', QQ. rewrite ev_add, ev_mul, ev_sub.
    generalize (ev q2' i) (ev q0 i) (ev q1 i) (ev p0 i) (ev p1 i) (ev pl i) (ev (emb a1) i) (X l i). intros [? ?] [? ?] [? ?] [? ?] [? ?] [? ?] [? ?] [? ?]. apply Cx_eq; cx; ring. }
  assert (N2 : nrm N (ev p0') <= M0 + lam * 2700000).
  { rewrite (nrm_ext N _ (fun i => Cadd (ev p0 i) (Cmul (Csub (ev p1 i) (ev (emb a1) i)) (ev pl i)))) by (intros i Hi; unfold p0'; rewrite ev_add, ev_mul, ev_sub; reflexivity).
    eapply Rle_trans; [apply nrm_tri|]. apply Rplus_le_compat; [exact N0|]. apply Rle_trans with (lam * Y); [|apply Rmult_le_compat_l; lra].
    eapply Rle_trans; [|apply Rmult_le_compat_l; [exact Hlam|exact WA]]. unfold nrm, wn. rewrite <- rn_scal by exact Hlam. apply rn_mono. intros i Hi. split; [apply Cm_pos|].
    rewrite Cm_mul. assert (G := Lpl i Hi). assert (P := Cm_pos (Csub (ev p1 i) (ev (emb a1) i))). assert (G' := Rmult_le_compat_l _ _ _ P G). lra. }
  destruct (CL p0' q2' v0 v1 (x + ka * (y + Y) + ep') pr (herm_real _ _ Hh Hp') Vv0 Vv1 Ev0 Ev1 W2 B3 N2) as [UL OL]. clear CL.
  destruct (run h (S lvl) v0 v1 (off + 2 ^ lvl * N) pr) as [[[zl0 zl1] pf]| |]; [|contradiction UL; reflexivity|cbn [bind]; split; [discriminate|intros ? ? ? H; discriminate H]]. clear UL. cbn [bind].
  destruct (OL zl0 zl1 pf eq_refl) as (a' & b' & Ja & Jb & WL). clear OL.
  destruct (merge_int' F fin val A ztab HZ h zl0 zl1 (fresh F N) a' b' Hh Ja Jb (repeat_length _ _)) as (m0 & a0 & EM' & Ea0 & I0). rewrite EM'. cbn [bind].
  split; [discriminate|]. intros z0 z1 pos' H. exists a0, a1.
  assert (X0 := f_equal (fun r => match r with Ok (a, _, _) => a | _ => [] end) H). assert (X1 := f_equal (fun r => match r with Ok (_, a, _) => a | _ => [] end) H). cbv beta iota in X0, X1. rewrite <- X0, <- X1.
  split; [exact I0|]. split; [exact I1|]. split; [exact WA|]. eapply Rle_trans; [|exact WL]. right. apply wn_ext. intros i Hi. change (@ev (S h) (@emb N a0) i) with (@ev (S h) (@emb (2 ^ S h) a0) i). rewrite Ea0.
  unfold p0'. rewrite ev_add, ev_mul, ev_sub. set (zz := @ev (S h) (pint (emb a') (emb b')) i).
  assert (CE : forall u v w : Cx, Cadd (Csub u v) w = Csub (Cadd u w) v) by (intros [? ?] [? ?] [? ?]; apply Cx_eq; cx; ring). apply CE.
Qed.
End Run.
